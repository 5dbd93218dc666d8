(** * Proofs about interpolation in double arithmetic *)
From Coq Require Import Reals Lra Lia SpecFloat ZArith List Bool.
Import ListNotations.
From Flocq Require Import Core BinarySingleNaN.
From Verif Require Import Base RFacts StatusModel UtilModel UtilSpec UtilProofs FloatSpec FloatFacts FloatEcm FloatIntSpec.
Local Open Scope R_scope.

Lemma fmt_tiny : fmt tiny.
Proof. apply generic_format_bpow. unfold FLT_exp. lia. Qed.
(** Rounding, near zero too. *)
Lemma rnd_abs x : Rabs (rnd x - x) <= eps * Rabs x + bpow radix2 (-1021).
Proof.
  pose proof eps_pos as EP. pose proof (Rabs_pos x) as PX. pose proof (bpow_gt_0 radix2 (-1021)) as PB. destruct (Rle_or_lt tiny (Rabs x)) as [H|H].
  - pose proof (rnd_err x H). lra.
  - assert (T : Rabs (rnd x) <= tiny).
    { apply Rlt_le, Rabs_le_inv in H. apply Rabs_le. rewrite <- (rnd_id tiny fmt_tiny) at 2. rewrite <- (rnd_id (- tiny) (fmt_opp _ fmt_tiny)) at 1. split; now apply rnd_le. }
    assert (D : bpow radix2 (-1021) = 2 * tiny). { unfold tiny. change (-1021)%Z with (1 + -1022)%Z. rewrite bpow_plus. reflexivity. }
    assert (0 <= eps * Rabs x) by (apply Rmult_le_pos; lra). apply Rle_trans with (Rabs (rnd x) + Rabs x); [|lra].
    unfold Rminus. eapply Rle_trans; [apply Rabs_triang|]. rewrite Rabs_Ropp. lra.
Qed.
Lemma err1 e v w : Rabs (v - w) <= eps * Rabs w + e -> 0 <= e -> Rabs v <= 2 * Rabs w + e.
Proof.
  intros H E. pose proof eps_small. pose proof eps_pos. pose proof (Rabs_pos w). replace v with (w + (v - w)) by ring. eapply Rle_trans; [apply Rabs_triang|]. nra.
Qed.
(** A difference of two doubles, each at most [b]. *)
Lemma fsub_ok x y b : fin x -> fin y -> Rabs (fval x) <= b -> Rabs (fval y) <= b -> b <= bpow radix2 100 ->
  fin (nsub x y) /\ fval (nsub x y) = rnd (fval x - fval y) /\ Rabs (fval (nsub x y) - (fval x - fval y)) <= eps * Rabs (fval x - fval y).
Proof.
  intros Fx Fy Bx By HB. assert (H : Rabs (fval x - fval y) <= huge).
  { unfold Rminus. eapply Rle_trans; [apply Rabs_triang|]. rewrite Rabs_Ropp. apply Rle_trans with (bpow radix2 101); [|now apply bpow_le].
    change 101%Z with (1 + 100)%Z. rewrite bpow_plus. change (bpow radix2 1) with 2. lra. }
  destruct (fsub x y Fx Fy H) as [F V]. cbn [nsub SFNum]. split; [exact F|]. split; [exact V|]. rewrite V. apply sub_err; now apply fmt_val.
Qed.
Lemma rel_ex v w : Rabs (v - w) <= eps * Rabs w -> exists d, Rabs d <= eps /\ v = w * (1 + d).
Proof.
  intros H. pose proof eps_pos. destruct (Req_dec w 0) as [->|N].
  - exists 0. rewrite Rabs_R0 in *. split; [lra|]. rewrite Rmult_0_r, Rminus_0_r in H. pose proof (Rabs_pos v). assert (E : Rabs v = 0) by lra.
    apply Rabs_eq_R0 in E. lra.
  - exists ((v - w) / w). split; [|now field]. unfold Rdiv. rewrite Rabs_mult, Rabs_inv. assert (P : 0 < Rabs w) by now apply Rabs_pos_lt.
    apply Rmult_le_reg_r with (Rabs w); [exact P|]. rewrite Rmult_assoc, Rinv_l, Rmult_1_r; [exact H|lra].
Qed.
Lemma ratio_err d1 d2 d3 : Rabs d1 <= eps -> Rabs d2 <= eps -> Rabs d3 <= eps -> Rabs ((1 + d1) * (1 + d2) / (1 + d3) - 1) <= 4 * eps.
Proof.
  intros A B D. pose proof eps_pos as P. pose proof eps_small as Q. apply Rabs_le_inv in A, B, D. assert (L : 0 < 1 + d3) by lra.
  assert (E : (1 + d1) * (1 + d2) / (1 + d3) - 1 = (d1 + d2 + d1 * d2 - d3) / (1 + d3)) by (field; lra). rewrite E. unfold Rdiv. rewrite Rabs_mult, Rabs_inv, (Rabs_pos_eq (1 + d3)) by lra.
  apply Rmult_le_reg_r with (1 + d3); [exact L|]. rewrite Rmult_assoc, Rinv_l, Rmult_1_r by lra. apply Rabs_le. split; nra.
Qed.
Lemma bpow_neg_small : bpow radix2 (-100) <= / 1000000.
Proof. apply Rle_trans with (bpow radix2 (-20)); [apply bpow_le; lia|]. cbn. lra. Qed.
Lemma scales B : bpow radix2 (-800) <= B -> bpow radix2 (-920) <= eps * B / 1000000 /\ bpow radix2 (-1021) <= eps * B / 1000000.
Proof.
  intros H. assert (K : bpow radix2 (-920) <= eps * B / 1000000).
  { assert (bpow radix2 (-920) <= bpow radix2 (-873)) by (apply bpow_le; lia). assert (E : bpow radix2 (-873) = bpow radix2 (-53) * bpow radix2 (-800) * bpow radix2 (-20)) by (rewrite <- !bpow_plus; reflexivity).
    assert (T : bpow radix2 (-20) <= / 1000000) by (cbn; lra). rewrite <- eps_bpow in E. pose proof eps_pos. pose proof (bpow_gt_0 radix2 (-800)). pose proof (bpow_gt_0 radix2 (-20)).
    apply Rle_trans with (1 := H0). rewrite E. unfold Rdiv. apply Rmult_le_compat; [nra|lra|nra|exact T]. }
  split; [exact K|]. apply Rle_trans with (2 := K). apply bpow_le. lia.
Qed.
Lemma chord_double B xl yl xr yr x : fin xl -> fin yl -> fin xr -> fin yr -> fin x ->
  Rabs (fval xl) <= bpow radix2 100 -> Rabs (fval xr) <= bpow radix2 100 -> Rabs (fval yl) <= B -> Rabs (fval yr) <= B ->
  bpow radix2 (-100) <= fval xr - fval xl -> fval xl <= fval x <= fval xr -> bpow radix2 (-800) <= B <= bpow radix2 100 ->
  fin (chord xl yl xr yr x) /\
  Rabs (fval (chord xl yl xr yr x) - (fval yl + (fval yr - fval yl) * (fval x - fval xl) / (fval xr - fval xl))) <= 16 * eps * B /\
  fval (chord xl yl xr yr x) = rnd (fval yl + rnd (rnd (rnd (fval yr - fval yl) * rnd (fval x - fval xl)) / rnd (fval xr - fval xl))).
Proof.
  intros Fxl Fyl Fxr Fyr Fx Bxl Bxr Byl Byr G X [B1 B2]. pose proof eps_pos as EP. pose proof eps_small as ES.
  assert (Bx : Rabs (fval x) <= bpow radix2 100) by (apply Rabs_le_inv in Bxl, Bxr; apply Rabs_le; lra).
  destruct (fsub_ok yr yl B Fyr Fyl Byr Byl B2) as (Fd & Vd & Ed). destruct (fsub_ok x xl _ Fx Fxl Bx Bxl (Rle_refl _)) as (Fe & Ve & Ee).
  destruct (fsub_ok xr xl _ Fxr Fxl Bxr Bxl (Rle_refl _)) as (Fg & Vg & Eg). unfold chord.
  set (d := nsub yr yl) in *. set (e := nsub x xl) in *. set (g := nsub xr xl) in *.
  destruct (rel_ex _ _ Ed) as (d1 & D1 & Rd). destruct (rel_ex _ _ Ee) as (d2 & D2 & Re). destruct (rel_ex _ _ Eg) as (d3 & D3 & Rg).
  pose proof (bpow_gt_0 radix2 (-100)) as P100. pose proof (bpow_gt_0 radix2 (-800)) as P800. destruct (scales B B1) as [S1 S2].
  set (D := fval yr - fval yl) in *. set (E := fval x - fval xl) in *. set (G0 := fval xr - fval xl) in *.
  assert (BD : Rabs D <= 2 * B) by (unfold D, Rminus; eapply Rle_trans; [apply Rabs_triang|]; rewrite Rabs_Ropp; lra).
  assert (RE : 0 <= E <= G0) by (unfold E, G0; lra). assert (PG : 0 < G0) by lra. assert (UG : G0 <= 2 * bpow radix2 100) by (unfold G0; apply Rabs_le_inv in Bxl, Bxr; lra).
  set (w := D * E / G0). assert (Q : 0 <= E / G0 <= 1). { split; [apply Rle_mult_inv_pos; lra|]. apply Rmult_le_reg_r with G0; [exact PG|]. unfold Rdiv. rewrite Rmult_assoc, Rinv_l; lra. }
  assert (Bw : Rabs w <= 2 * B). { unfold w, Rdiv. rewrite Rmult_assoc. change (E * / G0) with (E / G0). rewrite Rabs_mult, (Rabs_pos_eq (E / G0)) by lra. pose proof (Rabs_pos D). nra. }
  assert (Bs : Rabs (fval yl + w) <= B).
  { replace (fval yl + w) with ((1 - E / G0) * fval yl + (E / G0) * fval yr) by (unfold w, D; field; lra). apply Rabs_le_inv in Byl, Byr. apply Rabs_le. split; nra. }
  pose proof (ratio_err d1 d2 d3 D1 D2 D3) as Ht. set (t := (1 + d1) * (1 + d2) / (1 + d3)) in *.
  apply Rabs_le_inv in D1, D2, D3. assert (PG3 : G0 / 2 <= fval g) by (rewrite Rg; nra).
  assert (Wt : fval d * fval e / fval g = w * t) by (rewrite Rd, Re, Rg; unfold w, t; field; lra).
  assert (M : Rabs (fval d * fval e) <= huge).
  { assert (Rabs (fval d) <= 4 * B). { rewrite Rd, Rabs_mult. assert (Rabs (1 + d1) <= 2) by (apply Rabs_le; lra). pose proof (Rabs_pos D). pose proof (Rabs_pos (1 + d1)). nra. }
    assert (Rabs (fval e) <= 4 * bpow radix2 100). { rewrite Re, Rabs_mult, (Rabs_pos_eq E), (Rabs_pos_eq (1 + d2)) by lra. nra. }
    rewrite Rabs_mult. apply Rle_trans with (4 * bpow radix2 100 * (4 * bpow radix2 100)); [apply Rmult_le_compat; try apply Rabs_pos; lra|].
    replace (4 * bpow radix2 100 * (4 * bpow radix2 100)) with (bpow radix2 4 * (bpow radix2 100 * bpow radix2 100)) by (change (bpow radix2 4) with 16; ring).
    rewrite <- !bpow_plus. now apply bpow_le. }
  destruct (fmul d e Fd Fe M) as [Fp Vp]. change (SFmul prec64 emax64 d e) with (nmul d e) in Fp, Vp. set (p := nmul d e) in *.
  pose proof (rnd_abs (fval d * fval e)) as Ep. rewrite <- Vp in Ep.
  assert (Pg : 0 < fval g) by lra.
  assert (Eq : Rabs (fval p / fval g - w * t) <= eps * Rabs (w * t) + bpow radix2 (-920)).
  { rewrite <- Wt. unfold Rdiv. rewrite <- Rmult_minus_distr_r, !Rabs_mult. rewrite !(Rabs_pos_eq (/ fval g)) by (apply Rlt_le, Rinv_0_lt_compat; exact Pg).
    assert (I : / fval g <= bpow radix2 101). { change 101%Z with (- (-101))%Z. rewrite bpow_opp. apply Rinv_le_contravar; [apply bpow_gt_0|]. change (-101)%Z with (-1 + -100)%Z. rewrite bpow_plus. change (bpow radix2 (-1)) with (/ 2). lra. }
    assert (I0 : 0 < / fval g) by now apply Rinv_0_lt_compat. rewrite <- Rabs_mult. apply Rle_trans with ((eps * Rabs (fval d * fval e) + bpow radix2 (-1021)) * / fval g); [apply Rmult_le_compat_r; lra|].
    rewrite Rmult_plus_distr_r, Rmult_assoc. apply Rplus_le_compat_l. change (-920)%Z with (-1021 + 101)%Z. rewrite bpow_plus. apply Rmult_le_compat_l; [apply bpow_ge_0|exact I]. }
  assert (T0 : Rabs t <= 1 + 4 * eps) by (apply Rabs_le_inv in Ht; apply Rabs_le; lra).
  assert (Bwt : Rabs (w * t) <= 2 * B * (1 + 4 * eps)) by (rewrite Rabs_mult; apply Rmult_le_compat; try apply Rabs_pos; lra).
  assert (Dwt : Rabs (w * t - w) <= 8 * eps * B). { replace (w * t - w) with (w * (t - 1)) by ring. rewrite Rabs_mult. apply Rle_trans with (2 * B * (4 * eps)); [|lra]. apply Rmult_le_compat; try apply Rabs_pos; lra. }
  assert (EB : 0 < eps * B) by (apply Rmult_lt_0_compat; lra). assert (EB2 : eps * (eps * B) <= eps * B / 1000000) by nra.
  assert (E1 : Rabs (fval p / fval g - w) <= (10 + / 1000) * (eps * B)).
  { replace (fval p / fval g - w) with ((fval p / fval g - w * t) + (w * t - w)) by ring. eapply Rle_trans; [apply Rabs_triang|]. nra. }
  assert (B3 : Rabs (fval p / fval g) <= 3 * B). { replace (fval p / fval g) with (w + (fval p / fval g - w)) by ring. eapply Rle_trans; [apply Rabs_triang|]. nra. }
  assert (Bh : bpow radix2 100 * 8 <= huge). { change 8 with (bpow radix2 3). rewrite <- bpow_plus. now apply bpow_le. }
  destruct (fdiv p g Fp Fg (Rgt_not_eq _ _ Pg)) as [Fq Vq]; [lra|]. change (SFdiv prec64 emax64 p g) with (ndiv p g) in Fq, Vq. set (q := ndiv p g) in *.
  pose proof (rnd_abs (fval p / fval g)) as E2. rewrite <- Vq in E2.
  assert (E3 : Rabs (fval q - w) <= (13 + / 100) * (eps * B)). { replace (fval q - w) with ((fval q - fval p / fval g) + (fval p / fval g - w)) by ring. eapply Rle_trans; [apply Rabs_triang|]. nra. }
  assert (B4 : Rabs (fval yl + fval q) <= B + (13 + / 100) * (eps * B)). { replace (fval yl + fval q) with ((fval yl + w) + (fval q - w)) by ring. eapply Rle_trans; [apply Rabs_triang|]. lra. }
  destruct (fadd yl q Fyl Fq) as [Fs Vs]; [nra|]. change (SFadd prec64 emax64 yl q) with (nadd yl q) in Fs, Vs. set (s := nadd yl q) in *. split; [exact Fs|].
  split; [|rewrite Vs, Vq, Vp, Vd, Ve, Vg; reflexivity].
  pose proof (add_err _ _ (fmt_val yl Fyl) (fmt_val q Fq)) as E4. rewrite <- Vs in E4.
  replace (fval s - (fval yl + w)) with ((fval s - (fval yl + fval q)) + (fval q - w)) by ring. eapply Rle_trans; [apply Rabs_triang|]. nra.
Qed.
Lemma nth_map {A B} (f : A -> B) (l : list A) i a : nth_error l i = Some a -> nth_error (map f l) i = Some (f a).
Proof. intros H. now apply map_nth_error. Qed.
Lemma nth_Forall {A} (P : A -> Prop) (l : list A) i a : Forall P l -> nth_error l i = Some a -> P a.
Proof. intros H E. rewrite Forall_forall in H. apply H. now apply nth_error_In in E. Qed.

Lemma linInt_near B xs ys x a b bound : double_table B xs ys -> ends xs a b -> fin x -> fval a <= fval x <= fval b ->
  exists y e, linInt bound xs ys (Z.of_nat (length xs)) x false = Ok y /\ fin y /\ on_polyline (map fval xs) (map fval ys) (fval x) e /\
    Rabs (fval y - e) <= 16 * eps * B.
Proof.
  intros (Hlen & H2 & Fx & Fy & Bx & By & Hinc & Sep & HB) [Ha Hb] Fq Hx. assert (Fa := nth_Forall _ _ _ _ Fx Ha). assert (Fb := nth_Forall _ _ _ _ Fx Hb). cbn beta in Fa, Fb.
  assert (Hab : fval a < fval b) by (apply (Hinc 0%nat (length xs - 1)%nat); [lia| |]; now apply nth_map).
  assert (PB : 0 <= 16 * eps * B). { pose proof eps_pos. pose proof (bpow_gt_0 radix2 (-800)). apply Rmult_le_pos; lra. }
  assert (N1 : (x <? a)%num = false) by (apply (fltb_false x a); [exact Fq|exact Fa|lra]). assert (N2 : (b <? x)%num = false) by (apply (fltb_false b x); [exact Fb|exact Fq|lra]).
  destruct (Req_dec (fval x) (fval a)) as [Ea|Na].
  - destruct (nth_error ys 0) as [y|] eqn:Y; [|apply nth_error_None in Y; lia]. exists y, (fval y).
    split; [apply (linInt_clamp_low xs ys x a b y); auto; apply (fleb x a); auto; lra|]. split; [exact (nth_Forall _ _ _ _ Fy Y)|]. split; [|now rewrite Rminus_diag_eq, Rabs_R0].
    destruct (nth_error xs 1) as [x1|] eqn:X1; [|apply nth_error_None in X1; lia]. destruct (nth_error ys 1) as [y1|] eqn:Y1; [|apply nth_error_None in Y1; lia].
    exists 0%nat, (fval a), (fval x1), (fval y), (fval y1). rewrite (nth_map _ _ _ _ Ha), (nth_map _ _ _ _ X1), (nth_map _ _ _ _ Y), (nth_map _ _ _ _ Y1).
    assert (fval a < fval x1) by (apply (Hinc 0%nat 1%nat); [lia| |]; now apply nth_map). rewrite Ea. repeat split; try lra.
  - assert (L1 : (x <=? a)%num = false) by (destruct (x <=? a)%num eqn:L; [apply (fleb x a Fq Fa) in L; lra|reflexivity]). destruct (Req_dec (fval x) (fval b)) as [Eb|Nb].
    + destruct (nth_error ys (length ys - 1)) as [y|] eqn:Y; [|apply nth_error_None in Y; lia]. exists y, (fval y).
      split; [apply (linInt_clamp_high xs ys x a b y); auto; apply (fleb b x); auto; lra|]. split; [exact (nth_Forall _ _ _ _ Fy Y)|]. split; [|now rewrite Rminus_diag_eq, Rabs_R0].
      destruct (nth_error xs (length xs - 2)) as [x1|] eqn:X1; [|apply nth_error_None in X1; lia]. destruct (nth_error ys (length xs - 2)) as [y1|] eqn:Y1; [|apply nth_error_None in Y1; lia].
      exists (length xs - 2)%nat, (fval x1), (fval b), (fval y1), (fval y). replace (Datatypes.S (length xs - 2)) with (length xs - 1)%nat by lia. rewrite <- Hlen in Y.
      rewrite (nth_map _ _ _ _ Hb), (nth_map _ _ _ _ X1), (nth_map _ _ _ _ Y), (nth_map _ _ _ _ Y1).
      assert (fval x1 < fval b) by (apply (Hinc (length xs - 2)%nat (length xs - 1)%nat); [lia| |]; now apply nth_map). rewrite Eb. repeat split; lra.
    + assert (L2 : (b <=? x)%num = false) by (destruct (b <=? x)%num eqn:L; [apply (fleb b x Fb Fq) in L; lra|reflexivity]).
      assert (L3 : (a <? x)%num = true) by (apply (fltb a x Fa Fq); lra).
      destruct (linInt_interior_any bound xs ys x a b Hlen Ha Hb N1 N2 L1 L2 L3) as (i & xl & xr & yl & yr & I1 & I2 & I3 & I4 & I5 & I6 & I7).
      apply (fltb xl x (nth_Forall _ _ _ _ Fx I1) Fq) in I5. apply (fltb_false xr x (nth_Forall _ _ _ _ Fx I2) Fq) in I6. pose proof (Sep _ _ _ I1 I2) as G. pose proof (bpow_gt_0 radix2 (-100)) as P.
      destruct (chord_double B xl yl xr yr x) as (FC & EC & _); auto.
      * exact (nth_Forall _ _ _ _ Fx I1). * exact (nth_Forall _ _ _ _ Fy I3). * exact (nth_Forall _ _ _ _ Fx I2). * exact (nth_Forall _ _ _ _ Fy I4).
      * exact (nth_Forall _ _ _ _ Bx I1). * exact (nth_Forall _ _ _ _ Bx I2). * exact (nth_Forall _ _ _ _ By I3). * exact (nth_Forall _ _ _ _ By I4).
      * lra.
      * exists (chord xl yl xr yr x), (fval yl + (fval yr - fval yl) * (fval x - fval xl) / (fval xr - fval xl)). split; [exact I7|]. split; [exact FC|]. split; [|exact EC].
        exists i, (fval xl), (fval xr), (fval yl), (fval yr). rewrite (nth_map _ _ _ _ I1), (nth_map _ _ _ _ I2), (nth_map _ _ _ _ I3), (nth_map _ _ _ _ I4). repeat split; try lra. field. lra.
Qed.
(** ** Exact monotonicity inside an interval *)
Lemma mul_le_l a b c : 0 <= a -> b <= c -> a * b <= a * c.
Proof. intros. now apply Rmult_le_compat_l. Qed.
Lemma rnd_pos x : 0 <= x -> 0 <= rnd x.
Proof. intros H. rewrite <- rnd_0. now apply rnd_le. Qed.
Lemma rnd_neg x : x <= 0 -> rnd x <= 0.
Proof. intros H. rewrite <- rnd_0. now apply rnd_le. Qed.
Lemma chord_mono yl yr xl xr x1 x2 : xl <= x1 -> x1 <= x2 -> xl < xr ->
  let f x := rnd (yl + rnd (rnd (rnd (yr - yl) * rnd (x - xl)) / rnd (xr - xl))) in (yl <= yr -> f x1 <= f x2) /\ (yr <= yl -> f x2 <= f x1).
Proof.
  intros A B D f. unfold f. assert (G : 0 <= / rnd (xr - xl)). { assert (H : 0 <= rnd (xr - xl)) by (apply rnd_pos; lra). destruct H as [H|H]; [now apply Rlt_le, Rinv_0_lt_compat|]. rewrite <- H, Rinv_0. lra. }
  assert (E : rnd (x1 - xl) <= rnd (x2 - xl)) by (apply rnd_le; lra).
  split; intros Y; apply rnd_le, Rplus_le_compat_l, rnd_le; unfold Rdiv; apply Rmult_le_compat_r; try exact G; apply rnd_le.
  - apply mul_le_l; [apply rnd_pos; lra|exact E].
  - assert (H : rnd (yr - yl) <= 0) by (apply rnd_neg; lra). nra.
Qed.
Lemma inside B xs ys x a b bound i xl xr yl yr : double_table B xs ys -> ends xs a b -> fin x ->
  nth_error xs i = Some xl -> nth_error xs (S i) = Some xr -> nth_error ys i = Some yl -> nth_error ys (S i) = Some yr -> fval xl < fval x < fval xr ->
  exists y, linInt bound xs ys (Z.of_nat (length xs)) x false = Ok y /\
    fval y = rnd (fval yl + rnd (rnd (rnd (fval yr - fval yl) * rnd (fval x - fval xl)) / rnd (fval xr - fval xl))).
Proof.
  intros (Hlen & H2 & Fx & Fy & Bx & By & Hinc & Sep & HB) [Ha Hb] Fq J1 J2 J3 J4 Hx. assert (Fa := nth_Forall _ _ _ _ Fx Ha). assert (Fb := nth_Forall _ _ _ _ Fx Hb). cbn beta in Fa, Fb.
  assert (Li : (S i < length xs)%nat) by (apply nth_error_Some; congruence).
  assert (Hm : forall i j u v, (i <= j)%nat -> nth_error xs i = Some u -> nth_error xs j = Some v -> fval u <= fval v).
  { intros k j u v L U V. destruct (Nat.eq_dec k j) as [->|N]; [assert (u = v) by congruence; subst; lra|]. left. apply (Hinc k j); [lia| |]; now apply nth_map. }
  assert (Aa : fval a <= fval xl) by (apply (Hm 0%nat i); auto; lia). assert (Ab : fval xr <= fval b) by (apply (Hm (S i) (length xs - 1)%nat); auto; lia).
  assert (N1 : (x <? a)%num = false) by (apply (fltb_false x a); [exact Fq|exact Fa|lra]). assert (N2 : (b <? x)%num = false) by (apply (fltb_false b x); [exact Fb|exact Fq|lra]).
  assert (L1 : (x <=? a)%num = false) by (destruct (x <=? a)%num eqn:L; [apply (fleb x a Fq Fa) in L; lra|reflexivity]).
  assert (L2 : (b <=? x)%num = false) by (destruct (b <=? x)%num eqn:L; [apply (fleb b x Fb Fq) in L; lra|reflexivity]).
  assert (L3 : (a <? x)%num = true) by (apply (fltb a x Fa Fq); lra).
  destruct (linInt_interior_any bound xs ys x a b Hlen Ha Hb N1 N2 L1 L2 L3) as (k & ul & ur & vl & vr & I1 & I2 & I3 & I4 & I5 & I6 & I7).
  apply (fltb ul x (nth_Forall _ _ _ _ Fx I1) Fq) in I5. apply (fltb_false ur x (nth_Forall _ _ _ _ Fx I2) Fq) in I6.
  assert (k = i) as ->. { destruct (lt_eq_lt_dec k i) as [[L|L]|L]; [exfalso|exact L|exfalso]. - pose proof (Hm (S k) i _ _ ltac:(lia) I2 J1). lra. - pose proof (Hm (S i) k _ _ ltac:(lia) J2 I1). lra. }
  replace ul with xl in * by congruence. replace ur with xr in * by congruence. replace vl with yl in * by congruence. replace vr with yr in * by congruence.
  exists (chord xl yl xr yr x). split; [exact I7|]. apply (chord_double B); auto.
  all: try exact (nth_Forall _ _ _ _ Fx I1); try exact (nth_Forall _ _ _ _ Fx I2); try exact (nth_Forall _ _ _ _ Fy I3); try exact (nth_Forall _ _ _ _ Fy I4).
  all: try exact (nth_Forall _ _ _ _ Bx I1); try exact (nth_Forall _ _ _ _ Bx I2); try exact (nth_Forall _ _ _ _ By I3); try exact (nth_Forall _ _ _ _ By I4).
  - exact (Sep _ _ _ I1 I2). - lra.
Qed.
