(** * Lemmas about the OCV fit over the reals *)
From Coq Require Import Lra.
From Verif Require Import Base RFacts UtilModel UtilSpec UtilProofs FitModel FitSpec FitProofs.
Local Open Scope R_scope.

Definition sound (xs ys : list R) : Prop := length xs = length ys /\ (2 <= length xs)%nat /\ increasing xs.

Lemma lnx_R xs ys x : sound xs ys -> exists y s, linInt_noexcept true xs ys (Z.of_nat (length ys)) x false = Ok (y, s) /\
  (forall a b, nth_error xs 0 = Some a -> nth_error xs (length xs - 1) = Some b -> a <= x <= b -> s = 0%Z /\ on_polyline xs ys x y).
Proof.
  intros (L & L2 & I). rewrite <- L.
  assert (X : exists a, nth_error xs 0 = Some a) by (destruct xs; cbn in *; [lia|eauto]). destruct X as (a & Ha).
  destruct (nth_error_last_some xs) as (b & Hb); [destruct xs; cbn in *; [lia|discriminate]|].
  destruct (Rle_dec a x) as [H1|H1]; [destruct (Rle_dec x b) as [H2|H2]|].
  - destruct (linInt_polyline xs ys x a b true L L2 I Ha Hb (conj H1 H2)) as (y & E & H).
    unfold linInt in E. destruct (linInt_noexcept true xs ys (Z.of_nat (length xs)) x false) as [[y' s]|n| |]; try discriminate.
    cbn [rbind] in E. destruct (Z.eqb_spec s 0) as [E0|E0]; [|discriminate]. rewrite E0. injection E as ->. exists y, 0%Z. split; [reflexivity|]. auto.
  - exists 0, 1%Z. split.
    + unfold linInt_noexcept. rewrite (vget_0 xs a Ha). replace (Z.of_nat (length xs) - 1)%Z with (Z.of_nat (length xs - 1)) by lia.
      rewrite (vget_nat xs _ b Hb). cbn [rbind andb].
      assert (nltb x a = false) as -> by (apply Rltb_false; lra). assert (nltb b x = true) as -> by (apply Rltb_true; lra).
      now rewrite R_nZ.
    + intros a' b' Ha' Hb'. rewrite Ha in Ha'. rewrite Hb in Hb'. injection Ha' as <-. injection Hb' as <-. lra.
  - exists 0, (-1)%Z. split.
    + unfold linInt_noexcept. rewrite (vget_0 xs a Ha). replace (Z.of_nat (length xs) - 1)%Z with (Z.of_nat (length xs - 1)) by lia.
      rewrite (vget_nat xs _ b Hb). cbn [rbind andb].
      assert (nltb x a = true) as -> by (apply Rltb_true; lra). now rewrite R_nZ.
    + intros a' b' Ha' Hb'. rewrite Ha in Ha'. rewrite Hb in Hb'. injection Ha' as <-. injection Hb' as <-. lra.
Qed.

Section Cost.
Variables px py nx ny : list R.
Hypothesis Sp : sound px py.
Hypothesis Sn : sound nx ny.

Lemma cost_row_ok AMp AMn cmaxp cmaxn vend ah sp sn fin acc r :
  exists ah' sp' sn' fin' acc', cost_row px py nx ny AMp AMn cmaxp cmaxn vend (ah, sp, sn, fin, acc) r = Ok (ah', sp', sn', fin', acc') /\
  acc <= acc'.
Proof.
  destruct r as [x y]. unfold cost_row.
  assert (G : forall v : R, acc <= nadd acc (nmul (nsub y v) (nsub y v))) by (intros v; cbn [nadd nmul nsub RNum]; pose proof (Rle_0_sqr (y - v)); unfold Rsqr in *; lra).
  destruct fin.
  - cbn [rbind]. do 5 eexists. split; [reflexivity|apply G].
  - match goal with |- context [linInt_noexcept true px py _ ?u false] => destruct (lnx_R px py u Sp) as (op & s1 & E1 & _) end.
    match goal with |- context [linInt_noexcept true nx ny _ ?u false] => destruct (lnx_R nx ny u Sn) as (on & s2 & E2 & _) end.
    rewrite E1. cbn [rbind]. rewrite E2. cbn [rbind]. do 5 eexists. split; [reflexivity|apply G].
Qed.
Lemma cost_rows_ok AMp AMn cmaxp cmaxn vend : forall rows ah sp sn fin acc,
  exists e, cost_rows px py nx ny AMp AMn cmaxp cmaxn vend (ah, sp, sn, fin, acc) rows = Ok e /\ acc <= e.
Proof.
  induction rows as [|r rows IH]; intros ah sp sn fin acc.
  - exists acc. split; [reflexivity|lra].
  - destruct (cost_row_ok AMp AMn cmaxp cmaxn vend ah sp sn fin acc r) as (a1 & a2 & a3 & a4 & a5 & E & L).
    cbn [cost_rows]. rewrite E. cbn [rbind]. destruct (IH a1 a2 a3 a4 a5) as (e & H & L'). exists e. split; [exact H|lra].
Qed.

(** Value of the cost while both electrodes stay on their curves and the end voltage is not reached early. *)
Variables AMp AMn cmaxp cmaxn sp0 sn0 vend : R.
Hypothesis Rp : exists a b, nth_error px 0 = Some a /\ nth_error px (length px - 1) = Some b /\ a <= 0 /\ 1 <= b.
Hypothesis Rn : exists a b, nth_error nx 0 = Some a /\ nth_error nx (length nx - 1) = Some b /\ a <= 0 /\ 1 <= b.
Definition frac_p Q := sp0 + Q * 3600 / (96487 * AMp * cmaxp).
Definition frac_n Q := sn0 - Q * 3600 / (96487 * AMn * cmaxn).
Lemma cost_rows_value : AMp <> 0 -> AMn <> 0 -> cmaxp <> 0 -> cmaxn <> 0 -> forall xs ys vs ah acc,
  length xs = length ys ->
  Forall2 (ocv_after (px, py) (nx, ny) AMp AMn sp0 sn0 cmaxp cmaxn) xs vs ->
  (forall i v, nth_error vs i = Some v -> (S i < length vs)%nat -> vend < v) ->
  cost_rows px py nx ny AMp AMn cmaxp cmaxn vend (ah, frac_p ah, frac_n ah, false, acc) (combine xs ys) = Ok (acc + sq_dist ys vs).
Proof.
  intros N1 N2 N3 N4. induction xs as [|x xs IH]; intros ys vs ah acc L H HV.
  - inversion H; subst. destruct ys; [|discriminate]. cbn. now rewrite Rplus_0_r.
  - destruct ys as [|y ys]; [discriminate|]. inversion H as [|? v ? vs' Hv Ht]; subst. cbn [combine cost_rows].
    destruct Hv as (F1 & F2 & op & on & O1 & O2 & ->). cbn [fst snd] in *.
    assert (E1 : nadd (frac_p ah) (ndiv (ndiv (ndiv (nmul (nsub x ah) (nZ 3600)) (nmul (nZ 1) FARA)) AMp) cmaxp) = frac_p x).
    { unfold FARA. rewrite !R_nZ. unfold frac_p. cbn [nadd nsub nmul ndiv RNum]. field. auto. }
    assert (E2 : nsub (frac_n ah) (ndiv (ndiv (ndiv (nmul (nsub x ah) (nZ 3600)) (nmul (nZ 1) FARA)) AMn) cmaxn) = frac_n x).
    { unfold FARA. rewrite !R_nZ. unfold frac_n. cbn [nadd nsub nmul ndiv RNum]. field. auto. }
    unfold cost_row at 1. rewrite E1, E2. clear E1 E2.
    destruct (lnx_R px py (frac_p x) Sp) as (op' & s1 & A1 & A2). destruct (lnx_R nx ny (frac_n x) Sn) as (on' & s2 & B1 & B2).
    destruct Rp as (pa & pb & P1 & P2 & P3 & P4). destruct Rn as (na & nb & Q1 & Q2 & Q3 & Q4).
    fold (frac_p x) in F1, O1. fold (frac_n x) in F2, O2.
    destruct (A2 pa pb P1 P2) as (-> & A3); [lra|]. destruct (B2 na nb Q1 Q2) as (-> & B3); [lra|].
    assert (op' = op) as -> by (destruct Sp as (? & ? & ?); eapply on_polyline_unique; eauto).
    assert (on' = on) as -> by (destruct Sn as (? & ? & ?); eapply on_polyline_unique; eauto).
    rewrite A1. cbn [rbind]. rewrite B1. cbn [rbind]. cbn [Z.eqb negb orb].
    rewrite !R_nZ.
    assert (nltb (frac_p x) 0 = false) as -> by (apply Rltb_false; lra).
    assert (nltb 1 (frac_p x) = false) as -> by (apply Rltb_false; lra).
    assert (nltb (frac_n x) 0 = false) as -> by (apply Rltb_false; lra).
    assert (nltb 1 (frac_n x) = false) as -> by (apply Rltb_false; lra).
    rewrite !Bool.orb_false_r. cbn [sq_dist].
    destruct xs as [|x' xs].
    + cbn [combine cost_rows snd]. inversion Ht; subst. destruct ys; [|discriminate]. cbn [sq_dist].
      cbn [nadd nmul nsub RNum]. f_equal. ring.
    + assert (K : nleb (nsub op on) vend = false).
      { apply Rleb_false. inversion Ht; subst. cbn [nsub RNum]. apply (HV 0%nat); [reflexivity|cbn [length]; lia]. }
      rewrite K. rewrite (IH ys vs' x); [|cbn in L |- *; lia|exact Ht|].
      * cbn [nadd nmul nsub RNum]. f_equal. ring.
      * intros i v Hi Hl. apply (HV (S i)); [exact Hi|cbn [length]; lia].
Qed.
End Cost.

Lemma Forall2_len {X Y} (Q : X -> Y -> Prop) l l' : Forall2 Q l l' -> length l = length l'.
Proof. induction 1; cbn; congruence. Qed.

(** ** One level *)
Lemma R_lt_le (a b c : R) : True -> True -> True -> nltb a b = true -> nltb c b = false -> nltb a c = true.
Proof. intros _ _ _ H1 H2. apply Rltb_true in H1. apply Rltb_false in H2. apply Rltb_true. lra. Qed.
Lemma R_asym (a b : R) : True -> True -> nltb a b = true -> nltb b a = false.
Proof. intros _ _ H. apply Rltb_true in H. apply Rltb_false. lra. Qed.

Section Level.
Variable cost : par R -> res R.
Variable len : nat.
Hypothesis Hlen : (0 < len)%nat.
Hypothesis total : forall q, exists e, cost q = Ok e /\ 0 <= e.
Notation rmse e := (sqrt (e / INR len)).
Lemma len_pos : 0 < INR len.
Proof. now apply lt_0_INR. Qed.
Lemma rmse_lt a b : 0 <= a -> 0 <= b -> nltb (rmse a) (rmse b) = nltb a b.
Proof.
  intros Ha Hb. pose proof len_pos. pose proof (Rinv_0_lt_compat _ H) as Hi.
  destruct (nltb a b) eqn:E.
  - apply Rltb_true in E. apply Rltb_true. apply sqrt_lt_1; unfold Rdiv; nra.
  - apply Rltb_false in E. apply Rltb_false. apply sqrt_le_1; unfold Rdiv; nra.
Qed.
Lemma costed_all pts : costed (fun _ => True) cost pts.
Proof. intros q _. destruct (total q) as (e & H & _). eauto. Qed.
(** a result (parameters, root mean square error) with what was seen *)
Definition seenR (pts : list (par R)) (r : par R * R) : Prop :=
  exists e, 0 <= e /\ snd r = rmse e /\ seen (fun _ => True) cost sentinel pts (fst r, e).
Lemma sentinel_pos : 0 <= (sentinel : R).
Proof. unfold sentinel. rewrite R_nZ. lra. Qed.
Lemma seen_nonneg pts b : seen (fun _ => True) cost sentinel pts b -> 0 <= snd b.
Proof.
  intros (_ & [(-> & _)|(_ & F)]); [apply sentinel_pos|]. destruct (first_in _ _ _ _ F) as (_ & H).
  destruct (total (fst b)) as (e & E & P). congruence.
Qed.
Lemma fit_R par0 a amn sp sn : exists r, fit cost len par0 a amn sp sn = Ok r /\ seenR (grid3 a amn sp sn) r.
Proof.
  unfold fit. destruct (scan_start (fun _ => True) cost R_lt_le R_asym sentinel (grid3 a amn sp sn) par0 Logic.I (costed_all _)) as ((q & e) & S & H).
  rewrite S. cbn [rmap rbind]. eexists. split; [reflexivity|]. exists e. split; [exact (seen_nonneg _ _ H)|].
  split; [cbn [snd nsqrt ndiv RNum]; now rewrite R_nnat|exact H].
Qed.
Definition grid_of (amps : list R) amn sp sn : list (par R) := flat_map (fun a => grid3 a amn sp sn) amps.
Lemma fits_R amn sp sn : forall amps pars, (length amps <= length pars)%nat ->
  exists rs, fits cost len pars amps amn sp sn = Ok rs /\ Forall2 (fun a r => seenR (grid3 a amn sp sn) r) amps rs.
Proof.
  induction amps as [|a amps IH]; intros pars L.
  - exists []. split; [destruct pars; reflexivity|constructor].
  - destruct pars as [|q pars]; [cbn in L; lia|]. cbn [fits].
    destruct (fit_R q a amn sp sn) as (r & E & S). rewrite E. cbn [rbind].
    destruct (IH pars) as (rs & E2 & F); [cbn in L; lia|]. rewrite E2. cbn [rmap rbind]. exists (r :: rs). split; [reflexivity|].
    now constructor.
Qed.
Lemma seenR_app l1 l2 r1 r2 : seenR l1 r1 -> seenR l2 r2 -> seenR (l1 ++ l2) (if nltb (snd r2) (snd r1) then r2 else r1).
Proof.
  intros (e1 & N1 & E1 & S1) (e2 & N2 & E2 & S2). rewrite E1, E2, rmse_lt by assumption.
  pose proof (seen_app (fun _ => True) cost R_lt_le R_asym sentinel l1 l2 _ _ Logic.I (costed_all _) (costed_all _) S1 S2) as K.
  cbn [snd] in K. destruct (nltb e2 e1); eexists; eauto.
Qed.
Lemma min_R amn sp sn : forall amps rs dn b, Forall2 (fun a r => seenR (grid3 a amn sp sn) r) amps rs -> seenR dn b ->
  seenR (dn ++ grid_of amps amn sp sn) (min_from b rs).
Proof.
  induction amps as [|a amps IH]; intros rs dn b F S; inversion F; subst.
  - cbn. now rewrite app_nil_r.
  - cbn [min_from grid_of flat_map]. rewrite app_assoc. apply IH; [assumption|]. now apply seenR_app.
Qed.
Lemma grid_split s : grid s = grid_of (fd_list (sp_AMp s)) (sp_AMn s) (sp_sp s) (sp_sn s).
Proof. reflexivity. Qed.
Lemma level_R s pars : (length (fd_list (sp_AMp s)) <= length pars)%nat -> (1 <= fd_n (sp_AMp s))%Z ->
  exists r pars', level cost len s pars = Ok (r, pars') /\ seenR (grid s) r /\ length pars' = length (fd_list (sp_AMp s)).
Proof.
  intros L N. unfold level. rewrite grid_split.
  destruct (fits_R (sp_AMn s) (sp_sp s) (sp_sn s) (fd_list (sp_AMp s)) pars L) as (rs & E & F). rewrite E. cbn [rbind].
  assert (NE : (1 <= length (fd_list (sp_AMp s)))%nat) by (unfold fd_list; rewrite map_length, seq_length; lia).
  destruct (fd_list (sp_AMp s)) as [|a amps]; [cbn in NE; lia|]. inversion F as [|? r ? rs' Hr Hrs]; subst.
  do 2 eexists. split; [reflexivity|]. split.
  - cbn [grid_of flat_map]. now apply min_R.
  - rewrite map_length. cbn [length]. f_equal. symmetry. exact (Forall2_len _ _ _ Hrs).
Qed.
(** [r] is the best of the points [pts]. *)
Definition bestR (pts : list (par R)) (r : par R * R) : Prop :=
  exists e, snd r = rmse e /\ first_best cost pts (fst r) e.
Lemma seen_best pts r q e : seenR pts r -> In q pts -> cost q = Ok e -> e < sentinel -> bestR pts r.
Proof.
  intros (e' & N & E & (_ & [(E1 & H)|(_ & F)])) Hq Hc L.
  - destruct (H q Hq) as (e0 & C & L0). rewrite Hc in C. injection C as <-. apply Rltb_false in L0. lra.
  - exists e'. now split.
Qed.
Lemma seen_le pts r q e : seenR pts r -> In q pts -> cost q = Ok e -> snd r <= rmse e.
Proof.
  intros (e' & N & E & S) Hq Hc. rewrite E. assert (Ne : 0 <= e) by (destruct (total q) as (? & ? & ?); congruence).
  apply Rltb_false. rewrite rmse_lt by assumption. destruct S as (_ & [(E1 & H)|(_ & F)]).
  - cbn [snd] in E1. subst e'. destruct (H q Hq) as (e0 & C & L0). congruence.
  - destruct (first_all _ _ R_asym pts _ _ (costed_all _) F q Hq) as (e0 & C & L0). cbn [snd] in L0. congruence.
Qed.

(** ** Refinement *)
Lemma fd_in (d : FixedData R) x : In x (fd_list d) <-> exists i, (0 <= i < fd_n d)%Z /\ x = fd_min d + IZR i * fd_dx d.
Proof.
  unfold fd_list. rewrite in_map_iff. split.
  - intros (i & <- & H). apply in_seq in H. exists (Z.of_nat i). split; [lia|]. unfold fd_at. now rewrite R_nZ.
  - intros (i & H & ->). exists (Z.to_nat i). split; [|apply in_seq; lia]. unfold fd_at. rewrite Z2Nat.id by lia. now rewrite R_nZ.
Qed.
Lemma prev_R (d : FixedData R) x : fd_prev d x = x - fd_dx d.
Proof. unfold fd_prev, fd_at. cbn [fd_min fd_dx]. rewrite R_nZ. cbn [nadd nmul RNum]. lra. Qed.
Lemma next_R (d : FixedData R) x : fd_next d x = x + fd_dx d.
Proof. unfold fd_next, fd_at. cbn [fd_min fd_dx]. rewrite R_nZ. cbn [nadd nmul RNum]. lra. Qed.
Lemma linspace_R x1 x2 n : (2 <= n)%Z -> linspace_fix x1 x2 n = mkFD x1 ((x2 - x1) / IZR (n - 1)) n.
Proof.
  intros H. unfold linspace_fix. destruct (Z.ltb_spec n 1); [lia|]. destruct (Z.eqb_spec n 1); [lia|]. now rewrite R_nZ.
Qed.
Lemma mid_in (d : FixedData R) x : odd_size d -> In x (fd_list (linspace_fix (x - fd_dx d) (x + fd_dx d) (fd_n d))).
Proof.
  intros (m & Hm & ->). rewrite linspace_R by lia. apply fd_in. exists m. cbn [fd_n fd_min fd_dx]. split; [lia|].
  replace (2 * m + 1 - 1)%Z with (2 * m)%Z by lia. rewrite mult_IZR. pose proof (IZR_le 1 m Hm). field. lra.
Qed.
Lemma odd_keep (d : FixedData R) x1 x2 : odd_size d -> odd_size (linspace_fix x1 x2 (fd_n d)).
Proof. intros (m & Hm & ->). rewrite linspace_R by lia. exists m. split; [exact Hm|reflexivity]. Qed.
Lemma roomy_odd d lo hi : roomy d lo hi -> odd_size d.
Proof. intros ((m & Hm & E) & _). exists m. split; [lia|exact E]. Qed.
Lemma clamp_id (d : FixedData R) x : roomy d 0 1 -> In x (fd_list d) ->
  amax (fd_prev d x) (nZ 0) = x - fd_dx d /\ amin (fd_next d x) (nZ 1) = x + fd_dx d.
Proof.
  intros (_ & N & H) Hx. destruct (H x Hx) as (H1 & H2). rewrite prev_R, next_R, !R_nZ. unfold amax, amin.
  assert (nltb (x - fd_dx d) 0 = false) as -> by (apply Rltb_false; lra).
  assert (nltb 1 (x + fd_dx d) = false) as -> by (apply Rltb_false; lra). now split.
Qed.
Lemma roomy_keep (d : FixedData R) x : roomy d 0 1 -> In x (fd_list d) ->
  roomy (linspace_fix (x - fd_dx d) (x + fd_dx d) (fd_n d)) 0 1.
Proof.
  intros ((m & Hm & E) & N & H) Hx. destruct (H x Hx) as (H1 & H2). rewrite E, linspace_R by lia.
  replace (2 * m + 1 - 1)%Z with (2 * m)%Z by lia. pose proof (IZR_le 2 m Hm) as Hr.
  assert (D : (x + fd_dx d - (x - fd_dx d)) / IZR (2 * m) = fd_dx d / IZR m) by (rewrite mult_IZR; field; lra).
  assert (B : 0 <= fd_dx d / IZR m <= fd_dx d / 2).
  { split.
    - apply Rmult_le_pos; [exact N|]. left. apply Rinv_0_lt_compat. lra.
    - unfold Rdiv. apply Rmult_le_compat_l; [exact N|]. apply Rinv_le_contravar; lra. }
  split; [exists m; split; [exact Hm|reflexivity]|]. split; [cbn [fd_dx]; lra|]. cbn [fd_dx]. rewrite D.
  intros y Hy. apply fd_in in Hy. destruct Hy as (i & Hi & ->). cbn [fd_n fd_min fd_dx] in *.
  assert (I1 : 0 <= IZR i <= 2 * IZR m) by (split; [apply IZR_le; lia|rewrite <- mult_IZR; apply IZR_le; lia]).
  assert (I2 : 0 <= IZR i * (fd_dx d / IZR m) <= 2 * fd_dx d).
  { split; [apply Rmult_le_pos; lra|]. replace (2 * fd_dx d) with (2 * IZR m * (fd_dx d / IZR m)) by (field; lra).
    apply Rmult_le_compat_r; lra. }
  lra.
Qed.
Definition good (s : spaces R) : Prop :=
  odd_size (sp_AMp s) /\ odd_size (sp_AMn s) /\ roomy (sp_sp s) 0 1 /\ roomy (sp_sn s) 0 1.
Lemma grid_in (s : spaces R) a b c d : In (a, b, c, d) (grid s) <->
  In a (fd_list (sp_AMp s)) /\ In b (fd_list (sp_AMn s)) /\ In c (fd_list (sp_sp s)) /\ In d (fd_list (sp_sn s)).
Proof.
  unfold grid. rewrite in_flat_map. split.
  - intros (a' & Ha & H). apply in_flat_map in H. destruct H as (b' & Hb & H). apply in_flat_map in H. destruct H as (c' & Hc & H).
    apply in_map_iff in H. destruct H as (d' & E & Hd). injection E as <- <- <- <-. auto.
  - intros (Ha & Hb & Hc & Hd). exists a. split; [exact Ha|]. apply in_flat_map. exists b. split; [exact Hb|].
    apply in_flat_map. exists c. split; [exact Hc|]. apply in_map_iff. eauto.
Qed.
Lemma refine_good s q : good s -> In q (grid s) -> good (refine s q) /\ In q (grid (refine s q)) /\
  fd_n (sp_AMp (refine s q)) = fd_n (sp_AMp s).
Proof.
  destruct q as [[[a b] c] d]. intros (G1 & G2 & G3 & G4) H. apply grid_in in H. destruct H as (Ha & Hb & Hc & Hd).
  destruct (clamp_id _ _ G3 Hc) as (E1 & E2). destruct (clamp_id _ _ G4 Hd) as (E3 & E4).
  cbn [refine]. rewrite E1, E2, E3, E4, !prev_R, !next_R. split; [|split].
  - split; [|split; [|split]]; cbn [sp_AMp sp_AMn sp_sp sp_sn]; [now apply odd_keep|now apply odd_keep|now apply roomy_keep|now apply roomy_keep].
  - apply grid_in. cbn [sp_AMp sp_AMn sp_sp sp_sn]. repeat split; apply mid_in; eauto using roomy_odd.
  - cbn [sp_AMp]. destruct G1 as (m & Hm & E). rewrite E. rewrite linspace_R by lia. reflexivity.
Qed.
Lemma levels_S h s pars : levels cost len (S h) s pars =
  rbind (level cost len s pars) (fun '(r, pars') => match h with O => Ok r | _ => levels cost len h (refine s (fst r)) pars' end).
Proof. reflexivity. Qed.
Lemma fd_len (d : FixedData R) : length (fd_list d) = Z.to_nat (fd_n d).
Proof. unfold fd_list. now rewrite map_length, seq_length. Qed.
Lemma levels_improve : forall h s pars, good s -> (length (fd_list (sp_AMp s)) <= length pars)%nat ->
  (exists q e, In q (grid s) /\ cost q = Ok e /\ e < sentinel) ->
  exists r1 r2, levels cost len (S h) s pars = Ok r1 /\ levels cost len (S (S h)) s pars = Ok r2 /\ snd r2 <= snd r1.
Proof.
  induction h as [|h IH]; intros s pars G L (q0 & e0 & I0 & C0 & L0);
    (assert (N : (1 <= fd_n (sp_AMp s))%Z) by (destruct G as ((m & Hm & ->) & _); lia));
    destruct (level_R s pars L N) as (r & pars' & E & Sr & Lp);
    destruct (seen_best _ _ _ _ Sr I0 C0 L0) as (e & Er & F);
    destruct (first_in _ _ _ _ F) as (Iq & Cq);
    destruct (refine_good s (fst r) G Iq) as (G' & Iq' & Nn);
    (assert (L' : (length (fd_list (sp_AMp (refine s (fst r)))) <= length pars')%nat) by (rewrite Lp, !fd_len, Nn; lia)).
  - exists r. rewrite !levels_S, E. cbn [rbind].
    destruct (level_R (refine s (fst r)) pars' L' ltac:(lia)) as (r2 & pars2 & E2 & S2 & _).
    rewrite levels_S, E2. cbn [rbind]. exists r2. split; [reflexivity|]. split; [reflexivity|].
    rewrite Er. exact (seen_le _ _ _ _ S2 Iq' Cq).
  - assert (X : exists q e, In q (grid (refine s (fst r))) /\ cost q = Ok e /\ e < sentinel).
    { exists (fst r), e. split; [exact Iq'|]. split; [exact Cq|].
      destruct (first_all _ _ R_asym _ _ _ (costed_all _) F q0 I0) as (e1 & C1 & L1). rewrite C0 in C1. injection C1 as <-.
      apply Rltb_false in L1. lra. }
    destruct (IH _ _ G' L' X) as (r1 & r2 & E1 & E2 & Le). exists r1, r2. rewrite (levels_S (S h)), (levels_S (S (S h))), E. cbn [rbind].
    auto.
Qed.

(** ** Bounds of the starting points *)
Definition unit_range (d : FixedData R) : Prop := 0 <= fd_dx d /\ forall x, In x (fd_list d) -> 0 <= x <= 1.
Definition in_unit (q : par R) : Prop := let '(_, _, c, d) := q in 0 <= c <= 1 /\ 0 <= d <= 1.
Lemma scan_from : forall pts b r, scan cost b pts = Ok r -> fst r = fst b \/ In (fst r) pts.
Proof.
  induction pts as [|q pts IH]; intros b r H; cbn [scan] in H.
  - injection H as <-. now left.
  - destruct (cost q) as [e|n| |]; try discriminate. cbn [rbind] in H. destruct (IH _ _ H) as [K|K]; [|right; now right].
    destruct (nltb e (snd b)); [right; left; now rewrite K|now left].
Qed.
Lemma grid3_unit a amn sp sn : unit_range sp -> unit_range sn -> Forall in_unit (grid3 a amn sp sn).
Proof.
  intros (_ & H1) (_ & H2). apply Forall_forall. intros q Hq. unfold grid3 in Hq.
  apply in_flat_map in Hq. destruct Hq as (b & _ & Hq). apply in_flat_map in Hq. destruct Hq as (c & Hc & Hq).
  apply in_map_iff in Hq. destruct Hq as (d & <- & Hd). split; auto.
Qed.
Lemma fits_unit amn sp sn : unit_range sp -> unit_range sn -> forall amps pars rs, Forall in_unit pars ->
  fits cost len pars amps amn sp sn = Ok rs -> Forall in_unit (map fst rs).
Proof.
  intros U1 U2. induction amps as [|a amps IH]; intros pars rs H E.
  - destruct pars; cbn [fits] in E; injection E as <-; constructor.
  - destruct pars as [|q pars]; [discriminate|]. inversion H; subst. cbn [fits] in E. unfold fit in E.
    destruct (scan cost (q, sentinel) (grid3 a amn sp sn)) as [[q' e]|n| |] eqn:S; try discriminate. cbn [rmap rbind] in E.
    destruct (fits cost len pars amps amn sp sn) as [rs'|n| |] eqn:F; try discriminate. cbn [rmap rbind] in E. injection E as <-.
    cbn [map fst]. constructor; [|eapply IH; eauto].
    destruct (scan_from _ _ _ S) as [K|K]; cbn [fst] in K; [now subst|]. pose proof (grid3_unit a amn sp sn U1 U2) as G.
    rewrite Forall_forall in G. now apply G.
Qed.
Lemma min_in : forall rs b, In (min_from b rs) (b :: rs).
Proof.
  induction rs as [|r rs IH]; intros b; cbn [min_from]; [now left|]. destruct (nltb (snd r) (snd b)).
  - right. apply IH.
  - destruct (IH b) as [K|K]; [left; exact K|right; now right].
Qed.
Lemma unit_linspace lo hi n : 0 <= lo -> lo <= hi -> hi <= 1 -> unit_range (linspace_fix lo hi n).
Proof.
  intros H1 H2 H3. unfold linspace_fix. destruct (Z.ltb_spec n 1) as [L1|L1]; [|destruct (Z.eqb_spec n 1) as [L2|L2]].
  - split; [cbn [fd_dx]; rewrite R_nZ; lra|]. intros x Hx. apply fd_in in Hx. destruct Hx as (i & Hi & _). cbn [fd_n] in Hi. lia.
  - split; [cbn [fd_dx]; rewrite R_nZ; lra|]. intros x Hx. apply fd_in in Hx. destruct Hx as (i & _ & ->).
    cbn [fd_min fd_dx]. rewrite R_nZ. lra.
  - rewrite R_nZ. cbn [ndiv nsub RNum]. assert (P : 0 < IZR (n - 1)) by (apply IZR_lt; lia).
    assert (D : 0 <= (hi - lo) / IZR (n - 1)) by (apply Rmult_le_pos; [lra|left; now apply Rinv_0_lt_compat]).
    split; [exact D|]. intros x Hx. apply fd_in in Hx. destruct Hx as (i & Hi & ->). cbn [fd_min fd_dx fd_n] in *.
    assert (I1 : 0 <= IZR i <= IZR (n - 1)) by (split; apply IZR_le; lia).
    assert (I2 : 0 <= IZR i * ((hi - lo) / IZR (n - 1)) <= hi - lo).
    { split; [apply Rmult_le_pos; lra|]. replace (hi - lo) with (IZR (n - 1) * ((hi - lo) / IZR (n - 1))) at 2 by (field; lra).
      apply Rmult_le_compat_r; lra. }
    lra.
Qed.
Lemma unit_refine (d : FixedData R) c n : 0 <= fd_dx d -> 0 <= c <= 1 ->
  unit_range (linspace_fix (amax (fd_prev d c) (nZ 0)) (amin (fd_next d c) (nZ 1)) n).
Proof.
  intros D H. rewrite prev_R, next_R, !R_nZ. unfold amax, amin.
  destruct (nltb (c - fd_dx d) 0) eqn:E1; destruct (nltb 1 (c + fd_dx d)) eqn:E2;
    try apply Rltb_true in E1; try apply Rltb_false in E1; try apply Rltb_true in E2; try apply Rltb_false in E2;
    apply unit_linspace; lra.
Qed.
Lemma levels_unit : forall h s pars r, unit_range (sp_sp s) -> unit_range (sp_sn s) -> Forall in_unit pars ->
  levels cost len h s pars = Ok r -> in_unit (fst r).
Proof.
  induction h as [|h IH]; intros s pars r U1 U2 H E; [discriminate|]. rewrite levels_S in E. unfold level in E.
  destruct (fits cost len pars (fd_list (sp_AMp s)) (sp_AMn s) (sp_sp s) (sp_sn s)) as [rs|n| |] eqn:F; try discriminate.
  cbn [rbind] in E. pose proof (fits_unit _ _ _ U1 U2 _ _ _ H F) as K. destruct rs as [|r0 rs]; [discriminate|]. cbn [rbind] in E.
  assert (Q : in_unit (fst (min_from r0 rs))).
  { rewrite Forall_forall in K. apply K. apply in_map. apply min_in. }
  destruct h as [|h]; [now injection E as <-|].
  assert (V : unit_range (sp_sp (refine s (fst (min_from r0 rs)))) /\ unit_range (sp_sn (refine s (fst (min_from r0 rs))))).
  { destruct (fst (min_from r0 rs)) as [[[a b] c] d]. destruct Q as (Q1 & Q2). destruct U1 as (U1 & _), U2 as (U2 & _).
    cbn [refine sp_sp sp_sn]. split; now apply unit_refine. }
  destruct V as (V1 & V2). exact (IH _ _ _ V1 V2 K E).
Qed.
End Level.
