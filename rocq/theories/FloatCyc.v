(** * Proofs for C77: the clock of the cycler in double arithmetic *)
From Coq Require Import Reals Lra Lia SpecFloat ZArith List Bool.
Import ListNotations.
From Flocq Require Import Core BinarySingleNaN.
From Verif Require Import Base RFacts StatusModel UtilModel CellModel CoolModel ModuleModel CyclerModel CyclerSpec CyclerProofs FloatSpec FloatFacts FloatEcm.
Local Open Scope R_scope.

(** A double times an integer rounds by at most [eps], also below the normal range. *)
Lemma int_mul_err x n : fmt x -> Rabs (rnd (IZR n * x) - IZR n * x) <= eps * Rabs (IZR n * x).
Proof.
  intros Hx. apply FLT_format_generic in Hx; [|easy]. destruct Hx as [[m e] E Hm He]. cbn in Hm, He.
  assert (E2 : IZR n * x = F2R (Float radix2 (n * m) e)) by (rewrite E; unfold F2R; cbn; rewrite mult_IZR; ring).
  destruct (Z_lt_le_dec (Z.abs (n * m)) (2 ^ 53)) as [L|L].
  - assert (fmt (IZR n * x)). { apply generic_format_FLT. now exists (Float radix2 (n * m) e). }
    rewrite rnd_id by assumption. rewrite Rminus_diag_eq, Rabs_R0 by reflexivity. apply Rmult_le_pos; [apply Rlt_le, eps_pos|apply Rabs_pos].
  - apply rnd_err. rewrite E2, <- F2R_Zabs. unfold F2R. cbn [Fnum Fexp].
    apply Rle_trans with (bpow radix2 53 * bpow radix2 (-1074)); [rewrite <- bpow_plus; now apply bpow_le|].
    apply Rmult_le_compat; [apply Rlt_le, bpow_gt_0..| |now apply bpow_le]. exact (IZR_le (2 ^ 53) _ L).
Qed.

(** ** One turn of the clock *)
Section Clock.
Variables (tlim dt : f64).
Hypotheses (Ft : fin tlim) (Md : moderate dt) (Pd : 0 < fval dt) (Pt : 0 <= fval tlim) (Bt : fval tlim <= bpow radix2 50) (Rt : fval tlim <= bpow radix2 50 * fval dt).
Notation T := (fval tlim).
Notation D := (fval dt).

Lemma eps50 : eps * bpow radix2 50 = / 8.
Proof. rewrite eps_bpow, <- bpow_plus. cbn. lra. Qed.
Lemma D_range : bpow radix2 (-300) <= D <= bpow radix2 300.
Proof. destruct Md as [_ [Z|M]]; [lra|]. now rewrite Rabs_pos_eq in M by lra. Qed.
Lemma small_huge x : Rabs x <= bpow radix2 310 -> Rabs x <= huge.
Proof. intros H. apply Rle_trans with (1 := H). now apply bpow_le. Qed.

(** The number of steps fits the remaining time. *)
Lemma cut_f n0 dti left : (1 <= n0 <= 10)%Z -> fin dti -> 0 < fval dti <= D -> fin left -> 0 < fval left ->
  let n := cut_n n0 dti left in let d := cut_dt dti left in
  fin d /\ 0 < fval d <= fval dti /\ (1 <= n <= n0)%Z /\ fin (nmul d (nZ n)) /\ fval d <= fval (nmul d (nZ n)) <= fval left /\
  Rabs (fval (nmul d (nZ n)) - fval d * IZR n) <= eps * (2 * fval left) /\
  ((d = dti /\ fval dti <= fval left) \/ (n = 1%Z /\ d = left /\ fval left < fval dti)).
Proof.
  intros Hn Fi Pi Fl Pl. cbv zeta. pose proof D_range as DR. assert (EP := eps_pos). assert (ES := eps_small).
  destruct (fnZ n0) as [Fn Vn]; [lia|]. destruct (fnZ 1) as [F1 V1]; [lia|].
  assert (N1 : 1 <= IZR n0 <= 10) by (split; apply IZR_le; lia).
  assert (B10 : Rabs (IZR n0 * fval dti) <= bpow radix2 310).
  { rewrite Rabs_pos_eq by (apply Rmult_le_pos; lra). change 310%Z with (10 + 300)%Z. rewrite bpow_plus. apply Rmult_le_compat; try lra. change (bpow radix2 10) with 1024. lra. }
  assert (P0 := B10). rewrite <- Vn in P0. destruct (fmul (nZ n0) dti Fn Fi (small_huge _ P0)) as [Fp Ep]. rewrite Vn in Ep.
  assert (P0' : Rabs (fval dti * fval (nZ (A := f64) n0)) <= bpow radix2 310) by (rewrite Vn, Rmult_comm; exact B10).
  destruct (fmul dti (nZ n0) Fi Fn (small_huge _ P0')) as [Fq Eq]. rewrite Vn, Rmult_comm in Eq.
  assert (GE : fval dti <= rnd (IZR n0 * fval dti)). { rewrite <- (rnd_id (fval dti)) at 1 by now apply fmt_val. apply rnd_le. nra. }
  unfold cut_n, cut_dt. cbn [nltb nmul SFNum] in *.
  destruct (SFltb left (SFmul prec64 emax64 (nZ n0) dti)) eqn:C1.
  - (* one step *)
    destruct (SFltb left dti) eqn:C2.
    + apply fltb in C2; [|assumption..].
      destruct (fmul left (nZ 1) Fl F1) as [Fs Es]; rewrite V1, Rmult_1_r in *.
      { apply small_huge. rewrite Rabs_pos_eq by lra. apply Rle_trans with (bpow radix2 300); [lra|now apply bpow_le]. }
      rewrite (rnd_id (fval left)) in Es by now apply fmt_val. rewrite Es.
      split; [exact Fl|]. split; [lra|]. split; [lia|]. split; [exact Fs|]. split; [lra|]. split; [|now right].
      rewrite Rminus_diag_eq, Rabs_R0 by ring. nra.
    + apply fltb_false in C2; [|assumption..].
      destruct (fmul dti (nZ 1) Fi F1) as [Fs Es]; rewrite V1, Rmult_1_r in *.
      { apply small_huge. rewrite Rabs_pos_eq by lra. apply Rle_trans with (bpow radix2 300); [lra|now apply bpow_le]. }
      rewrite (rnd_id (fval dti)) in Es by now apply fmt_val. rewrite Es.
      split; [exact Fi|]. split; [lra|]. split; [lia|]. split; [exact Fs|]. split; [lra|]. split; [|now left].
      rewrite Rminus_diag_eq, Rabs_R0 by ring. nra.
  - apply fltb_false in C1; [|assumption..]. rewrite Ep in C1.
    assert (C2 : SFltb left dti = false) by (apply fltb_false; [assumption..|lra]). rewrite C2. rewrite Eq.
    split; [exact Fi|]. split; [lra|]. split; [lia|]. split; [exact Fq|]. split; [lra|]. split; [|left; split; [reflexivity|lra]].
    pose proof (int_mul_err (fval dti) n0 (fmt_val dti Fi)) as IE. rewrite (Rmult_comm (fval dti)).
    apply Rle_trans with (1 := IE). apply Rmult_le_compat_l; [lra|]. set (p := IZR n0 * fval dti) in *.
    assert (0 < p) by (unfold p; nra). rewrite (Rabs_pos_eq p) in * by lra. apply Rabs_le_inv in IE.
    assert (eps * p <= / 1000000 * p) by (apply Rmult_le_compat_r; lra). lra.
Qed.
(** A turn from time [t] before the limit. *)
Lemma tick n0 dti t : (1 <= n0 <= 10)%Z -> fin dti -> 0 < fval dti <= D -> fin t -> 0 <= fval t < T ->
  (dti = dt \/ (T / 2 <= fval t /\ T - fval t <= fval dti)) ->
  let left := nsub tlim t in let n := cut_n n0 dti left in let d := cut_dt dti left in let t' := nadd t (nmul d (nZ n)) in
  fin d /\ 0 < fval d <= D /\ (1 <= n <= n0)%Z /\ fin t' /\ 0 <= fval t' <= T * (1 + 4 * eps) /\
  Rabs (fval t' - (fval t + fval d * IZR n)) <= 4 * eps * T /\
  (T / 2 <= fval t -> T - fval t <= fval dti -> T <= fval t') /\
  ((dti = dt /\ d = dt /\ fval t + D / 2 <= fval t') \/ T <= fval t' \/ (dti = dt /\ T / 2 <= fval t' /\ T - fval t' <= fval d)).
Proof.
  intros Hn Fi Pi Ftt Rtt Hor. cbv zeta. pose proof D_range as DR. assert (EP := eps_pos). assert (ES := eps_small). assert (E5 := eps50).
  set (x := fval t) in *. assert (Gx := fmt_val t Ftt). assert (GT := fmt_val tlim Ft). fold x in Gx.
  assert (B50 : bpow radix2 50 <= bpow radix2 310) by now apply bpow_le.
  destruct (fsub tlim t Ft Ftt) as [Fl El]; [apply small_huge; rewrite Rabs_pos_eq; fold x; lra|]. fold x in El.
  change (nsub tlim t) with (SFsub prec64 emax64 tlim t). set (left := SFsub prec64 emax64 tlim t) in *.
  pose proof (sub_err T x GT Gx) as LE. rewrite <- El, (Rabs_pos_eq (T - x)) in LE by lra. apply Rabs_le_inv in LE.
  assert (SM : forall y, 0 <= y -> 0 <= eps * y <= / 1000000 * y) by (intros y Hy; split; [apply Rmult_le_pos; lra|apply Rmult_le_compat_r; lra]).
  pose proof (SM (T - x) ltac:(lra)) as SM1. pose proof (SM T ltac:(lra)) as SM2.
  assert (SM3 : eps * (T - x) <= eps * T) by (apply Rmult_le_compat_l; lra).
  assert (Pl : 0 < fval left) by lra.
  destruct (cut_f n0 dti left Hn Fi Pi Fl Pl) as (Fd & Rd & Rn & Fs & Rs & Es & Cs). cbv zeta in *.
  set (n := cut_n n0 dti left) in *. set (d := cut_dt dti left) in *. set (s := nmul d (nZ n)) in *.
  assert (BS : Rabs (x + fval s) <= bpow radix2 310).
  { rewrite Rabs_pos_eq by lra. apply Rle_trans with (2 * bpow radix2 50); [lra|]. change 2 with (bpow radix2 1). rewrite <- bpow_plus. now apply bpow_le. }
  destruct (fadd t s Ftt Fs (small_huge _ BS)) as [Ft' Et']. fold x in Et'. change (nadd t s) with (SFadd prec64 emax64 t s). set (t' := SFadd prec64 emax64 t s) in *.
  assert (Gs := fmt_val s Fs). pose proof (add_err x (fval s) Gx Gs) as AE. rewrite <- Et', (Rabs_pos_eq (x + fval s)) in AE by lra.
  assert (AE' := AE). apply Rabs_le_inv in AE'. pose proof (SM (x + fval s) ltac:(lra)) as SM4.
  assert (UP : x + fval s <= T * (1 + eps)) by lra.
  assert (SM5 : eps * (x + fval s) <= eps * (2 * T)) by (apply Rmult_le_compat_l; lra).
  assert (SM6 : eps * (2 * fval left) <= eps * (2.5 * T)) by (apply Rmult_le_compat_l; lra).
  assert (SM7 : eps * (x + fval s) <= eps * (1.5 * T)) by (apply Rmult_le_compat_l; lra).
  split; [exact Fd|]. split; [lra|]. split; [exact Rn|]. split; [exact Ft'|].
  split. { split; [lra|]. lra. }
  split. { apply Rle_trans with (Rabs (fval t' - (x + fval s)) + Rabs (fval s - fval d * IZR n)); [|lra].
    eapply Rle_trans; [|apply Rabs_triang]. apply Req_le. f_equal. ring. }
  assert (K : T / 2 <= x -> T - x <= fval dti -> T <= fval t').
  { intros H1 H2. assert (LX : fval left = T - x) by (rewrite El; apply sub_exact; [assumption..|lra]).
    assert (Q : fval s = fval left). { destruct Cs as [(C1 & C2)|(C0 & C1 & C2)]; rewrite C1 in Rs; lra. }
    rewrite Et', Q, LX. replace (x + (T - x)) with T by ring. rewrite rnd_id by exact GT. lra. }
  split; [exact K|]. destruct Hor as [->|[H1 H2]].
  - destruct Cs as [(C1 & C2)|(C0 & C1 & C2)].
    + left. split; [reflexivity|]. split; [exact C1|]. rewrite C1 in Rs.
      assert (eps * T <= / 8 * D). { rewrite <- E5, Rmult_assoc. apply Rmult_le_compat_l; lra. } lra.
    + right. rewrite C1 in Rs. assert (Q : fval s = fval left) by lra.
      destruct (Rle_or_lt (T / 2) x) as [G|G].
      * left. assert (LX : fval left = T - x) by (rewrite El; apply sub_exact; [assumption..|lra]). rewrite Et', Q, LX.
        replace (x + (T - x)) with T by ring. rewrite rnd_id by exact GT. lra.
      * right. split; [reflexivity|]. rewrite C1. rewrite Q in *. split; lra.
  - right. left. now apply K.
Qed.
End Clock.

(** ** The log *)
Notation FL := (list (event f64)).
Definition fpassive (e : event f64) : Prop := match e with EStep _ _ | ETried _ _ => False | _ => True end.
Definition clk (T D : R) (nmax : Z) (l : FL) (t : f64) : Prop :=
  elapsed_in_order l = t /\ dsteps_within D nmax l /\ Rabs (fval t - true_elapsed l) <= INR (dturns l) * (4 * eps * T).
Lemma true_app a b : true_elapsed (a ++ b) = true_elapsed a + true_elapsed b.
Proof. induction a as [|[] a IH]; cbn [app true_elapsed]; rewrite ?IH; lra. Qed.
Lemma true_passive l : Forall fpassive l -> true_elapsed l = 0.
Proof. induction 1 as [|e l H _ IH]; [reflexivity|]. destruct e; cbn in *; tauto. Qed.
Lemma turns_app a b : dturns (a ++ b) = (dturns a + dturns b)%nat.
Proof. unfold dturns. now rewrite filter_app, app_length. Qed.
Lemma turns_passive l : Forall fpassive l -> dturns l = O.
Proof. unfold dturns. induction 1 as [|e l H _ IH]; [reflexivity|]. destruct e; cbn in *; tauto. Qed.
Lemma order_passive l x : Forall fpassive l -> fold_left (fun (a : f64) (e : event f64) => match e with EStep d n => nadd a (nmul d (nZ n)) | _ => a end) l x = x.
Proof. intros H. revert x. induction H as [|e l H _ IH]; intros x; cbn [fold_left]; [reflexivity|]. destruct e; cbn in H; tauto || apply IH. Qed.
Lemma within_app D nmax a b : dsteps_within D nmax a -> dsteps_within D nmax b -> dsteps_within D nmax (a ++ b).
Proof. intros HA HB d n H. rewrite !in_app_iff in H. destruct H as [[H|H]|[H|H]]; [apply HA|apply HB|apply HA|apply HB]; tauto. Qed.
Lemma within_passive D nmax l : Forall fpassive l -> dsteps_within D nmax l.
Proof. intros F d n [H|H]; rewrite Forall_forall in F; apply F in H; destruct H. Qed.
Lemma quiet_fpassive (l : FL) : quiet l -> Forall fpassive l.
Proof. intros H. eapply Forall_impl; [|exact H]. intros e [->| ->]; exact Logic.I. Qed.
Lemma clk_app T D nmax l t l' : clk T D nmax l t -> Forall fpassive l' -> clk T D nmax (l ++ l') t.
Proof.
  intros (A & B & C) F. split; [unfold elapsed_in_order in *; rewrite fold_left_app, order_passive; assumption|].
  split; [apply within_app; [assumption|now apply within_passive]|]. rewrite true_app, turns_app, (true_passive l'), (turns_passive l') by assumption. now rewrite Rplus_0_r, Nat.add_0_r.
Qed.
Lemma clk_step T D nmax l t d n : 0 <= T -> clk T D nmax l t -> fin d -> 0 < fval d <= D -> (1 <= n <= nmax)%Z ->
  Rabs (fval (nadd t (nmul d (nZ n))) - (fval t + fval d * IZR n)) <= 4 * eps * T -> clk T D nmax (l ++ [EStep d n]) (nadd t (nmul d (nZ n))).
Proof.
  intros PT (A & B & C) Fd Rd Rn E. split; [unfold elapsed_in_order in *; rewrite fold_left_app; cbn [fold_left]; now rewrite A|].
  split. { apply within_app; [assumption|]. intros d' n' [[H|[]]|[H|[]]]; [|discriminate]. injection H as <- <-. auto. }
  rewrite true_app, turns_app. cbn [true_elapsed]. change (dturns [EStep d n]) with 1%nat. rewrite plus_INR. cbn [INR].
  set (y := fval (nadd t (nmul d (nZ n)))) in *. replace (y - (true_elapsed l + (fval d * IZR n + 0))) with ((y - (fval t + fval d * IZR n)) + (fval t - true_elapsed l)) by ring.
  eapply Rle_trans; [apply Rabs_triang|]. lra.
Qed.
Lemma clk_tried D nmax l d n : dsteps_within D nmax l -> fin d -> 0 < fval d <= D -> (1 <= n <= nmax)%Z -> dsteps_within D nmax (l ++ [ETried d n]).
Proof. intros B Fd Rd Rn. apply within_app; [assumption|]. intros d' n' [[H|[]]|[H|[]]]; [discriminate|]. injection H as <- <-. auto. Qed.

Section Loops.
Context {S : Type} (o : unit_if f64 S) (nmaxd : nat).
Variables (tlim dt : f64).
Hypotheses (Ft : fin tlim) (Md : moderate dt) (Pd : 0 < fval dt) (Pt : 0 <= fval tlim) (Bt : fval tlim <= bpow radix2 50) (Rt : fval tlim <= bpow radix2 50 * fval dt).
Notation T := (fval tlim).
Notation D := (fval dt).
(** What holds on every entry of the loop. *)
Definition entry (fuel : nat) (dti t : f64) : Prop :=
  fin t /\ 0 <= fval t <= T * (1 + 4 * eps) /\ fin dti /\ 0 < fval dti <= D /\
  (T <= fval t \/ (dti = dt /\ T - fval t <= D / 2 * (INR fuel - 2)) \/ (T / 2 <= fval t /\ T - fval t <= fval dti /\ (1 <= fuel)%nat)).
Lemma entry_0 dti t : entry 0 dti t -> T <= fval t.
Proof. intros (_ & _ & _ & _ & [H|[[_ H]|(_ & _ & H)]]); [exact H| |lia]. cbn in H. lra. Qed.
Lemma entry_S f n0 dti t : entry (Datatypes.S f) dti t -> fval t < T -> (1 <= n0 <= 10)%Z ->
  let left := nsub tlim t in let n := cut_n n0 dti left in let d := cut_dt dti left in let t' := nadd t (nmul d (nZ n)) in
  fin d /\ 0 < fval d <= D /\ (1 <= n <= n0)%Z /\ Rabs (fval t' - (fval t + fval d * IZR n)) <= 4 * eps * T /\ entry f d t'.
Proof.
  intros (F & R & Fi & Ri & H) L Hn. cbv zeta.
  assert (Hor : dti = dt \/ (T / 2 <= fval t /\ T - fval t <= fval dti)) by (destruct H as [H|[[H _]|(H & H' & _)]]; [lra|now left|right; now split]).
  destruct (tick tlim dt Ft Md Pd Pt Bt Rt n0 dti t Hn Fi Ri F ltac:(lra) Hor) as (A1 & A2 & A3 & A4 & A5 & A6 & A8 & A7). cbv zeta in *.
  do 4 (split; [assumption|]). split; [assumption|]. split; [assumption|]. split; [assumption|]. split; [assumption|].
  destruct H as [H|[[H1 H]|(H1 & H2 & H3)]]; [lra| |left; now apply A8]. rewrite S_INR in H.
  destruct A7 as [(B1 & B2 & B3)|[B|(B1 & B2 & B3)]]; [|now left|].
  - right. left. split; [exact B2|]. lra.
  - right. right. split; [exact B2|]. split; [exact B3|]. destruct f; [cbn in H; lra|lia].
Qed.

Lemma rest_loop_f ndt nmax : (1 <= nmax <= 10)%Z -> forall fuel dti ttot idat nOnce ninc l t,
  entry fuel dti ttot -> (1 <= nOnce <= nmax)%Z -> clk T D nmax l ttot ->
  wp (rest_loop (logged o) nmaxd fuel tlim ndt nmax dti ttot idat nOnce ninc)
     (fun l' t' r => t' = t /\ dsteps_within D nmax l' /\
        match r with
        | Ok (inl st) => isStatusBad st = true
        | Ok (inr x) => clk T D nmax l' x /\ fin x /\ T <= fval x <= T * (1 + 4 * eps)
        | _ => failed_last l'
        end) l t.
Proof.
  intros Hnm. induction fuel as [|f IH]; intros dti ttot idat nOnce ninc l t He Hn Hc; cbn [rest_loop]; pose proof He as (Fx & Rx & _).
  - pose proof (entry_0 _ _ He) as H0. assert (nltb ttot tlim = false) as -> by (apply fltb_false; assumption). cbn [negb].
    apply wp_ret. split; [reflexivity|]. split; [apply Hc|]. split; [exact Hc|]. split; [exact Fx|lra].
  - destruct (nltb ttot tlim) eqn:Elt; cbn [negb].
    2: { apply fltb_false in Elt; [|assumption..]. apply wp_ret. split; [reflexivity|]. split; [apply Hc|]. split; [exact Hc|]. split; [exact Fx|lra]. }
    apply fltb in Elt; [|assumption..].
    destruct (entry_S f nOnce dti ttot He Elt ltac:(lia)) as (A1 & A2 & A3 & A4 & A5). cbv zeta in *.
    apply wp_bind. cbn [logged q_setCurrent]. apply wp_call.
    2: { intros e Hne. assert (HQ : t = t /\ dsteps_within D nmax (l ++ [EErr]) /\ failed_last (l ++ [EErr])).
         { split; [reflexivity|]. split; [apply within_app; [apply Hc|apply within_passive; repeat constructor]|apply failed_last_err]. }
         destruct e; [destruct Hne| | |]; exact HQ. }
    intros s0 s1 st _. assert (Hc1 : clk T D nmax (l ++ [ESet (nZ 0) st]) ttot) by (apply clk_app; [assumption|repeat constructor]).
    destruct (isStatusBad st) eqn:Ebad; [apply wp_ret; split; [reflexivity|]; split; [apply Hc1|exact Ebad]|].
    set (n := cut_n nOnce dti (nsub tlim ttot)) in *. set (d := cut_dt dti (nsub tlim ttot)) in *.
    apply wp_bind. cbn [logged q_step]. apply wp_call.
    2: { intros e Hne. assert (HQ : t = t /\ dsteps_within D nmax ((l ++ [ESet (nZ 0) st]) ++ [ETried d n]) /\ failed_last ((l ++ [ESet (nZ 0) st]) ++ [ETried d n])).
         { split; [reflexivity|]. split; [apply clk_tried; [apply Hc1|assumption..|lia]|apply failed_last_tried]. }
         destruct e; [destruct Hne| | |]; exact HQ. }
    intros s2 s3 u _. assert (Hc2 := clk_step T D nmax _ _ d n Pt Hc1 A1 A2 ltac:(lia) A4).
    apply wp_bind, wp_store_due.
    2: { intros l' e Hl' Hne.
         match goal with |- context [?L ++ l' ++ [EErr]] => assert (HQ : t = t /\ dsteps_within D nmax (L ++ l' ++ [EErr]) /\ failed_last (L ++ l' ++ [EErr])) end.
         { split; [reflexivity|]. split; [|rewrite app_assoc; apply failed_last_err]. apply within_app; [apply Hc2|]. apply within_passive. apply Forall_app. split; [now apply quiet_fpassive|repeat constructor]. }
         destruct e; [destruct Hne| | |]; exact HQ. }
    intros l' z Hl'. destruct (rest_adapt _ _ _ _) as [n' ninc']. apply IH; [exact A5|apply zclamp_range; lia|].
    apply clk_app; [exact Hc2|now apply quiet_fpassive].
Qed.
Lemma rest_f ndt fuel t : 2 * T / D + 2 <= INR fuel ->
  wp (rest (logged o) nmaxd fuel tlim dt ndt)
     (fun l' t' r => dsteps_within D (if (0 <? ndt)%Z then Z.min 10 ndt else 10%Z) l' /\
        match r with
        | Ok st => (st = ReachedTimeLimit /\ let x := elapsed_in_order l' in fin x /\ T <= fval x <= T * (1 + 4 * eps) /\
                      Rabs (true_elapsed l' - T) <= INR (dturns l' + 1) * (4 * eps * T) /\ th_time t' = nadd (th_time t) x) \/
                   (isStatusBad st = true /\ t' = t)
        | _ => failed_last l' /\ t' = t
        end) [] t.
Proof.
  intros Hf. unfold rest. set (nmax := if (0 <? ndt)%Z then Z.min 10 ndt else 10%Z). assert (EP := eps_pos).
  assert (Hnm : (1 <= nmax <= 10)%Z) by (unfold nmax; destruct (Z.ltb_spec 0 ndt); lia).
  assert (HF : forall l l', dsteps_within D nmax l -> quiet l' -> forall t', t' = t -> dsteps_within D nmax (l ++ l' ++ [EErr]) /\ failed_last (l ++ l' ++ [EErr]) /\ t' = t).
  { intros l l' H1 Hl' t' ->. split; [|split; [rewrite app_assoc; apply failed_last_err|reflexivity]].
    apply within_app; [assumption|]. apply within_passive. apply Forall_app. split; [now apply quiet_fpassive|repeat constructor]. }
  assert (H0 : dsteps_within D nmax []) by (intros d n [[]|[]]).
  apply wp_bind, wp_store_if.
  2: { intros l' e Hl' He. destruct e; [destruct He| | |]; (apply (HF [] l'); auto). }
  intros l' Hl'. cbn [app]. apply wp_bind. eapply wp_conseq.
  { apply rest_loop_f with (nmax := nmax); [exact Hnm| |lia|].
    - destruct (fnZ 0) as [F0 V0]; [easy|]. split; [exact F0|]. rewrite V0. split; [nra|]. split; [apply Md|]. split; [lra|].
      right. left. split; [reflexivity|]. apply Rmult_le_reg_r with (2 / D); [apply Rdiv_lt_0_compat; lra|].
      replace (D / 2 * (INR fuel - 2) * (2 / D)) with (INR fuel - 2) by (field; lra). replace ((T - 0) * (2 / D)) with (2 * T / D) by (field; lra). lra.
    - assert (C0 : clk T D nmax [] (nZ 0)). { split; [reflexivity|]. split; [exact H0|]. cbn [true_elapsed dturns filter List.length INR]. destruct (fnZ 0) as [F0 V0]; [easy|]. rewrite V0, Rminus_diag_eq, Rabs_R0 by reflexivity. cbn. lra. }
      exact (clk_app _ _ _ _ _ _ C0 (quiet_fpassive _ Hl')). }
  cbn beta. intros l1 t1 r (-> & H1 & H2).
  destruct r as [[st|x]| | |]; try (split; [assumption|]; split; [assumption|reflexivity]).
  - apply wp_ret. split; [assumption|]. right. auto.
  - destruct H2 as (Hc & Fx & Rx). cbn [nleb nltb nabs nsub SFNum].
    assert (SFleb tlim x = true) as -> by (apply fleb; [assumption..|lra]).
    assert (E5 := eps50). assert (ET : eps * T <= / 8). { rewrite <- E5. apply Rmult_le_compat_l; lra. }
    assert (SUB : fin (SFsub prec64 emax64 x tlim) /\ 0 <= fval (SFsub prec64 emax64 x tlim) <= 0.6).
    { destruct (fsub x tlim Fx Ft) as [A B]; [apply Rle_trans with 1; [apply Rabs_le; lra|change 1 with (bpow radix2 0); now apply bpow_le]|]. split; [exact A|]. rewrite B.
      pose proof (sub_err (fval x) T (fmt_val _ Fx) (fmt_val _ Ft)) as SE. rewrite (Rabs_pos_eq (fval x - T)) in SE by lra. apply Rabs_le_inv in SE. pose proof eps_small.
      assert (0 <= eps * (fval x - T) <= / 1000000 * (fval x - T)) by (split; [apply Rmult_le_pos; lra|apply Rmult_le_compat_r; lra]). lra. }
    destruct SUB as [FS RS]. destruct (fabs _ FS) as [FA EA]. destruct (fnZ 1) as [F1 V1]; [easy|].
    assert (SFltb (SFabs (SFsub prec64 emax64 x tlim)) (nZ 1) = true) as -> by (apply fltb; [assumption..|]; rewrite EA, V1, Rabs_pos_eq by lra; lra).
    cbn [andb]. apply wp_bind. cbn [logged q_setCurrent]. apply wp_call.
    2: { intros e He. destruct e; [destruct He| | |]; (apply (HF l1 []); auto; constructor). }
    intros s0 s1 st _. assert (Hc1 : clk T D nmax (l1 ++ [ESet (nZ 0) st]) x) by (apply clk_app; [assumption|repeat constructor]).
    apply wp_bind, wp_store_if.
    2: { intros l2 e Hl2 He. destruct e; [destruct He| | |]; (apply HF; auto; apply Hc1). }
    intros l2 Hl2. apply wp_bind, wp_add_th, wp_ret. assert (Hc2 := clk_app _ _ _ _ _ _ Hc1 (quiet_fpassive _ Hl2)). destruct Hc2 as (C1 & C2 & C3).
    split; [exact C2|]. left. split; [reflexivity|]. cbv zeta. rewrite C1. split; [exact Fx|]. split; [exact Rx|]. split; [|reflexivity].
    rewrite plus_INR. cbn [INR]. rewrite Rmult_plus_distr_r, Rmult_1_l. rewrite Rabs_minus_sym in C3.
    apply Rabs_add_le with (fval x); [exact C3|]. rewrite Rabs_pos_eq by lra. lra.
Qed.

(** ** Constant current *)
Variable diag : bool.
Hypothesis Hon : diag = true -> dhonest o.
Lemma wp_set_f I vlim (Q : FL -> th f64 -> res Status -> Prop) l t :
  (forall l' st, Forall fpassive l' -> st <> ReachedTimeLimit -> Q (l ++ l') t (Ok st)) ->
  (forall l' e, Forall fpassive l' -> notok e -> Q (l ++ l' ++ [EErr]) t e) ->
  wp (cyc_setCurrent (logged o) diag I vlim) Q l t.
Proof.
  intros H1 H3. unfold cyc_setCurrent.
  apply wp_bind, wp_call.
  2: { intros e He. destruct e; [destruct He| | |]; apply (H3 []); first [exact Logic.I | constructor]. }
  intros s0 s1 Vini _. apply wp_bind, wp_call.
  2: { intros e He. rewrite <- app_assoc. destruct e; [destruct He| | |]; apply (H3 [_]); first [exact Logic.I | repeat constructor]. }
  intros s2 s3 Iini _. rewrite <- app_assoc. apply wp_bind. cbn [logged q_setCurrent]. apply wp_call.
  2: { intros e He. rewrite <- app_assoc. destruct e; [destruct He| | |]; apply (H3 [_;_]); first [exact Logic.I | repeat constructor]. }
  intros s4 s5 st _. rewrite <- app_assoc. cbn [app].
  destruct (isStatusVoltageLimitsViolated st) eqn:Ev.
  - apply wp_bind. apply wp_call.
    2: { intros e He. rewrite <- app_assoc. destruct e; [destruct He| | |]; apply (H3 [_;_;_]); first [exact Logic.I | repeat constructor]. }
    intros s6 s7 st2 _. rewrite <- app_assoc. apply wp_ret. apply H1; [repeat constructor|]. intros ->. discriminate Ev.
  - apply wp_bind, wp_call.
    2: { intros e He. rewrite <- app_assoc. destruct e; [destruct He| | |]; apply (H3 [_;_;_]); first [exact Logic.I | repeat constructor]. }
    intros s6 s7 Vnew _. rewrite <- app_assoc. cbn [app].
    destruct (nltb I (nZ 0) && nleb Vini vlim && nltb vlim Vnew); [apply wp_ret, H1; [repeat constructor|discriminate]|].
    destruct (nleb vlim Vini && nltb Vnew vlim); (apply wp_ret, H1; [repeat constructor|discriminate]).
Qed.
Lemma wp_adapt_f I vlim vo vi n up (Q : FL -> th f64 -> res (Z * bool) -> Prop) l t :
  (forall nu, Q l t (Ok nu)) -> (forall e, notok e -> Q (l ++ [EErr]) t e) ->
  wp (cc_adapt (logged o) I vlim vo vi n up) Q l t.
Proof.
  intros H1 H2. unfold cc_adapt. destruct (nltb I (nZ 0)); [apply wp_ret, H1|].
  apply wp_bind. cbn [logged q_Vlow]. apply wp_call.
  2: { intros e He. destruct e; [destruct He| | |]; apply H2; exact Logic.I. }
  intros s0 s1 v1 _. rewrite app_nil_r. destruct (nltb v1 _); (apply wp_bind, wp_call;
    [intros s2 s3 v2 _; rewrite app_nil_r; destruct (nltb v2 _); apply wp_ret, H1
    |intros e He; destruct e; [destruct He| | |]; apply H2; exact Logic.I]).
Qed.
Definition ticked (nmax : Z) (l : FL) : Prop :=
  dsteps_within D nmax l /\ let x := elapsed_in_order l in fin x /\ 0 <= fval x <= T * (1 + 4 * eps) /\ Rabs (fval x - true_elapsed l) <= INR (dturns l) * (4 * eps * T).
Lemma ticked_clk nmax l t : clk T D nmax l t -> fin t -> 0 <= fval t <= T * (1 + 4 * eps) -> ticked nmax l.
Proof. intros (A & B & C) F R. split; [exact B|]. cbv zeta. rewrite A. auto. Qed.
Lemma ticked_app nmax l l' : ticked nmax l -> Forall fpassive l' -> ticked nmax (l ++ l').
Proof.
  intros (A & F & R & E) P. assert (C : clk T D nmax l (elapsed_in_order l)) by (split; [reflexivity|split; assumption]).
  pose proof (clk_app _ _ _ _ _ _ C P) as (C1 & C2 & C3). apply ticked_clk with (elapsed_in_order l); [|assumption..]. now apply clk_app.
Qed.
Lemma ticked_tried nmax l d n : ticked nmax l -> fin d -> 0 < fval d <= D -> (1 <= n <= nmax)%Z -> ticked nmax (l ++ [ETried d n]).
Proof.
  intros (A & F & R & E) Fd Rd Rn. split; [now apply clk_tried|]. cbv zeta in *. unfold elapsed_in_order in *. rewrite fold_left_app. cbn [fold_left].
  rewrite true_app, turns_app. cbn [true_elapsed]. change (dturns [ETried d n]) with 0%nat. rewrite Rplus_0_r, Nat.add_0_r. auto.
Qed.
Definition ccpost_f (nmax : Z) (l' : FL) (t' : th f64) (r : res (Status + f64 * bool)) : Prop :=
  ticked nmax l' /\
  match r with
  | Ok (inl st) => st <> ReachedTimeLimit
  | Ok (inr (x, v)) => elapsed_in_order l' = x /\ (v = false -> T <= fval x) /\ th_time t' = x
  | _ => failed_last l'
  end.
Lemma cc_loop_f I vlim ndt nmax : (1 <= nmax <= 10)%Z -> forall fuel dti ttot idat nOnce vo vi up l t,
  entry fuel dti ttot -> (1 <= nOnce <= nmax)%Z -> clk T D nmax l ttot -> th_time t = ttot ->
  wp (cc_loop (logged o) nmaxd diag fuel I vlim tlim ndt nmax dti ttot idat nOnce vo vi up) (ccpost_f nmax) l t.
Proof.
  intros Hnm. induction fuel as [|f IH]; intros dti ttot idat nOnce vo vi up l t He Hn Hc Ht; cbn [cc_loop]; pose proof He as (Fx & Rx & _).
  - pose proof (entry_0 _ _ He) as H0. assert (nltb ttot tlim = false) as -> by (apply fltb_false; assumption). cbn [negb].
    apply wp_ret. split; [now apply ticked_clk with ttot|]. split; [apply Hc|]. auto.
  - destruct (nltb ttot tlim) eqn:Elt; cbn [negb].
    2: { apply fltb_false in Elt; [|assumption..]. apply wp_ret. split; [now apply ticked_clk with ttot|]. split; [apply Hc|]. auto. }
    apply fltb in Elt; [|assumption..].
    destruct (entry_S f nOnce dti ttot He Elt ltac:(lia)) as (A1 & A2 & A3 & A4 & A5). cbv zeta in *.
    set (n := cut_n nOnce dti (nsub tlim ttot)) in *. set (d := cut_dt dti (nsub tlim ttot)) in *.
    apply wp_bind, wp_set_f.
    2: { intros l' e Hp Hne. assert (HQ : ticked nmax (l ++ l' ++ [EErr]) /\ failed_last (l ++ l' ++ [EErr])).
         { split; [|rewrite app_assoc; apply failed_last_err]. apply ticked_app; [now apply ticked_clk with ttot|]. apply Forall_app. split; [assumption|repeat constructor]. }
         destruct e; [destruct Hne| | |]; exact HQ. }
    intros l1 st Hp1 _. assert (Hc1 : clk T D nmax (l ++ l1) ttot) by now apply clk_app.
    generalize dependent (l ++ l1). clear l Hc l1 Hp1. intros l Hc.
    assert (HT : ticked nmax (l ++ [ETried d n])) by (apply ticked_tried; [now apply ticked_clk with ttot|assumption..|lia]).
    apply wp_bind, wp_try, wp_bind. cbn [logged q_step]. apply wp_call.
    2: { intros e Hne. destruct e; [destruct Hne| | |]; cbn [cast].
         - apply wp_ret. cbn [negb]. apply wp_ret. split; [exact HT|discriminate].
         - split; [exact HT|apply failed_last_tried].
         - split; [exact HT|apply failed_last_tried]. }
    intros s2 s3 u _. apply wp_ret. cbn [negb].
    assert (Hc2 := clk_step T D nmax _ _ d n Pt Hc A1 A2 ltac:(lia) A4). pose proof A5 as (F5 & R5 & _).
    set (x := nadd ttot (nmul d (nZ n))) in *.
    assert (HP : forall l', Forall fpassive l' -> ticked nmax ((l ++ [EStep d n]) ++ l')) by (intros l' Hp; apply ticked_app; [now apply ticked_clk with x|assumption]).
    assert (HE : forall l' B (e : res B) t', Forall fpassive l' -> notok e -> ccpost_f nmax (((l ++ [EStep d n]) ++ l') ++ [EErr]) t' (cast e)).
    { intros l' B e t' Hp Hne. assert (HQ : ticked nmax (((l ++ [EStep d n]) ++ l') ++ [EErr]) /\ failed_last (((l ++ [EStep d n]) ++ l') ++ [EErr])).
      { split; [rewrite <- app_assoc; apply HP; apply Forall_app; split; [assumption|repeat constructor]|apply failed_last_err]. }
      destruct e; [destruct Hne| | |]; exact HQ. }
    assert (HV : forall v, wp (A := f64) (S := S)
       (call (q_V (logged o)) ;;;
        add_th (d * nZ n)%num (nabs I * (d * nZ n) / nZ 3600)%num (nabs I * (d * nZ n) / nZ 3600 * v)%num ;;;
        idat' <- store_due (logged o) nmaxd (idat + n)%Z ndt ;;
        if beyond I v vlim then mret (inr (x, true))
        else
          (nu <- cc_adapt (logged o) I vlim vo v n up ;;
           cc_loop (logged o) nmaxd diag f I vlim tlim ndt nmax d x idat' (zclamp (fst nu) 1 nmax) v v (snd nu)))%prog
        (ccpost_f nmax) ((l ++ [EStep d n]) ++ [EReadV v]) t).
    { intros v. apply wp_bind, wp_call.
      2: { intros e Hne. pose proof (HE [EReadV v] _ e t ltac:(repeat constructor) Hne). destruct e; [destruct Hne| | |]; assumption. }
      intros s4 s5 v2 _. apply wp_bind, wp_add_th. set (t' := mkTh _ _ _).
      assert (Ht' : th_time t' = x) by (unfold t', x; cbn [th_time]; now rewrite Ht).
      apply wp_bind, wp_store_due.
      2: { intros l' e Hl' Hne.
           pose proof (HE ([EReadV v] ++ [EReadV v2] ++ l') _ e t' ltac:(apply Forall_app; split; [repeat constructor|apply Forall_app; split; [repeat constructor|now apply quiet_fpassive]]) Hne) as HQ.
           rewrite <- !app_assoc in *. destruct e; [destruct Hne| | |]; assumption. }
      intros l' z Hl'. assert (Hp2 : Forall fpassive ([EReadV v] ++ [EReadV v2] ++ l')) by (apply Forall_app; split; [repeat constructor|apply Forall_app; split; [repeat constructor|now apply quiet_fpassive]]).
      assert (E2 : (((l ++ [EStep d n]) ++ [EReadV v]) ++ [EReadV v2]) ++ l' = (l ++ [EStep d n]) ++ ([EReadV v] ++ [EReadV v2] ++ l')) by (rewrite <- !app_assoc; reflexivity).
      rewrite E2. assert (Hc3 := clk_app _ _ _ _ _ _ Hc2 Hp2).
      destruct (beyond I v vlim).
      - apply wp_ret. split; [now apply HP|]. split; [apply Hc3|]. split; [discriminate|exact Ht'].
      - apply wp_bind, wp_adapt_f.
        2: { intros e Hne. pose proof (HE _ _ e t' Hp2 Hne). destruct e; [destruct Hne| | |]; assumption. }
        intros nu. apply IH; [exact A5|apply zclamp_range; lia|exact Hc3|exact Ht']. }
    apply wp_bind. destruct diag.
    + apply wp_bind. cbn [logged q_checkV]. apply wp_call.
      2: { intros e Hne. pose proof (HE [] _ e t ltac:(constructor) Hne) as HQ. rewrite app_nil_r in HQ. destruct e; [destruct Hne| | |]; exact HQ. }
      intros s4 s5 [v st2] Ek. apply wp_ret. cbn [fst snd]. destruct (isStatusSuccessful st2) eqn:Es; [apply HV|].
      apply wp_ret. split; [apply HP; repeat constructor|]. exact (Hon eq_refl _ _ _ _ Ek).
    + apply wp_bind. cbn [logged q_V]. apply wp_call.
      2: { intros e Hne. pose proof (HE [] _ e t ltac:(constructor) Hne) as HQ. rewrite app_nil_r in HQ. destruct e; [destruct Hne| | |]; exact HQ. }
      intros s4 s5 v _. apply wp_ret. destruct (nleb v (nZ 0)); [|apply HV].
      apply wp_ret. split; [apply HP; repeat constructor|discriminate].
Qed.
Lemma entry_start fuel : 2 * T / D + 2 <= INR fuel -> entry fuel dt (nZ 0).
Proof.
  intros Hf. assert (EP := eps_pos). destruct (fnZ 0) as [F0 V0]; [easy|]. split; [exact F0|]. rewrite V0. split; [nra|]. split; [apply Md|]. split; [lra|].
  right. left. split; [reflexivity|]. apply Rmult_le_reg_r with (2 / D); [apply Rdiv_lt_0_compat; lra|].
  replace (D / 2 * (INR fuel - 2) * (2 / D)) with (INR fuel - 2) by (field; lra). replace ((T - 0) * (2 / D)) with (2 * T / D) by (field; lra). lra.
Qed.
Lemma clk_start nmax : clk T D nmax [] (nZ 0).
Proof.
  split; [reflexivity|]. split; [intros d n [[]|[]]|]. cbn [true_elapsed dturns filter List.length INR]. destruct (fnZ 0) as [F0 V0]; [easy|].
  rewrite V0, Rminus_diag_eq, Rabs_R0 by reflexivity. cbn. lra.
Qed.
Lemma CC_f I vlim ndt fuel t : 2 * T / D + 2 <= INR fuel -> th_time t = nZ 0 ->
  wp (CC (logged o) nmaxd diag fuel I vlim tlim dt ndt)
     (fun l' t' r => ticked (if (0 <? ndt)%Z then Z.min 2 ndt else 2%Z) l' /\
        match r with
        | Ok st => (st = ReachedTimeLimit -> T <= fval (elapsed_in_order l') /\ th_time t' = elapsed_in_order l')
        | _ => failed_last l'
        end) [] t.
Proof.
  intros Hf Ht. unfold CC. set (nmax := if (0 <? ndt)%Z then Z.min 2 ndt else 2%Z). assert (EP := eps_pos).
  assert (Hnm : (1 <= nmax <= 10)%Z) by (unfold nmax; destruct (Z.ltb_spec 0 ndt); lia).
  assert (C0 := clk_start nmax). pose proof (entry_start fuel Hf) as E0. pose proof E0 as (F0 & R0 & _).
  assert (K : forall l, Forall fpassive l -> clk T D nmax l (nZ 0)) by (intros l Hp; exact (clk_app _ _ _ [] _ _ C0 Hp)).
  assert (KT : forall l, Forall fpassive l -> ticked nmax l) by (intros l Hp; apply ticked_clk with (nZ 0); [now apply K|assumption..]).
  assert (HF : forall l B (e : res B), Forall fpassive l -> notok e -> ticked nmax (l ++ [EErr]) /\ match (cast e : res Status) with Ok st => st = ReachedTimeLimit -> T <= fval (elapsed_in_order (l ++ [EErr])) /\ th_time t = elapsed_in_order (l ++ [EErr]) | _ => failed_last (l ++ [EErr]) end).
  { intros l B e Hp Hne. split; [apply KT; apply Forall_app; split; [assumption|repeat constructor]|]. destruct e; [destruct Hne| | |]; apply failed_last_err. }
  apply wp_bind, wp_store_if.
  2: { intros l' e Hl' He. cbn [app]. pose proof (HF l' _ e (quiet_fpassive _ Hl') He). destruct e; [destruct He| | |]; assumption. }
  intros l0 Hl0. cbn [app]. apply quiet_fpassive in Hl0.
  apply wp_bind, wp_set_f.
  2: { intros l' e Hl' He. rewrite app_assoc. assert (Hp : Forall fpassive (l0 ++ l')) by (apply Forall_app; now split). pose proof (HF _ _ e Hp He). destruct e; [destruct He| | |]; assumption. }
  intros l1 st Hl1 Nst. assert (Hp : Forall fpassive (l0 ++ l1)) by (apply Forall_app; now split). clear Hl0 Hl1. generalize dependent (l0 ++ l1). clear l0 l1. intros l Hp.
  destruct (negb (isStatusSuccessful st)); [apply wp_ret; split; [now apply KT|contradiction]|].
  apply wp_bind. cbn [logged q_V]. apply wp_call.
  2: { intros e He. pose proof (HF _ _ e Hp He). destruct e; [destruct He| | |]; assumption. }
  intros s0 s1 v0 _. assert (Hp2 : Forall fpassive (l ++ [EReadV v0])) by (apply Forall_app; split; [assumption|repeat constructor]).
  destruct (beyond I v0 vlim); [apply wp_ret; split; [now apply KT|discriminate]|].
  apply wp_bind. eapply wp_conseq; [apply cc_loop_f with (nmax := nmax); [exact Hnm|exact E0|lia|now apply K|exact Ht]|].
  cbn beta. intros l2 t2 r (H1 & H2). destruct r as [[st2|[x vt]]| | |].
  - apply wp_ret. split; [exact H1|]. contradiction.
  - destruct H2 as (X1 & X2 & X3). pose proof H1 as (_ & FX & _). rewrite X1 in FX.
    assert (HS : forall l', quiet l' -> ticked nmax (l2 ++ l')) by (intros l' Hl'; apply ticked_app; [exact H1|now apply quiet_fpassive]).
    assert (HSE : forall l' (e : res unit) t', quiet l' -> notok e -> ticked nmax (l2 ++ l' ++ [EErr]) /\ match (cast e : res Status) with Ok st => st = ReachedTimeLimit -> T <= fval (elapsed_in_order (l2 ++ l' ++ [EErr])) /\ th_time t' = elapsed_in_order (l2 ++ l' ++ [EErr]) | _ => failed_last (l2 ++ l' ++ [EErr]) end).
    { intros l' e t' Hl' Hne. split; [apply ticked_app; [exact H1|]; apply Forall_app; split; [now apply quiet_fpassive|repeat constructor]|].
      destruct e; [destruct Hne| | |]; cbn [cast]; rewrite app_assoc; apply failed_last_err. }
    assert (HX : forall l', quiet l' -> elapsed_in_order (l2 ++ l') = x).
    { intros l' Hl'. unfold elapsed_in_order in *. rewrite fold_left_app, order_passive by now apply quiet_fpassive. exact X1. }
    destruct (nleb tlim x) eqn:G.
    + apply fleb in G; [|assumption..]. apply wp_bind, wp_store_if.
      2: { intros l' e Hl' Hne. pose proof (HSE l' e t2 Hl' Hne). destruct e; [destruct Hne| | |]; assumption. }
      intros l' Hl'. apply wp_ret. split; [now apply HS|]. intros _. rewrite HX by assumption. auto.
    + destruct vt.
      * apply wp_bind, wp_store_if.
        2: { intros l' e Hl' Hne. pose proof (HSE l' e t2 Hl' Hne). destruct e; [destruct Hne| | |]; assumption. }
        intros l' Hl'. apply wp_ret. split; [now apply HS|]. discriminate.
      * exfalso. specialize (X2 eq_refl). assert (nleb tlim x = true) by (apply fleb; assumption). congruence.
  - split; assumption.
  - split; assumption.
  - split; assumption.
Qed.
End Loops.
