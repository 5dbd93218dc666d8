(** * Proofs of the accuracy statements about an equivalent-circuit cell *)
From Verif Require Import Base RFacts StatusModel StatusProofs UtilModel UtilSpec UtilProofs CellModel CellSpec
  CellProofs ExactSpec.
From Coq Require Import Lra Lia.
Local Open Scope R_scope.

Lemma response_ode k i x t : derivable_pt_lim (response k i x) t (k * (i - response k i x t)).
Proof.
  unfold response.
  replace (k * (i - (i + (x - i) * exp (- (k * t))))) with (0 + (x - i) * (exp (- (k * t)) * (- (k * 1)))) by ring.
  apply (derivable_pt_lim_plus (fun _ => i) (fun t => (x - i) * exp (- (k * t)))).
  - apply derivable_pt_lim_const.
  - apply (derivable_pt_lim_scal (fun t => exp (- (k * t)))).
    apply (derivable_pt_lim_comp (fun t => - (k * t)) exp).
    + apply derivable_pt_lim_opp, derivable_pt_lim_scal, derivable_pt_lim_id.
    + apply derivable_pt_lim_exp.
Qed.

Lemma exp_low h : 1 - h <= exp (- h).
Proof. assert (H := exp_ineq1_le (- h)). lra. Qed.

Lemma exp_high h : 0 <= h -> exp (- h) <= 1 - h + h * h / 2.
Proof.
  intros [Hh| <-]; [|rewrite Ropp_0, exp_0; lra].
  set (g := fun t => (1 - t + t * t / 2) - exp (- t)).
  destruct (MVT_cor2 g (fun t => (-1 + t) + exp (- t)) 0 h Hh) as (c & E & Hc).
  - intros t _. unfold g.
    replace (-1 + t + exp (- t)) with ((0 - 1 + (1 * t + t * 1) * / 2) - (exp (- t) * - (1))) by field.
    apply (derivable_pt_lim_minus (fun t => 1 - t + t * t / 2) (fun t => exp (- t))).
    + apply (derivable_pt_lim_plus (fun t => 1 - t) (fun t => t * t / 2)).
      * apply (derivable_pt_lim_minus (fun _ => 1) (fun t => t)); [apply derivable_pt_lim_const|apply derivable_pt_lim_id].
      * replace ((1 * t + t * 1) * / 2) with (/ 2 * (1 * t + t * 1)) by ring.
        eapply derivable_pt_lim_ext; [|apply (derivable_pt_lim_scal (fun t => t * t))].
        -- intros z. unfold mult_real_fct. field.
        -- apply (derivable_pt_lim_mult id id); apply derivable_pt_lim_id.
    + apply (derivable_pt_lim_comp (fun t => - t) exp).
      * apply (derivable_pt_lim_opp id), derivable_pt_lim_id.
      * apply derivable_pt_lim_exp.
  - assert (L := exp_low c). unfold g in E. rewrite Ropp_0, exp_0 in E.
    assert (0 <= (-1 + c + exp (- c)) * (h - 0)) by (apply Rmult_le_pos; lra). lra.
Qed.

Lemma response_add k i x s t : response k i (response k i x s) t = response k i x (s + t).
Proof.
  unfold response. replace (- (k * (s + t))) with (- (k * s) + - (k * t)) by ring. rewrite exp_plus. ring.
Qed.
Lemma response_0 k i x : response k i x 0 = x.
Proof. unfold response. rewrite Rmult_0_r, Ropp_0, exp_0. ring. Qed.

Lemma response_bounded k i x t m : 0 <= k * t -> Rabs i <= m -> Rabs x <= m -> Rabs (response k i x t) <= m.
Proof.
  intros Hk Hi Hx. unfold response.
  assert (E0 := exp_pos (- (k * t))).
  assert (E1 : exp (- (k * t)) <= 1).
  { rewrite <- exp_0. destruct Hk as [Hk| <-]; [apply Rlt_le, exp_increasing; lra|rewrite Ropp_0; lra]. }
  apply Rabs_le. unfold Rabs in Hi, Hx. set (a := exp (- (k * t))) in *.
  destruct (Rcase_abs i), (Rcase_abs x); split; nra.
Qed.

(** One explicit step against the exact response. *)
Lemma one_step k i x y dt H m : 0 <= k -> 0 <= dt -> dt * k <= H -> H <= 1 -> Rabs i <= m -> Rabs y <= m ->
  Rabs (x - y) <= H * m -> Rabs ((x + dt * k * (i - x)) - response k i y dt) <= H * m.
Proof.
  intros Hk Hdt Hh H1 Hi Hy He.
  assert (Hh0 : 0 <= dt * k) by (apply Rmult_le_pos; auto).
  unfold response. replace (k * dt) with (dt * k) by ring. set (h := dt * k) in *.
  assert (L := exp_low h). assert (U := exp_high h Hh0). set (a := exp (- h)) in *.
  replace (x + h * (i - x) - (i + (y - i) * a)) with ((1 - h) * (x - y) + (1 - h - a) * (y - i)) by ring.
  eapply Rle_trans; [apply Rabs_triang|]. rewrite !Rabs_mult.
  assert (A1 : Rabs (1 - h) = 1 - h) by (apply Rabs_pos_eq; lra).
  assert (A2 : Rabs (1 - h - a) <= h * h / 2) by (rewrite Rabs_left1; lra).
  assert (A3 : Rabs (y - i) <= 2 * m).
  { replace (y - i) with (y + - i) by ring. eapply Rle_trans; [apply Rabs_triang|]. rewrite Rabs_Ropp. lra. }
  rewrite A1.
  assert (B1 : (1 - h) * Rabs (x - y) <= (1 - h) * (H * m)) by (apply Rmult_le_compat_l; lra).
  assert (B2 : Rabs (1 - h - a) * Rabs (y - i) <= h * h / 2 * (2 * m)).
  { apply Rmult_le_compat; auto using Rabs_pos. }
  assert (Hm : 0 <= m) by (eapply Rle_trans; [apply Rabs_pos|exact Hi]).
  assert (B3 : h * (h * m) <= h * (H * m)).
  { apply Rmult_le_compat_l; auto. apply Rmult_le_compat_r; auto. }
  lra.
Qed.

Lemma steps_exact k H m : 0 <= k -> H <= 1 -> forall dt j n (c c1 : ecm R) x y,
  0 <= dt -> dt * k <= H -> ecm_steps n dt c = (c1, Ok tt) ->
  nth_error (p_itau (ep c)) j = Some k -> nth_error (e_Ir (es c)) j = Some x ->
  Rabs (e_I (es c)) <= m -> Rabs y <= m -> Rabs (x - y) <= H * m ->
  exists x', nth_error (e_Ir (es c1)) j = Some x' /\
    Rabs (x' - response k (e_I (es c)) y (INR n * dt)) <= H * m /\
    Rabs (response k (e_I (es c)) y (INR n * dt)) <= m.
Proof.
  intros Hk H1 dt j. induction n as [|n IH]; intros c c1 x y Hdt Hh E Ek Ex Hi Hy He.
  - cbn in E. injection E as <-. exists x. cbn [INR]. rewrite Rmult_0_l, response_0. auto.
  - cbn [ecm_steps] in E. destruct (ecm_step1 dt c) as [c' [[]| | |]] eqn:S1; try discriminate.
    assert (F := ecm_steps_frame 1 dt c c' (Ok tt)). cbn [ecm_steps] in F. rewrite S1 in F.
    destruct (F eq_refl) as (Fp & Fi & _).
    destruct (step1_R _ _ _ _ S1) as (_ & _ & _ & _ & A5).
    assert (Ex' := step_Ir_nth dt (e_I (es c)) _ _ j k x Ek Ex). rewrite <- A5 in Ex'.
    rewrite <- Fp in Ek. rewrite <- Fi in Hi, Ex'.
    assert (Q := one_step k (e_I (es c')) x y dt H m Hk Hdt Hh H1 Hi Hy He).
    assert (Q2 := response_bounded k (e_I (es c')) y dt m ltac:(rewrite Rmult_comm; apply Rmult_le_pos; auto) Hi Hy).
    destruct (IH c' c1 _ _ Hdt Hh E Ek Ex' Hi Q2 Q) as (x' & R1 & R2 & R3).
    rewrite response_add in R2, R3. exists x'. rewrite S_INR.
    replace ((INR n + 1) * dt) with (dt + INR n * dt) by ring. rewrite <- Fi. auto.
Qed.

Lemma hist_exact k H m : 0 <= k -> H <= 1 -> forall c log d, ecm_hist c log d -> forall j x y,
  nth_error (p_itau (ep c)) j = Some k -> nth_error (e_Ir (es c)) j = Some x ->
  Forall (fun '(i, dt, _) => Rabs i <= m /\ dt * k <= H) log -> Rabs y <= m -> Rabs (x - y) <= H * m ->
  exists x', nth_error (e_Ir (es d)) j = Some x' /\ Rabs (x' - ideal k y log) <= H * m.
Proof.
  intros Hk H1. induction 1 as [c|c i chk c1 st log c2 E _ IH|c v chk c1 st log c2 E _ IH|c v chk c1 n log c2 E _ IH
    |c t log c2 _ IH|c dt n c1 log c2 E _ IH]; intros j x y Ek Ex Hl Hy He.
  - exists x. auto.
  - apply setCurrent_frame in E. destruct E as (E1 & _ & _ & E4 & _). rewrite <- E1 in Ek. rewrite <- E4 in Ex.
    eapply IH; eauto.
  - apply setVoltage_frame in E. destruct E as (E1 & _ & _ & E4 & _). rewrite <- E1 in Ek. rewrite <- E4 in Ex.
    eapply IH; eauto.
  - apply setVoltage_throws in E. destruct E as [-> _]. eapply IH; eauto.
  - eapply IH; eauto.
  - apply Forall_cons_iff in Hl. destruct Hl as [[Hi Hh] Hl].
    unfold ecm_timeStep_CC in E. destruct (nltb dt (nZ 0)) eqn:D; [discriminate|].
    apply Rltb_false in D. rewrite R_nZ in D. rewrite Nat2Z.id in E.
    destruct (ecm_steps_frame _ _ _ _ _ E) as (Fp & _).
    destruct (steps_exact k H m Hk H1 dt j n c c1 x y D Hh E Ek Ex Hi Hy He) as (x' & R1 & R2 & R3).
    rewrite <- Fp in Ek. destruct (IH j x' _ Ek R1 Hl R3 R2) as (x2 & S1 & S2).
    exists x2. split; auto.
Qed.

Lemma pol_close H m log : forall rp itau ir ir',
  Forall (fun r => 0 <= r) rp -> length rp = length ir -> length itau = length ir -> length ir' = length ir ->
  (forall j k x, nth_error itau j = Some k -> nth_error ir j = Some x ->
     exists x', nth_error ir' j = Some x' /\ Rabs (x' - ideal k x log) <= H * m) ->
  Rabs (pol rp ir' - pol rp (ideal_pairs itau ir log)) <= Rsum rp * (H * m).
Proof.
  intros rp itau ir. revert rp itau.
  induction ir as [|x ir IH]; intros [|r rp] [|k itau] [|x' ir'] Hr L1 L2 L3 Hx; cbn in L1, L2, L3; try discriminate.
  - unfold pol. cbn. rewrite Rminus_0_r, Rabs_R0. lra.
  - apply Forall_cons_iff in Hr. destruct Hr as [Hr Hr'].
    destruct (Hx 0%nat k x eq_refl eq_refl) as (x1 & E1 & E2). injection E1 as <-.
    assert (I := IH rp itau ir' Hr' ltac:(lia) ltac:(lia) ltac:(lia) (fun j => Hx (Datatypes.S j))).
    unfold pol, ideal_pairs in *. cbn [combine map Rsum].
    match goal with |- Rabs (?a * ?b + ?c - (?a * ?d + ?e)) <= _ =>
      replace (a * b + c - (a * d + e)) with (a * (b - d) + (c - e)) by ring end.
    eapply Rle_trans; [apply Rabs_triang|]. rewrite Rabs_mult, (Rabs_pos_eq r) by auto.
    assert (r * Rabs (x' - ideal k x log) <= r * (H * m)) by (apply Rmult_le_compat_l; auto). lra.
Qed.

Lemma ideal_cut k N sched : (0 < N)%nat -> forall x, ideal k x (cut N sched) = ideal_sched k x sched.
Proof.
  intros HN. assert (0 < INR N) by (apply lt_0_INR; auto).
  unfold ideal, ideal_sched, cut. induction sched as [|[i T] l IH]; intros x; [reflexivity|].
  cbn [map fold_left]. rewrite IH. replace (INR N * (T / INR N)) with T by (field; lra). reflexivity.
Qed.

(** Bounds on the currents and durations of a schedule. *)
Lemma sched_bound (sched : list (R * R)) x : exists m T, 0 <= m /\ 0 <= T /\ Rabs x <= m /\
  Forall (fun '(i, t) => Rabs i <= m /\ t <= T) sched.
Proof.
  induction sched as [|[i t] l (m & T & Hm & HT & Hx & IH)].
  - exists (Rabs x), 0. repeat split; auto using Rabs_pos; lra.
  - exists (Rmax m (Rabs i)), (Rmax T t).
    assert (M1 := Rmax_l m (Rabs i)). assert (M2 := Rmax_r m (Rabs i)).
    assert (T1 := Rmax_l T t). assert (T2 := Rmax_r T t).
    repeat split; try lra. constructor; [lra|].
    eapply Forall_impl; [|exact IH]. intros [i' t'] []. lra.
Qed.
