(** * C92: the discretisation error of the cells *)
From Coq Require Import Lra Lia.
From Verif Require Import Base RFacts StatusModel UtilModel UtilSpec CellModel CellSpec CellProofs SpmModel SpmSpec SpmProofs
  SpmDiff PhysToy ExactSpec ExactProofs ExactSpm.
Local Open Scope R_scope.

(** What the model is compared with is the solution of the differential equation of an RC pair. *)
Theorem C92_equation : forall k i x, response k i x 0 = x /\
  forall t, derivable_pt_lim (response k i x) t (k * (i - response k i x t)).
Proof. intros k i x. split; [apply response_0|]. intros t. apply response_ode. Qed.
Print Assumptions C92_equation.

(** After any history of commands and steps, however long, the current of each pair is within [H m] of the exact
    one, where [m] bounds all currents and [H] the steps relative to the time constant. *)
Theorem C92_pairs : forall c log d j k x H m, ecm_hist c log d ->
  nth_error (p_itau (ep c)) j = Some k -> nth_error (e_Ir (es c)) j = Some x -> 0 <= k -> 0 <= H <= 1 ->
  Forall (fun '(i, dt, _) => Rabs i <= m /\ dt * k <= H) log -> Rabs x <= m ->
  exists x', nth_error (e_Ir (es d)) j = Some x' /\ Rabs (x' - ideal k x log) <= H * m.
Proof.
  intros c log d j k x H m Hh Ek Ex Hk HH Hl Hx.
  eapply (hist_exact k H m); eauto; [lra|]. replace (x - x) with 0 by ring. rewrite Rabs_R0.
  apply Rmult_le_pos; [lra|]. eapply Rle_trans; [apply Rabs_pos|exact Hx].
Qed.
Print Assumptions C92_pairs.

Lemma hist_len c log d : ecm_hist c log d -> ecm_wf c -> length (e_Ir (es d)) = length (e_Ir (es c)).
Proof.
  induction 1 as [c|c i chk c1 st log c2 E _ IH|c v chk c1 st log c2 E _ IH|c v chk c1 n log c2 E _ IH
    |c t log c2 _ IH|c dt n c1 log c2 E _ IH]; intros W; auto.
  - apply setCurrent_frame in E. destruct E as (E1 & _ & _ & E4 & _). rewrite IH, E4; auto.
    unfold ecm_wf in *. rewrite E1, E4. exact W.
  - apply setVoltage_frame in E. destruct E as (E1 & _ & _ & E4 & _). rewrite IH, E4; auto.
    unfold ecm_wf in *. rewrite E1, E4. exact W.
  - apply setVoltage_throws in E. destruct E as [-> _]. auto.
  - unfold ecm_timeStep_CC in E. destruct (nltb dt (nZ 0)) eqn:D; [discriminate|].
    destruct (ecm_steps_frame _ _ _ _ _ E) as (Fp & _ & _ & Fw). rewrite IH by auto.
    destruct (Fw W) as [W1 _]. destruct W as [W2 _]. rewrite Fp in W1. congruence.
Qed.

(** The voltage read after any history is that of the circuit with exact pairs at the same state of charge and
    current, within the sum of the pairs' resistances times [H m]. *)
Theorem C92_voltage : forall c log d H m o v, ecm_hist c log d -> ecm_wf c ->
  Forall (fun r => 0 <= r) (p_Rp (ep c)) -> Forall (fun k => 0 <= k) (p_itau (ep c)) -> 0 <= H <= 1 ->
  Forall (fun '(i, dt, _) => Rabs i <= m /\ Forall (fun k => dt * k <= H) (p_itau (ep c))) log ->
  Forall (fun x => Rabs x <= m) (e_Ir (es c)) ->
  ecm_OCV d = Ok o -> ecm_V d = Ok v ->
  Rabs (v - (o - p_Rdc (ep c) * e_I (es d) - pol (p_Rp (ep c)) (ideal_pairs (p_itau (ep c)) (e_Ir (es c)) log)))
  <= Rsum (p_Rp (ep c)) * (H * m).
Proof.
  intros c log d H m o v Hh W Hr Hk HH Hl Hx Ho Hv.
  assert (L := hist_len _ _ _ Hh W). assert (Fp := hist_frame _ _ _ Hh). destruct W as [W1 W2].
  unfold ecm_V in Hv. rewrite Ho, sub_drops_pol, Fp in Hv. injection Hv as <-. cbn [nsub nmul RNum].
  match goal with |- Rabs (?a - ?p - (?a - ?q)) <= _ => replace (a - p - (a - q)) with (- (p - q)) by ring end.
  rewrite Rabs_Ropp. apply pol_close; auto.
  intros j k x Ek Ex. eapply C92_pairs; eauto.
  - rewrite Forall_forall in Hk. apply Hk. eapply nth_error_In; eauto.
  - eapply Forall_impl; [|exact Hl]. intros [[i dt] n] [A B]. split; auto.
    rewrite Forall_forall in B. apply B. eapply nth_error_In; eauto.
  - rewrite Forall_forall in Hx. apply Hx. eapply nth_error_In; eauto.
Qed.
Print Assumptions C92_voltage.

Lemma INR_archimed r : exists n, r < INR n.
Proof.
  destruct (archimed (Rabs r)) as [H _]. assert (P := Rabs_pos r). assert (L := Rle_abs r).
  assert (0 <= up (Rabs r))%Z by (apply le_IZR; lra).
  exists (Z.to_nat (up (Rabs r))). rewrite INR_IZR_INZ, Z2Nat.id by auto. lra.
Qed.

(** Convergence: cut every stretch of a schedule into N steps; the end currents tend to those of the exact
    circuit as N grows. *)
Theorem C92_converges : forall sched k x eps, 0 <= k -> Forall (fun '(_, T) => 0 <= T) sched -> 0 < eps ->
  exists N0, forall N c d j, (N0 <= N)%nat -> ecm_hist c (cut N sched) d ->
    nth_error (p_itau (ep c)) j = Some k -> nth_error (e_Ir (es c)) j = Some x ->
    exists x', nth_error (e_Ir (es d)) j = Some x' /\ Rabs (x' - ideal_sched k x sched) < eps.
Proof.
  intros sched k x eps Hk HT He. destruct (sched_bound sched x) as (m & T & Hm & HT0 & Hx & Hb).
  destruct (INR_archimed (Rmax (T * k) (T * k * m / eps))) as [N1 HN].
  assert (A1 := Rmax_l (T * k) (T * k * m / eps)). assert (A2 := Rmax_r (T * k) (T * k * m / eps)).
  assert (P0 : 0 <= T * k) by (apply Rmult_le_pos; auto).
  exists (Datatypes.S N1). intros N c d j HNN Hh Ek Ex.
  assert (B : INR N1 < INR N) by (apply lt_INR; lia).
  assert (B0 : 0 < INR N) by lra.
  set (H := T * k / INR N).
  assert (HH : 0 <= H <= 1).
  { unfold H. split; [apply Rmult_le_pos; [auto|apply Rlt_le, Rinv_0_lt_compat; auto]|].
    apply Rmult_le_reg_r with (INR N); auto. unfold Rdiv. rewrite Rmult_assoc, Rinv_l by lra. lra. }
  destruct (C92_pairs c (cut N sched) d j k x H m Hh Ek Ex Hk HH) as (x' & R1 & R2); auto.
  - unfold cut. apply Forall_map. eapply Forall_impl; [|exact Hb]. intros [i t] [D1 D2]. split; auto.
    unfold H. replace (t / INR N * k) with (t * (k / INR N)) by (unfold Rdiv; ring).
    replace (T * k / INR N) with (T * (k / INR N)) by (unfold Rdiv; ring).
    apply Rmult_le_compat_r; auto. apply Rmult_le_pos; [auto|apply Rlt_le, Rinv_0_lt_compat; auto].
  - exists x'. split; auto. rewrite ideal_cut in R2 by lia. eapply Rle_lt_trans; [exact R2|].
    unfold H. apply Rmult_lt_reg_r with (INR N); auto.
    replace (T * k / INR N * m * INR N) with (T * k * m) by (field; lra).
    assert (T * k * m / eps < INR N) by lra.
    replace (T * k * m) with (eps * (T * k * m / eps)) by (field; lra).
    apply Rmult_lt_compat_l; auto.
Qed.
Print Assumptions C92_converges.

(** Every schedule can be run on the default cell, cut as finely as one likes. *)
Lemma runs N sched : (0 < N)%nat -> Forall (fun '(_, T) => 0 <= T) sched -> forall c : ecm R,
  good_ocv (p_ocv (ep c)) -> exists d, ecm_hist c (cut N sched) d.
Proof.
  intros HN HT. assert (0 < INR N) by (apply lt_0_INR; auto).
  induction HT as [|[i T] l HT1 HT2 IH]; intros c G; [exists c; constructor|].
  set (c0 := mkEcm (ep c) (with_I (es c) i)).
  destruct (ecm_steps_total N (T / INR N) c0 G) as [c1 E].
  destruct (ecm_steps_frame _ _ _ _ _ E) as (Fp & _).
  destruct (IH c1) as [d Hd]; [rewrite Fp; exact G|].
  exists d. apply (h_setI c i false c0 Success); [reflexivity|].
  change (cut N ((i, T) :: l)) with ((e_I (es c0), T / INR N, N) :: cut N l).
  apply (h_step c0 (T / INR N) N c1); auto.
  unfold ecm_timeStep_CC.
  destruct (nltb (T / INR N) (nZ 0)) eqn:D; [|rewrite Nat2Z.id; exact E].
  apply Rltb_true in D. rewrite R_nZ in D.
  assert (0 <= T / INR N) by (apply Rmult_le_pos; [auto|apply Rlt_le, Rinv_0_lt_compat; auto]). lra.
Qed.
Example C92_inhabited : forall N sched, (0 < N)%nat -> Forall (fun '(_, T) => 0 <= T) sched ->
  (exists d, ecm_hist (ecm_default 2) (cut N sched) d) /\ ecm_wf (ecm_default (A := R) 2) /\
  Forall (fun r => 0 <= r) (p_Rp (ep (ecm_default (A := R) 2))) /\
  Forall (fun k => 0 <= k /\ 10 * k <= 1 / 10) (p_itau (ep (ecm_default (A := R) 2))) /\
  Forall (fun x => Rabs x <= 0) (e_Ir (es (ecm_default (A := R) 2))).
Proof.
  intros N sched HN HT. split; [apply runs; auto; apply default_ocv_good|].
  cbn; repeat constructor; cbn; try lra; rewrite Rabs_pos_eq; lra.
Qed.

(** A single-particle cell whose ageing and temperature are held: each diffusion mode [k] of the anode relaxes at
    the rate [kap] (eigenvalue times diffusion constant) towards [g] times the current. After any current profile
    its value is within [H m] of the exact one, [m] bounding the value and [g] times the currents, [H] the steps
    times the rate. *)
Theorem C92_anode : forall (F : fns R) tm c l c' k H m, driven F tm c l c' -> diffusion_only tm c ->
  (k < length (s_zn (cs c)))%nat -> let M := q_M (cp c) in
  (k < length (m_An M))%nat -> (k < length (m_Bn M))%nat ->
  let kap := - (snd (calcDiffConstant F c) * nth k (m_An M) 0) in
  let g := nth k (m_Bn M) 0 / (kap * (q_surf (cp c) * (s_an (cs c) * q_n (cp c) * 96487 * s_thickn (cs c)))) in
  0 < kap -> 0 <= H <= 1 -> Forall (fun '(i, dt, _) => Rabs (g * i) <= m /\ dt * kap <= H) l ->
  Rabs (nth k (s_zn (cs c)) 0) <= m ->
  Rabs (nth k (s_zn (cs c')) 0 - ideal kap (nth k (s_zn (cs c)) 0) (scaled g l)) <= H * m.
Proof.
  intros F tm c l c' k H m D O L M La Lb kap g Hk HH Hl Hz.
  apply (driven_exact F k H m ltac:(lra) tm c l c' D O); auto.
  replace (nth k (s_zn (cs c)) 0 - nth k (s_zn (cs c)) 0) with 0 by ring. rewrite Rabs_R0.
  apply Rmult_le_pos; [lra|]. eapply Rle_trans; [apply Rabs_pos|exact Hz].
Qed.
Print Assumptions C92_anode.
(** The same for the cathode, which the current drives in the other direction. *)
Theorem C92_cathode : forall (F : fns R) tm c l c' k H m, driven F tm c l c' -> diffusion_only tm c ->
  (k < length (s_zp (cs c)))%nat -> let M := q_M (cp c) in
  (k < length (m_Ap M))%nat -> (k < length (m_Bp M))%nat ->
  let kap := - (fst (calcDiffConstant F c) * nth k (m_Ap M) 0) in
  let g := - (nth k (m_Bp M) 0 / (kap * (q_surf (cp c) * (s_ap (cs c) * q_n (cp c) * 96487 * s_thickp (cs c))))) in
  0 < kap -> 0 <= H <= 1 -> Forall (fun '(i, dt, _) => Rabs (g * i) <= m /\ dt * kap <= H) l ->
  Rabs (nth k (s_zp (cs c)) 0) <= m ->
  Rabs (nth k (s_zp (cs c')) 0 - ideal kap (nth k (s_zp (cs c)) 0) (scaled g l)) <= H * m.
Proof.
  intros F tm c l c' k H m D O L M La Lb kap g Hk HH Hl Hz.
  apply (driven_exact_p F k H m ltac:(lra) tm c l c' D O); auto.
  replace (nth k (s_zp (cs c)) 0 - nth k (s_zp (cs c)) 0) with 0 by ring. rewrite Rabs_R0.
  apply Rmult_le_pos; [lra|]. eapply Rle_trans; [apply Rabs_pos|exact Hz].
Qed.
Print Assumptions C92_cathode.

(** The small cell of C72 with ageing held: it can be driven by any profile, and its second modes relax. *)
Definition held (i : R) : spm R :=
  let t := toy plain i true in mkSpm (cp t) (cs t) false (c_str t) true true 0 0 0 300.
Lemma held_steps F n dt : forall c, toy_like plain c -> exists c', spm_steps F n dt c = (c', Ok tt) /\ toy_like plain c'.
Proof.
  induction n as [|n IH]; intros c L; [exists c; auto|].
  cbn [spm_steps]. destruct (toy_step1 F plain dt c L) as (c1 & -> & L1). apply IH, L1.
Qed.
Lemma held_driven F tm l : Forall (fun '(_, dt, _) => 0 <= dt) l -> forall c, toy_like plain c -> c_block c = true ->
  exists c', driven F tm c l c'.
Proof.
  induction 1 as [|[[i dt] n] l Hd _ IH]; intros c L B; [exists c; constructor|].
  assert (E : exists c1, spm_timeStep_CC F tm dt (Z.of_nat n) (fst (spm_setCurrent F i false c)) = (c1, Ok tt) /\
                         toy_like plain c1 /\ c_block c1 = true).
  { unfold spm_timeStep_CC. rewrite R_nZ. assert (nltb dt 0 = false) as -> by (apply Rltb_false; lra).
    rewrite Nat2Z.id.
    match goal with |- context [spm_steps F _ dt ?e] => set (c0 := e) end.
    assert (L0 : toy_like plain c0) by exact L.
    destruct (held_steps F n dt c0 L0) as (c2 & E & L2). rewrite E.
    destruct (steps_z F _ _ _ _ E) as ((_ & _ & _ & B2) & _).
    assert (B3 : c_block c2 = true) by (rewrite B2; exact B). rewrite B3. exists c2. auto. }
  destruct E as (c1 & E1 & L1 & B1). destruct (IH c1 L1 B1) as [c' D].
  exists c'. econstructor; eauto.
Qed.
Example C92_modes_inhabited : forall i n, exists dt c', 0 < dt /\ diffusion_only 0 (held i) /\
  driven libm 0 (held i) [(i, dt, n); (- i, dt, n)] c' /\
  let kap := - (snd (calcDiffConstant libm (held i)) * nth 1 (m_An (q_M (cp (held i)))) 0) in
  0 < kap /\ dt * kap <= 1 / 10.
Proof.
  intros i n. set (kap := - (snd (calcDiffConstant libm (held i)) * nth 1 (m_An (q_M (cp (held i)))) 0)).
  assert (Hk : 0 < kap).
  { unfold kap, calcDiffConstant. cbn [snd libm f_exp held cp cs toy toy_par toy_m q_M m_An nth s_Dn q_DnT].
    match goal with |- context [exp ?x] => assert (P := exp_pos x); set (a := exp x) in * end.
    cbn [nmul RNum]. lra. }
  assert (Hd : 0 < 1 / 10 / kap) by (apply Rdiv_lt_0_compat; lra).
  destruct (held_driven libm 0 [(i, 1 / 10 / kap, n); (- i, 1 / 10 / kap, n)]) with (c := held i) as [c' D].
  - repeat constructor; lra.
  - split; [reflexivity|]. exists 0, 0. split; reflexivity.
  - reflexivity.
  - exists (1 / 10 / kap), c'. split; auto. split; [left; reflexivity|]. split; auto. split; auto.
    right. field. lra.
Qed.
