(** * C11-C18: the equivalent-circuit cell *)
From Coq Require Import SpecFloat.
From Verif Require Import Base RFacts StatusModel UtilModel UtilSpec CellModel CellSpec CellProofs.
Local Open Scope R_scope.

(** ** C11 *)

(** The check returns the cell's voltage and exactly the verdict of the decision table, for all voltages,
    currents and limits whose soft band (with its margin of 0.01 V) lies within the hard limits. *)
Theorem C11_decision_table : forall (l : limits R) v i,
  l_VMIN l <= l_Vmin l - / 100 -> l_Vmin l <= l_Vmax l -> l_Vmax l + / 100 <= l_VMAX l ->
  exists s, check_voltage (Ok v) l i = Ok (v, s) /\
    forall s', verdict (l_Vmin l) (l_Vmax l) (l_VMIN l) (l_VMAX l) (/ 100) v i s' <-> s' = s.
Proof. exact check_voltage_table. Qed.
Print Assumptions C11_decision_table.

(** Doubles included: the reported voltage is what [V()] returned, and a throwing [V()] is "not calculated". *)
Theorem C11_reported_voltage : forall (A : Type) (NA : Num A) (l : limits A) i,
  (forall v w s, check_voltage (Ok v) l i = Ok (w, s) -> w = v) /\
  (forall n, exists w, check_voltage (Throw n) l i = Ok (w, V_not_calculated)).
Proof.
  intros. split.
  - unfold check_voltage. intros v w s H. injection H as <- _. reflexivity.
  - intros n. eexists. reflexivity.
Qed.
Print Assumptions C11_reported_voltage.

(** Finding: with hard limits equal to the soft limits the margin hides a hard violation. *)
Theorem C11_tight_hard_limit_refuted : exists (l : limits R) v i,
  l_VMIN l <= l_Vmin l /\ l_Vmin l <= l_Vmax l /\ l_Vmax l <= l_VMAX l /\
  0 < v < l_VMIN l /\ 0 < i /\ check_voltage (Ok v) l i = Ok (v, Success).
Proof.
  exists (mkLim (27/10) (42/10) (27/10) (42/10)), (2695/1000), 1. cbn [l_Vmin l_Vmax l_VMIN l_VMAX].
  repeat split; try lra. unfold check_voltage, V_ABSTOL. rewrite R_nZ, R_nlit.
  cbn [nsub nadd nltb nleb RNum l_Vmin l_Vmax]. rcase; try (exfalso; lra); reflexivity.
Qed.
Print Assumptions C11_tight_hard_limit_refuted.

(** Finding: in doubles a not-a-number voltage is reported as [Success]. *)
Theorem C11_nan_voltage_refuted : forall i : f64,
  check_voltage (Ok S754_nan) defaultLimits i = Ok (S754_nan, Success).
Proof. intros i. reflexivity. Qed.
Print Assumptions C11_nan_voltage_refuted.

Example C11_default_limits : forall l, l = defaultLimits (A := R) ->
  l_VMIN l <= l_Vmin l - / 100 /\ l_Vmin l <= l_Vmax l /\ l_Vmax l + / 100 <= l_VMAX l.
Proof. intros l ->. cbn. lra. Qed.

(** ** C12: commands are all-or-nothing, for every carrier *)

Theorem C12_setCurrent_atomic : forall (A : Type) (NA : Num A) (c c' : ecm A) Inew checkV st,
  ecm_setCurrent Inew checkV c = (c', Ok st) ->
  (isStatusBad st = true -> c' = c) /\
  (isStatusBad st = false ->
     ep c' = ep c /\ e_I (es c') = Inew /\ e_T (es c') = e_T (es c) /\ e_SOC (es c') = e_SOC (es c) /\
     e_Ir (es c') = e_Ir (es c) /\ e_time (es c') = e_time (es c) /\ e_Ah (es c') = e_Ah (es c) /\
     e_Wh (es c') = e_Wh (es c)).
Proof.
  intros A NA c c' i chk st H. apply setCurrent_spec in H. destruct H as [H1 H2]. split; [exact H1|].
  intros B. rewrite bad_ok in B. apply negb_false_iff in B. destruct (H2 B) as [-> _]. repeat split.
Qed.
Print Assumptions C12_setCurrent_atomic.

(** The status is the voltage check of the cell carrying the commanded current. *)
Theorem C12_setCurrent_status : forall (A : Type) (NA : Num A) (c c' : ecm A) Inew (checkV : bool) st,
  ecm_setCurrent Inew checkV c = (c', Ok st) ->
  if checkV then exists v, ecm_checkVoltage (mkEcm (ep c) (with_I (es c) Inew)) = Ok (v, st)
  else st = Success.
Proof. intros A NA. exact setCurrent_status. Qed.
Print Assumptions C12_setCurrent_status.

Theorem C12_setVoltage_atomic : forall (A : Type) (NA : Num A) (c c' : ecm A) Vnew checkI st,
  ecm_setVoltage Vnew checkI c = (c', Ok st) ->
  (isStatusBad st = true -> c' = c) /\
  (isStatusBad st = false ->
     ep c' = ep c /\ e_T (es c') = e_T (es c) /\ e_SOC (es c') = e_SOC (es c) /\
     e_Ir (es c') = e_Ir (es c) /\ e_time (es c') = e_time (es c) /\ e_Ah (es c') = e_Ah (es c) /\
     e_Wh (es c') = e_Wh (es c) /\
     (checkI = true -> exists v, ecm_checkVoltage c' = Ok (v, st))).
Proof.
  intros A NA c c' i chk st H. apply setVoltage_spec in H. destruct H as [H1 H2]. split; [exact H1|].
  intros B. rewrite bad_ok in B. apply negb_false_iff in B. destruct (H2 B) as (o & _ & -> & H3). repeat split.
  intros ->. exact H3.
Qed.
Print Assumptions C12_setVoltage_atomic.

(** When it throws (SOC outside the OCV table) nothing changed either. *)
Theorem C12_setVoltage_throw_atomic : forall (A : Type) (NA : Num A) (c c' : ecm A) Vnew checkI n,
  ecm_setVoltage Vnew checkI c = (c', Throw n) -> c' = c.
Proof. intros A NA c c' v chk n H. apply setVoltage_throws in H. tauto. Qed.
Print Assumptions C12_setVoltage_throw_atomic.

Theorem C12_setSOC_atomic : forall (A : Type) (NA : Num A) (c c' : ecm A) SOCnew checkV st,
  ecm_setSOC SOCnew checkV c = (c', Ok st) ->
  (isStatusBad st = true -> c' = c) /\
  (isStatusBad st = false ->
     ep c' = ep c /\ e_SOC (es c') = SOCnew /\ e_I (es c') = e_I (es c) /\ e_T (es c') = e_T (es c) /\
     e_Ir (es c') = e_Ir (es c) /\ e_time (es c') = e_time (es c) /\ e_Ah (es c') = e_Ah (es c) /\
     e_Wh (es c') = e_Wh (es c)) /\
  (nltb SOCnew (nZ 0) = true \/ nltb (nZ 1) SOCnew = true -> st = SOC_limits_violation).
Proof.
  intros A NA c c' i chk st H. assert (S := setSOC_status _ _ _ _ _ H).
  apply setSOC_spec in H. destruct H as [H1 H2]. split; [exact H1|]. split.
  - intros B. rewrite bad_ok in B. apply negb_false_iff in B. destruct (H2 B) as (-> & _). repeat split.
  - unfold check_SOC in S. intros [L|L]; rewrite L in S; [exact S|].
    destruct (nltb i (nZ 0)); exact S.
Qed.
Print Assumptions C12_setSOC_atomic.

Theorem C12_setSOC_status : forall (A : Type) (NA : Num A) (c c' : ecm A) x (checkV : bool) st,
  ecm_setSOC x checkV c = (c', Ok st) -> nltb x (nZ 0) = false -> nltb (nZ 1) x = false ->
  if checkV then exists v, ecm_checkVoltage (mkEcm (ep c) (with_SOC (es c) x)) = Ok (v, st)
  else st = Success.
Proof.
  intros A NA c c' x chk st H L1 L2. apply setSOC_status in H. unfold check_SOC in H.
  rewrite L1, L2 in H. exact H.
Qed.
Print Assumptions C12_setSOC_status.

Theorem C12_setStates_atomic : forall (A : Type) (NA : Num A) (c c' : ecm A) s rest checkV st,
  ecm_setStates s checkV c = (c', Ok (rest, st)) ->
  (isStatusBad st = true -> c' = c) /\
  (isStatusBad st = false -> ep c' = ep c /\ s = ecm_getStates c' ++ rest /\
     (checkV = true -> exists v, ecm_checkVoltage c' = Ok (v, st))).
Proof.
  intros A NA c c' s rest chk st H. apply setStates_spec in H. destruct H as [H1 H2]. split; [exact H1|].
  intros B. rewrite bad_ok in B. apply negb_false_iff in B. destruct (H2 B) as (E1 & E2 & _ & _ & E3).
  repeat split; auto. intros ->. exact E3.
Qed.
Print Assumptions C12_setStates_atomic.

(** Over the reals with a proper OCV table the commands always return a status. *)
Theorem C12_setCurrent_returns : forall (c : ecm R) i chk, good_ocv (p_ocv (ep c)) ->
  exists c' st, ecm_setCurrent i chk c = (c', Ok st).
Proof. exact setCurrent_total. Qed.
Print Assumptions C12_setCurrent_returns.

(** Both outcomes occur, in doubles: the default cell accepts 16 A and rejects 800 A. *)
Example C12_both_outcomes :
  snd (ecm_setCurrent (nZ 16) true (ecm_default (A := f64) 1)) = Ok Success /\
  snd (ecm_setCurrent (nZ 800) true (ecm_default (A := f64) 1)) = Ok VMIN_violation /\
  fst (ecm_setCurrent (nZ 800) true (ecm_default (A := f64) 1)) = ecm_default 1.
Proof. vm_compute. repeat split. Qed.
Example C12_default_cell_good : good_ocv (p_ocv (ep (ecm_default (A := R) 2))).
Proof. apply default_ocv_good. Qed.

(** ** C13 *)

(** Writing back the states of [c] into any equally configured cell [d] gives [c] and leaves the rest of the
    span. With the voltage check, provided the voltage of [c] itself passes. *)
Theorem C13_roundtrip : forall (A : Type) (NA : Num A) (c d : ecm A) rest checkV,
  ep d = ep c -> length (e_Ir (es d)) = length (e_Ir (es c)) ->
  ecm_validStates c = true ->
  (checkV = true -> exists v st, ecm_checkVoltage c = Ok (v, st) /\ isStatusOK st = true) ->
  exists st, isStatusOK st = true /\
    ecm_setStates (ecm_getStates c ++ rest) checkV d = (c, Ok (rest, st)).
Proof. intros A NA. exact states_roundtrip. Qed.
Print Assumptions C13_roundtrip.

(** An illegal temperature or state of charge is rejected. *)
Theorem C13_invalid_rejected : forall (A : Type) (NA : Num A) (c d : ecm A) rest checkV,
  ep d = ep c -> length (e_Ir (es d)) = length (e_Ir (es c)) ->
  nltb (e_SOC (es c)) (nZ 0) = true \/ nltb (nZ 1) (e_SOC (es c)) = true \/
  nltb (e_T (es c)) (p_Tmin (ep c)) = true \/ nltb (p_Tmax (ep c)) (e_T (es c)) = true ->
  ecm_setStates (ecm_getStates c ++ rest) checkV d = (d, Ok (rest, Invalid_states)).
Proof.
  intros A NA c d rest chk Hp Hl Hv. apply states_invalid; auto.
  unfold ecm_validStates, check_SOC.
  destruct Hv as [-> | [-> | [-> | ->]]]; cbn; rewrite ?orb_true_r; cbn; rewrite ?andb_false_r; reflexivity.
Qed.
Print Assumptions C13_invalid_rejected.

(** Finding: a span shorter than the cell's states is not rejected: it is read beyond its end. *)
Theorem C13_short_span_refuted : forall (A : Type) (NA : Num A) (d : ecm A) s checkV,
  (length s < ecm_nstates d)%nat -> snd (ecm_setStates s checkV d) = UB.
Proof. intros A NA d s chk H. rewrite states_short; auto. Qed.
Print Assumptions C13_short_span_refuted.

(** Validity over the reals is the documented range. *)
Theorem C13_valid_range : forall c : ecm R, ecm_validStates c = true <->
  0 <= e_SOC (es c) <= 1 /\ p_Tmin (ep c) <= e_T (es c) <= p_Tmax (ep c).
Proof.
  intros c. unfold ecm_validStates, check_SOC. rewrite !R_nZ. cbn [nltb RNum].
  rcase; cbn; split; intros; try discriminate; try lra; auto.
Qed.
Print Assumptions C13_valid_range.

Example C13_default_valid : ecm_validStates (ecm_default (A := f64) 2) = true /\
  exists v, ecm_checkVoltage (ecm_default (A := f64) 2) = Ok (v, Success).
Proof. vm_compute. split; eauto. Qed.

(** ** C14 *)

(** Over every history of commands and steps: charge, throughput and time are exactly accounted for. *)
Theorem C14_accounting : forall c log d, ecm_hist c log d -> p_cap (ep c) <> 0 ->
  e_SOC (es d) = e_SOC (es c) - net_charge log / 3600 / p_cap (ep c) /\
  e_Ah (es d) = e_Ah (es c) + abs_charge log / 3600 /\
  e_time (es d) = e_time (es c) + total_time log /\
  e_time (es c) <= e_time (es d) /\ e_Ah (es c) <= e_Ah (es d) /\ e_Wh (es c) <= e_Wh (es d).
Proof. exact hist_accounting. Qed.
Print Assumptions C14_accounting.

(** Steps never fail on a cell with a proper OCV table, so histories of any length exist. *)
Theorem C14_steps_return : forall (c : ecm R) dt n, good_ocv (p_ocv (ep c)) -> 0 <= dt ->
  exists c', ecm_timeStep_CC dt n c = (c', Ok tt).
Proof.
  intros c dt n G H. unfold ecm_timeStep_CC.
  destruct (nltb dt (nZ 0)) eqn:L; [apply Rltb_true in L; rewrite R_nZ in L; lra|].
  apply ecm_steps_total; auto.
Qed.
Print Assumptions C14_steps_return.

Example C14_some_history : exists d, ecm_hist (ecm_default 1) [(2, 10, 5%nat); (3, 2, 7%nat)] d.
Proof.
  set (c0 := mkEcm (ep (ecm_default (A := R) 1)) (with_I (es (ecm_default 1)) 2)).
  destruct (C14_steps_return c0 10 (Z.of_nat 5)) as [c1 E1]; [apply default_ocv_good|lra|].
  assert (F := E1). unfold ecm_timeStep_CC in F. destruct (nltb 10 (nZ 0)); [discriminate|].
  apply ecm_steps_frame in F. destruct F as (F & _).
  assert (G1 : good_ocv (p_ocv (ep c1))) by (rewrite F; apply default_ocv_good).
  set (c2 := mkEcm (ep c1) (with_I (es c1) 3)).
  destruct (C14_steps_return c2 2 (Z.of_nat 7)) as [d E2]; [exact G1|lra|].
  exists d. apply (h_setI _ 2 false c0 Success); [reflexivity|].
  apply (h_step c0 10 5 c1); [exact E1|].
  apply (h_setI c1 3 false c2 Success); [reflexivity|].
  apply (h_step c2 2 7 d [] d); [exact E2|]. constructor.
Qed.

(** ** C15 *)

(** Constant current: after n steps the distance of branch j to the current has shrunk by (1-dt/tau)^n,
    with the same sign (no overshoot). *)
Theorem C15_relaxation : forall (c c1 : ecm R) n dt j k x,
  ecm_timeStep_CC dt (Z.of_nat n) c = (c1, Ok tt) ->
  nth_error (p_itau (ep c)) j = Some k -> nth_error (e_Ir (es c)) j = Some x ->
  0 <= dt * k <= 1 ->
  exists x', nth_error (e_Ir (es c1)) j = Some x' /\
    e_I (es c) - x' = (1 - dt * k) ^ n * (e_I (es c) - x).
Proof.
  intros c c1 n dt j k x H. unfold ecm_timeStep_CC in H. destruct (nltb dt (nZ 0)); [discriminate|].
  rewrite Nat2Z.id in H. apply steps_relax; auto.
Qed.
Print Assumptions C15_relaxation.

(** Over any history with currents bounded by m, all branch currents stay bounded by m and the polarisation
    voltage by (sum of R) * m. *)
Theorem C15_bounded : forall m c log d, ecm_hist c log d ->
  Forall (fun '(i, dt, _) => Rabs i <= m /\ Forall (fun k => 0 <= dt * k <= 1) (p_itau (ep c))) log ->
  Forall (fun x => Rabs x <= m) (e_Ir (es c)) -> 0 <= m -> Forall (fun r => 0 <= r) (p_Rp (ep c)) ->
  Forall (fun x => Rabs x <= m) (e_Ir (es d)) /\
  Rabs (pol (p_Rp (ep d)) (e_Ir (es d))) <= Rsum (p_Rp (ep c)) * m.
Proof.
  intros m c log d H1 H2 H3 Hm Hr. assert (B := hist_bounded m c log d H1 H2 H3).
  split; [exact B|]. rewrite (hist_frame _ _ _ H1). apply pol_bounded; auto.
Qed.
Print Assumptions C15_bounded.

(** The default cell meets the step condition for every dt up to 100 s. *)
Example C15_default_step : Forall (fun k => 0 <= 100 * k <= 1) (p_itau (ep (ecm_default (A := R) 2))) /\
  Forall (fun r => 0 <= r) (p_Rp (ep (ecm_default (A := R) 2))).
Proof. cbn; repeat constructor; cbn; lra. Qed.

(** Finding: beyond twice the time constant the explicit step diverges: the distance to the current grows. *)
Theorem C15_long_step_refuted : exists (c c1 : ecm R) dt x x',
  0 < dt /\ nth_error (e_Ir (es c)) 0 = Some x /\ ecm_timeStep_CC dt 1 c = (c1, Ok tt) /\
  nth_error (e_Ir (es c1)) 0 = Some x' /\ Rabs (e_I (es c) - x) < Rabs (e_I (es c) - x').
Proof.
  set (c := mkEcm (ep (ecm_default (A := R) 1)) (with_I (es (ecm_default 1)) 1)).
  destruct (C14_steps_return c 2000 1) as [c1 E]; [apply default_ocv_good|lra|].
  exists c, c1, 2000, 0, (2000 * / (158 / 10000 * 38000)).
  assert (F := E). unfold ecm_timeStep_CC in F. destruct (nltb _ _); [discriminate|].
  change (Z.to_nat 1) with 1%nat in F. cbn [ecm_steps] in F.
  destruct (ecm_step1 2000 c) as [c' [[]| | |]] eqn:S1; try discriminate. injection F as ->.
  apply step1_R in S1. destruct S1 as (_ & _ & _ & _ & S1).
  split; [lra|]. split; [cbn; f_equal; unfold nZ; cbn; lra|]. split; [exact E|]. split.
  - rewrite S1. cbn. f_equal. lra.
  - cbn. rewrite Rminus_0_r, Rabs_R1. rewrite Rabs_left; [|lra]. lra.
Qed.
Print Assumptions C15_long_step_refuted.

(** ** C16: steps compose, for every carrier (bit for bit in doubles) *)
Theorem C16_compose : forall (A : Type) (NA : Num A) (c c1 : ecm A) dt n m,
  (0 <= n)%Z -> (0 <= m)%Z ->
  ecm_timeStep_CC dt n c = (c1, Ok tt) ->
  ecm_timeStep_CC dt (n + m) c = ecm_timeStep_CC dt m c1.
Proof.
  intros A NA c c1 dt n m Hn Hm. unfold ecm_timeStep_CC. destruct (nltb dt (nZ 0)); [discriminate|].
  intros H. rewrite Z2Nat.inj_add by lia. apply ecm_steps_add; exact H.
Qed.
Print Assumptions C16_compose.

Theorem C16_zero_and_negative : forall (A : Type) (NA : Num A) (c : ecm A) dt n,
  (nltb dt (nZ 0) = true -> ecm_timeStep_CC dt n c = (c, Throw 10)) /\
  (nltb dt (nZ 0) = false -> (n <= 0)%Z -> ecm_timeStep_CC dt n c = (c, Ok tt)).
Proof.
  intros A NA c dt n. unfold ecm_timeStep_CC. split; intros ->; [reflexivity|].
  intros H. replace (Z.to_nat n) with 0%nat by lia. reflexivity.
Qed.
Print Assumptions C16_zero_and_negative.

(** A step changes neither the parameters, the current nor the temperature. *)
Theorem C16_step_frame : forall (A : Type) (NA : Num A) (c c1 : ecm A) dt n r,
  ecm_timeStep_CC dt n c = (c1, r) ->
  ep c1 = ep c /\ e_I (es c1) = e_I (es c) /\ e_T (es c1) = e_T (es c) /\ (ecm_wf c -> ecm_wf c1).
Proof.
  intros A NA c c1 dt n r. unfold ecm_timeStep_CC. destruct (nltb dt (nZ 0)).
  - intros H; injection H as <- <-. auto.
  - apply ecm_steps_frame.
Qed.
Print Assumptions C16_step_frame.

(** Finding: in doubles one step of 2*dt is not two steps of dt (time 0.1+0.2 <> 0.3 style rounding), so step
    sizes cannot be exchanged bit for bit: here 3 x 0.1 s against 1 x 0.3 s. *)
Theorem C16_rescaled_step_refuted :
  e_time (es (fst (ecm_timeStep_CC (nlit 1 10) 3 (ecm_default (A := f64) 0)))) <>
  e_time (es (fst (ecm_timeStep_CC (nlit 3 10) 1 (ecm_default (A := f64) 0)))).
Proof. vm_compute. discriminate. Qed.
Print Assumptions C16_rescaled_step_refuted.

(** ** C17 *)
Theorem C17_delivers : forall (c c' : ecm R) v chk st,
  p_Rdc (ep c) <> 0 -> ecm_setVoltage v chk c = (c', Ok st) -> isStatusOK st = true ->
  ecm_V c' = Ok v /\
  exists ocv, ecm_OCV c = Ok ocv /\
    e_I (es c') = (ocv - v - pol (p_Rp (ep c)) (e_Ir (es c))) / p_Rdc (ep c).
Proof. exact setVoltage_delivers. Qed.
Print Assumptions C17_delivers.

Example C17_accepted : exists c' st, ecm_setVoltage (nlit 35 10) true (ecm_default (A := f64) 1) = (c', Ok st) /\
  isStatusOK st = true /\ nltb (nZ 0) (nabs (e_I (es c'))) = true.
Proof. eexists. eexists. split; [vm_compute; reflexivity|]. split; vm_compute; reflexivity. Qed.

(** Finding: an accepted voltage may violate the soft limits (a warning is returned, the current is kept) and a
    voltage outside the limits is accepted as [Success] when the resulting current is in the other direction. *)
Theorem C17_low_voltage_accepted_refuted : exists v c', ecm_setVoltage v true (ecm_default (A := f64) 0) = (c', Ok Vmin_violation)
  /\ c' <> ecm_default 0.
Proof. exists (nlit 21 10). eexists. split; [vm_compute; reflexivity|]. vm_compute. discriminate. Qed.
Print Assumptions C17_low_voltage_accepted_refuted.

(** ** C18 *)

(** Partial: the full property also covers time steps, which do not check the state of charge (see the
    refutation); commands alone never leave [0,1] over the reals. *)
Theorem C18_commands_keep_soc_partial : forall (c d : ecm R) l,
  ecm_cmds c l d -> 0 <= e_SOC (es c) <= 1 -> 0 <= e_SOC (es d) <= 1.
Proof. exact cmds_soc. Qed.
Print Assumptions C18_commands_keep_soc_partial.

(** When steps leave the table's range, every following check reports it: the voltage is 0,
    the check says "not calculated", current commands are rejected and voltage commands throw.
    Every carrier in which 0 <= 0. *)
Theorem C18_leaving_is_detected : forall (A : Type) (NA : Num A) (c : ecm A) (x0 xn : A),
  nth_error (xy_x (p_ocv (ep c))) 0 = Some x0 ->
  nth_error (xy_x (p_ocv (ep c))) (length (xy_x (p_ocv (ep c))) - 1) = Some xn ->
  nltb (e_SOC (es c)) x0 = true \/ nltb xn (e_SOC (es c)) = true ->
  nleb (nZ 0) (nZ 0) = true ->
  ecm_V c = Ok (nZ 0) /\ ecm_checkVoltage c = Ok (nZ 0, V_not_calculated) /\
  (forall i, ecm_setCurrent i true c = (c, Ok V_not_calculated)) /\
  (forall v chk, ecm_setVoltage v chk c = (c, Throw 1)).
Proof. intros A NA. exact out_of_range_detected. Qed.
Print Assumptions C18_leaving_is_detected.

(** Finding: a time step alone takes the state of charge outside [0,1] without any error. *)
Theorem C18_step_leaves_range_refuted :
  let c := fst (ecm_setCurrent (nZ 16) true (ecm_default (A := f64) 0)) in
  exists d, ecm_timeStep_CC (nZ 3600) 1 c = (d, Ok tt) /\ nltb (e_SOC (es d)) (nZ 0) = true.
Proof. eexists. split; vm_compute; reflexivity. Qed.
Print Assumptions C18_step_leaves_range_refuted.

(** Finding: not-a-number passes the range check; the cell then has SOC NaN and status [Success], and its
    voltage look-up is undefined (NaN cast to int). *)
Theorem C18_nan_soc_refuted :
  exists d, ecm_setSOC S754_nan false (ecm_default (A := f64) 0) = (d, Ok Success) /\
    e_SOC (es d) = S754_nan /\ ecm_validStates d = true /\ ecm_V d = UB.
Proof. eexists. split; [vm_compute; reflexivity|]. vm_compute. repeat split. Qed.
Print Assumptions C18_nan_soc_refuted.

Example C18_some_commands : exists d, ecm_cmds (ecm_default (A := R) 1) [CmdSOC (/ 4) false; CmdI 2 false] d.
Proof.
  set (d := mkEcm (ep (ecm_default (A := R) 1)) (with_SOC (es (ecm_default 1)) (/ 4))).
  set (d2 := mkEcm (ep d) (with_I (es d) 2)).
  exists d2. apply (q_S _ _ _ d Success).
  - unfold ecm_setSOC, check_SOC. rewrite !R_nZ. cbn [nltb RNum]. rcase; try lra. reflexivity.
  - apply (q_I _ _ _ d2 Success); [reflexivity|]. constructor.
Qed.
