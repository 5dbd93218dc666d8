(** * C19-C25: the single-particle cell *)
From Coq Require Import SpecFloat Lra.
From Verif Require Import Base RFacts StatusModel UtilModel CellModel CellSpec ModuleModel SpmModel SpmSpec SpmProofs SpmReal
  SpmDiff SpmAge SpmRound SpmScale SpmUnitModel SpmWitness.
Local Open Scope R_scope.

Lemma setC_ok (A : Type) (NA : Num A) x y (c c1 : spm A) r : spm_setC x y c = (c1, Ok r) ->
  c_valid c1 = false /\ cp c1 = cp c /\ ageing c1 = ageing c.
Proof.
  unfold spm_setC. match goal with |- (if ?b then _ else _) = _ -> _ => destruct b end; [discriminate|].
  destruct (ntrunc _); [|discriminate].
  match goal with |- (if ?b then _ else _) = _ -> _ => destruct b end; [|discriminate].
  intros E. apply pair_equal_spec in E. destruct E as [<- _]. repeat split.
Qed.

(** ** C19: rejected commands. Any carrier, any exponential, inverse hyperbolic sine and power. *)

Theorem C19_setCurrent_rejected : forall (A : Type) (NA : Num A) (F : fns A) (c c' : spm A) i chk st,
  spm_setCurrent F i chk c = (c', Ok st) -> isStatusBad st = true -> c' = c.
Proof. intros *. apply setCurrent_bad. Qed.
Print Assumptions C19_setCurrent_rejected.

(** An accepted current is installed and nothing but the stored voltage changes with it. *)
Theorem C19_setCurrent_accepted : forall (A : Type) (NA : Num A) (F : fns A) (c c' : spm A) i chk st,
  spm_setCurrent F i chk c = (c', Ok st) -> isStatusBad st = false ->
  cp c' = cp c /\ nth_error (spm_getStates c') 0 = Some i /\
  (forall k, k <> 0%nat -> k <> 1%nat -> nth_error (spm_getStates c') k = nth_error (spm_getStates c) k) /\
  read_V F c' = fresh_V F c'.
Proof.
  intros A NA F c c' i chk st H B.
  assert (K : cp c' = cp c /\ exists v, cs c' = st_V (st_I (cs c) i) v).
  { unfold spm_setCurrent, spm_checkCurrent, spm_checkVoltage in H. destruct chk.
    - match type of H with context [spm_V F ?d] => set (c1 := d) in H end.
      destruct (spm_V F c1) as [c2 r] eqn:E. destruct (V_same _ _ _ _ E) as (P & (v & Q) & _).
      destruct (check_voltage r (q_lim (cp c1)) (s_I (cs c1))) as [[w st']|n| |]; try discriminate.
      cbn [rmap rbind snd] in H. apply pair_equal_spec in H. destruct H as [H1 H2]. injection H2 as ->.
      rewrite B in H1. subst c'. split; [exact P|]. exists v. exact Q.
    - cbn in H. injection H as <- _. split; [reflexivity|]. exists (s_V (cs c)). cbn. now destruct (cs c). }
  destruct K as (K1 & v & K2). split; [exact K1|]. unfold spm_getStates. rewrite K2. split; [reflexivity|]. split.
  - intros [|[|k]] H0 H1; try congruence. reflexivity.
  - assert (Z : coherent F (fst (spm_setCurrent F i chk (set_valid c false)))).
    { apply after_setCurrent. now apply coherent_invalid. }
    (* the store flag before the call does not matter when the command is accepted *)
    assert (E : fst (spm_setCurrent F i chk (set_valid c false)) = c').
    { unfold spm_setCurrent, spm_checkCurrent, spm_checkVoltage in *.
      change (set_valid (set_st (set_valid c false) (st_I (cs (set_valid c false)) i)) false)
        with (set_valid (set_st c (st_I (cs c) i)) false).
      match type of H with context [set_valid (set_st c ?x) false] => set (c1 := set_valid (set_st c x) false) in * end.
      destruct chk.
      - destruct (spm_V F c1) as [c2 r].
        destruct (check_voltage r (q_lim (cp c1)) (s_I (cs c1))) as [[w st']|n| |]; try discriminate.
        cbn [rmap rbind snd] in *. apply pair_equal_spec in H. destruct H as [H1 H2]. injection H2 as ->.
        rewrite B in *. exact H1.
      - apply pair_equal_spec in H. destruct H as [H1 H2]. injection H2 as <-. exact H1. }
    rewrite E in Z. exact Z.
Qed.
Print Assumptions C19_setCurrent_accepted.

(** A rejected state of charge changes nothing observable (a voltage computed on the way may be kept). *)
Theorem C19_setSOC_rejected : forall (A : Type) (NA : Num A) (F : fns A) (c c' : spm A) x chk st,
  spm_setSOC F x chk c = (c', Ok st) -> isStatusBad st = true -> unchanged F c c' /\ (c_valid c = true -> c' = c).
Proof. intros *. apply setSOC_bad. Qed.
Print Assumptions C19_setSOC_rejected.

Theorem C19_setStates_rejected : forall (A : Type) (NA : Num A) (F : fns A) (c c' : spm A) l chk rest st,
  spm_setStates F l chk c = (c', Ok (rest, st)) -> isStatusBad st = true -> c' = c.
Proof. intros *. apply setStates_bad. Qed.
Print Assumptions C19_setStates_rejected.

(** The only exception of the three commands is the 15 of a state vector with negative lost lithium. *)
Theorem C19_exceptions : forall (A : Type) (NA : Num A) (F : fns A) (c : spm A),
  (forall i chk n, snd (spm_setCurrent F i chk c) <> Throw n) /\
  (forall x chk n, snd (spm_setSOC F x chk c) <> Throw n) /\
  (forall l chk n, snd (spm_setStates F l chk c) = Throw n ->
     n = 15%Z /\ exists lli, nth_error l 4 = Some lli /\ (lli <? nZ 0)%num = true).
Proof.
  intros A NA F c. split; [|split].
  - intros i chk n. destruct (spm_setCurrent F i chk c) as [c' r] eqn:E.
    destruct (setCurrent_outcome _ _ _ _ _ _ E) as [(st & ->)|[-> | ->]]; discriminate.
  - intros x chk n. unfold spm_setSOC, spm_checkVoltage. destruct (check_SOC x); [|discriminate]. cbn [negb].
    destruct chk; [|discriminate]. match goal with |- context [spm_V F ?d] => destruct (spm_V F d) as [c2 r] end.
    destruct r; cbn [check_voltage snd]; discriminate.
  - intros l chk n H. destruct (spm_setStates F l chk c) as [c' r] eqn:E. cbn [snd] in H. subst r.
    destruct (setStates_throws _ _ _ _ _ _ E) as (-> & s & rest & R & N & _). split; [reflexivity|].
    exists (s_LLI s). split; [|exact N]. revert R. unfold spm_read.
    repeat (destruct l as [|? l]; [discriminate|]).
    match goal with |- context [match ?x with _ => _ end] => destruct x as [|? [|? [|? [|? [|? [|? [|? ?]]]]]]] end; try discriminate.
    intros R. injection R as <- _. reflexivity.
Qed.
Print Assumptions C19_exceptions.

(** A successful voltage command leaves the cell within 1 microvolt of the requested voltage. *)
Theorem C19_setVoltage_success : forall (A : Type) (NA : Num A) (F : fns A) tm (c c' : spm A) v,
  spm_setVoltage F tm v c = (c', Ok Success) ->
  exists w, read_V F c' = Ok w /\ (nabs (v - w) <? nlit 1 1000000)%num = true.
Proof.
  intros A NA F tm c c' v. unfold spm_setVoltage, setVoltage_iterative. generalize (o_I (spm_ops F tm) c) as ia.
  generalize 50%nat as it. intros it. revert c. induction it as [|it IH]; intros c ia H; cbn [setVoltage_loop] in H; [discriminate|].
  change (o_V (spm_ops F tm)) with (spm_V F) in H.
  change (o_setCurrent (spm_ops F tm)) with (fun i b => spm_setCurrent F i b) in H. cbv beta in H.
  destruct (spm_V F c) as [c1 [va|n| |]] eqn:E1; try discriminate.
  destruct (nabs (v - va) <? nlit 1 1000000)%num eqn:L.
  - injection H as <-. exists va. split; [|exact L].
    replace c1 with (fst (spm_V F c)) by now rewrite E1. rewrite read_V_stable. unfold read_V. now rewrite E1.
  - match type of H with context [spm_setCurrent F ?i true c1] => destruct (spm_setCurrent F i true c1) as [c2 [st|n| |]] end; try discriminate.
    destruct (spm_V F c2) as [c3 [vb|n| |]]; try discriminate.
    match type of H with context [spm_setCurrent F ?i true c3] => destruct (spm_setCurrent F i true c3) as [c4 [st'|n| |]] end; try discriminate.
    exact (IH _ _ H).
Qed.
Print Assumptions C19_setVoltage_success.

(** Finding: the exception for negative lost lithium leaves the offending states installed. *)
Theorem C19_setStates_exception_refuted : forall (A : Type) (NA : Num A) (F : fns A) (c : spm A) (s : spm_st A) chk,
  length (s_zp s) = length (s_zp (cs c)) -> length (s_zn s) = length (s_zn (cs c)) -> (s_LLI s <? nZ 0)%num = true ->
  exists c', spm_setStates F (st_list s) chk c = (c', Throw 15) /\ cs c' = s.
Proof.
  intros A NA F c s chk H1 H2 H3. unfold spm_setStates. rewrite <- (app_nil_r (st_list s)), read_list by assumption.
  unfold spm_validStates. destruct (getCSurf F _) as [[a b] f]. cbn [cs set_valid set_st]. rewrite H3.
  eexists. split; reflexivity.
Qed.
Print Assumptions C19_setStates_exception_refuted.

(** Finding: in doubles setting a not-a-number current, on the default cell at its reference temperature, is undefined
    behaviour (the OCV tables are indexed with a not-a-number). *)
Theorem C19_nan_current_refuted : forall g h p,
  snd (spm_setCurrent (w_fns g h p) S754_nan true w_ref) = UB.
Proof. intros g h p. vm_compute. reflexivity. Qed.
Print Assumptions C19_nan_current_refuted.

(** A cell with negligible overpotential (rate constants 1e300), so that only the arithmetic matters. *)
Definition w_big : spm f64 :=
  Eval vm_compute in spm_setChar (s_Dp (cs w_ref)) (s_Dn (cs w_ref)) (nZ (10 ^ 300)) (nZ (10 ^ 300)) (nlit 1 100) w_ref.
(** Finding: asking for a voltage the cell cannot reach divides by the difference of two equal voltages, and the
    resulting not-a-number current is undefined behaviour rather than a failure report. *)
Theorem C19_setVoltage_refuted : forall g h p, snd (spm_setVoltage (w_fns g h p) 0 (nZ 100) w_big) = UB.
Proof. intros g h p. vm_compute. reflexivity. Qed.
Print Assumptions C19_setVoltage_refuted.

(** Both a rejected and an accepted current, in doubles. *)
Example C19_inhabited : forall g h p,
  snd (spm_setCurrent (w_fns g h p) (nZ (-500)) true w_big) = Ok VMAX_violation /\
  snd (spm_setCurrent (w_fns g h p) (nZ 1) true w_big) = Ok Success /\
  snd (spm_setSOC (w_fns g h p) (nZ 2) true w_big) = Ok SOC_limits_violation /\
  snd (spm_setVoltage (w_fns g h p) 0 (nlit 35 10) w_big) = Ok Success.
Proof. intros g h p. vm_compute. repeat split. Qed.

(** ** C20: the stored voltage *)

(** Any carrier: along every history of reads, commands (accepted, rejected or throwing), state restores, parameter
    fits of geometry and concentration, and time steps with degradation blocked, [V()] returns the voltage of the
    present states. Missing: temperature changes, characterisation and curve changes (false, see below), time steps
    with degradation. *)
Theorem C20_fresh_partial : forall (A : Type) (NA : Num A) (F : fns A) tm c l c',
  history F tm tame c l c' -> c_valid c = false -> read_V F c' = fresh_V F c'.
Proof. intros A NA F tm c l c' H V. apply (history_coherent F tm c l c' H). now apply coherent_invalid. Qed.
Print Assumptions C20_fresh_partial.

(** Over the reals also unblocked time steps, for cells with no degradation model and no thermal model. *)
Theorem C20_fresh_nodeg_partial : forall (F : fns R) c l c',
  history F 0 tame_nodeg c l c' -> c_valid c = false -> read_V F c' = fresh_V F c'.
Proof. intros F c l c' H V. apply (history_nodeg F c l c' H). now apply coherent_invalid. Qed.
Print Assumptions C20_fresh_nodeg_partial.

(** A cell fresh from the constructor has no stored voltage. *)
Theorem C20_constructed : forall (A : Type) (NA : Num A) m p n dn dt d capf resf sf lf (c : spm A),
  spm_make m p n dn dt d capf resf sf lf = Ok c -> c_valid c = false.
Proof.
  intros *. unfold spm_make, spm_default.
  match goal with |- context [spm_setC ?a ?b ?x] => destruct (spm_setC a b x) as [c1 [[]|e| |]] eqn:E end; try discriminate.
  cbn [rbind]. intros H.
  assert (V : c_valid c1 = false).
  { now apply setC_ok in E. }
  destruct (q_var _) as [[[a b] x] y] in H. injection H as <-. exact V.
Qed.
Print Assumptions C20_constructed.

(** Finding: a temperature change keeps the stored voltage. For every resting cell with an entropic coefficient the
    voltage read after it is wrong. *)
Theorem C20_setT_refuted : forall (F : fns R) (c : spm R) v k t,
  f_asinh F 0 = 0 -> s_I (cs c) = 0 -> c_valid c = true -> read_V F c = fresh_V F c -> calcV F c = Ok (Some v) ->
  XYdata_interp (q_dOCVtot (cp c)) (ndiv (fst (fst (getCSurf F c))) (q_Cmaxp (cp c))) true = Ok k ->
  k <> 0 -> t <> s_T (cs c) ->
  read_V F (spm_setT t c) = Ok v /\ fresh_V F (spm_setT t c) = Ok (v + (t - s_T (cs c)) * k).
Proof.
  intros F c v k t HA HI HV HC Hv Hk _ _.
  split.
  { rewrite (read_V_valid F (spm_setT t c)) by exact HV. rewrite (read_V_valid F c) in HC by exact HV.
    rewrite fresh_V_calc, Hv in HC. exact HC. }
  rewrite fresh_V_calc.
  assert (D0 : forall x : R, ndiv 0 x = 0) by (intros; cbn [ndiv RNum]; unfold Rdiv; ring).
  assert (N0 : nopp 0 = (0 : R)) by (cbn [nopp RNum]; ring).
  assert (M0 : forall x : R, nmul x 0 = 0) by (intros; cbn [nmul RNum]; ring).
  assert (G : getCSurf F (spm_setT t c) = getCSurf F c).
  { unfold getCSurf, calcMolarFlux, calcSurfaceConcentration. cbn [cs cp spm_setT set_str set_st s_I s_zp s_zn s_ap s_an s_thickp s_thickn st_T].
    rewrite HI. destruct (calcDiffConstant F c) as [a b]. destruct (calcDiffConstant F _) as [a' b'].
    rewrite !D0, !N0, !D0, !M0, !D0. reflexivity. }
  unfold calcV in *. rewrite G. destruct (getCSurf F c) as [[cps cns] fl]. cbn [fst] in Hk.
  destruct (negb fl); [discriminate|]. change (cp (spm_setT t c)) with (cp c). rewrite Hk in *. cbn [rbind] in *.
  destruct (XYdata_interp (q_OCVn (cp c)) _ true) as [on|e| |]; try discriminate. cbn [rbind] in *.
  destruct (XYdata_interp (q_OCVp (cp c)) _ true) as [op|e| |]; try discriminate. cbn [rbind] in *.
  change (s_I (cs (spm_setT t c))) with (s_I (cs c)). rewrite HI in *. rewrite D0 in *.
  unfold calcOverPotential in *. rewrite !M0, !D0 in *. rewrite HA in *. rewrite !M0 in *.
  change (s_T (cs (spm_setT t c))) with t. injection Hv as <-. f_equal.
  cbn [nadd nsub nmul RNum]. ring.
Qed.
Print Assumptions C20_setT_refuted.

(** Finding: changing characterisation parameters, OCV curves, or a time step that degrades the electrodes keeps the
    voltage computed before. In doubles, on the cell above under 1 A: the voltage read and the voltage of the states. *)
Definition w_on (g h : f64 -> f64) (p : f64 -> f64 -> f64) : spm f64 := fst (spm_setCurrent (w_fns g h p) (nZ 1) true w_big).
Definition differ (r1 r2 : res f64) : Prop :=
  match r1, r2 with Ok x, Ok y => neqb x y = false /\ nltb (nZ 0) x = true /\ nltb (nZ 0) y = true | _, _ => False end.
Theorem C20_characterisation_refuted : forall g h p, let F := w_fns g h p in
  let c := after F 0 (OpCharacterisation (s_Dp (cs w_ref)) (s_Dn (cs w_ref)) (nZ (10 ^ 300)) (nZ (10 ^ 300)) (nlit 2 100))
                 (w_on g h p) in
  differ (read_V F c) (fresh_V F c).
Proof. intros g h p. vm_compute. repeat split. Qed.
Print Assumptions C20_characterisation_refuted.
Theorem C20_curves_refuted : forall g h p, let F := w_fns g h p in
  let c := after F 0 (OpCurves w_n w_0) (w_on g h p) in
  differ (read_V F c) (fresh_V F c).
Proof. intros g h p. vm_compute. repeat split. Qed.
Print Assumptions C20_curves_refuted.
(** The same cell with loss of active material by model 4. *)
Definition w_lam4 : spm f64 :=
  Eval vm_compute in
    (let c := w_or (spm_make w_m w_p w_n w_0 w_0 (mkDeg [] 0 [] 0 [4%Z] 0) (nZ 1) (nZ 1) (nZ 1) (nZ 1)) w_dummy in
     spm_setChar (s_Dp (cs c)) (s_Dn (cs c)) (nZ (10 ^ 300)) (nZ (10 ^ 300)) (nlit 1 100) (spm_setT (nZ 298) c)).
Theorem C20_degradation_refuted : forall g h p, let F := w_fns g h p in
  let c := after F 0 (OpStep (nZ 10000) 1) (fst (spm_setCurrent F (nlit 1 10) true w_lam4)) in
  differ (read_V F c) (fresh_V F c).
Proof. intros g h p. vm_compute. repeat split. Qed.
Print Assumptions C20_degradation_refuted.

(** A history of the theorem above, with a read, commands and a time step. *)
Example C20_inhabited : forall g h p, let F := w_fns g h p in exists c',
  history F 0 tame w_ref [OpBlock true; OpV; OpSOC (nlit 6 10) true; OpCurrent (nZ 1) false; OpCurrent (nZ 0) true;
                          OpStep (nZ 2) 1; OpC (nlit 1 2) (nlit 1 2)] c' /\ c_valid w_ref = false.
Proof.
  intros g h p F. eexists. split; [|reflexivity].
  repeat (apply hist_cons; [first [reflexivity | exact Logic.I]|]). apply hist_nil.
Qed.

(** ** C21: accounting *)

(** Along every operating history (commands, reads, temperature and concentration changes, any degradation and thermal
    model) with completed time steps. *)
Theorem C21_accounting : forall (F : fns R) tm c log c', spm_hist F tm c log c' ->
  s_SOC (cs c') = s_SOC (cs c) - net_charge log / (q_cap (cp c) * 3600) /\
  s_time (cs c') = s_time (cs c) + total_time log /\
  s_Ah (cs c') = s_Ah (cs c) + abs_charge log / 3600.
Proof. intros F tm c log c' H. now destruct (hist_counters _ _ _ _ _ H). Qed.
Print Assumptions C21_accounting.

(** Time, charge and energy throughput never fall, whatever the outcome of the calls (also throwing time steps). *)
Theorem C21_never_decrease : forall (F : fns R) tm c l c', history F tm (fun _ => operating) c l c' ->
  s_time (cs c) <= s_time (cs c') /\ s_Ah (cs c) <= s_Ah (cs c') /\ s_Wh (cs c) <= s_Wh (cs c').
Proof. intros F tm c l c'. apply hist_mono. Qed.
Print Assumptions C21_never_decrease.

(** A completed history: one step of an hour on a two-electrode cell, any cell whose step completes. *)
Example C21_inhabited : forall (F : fns R) (c c1 : spm R),
  spm_timeStep_CC F 0 2 (Z.of_nat 3) (spm_setT 300 c) = (c1, Ok tt) ->
  spm_hist F 0 c [(s_I (cs c), 2, 3%nat)] c1 /\ net_charge [(s_I (cs c), 2, 3%nat)] = 6 * s_I (cs c).
Proof.
  intros F c c1 H. split.
  - apply (sh_cmd F 0 c (OpT 300)); [exact Logic.I|discriminate|]. cbn [after].
    apply (sh_step F 0 (spm_setT 300 c) 2 3 c1); [exact H|constructor].
  - unfold net_charge. cbn [map Rsum INR]. ring.
Qed.
(** In doubles such a step completes. *)
Example C21_step_completes : forall g h p,
  snd (spm_timeStep_CC (w_fns g h p) 0 (nZ 2) 3 (w_on g h p)) = Ok tt.
Proof. intros g h p. vm_compute. reflexivity. Qed.

(** ** C22: diffusion *)

(** Superposition: if at the start the transformed concentrations of cell 3 are [al] times those of cell 1 plus [be]
    times those of cell 2, and its current profile is the same combination of theirs, then so are the transformed
    concentrations after the profiles, of any length. *)
Theorem C22_superposition : forall (F : fns R) tm al be l1 l2 l3 c1 c2 c3 d1 d2 d3,
  superposed al be l1 l2 l3 -> same_build c1 c2 -> same_build c1 c3 ->
  diffusion_only tm c1 -> diffusion_only tm c2 -> diffusion_only tm c3 ->
  length (s_zp (cs c1)) = length (s_zp (cs c2)) -> length (s_zn (cs c1)) = length (s_zn (cs c2)) ->
  s_zp (cs c3) = lin al be (s_zp (cs c1)) (s_zp (cs c2)) -> s_zn (cs c3) = lin al be (s_zn (cs c1)) (s_zn (cs c2)) ->
  driven F tm c1 l1 d1 -> driven F tm c2 l2 d2 -> driven F tm c3 l3 d3 ->
  s_zp (cs d3) = lin al be (s_zp (cs d1)) (s_zp (cs d2)) /\ s_zn (cs d3) = lin al be (s_zn (cs d1)) (s_zn (cs d2)).
Proof.
  intros F tm al be l1 l2 l3 c1 c2 c3 d1 d2 d3 S B2 B3 O1 O2 O3 L1 L2 Zp Zn H1 H2 H3.
  exact (driven_superposed F tm al be l1 l2 l3 S c1 c2 c3 d1 d2 d3 B2 B3 O1 O2 O3 L1 L2 Zp Zn H1 H2 H3).
Qed.
Print Assumptions C22_superposition.

(** Lithium balance: the molar fluxes times the electrode surfaces cancel and carry exactly the cell current. *)
Theorem C22_flux_balance : forall c : spm R,
  let '(_, jp, jn) := calcMolarFlux c in
  q_surf (cp c) <> 0 -> q_n (cp c) <> 0 -> s_ap (cs c) <> 0 -> s_an (cs c) <> 0 -> s_thickp (cs c) <> 0 -> s_thickn (cs c) <> 0 ->
  jp * (s_ap (cs c) * s_thickp (cs c) * q_surf (cp c)) + jn * (s_an (cs c) * s_thickn (cs c) * q_surf (cp c)) = 0 /\
  jn * (s_an (cs c) * s_thickn (cs c) * q_surf (cp c)) * q_n (cp c) * 96487 = s_I (cs c).
Proof.
  intros c. unfold calcMolarFlux. intros H1 H2 H3 H4 H5 H6. unfold FARADAY. rewrite R_nZ.
  cbn [nadd nmul ndiv nopp RNum]. split; field; repeat split; assumption.
Qed.
Print Assumptions C22_flux_balance.

(** The mode with eigenvalue 0 (the mean concentration) of each electrode moves exactly with the charge passed, in
    opposite directions, over any current profile. *)
Theorem C22_inventory : forall (F : fns R) tm k c l c', driven F tm c l c' -> diffusion_only tm c ->
  (k < length (s_zp (cs c)))%nat -> (k < length (s_zn (cs c)))%nat ->
  let m := q_M (cp c) in
  (k < length (m_Ap m))%nat -> (k < length (m_Bp m))%nat -> (k < length (m_An m))%nat -> (k < length (m_Bn m))%nat ->
  nth k (m_Ap m) 0 = 0 -> nth k (m_An m) 0 = 0 ->
  nth k (s_zp (cs c')) 0 = nth k (s_zp (cs c)) 0
     - nth k (m_Bp m) 0 * (net_charge l / (q_surf (cp c) * (s_ap (cs c) * q_n (cp c) * 96487 * s_thickp (cs c)))) /\
  nth k (s_zn (cs c')) 0 = nth k (s_zn (cs c)) 0
     + nth k (m_Bn m) 0 * (net_charge l / (q_surf (cp c) * (s_an (cs c) * q_n (cp c) * 96487 * s_thickn (cs c)))).
Proof. intros F tm k c l c' H O L1 L2 m M1 M2 M3 M4 A1 A2. now apply (driven_mode F tm k c l c' H O). Qed.
Print Assumptions C22_inventory.

(** Without current: a uniform concentration stays as it is, for any number of steps of any length. *)
Theorem C22_rest : forall (F : fns R) tm dt n c c', diffusion_only tm c -> s_I (cs c) = 0 ->
  spm_timeStep_CC F tm dt (Z.of_nat n) c = (c', Ok tt) ->
  let m := q_M (cp c) in
  length (m_Ap m) = length (s_zp (cs c)) -> length (m_Bp m) = length (s_zp (cs c)) ->
  length (m_An m) = length (s_zn (cs c)) -> length (m_Bn m) = length (s_zn (cs c)) ->
  (forall k, (k < length (s_zp (cs c)))%nat -> nth k (m_Ap m) 0 = 0 \/ nth k (s_zp (cs c)) 0 = 0) ->
  (forall k, (k < length (s_zn (cs c)))%nat -> nth k (m_An m) 0 = 0 \/ nth k (s_zn (cs c)) 0 = 0) ->
  s_zp (cs c') = s_zp (cs c) /\ s_zn (cs c') = s_zn (cs c).
Proof.
  intros F tm dt n c c' O HI H m L1 L2 L3 L4 Z1 Z2.
  destruct (timeStep_z F _ _ _ _ _ O H) as (_ & _ & _ & _ & X & Y).
  assert (J : jp_of c = 0 /\ jn_of c = 0).
  { unfold jp_of, jn_of, calcMolarFlux. cbn [fst snd]. rewrite HI. cbn [ndiv nmul nopp RNum]. unfold Rdiv. split; ring. }
  destruct J as (J1 & J2). rewrite J1 in X. rewrite J2 in Y. rewrite X, Y. split; now apply pass_iter_zero.
Qed.
Print Assumptions C22_rest.

(** Without current every mode relaxes, if the step is short enough for it. *)
Theorem C22_relaxation : forall (F : fns R) tm dt n c c', diffusion_only tm c -> s_I (cs c) = 0 ->
  spm_timeStep_CC F tm dt (Z.of_nat n) c = (c', Ok tt) ->
  let m := q_M (cp c) in
  forall k, (k < length (m_An m))%nat -> (k < length (m_Bn m))%nat -> (k < length (s_zn (cs c)))%nat ->
  -2 <= dt * (snd (calcDiffConstant F c) * nth k (m_An m) 0) <= 0 ->
  Rabs (nth k (s_zn (cs c')) 0) <= Rabs (nth k (s_zn (cs c)) 0).
Proof.
  intros F tm dt n c c' O HI H m k L1 L2 L3 HD.
  destruct (timeStep_z F _ _ _ _ _ O H) as (_ & _ & _ & _ & _ & Y).
  assert (J : jn_of c = 0).
  { unfold jn_of, calcMolarFlux. cbn [snd]. rewrite HI. cbn [ndiv nmul RNum]. unfold Rdiv. ring. }
  rewrite J in Y. rewrite Y. now apply pass_iter_relax.
Qed.
Print Assumptions C22_relaxation.

(** Finding: a longer step makes the concentration profile of a resting cell diverge (explicit integration; the step
    length is not checked). *)
Theorem C22_long_step_refuted : forall (F : fns R) tm dt c c', diffusion_only tm c -> s_I (cs c) = 0 ->
  spm_timeStep_CC F tm dt 1 c = (c', Ok tt) ->
  let m := q_M (cp c) in
  forall k, (k < length (m_An m))%nat -> (k < length (m_Bn m))%nat -> (k < length (s_zn (cs c)))%nat ->
  dt * (snd (calcDiffConstant F c) * nth k (m_An m) 0) < -2 -> nth k (s_zn (cs c)) 0 <> 0 ->
  Rabs (nth k (s_zn (cs c)) 0) < Rabs (nth k (s_zn (cs c')) 0).
Proof.
  intros F tm dt c c' O HI H m k L1 L2 L3 HD HZ.
  destruct (timeStep_z F _ _ 1%nat _ _ O H) as (_ & _ & _ & _ & _ & Y).
  assert (J : jn_of c = 0).
  { unfold jn_of, calcMolarFlux. cbn [snd]. rewrite HI. cbn [ndiv nmul RNum]. unfold Rdiv. ring. }
  rewrite J in Y. rewrite Y. cbn [pass_iter]. rewrite z_step_nth by assumption. fold m.
  set (z := nth k (s_zn (cs c)) 0) in *. set (a := nth k (m_An m) 0) in *.
  replace (z + dt * (Dn_of F c * a * z + nth k (m_Bn m) 0 * 0)) with ((1 + dt * (Dn_of F c * a)) * z) by ring.
  rewrite Rabs_mult. assert (0 < Rabs z) by now apply Rabs_pos_lt. unfold Dn_of.
  rewrite (Rabs_left (1 + _)) by lra. nra.
Qed.
Print Assumptions C22_long_step_refuted.

(** Hypotheses of the diffusion theorems on the concrete cell, in doubles: blocked, and the step completes. *)
Example C22_inhabited : forall g h p, let F := w_fns g h p in let c := after F 0 (OpBlock true) w_ref in
  c_block c = true /\ snd (spm_timeStep_CC F 0 (nZ 5) 4 c) = Ok tt /\
  length (s_zn (cs c)) = 1%nat /\ nth 0 (m_An (q_M (cp c))) (nZ 1) = nZ 0.
Proof. intros g h p. vm_compute. repeat split. Qed.

(** ** C23: degradation *)

(** No degradation model: ageing states never change, along every operating history, also through exceptions. *)
Theorem C23_no_model : forall (F : fns R) tm c l c', history F tm (fun _ => operating) c l c' -> no_degradation c ->
  ageing c' = ageing c.
Proof. intros F tm c l c'. apply history_nodeg_ageing. Qed.
Print Assumptions C23_no_model.

(** Any selection of models, nonnegative rate parameters, an exponential that is nowhere negative: along every history
    on which the anode has not vanished, lost lithium, SEI thickness, crack surface and plated lithium never fall and
    the electrode thicknesses never grow. Missing: floating-point rounding; histories beyond the point where the anode
    thickness or active surface turns negative (the code does not stop there). *)
Theorem C23_monotone_partial : forall (F : fns R) tm c l c', (forall x, 0 <= f_exp F x) ->
  history F tm alive c l c' -> sane_rates (cp c) -> 0 <= s_delta (cs c) -> 0 <= s_CS (cs c) -> aged c c'.
Proof. intros F tm c l c' E H P D C. now apply (history_aged F E tm c l c' H P D C). Qed.
Print Assumptions C23_monotone_partial.

(** The parameters and states of the default cell are of that kind. *)
Theorem C23_default_rates : forall m p n dn dt (c : spm R),
  spm_default m p n dn dt = Ok c -> sane_rates (cp c) /\ 0 <= s_delta (cs c) /\ 0 <= s_CS (cs c) /\
  0 <= s_thickn (cs c) /\ 0 <= s_an (cs c).
Proof.
  intros m p n dn dt c. unfold spm_default.
  match goal with |- context [spm_setC ?a ?b ?x] => set (c0 := x); destruct (spm_setC a b c0) as [c1 [[]|e| |]] eqn:E end; try discriminate.
  assert (V : cp c1 = cp c0 /\ s_delta (cs c1) = s_delta (cs c0) /\ s_CS (cs c1) = s_CS (cs c0) /\
              s_thickn (cs c1) = s_thickn (cs c0) /\ s_an (cs c1) = s_an (cs c0)).
  { apply setC_ok in E. destruct E as (_ & E1 & E2). unfold ageing in E2. injection E2. intros. repeat split; assumption. }
  destruct V as (V1 & V2 & V3 & V4 & V5). intros H. injection H as <-.
  cbn [set_st cp cs st_SOC s_delta s_CS s_thickn s_an]. rewrite V1, V2, V3, V4, V5. subst c0. clear.
  assert (L : forall a b, (0 <= a)%Z -> 0 <= (nlit a b : R)).
  { intros a b Ha. rewrite R_nlit. apply Rmult_le_pos; [now apply IZR_le|]. left. apply Rinv_0_lt_compat. now apply IZR_lt. }
  assert (L' : forall a b, (0 < a)%Z -> 0 < (nlit a b : R)).
  { intros a b Ha. rewrite R_nlit. apply Rmult_lt_0_compat; [now apply IZR_lt|]. apply Rinv_0_lt_compat. now apply IZR_lt. }
  assert (S : 0 <= q_surf (spm_default_par m p n dn dt : spm_par R)).
  { cbn [q_surf spm_default_par]. rewrite R_nZ. cbn [nmul RNum]. apply Rmult_le_pos; [apply Rmult_le_pos; apply L; lia|lra]. }
  assert (AN : 0 <= s_an (spm_default_st (spm_default_par m p n dn dt : spm_par R))).
  { cbn [s_an spm_default_st q_Rn spm_default_par]. rewrite R_nZ. cbn [nmul ndiv RNum].
    apply Rmult_le_pos; [apply Rmult_le_pos; [lra|apply L; lia]|]. left. apply Rinv_0_lt_compat. apply L'. lia. }
  cbn [cp cs]. split; [|split; [|split; [|split]]].
  - constructor; [..|exact S| | | | | |];
      cbn [spm_default_par q_nsei q_rhosei q_celec0 q_sei sei_kokam sei1k sei2k sei2D sei3k sei3D sei4k sei4D
           q_cs cs1a cs2a cs3a cs4a cs5k q_lam lam_kokam lam1p lam1n q_npl q_rhopl q_pl pl1k]; rewrite ?R_nZ; try lra;
      repeat apply Forall_cons; try apply Forall_nil; rewrite ?R_nZ; try (apply L; lia); try (apply L'; lia);
      rewrite ?R_nlit; cbn [nmul ndiv RNum]; lra.
  - cbn [s_delta spm_default_st]. apply L. lia.
  - cbn [s_CS spm_default_st]. cbn [s_an spm_default_st] in AN. cbn [nmul RNum].
    apply Rmult_le_pos; [|apply L; lia]. apply Rmult_le_pos; [|exact S]. apply Rmult_le_pos; [apply L; lia|exact AN].
  - cbn [s_thickn spm_default_st]. apply L. lia.
  - exact AN.
Qed.
Print Assumptions C23_default_rates.

(** Finding: a negative number of steps un-ages the cell. No step is made, but the degradation of the negative
    duration is applied: crack surface falls. (Cell with crack growth model 4 under 1 A.) *)
Definition w_deg (crack lam : list Z) : spm f64 :=
  let c := w_or (spm_make w_m w_p w_n w_0 w_0 (mkDeg [] 0 crack 0 lam 0) (nZ 1) (nZ 1) (nZ 1) (nZ 1)) w_dummy in
  spm_setChar (s_Dp (cs c)) (s_Dn (cs c)) (nZ (10 ^ 300)) (nZ (10 ^ 300)) (nlit 1 100) (spm_setT (nZ 298) c).
Definition w_cs4 : spm f64 := Eval vm_compute in w_deg [4%Z] [].
Theorem C23_negative_steps_refuted : forall g h p, let F := w_fns g h p in
  let c := fst (spm_setCurrent F (nZ 1) true w_cs4) in
  snd (spm_timeStep_CC F 0 (nZ 100) (-5) c) = Ok tt /\
  nltb (s_CS (cs (fst (spm_timeStep_CC F 0 (nZ 100) (-5) c)))) (s_CS (cs c)) = true.
Proof. intros g h p. vm_compute. split; reflexivity. Qed.
Print Assumptions C23_negative_steps_refuted.
(** Finding: a step of zero length with crack growth model 1 makes the crack surface not a number. *)
Definition w_cs1 : spm f64 := Eval vm_compute in w_deg [1%Z] [].
Theorem C23_zero_step_refuted : forall g h p, let F := w_fns g h p in
  let c := fst (spm_setCurrent F (nZ 1) true w_cs1) in
  snd (spm_timeStep_CC F 0 (nZ 0) 1 c) = Ok tt /\ s_CS (cs (fst (spm_timeStep_CC F 0 (nZ 0) 1 c))) = S754_nan.
Proof. intros g h p. vm_compute. split; reflexivity. Qed.
Print Assumptions C23_zero_step_refuted.
(** Over a positive number of steps the same cell ages (the theorem's conclusion is not an equality). *)
Example C23_inhabited : forall g h p, let F := w_fns g h p in
  let c := fst (spm_setCurrent F (nZ 1) true w_cs4) in
  nltb (s_CS (cs c)) (s_CS (cs (fst (spm_timeStep_CC F 0 (nZ 100) 5 c)))) = true /\
  neqb (s_thickn (cs c)) (nZ 0) = false /\ nltb (nZ 0) (s_an (cs c)) = true.
Proof. intros g h p. vm_compute. repeat split. Qed.

(** ** C24: state vectors *)

Theorem C24_layout : forall (A : Type) (k : nat) (c : spm A),
  length (s_zp (cs c)) = k -> length (s_zn (cs c)) = k -> layout k (cs c) (spm_getStates c).
Proof. intros *. apply getStates_layout. Qed.
Print Assumptions C24_layout.

(** Restoring on an equally configured cell, any carrier: if the cell's own validity check accepts its states, the
    vector is accepted, every state is reproduced and what follows it in the buffer is left for the next reader. *)
Theorem C24_round : forall (A : Type) (NA : Num A) (F : fns A) (c d : spm A) rest,
  same_configuration c d -> spm_validStates F c = Ok true ->
  exists d', spm_setStates F (spm_getStates c ++ rest) false d = (d', Ok (rest, Success)) /\
    spm_getStates d' = spm_getStates c /\ cp d' = cp c /\ fresh_V F d' = fresh_V F c.
Proof.
  intros A NA F c d rest S V. destruct (round_nocheck F c d rest S V) as (d' & H & S1 & P & _). exists d'.
  split; [exact H|]. destruct S as (P' & _). unfold spm_getStates. rewrite S1.
  assert (P2 : cp d' = cp c) by congruence. repeat split; [exact P2|]. rewrite !fresh_V_calc. now rewrite (calcV_ext F c d').
Qed.
Print Assumptions C24_round.

(** With the voltage check, for cells whose stored voltage is that of their states and within the limits. *)
Theorem C24_round_checked : forall (A : Type) (NA : Num A) (F : fns A) (c d : spm A) rest v,
  same_configuration c d -> spm_validStates F c = Ok true ->
  c_valid c = true -> read_V F c = fresh_V F c -> s_V (cs c) = v -> calcV F c = Ok (Some v) ->
  isStatusBad (match check_voltage (Ok v) (q_lim (cp c)) (s_I (cs c)) with Ok (_, st) => st | _ => Success end) = false ->
  exists d' st, spm_setStates F (spm_getStates c ++ rest) true d = (d', Ok (rest, st)) /\ isStatusBad st = false /\
    spm_getStates d' = spm_getStates c.
Proof.
  intros A NA F c d rest v S V Vl Co Hv Hc B. destruct (round_check F c d rest v S V Vl Co Hv Hc B) as (d' & st & H & Bs & S1 & _).
  exists d', st. split; [exact H|]. split; [exact Bs|]. unfold spm_getStates. now rewrite S1.
Qed.
Print Assumptions C24_round_checked.

(** Also after ageing: from a state the cell accepts, along every history with any degradation models but the fourth of
    active-material loss, as long as state of charge, temperature and surface concentrations are within their limits
    the aged states are accepted by an equally configured cell. Missing: model 4 (false, below), rounding. *)
Theorem C24_round_aged_partial : forall (F : fns R) tm c l c' d rest,
  (forall x, 0 <= f_exp F x) -> history F tm alive c l c' -> Forall (fun i => i <> 4%Z) (d_LAM (q_deg (cp c))) ->
  sane_rates (cp c) -> consistent_surfaces c -> acceptable F c ->
  0 <= s_SOC (cs c') <= 1 -> q_Tmin (cp c) <= s_T (cs c') <= q_Tmax (cp c) -> snd (getCSurf F c') = true ->
  same_configuration c' d ->
  exists d', spm_setStates F (spm_getStates c' ++ rest) false d = (d', Ok (rest, Success)) /\
    spm_getStates d' = spm_getStates c'.
Proof.
  intros F tm c l c' d rest E H HL HP HC (_ & _ & _ & A4 & A5 & A6 & A7 & A8 & A9 & A10) S1 S2 S3 HS.
  destruct (history_steady F tm c l c' H HL) as (K1 & K2 & K3 & K4 & K5).
  destruct (history_aged F E tm c l c' H HP (Rlt_le _ _ A4) A6) as ((G1 & G2 & G3 & G4 & _) & _).
  assert (HA : acceptable F c').
  { unfold acceptable. rewrite K1, K2, K3, K4. repeat split; try tauto; lra. }
  destruct (C24_round R _ F c' d rest HS (acceptable_valid F c' (K5 HC) HA)) as (d' & H1 & H2 & _). eauto.
Qed.
Print Assumptions C24_round_aged_partial.

(** Finding: active-material loss model 4 lowers the volume fractions but not the surfaces; after one step of 10000 s
    at 0.1 A (in doubles) the cell rejects its own state vector. *)
Theorem C24_lam4_refuted : forall g h p, let F := w_fns g h p in
  let c := fst (spm_timeStep_CC F 0 (nZ 10000) 1 (fst (spm_setCurrent F (nlit 1 10) true w_lam4))) in
  snd (spm_setStates F (spm_getStates c) false c) = Ok ([], Invalid_states).
Proof. intros g h p. vm_compute. reflexivity. Qed.
Print Assumptions C24_lam4_refuted.

(** Finding: a vector that is too short is not reported but read beyond its end. *)
Theorem C24_short_refuted : forall (A : Type) (NA : Num A) (F : fns A) (c : spm A) l chk,
  (length l < 22 + length (s_zp (cs c)) + length (s_zn (cs c)))%nat -> snd (spm_setStates F l chk c) = UB.
Proof.
  intros A NA F c l chk H. unfold spm_setStates.
  assert (spm_read (length (s_zp (cs c))) (length (s_zn (cs c))) l = UB) as ->; [|reflexivity].
  unfold spm_read. do 15 (destruct l as [|? l]; [reflexivity|]). cbn [length] in H.
  set (np := length (s_zp (cs c))) in *. set (nn := length (s_zn (cs c))) in *.
  assert (L : (length (skipn nn (skipn np l)) < 7)%nat) by (rewrite !skipn_length; lia).
  destruct (skipn nn (skipn np l)) as [|? [|? [|? [|? [|? [|? [|? ?]]]]]]]; try reflexivity. cbn [length] in L. lia.
Qed.
Print Assumptions C24_short_refuted.

(** A cell under load, with crack growth, in doubles: its vector is accepted by a fresh cell. *)
Example C24_inhabited : forall g h p, let F := w_fns g h p in
  let c := fst (spm_timeStep_CC F 0 (nZ 100) 5 (fst (spm_setCurrent F (nZ 1) true w_cs4))) in
  spm_validStates F c = Ok true /\ length (s_zp (cs w_cs4)) = length (s_zp (cs c)) /\
  snd (spm_setStates F (spm_getStates c) true w_cs4) = Ok ([], Success).
Proof. intros g h p. vm_compute. repeat split. Qed.

(** ** C25: variation factors *)

(** Capacity and electrode surface are those of the default cell times the factor, the three resistances times theirs;
    the degradation models are the chosen ones. Any carrier. Missing: the degradation factors (ignored, below). *)
Theorem C25_factors_partial : forall (A : Type) (NA : Num A) m p n dn dt d capf resf sf lf (b c : spm A),
  spm_default m p n dn dt = Ok b -> spm_make m p n dn dt d capf resf sf lf = Ok c ->
  q_cap (cp c) = nmul (q_cap (cp b)) capf /\ q_surf (cp c) = nmul (q_surf (cp b)) capf /\
  s_rp (cs c) = nmul (s_rp (cs b)) resf /\ s_rn (cs c) = nmul (s_rn (cs b)) resf /\ s_rcc (cs c) = nmul (s_rcc (cs b)) resf /\
  q_deg (cp c) = d /\ s_zp (cs c) = s_zp (cs b) /\ s_zn (cs c) = s_zn (cs b) /\ s_SOC (cs c) = s_SOC (cs b).
Proof.
  intros * Hb. unfold spm_make. rewrite Hb. cbn [rbind]. destruct (q_var (cp b)) as [[[x y] z] w]. intros H. injection H as <-.
  repeat split.
Qed.
Print Assumptions C25_factors_partial.

(** The factor is the relative capacity: a cell built with capacity factor [k] and driven with [k] times the currents
    shows the same concentrations, state of charge, temperature and voltage as the cell with factor 1, along any
    current profile (no degradation or thermal model). *)
Theorem C25_capacity_partial : forall (F : fns R) tm m p n dn dt deg k r sf lf sg lg c0 d0 c d l,
  k <> 0 -> spm_make m p n dn dt deg 1 r sf lf = Ok c0 -> spm_make m p n dn dt deg k r sg lg = Ok d0 ->
  diffusion_only tm c0 -> diffusion_only tm d0 ->
  driven F tm c0 l c -> driven F tm d0 (map (fun '(i, dt, n) => (k * i, dt, n)) l) d ->
  s_zp (cs d) = s_zp (cs c) /\ s_zn (cs d) = s_zn (cs c) /\ s_SOC (cs d) = s_SOC (cs c) /\ s_T (cs d) = s_T (cs c) /\
  (s_I (cs d) = k * s_I (cs c) -> fresh_V F d = fresh_V F c).
Proof.
  intros F tm m p n dn dt deg k r sf lf sg lg c0 d0 c d l K H1 H2 O1 O2 D1 D2.
  pose proof (driven_scaled F tm k c0 l c K D1 d0 d (make_scaled _ _ _ _ _ _ _ _ _ _ _ _ _ _ H1 H2) O1 O2 D2) as S.
  pose proof S as (P & T & G & Z1 & Z2 & Q). repeat split; try assumption. intros HI. now apply (scaled_V F k).
Qed.
Print Assumptions C25_capacity_partial.

(** The ohmic resistance over the SEI film's share scales with the resistance factor. *)
Theorem C25_resistance_partial : forall m p n dn dt d capf resf sf lf sg lg (c e : spm R),
  spm_make m p n dn dt d capf 1 sf lf = Ok c -> spm_make m p n dn dt d capf resf sg lg = Ok e ->
  let film := s_delta (cs c) * q_rsei (cp c) / (s_an (cs c) * q_surf (cp c) * s_thickn (cs c)) in
  getRdc e - film = resf * (getRdc c - film).
Proof.
  intros m p n dn dt d capf resf sf lf sg lg c e. unfold spm_make.
  destruct (spm_default m p n dn dt) as [b|x| |]; try discriminate. cbn [rbind].
  destruct (q_var (cp b)) as [[[v1 v2] v3] v4]. intros H1 H2. injection H1 as <-. injection H2 as <-.
  unfold getRdc. cbn [cp cs set_st set_par par_var q_surf q_rsei s_delta s_rp s_rn s_rcc s_an s_ap s_thickp s_thickn].
  cbn [nadd nmul ndiv RNum]. unfold Rdiv. ring.
Qed.
Print Assumptions C25_resistance_partial.

(** Finding: the degradation factors have no effect at all: the constructed cells are equal. *)
Theorem C25_degradation_factors_refuted : forall (A : Type) (NA : Num A) m p n dn dt d capf resf sf lf sg lg,
  spm_make m p n dn dt d capf resf sf lf = spm_make m p n dn dt d capf resf sg lg.
Proof. reflexivity. Qed.
Print Assumptions C25_degradation_factors_refuted.
(** Finding: [getVariations] answers 1, 1, 1, 1 whatever factors the cell was built with. *)
Theorem C25_readback_refuted : forall (A : Type) (NA : Num A) m p n dn dt d capf resf sf lf (c : spm A),
  spm_make m p n dn dt d capf resf sf lf = Ok c -> spm_variations c = (nZ 1, nZ 1, nZ 1, nZ 1).
Proof.
  intros *. unfold spm_make, spm_default.
  match goal with |- context [spm_setC ?a ?b ?x] => destruct (spm_setC a b x) as [c1 [[]|e| |]] eqn:E end; try discriminate.
  cbn [rbind].
  assert (V : q_var (cp c1) = (nZ 1, nZ 1, nZ 1, nZ 1)).
  { apply setC_ok in E. destruct E as (_ & -> & _). reflexivity. }
  change (cp (set_st c1 (st_SOC (cs c1) (nlit 1 2)))) with (cp c1). rewrite V. intros H. injection H as <-. exact V.
Qed.
Print Assumptions C25_readback_refuted.
Example C25_inhabited : exists c : spm f64,
  spm_make w_m w_p w_n w_0 w_0 (mkDeg [1%Z] 0 [] 0 [] 0) (nlit 11 10) (nlit 9 10) (nZ 2) (nZ 2) = Ok c /\
  nltb (nlit 175 10) (q_cap (cp c)) = true.
Proof. eexists. split; [vm_compute; reflexivity|]. vm_compute. reflexivity. Qed.
