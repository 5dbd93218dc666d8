(** * C82: what modules and cyclers promise does not depend on the kind of cell *)
From Coq Require Import List Lia Reals SpecFloat Lra.
From Verif Require CellProofs.
From Verif Require Import Base RFacts StatusModel UtilModel CellModel CoolModel ModuleModel ModuleSpec ModuleProofs ModuleProofs2 ModuleExamples SpmModel SpmUnitModel
  CyclerModel CyclerSpec CyclerProofs PackSpec PackProofs FleetModel FleetSpec FleetProofs FleetLaws FleetProofs2 FleetProofs3 FleetToy SpmWitness.
Import ListNotations.
Local Open Scope R_scope.

(** ** Modules *)

(** In any tree: capacity and current. *)
Theorem C82_ratings : forall F tm n (u : fleet (A := R) n), well_formed n u ->
  combined (fun c x => x = a_cap (account_of c)) is_min is_sum n u (o_Cap (fleet_ops F tm n) u) /\
  combined (fun c x => x = current_of c) (fun xs x => hd_error xs = Some x) is_sum n u (o_I (fleet_ops F tm n) u).
Proof.
  intros F tm n u W. split.
  - revert u W. refine (combined_of (fun c => a_cap (account_of c)) is_min is_sum lmin nsum (fun n => o_Cap (fleet_ops F tm n)) _ _ _ _ _ n);
      intros; auto using lmin_spec, nsum_spec; try reflexivity; destruct c; reflexivity.
  - revert u W. refine (combined_of current_of (fun xs x => hd_error xs = Some x) is_sum (fun xs => hd (nZ 0) xs) nsum (fun n => o_I (fleet_ops F tm n)) _ _ _ _ _ n);
      intros; auto using nsum_spec; try (destruct c; reflexivity).
    + destruct xs; [congruence|reflexivity].
    + cbn. unfold mod_I. destruct (m_series (mm m)); [|reflexivity]. destruct (ms m); reflexivity.
Qed.
Print Assumptions C82_ratings.

(** In any tree: the voltage limits add up in series, and are the narrowest of the branches in parallel. *)
Theorem C82_limits : forall F tm n (u : fleet (A := R) n), well_formed n u ->
  combined (fun c x => x = l_Vmin (limits_of c)) is_sum is_max n u (l_Vmin (o_lim (fleet_ops F tm n) u)) /\
  combined (fun c x => x = l_VMIN (limits_of c)) is_sum is_max n u (l_VMIN (o_lim (fleet_ops F tm n) u)) /\
  combined (fun c x => x = l_Vmax (limits_of c)) is_sum is_min n u (l_Vmax (o_lim (fleet_ops F tm n) u)) /\
  combined (fun c x => x = l_VMAX (limits_of c)) is_sum is_min n u (l_VMAX (o_lim (fleet_ops F tm n) u)).
Proof.
  intros F tm n u W. split; [|split; [|split]]; revert u W.
  1: refine (combined_of (fun c => l_Vmin (limits_of c)) is_sum is_max nsum lmax (fun n u => l_Vmin (o_lim (fleet_ops F tm n) u)) _ _ _ _ _ n).
  6: refine (combined_of (fun c => l_VMIN (limits_of c)) is_sum is_max nsum lmax (fun n u => l_VMIN (o_lim (fleet_ops F tm n) u)) _ _ _ _ _ n).
  11: refine (combined_of (fun c => l_Vmax (limits_of c)) is_sum is_min nsum lmin (fun n u => l_Vmax (o_lim (fleet_ops F tm n) u)) _ _ _ _ _ n).
  16: refine (combined_of (fun c => l_VMAX (limits_of c)) is_sum is_min nsum lmin (fun n u => l_VMAX (o_lim (fleet_ops F tm n) u)) _ _ _ _ _ n).
  all: intros; auto using lmin_spec, lmax_spec, nsum_spec; try (destruct c; reflexivity).
  all: cbn; unfold mod_lim; destruct (m_series (mm m)); cbn; rewrite map_map; reflexivity.
Qed.
Print Assumptions C82_limits.

(** A current commanded to a chain: when the command is accepted every cell carries that current and is otherwise as it
    was; when it is refused, it is with the status with which one of the cells refuses it; unless asked to check, the chain
    does not refuse. *)
Theorem C82_command : forall F tm n (u u' : fleet (A := R) n) i chk st, chain n u ->
  o_setCurrent (fleet_ops F tm n) i chk u = (u', Ok st) ->
  chain n u' /\ Forall2 (fun c d => account_of d = at_current (current_of d) (account_of c)) (leaves n u) (leaves n u') /\
  (isStatusBad st = false -> Forall (fun d => current_of d = i) (leaves n u')) /\
  (isStatusBad st = true -> chk = true /\ exists c c', In c (leaves n u) /\ o_setCurrent (cell_ops F tm) i true c = (c', Ok st)).
Proof.
  intros F tm n u u' i chk st Hc E. pose proof (cell_lawful F tm) as law. pose proof (set_frame _ _ law tm n _ _ _ _ _ E) as K.
  split; [exact (st_chain _ _ _ _ K Hc)|]. split; [exact (st_leaves _ _ _ _ K)|]. split.
  - intros B. exact (accepted _ _ law tm n _ _ _ _ _ (proj1 Hc) E B).
  - intros B. destruct chk.
    + split; [reflexivity|]. exact (rejected_where _ tm n _ _ _ _ _ (proj1 Hc) E B).
    + exfalso. pose proof (unchecked_ok _ _ law tm n _ _ _ _ (proj1 Hc) E). congruence.
Qed.
Print Assumptions C82_command.

(** A time step of any tree, parallel modules included: the account of each cell changes by what its own current draws
    ([dt] times the number of steps); in a chain the current stays as well. *)
Theorem C82_step : forall F tm n dt k (u u' : fleet (A := R) n), (0 <= k)%Z ->
  o_timeStep (fleet_ops F tm n) dt k u = (u', Ok tt) ->
  Forall2 (fun c d => account_of d = at_current (current_of d) (drawn (dt * IZR k) (account_of c))) (leaves n u) (leaves n u') /\
  (chain n u -> Forall2 (fun c d => account_of d = drawn (dt * IZR k) (account_of c)) (leaves n u) (leaves n u')).
Proof.
  intros F tm n dt k u u' Hk E. pose proof (cell_lawful F tm) as law. split.
  - exact (st_leaves _ _ _ _ (step_moved _ _ law tm n _ _ _ _ Hk E)).
  - intros Hc. exact (st_leaves _ _ _ _ (step_steady _ _ law tm n _ _ _ _ Hk (proj1 Hc) E)).
Qed.
Print Assumptions C82_step.

(** The voltage check of any tree reports the worst of what its cells find. *)
Theorem C82_check : forall F tm n (u u' : fleet (A := R) n) v st, o_checkV (fleet_ops F tm n) u = (u', Ok (v, st)) ->
  exists sts, Forall2 (finds F tm) (leaves n u) sts /\ worst_of sts st.
Proof. intros F tm n u u' v st E. exact (check_worst _ _ (cell_lawful F tm) tm n _ _ _ _ E). Qed.
Print Assumptions C82_check.

(** Lowest and highest cell voltage, with the same proviso as in C35: no module's own limit is passed by all cells. *)
Theorem C82_extremes_partial : forall F tm n (u u' : fleet (A := R) n) v,
  (o_Vlow (fleet_ops F tm n) u = (u', Ok v) -> exists vs, Forall2 (reports F tm) (leaves n u) vs /\
     (Forall (fun x => exists y, In y vs /\ y <= x) (over_modules (fun k r l => l_Vmax (mod_lim (fleet_ops F tm k) (mkM r l))) n u) -> is_min vs v)) /\
  (o_Vhigh (fleet_ops F tm n) u = (u', Ok v) -> exists vs, Forall2 (reports F tm) (leaves n u) vs /\
     (Forall (fun x => exists y, In y vs /\ x <= y) (over_modules (fun k r l => l_Vmin (mod_lim (fleet_ops F tm k) (mkM r l))) n u) -> is_max vs v)).
Proof.
  intros F tm n u u' v. pose proof (cell_lawful F tm) as law. split; intros E.
  - destruct (low_all _ _ law tm n _ _ _ E) as (vs & K1 & K2 & K3 & K4). exists vs. split; [exact K1|]. intros G.
    rewrite Forall_forall in K3, K4, G. split; [|exact K3]. destruct K2 as [K2|K2]; [exact K2|].
    destruct (G _ K2) as (y & Y1 & Y2). pose proof (K3 _ Y1). assert (v = y) by lra. now subst.
  - destruct (high_all _ _ law tm n _ _ _ E) as (vs & K1 & K2 & K3 & K4). exists vs. split; [exact K1|]. intros G.
    rewrite Forall_forall in K3, K4, G. split; [|exact K3]. destruct K2 as [K2|K2]; [exact K2|].
    destruct (G _ K2) as (y & Y1 & Y2). pose proof (K3 _ Y1). assert (v = y) by lra. now subst.
Qed.
Print Assumptions C82_extremes_partial.

(** After an accepted current the voltage of a chain, unless it is zero (no voltage), is the sum of what its cells report
    less the loss in the contacts. *)
Theorem C82_voltage : forall F tm n (u u' u2 : fleet (A := R) n) i chk st v, chain n u -> well_formed n u' ->
  o_setCurrent (fleet_ops F tm n) i chk u = (u', Ok st) -> isStatusBad st = false ->
  o_V (fleet_ops F tm n) u' = (u2, Ok v) -> 0 < v ->
  exists vs, Forall2 (reports F tm) (leaves n u') vs /\ v = Rsum vs - i * contact_resistance n u'.
Proof.
  intros F tm n u u' u2 i chk st v Hc Hw E B EV Hv. pose proof (cell_lawful F tm) as law.
  pose proof (st_chain _ _ _ _ (set_frame _ _ law tm n _ _ _ _ _ E) Hc) as Hc'.
  exact (V_sum _ _ law tm n u' u2 i v Hc' Hw (set_unread _ tm n _ _ _ _ _ (proj1 Hc) E B) (accepted _ _ law tm n _ _ _ _ _ (proj1 Hc) E B) EV Hv).
Qed.
Print Assumptions C82_voltage.

(** ** Cyclers *)
Lemma passed_refl i (l : list (cell (A := R))) : Forall2 (passed [(i, 0)]) l l.
Proof.
  induction l as [|c l IH]; constructor; [|exact IH]. unfold passed, account_after. cbn [charge throughput duration].
  unfold Rdiv. repeat split; try ring. 
Qed.
Lemma passed_none (l : list (cell (A := R))) : Forall2 (passed []) l l.
Proof. induction l as [|c l IH]; constructor; [apply after_nil|exact IH]. Qed.

(** A rest that ends at its time limit. *)
Theorem C82_rest : forall F tm n store write nmax fuel tlim dt ndt w w', innocent F tm store -> innocent F tm write ->
  chain n (c_su w) -> 0 < dt -> 0 <= tlim ->
  rest (fleet_if F tm n store write) nmax fuel tlim dt ndt w = (w', Ok ReachedTimeLimit) ->
  chain n (c_su w') /\ Forall2 (passed [(0, tlim)]) (leaves n (c_su w)) (leaves n (c_su w')) /\ booked_as [(0, tlim)] (c_th w) (c_th w').
Proof.
  intros F tm n store write nmax fuel tlim dt ndt w w' H1 H2 Hs Hd Ht E.
  destruct (FleetProofs2.sp_rest F tm n store write nmax H1 H2 (leaves n (c_su w)) (c_th w) fuel tlim dt ndt Hd Ht w w' ReachedTimeLimit) as (K & Eq); auto.
  - split; [exact Hs|]. split; [apply passed_refl|reflexivity].
  - destruct K as (K1 & K2 & _). split; [exact K1|]. split; [exact K2|]. rewrite Eq. unfold booked_as. cbn [th_time th_Ah duration throughput].
    rewrite R_nZ. cbn [nadd RNum]. rewrite Rabs_R0. lra.
Qed.
Print Assumptions C82_rest.

(** A constant current that ends at its time or voltage limit. *)
Theorem C82_constant_current : forall F tm n store write nmax diag fuel i vlim tlim dt ndt w w' st, innocent F tm store -> innocent F tm write ->
  chain n (c_su w) -> (diag = true -> Forall (answers F tm i) (leaves n (c_su w))) -> 0 < dt -> 0 <= tlim ->
  CC (fleet_if F tm n store write) nmax diag fuel i vlim tlim dt ndt w = (w', Ok st) -> st = ReachedTimeLimit \/ st = ReachedVoltageLimit ->
  exists T, 0 <= T <= tlim /\ (st = ReachedTimeLimit -> T = tlim) /\
    chain n (c_su w') /\ Forall2 (passed [(i, T)]) (leaves n (c_su w)) (leaves n (c_su w')) /\
    Forall (fun c => current_of c = i) (leaves n (c_su w')) /\ booked_as [(i, T)] (c_th w) (c_th w').
Proof.
  intros F tm n store write nmax diag fuel i vlim tlim dt ndt w w' st H1 H2 Hs Ha Hd Ht E Hst.
  destruct (FleetProofs2.sp_CC F tm n store write nmax H1 H2 (leaves n (c_su w)) diag i vlim tlim (c_th w) fuel dt ndt Hd Ht w w' st) as (T & K1 & K2 & K3); auto.
  - split; [exact Hs|]. split; [|split; [exact Ha|reflexivity]]. apply passed_none.
  - destruct K3 as (L1 & L2 & L3 & L5 & L6). exists T. split; [exact K1|]. split; [exact K2|]. split; [exact L1|]. split; [exact L2|]. split; [exact L3|].
    unfold booked_as. cbn [duration throughput]. rewrite L5, L6. lra.
Qed.
Print Assumptions C82_constant_current.

(** Any sequence of such calls: for cells of both kinds the state of charge is the first one less what was drawn, and the
    cycler's, each cell's and the user's account of the throughput and of the time agree. *)
Theorem C82_history : forall F tm n store write nmax diag w l w', innocent F tm store -> innocent F tm write ->
  chain n (c_su w) -> operated F tm n store write nmax diag w l w' ->
  chain n (c_su w') /\ Forall2 (passed l) (leaves n (c_su w)) (leaves n (c_su w')) /\ booked_as l (c_th w) (c_th w').
Proof.
  intros F tm n store write nmax diag w l w' H1 H2 Hs H.
  induction H as [w|w l w1 w2 fuel tlim dt ndt H IH Hd Ht E|w l w1 w2 fuel i vlim tlim dt ndt st t H IH Hd Ht Ha E Hst ->].
  - split; [exact Hs|]. split; [apply passed_none|].
    unfold booked_as. cbn [duration throughput]. unfold Rdiv. rewrite Rmult_0_l, !Rplus_0_r. split; reflexivity.
  - destruct (IH Hs) as (I1 & I2 & I3). destruct (C82_rest F tm n store write nmax fuel tlim dt ndt w1 w2 H1 H2 I1 Hd Ht E) as (J1 & J2 & J3).
    split; [exact J1|]. split; [exact (passed_all_app _ _ _ _ _ I2 J2)|exact (booked_app _ _ _ _ _ I3 J3)].
  - destruct (IH Hs) as (I1 & I2 & I3).
    destruct (C82_constant_current F tm n store write nmax diag fuel i vlim tlim dt ndt w1 w2 st H1 H2 I1 Ha Hd Ht E Hst) as (T & _ & _ & J1 & J2 & _ & J3).
    assert (EQ : th_time (c_th w2) - th_time (c_th w1) = T) by (destruct J3 as (J3 & _); rewrite J3; cbn [duration]; unfold fleet; lra).
    rewrite EQ. split; [exact J1|]. split; [exact (passed_all_app _ _ _ _ _ I2 J2)|exact (booked_app _ _ _ _ _ I3 J3)].
Qed.
Print Assumptions C82_history.

(** A held voltage has been checked: on an equivalent circuit a voltage is accepted only with the status that a check of the
    resulting cell gives (any carrier). *)
Theorem C82_checked_voltage : forall (A : Type) (NA : Num A) F tm v (c : ecmu A) (d : fleet (A := A) 0) st,
  fleet_setVoltage F tm 0 v (inl c) = (d, Ok st) -> isStatusOK st = true ->
  exists c' x, d = inl c' /\ ecm_checkVoltage (u_ecm c') = Ok (x, st).
Proof.
  intros A NA F tm v c d st. cbn [fleet_setVoltage]. unfold cell_setVoltage, both, on_l, lift_ecm.
  destruct (ecm_setVoltage v true (u_ecm c)) as [e r] eqn:E. intros H O. injection H as <- ->.
  destruct (CellProofs.setVoltage_spec _ _ _ _ _ E) as [_ K]. destruct (K O) as (o & _ & _ & x & X). eexists _, x. split; [reflexivity|]. exact X.
Qed.
Print Assumptions C82_checked_voltage.

(** ** Examples *)
Lemma storing_is_innocent F tm n : innocent F tm (fleet_store F tm n) /\ innocent F tm (fleet_write (A := R) n).
Proof.
  split; intros u u' E.
  - unfold fleet_store in E. destruct (o_V (fleet_ops F tm n) u) as (v & r) eqn:EV. injection E as <- _. exact (V_looked F tm n _ _ _ EV).
  - injection E as <-. apply st_refl'. now left.
Qed.
(** A string of a [Cell_ECM] and a [Cell_SPM] rests for a second, takes a new current, makes a step, is read, and rests again. *)
Example C82_inhabited : forall F tm, exists w w1 u1 u2 u3 v w4,
  let store := fleet_store F tm 1 in let write := fleet_write 1 in let o := fleet_if F tm 1 store write in
  innocent F tm store /\ innocent F tm write /\ chain 1 (c_su w) /\ well_formed 1 (c_su w) /\
  (exists e p, leaves 1 (c_su w) = [inl e; inr p]) /\
  rest o 10 1 1 1 0 w = (w1, Ok ReachedTimeLimit) /\
  o_setCurrent (fleet_ops F tm 1) 1 false (c_su w1) = (u1, Ok Success) /\ o_timeStep (fleet_ops F tm 1) 1 1 u1 = (u2, Ok tt) /\
  o_V (fleet_ops F tm 1) u2 = (u3, Ok v) /\
  rest o 10 1 1 1 0 w1 = (w4, Ok ReachedTimeLimit) /\ operated F tm 1 store write 10 false w [(0, 1); (0, 1)] w4.
Proof.
  intros F tm. destruct (storing_is_innocent F tm 1) as (I1 & I2).
  pose (w := mkCyc (mixed (PackToy.flat_cell (1 / 2) 0 0 0 0) still 0 false) 0 th0 : cyc R (fleet (A := R) 1)).
  pose proof mix_start as P0. destruct (mix_chain _ _ _ P0) as (Hc & Hw).
  destruct (tr_rest F tm (fleet_store F tm 1) (fleet_write 1) (1 / 3) 0 10 ltac:(lra) w P0) as (w1 & b & E1 & -> & P1).
  destruct (mix_set F tm _ _ 1 _ P1) as (u1 & E2 & P2).
  destruct (mix_step F tm (1 / 3 - 1 / 3600) 1 u1 ltac:(lra) ltac:(rewrite Rabs_R1; lra) P2) as (u2 & E3 & P3).
  destruct (mix_V F tm (1 / 3 - 1 / 3600 - 1 / 3600) 1 u2 ltac:(lra) P3) as (u3 & v & E4 & P4).
  destruct (tr_rest F tm (fleet_store F tm 1) (fleet_write 1) (1 / 3 - 1 / 3600) 0 10 ltac:(lra) w1 P1) as (w4 & b & E5 & -> & P5).
  exists w, w1, u1, u2, u3, v, w4. cbv zeta. split; [exact I1|]. split; [exact I2|]. split; [exact Hc|]. split; [exact Hw|].
  split; [eexists _, _; reflexivity|]. split; [exact E1|]. split; [exact E2|]. split; [exact E3|]. split; [exact E4|]. split; [exact E5|].
  refine (op_rest _ _ _ _ _ _ _ w [(0, 1)] w1 w4 1 1 1 0 _ _ _ E5); try lra.
  refine (op_rest _ _ _ _ _ _ _ w [] w w1 1 1 1 0 _ _ _ E1); try lra. constructor.
Qed.

(** In doubles, on a string of a [Cell_ECM] and a [Cell_SPM] with contact resistances: a checked current is accepted, the
    voltage is positive, the voltage check succeeds, and a constant current runs to its time limit. *)
Definition w_fast : spm f64 :=
  Eval vm_compute in spm_setChar (s_Dp (cs w_ref)) (s_Dn (cs w_ref)) (nZ (10 ^ 300)) (nZ (10 ^ 300)) (nlit 1 100) w_ref.
Definition two_kinds : fleet (A := f64) 1 :=
  inr (mkM (ex_rec true [mohm; mohm] 2) [inl (ex_cell (nZ 16) half (nZ 0)); inr w_fast]).
Definition completes (g h : f64 -> f64) (p : f64 -> f64 -> f64) : res Status * bool * bool * res Status :=
  let F := w_fns g h p in let o := fleet_ops F 0 1 in
  let '(u1, r1) := o_setCurrent o (nZ 1) true two_kinds in
  let '(u2, v) := o_V o u1 in let '(_, ck) := o_checkV o u1 in
  let '(_, r4) := CC (fleet_if F 0 1 (fleet_store F 0 1) (fleet_write 1)) 10 false 3 (nZ 1) (nZ 1) (nZ 1) (nZ 1) 0 (mkCyc two_kinds 0 th0) in
  (r1, match v with Ok x => nltb (nZ 0) x | _ => false end, match ck with Ok (_, Success) => true | _ => false end, r4).
Example C82_completes : forall g h p, completes g h p = (Ok Success, true, true, Ok ReachedTimeLimit).
Proof. intros g h p. vm_compute. reflexivity. Qed.
