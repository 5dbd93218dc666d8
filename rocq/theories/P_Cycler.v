(** * C48-C54: the cycler *)
From Coq Require Import Reals Lra.
From Verif Require Import Base RFacts StatusModel CellModel DataModel DataSpec CoolModel ModuleModel CyclerModel CyclerSpec CyclerProofs CyclerProofs2 CyclerProofs3 CyclerProofs4.
Local Open Scope R_scope.

Lemma observed_wp {A S B : Type} {NA : Num A} (m : M (cyc A (S * list (event A))) B) Q s idx t l t' r :
  wp m Q [] t -> observed m s idx t l t' r -> Q l t' r.
Proof. intros H [w [E [<- <-]]]. specialize (H s idx). rewrite E in H. exact H. Qed.
Lemma faithful_harmless {A S B : Type} {NA : Num A} (m : M (cyc A (S * list (event A))) B) p : faithful m p -> observer_harmless m p.
Proof. intros H s idx t. destruct (H s idx t) as [l Hl]. exists l. rewrite Hl. reflexivity. Qed.

(** Attaching the observer changes neither the outcome nor the unit nor the throughput of any procedure, on any unit, in any
    arithmetic: the theorems below are about the procedures themselves. *)
Theorem C48_observer {A S : Type} {NA : Num A} (o : unit_if A S) nmax diag fuel :
  (forall tlim dt ndt, observer_harmless (rest (logged o) nmax fuel tlim dt ndt) (rest o nmax fuel tlim dt ndt)) /\
  (forall I vlim tlim dt ndt, observer_harmless (CC (logged o) nmax diag fuel I vlim tlim dt ndt) (CC o nmax diag fuel I vlim tlim dt ndt)) /\
  (forall V Ilim tlim dt ndt, observer_harmless (CV (logged o) nmax V Ilim tlim dt ndt) (CV o nmax V Ilim tlim dt ndt)) /\
  (forall I V Ilim tlim dt ndt, observer_harmless (CCCV_with_tlim (logged o) nmax diag fuel I V Ilim tlim dt ndt) (CCCV_with_tlim o nmax diag fuel I V Ilim tlim dt ndt)) /\
  observer_harmless (testCapacity (logged o) nmax diag fuel) (testCapacity o nmax diag fuel).
Proof.
  split; [|split; [|split; [|split]]]; intros; apply faithful_harmless;
    [apply fa_rest|apply fa_CC|apply fa_CV|apply fa_CCCV|apply fa_testCapacity].
Qed.
Print Assumptions C48_observer.

(** ** C48 *)

(** Resting, over the reals, on any unit: the call ends (fuel [tlim/dt] is enough); every step is positive, at most [dt], at most
    10 at once (and no more than the storage interval), taken straight after an accepted [setCurrent(0)]; no more than [tlim] is
    simulated; it either reports the time limit, and then exactly [tlim] was simulated and the reported time grew by exactly
    [tlim] with no charge and no energy, or it reports that the unit refused the zero current; it fails only if a call on the
    unit failed. *)
Theorem C48_rest {S : Type} (o : unit_if R S) nmax fuel tlim dt ndt s idx t l t' r :
  0 < dt -> 0 <= tlim -> tlim <= dt * INR fuel ->
  observed (rest (logged o) nmax fuel tlim dt ndt) s idx t l t' r ->
  steps_within dt 10 l /\ ((0 < ndt)%Z -> steps_within dt ndt l) /\ steps_under 0 l /\ elapsed l <= tlim /\
  match r with
  | Ok st => (st = ReachedTimeLimit /\ elapsed l = tlim /\ th_time t' = th_time t + tlim /\ th_Ah t' = th_Ah t /\ th_Wh t' = th_Wh t) \/
             (isStatusBad st = true /\ t' = t)
  | _ => failed_last l /\ t' = t
  end.
Proof.
  intros Hdt Ht Hf H. destruct (observed_wp _ _ _ _ _ _ _ _ (rest_spec o nmax tlim dt ndt fuel t Hdt Ht Hf) H) as [H1 [H2 [H3 H4]]].
  split; [|split; [|auto]].
  - intros d n Hi. destruct (H1 d n Hi) as [Hd Hn]. split; [assumption|]. destruct (0 <? ndt)%Z; lia.
  - intros Hp d n Hi. destruct (H1 d n Hi) as [Hd Hn]. split; [assumption|]. destruct (Z.ltb_spec 0 ndt); lia.
Qed.
Print Assumptions C48_rest.

(** In any arithmetic, doubles included: when the time limit is reported, the steps added up in order reach [tlim], exceed it by
    less than a second, and are what the reported time grew by. *)
Theorem C48_rest_any {A S : Type} {NA : Num A} (o : unit_if A S) nmax fuel tlim dt ndt s idx t l t' :
  observed (rest (logged o) nmax fuel tlim dt ndt) s idx t l t' (Ok ReachedTimeLimit) ->
  nleb tlim (elapsed_in_order l) = true /\ nltb (nabs (nsub (elapsed_in_order l) tlim)) (nZ 1) = true /\
  th_time t' = nadd (th_time t) (elapsed_in_order l).
Proof. intros H. exact (observed_wp _ _ _ _ _ _ _ _ (rest_any o nmax fuel tlim dt ndt t) H). Qed.
Print Assumptions C48_rest_any.

(** ** The example: a default cell (16 Ah) at the given state of charge and current *)
Definition ex_cell {A : Type} {NA : Num A} (cap soc i : A) : rcell A :=
  mkRc (mkEu false (match ecm_make 1 cap soc with Ok c => mkEcm (ep c) (with_I (es c) i) | _ => ecm_default 1 end)) [] [].
Notation half := (ex_cell (A := f64) (nZ 16) (nlit 1 2) (nZ 0)).
Definition final_cell {B : Type} (x : cyc f64 (rcell f64) * res B) : ecm f64 := u_ecm (rc_u (c_su (fst x))).
(** the time the cell itself has recorded *)
Definition cell_time {B : Type} (x : cyc f64 (rcell f64) * res B) : f64 := e_time (es (final_cell x)).

(** Resting a cell for 25 s with dt = 2 s, storing every 3 steps: five data points, 25 s. *)
Example C48_inhabited :
  let x := rest (logged rc_if) 100000 20 (nZ 25) (nZ 2) 3 (mkCyc (half, []) 0 th0) in
  snd x = Ok ReachedTimeLimit /\ (elapsed_in_order (snd (c_su (fst x))) = nZ 25) /\ stores (snd (c_su (fst x))) = 5%nat /\
  (25 <= 2 * INR 20).
Proof. cbn zeta. split; [|split; [|split]]; [vm_compute; reflexivity..|]. cbn [INR]. lra. Qed.

(** ** C49 *)

(** A constant-current run on any unit, over the reals: never more than [tlim] is simulated, in steps of at most [dt], at most 2
    at once (and no more than the storage interval), each after [setCurrent(I)]; when the time limit is reported exactly
    [tlim] was simulated; it fails only if a call on the unit failed. *)
Theorem C49_time {S : Type} (o : unit_if R S) nmax diag fuel I vlim tlim dt ndt s idx t l t' r :
  0 < dt -> 0 <= tlim -> tlim <= dt * INR fuel -> (diag = true -> honest o) ->
  observed (CC (logged o) nmax diag fuel I vlim tlim dt ndt) s idx t l t' r ->
  elapsed l <= tlim /\ steps_within dt 2 l /\ ((0 < ndt)%Z -> steps_within dt ndt l) /\ commanded I l /\
  (r = Ok ReachedTimeLimit -> elapsed l = tlim) /\ ((forall st, r <> Ok st) -> failed_last l).
Proof.
  intros Hdt Ht Hf Hh H. destruct (observed_wp _ _ _ _ _ _ _ _ (CC_spec o nmax diag I vlim tlim dt ndt fuel t Hdt Ht Hf Hh) H) as [H1 [H2 [H3 H4]]].
  split; [assumption|]. split; [|split; [|split; [assumption|split]]].
  - intros d n Hi. destruct (H2 d n Hi) as [Hd Hn]. split; [assumption|]. destruct (0 <? ndt)%Z; lia.
  - intros Hp d n Hi. destruct (H2 d n Hi) as [Hd Hn]. split; [assumption|]. destruct (Z.ltb_spec 0 ndt); lia.
  - intros ->. apply H4.
  - intros Hr. destruct r as [st| | |]; [destruct (Hr st eq_refl)|assumption..].
Qed.
Print Assumptions C49_time.

(** What is reported as throughput: the elapsed time, |I| times that time, and |I| V dt over the steps - except, when the run is
    broken off by the voltage check after a step, that one step.  Missing for the full property: that step. *)
Theorem C49_books_partial {S : Type} (o : unit_if R S) nmax diag fuel I vlim tlim dt ndt s idx t l t' st :
  0 < dt -> 0 <= tlim -> tlim <= dt * INR fuel -> (diag = true -> honest o) ->
  observed (CC (logged o) nmax diag fuel I vlim tlim dt ndt) s idx t l t' (Ok st) ->
  booked I l t t' /\
  (st = ReachedTimeLimit \/ st = ReachedVoltageLimit -> books I l t t' /\ length (ends l) = nsteps l).
Proof.
  intros Hdt Ht Hf Hh H. pose proof (observed_wp _ _ _ _ _ _ _ _ (CC_spec o nmax diag I vlim tlim dt ndt fuel t Hdt Ht Hf Hh) H) as HP.
  split; [exact (CCpost_booked _ _ _ _ _ _ _ _ _ HP)|]. destruct HP as [_ [_ [_ HP]]].
  intros [-> | ->]; (split; [apply HP|]); [apply HP|apply HP].
Qed.
Print Assumptions C49_books_partial.

(** The step that is simulated and not reported: charging at 16 A in diagnostic mode with the limit of 4.25 V above the cell's own
    4.2 V.  The cell has moved on 1 s; the report says 0 s, 0 Ah. *)
Notation nearly_full := (ex_cell (A := f64) (nZ 16) (nlit 9468 10000) (nZ 0)).
Theorem C49_last_step_refuted :
  let x := CC rc_if 100000 true 20 (nZ (-16)) (nlit 425 100) (nZ 100) (nZ 1) 0 (mkCyc nearly_full 0 th0) in
  snd x = Ok Vmax_violation /\ cell_time x = nZ 1 /\ th_time (c_th (fst x)) = nZ 0 /\ th_Ah (c_th (fst x)) = nZ 0.
Proof. cbn zeta. split; [|split; [|split]]; vm_compute; reflexivity. Qed.
Print Assumptions C49_last_step_refuted.

(** The cell checks its voltage honestly; charging it at 16 A for 5 s. *)
Example C49_inhabited : honest (rc_if (A := R)) /\
  let x := CC rc_if 100000 true 20 (nZ (-16)) (nlit 42 10) (nZ 5) (nZ 1) 0 (mkCyc half 0 th0) in
  snd x = Ok ReachedTimeLimit /\ cell_time x = nZ 5 /\ th_time (c_th (fst x)) = nZ 5.
Proof.
  split.
  - intros s s' v st H. cbn [rc_if q_checkV] in H. unfold rlift in H. cbn [ecm_ops o_checkV] in H. unfold ecm_checkVoltage, check_voltage in H.
    destruct (ecm_V (u_ecm (rc_u s))) as [v0| | |]; try discriminate H; apply pair_equal_spec in H; destruct H as [_ H]; injection H as _ <-;
      repeat match goal with |- context [if ?b then _ else _] => destruct b end; split; discriminate.
  - cbn zeta. split; [|split]; vm_compute; reflexivity.
Qed.

(** ** C50 *)

(** A run that reports its voltage limit, over the reals, on any unit: if it took steps, the voltage read after the last one is at
    or beyond the limit in the direction of the current; if it took none, the last call was the reading of such a voltage,
    provided the current is a discharge or the voltage was below the limit before the current was set.  Missing: charging from
    a higher voltage, refuted below. *)
Theorem C50_reached_partial {S : Type} (o : unit_if R S) nmax diag fuel I vlim tlim dt ndt s idx t l t' :
  0 < dt -> 0 <= tlim -> tlim <= dt * INR fuel -> (diag = true -> honest o) ->
  observed (CC (logged o) nmax diag fuel I vlim tlim dt ndt) s idx t l t' (Ok ReachedVoltageLimit) ->
  (nsteps l <> 0%nat -> exists vs v, ends l = vs ++ [v] /\ reached I v vlim) /\
  (nsteps l = 0%nat -> exists l0 v, l = l0 ++ [EReadV v] /\
     (0 < I \/ (I < 0 /\ exists v0, first_V l = Some v0 /\ v0 < vlim) -> reached I v vlim)).
Proof.
  intros Hdt Ht Hf Hh H. destruct (observed_wp _ _ _ _ _ _ _ _ (CC_spec o nmax diag I vlim tlim dt ndt fuel t Hdt Ht Hf Hh) H) as [_ [_ [_ [_ [Hn [_ HP]]]]]].
  destruct HP as [[vs [v [E Hr]]]|[E0 HP]]; (split; intros Hs); [now exists vs, v| |contradiction|exact HP].
  rewrite <- Hn, E, app_length in Hs. cbn in Hs. lia.
Qed.
Print Assumptions C50_reached_partial.

(** As long as it goes on, the voltage is inside the limit: in a run that reports the time or voltage limit, every step is
    followed by a reading of the voltage, and all readings but the last are inside the limit. *)
Theorem C50_inside {S : Type} (o : unit_if R S) nmax diag fuel I vlim tlim dt ndt s idx t l t' st :
  0 < dt -> 0 <= tlim -> tlim <= dt * INR fuel -> (diag = true -> honest o) ->
  observed (CC (logged o) nmax diag fuel I vlim tlim dt ndt) s idx t l t' (Ok st) ->
  st = ReachedTimeLimit \/ st = ReachedVoltageLimit ->
  length (ends l) = nsteps l /\ Forall (fun v => inside I v vlim) (removelast (ends l)).
Proof.
  intros Hdt Ht Hf Hh H Hst. destruct (observed_wp _ _ _ _ _ _ _ _ (CC_spec o nmax diag I vlim tlim dt ndt fuel t Hdt Ht Hf Hh) H) as [_ [_ [_ HP]]].
  destruct Hst as [-> | ->]; (split; apply HP).
Qed.
Print Assumptions C50_inside.

(** Charging at 10 A a cell that was being charged at 50 A (3.25 V): the 3.2 V limit is reported at once, with the cell at 3.17 V. *)
Theorem C50_charge_refuted :
  let x := CC rc_if 100 true 20 (nZ (-10)) (nlit 32 10) (nZ 100) (nZ 1) 0 (mkCyc (ex_cell (nZ 16) (nlit 1 2) (nZ (-50))) 0 th0) in
  snd x = Ok ReachedVoltageLimit /\ cell_time x = nZ 0 /\ rmap (fun v => nltb v (nlit 318 100)) (ecm_V (final_cell x)) = Ok true.
Proof. cbn zeta. split; [|split]; vm_compute; reflexivity. Qed.
Print Assumptions C50_charge_refuted.

(** Discharging at 100 A with a limit of 1 V in non-diagnostic mode: the run goes on for its 2 s although the cell is at 1.90 V,
    below the safety limit of 2.0 V by more than the 1% tolerance. *)
Theorem C50_safety_refuted :
  let x := CC rc_if 100 false 20 (nZ 100) (nZ 1) (nZ 2) (nZ 1) 0 (mkCyc (ex_cell (nZ 16) (nlit 5 100) (nZ 0)) 0 th0) in
  snd x = Ok ReachedTimeLimit /\ cell_time x = nZ 2 /\
  rmap (fun v => nltb v (nmul (nlit 99 100) (l_VMIN (p_lim (ep (final_cell x)))))) (ecm_V (final_cell x)) = Ok true.
Proof. cbn zeta. split; [|split]; vm_compute; reflexivity. Qed.
Print Assumptions C50_safety_refuted.

(** Charging at 16 A from 3.15 V up to 3.184 V: two steps, then the limit is reported. *)
Example C50_inhabited :
  let x := CC (logged rc_if) 100 true 20 (nZ (-16)) (nlit 3184 1000) (nZ 100) (nZ 1) 0 (mkCyc (half, []) 0 th0) in
  snd x = Ok ReachedVoltageLimit /\ nsteps (snd (c_su (fst x))) = 2%nat.
Proof. cbn zeta. split; vm_compute; reflexivity. Qed.

(** ** C51 *)

(** A constant-voltage run on any unit, over the reals: never more than [tlim] is simulated, each step is of at most [dt] and
    comes straight after [setVoltage(Vset)]; if the call returns, it reports the time limit after exactly [tlim], or the current
    limit (the last current read was below it and the last voltage read was at the set point), or a small current, or a
    safety violation (the last voltage read was beyond the unit's own safety limit by more than 1%), or a failed step;
    charge and energy are the sums over the steps; it fails only if a call on the unit failed.  Missing: the reported time (always unchanged, see below). *)
Theorem C51_ends_partial {S : Type} (o : unit_if R S) nmax Vset Ilim tlim dt ndt s idx t l t' r :
  0 < dt -> 0 <= tlim -> tlim <= dt * 18446744073709551615 ->
  observed (CV (logged o) nmax Vset Ilim tlim dt ndt) s idx t l t' r ->
  elapsed l <= tlim /\ steps_within dt 1 l /\ steps_at Vset l /\
  match r with
  | Ok st =>
      cvbooks l t t' /\
      match st with
      | ReachedTimeLimit => elapsed l = tlim
      | ReachedCurrentLimit => exists i v, last_I l = Some i /\ last_V l = Some v /\ Rabs i < Ilim /\ at_set v Vset
      | ReachedSmallCurrent => exists i, last_I l = Some i /\ (Rabs i < Ilim / 10 \/ Rabs i < 1 / 1000000)
      | VMINsafety_violation => exists s1 s2 lim v, q_lim o s1 = (s2, Ok lim) /\ last_V l = Some v /\ v < l_VMIN lim * (99 / 100)
      | VMAXsafety_violation => exists s1 s2 lim v, q_lim o s1 = (s2, Ok lim) /\ last_V l = Some v /\ l_VMAX lim * (101 / 100) < v
      | timeStep_CC_failed => failed_last l
      | _ => False
      end
  | _ => failed_last l
  end.
Proof.
  intros Hdt Ht Hsz H. destruct (observed_wp _ _ _ _ _ _ _ _ (CV_spec o nmax Vset Ilim tlim dt ndt t Hdt Ht Hsz) H) as [H1 [H2 [H3 HP]]].
  split; [assumption|]. split; [assumption|]. split; [assumption|]. destruct r as [st| | |]; try exact HP.
  destruct HP as [[_ Hb] HP]. split; [exact Hb|]. destruct HP as [[-> E]|HP]; [exact E|]. destruct st; try exact HP; destruct HP.
Qed.
Print Assumptions C51_ends_partial.

(** In doubles it does fail for lack of an end condition: seven steps of 0.2 s add up to less than 1.4 s. *)
Theorem C51_double_refuted :
  let x := CV rc_if 100 (nlit 32 10) (nZ 0) (nlit 7 5) (nlit 1 5) 0 (mkCyc half 0 th0) in
  snd x = Throw 100 /\ nltb (nlit 139 100) (cell_time x) = true.
Proof. cbn zeta. split; vm_compute; reflexivity. Qed.
Print Assumptions C51_double_refuted.

(** The reported time is not the elapsed time: 2 s are simulated and 0 s reported. *)
Theorem C51_time_refuted :
  let x := CV rc_if 100 (nlit 32 10) (nlit 1 10) (nZ 2) (nZ 1) 0 (mkCyc half 0 th0) in
  snd x = Ok ReachedTimeLimit /\ cell_time x = nZ 2 /\ th_time (c_th (fst x)) = nZ 0 /\ nltb (nZ 0) (th_Ah (c_th (fst x))) = true.
Proof. cbn zeta. split; [|split; [|split]]; vm_compute; reflexivity. Qed.
Print Assumptions C51_time_refuted.

(** It never is, on any unit. *)
Theorem C51_time_never {S : Type} (o : unit_if R S) nmax Vset Ilim tlim dt ndt s idx t l t' st :
  0 < dt -> 0 <= tlim -> tlim <= dt * 18446744073709551615 ->
  observed (CV (logged o) nmax Vset Ilim tlim dt ndt) s idx t l t' (Ok st) -> th_time t' = th_time t.
Proof. intros Hdt Ht Hsz H. apply (observed_wp _ _ _ _ _ _ _ _ (CV_spec o nmax Vset Ilim tlim dt ndt t Hdt Ht Hsz) H). Qed.
Print Assumptions C51_time_never.

(** The unit need not be at the set point: a cell at 5 A discharge refuses the set voltage of 4.5 V each time, goes on discharging
    for 3 s, and the run reports its time limit. *)
Theorem C51_setpoint_refuted :
  let x := CV rc_if 100 (nlit 45 10) (nZ 1) (nZ 3) (nZ 1) 0 (mkCyc (ex_cell (nZ 16) (nlit 1 2) (nZ 5)) 0 th0) in
  snd x = Ok ReachedTimeLimit /\ cell_time x = nZ 3 /\ ecm_I (final_cell x) = nZ 5 /\
  rmap (fun v => nltb v (nlit 314 100)) (ecm_V (final_cell x)) = Ok true.
Proof. cbn zeta. split; [|split; [|split]]; vm_compute; reflexivity. Qed.
Print Assumptions C51_setpoint_refuted.

(** Holding 3.2 V for 2 s: two steps, each after a [setVoltage]. *)
Example C51_inhabited :
  let x := CV (logged rc_if) 100 (nlit 32 10) (nlit 1 10) (nZ 2) (nZ 1) 0 (mkCyc (half, []) 0 th0) in
  snd x = Ok ReachedTimeLimit /\ nsteps (snd (c_su (fst x))) = 2%nat /\ 2 <= 1 * 18446744073709551615.
Proof. cbn zeta. split; [|split]; [vm_compute; reflexivity..|]. lra. Qed.

(** ** C52 *)

(** A CCCV run that returns, on any unit, over the reals: it either took no step, reports a refusal and leaves the throughput alone;
    or the log is a constant-current phase, at the given current towards the set voltage, followed by a constant-voltage phase,
    and the reported charge and energy are the sums of those of the two phases.  The phases' own accounts are those of C49 and
    C51; missing: the time of the second phase, and one possible unaccounted step between them, see below. *)
Theorem C52_sum_partial {S : Type} (o : unit_if R S) nmax diag fuel I Vset Ilim tlim dt ndt s idx t l t' st :
  0 < dt -> 0 <= tlim -> tlim <= dt * INR fuel -> tlim <= dt * 18446744073709551615 -> (diag = true -> honest o) ->
  observed (CCCV_with_tlim (logged o) nmax diag fuel I Vset Ilim tlim dt ndt) s idx t l t' (Ok st) ->
  (nsteps l = 0%nat /\ t' = t /\ st <> Success) \/
  (exists l0 l1 l2 v i t1 t2, l = l0 ++ l1 ++ l2 /\ nsteps l0 = 0%nat /\ last_V l0 = Some v /\
     i = (if Rlt_dec Vset v then Rabs I else - Rabs I) /\ commanded i l1 /\ steps_at Vset l2 /\
     steps_within dt 2 l1 /\ steps_within dt 1 l2 /\
     booked i l1 th0 t1 /\ cvbooks l2 th0 t2 /\ th_time t2 = 0 /\
     th_time t' = th_time t1 + th_time t2 /\ th_Ah t' = th_Ah t1 + th_Ah t2 /\ th_Wh t' = th_Wh t1 + th_Wh t2).
Proof.
  intros Hdt Ht Hf Hsz Hh H. pose proof (observed_wp _ _ _ _ _ _ _ _ (CCCV_spec o nmax diag I Vset Ilim tlim dt ndt fuel t Hdt Ht Hf Hsz Hh) H) as HP.
  destruct HP as [[Hp [-> Hst]]|(l0 & l1 & l2 & v & i & st1 & t1 & t2 & -> & Hp & Hv & Hi & HC & HV & E1 & E2 & E3)].
  - left. split; [now apply nsteps_passive|]. now split.
  - right. exists l0, l1, l2, v, i, t1, t2. split; [reflexivity|]. split; [now apply nsteps_passive|]. split; [assumption|]. split; [assumption|].
    pose proof (CCpost_booked _ _ _ _ _ _ _ _ _ HC) as Hb. destruct HC as [_ [Hw [Hc _]]]. destruct HV as [_ [Hw2 [Ha [[Hz Hcv] _]]]].
    split; [assumption|]. split; [assumption|]. split; [|split; [assumption|split; [assumption|split; [assumption|split; [rewrite Hz; cbn [th0 th_time]; apply R_nZ|now split]]]]].
    intros d n Hin. destruct (Hw d n Hin) as [Hd Hn]. split; [assumption|]. destruct (0 <? ndt)%Z; lia.
Qed.
Print Assumptions C52_sum_partial.

(** The time limit is respected up to one constant-current step (two at once at most). *)
Theorem C52_duration_partial {S : Type} (o : unit_if R S) nmax diag fuel I Vset Ilim tlim dt ndt s idx t l t' st :
  0 < dt -> 0 <= tlim -> tlim <= dt * INR fuel -> tlim <= dt * 18446744073709551615 -> (diag = true -> honest o) ->
  observed (CCCV_with_tlim (logged o) nmax diag fuel I Vset Ilim tlim dt ndt) s idx t l t' (Ok st) ->
  elapsed l <= tlim + 2 * dt.
Proof.
  intros Hdt Ht Hf Hsz Hh H. pose proof (observed_wp _ _ _ _ _ _ _ _ (CCCV_spec o nmax diag I Vset Ilim tlim dt ndt fuel t Hdt Ht Hf Hsz Hh) H) as HP.
  destruct HP as [[Hp _]|(l0 & l1 & l2 & v & i & st1 & t1 & t2 & -> & Hp & _ & _ & HC & HV & _)].
  - rewrite elapsed_passive by assumption. lra.
  - rewrite !elapsed_app, (elapsed_passive l0) by assumption. pose proof (CCpost_booked _ _ _ _ _ _ _ _ _ HC) as Hb.
    destruct HC as [_ [Hw _]]. destruct HV as [He2 _]. destruct Hb as [[Hb _]|(la & d & n & v1 & -> & [Hb _])]; cbn [th0 th_time] in Hb; rewrite R_nZ in Hb.
    + lra.
    + rewrite elapsed_app. cbn [elapsed]. destruct (Hw d n) as [Hd Hn]; [left; apply in_app_iff; right; now left|].
      assert (IZR n <= 2) by (apply IZR_le; destruct (0 <? ndt)%Z; lia). assert (1 <= IZR n) by (apply (IZR_le 1); lia).
      assert (d * IZR n <= dt * 2) by (apply Rmult_le_compat; lra). lra.
Qed.
Print Assumptions C52_duration_partial.

(** Charging at 160 A for at most 4 s in steps of 2 s, to 4.2 V: the first step passes 4.2 V by more than the tolerance, is not
    accounted, and the constant-voltage phase still runs for the full 4 s - 6 s in total, and 0 s reported. *)
Theorem C52_time_refuted :
  let x := CCCV_with_tlim rc_if 100 true 20 (nZ 160) (nlit 42 10) (nZ 1) (nZ 4) (nZ 2) 0 (mkCyc (ex_cell (nZ 16) (nlit 815 1000) (nZ 0)) 0 th0) in
  snd x = Ok ReachedTimeLimit /\ cell_time x = nZ 6 /\ th_time (c_th (fst x)) = nZ 0 /\
  nltb (nmul (nZ (-1)) (th_Ah (c_th (fst x)))) (nZ 0) = true.
Proof. cbn zeta. split; [|split; [|split]]; vm_compute; reflexivity. Qed.
Print Assumptions C52_time_refuted.

(** Charging to 3.184 V and holding it: both phases take steps, and only the first phase's time is reported. *)
Example C52_inhabited :
  let x := CCCV_with_tlim (logged rc_if) 100 true 20 (nZ 16) (nlit 3184 1000) (nZ 1) (nZ 5) (nZ 1) 0 (mkCyc (half, []) 0 th0) in
  snd x = Ok ReachedTimeLimit /\ nsteps (snd (c_su (fst x))) = 5%nat /\ th_time (c_th (fst x)) = nZ 2.
Proof. cbn zeta. split; [|split]; vm_compute; reflexivity. Qed.

(** ** C53 *)

(** A capacity test on any unit, over the reals: a test that failed returns 0 and, as its last call, puts the states back that it
    read first; a successful one is a charge at some current [-i] followed by a discharge at [i] and returns the discharged
    charge, and both charges together.  Missing: a successful test does not put the states back - there is no such call. *)
Theorem C53_capacity_partial {S : Type} (o : unit_if R S) nmax diag fuel s idx t l t' r :
  (0 < nmax)%nat -> 630720000 <= INR fuel -> (diag = true -> honest o) ->
  observed (testCapacity (logged o) nmax diag fuel) s idx t l t' r ->
  t' = t /\
  match r with
  | Ok (c, None, _) => c = 0 /\ exists s0 l1, l = EGot s0 :: l1 ++ [EStates s0]
  | Ok (c, Some a, _) =>
      exists s0 i l1 l2, l = EGot s0 :: l1 ++ l2 /\ (forall s', ~ In (EStates s') (l1 ++ l2)) /\
        commanded (- i) l1 /\ commanded i l2 /\ c = Rabs i * elapsed l2 / 3600 /\ a = Rabs i * elapsed l1 / 3600 + c
  | _ => failed_last l
  end.
Proof. intros Hn Hf Hh H. exact (observed_wp _ _ _ _ _ _ _ _ (testCapacity_spec o nmax diag fuel t Hn Hf Hh) H). Qed.
Print Assumptions C53_capacity_partial.

(** A successful test leaves the unit changed: the cell went through 3 s at 374.4 A and is left carrying that current. *)
Theorem C53_restore_refuted :
  let x := testCapacity rc_if 100 true 20 (mkCyc (ex_cell (nZ 9360) (nlit 6304 10000) (nZ 0)) 0 th0) in
  (exists c a tt, snd x = Ok (c, Some a, tt) /\ nltb (nZ 0) c = true) /\ cell_time x = nZ 3 /\ nltb (nZ 374) (ecm_I (final_cell x)) = true.
Proof.
  cbn zeta. split; [|split; vm_compute; reflexivity].
  exists (match snd (testCapacity rc_if 100 true 20 (mkCyc (ex_cell (nZ 9360) (nlit 6304 10000) (nZ 0)) 0 th0)) with Ok (c, _, _) => c | _ => nZ 0 end),
    (match snd (testCapacity rc_if 100 true 20 (mkCyc (ex_cell (nZ 9360) (nlit 6304 10000) (nZ 0)) 0 th0)) with Ok (_, Some a, _) => a | _ => nZ 0 end),
    (match snd (testCapacity rc_if 100 true 20 (mkCyc (ex_cell (nZ 9360) (nlit 6304 10000) (nZ 0)) 0 th0)) with Ok (_, _, a) => a | _ => nZ 0 end).
  split; vm_compute; reflexivity.
Qed.
Print Assumptions C53_restore_refuted.
(** A failing test (the first step passes 4.21 V) puts the states back. *)
Example C53_inhabited :
  let x := testCapacity rc_if 100 true 20 (mkCyc (ex_cell (A := f64) (nZ 16000) (nlit 39999 100000) (nZ 0)) 0 th0) in
  (exists a, snd x = Ok (nZ 0, None, a)) /\ ecm_getStates (final_cell x) = ecm_getStates (u_ecm (rc_u (ex_cell (nZ 16000) (nlit 39999 100000) (nZ 0)))).
Proof. cbn zeta. split; [exists (nZ 0); vm_compute; reflexivity|vm_compute; reflexivity]. Qed.

(** ** C54 *)

(** One cycler on any unit, any sequence of calls (a failing one may be followed by others), any arithmetic: at every moment the
    number of data points stored since the last write is at most [nmax] (CELL_NDATA_MAX), and the cycler's count is that number. *)
Theorem C54_bound {A S : Type} {NA : Num A} (o : unit_if A S) nmax diag fuel cs s t :
  (0 < nmax)%nat ->
  let w := do_calls (logged o) nmax diag fuel cs (mkCyc (s, []) 0%nat t) in
  c_idx w = pending (snd (c_su w)) /\ forall l1 l2, snd (c_su w) = l1 ++ l2 -> (pending l1 <= nmax)%nat.
Proof.
  intros Hn. apply (calls_pending o nmax diag fuel cs Hn (mkCyc (s, []) 0%nat t)). split; [reflexivity|].
  intros l1 l2 E. cbn [c_su snd] in E. symmetry in E. apply app_eq_nil in E. destruct E as [-> _]. cbn. lia.
Qed.
Print Assumptions C54_bound.

(** No data point of a cell is lost, doubled or moved: whatever sequence of calls, from any starting point, by however many cyclers
    (the count plays no role), what was added to the file is a sequence of blocks, each the cell's states and a part of the
    buffer; those parts and the buffer together are the old buffer and every data point taken since, in order. *)
Theorem C54_lossless {A : Type} {NA : Num A} (nmax : nat) diag fuel cs (c : rcell A) idx t :
  let w := do_calls sampled nmax diag fuel cs (mkCyc (c, []) idx t) in
  exists blocks, rc_file (fst (c_su w)) = rc_file c ++ flat_map block_text blocks /\
    flat_map snd blocks ++ rc_buf (fst (c_su w)) = rc_buf c ++ concat (snd (c_su w)).
Proof.
  cbn zeta. apply (pr_calls (kept (rc_file c) (rc_buf c)) sampled nmax diag fuel (sampled_safe _ _) cs (mkCyc (c, []) idx t)).
  exists []. cbn. now rewrite !app_nil_r.
Qed.
Print Assumptions C54_lossless.

(** Two cyclers on one cell do not share their counts: after [nmax] data points stored by each, [2 nmax] wait in memory and
    nothing has been written. *)
Lemma store_many {A : Type} {NA : Num A} nmax diag fuel k : forall (c : rcell A) idx t v, ecm_V (u_ecm (rc_u c)) = Ok v -> (idx + k <= nmax)%nat ->
  let w := do_calls rc_if nmax diag fuel (repeat CStore k) (mkCyc c idx t) in
  rc_u (c_su w) = rc_u c /\ rc_file (c_su w) = rc_file c /\ length (rc_buf (c_su w)) = (length (rc_buf c) + 7 * k)%nat.
Proof.
  induction k as [|k IH]; intros c idx t v Hv Hk; cbn [repeat do_calls]; [split; [reflexivity|split; [reflexivity|cbn; lia]]|].
  cbn [do_call]. unfold storeData. cbn [mbind]. destruct (Nat.leb_spec nmax idx) as [H|_]; [cbn [c_idx] in H; lia|].
  unfold mbind, mret, call. cbn [c_idx c_su c_th rc_if q_store]. destruct (Nat.leb_spec nmax idx) as [H|_]; [lia|]. cbn [c_idx c_su c_th fst snd].
  unfold rc_store. rewrite Hv. cbn [fst c_su c_idx c_th].
  specialize (IH (mkRc (rc_u c) (rc_buf c ++ [ecm_I (u_ecm (rc_u c)); v; ecm_SOC (u_ecm (rc_u c)); ecm_T (u_ecm (rc_u c)); e_time (es (u_ecm (rc_u c))); e_Ah (es (u_ecm (rc_u c))); e_Wh (es (u_ecm (rc_u c)))]) (rc_file c)) (idx + 1)%nat t v Hv ltac:(lia)).
  destruct IH as [H1 [H2 H3]]. split; [exact H1|]. split; [exact H2|]. rewrite H3. cbn [rc_buf]. rewrite app_length. cbn [length]. lia.
Qed.
Theorem C54_two_cyclers_refuted : forall nmax diag fuel t t2, (0 < nmax)%nat ->
  let w1 := do_calls rc_if nmax diag fuel (repeat CStore nmax) (mkCyc half 0%nat t) in
  let w2 := do_calls rc_if nmax diag fuel (repeat CStore nmax) (mkCyc (c_su w1) 0%nat t2) in
  length (rc_buf (c_su w2)) = (7 * (2 * nmax))%nat /\ rc_file (c_su w2) = [].
Proof.
  intros nmax diag fuel t t2 Hn. cbn zeta.
  assert (Hv : exists v, ecm_V (u_ecm (rc_u half)) = Ok v) by (exists (match ecm_V (u_ecm (rc_u half)) with Ok v => v | _ => nZ 0 end); vm_compute; reflexivity).
  destruct Hv as [v Hv].
  destruct (store_many nmax diag fuel nmax half 0 t v Hv (le_n _)) as [H1 [H2 H3]].
  set (w1 := do_calls rc_if nmax diag fuel (repeat CStore nmax) (mkCyc half 0%nat t)) in *.
  destruct (store_many nmax diag fuel nmax (c_su w1) 0 t2 v ltac:(now rewrite H1) (le_n _)) as [_ [H5 H6]].
  split; [rewrite H6, H3; cbn [rc_buf ex_cell length]; lia|now rewrite H5, H2].
Qed.
Print Assumptions C54_two_cyclers_refuted.

(** A buffer of two data points; a rest storing every step for 3 s stores five and writes twice. *)
Example C54_inhabited :
  let w := do_calls (logged rc_if) 2 true 20 [CRest (nZ 3) (nZ 1) 1] (mkCyc (half, []) 0%nat th0) in
  stores (snd (c_su w)) = 5%nat /\ c_idx w = 1%nat /\ length (rc_buf (fst (c_su w))) = 7%nat.
Proof. cbn zeta. split; [|split]; vm_compute; reflexivity. Qed.
