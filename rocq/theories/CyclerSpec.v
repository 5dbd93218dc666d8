(** * Specification vocabulary for the cycler: what an observer standing between the cycler and the storage unit sees *)
From Coq Require Import Reals.
From Verif Require Import Base StatusModel CellModel DataModel CoolModel ModuleModel CyclerModel.

Section Log.
Context {A : Type} {NA : Num A}.

(** The calls an observer records, in order. *)
Inductive event : Type :=
| EStep (dt : A) (n : Z)          (* timeStep_CC(dt, n) returned: the unit advanced by n*dt *)
| ETried (dt : A) (n : Z)         (* timeStep_CC(dt, n) did not return normally *)
| ESet (i : A) (st : Status)      (* setCurrent(i, ...) returned st *)
| EVolt (v : A) (st : Status)     (* setVoltage(v) returned st *)
| EGot (s : list A)               (* getStates gave s *)
| EStates (s : list A)            (* setStates(s, ...) returned *)
| EReadV (v : A)                  (* V() or checkVoltage(v, ...) gave v *)
| EReadI (i : A)                  (* I() gave i *)
| EStore | EWrite                 (* storeData(), writeData() returned *)
| EErr.                           (* any other call that did not return normally *)

Definition observe {S B : Type} (f : M S B) (ok : B -> list event) (ko : event) : M (S * list event) B :=
  fun w => match f (fst w) with
           | (s, Ok b) => ((s, snd w ++ ok b), Ok b)
           | (s, r) => ((s, snd w ++ [ko]), r)
           end.

(** Any unit, with the observer attached. *)
Definition logged {S : Type} (o : unit_if A S) : unit_if A (S * list event) := mkIf
  (observe (q_I o) (fun i => [EReadI i]) EErr)
  (observe (q_Cap o) (fun _ => []) EErr)
  (observe (q_lim o) (fun _ => []) EErr)
  (observe (q_V o) (fun v => [EReadV v]) EErr)
  (observe (q_checkV o) (fun vs => [EReadV (fst vs)]) EErr)
  (observe (q_Vlow o) (fun _ => []) EErr)
  (observe (q_getStates o) (fun s => [EGot s]) EErr)
  (fun s c => observe (q_setStates o s c) (fun _ => [EStates s]) EErr)
  (fun i c => observe (q_setCurrent o i c) (fun st => [ESet i st]) EErr)
  (fun v => observe (q_setVoltage o v) (fun st => [EVolt v st]) EErr)
  (fun dt n => observe (q_step o dt n) (fun _ => [EStep dt n]) (ETried dt n))
  (observe (q_store o) (fun _ => [EStore]) EErr)
  (observe (q_write o) (fun _ => [EWrite]) EErr).

(** The last recorded call failed. *)
Definition failed_last (l : list event) : Prop :=
  exists l' e, l = l' ++ [e] /\ (e = EErr \/ exists dt n, e = ETried dt n).

Definition is_step (e : event) : bool := match e with EStep _ _ => true | _ => false end.
Definition stores (l : list event) : nat := length (filter (fun e => match e with EStore => true | _ => false end) l).

(** [P] holds of what was recorded before each time step. *)
Definition before_steps (P : list event -> Prop) (l : list event) : Prop :=
  forall l1 dt n l2, l = l1 ++ EStep dt n :: l2 -> P l1.
(** Every time step comes straight after [setCurrent(i)] was accepted. *)
Definition steps_under (i : A) : list event -> Prop :=
  before_steps (fun l => exists l' st, l = l' ++ [ESet i st] /\ isStatusBad st = false).
(** Every time step comes after [setCurrent(i)] and, unless that call reported a violated limit, only a voltage reading. *)
Definition commanded (i : A) : list event -> Prop :=
  before_steps (fun l => exists l' st e, l = l' ++ [ESet i st; e] /\ (isStatusVoltageLimitsViolated st = false -> exists v, e = EReadV v)).
(** Every time step comes straight after [setVoltage(v)]. *)
Definition steps_at (v : A) : list event -> Prop :=
  before_steps (fun l => exists l' st, l = l' ++ [EVolt v st]).
End Log.
Arguments event A : clear implicits.

Open Scope R_scope.
(** Simulated time: the sum of the steps the unit took. *)
Fixpoint elapsed (l : list (event R)) : R :=
  match l with
  | [] => 0
  | EStep dt n :: l' => dt * IZR n + elapsed l'
  | _ :: l' => elapsed l'
  end.

(** Energy of a constant current [i]: |i| dt V over the steps, V read at the end of each step (Wh). *)
Fixpoint cc_energy (i : R) (l : list (event R)) : R :=
  match l with
  | [] => 0
  | EStep dt n :: l' =>
      match l' with
      | EReadV v :: _ => Rabs i * (dt * IZR n) / 3600 * v
      | _ => 0
      end + cc_energy i l'
  | _ :: l' => cc_energy i l'
  end.

(** Charge and energy of a varying current: |I| dt (and |I| dt V) over the steps, I and V read after each step (Ah, Wh). *)
Fixpoint cv_charge (l : list (event R)) : R :=
  match l with
  | [] => 0
  | EStep dt n :: l' =>
      match l' with
      | EReadI i :: _ => Rabs i * (dt * IZR n) / 3600
      | _ => 0
      end + cv_charge l'
  | _ :: l' => cv_charge l'
  end.
Fixpoint cv_energy (l : list (event R)) : R :=
  match l with
  | [] => 0
  | EStep dt n :: l' =>
      match l' with
      | EReadI i :: EReadV v :: _ => Rabs i * (dt * IZR n) / 3600 * v
      | _ => 0
      end + cv_energy l'
  | _ :: l' => cv_energy l'
  end.

(** The time step sizes and counts asked for. *)
Definition steps_within (dt : R) (nmax : Z) (l : list (event R)) : Prop :=
  forall d n, In (EStep d n) l \/ In (ETried d n) l -> (0 < d <= dt /\ (1 <= n <= nmax)%Z).

(** [v] is at or beyond the limit in the direction of current [i] (negative is charging); [v] is not beyond it. *)
Definition reached (i v vlim : R) : Prop := (i < 0 -> vlim <= v) /\ (0 < i -> v <= vlim).
Definition inside (i v vlim : R) : Prop := (i < 0 -> v <= vlim) /\ (0 < i -> vlim <= v).

(** The voltages read straight after the time steps, and the number of time steps. *)
Fixpoint ends (l : list (event R)) : list R :=
  match l with
  | [] => []
  | EStep dt n :: l' => match l' with EReadV v :: _ => [v] | _ => [] end ++ ends l'
  | _ :: l' => ends l'
  end.
Definition nsteps {A : Type} (l : list (event A)) : nat := length (filter is_step l).

(** The first and last voltage and the last current read. *)
Definition last_V {A : Type} (l : list (event A)) : option A :=
  fold_left (fun a e => match e with EReadV v => Some v | _ => a end) l None.
Definition last_I {A : Type} (l : list (event A)) : option A :=
  fold_left (fun a e => match e with EReadI i => Some i | _ => a end) l None.
Fixpoint first_V {A : Type} (l : list (event A)) : option A :=
  match l with [] => None | EReadV v :: _ => Some v | _ :: l' => first_V l' end.

(** The voltage [v] counts as equal to the set point: within 10 mV or 0.1% of it (src/settings/tolerances.hpp:26-28). *)
Definition at_set (v vset : R) : Prop := Rabs (v - vset) < 1 / 100 \/ Rabs (v - vset) / vset < 1 / 1000.

(** Data points stored since the last write. *)
Definition pending {A : Type} (l : list (event A)) : nat :=
  fold_left (fun k e => match e with EStore => (k + 1)%nat | EWrite => 0%nat | _ => k end) l 0%nat.

(** The books of a constant-current phase: reported time, charge (Ah) and energy (Wh) against the recorded steps. *)
Definition books (i : R) (l : list (event R)) (before after : th R) : Prop :=
  th_time after = th_time before + elapsed l /\ th_Ah after = th_Ah before + Rabs i * elapsed l / 3600 /\
  th_Wh after = th_Wh before + cc_energy i l.
(** The same up to one last step, straight after which the voltage was found unusable. *)
Definition booked (i : R) (l : list (event R)) (before after : th R) : Prop :=
  books i l before after \/
  exists l0 dt n v, l = l0 ++ [EStep dt n; EReadV v] /\ books i l0 before after.
(** The books of a constant-voltage phase: charge and energy. *)
Definition cvbooks (l : list (event R)) (before after : th R) : Prop :=
  th_Ah after = th_Ah before + cv_charge l /\ th_Wh after = th_Wh before + cv_energy l.

(** [m], run with the observer attached to unit [s] by a cycler with index [idx] and throughput object [t], ends with outcome [r],
    throughput [t'] and log [l]. *)
Definition observed {A S B : Type} (m : M (cyc A (S * list (event A))) B) (s : S) (idx : nat) (t : th A)
  (l : list (event A)) (t' : th A) (r : res B) : Prop :=
  exists w, m (mkCyc (s, []) idx t) = (w, r) /\ snd (c_su w) = l /\ c_th w = t'.

(** The run [m] with an observer is the run [p] without one, plus a log. *)
Definition observer_harmless {A S B : Type} (m : M (cyc A (S * list (event A))) B) (p : M (cyc A S) B) : Prop :=
  forall s idx t, exists l, m (mkCyc (s, []) idx t) =
    (mkCyc (c_su (fst (p (mkCyc s idx t))), l) (c_idx (fst (p (mkCyc s idx t)))) (c_th (fst (p (mkCyc s idx t)))), snd (p (mkCyc s idx t))).

(** A unit whose voltage check never answers with one of the cycler's "limit reached" codes. *)
Definition honest {S : Type} (o : unit_if R S) : Prop :=
  forall s s' v st, q_checkV o s = (s', Ok (v, st)) -> st <> ReachedTimeLimit /\ st <> ReachedVoltageLimit.

(** Simulated time added up in the order of the steps, in any arithmetic. *)
Definition elapsed_in_order {A : Type} {NA : Num A} (l : list (event A)) : A :=
  fold_left (fun a e => match e with EStep d n => nadd a (nmul d (nZ n)) | _ => a end) l (nZ 0).

(** A user's calls on a cycler, in any order; a failing call may be followed by others. *)
Inductive cyc_call {A : Type} : Type :=
| CRest (tlim dt : A) (ndt : Z) | CCCall (i vlim tlim dt : A) (ndt : Z) | CVCall (v ilim tlim dt : A) (ndt : Z)
| CCCVCall (i v ilim tlim dt : A) (ndt : Z) | CTest | CStore | CWrite.
Arguments cyc_call A : clear implicits.
Definition do_call {A S : Type} {NA : Num A} (o : unit_if A S) (nmax : nat) (diag : bool) (fuel : nat) (c : cyc_call A) (w : cyc A S) : cyc A S :=
  match c with
  | CRest tlim dt ndt => fst (rest o nmax fuel tlim dt ndt w)
  | CCCall i vlim tlim dt ndt => fst (CC o nmax diag fuel i vlim tlim dt ndt w)
  | CVCall v ilim tlim dt ndt => fst (CV o nmax v ilim tlim dt ndt w)
  | CCCVCall i v ilim tlim dt ndt => fst (CCCV_with_tlim o nmax diag fuel i v ilim tlim dt ndt w)
  | CTest => fst (testCapacity o nmax diag fuel w)
  | CStore => fst (storeData o nmax w)
  | CWrite => fst (writeData o w)
  end.
Fixpoint do_calls {A S : Type} {NA : Num A} (o : unit_if A S) (nmax : nat) (diag : bool) (fuel : nat) (cs : list (cyc_call A)) (w : cyc A S) : cyc A S :=
  match cs with [] => w | c :: cs' => do_calls o nmax diag fuel cs' (do_call o nmax diag fuel c w) end.

(** What a data point of a cell holds: current, voltage, state of charge, temperature, time, charge and energy throughput; only
    the current if the voltage cannot be computed. *)
Definition sample {A : Type} {NA : Num A} (c : rcell A) : list A :=
  let e := u_ecm (rc_u c) in
  match ecm_V e with
  | Ok v => [ecm_I e; v; ecm_SOC e; ecm_T e; e_time (es e); e_Ah (es e); e_Wh (es e)]
  | _ => [ecm_I e]
  end.
(** A cell with an observer of [storeData]: the data points it was asked to store. *)
Definition sampled {A : Type} {NA : Num A} : unit_if A (rcell A * list (list A)) :=
  let o := rc_if (A := A) in
  let l := fun (B : Type) (f : M (rcell A) B) (w : rcell A * list (list A)) => ((fst (f (fst w)), snd w), snd (f (fst w))) in
  mkIf (l _ (q_I o)) (l _ (q_Cap o)) (l _ (q_lim o)) (l _ (q_V o)) (l _ (q_checkV o)) (l _ (q_Vlow o)) (l _ (q_getStates o))
    (fun s b => l _ (q_setStates o s b)) (fun i b => l _ (q_setCurrent o i b)) (fun v => l _ (q_setVoltage o v))
    (fun dt n => l _ (q_step o dt n))
    (fun w => ((fst (q_store o (fst w)), snd w ++ [sample (fst w)]), snd (q_store o (fst w))))
    (l _ (q_write o)).
(** The text [writeData] adds to a cell's file for given cell states and buffer. *)
Definition block_text {A : Type} (b : list A * list A) : list (ftok A) :=
  match write_cell (fst b) ([], snd b) with Ok (t, _) => t | _ => [] end.
