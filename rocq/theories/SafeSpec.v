(** * Specification for C75: calls that stay inside their arrays *)
From Coq Require Import Reals List.
From Verif Require Import Base RFacts StatusModel UtilModel UtilSpec CellModel CoolModel ModuleModel BattModel SpmModel SpmUnitModel.
Import ListNotations.

(** A call has a defined outcome when it returns or throws a C++ exception that the caller can catch. The other outcomes
    of the model are reads or writes outside an array, conversions of a value that does not fit and exceptions that
    terminate the program. *)
Definition defined {B : Type} (r : res B) : Prop :=
  match r with Ok _ | Throw _ => True | UB | Fuel => False end.
Definition returns {B : Type} (r : res B) : Prop :=
  match r with Ok _ => True | _ => False end.

(** The shape of a unit: cells with their number of states and whether their time step can throw, modules with their
    children and one state of their own (the temperature of the coolant). *)
Inductive shape : Type :=
| Leaf (n : nat) (throws : bool)
| Node (l : list shape).
Fixpoint size (s : shape) : nat :=
  match s with
  | Leaf n _ => n
  | Node l => S (list_sum (map size l))
  end.
(** All children of a module have equally many states. *)
Fixpoint evenly (s : shape) : Prop :=
  match s with
  | Leaf _ _ => True
  | Node l => (exists k, Forall (fun c => size c = k) l) /\
              (fix all (l : list shape) : Prop := match l with [] => True | c :: t => evenly c /\ all t end) l
  end.
Definition calm (s : shape) : Prop := match s with Leaf _ throws => throws = false | Node _ => False end.

Section Calls.
Context {A : Type} {NA : Num A} {S : Type} (o : su_ops A S).

(** The calls of the interface of a storage unit (src/StorageUnit.hpp:40-107). *)
Inductive call : Type :=
| GetV | CheckV | GetVhigh | GetVlow | GetOCV | GetRtot
| SetCurrent (i : A) (check : bool) | SetVoltage (v : A)
| SetStates (l : list A) (check : bool)
| TimeStep (dt : A) (n : Z)
| Thermal (nb : list (A * A * A)) (t : A) | SetT (t : A)
| SetBlock (b : bool) | CoolingLoad.

Definition forget {B : Type} (p : S * res B) : S * res unit := (fst p, rmap (fun _ => tt) (snd p)).
Definition do_call (c : call) (s : S) : S * res unit :=
  match c with
  | GetV => forget (o_V o s) | CheckV => forget (o_checkV o s)
  | GetVhigh => forget (o_Vhigh o s) | GetVlow => forget (o_Vlow o s)
  | GetOCV => forget (s, o_OCV o s) | GetRtot => forget (s, o_Rtot o s)
  | SetCurrent i b => forget (o_setCurrent o i b s)
  | SetVoltage v => forget (setVoltage_iterative o v s)
  | SetStates l b => forget (o_setStates o l b s)
  | TimeStep dt n => o_timeStep o dt n s
  | Thermal nb t => forget (o_thermal o nb t s)
  | SetT t => o_setT o t s
  | SetBlock b => (o_setFlag o b s, Ok tt)
  | CoolingLoad => forget (o_coolload o s)
  end.
(** The outcomes of a sequence of calls; the caller goes on after an exception. *)
Fixpoint outcomes (cs : list call) (s : S) : list (res unit) :=
  match cs with
  | [] => []
  | c :: cs' => let '(s', r) := do_call c s in r :: outcomes cs' s'
  end.
Fixpoint after (cs : list call) (s : S) : S :=
  match cs with [] => s | c :: cs' => after cs' (fst (do_call c s)) end.

(** A call with a vector of states passes at least as many values as the unit has, and only to even units. *)
Definition admissible (sh : shape) (c : call) : Prop :=
  match c with SetStates l _ => (size sh <= length l)%nat /\ evenly sh | _ => True end.
End Calls.
Arguments call A : clear implicits.

(** The calls of a battery (src/system/Battery.hpp:56-140). *)
Section BattCalls.
Context {A : Type} {NA : Num A} {S : Type} (o : su_ops A S) (tm : Z).
Inductive bcall : Type :=
| BGetV | BCheckV | BGetVhigh | BGetVlow | BGetOCV | BGetRtot | BGetI | BGetT | BGetStates
| BSetCurrent (i : A) (check : bool) | BSetStates (l : list A) (check : bool)
| BTimeStep (dt : A) (n : Z) | BThermal (neighbours : nat) (t : A) | BSetT (t : A)
| BSetBlock (b : bool) | BCoolingLoad.
Definition do_bcall (c : bcall) (b : batt A S) : batt A S * res unit :=
  match c with
  | BGetV => forget (batt_V o tm b) | BCheckV => forget (batt_checkV o tm b)
  | BGetVhigh => forget (batt_Vhigh o tm b) | BGetVlow => forget (batt_Vlow o tm b)
  | BGetOCV => forget (b, batt_OCV o tm b) | BGetRtot => forget (b, batt_Rtot o tm b)
  | BGetI => forget (b, batt_I o tm b) | BGetT => forget (b, batt_T b) | BGetStates => forget (b, batt_getStates o tm b)
  | BSetCurrent i ch => forget (batt_setCurrent o tm i ch b)
  | BSetStates l ch => forget (batt_setStates o tm l ch b)
  | BTimeStep dt n => batt_timeStep o tm dt n b
  | BThermal nn t => forget (batt_thermal o tm nn t b)
  | BSetT t => batt_setT t b
  | BSetBlock bl => match batt_setBlock o bl b with Ok b' => (b', Ok tt) | e => (b, cast e) end
  | BCoolingLoad => forget (batt_coolload o b)
  end.
Fixpoint boutcomes (cs : list bcall) (b : batt A S) : list (res unit) :=
  match cs with
  | [] => []
  | c :: cs' => let '(b', r) := do_bcall c b in r :: boutcomes cs' b'
  end.
Definition badmissible (sh : shape) (c : bcall) : Prop :=
  match c with BSetStates l _ => (Datatypes.S (size sh) <= length l)%nat /\ evenly sh | _ => True end.
End BattCalls.
Arguments bcall A : clear implicits.

(** Well-formed units: [leaf] says when a cell is well formed and [lsh] gives its shape. *)
Section Trees.
Context {A : Type} {C : Type} (leaf : C -> Prop) (lsh : C -> shape).
Fixpoint shape_of (n : nat) : su A C n -> shape :=
  match n with
  | O => lsh
  | S n' => fun u => match u with inl c => lsh c | inr m => Node (map (shape_of n') (ms m)) end
  end.
(** At most 100 children, a contact resistance for each, and worker threads only for children that cannot throw. *)
Fixpoint formed (n : nat) : su A C n -> Prop :=
  match n with
  | O => leaf
  | S n' => fun u =>
      match u with
      | inl c => leaf c
      | inr m => (length (ms m) <= NSUs_MAX)%nat /\ length (ms m) = length (m_rc (mm m)) /\
                 (m_par (mm m) = true -> Forall (fun s => calm (shape_of n' s)) (ms m)) /\
                 Forall (formed n') (ms m)
      end
  end.
(** A battery with a well-formed module, and a converter whose number of inverters fits an [int]. *)
Definition bshape (n : nat) (b : batt A (su A C n)) : shape :=
  match bt_body b with Some (m, _) => Node (map (shape_of n) (ms m)) | None => Leaf 0 false end.
Definition bformed {NA : Num A} (n : nat) (b : batt A (su A C n)) : Prop :=
  (exists m k, bt_body b = Some (m, k) /\ formed (Datatypes.S n) (inr m)) /\
  defined (to_int (nceil (ndiv (v_pnom (bt_conv b)) (nmul (nZ 200) (nZ 1000))))).
End Trees.

Section Cells.
Context {A : Type} {NA : Num A}.
(** No look-up in the table leaves it. *)
Definition closed_table (d : XYdata A) : Prop := forall x : A, defined (XYdata_interp d x true).

(** An equivalent-circuit cell whose table is closed. *)
Definition ecm_formed (u : ecmu A) : Prop := ecm_wf (u_ecm u) /\ closed_table (p_ocv (ep (u_ecm u))).
Definition ecm_shape (u : ecmu A) : shape := Leaf (6 + length (e_Ir (es (u_ecm u)))) false.

(** A single-particle cell whose tables are closed and cover all admissible surface concentrations. *)
Definition covers (d : XYdata A) (cmax : A) : Prop :=
  forall x : A, nleb x (nZ 0) = false -> nleb cmax x = false -> returns (XYdata_interp d (ndiv x cmax) true).
Definition spm_formed (c : spm A) : Prop :=
  closed_table (q_OCVp (cp c)) /\ closed_table (q_OCVn (cp c)) /\
  closed_table (q_dOCVn (cp c)) /\ closed_table (q_dOCVtot (cp c)) /\
  covers (q_OCVp (cp c)) (q_Cmaxp (cp c)) /\ covers (q_OCVn (cp c)) (q_Cmaxn (cp c)) /\
  covers (q_dOCVtot (cp c)) (q_Cmaxp (cp c)).
Definition spm_shape (c : spm A) : shape :=
  Leaf (22 + length (s_zp (cs c)) + length (s_zn (cs c))) true.
(** The built-in stress table is closed. *)
Definition stress_closed : Prop := forall x : A, defined (linInt true (@lares_x A NA) lares_y 11 x true).
End Cells.

(** A table over exact numbers that the program accepts: two or more points with increasing abscissae, as many ordinates
    as abscissae, and equally spaced if it is marked so. *)
Definition usable_table (d : XYdata R) : Prop :=
  length (xy_x d) = length (xy_y d) /\ (2 <= length (xy_x d))%nat /\ (Z.of_nat (length (xy_x d)) <= 2147483647)%Z /\
  increasing (xy_x d) /\ (xy_fixed d = true -> exists x0 dt, (0 < dt)%R /\ uniform (xy_x d) x0 dt).
(** It reaches from stoichiometry zero to one. *)
Definition spans_unit (d : XYdata R) : Prop :=
  exists a b, nth_error (xy_x d) 0 = Some a /\ nth_error (xy_x d) (length (xy_x d) - 1) = Some b /\ (a <= 0)%R /\ (1 <= b)%R.
Definition ecm_usable (u : ecmu R) : Prop := ecm_wf (u_ecm u) /\ usable_table (p_ocv (ep (u_ecm u))).
Definition spm_usable (c : spm R) : Prop :=
  usable_table (q_OCVp (cp c)) /\ usable_table (q_OCVn (cp c)) /\ usable_table (q_dOCVn (cp c)) /\ usable_table (q_dOCVtot (cp c)) /\
  spans_unit (q_OCVp (cp c)) /\ spans_unit (q_OCVn (cp c)) /\ spans_unit (q_dOCVtot (cp c)).
