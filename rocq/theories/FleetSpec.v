(** * Specification vocabulary for packs of cells of either kind *)
From Coq Require Import List Reals.
From Verif Require Import Base RFacts StatusModel CellModel CoolModel ModuleModel ModuleSpec SpmModel SpmUnitModel CyclerModel PackSpec FleetModel.
Import ListNotations.
Local Open Scope R_scope.

(** What the two kinds of cell have in common: current (A), state of charge (0 to 1), charge throughput (Ah), clock (s) and
    nominal capacity (Ah). *)
Record account := mkAcc { a_I : R; a_SOC : R; a_Ah : R; a_time : R; a_cap : R }.
Definition account_of (c : cell (A := R)) : account :=
  match c with
  | inl e => let s := es (u_ecm e) in mkAcc (e_I s) (e_SOC s) (e_Ah s) (e_time s) (p_cap (ep (u_ecm e)))
  | inr p => let s := cs p in mkAcc (s_I s) (s_SOC s) (s_Ah s) (s_time s) (q_cap (cp p))
  end.
Definition current_of (c : cell) : R := a_I (account_of c).

(** The account after drawing the constant current [a_I a] for [t] seconds. *)
Definition drawn (t : R) (a : account) : account :=
  mkAcc (a_I a) (a_SOC a - a_I a * t / 3600 / a_cap a) (a_Ah a + Rabs (a_I a) * t / 3600) (a_time a + t) (a_cap a).
(** The account with another current. *)
Definition at_current (i : R) (a : account) : account := mkAcc i (a_SOC a) (a_Ah a) (a_time a) (a_cap a).
(** The account [b] is the account [a] after these phases (see PackSpec). *)
Definition account_after (l : list (R * R)) (a b : account) : Prop :=
  a_cap b = a_cap a /\ a_SOC b = a_SOC a - charge l / 3600 / a_cap a /\
  a_Ah b = a_Ah a + throughput l / 3600 /\ a_time b = a_time a + duration l.
Definition passed (l : list (R * R)) (c d : cell) : Prop := account_after l (account_of c) (account_of d).

(** What the cell reports as its voltage, and what it finds when it checks it. *)
Definition reports (F : fns R) (tm : Z) (c : cell) (v : R) : Prop := snd (o_V (cell_ops F tm) c) = Ok v.
Definition finds (F : fns R) (tm : Z) (c : cell) (s : Status) : Prop := exists v, snd (o_checkV (cell_ops F tm) c) = Ok (v, s).
(** The cell accepts the current [i], or refuses it because of a voltage limit. *)
Definition answers (F : fns R) (tm : Z) (i : R) (c : cell) : Prop :=
  forall c' st, o_setCurrent (cell_ops F tm) i true c = (c', Ok st) -> isStatusBad st = true -> isStatusVoltageLimitsViolated st = true.

(** Series modules (of at most 100 children, none empty) of series modules ... of cells. *)
Definition chain {A C : Type} (n : nat) (u : su A C n) : Prop :=
  all_series n u /\ every_module (fun _ _ l => l <> [] /\ (length l <= 100)%nat) n u.

(** All that happened to the cell is that its voltage may have been read. *)
Definition looked (F : fns R) (tm : Z) (c d : cell) : Prop := d = c \/ d = fst (o_V (cell_ops F tm) c).
(** A way of storing data that at most reads voltages when it returns. *)
Definition innocent (F : fns R) (tm : Z) {n : nat} (f : M (fleet (A := R) n) unit) : Prop :=
  forall u u', f u = (u', Ok tt) -> same_tree (looked F tm) n u u'.

(** A user's sequence of [rest] and [CC] calls on a cycler, each of which ended at its time or voltage limit; the phases in
    order. In diagnostic mode a [CC] starts with cells that answer. *)
Inductive operated (F : fns R) (tm : Z) (n : nat) (store write : M (fleet (A := R) n) unit) (nmax : nat) (diag : bool) :
  cyc R (fleet (A := R) n) -> list (R * R) -> cyc R (fleet (A := R) n) -> Prop :=
| op_none w : operated F tm n store write nmax diag w [] w
| op_rest w l w1 w2 fuel tlim dt ndt :
    operated F tm n store write nmax diag w l w1 -> 0 < dt -> 0 <= tlim ->
    rest (fleet_if F tm n store write) nmax fuel tlim dt ndt w1 = (w2, Ok ReachedTimeLimit) ->
    operated F tm n store write nmax diag w (l ++ [(0, tlim)]) w2
| op_CC w l w1 w2 fuel i vlim tlim dt ndt st t :
    operated F tm n store write nmax diag w l w1 -> 0 < dt -> 0 <= tlim ->
    (diag = true -> Forall (answers F tm i) (leaves n (c_su w1))) ->
    CC (fleet_if F tm n store write) nmax diag fuel i vlim tlim dt ndt w1 = (w2, Ok st) ->
    st = ReachedTimeLimit \/ st = ReachedVoltageLimit -> t = th_time (c_th w2) - th_time (c_th w1) ->
    operated F tm n store write nmax diag w (l ++ [(i, t)]) w2.

(** Contact resistances of a tree, all modules together. *)
Definition contact_resistance {C : Type} (n : nat) (u : su R C n) : R := Rsum (concat (over_modules (fun _ r _ => m_rc r) n u)).
(** The voltage limits the cell was built with. *)
Definition limits_of (c : cell (A := R)) : limits R :=
  match c with inl e => p_lim (ep (u_ecm e)) | inr p => SpmModel.q_lim (cp p) end.
