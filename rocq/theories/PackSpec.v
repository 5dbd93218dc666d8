(** * Specification vocabulary for a cycler working on a string of cells *)
From Coq Require Import List Reals.
From Verif Require Import Base RFacts StatusModel CellModel CoolModel ModuleModel ModuleSpec CyclerModel PackModel.
Import ListNotations.
Local Open Scope R_scope.

(** A way of storing data that does not touch the cells or the structure of the tree when it returns. *)
Definition harmless {n : nat} (f : M (su R (ecmu R) n) unit) : Prop :=
  forall u u', f u = (u', Ok tt) -> same_tree eq n u u'.

(** The phases of a run: current (A, positive is discharging) and duration (s). *)
Fixpoint charge (l : list (R * R)) : R := match l with [] => 0 | (i, t) :: l' => i * t + charge l' end.
Fixpoint throughput (l : list (R * R)) : R := match l with [] => 0 | (i, t) :: l' => Rabs i * t + throughput l' end.
Fixpoint duration (l : list (R * R)) : R := match l with [] => 0 | (i, t) :: l' => t + duration l' end.

(** Cell [d] is cell [c] after these phases: state of charge (0 to 1), charge throughput (Ah) and clock (s). *)
Definition went_through (l : list (R * R)) (c d : ecmu R) : Prop :=
  ep (u_ecm d) = ep (u_ecm c) /\
  e_SOC (es (u_ecm d)) = e_SOC (es (u_ecm c)) - charge l / 3600 / p_cap (ep (u_ecm c)) /\
  e_Ah (es (u_ecm d)) = e_Ah (es (u_ecm c)) + throughput l / 3600 /\
  e_time (es (u_ecm d)) = e_time (es (u_ecm c)) + duration l.
(** The caller's throughput object after these phases. *)
Definition booked_as (l : list (R * R)) (t t' : th R) : Prop :=
  th_time t' = th_time t + duration l /\ th_Ah t' = th_Ah t + throughput l / 3600.

(** A string: series modules (of at most 100 children, none empty) of series modules ... of cells. *)
Definition string (n : nat) (u : su R (ecmu R) n) : Prop := serial n u /\ every_module (fun _ _ l => l <> []) n u.
(** At the current [i] every cell has a positive voltage. *)
Definition alive_at (i : R) (n : nat) (u : su R (ecmu R) n) : Prop :=
  Forall (fun c => exists v, ecm_V (mkEcm (ep (u_ecm c)) (with_I (es (u_ecm c)) i)) = Ok v /\ 0 < v) (leaves n u).

(** A user's sequence of [rest] and [CC] calls on a cycler, each of which ended at its time or voltage limit; the phases in
    order. In diagnostic mode a [CC] starts with live cells. *)
Inductive cycled (tm : Z) (n : nat) (store write : M (su R (ecmu R) n) unit) (nmax : nat) (diag : bool) :
  cyc R (su R (ecmu R) n) -> list (R * R) -> cyc R (su R (ecmu R) n) -> Prop :=
| cy_none w : cycled tm n store write nmax diag w [] w
| cy_rest w l w1 w2 fuel tlim dt ndt :
    cycled tm n store write nmax diag w l w1 -> 0 < dt -> 0 <= tlim ->
    rest (tree_if tm n store write) nmax fuel tlim dt ndt w1 = (w2, Ok ReachedTimeLimit) ->
    cycled tm n store write nmax diag w (l ++ [(0, tlim)]) w2
| cy_CC w l w1 w2 fuel i vlim tlim dt ndt st t :
    cycled tm n store write nmax diag w l w1 -> 0 < dt -> 0 <= tlim -> (diag = true -> alive_at i n (c_su w1)) ->
    CC (tree_if tm n store write) nmax diag fuel i vlim tlim dt ndt w1 = (w2, Ok st) ->
    st = ReachedTimeLimit \/ st = ReachedVoltageLimit -> t = th_time (c_th w2) - th_time (c_th w1) ->
    cycled tm n store write nmax diag w (l ++ [(i, t)]) w2.
