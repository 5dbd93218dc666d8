(** Vocabulary of the statements about parallel modules that balance (C93). *)
From Coq Require Import List.
From Verif Require Import Base RFacts CellModel ModuleModel.
Import ListNotations.
Local Open Scope R_scope.

(** The same cell carrying another current. *)
Definition carrying (i : R) (c : ecmu R) : ecmu R := mkEu (u_block c) (mkEcm (ep (u_ecm c)) (with_I (es (u_ecm c)) i)).
Definition only_currents (l l' : list (ecmu R)) : Prop := Forall2 (fun c d => d = carrying (e_I (es (u_ecm d))) c) l l'.
Definition total_I (l : list (ecmu R)) : R := Rsum (map (fun c => e_I (es (u_ecm c))) l).
(** The terminal voltage of a cell lies between two bounds. *)
Definition between (lo hi : R) (c : ecmu R) : Prop := exists v, ecm_V (u_ecm c) = Ok v /\ lo <= v <= hi.

(** A cell inside its open-circuit table for which all voltages between [lo] and [hi] are within the safety limits. *)
Definition in_limits (lo hi : R) (c : ecmu R) : Prop :=
  (exists o, ecm_OCV (u_ecm c) = Ok o) /\ l_VMIN (p_lim (ep (u_ecm c))) <= lo /\ hi <= l_VMAX (p_lim (ep (u_ecm c))).
(** A cell that balancing can handle: capacity times resistance lies between [k] and 1. *)
Definition balances (k lo hi : R) (c : ecmu R) : Prop :=
  in_limits lo hi c /\ k <= p_cap (ep (u_ecm c)) * p_Rdc (ep (u_ecm c)) <= 1.

(** The cells' voltages deviate from a common one by less than [tol] in total. *)
Definition agree (tol : R) (l : list (ecmu R)) : Prop := exists vs v,
  Forall2 (fun c x => ecm_V (u_ecm c) = Ok x) l vs /\ Rsum (map (fun x => Rabs (v - x)) vs) < tol.
(** The currents that the circuit laws prescribe: every cell at the same voltage. *)
Definition one_voltage (l : list (ecmu R)) : Prop := exists v, Forall (fun c => ecm_V (u_ecm c) = Ok v) l.
(** Two lists of the same cells whose currents differ by at most [tol] over the resistance. *)
Definition currents_close (tol : R) : list (ecmu R) -> list (ecmu R) -> Prop :=
  Forall2 (fun c d => Rabs (e_I (es (u_ecm c)) - e_I (es (u_ecm d))) * p_Rdc (ep (u_ecm c)) <= tol).
