(** Vocabulary of the statements about parallel modules with contact resistances (C93, C94). *)
From Coq Require Import List.
From Verif Require Import Base RFacts CellModel ModuleModel ConvSpec.
Import ListNotations.
Local Open Scope R_scope.

(** Branch [j] is connected through the contacts 0 to [j]; contact [m] carries the currents of the branches from [m] on. *)
Definition contact_drop (rc is : list R) (j : nat) : R := Rsum (map (fun m => nth m rc 0 * Rsum (skipn m is)) (seq 0 (S j))).
(** The voltages of the branches as seen from the terminals. *)
Definition terminals (rc : list R) (l : list (ecmu R)) (ts : list R) : Prop := exists vs,
  Forall2 (fun c v => ecm_V (u_ecm c) = Ok v) l vs /\ length ts = length l /\
  forall j v, nth_error vs j = Some v -> nth_error ts j = Some (v - contact_drop rc (map (fun c => e_I (es (u_ecm c))) l) j).
(** Each contact resistance times the number of branches behind it. *)
Fixpoint ladder (rc : list R) : R := match rc with [] => 0 | r :: rc' => ladder rc' + r * INR (length rc) end.
(** Sum of the squared, and of the absolute, deviations from [y]. *)
Definition squares (y : R) (ts : list R) : R := Rsum (map (fun t => (t - y) * (t - y)) ts).
Definition deviations (y : R) (ts : list R) : R := Rsum (map (fun t => Rabs (y - t)) ts).
(** A cell with capacity [c], capacity times resistance at least [k], resistance at most [R0]. *)
Definition of_kind (c k R0 lo hi : R) (x : ecmu R) : Prop := in_limits lo hi x /\ p_cap (ep (u_ecm x)) = c /\
  k <= c * p_Rdc (ep (u_ecm x)) /\ p_Rdc (ep (u_ecm x)) <= R0.
