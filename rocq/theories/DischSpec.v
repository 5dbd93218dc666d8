(** * Specification of the slow discharge *)
From Verif Require Import Base RFacts UtilModel UtilSpec FitModel DischModel.
Local Open Scope R_scope.

(** A table with strictly increasing abscissae, at least two points. *)
Definition table (c : list R * list R) : Prop :=
  length (fst c) = length (snd c) /\ (2 <= length (fst c))%nat /\ increasing (fst c).
(** [x] lies within the abscissae of the table. *)
Definition within (c : list R * list R) (x : R) : Prop :=
  exists a b, nth_error (fst c) 0 = Some a /\ nth_error (fst c) (length (fst c) - 1) = Some b /\ a <= x <= b.
(** The potential of an electrode: the table's piecewise-linear value, and 0 outside of it. *)
Definition potential (c : list R * list R) (x y : R) : Prop :=
  (within c x -> on_polyline (fst c) (snd c) x y) /\ (~ within c x -> y = 0).
(** Two tables that cover every lithium fraction. *)
Definition covers (c : list R * list R) : Prop := forall x, 0 <= x <= 1 -> within c x.

Section Traj.
Variables (p : dpar R) (sp sn : R).
(** Charge moved in 5 s at a tenth of the capacity per hour [Ah]. *)
Definition quantum : R := d_cap p * 5 / 36000.
(** Discharged charge and lithium fractions after [j] periods of 5 s: [3600 Q / F] moles leave the anode and enter the
    cathode; the fraction of an electrode is its lithium over [AM * cmax]. *)
Definition charge (j : nat) : R := INR j * quantum.
Definition cath (j : nat) : R := sp + charge j * 3600 / 96487 / (d_AMp p * d_cmaxp p).
Definition anod (j : nat) : R := sn - charge j * 3600 / 96487 / (d_AMn p * d_cmaxn p).
(** The discharge has to stop at period [j]: the last known voltage is at or below the end voltage or an electrode is
    empty or full. [pot i] are the electrode potentials after [i] periods. *)
Definition stops (pot : nat -> R * R) (j : nat) : Prop :=
  fst (pot (pred j)) - snd (pot (pred j)) <= d_Vend p \/ cath j <= 0 \/ 1 <= cath j \/ anod j <= 0 \/ 1 <= anod j.
(** The row stored for period [j]: the charge and fractions of that period, the voltages of the period before. *)
Definition row_at (pot : nat -> R * R) (j : nat) : drow R :=
  let u := pot (pred j) in mkRow (charge j) (fst u - snd u) (anod j) (snd u) (cath j) (fst u).
End Traj.

(** The periods that get a row: every hundredth one until the end, and the end [K]. *)
Definition recorded (K : nat) : list nat := map (fun k => (100 * k)%nat) (seq 0 (S ((K - 1) / 100))) ++ [K].
