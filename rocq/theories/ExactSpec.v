(** Vocabulary of the accuracy statements about an equivalent-circuit cell (C92). *)
From Verif Require Import Base RFacts CellModel CellSpec.
Local Open Scope R_scope.

(** The current in the resistor of an RC pair with time constant [1/k], a time [t] after it was [x], while the
    cell carries [i]: the solution of x' = k (i - x). *)
Definition response (k i x t : R) : R := i + (x - i) * exp (- (k * t)).

(** The same after a whole log of constant-current calls (current, step, number of steps). *)
Definition ideal (k x : R) (log : list (R * R * nat)) : R :=
  fold_left (fun y '(i, dt, n) => response k i y (INR n * dt)) log x.

(** The pairs of a cell, each following its own equation exactly. *)
Definition ideal_pairs (itau ir : list R) (log : list (R * R * nat)) : list R :=
  map (fun '(k, x) => ideal k x log) (combine itau ir).

(** A schedule of currents and durations, and its log when every stretch is cut into [N] steps. *)
Definition cut (N : nat) (sched : list (R * R)) : list (R * R * nat) :=
  map (fun '(i, T) => (i, T / INR N, N)) sched.
Definition ideal_sched (k x : R) (sched : list (R * R)) : R :=
  fold_left (fun y '(i, T) => response k i y T) sched x.

(** The same profile with currents [g] times as large: what drives a diffusion mode of gain [g]. *)
Definition scaled (g : R) (l : list (R * R * nat)) : list (R * R * nat) := map (fun '(i, dt, n) => (g * i, dt, n)) l.
