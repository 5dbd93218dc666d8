(** * Specifications for the numeric utilities, independent of the model *)
From Verif Require Import Base RFacts.
Local Open Scope R_scope.

(** Strict monotonicity of a table, by index. *)
Definition increasing (xs : list R) : Prop :=
  forall i j a b, (i < j)%nat -> nth_error xs i = Some a -> nth_error xs j = Some b -> a < b.

(** The piecewise-linear function through the points of a table: [y] is its value at [x]. *)
Definition on_polyline (xs ys : list R) (x y : R) : Prop :=
  exists i xl xr yl yr,
    nth_error xs i = Some xl /\ nth_error xs (S i) = Some xr /\
    nth_error ys i = Some yl /\ nth_error ys (S i) = Some yr /\
    xl <= x <= xr /\ (y - yl) * (xr - xl) = (yr - yl) * (x - xl).

(** Equally spaced abscissae. *)
Definition uniform (xs : list R) (x0 dt : R) : Prop :=
  forall i a, nth_error xs i = Some a -> a = x0 + INR i * dt.

Section HistSpec.
Variables (lo hi : R) (n : nat).

(** edge [k] of the histogram *)
Definition edge (k : nat) : R := lo + INR k * ((hi - lo) / INR n).

(** sample [x] belongs to bin [i]: bin 0 is "below", bin n+1 is "above", bin i in between is
    [edge (i-1), edge i). *)
Definition in_bin (i : nat) (x : R) : Prop :=
  match i with
  | O => x < lo
  | S k => if Nat.ltb k n then edge k <= x < edge (S k) else k = n /\ hi <= x
  end.

(** The cast in [add] is defined for [x]. *)
Definition castable (x : R) : Prop := -2147483648 <= 1 + (x - lo) / ((hi - lo) / INR n) < 2147483648.

End HistSpec.

(** Total of the bin counters. *)
Definition total (l : list nat) : nat := fold_right Nat.add 0%nat l.


(** [counts P l k]: exactly [k] elements of [l] satisfy [P]. *)
Inductive counts {X : Type} (P : X -> Prop) : list X -> nat -> Prop :=
| counts_nil : counts P [] 0
| counts_yes x l k : P x -> counts P l k -> counts P (x :: l) (S k)
| counts_no x l k : ~ P x -> counts P l k -> counts P (x :: l) k.
