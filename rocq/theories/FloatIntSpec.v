(** * Specification: interpolation tables of doubles *)
From Coq Require Import Reals SpecFloat List.
Import ListNotations.
From Flocq Require Import Core BinarySingleNaN.
From Verif Require Import Base UtilModel UtilSpec FloatSpec.
Local Open Scope R_scope.

(** A table of at least two points: finite numbers, abscissae of at most 2^100 that increase by at least 2^-100 from point to point,
    ordinates of at most [B], which is between 2^-800 and 2^100. *)
Definition double_table (B : R) (xs ys : list f64) : Prop :=
  length xs = length ys /\ (2 <= length xs)%nat /\ Forall fin xs /\ Forall fin ys /\
  Forall (fun x => Rabs (fval x) <= bpow radix2 100) xs /\ Forall (fun y => Rabs (fval y) <= B) ys /\
  increasing (map fval xs) /\
  (forall i a b, nth_error xs i = Some a -> nth_error xs (S i) = Some b -> bpow radix2 (-100) <= fval b - fval a) /\
  bpow radix2 (-800) <= B <= bpow radix2 100.
(** [a] and [b] are the ends of the table. *)
Definition ends (xs : list f64) (a b : f64) : Prop := nth_error xs 0 = Some a /\ nth_error xs (length xs - 1) = Some b.
