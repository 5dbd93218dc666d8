(** * Specification: totals of packs in double arithmetic *)
From Coq Require Import Reals List Permutation.
From Flocq Require Import Core BinarySingleNaN.
From Verif Require Import Base RFacts StatusModel CellModel ModuleModel FloatSpec.
Import ListNotations.
Local Open Scope R_scope.

(** Sums of doubles in any order and with any bracketing. *)
Inductive dsum : list f64 -> f64 -> Prop :=
| dsum_one x : dsum [x] x
| dsum_add xs ys zs a b : dsum xs a -> dsum ys b -> Permutation zs (xs ++ ys) -> dsum zs (nadd a b).

(** The lowest and the highest of some numbers (0 when there are none), the first of them. *)
Definition lowest (xs : list R) : R := match xs with [] => 0 | x :: t => fold_left Rmin t x end.
Definition highest (xs : list R) : R := match xs with [] => 0 | x :: t => fold_left Rmax t x end.
Definition first (xs : list R) : R := match xs with [] => 0 | x :: _ => x end.

(** The exact value of a tree of modules: series modules combine the values of their children by [ser], parallel ones by [par]. *)
Fixpoint total {A C : Type} (leaf : C -> R) (ser par : list R -> R) (n : nat) : su A C n -> R :=
  match n return su A C n -> R with
  | O => leaf
  | S n' => fun u =>
      match (u : C + module A (su A C n')) with
      | inl c => leaf c
      | inr m => (if m_series (mm m) then ser else par) (map (total leaf ser par n') (ms m))
      end
  end.
(** The most additions a value of a cell takes part in on its way to the top. *)
Fixpoint adds {A C : Type} (n : nat) : su A C n -> nat :=
  match n return su A C n -> nat with
  | O => fun _ => 0%nat
  | S n' => fun u =>
      match (u : C + module A (su A C n')) with
      | inl _ => 0%nat
      | inr m => (list_max (map (adds n') (ms m)) + length (ms m))%nat
      end
  end.
(** [x] is [e] up to [k] times two rounding units of [m]. *)
Definition close (k : nat) (x : f64) (e m : R) : Prop := fin x /\ Rabs (fval x - e) <= INR k * (2 * eps) * m.

(** What a series module reads: of every child in order its voltage, the contact resistance in front of it and its current. *)
Inductive reads {S : Type} (o : su_ops f64 S) : list S -> list f64 -> list S -> list (f64 * f64 * f64) -> Prop :=
| reads_nil rc : reads o [] rc [] []
| reads_cons s l r rc s' l' v zs : o_V o s = (s', Ok v) -> reads o l rc l' zs ->
    reads o (s :: l) (r :: rc) (s' :: l') ((v, r, o_I o s') :: zs).
(** Readings whose products do not overflow. *)
Definition reading_ok (z : f64 * f64 * f64) : Prop :=
  let '(v, r, i) := z in fin v /\ fin r /\ fin i /\ Rabs (fval r * fval i) <= bpow radix2 900.
Definition drop (z : f64 * f64 * f64) : R := let '(v, r, i) := z in fval v - fval r * fval i.
(** Sizes of the two terms; a tiny constant for products that underflow. *)
Definition size (z : f64 * f64 * f64) : R := let '(v, r, i) := z in Rabs (fval v) + Rabs (fval r * fval i) + bpow radix2 (-960).
