(** * Specification of the adaptive Markov chain *)
From Coq Require Import Lra.
From Verif Require Import Base RFacts DataModel DataSpec.
Local Open Scope R_scope.

(** A lower-triangular matrix with positive diagonal: the factor of a covariance matrix. *)
Definition factor (N : nat) (S : matrix R) : Prop :=
  lower N S /\ forall i, (i < N)%nat -> 0 < S i i.
(** (S v)_i *)
Definition apply (N : nat) (S : matrix R) (v : vector R) (i : nat) : R := dot N (S i) v.
(** Sum of squares *)
Definition sq (N : nat) (v : vector R) : R := dot N v v.
(** Variance of the proposals along [v]: |S^T v|^2 *)
Definition variance (N : nat) (S : matrix R) (v : vector R) : R :=
  sq N (fun j => dot N (fun i => S i j) v).

(** What is assumed of [std::pow]: squares, and [n^(-1/2)] is in (0, 1] from 1 on. *)
Definition sane_pow (f : R -> R -> R) : Prop :=
  (forall x, f x 2 = x * x) /\ (forall n, 1 <= n -> 0 < f n (- (1 / 2)) <= 1).

(** Density of [N] independent observations with squared errors summing to [err] and variance [v], with the program's pi. *)
Definition gauss (N : nat) (v err : R) : R := / sqrt (2 * (3141592653589793 / 1000000000000000) * v) ^ N * exp (- err / (2 * v)).
Fixpoint product (xs : list R) : R := match xs with [] => 1 | x :: t => x * product t end.
Fixpoint densities (ds : list (R -> R)) (b : list R) : list R :=
  match ds, b with d :: ds', x :: b' => d x :: densities ds' b' | _, _ => [] end.

(** A history of adaptations: proposals and acceptance probabilities, with the iteration counter running from [k]. *)
From Verif Require Import McmcModel.
Fixpoint adapt (f_pow : R -> R -> R) (N : nat) (S : matrix R) (k : nat) (l : list (vector R * R)) : res (matrix R) :=
  match l with
  | [] => Ok S
  | (w, alpha) :: t => rbind (S_update f_pow N S w alpha (INR k)) (fun S' => adapt f_pow N S' (Datatypes.S k) t)
  end.
