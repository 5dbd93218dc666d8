(** * Specifications for containers, thread pool, writer and Cholesky update *)
From Coq Require Import Permutation.
From Verif Require Import Base RFacts DataModel.

(** The task range 0, 1, ..., e-1. *)
Definition range (e : Z) : list Z := map Z.of_nat (seq 0 (Z.to_nat e)).

(** Tasks with disjoint state: task [i] owns component [i] and consists of the atomic actions [prog i]. *)
Notation action X := (Z * (X -> X))%type.
Section Exec.
Context {X : Type}.
Definition exec1 (s : Z -> X) (a : action X) : Z -> X := fun j => if (j =? fst a)%Z then snd a (s j) else s j.
Definition exec (sched : list (action X)) (s : Z -> X) : Z -> X := fold_left exec1 sched s.
(** what a thread executes for the tasks [l], in order *)
Definition actions_of (prog : Z -> list (X -> X)) (l : list Z) : list (action X) :=
  flat_map (fun i => map (pair i) (prog i)) l.
(** effect of running one task to completion *)
Definition complete (l : list (X -> X)) (x : X) : X := fold_left (fun y g => g y) l x.
End Exec.

(** Histories of a state storage: blocks are added and the memory is changed arbitrarily in between. The log
    records each block with the values it had when it was added. *)
Inductive storing {A : Type} : heap A -> sstore A -> list (span * list A) -> heap A -> sstore A -> Prop :=
| st_nil h st : storing h st [] h st
| st_add h st s log h' st' :
    storing h (ss_add h s st) log h' st' -> storing h st ((s, read_span h s) :: log) h' st'
| st_mutate h st h1 log h' st' : storing h1 st log h' st' -> storing h st log h' st'.

(** Address [a] holds, in the log, the value of the block added last among those containing [a]. *)
Definition in_span (a : nat) (s : span) : Prop := (fst s <= a < fst s + snd s)%nat.
Fixpoint last_saved {A : Type} (log : list (span * list A)) (a : nat) : option A :=
  match log with
  | [] => None
  | (s, vs) :: rest =>
      match last_saved rest a with
      | Some v => Some v
      | None => if (fst s <=? a)%nat && (a <? fst s + snd s)%nat then nth_error vs (a - fst s) else None
      end
  end.

(** The storage has the declared capacity and the size does not exceed it. *)
Definition sv_ok (v : smallvec) : Prop := length (sv_data v) = sv_max v /\ (sv_n v <= sv_max v)%nat.
(** Pushing a list of values, stopping at the first push that does not return. *)
Fixpoint pushes (l : list Z) (v : smallvec) : smallvec * res unit :=
  match l with
  | [] => (v, Ok tt)
  | x :: t => match sv_push x v with (v', Ok _) => pushes t v' | r => r end
  end.

(** Reading a file back as rows: numbers separated by commas, rows by newlines; two adjacent numbers run together
    and cannot be separated. *)
Section Parse.
Context {A : Type}.
Fixpoint parse_after (cur : list A) (t : list (ftok A)) : option (list (list A)) :=
  match t with
  | [] => Some [cur]
  | FComma :: FNum x :: rest => parse_after (cur ++ [x]) rest
  | FNewline :: FNum x :: rest => option_map (cons cur) (parse_after [x] rest)
  | _ => None
  end.
Definition parse_rows (t : list (ftok A)) : option (list (list A)) :=
  match t with
  | [] => Some []
  | FNum x :: rest => parse_after [x] rest
  | _ => None
  end.
(** the numbers of a file in order *)
Definition numbers (t : list (ftok A)) : list A :=
  flat_map (fun k => match k with FNum x => [x] | _ => [] end) t.
(** the rows of a table of width [n]: all full except possibly the last, which is not empty *)
Inductive rows_of (n : nat) : list (list A) -> Prop :=
| ro_last r : (1 <= length r <= n)%nat -> rows_of n [r]
| ro_cons r rs : length r = n -> (1 <= n)%nat -> rows_of n rs -> rows_of n (r :: rs).
(** a sequence of writes, each appending one batch to the same file *)
Fixpoint write_batches (n : nat) (f : list (ftok A)) (bs : list (list A)) : res (list (ftok A)) :=
  match bs with
  | [] => Ok f
  | b :: rest => rbind (write_data n (f, b)) (fun '(f', _) => write_batches n f' rest)
  end.
End Parse.

(** Matrix equations. *)
Section MatSpec.
Local Open Scope R_scope.
Fixpoint dot (n : nat) (u v : nat -> R) : R :=
  match n with O => 0 | S k => dot k u v + u k * v k end.
Definition lower (n : nat) (L : matrix R) : Prop := forall i j, (i < n)%nat -> (i < j)%nat -> L i j = 0.
(** (L L^T)_{ij} *)
Definition gram (n : nat) (L : matrix R) (i j : nat) : R := dot n (L i) (L j).
(** [L'] is a factor of [L L^T + sgn x x^T] *)
Definition updates (n : nat) (L L' : matrix R) (x : vector R) (sgn : R) : Prop :=
  forall i j, (i < n)%nat -> (j < n)%nat -> gram n L' i j = gram n L i j + sgn * (x i * x j).
(** update or downdate *)
Definition sg (down : bool) : R := if down then -1 else 1.
(** tail sum of squares of x/L over indices K..n-1 *)
Fixpoint tails (m K : nat) (L : matrix R) (x : vector R) : R :=
  match m with O => 0 | S m' => (x K / L K K) * (x K / L K K) + tails m' (S K) L x end.
Definition diagonal (n : nat) (L : matrix R) : Prop :=
  (forall i j, (i < n)%nat -> (j < n)%nat -> i <> j -> L i j = 0) /\ (forall i, (i < n)%nat -> 0 < L i i).
End MatSpec.
