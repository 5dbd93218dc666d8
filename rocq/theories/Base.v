(** * Base: outcomes of C++ code and the numeric carriers

    Every model function is written once over an arbitrary numeric carrier
    ([Num A]).  [SFNum] is IEEE-754 binary64 (what the C++ [double]s do),
    [RNum] the mathematical reals. *)

From Coq Require Export ZArith List Bool Lia ZifyBool.
From Coq Require Import SpecFloat Reals.
Export ListNotations.

(** ** Outcomes

    [Ok v]    normal return;
    [Throw n] [throw n] (the code throws plain [int]s);
    [UB]      undefined behaviour: out-of-range access, invalid cast, null dereference, [% 0];
    [Fuel]    the model ran out of fuel for a loop the code does not bound. *)
Inductive res (B : Type) : Type :=
| Ok (b : B)
| Throw (code : Z)
| UB
| Fuel.
Arguments Ok {B} b.
Arguments Throw {B} code.
Arguments UB {B}.
Arguments Fuel {B}.

Definition rbind {B C : Type} (r : res B) (f : B -> res C) : res C :=
  match r with
  | Ok b => f b
  | Throw n => Throw n
  | UB => UB
  | Fuel => Fuel
  end.

Definition rmap {B C : Type} (f : B -> C) (r : res B) : res C :=
  rbind r (fun b => Ok (f b)).

(** ** Stateful C++ methods: the state is kept also when the method throws. *)
Definition M (S B : Type) : Type := S -> S * res B.

Definition mret {S B : Type} (b : B) : M S B := fun s => (s, Ok b).
Definition mthrow {S B : Type} (n : Z) : M S B := fun s => (s, Throw n).
Definition mub {S B : Type} : M S B := fun s => (s, UB).
Definition mbind {S B C : Type} (m : M S B) (f : B -> M S C) : M S C :=
  fun s => match m s with
           | (s', Ok b) => f b s'
           | (s', Throw n) => (s', Throw n)
           | (s', UB) => (s', UB)
           | (s', Fuel) => (s', Fuel)
           end.
Definition mget {S : Type} : M S S := fun s => (s, Ok s).
Definition mput {S : Type} (s' : S) : M S unit := fun _ => (s', Ok tt).

(** ** Numeric carriers *)
Class Num (A : Type) := {
  nadd : A -> A -> A;
  nsub : A -> A -> A;
  nmul : A -> A -> A;
  ndiv : A -> A -> A;
  nopp : A -> A;
  nabs : A -> A;                (* std::abs on double *)
  nsqrt : A -> A;               (* std::sqrt *)
  nltb : A -> A -> bool;        (* operator<  (false on NaN) *)
  nleb : A -> A -> bool;        (* operator<= (false on NaN) *)
  neqb : A -> A -> bool;        (* operator== (false on NaN) *)
  nlit : Z -> positive -> A;    (* the literal p/q, correctly rounded *)
  nnan : A -> bool;             (* std::isnan *)
  ntrunc : A -> option Z;       (* truncation towards zero; None for NaN and infinities *)
  nceil : A -> A                (* std::ceil *)
}.

Declare Scope num_scope.
Delimit Scope num_scope with num.
Notation "x + y" := (nadd x y) : num_scope.
Notation "x - y" := (nsub x y) : num_scope.
Notation "x * y" := (nmul x y) : num_scope.
Notation "x / y" := (ndiv x y) : num_scope.
Notation "- x" := (nopp x) : num_scope.
Notation "x <? y" := (nltb x y) : num_scope.
Notation "x <=? y" := (nleb x y) : num_scope.
Notation "x >? y" := (nltb y x) (at level 70, only parsing) : num_scope.
Notation "x >=? y" := (nleb y x) (at level 70, only parsing) : num_scope.
Notation "x =? y" := (neqb x y) : num_scope.

Definition nZ {A : Type} `{Num A} (z : Z) : A := nlit z 1.
(** conversion of a [size_t]/[int] to [double] *)
Definition nnat {A : Type} `{Num A} (n : nat) : A := nlit (Z.of_nat n) 1.

(** [std::min(a,b)] is [(b < a) ? b : a]; [std::max(a,b)] is [(a < b) ? b : a]. *)
Definition nmin {A : Type} `{Num A} (a b : A) : A := if nltb b a then b else a.
Definition nmax {A : Type} `{Num A} (a b : A) : A := if nltb a b then b else a.

(** [std::clamp(v,lo,hi)] *)
Definition nclamp {A : Type} `{Num A} (v lo hi : A) : A :=
  if nltb v lo then lo else if nltb hi v then hi else v.

(** [static_cast<int>(x)]: undefined when the truncated value does not fit. *)
Definition to_int {A : Type} `{Num A} (x : A) : res Z :=
  match ntrunc x with
  | Some z => if ((- 2147483648 <=? z) && (z <=? 2147483647))%Z then Ok z else UB
  | None => UB
  end.

(** ** binary64 *)
Definition prec64 : Z := 53.
Definition emax64 : Z := 1024.
Notation f64 := spec_float.

Definition sf_of_Z (z : Z) : f64 := binary_normalize prec64 emax64 z 0 false.

Definition sf_trunc (x : f64) : option Z :=
  match x with
  | S754_zero _ => Some 0%Z
  | S754_finite s m e =>
      let a := match e with
               | Z0 => Zpos m
               | Zpos p => (Zpos m * 2 ^ e)%Z
               | Zneg p => (Zpos m / 2 ^ (- e))%Z
               end in
      Some (if s then (- a)%Z else a)
  | _ => None
  end.

Definition sf_ceil (x : f64) : f64 :=
  match sf_trunc x with
  | Some z =>
      let y := sf_of_Z z in
      if SFltb y x then sf_of_Z (z + 1) else y
  | None => x
  end.

#[export] Instance SFNum : Num f64 := {
  nadd := SFadd prec64 emax64;
  nsub := SFsub prec64 emax64;
  nmul := SFmul prec64 emax64;
  ndiv := SFdiv prec64 emax64;
  nopp := SFopp;
  nabs := SFabs;
  nsqrt := SFsqrt prec64 emax64;
  nltb := SFltb;
  nleb := SFleb;
  neqb := SFeqb;
  nlit := fun p q => SFdiv prec64 emax64 (sf_of_Z p) (sf_of_Z (Zpos q));
  nnan := fun x => match x with S754_nan => true | _ => false end;
  ntrunc := sf_trunc;
  nceil := sf_ceil
}.

(** ** Reals *)
Definition Rtrunc (x : R) : Z :=
  if Rle_dec 0 x then Int_part x else (- Int_part (- x))%Z.

#[export] Instance RNum : Num R := {
  nadd := Rplus;
  nsub := Rminus;
  nmul := Rmult;
  ndiv := Rdiv;
  nopp := Ropp;
  nabs := Rabs;
  nsqrt := sqrt;
  nltb := fun x y => if Rlt_dec x y then true else false;
  nleb := fun x y => if Rle_dec x y then true else false;
  neqb := fun x y => if Req_EM_T x y then true else false;
  nlit := fun p q => (IZR p / IZR (Zpos q))%R;
  nnan := fun _ => false;
  ntrunc := fun x => Some (Rtrunc x);
  nceil := fun x => IZR (- Int_part (- x))
}.

(** Sum of a list, as [for (...) s += x] starting from 0. *)
Definition nsum {A : Type} `{Num A} (l : list A) : A :=
  fold_left (fun s x => nadd s x) l (nZ 0).

(** [l] with element [i] replaced; unchanged if [i] is out of range. *)
Fixpoint list_set {B : Type} (l : list B) (i : nat) (b : B) : list B :=
  match l, i with
  | [], _ => []
  | _ :: t, O => b :: t
  | x :: t, S j => x :: list_set t j b
  end.
