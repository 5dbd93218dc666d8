(** * Specification of prepared cells and recorded curves *)
From Coq Require Import Reals.
From Verif Require Import Base RFacts StatusModel CellModel ModuleModel SpmModel PrepModel.

(** A unit on its way to a voltage: [n] steps of [d] seconds, before each of which the voltage is short of [vlim] (below it when
    going up, above it when going down), and at the end of which it is not. *)
Section Rides.
Context {A : Type} {NA : Num A} {S : Type} (o : su_ops A S).
Definition short_of (up : bool) (vlim v : A) : bool := if up then nltb v vlim else nltb vlim v.
Inductive rides (up : bool) (vlim d : A) : nat -> S -> S -> A -> Prop :=
| rides_end u u1 v : o_V o u = (u1, Ok v) -> short_of up vlim v = false -> rides up vlim d 0 u u1 v
| rides_step n u u1 v u2 u3 v' u' w : o_V o u = (u1, Ok v) -> short_of up vlim v = true -> o_timeStep o d 1 u1 = (u2, Ok tt) ->
    o_V o u2 = (u3, Ok v') -> rides up vlim d n u3 u' w -> rides up vlim d (Datatypes.S n) u u' w.
End Rides.

(** What a line shows: current and voltage, the lithium concentrations at the surfaces of cathode and anode relative to the given
    maxima, and element [k] of the states of both. *)
Definition seen {A : Type} {NA : Num A} (F : fns A) (k : nat) (cmp cmn v : A) (c : spm A) : point A :=
  {| pt_I := s_I (cs c); pt_V := v; pt_fp := ndiv (fst (fst (getCSurf F c))) cmp; pt_fn := ndiv (snd (fst (getCSurf F c))) cmn;
     pt_zp := nth k (s_zp (cs c)) (nZ 0); pt_zn := nth k (s_zn (cs c)) (nZ 0) |}.

(** The points of a cell that runs for itself, second by second, while its voltage is below [vend]; the voltage at the end. *)
Inductive alone {A : Type} {NA : Num A} (F : fns A) (tm : Z) (k : nat) (cmp cmn vend : A) : spm A -> list (point A) -> spm A -> A -> Prop :=
| alone_end c c1 v : spm_V F c = (c1, Ok v) -> nltb v vend = false -> alone F tm k cmp cmn vend c [] c1 v
| alone_step c c1 v c2 ps c' w : spm_V F c = (c1, Ok v) -> nltb v vend = true -> spm_timeStep_CC F tm (nZ 1) 1 c1 = (c2, Ok tt) ->
    alone F tm k cmp cmn vend c2 ps c' w -> alone F tm k cmp cmn vend c (seen F k cmp cmn v c1 :: ps) c' w.

(** Two points are alike in voltage and lithium fractions up to [thr] (over the reals: no difference is greater than [thr]). *)
Definition alike {A : Type} {NA : Num A} (thr : A) (p q : point A) : Prop :=
  nltb thr (nabs (nsub (pt_V p) (pt_V q))) = false /\ nltb thr (nabs (nsub (pt_fp p) (pt_fp q))) = false /\
  nltb thr (nabs (nsub (pt_fn p) (pt_fn q))) = false.

(** [subseq l m]: [l] is [m] with elements left out. *)
Inductive subseq {X : Type} : list X -> list X -> Prop :=
| sub_nil : subseq [] []
| sub_keep x l m : subseq l m -> subseq (x :: l) (x :: m)
| sub_skip x l m : subseq l m -> subseq l (x :: m).

(** A cell read and stepped twice by [dt], [n] times. *)
Inductive seconds_on {A : Type} {NA : Num A} (F : fns A) (tm : Z) (dt : A) : nat -> spm A -> spm A -> Prop :=
| on_0 c : seconds_on F tm dt 0 c c
| on_S n c c1 v c2 c' : spm_V F c = (c1, Ok v) -> spm_timeStep_CC F tm dt 2 c1 = (c2, Ok tt) -> seconds_on F tm dt n c2 c' ->
    seconds_on F tm dt (S n) c c'.
