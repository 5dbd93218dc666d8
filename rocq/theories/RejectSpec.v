(** * Who has taken over new states: a small specification *)
From Coq Require Import List.
From Verif Require Import Base StatusModel ModuleModel.
Import ListNotations.

Section Taken.
Context {A S : Type} (set : list A -> M S (list A * Status)).
(** The units of a list took over their states from [s] one after the other, each from where the one before had stopped; [r] is left. *)
Inductive taken : list A -> list S -> list S -> list A -> Prop :=
| taken_nil s : taken s [] [] s
| taken_cons s u u' s1 st l l' r : set s u = (u', Ok (s1, st)) -> isStatusBad st = false -> taken s1 l l' r -> taken s (u :: l) (u' :: l') r.
End Taken.
