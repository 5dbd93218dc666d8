(** * Specification of ownership, copies and names *)
From Coq Require Import List String Ascii.
From Verif Require Import Base ObjModel.
Import ListNotations.

(** A picture of a unit with all its parts: where each part is, and its members other than pointers. *)
Inductive pic (X : Type) : Type := Unit (ref : nat) (id : string) (rc : list Z) (n : nat) (v : X) (parts : list (pic X)).
Arguments Unit {X}.

Section Spec.
Context {X : Type}.
Definition p_ref (t : pic X) : nat := let '(Unit r _ _ _ _ _) := t in r.
Definition p_id (t : pic X) : string := let '(Unit _ s _ _ _ _) := t in s.
Definition p_val (t : pic X) : X := let '(Unit _ _ _ _ v _) := t in v.
Definition p_parts (t : pic X) : list (pic X) := let '(Unit _ _ _ _ _ l) := t in l.
(** [h] looks like the picture. *)
Inductive describes (h : heap X) : pic X -> Prop :=
| describes_intro r s p rc n v l :
    get h r = Some (mkObj s p (map (fun t => Some (p_ref t)) l) rc n v) -> Forall (describes h) l -> describes h (Unit r s rc n v l).
(** All objects of the picture *)
Fixpoint refs (t : pic X) : list nat := let '(Unit r _ _ _ _ l) := t in r :: flat_map refs l.
Fixpoint height (t : pic X) : nat := let '(Unit _ _ _ _ _ l) := t in S (fold_right Nat.max 0 (map height l)).
(** Two pictures that differ only in the places. *)
Inductive alike : pic X -> pic X -> Prop :=
| alike_intro r r' s rc n v l l' : Forall2 alike l l' -> alike (Unit r s rc n v l) (Unit r' s rc n v l').

(** The part at a path, and the picture after a change of its values *)
Fixpoint change (path : list nat) (f : X -> X) (t : pic X) : pic X :=
  let '(Unit r s rc n v l) := t in
  match path with
  | [] => Unit r s rc n (f v) l
  | i :: p => Unit r s rc n v (match nth_error l i with Some k => list_set l i (change p f k) | None => l end)
  end.
Definition changes (ops : list (list nat * (X -> X))) (t : pic X) : pic X := fold_left (fun t o => change (fst o) (snd o) t) ops t.

(** Operations on the parts of two units [a] and [b] ([true]: of [b]), one after the other *)
Definition run2 (a b : nat) (ops : list (bool * (list nat * (X -> X)))) (h : heap X) : heap X :=
  fold_left (fun (h : heap X) (o : bool * (list nat * (X -> X))) => on_part h (if fst o then b else a) (fst (snd o)) (snd (snd o))) ops h.
Definition ops_of (which : bool) (ops : list (bool * (list nat * (X -> X)))) : list (list nat * (X -> X)) :=
  map snd (filter (fun o => Bool.eqb (fst o) which) ops).

(** *** Names *)
(** The parent pointers of the parts lead back to the whole, that of the whole is [p]. *)
Inductive linked (h : heap X) : option nat -> pic X -> Prop :=
| linked_intro p r s rc n v l o : get h r = Some o -> b_parent o = p -> Forall (linked h (Some r)) l -> linked h p (Unit r s rc n v l).
(** [k] is a part of [t], with the names on the way, from the root on. *)
Inductive part_of : pic X -> list string -> nat -> Prop :=
| part_self r s rc n v l : part_of (Unit r s rc n v l) [s] r
| part_below r s rc n v l t names k : In t l -> part_of t names k -> part_of (Unit r s rc n v l) (s :: names) k.
Definition no_separator (s : string) : Prop := ~ In "_"%char (list_ascii_of_string s).
(** Siblings have different names, and no name contains the separator. *)
Inductive distinct_names : pic X -> Prop :=
| distinct_intro r s rc n v l : no_separator s -> NoDup (map p_id l) -> Forall distinct_names l -> distinct_names (Unit r s rc n v l).
Fixpoint path_name (names : list string) : string :=
  match names with [] => ""%string | [s] => s | s :: t => (s ++ "_" ++ path_name t)%string end.

(** *** Ownership *)
(** [m] holds [u]. *)
Definition holds (h : heap X) (m u : nat) : Prop := exists o, get h m = Some o /\ In (Some u) (b_kids o).
(** Every held unit exists, has the holder as parent, and is held once. *)
Record owned (h : heap X) : Prop := mkOwned {
  held_linked : forall m u, holds h m u -> exists o, get h u = Some o /\ b_parent o = Some m;
  held_once : forall m o, get h m = Some o -> NoDup (filter (fun k => match k with Some _ => true | None => false end) (b_kids o)) }.
(** The caller holds existing units, each once, that no module holds. *)
Definition loose (h : heap X) (l : list nat) : Prop :=
  NoDup l /\ forall u, In u l -> (exists o, get h u = Some o) /\ forall m, ~ holds h m u.
Definition foreign (h : heap X) (m u : nat) : Prop := exists o p, get h u = Some o /\ b_parent o = Some p /\ p <> m.
End Spec.

(** *** Histories *)
(** Heaps a program can build without copying units: fresh units without parent, and calls of [setSUs] (Module.cpp:66-110) on
    pointers the caller holds and no module does. *)
Inductive built {X : Type} : heap X -> Prop :=
| built_nil : built []
| built_new h id n v : built h -> built (fst (new h id None n v))
| built_set h fuel print m l h' : built h -> loose h l -> ~ In m l -> setSUs fuel print h m (Held l) = (h', Ok tt) -> built h'
| built_refused h fuel print m l h' n : built h -> loose h l -> setSUs fuel print h m (Held l) = (h', Throw n) -> built h'.
