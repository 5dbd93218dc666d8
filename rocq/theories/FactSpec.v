(** * Specification of packs *)
From Coq Require Import String.
From Verif Require Import Base RFacts StatusModel CellModel CoolModel ModuleModel BattModel FactModel.

(** What a pack looks like: cells, and modules with their connection, contact resistances, type of cooling system (0 plain,
    1 HVAC, 2 open), control strategy, number of cells, whether they have a parent, whether they step their parts in threads, and
    their parts. *)
Inductive layout (A C : Type) : Type :=
| LCell (c : C)
| LMod (series : bool) (rc : list A) (cooling ctrl : Z) (cells : nat) (parent threads : bool) (parts : list (layout A C)).
Arguments LCell {A C}. Arguments LMod {A C}.

(** The layout of a unit of the object model. *)
Definition cooling_type {A : Type} (k : cool A) : Z := match k_kind k with CBase => 0%Z | CHvac _ => 1%Z | COpen => 2%Z end.
Definition mlayout {A S C : Type} (f : S -> layout A C) (m : module A S) : layout A C :=
  LMod (m_series (mm m)) (m_rc (mm m)) (cooling_type (m_cool (mm m))) (k_ctrl (m_cool (mm m))) (m_N (mm m)) (negb (m_top (mm m)))
       (m_par (mm m)) (map f (ms m)).
Fixpoint view {A C : Type} (n : nat) : su A C n -> layout A C :=
  match n with
  | O => fun c => LCell c
  | S n' => fun s => match s with inl c => LCell c | inr m => mlayout (view n') m end
  end.

(** The cells of a layout in order. *)
Fixpoint leaves {A C : Type} (l : layout A C) : list C :=
  match l with LCell c => [c] | LMod _ _ _ _ _ _ _ ps => flat_map leaves ps end.

(** A pack built in regular levels. *)
Inductive regular {A C : Type} (ctrl : Z) (parent : bool) : list (level A) -> layout A C -> Prop :=
| reg_cell c : regular ctrl parent [] (LCell c)
| reg_mod v ls ps : length ps = v_n v -> (forall p, In p ps -> regular ctrl true ls p) ->
    regular ctrl parent (v :: ls) (LMod (v_ser v) (repeat (v_rc v) (v_n v)) (v_cool v) ctrl (prodn (v :: ls)) parent (v_par v) ps).

(** The numbers of the cells in their modules, in the order of construction. *)
Fixpoint indices {A : Type} (ls : list (level A)) (i : nat) : list nat :=
  match ls with [] => [i] | v :: ls' => flat_map (indices ls') (seq 0 (v_n v)) end.

(** Cells made one after the other: each with the factors drawn just before; 1 for what is not spread. *)
Section Made.
Context {A : Type} {NA : Num A} {G : Type} (draw_c draw_r draw_d : G -> A * G).
Context {C : Type} (mk : string -> A -> A -> A -> A -> res C) (f : spread).
Definition draws (on : bool) (d : G -> A * G) (g : G) (x : A) (g' : G) : Prop :=
  if on then d g = (x, g') else x = nZ 1 /\ g' = g.
Inductive made : list nat -> G -> list C -> G -> Prop :=
| made_nil g : made [] g [] g
| made_cons i is g g1 g2 g3 g4 g' a b c d x xs :
    draws (f_cap f) draw_c g a g1 -> draws (f_R f) draw_r g1 b g2 ->
    draws (f_deg f) draw_d g2 c g3 -> draws (f_deg f) draw_d g3 d g4 ->
    mk (append "cell" (to_string i)) a b c d = Ok x -> made is g4 xs g' -> made (i :: is) g (x :: xs) g'.
End Made.

(** Products of the numbers of parts of the series levels and of the parallel levels. *)
Definition in_series {A : Type} (ls : list (level A)) : nat := fold_right (fun v a => if v_ser v then v_n v * a else a)%nat 1%nat ls.
Definition in_parallel {A : Type} (ls : list (level A)) : nat := fold_right (fun v a => if v_ser v then a else v_n v * a)%nat 1%nat ls.
