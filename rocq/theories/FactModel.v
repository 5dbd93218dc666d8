(** * Model of the pack factories (src/factories/makeBattery.cpp) *)
From Coq Require Import String DecimalString.
From Verif Require Import Base StatusModel CellModel CoolModel ModuleModel BattModel.
Local Open Scope num_scope.

(** [std::to_string] of a [size_t] *)
Definition to_string (n : nat) : string := NilEmpty.string_of_uint (Nat.to_uint n).

Section Fact.
Context {A : Type} {NA : Num A}.
(** The random engine together with its three distributions (makeBattery.cpp:48-52): capacity, resistance, degradation. *)
Context {G : Type} (draw_c draw_r draw_d : G -> A * G).
(** The cell constructor [Cell_SPM(ID, deg, capf, Rf, degf, degflam)], here any constructor with these arguments except the
    degradation settings, which are the same for every cell of a factory (it may throw); the interface of these cells. *)
Context {C : Type} (mk : string -> A -> A -> A -> A -> res C) (oc : su_ops A C) (tm : Z).

(** One level of a pack: series or parallel, the number of its parts, the contact resistance of each part, the type of
    cooling system (Module.cpp:23-53) and whether it is multithreaded. *)
Record level : Type := mkLev { v_ser : bool; v_n : nat; v_rc : A; v_cool : Z; v_par : bool }.
(** Flags of the factories: capSpread, RcellSpread, degrateSpread *)
Record spread : Type := mkSpr { f_cap : bool; f_R : bool; f_deg : bool }.

(** makeBattery.cpp:124-132 (and 262-270, 389-396, 515-522, 643-650, 773-780). [Rf], [capf], [degf] and [degflam] are 1 before
    the first loop and are assigned only when their flag is set. *)
Definition factors (f : spread) (g : G) : (A * A * A * A) * G :=
  let '(a, g) := if f_cap f then draw_c g else (nZ 1, g) in
  let '(b, g) := if f_R f then draw_r g else (nZ 1, g) in
  let '(c, g) := if f_deg f then draw_d g else (nZ 1, g) in
  let '(d, g) := if f_deg f then draw_d g else (nZ 1, g) in
  ((a, b, c, d), g).

(** [for (size_t i = i0; i < i0 + n; i++) l[i] = f(i)] *)
Fixpoint times {T : Type} (n i : nat) (f : nat -> G -> res (T * G)) (g : G) : res (list T * G) :=
  match n with
  | O => Ok ([], g)
  | S n' => rbind (f i g) (fun '(t, g) => rmap (fun '(l, g) => (t :: l, g)) (times n' (S i) f g))
  end.

(** A module that gets a parent, StorageUnit.hpp:68 *)
Definition adopt {n : nat} : su A C n -> su A C n :=
  match n with
  | O => fun c => c
  | S _ => fun s =>
      match s with
      | inl c => inl c
      | inr m => inr (mkM (mkMod (m_series (mm m)) (m_rc (mm m)) (m_cool (mm m)) (m_k (mm m)) (m_area (mm m)) (m_Qc (mm m))
                     (m_time (mm m)) (m_N (mm m)) (m_V (mm m)) (m_Vok (mm m)) (m_par (mm m)) (m_block (mm m)) false) (ms m))
      end
  end.

(** [make<Module_s/p>(ID, T_ENV, true, par, ncells, coolControl, cooltype)], [setSUs], [setRcontact], e.g. makeBattery.cpp:135-138 *)
Definition assemble {n : nat} (v : level) (ncells : nat) (ctrl : Z) (l : list (su A C n)) : res (module A (su A C n)) :=
  rmap (fun m => mod_setRcontact (repeat (v_rc v) (List.length l)) (mod_setSUs (su_ops_at oc tm n) (map adopt l) m))
       (mod_make (su A C n) (v_ser v) T_ENV (v_par v) ncells ctrl (v_cool v) true).

(** Number of cells below a level *)
Definition prodn (ls : list level) : nat := fold_right (fun v a => (v_n v * a)%nat) 1%nat ls.

(** The nested loops of the factories, outermost level first: the unit number [i] of its parent. Simplified: one recursive
    function for the three or four nested loops of each factory. *)
Fixpoint stack (f : spread) (ctrl : Z) (ls : list level) (i : nat) (g : G) {struct ls} : res (su A C (List.length ls) * G) :=
  match ls return res (su A C (List.length ls) * G) with
  | [] => let '((a, b, c, d), g) := factors f g in rmap (fun x => (x, g)) (mk (append "cell" (to_string i)) a b c d)
  | v :: ls' =>
      rbind (times (v_n v) 0 (stack f ctrl ls') g) (fun '(l, g) =>
      rmap (fun m => (inr m, g)) (assemble v (prodn (v :: ls')) ctrl l))
  end.

(** The outermost module goes into a new battery, e.g. makeBattery.cpp:150-156. Not modelled: the final read of [V()] for the
    message, which fills voltage caches. *)
Definition pack (f : spread) (ctrl : Z) (top : level) (ls : list level) (g : G)
  : res (batt A (su A C (List.length ls)) * G) :=
  rbind (times (v_n top) 0 (stack f ctrl ls) g) (fun '(l, g) =>
  rbind (assemble top (prodn (top :: ls)) ctrl l) (fun m =>
  match batt_setModule (su_ops_at oc tm (List.length ls)) tm m batt_make with
  | (b, Ok _) => Ok (b, g)
  | (_, e) => cast e
  end)).

(** makeBattery.cpp:59-74: contact resistances of the first two factories *)
Definition Rc_p (contact : bool) : A := if contact then nlit 1 1000 / nZ 5 else nZ 0.
Definition Rc_s (contact : bool) : A := if contact then nlit 1 10000 else nZ 0.
(** makeBattery.cpp:27-172, 15 modules of 20 cells in series, 9 strings in parallel. The random engine has its default seed. *)
Definition makeBattery (f : spread) (contact : bool) (ctrl : Z) (g : G) :=
  pack f ctrl (mkLev false 9 (Rc_p contact) 2 true)
    [mkLev true 15 (Rc_s contact) 2 false; mkLev true 20 (Rc_s contact) 0 false] g.
(** makeBattery.cpp:174-311: 20 strings in series of 15 modules in series of 9 cells in parallel *)
Definition makeBattery2 (f : spread) (contact : bool) (ctrl : Z) (g : G) :=
  pack f ctrl (mkLev true 20 (Rc_s contact) 2 true)
    [mkLev true 15 (Rc_s contact) 2 false; mkLev false 9 (Rc_p contact) 0 false] g.
(** makeBattery.cpp:351-360, 604-613, 733-742 *)
Definition Rc_cells (contact : bool) (RM : A) : A := if contact then nlit 75 10000 * nlit 1 1000 * RM else nZ 0.
Definition Rc_mods (contact : bool) (RM : A) : A := if contact then nlit 1 4 * nlit 1 1000 * RM else nZ 0.
(** makeBattery.cpp:477-486: the products are literals here *)
Definition Rc_cells' (contact : bool) (RM : A) : A := if contact then nlit 75 10000000 * RM else nZ 0.
Definition Rc_mods' (contact : bool) (RM : A) : A := if contact then nlit 25 100000 * RM else nZ 0.
Definition epfl (nracks nmodules ncs ncp : nat) (rcc rcm : A) (f : spread) (ctrl : Z) (g : G) :=
  pack f ctrl (mkLev false nracks rcm 2 true)
    [mkLev true nmodules rcm 2 false; mkLev true ncs rcc 0 false; mkLev false ncp rcc 2 false] g.
(** makeBattery.cpp:313-437, 439-562, 564-689 *)
Definition makeBattery_EPFL_smaller (f : spread) (contact : bool) (ctrl : Z) (RM : A) (g : G) :=
  epfl 2 3 3 7 (Rc_cells contact RM) (Rc_mods contact RM) f ctrl g.
Definition makeBattery_EPFL (f : spread) (contact : bool) (ctrl : Z) (RM : A) (g : G) :=
  epfl 9 15 20 7 (Rc_cells' contact RM) (Rc_mods' contact RM) f ctrl g.
Definition makeBattery_Test (f : spread) (contact : bool) (ctrl : Z) (RM : A) (g : G) :=
  epfl 3 2 4 3 (Rc_cells contact RM) (Rc_mods contact RM) f ctrl g.
(** makeBattery.cpp:691-877: a battery of one parallel module; the number it prints (line 761) *)
Definition makeBattery_TestParallel (f : spread) (contact : bool) (ctrl : Z) (RM : A) (g : G) :=
  pack f ctrl (mkLev false 3 (Rc_cells contact RM) 2 false) [] g.
Definition TestParallel_printed : nat := 3 * 4 * 2 * 3.
End Fact.
Arguments level : clear implicits.

(** ** Names *)

(** The ID of a unit, e.g. makeBattery.cpp:135: the letter of its connection and its number. *)
Definition letter (ser : bool) : string := if ser then "s" else "p".
(** StorageUnit.hpp:49, [getFullID], below a parent with full name [parent]: names of all cells of a unit, in order. *)
Fixpoint names {A : Type} (parent : string) (ls : list (level A)) (i : nat) : list string :=
  match ls with
  | [] => [append parent (append "_" (append "cell" (to_string i)))]
  | v :: ls' => flat_map (names (append parent (append "_" (append (letter (v_ser v)) (to_string i)))) ls') (seq 0 (v_n v))
  end.
(** The outermost module is called "s" or "p" (makeBattery.cpp:151, 294, 416, 543, 670); the battery's ID is the settings text
    (lines 39-44, 155). TestParallel calls its module "p0" (line 785). *)
Definition pack_names {A : Type} (bat : string) (top : level A) (ls : list (level A)) : list string :=
  flat_map (names (append bat (append "_" (letter (v_ser top)))) ls) (seq 0 (v_n top)).
