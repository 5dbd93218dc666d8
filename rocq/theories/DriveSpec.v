(** * Specification of drive cycles and pulse tests *)
From Coq Require Import Reals.
From Verif Require Import Base RFacts StatusModel CellModel ModuleModel SpmModel SpmSpec DriveModel.

(** The current recorded in an entry, and the one that flowed before entry [i] of a drive that started with current [i0]. *)
Definition e_I {A : Type} (e : entry A) : A := s_I (e_st e).
Definition before {A : Type} (i0 : A) (es : list (entry A)) (i : nat) : A :=
  match i with O => i0 | S j => match nth_error es j with Some e => e_I e | None => i0 end end.

(** The columns of the file with the states in the order of its header: I, V, T, delta, LLI, thickp, thickn, ep, en, ap, an,
    CS, Dp, Dn, delta_pl, zp_0 ... zp_4, zn_0 ... zn_4, rDCp, rDCn, rDCcc. *)
Definition header_order {A : Type} (s : spm_st A) : list A :=
  [s_I s; s_V s; s_T s; s_delta s; s_LLI s; s_thickp s; s_thickn s; s_ep s; s_en s; s_ap s; s_an s; s_CS s; s_Dp s; s_Dn s; s_dpl s]
  ++ s_zp s ++ s_zn s ++ [s_rp s; s_rn s; s_rcc s].

(** A unit that alone follows a list of phases, each a current command and a number of seconds, with the current and the voltage
    noted at the beginning of every second. *)
Section Runs.
Context {A : Type} {NA : Num A} {S : Type} (o : su_ops A S).
Inductive held : nat -> S -> list (A * A) -> S -> Prop :=
| held_0 u : held 0 u [] u
| held_S n u u1 v u2 l u' : o_V o u = (u1, Ok v) -> o_timeStep o (nZ 1) 1 u1 = (u2, Ok tt) -> held n u2 l u' ->
    held (Datatypes.S n) u ((o_I o u, v) :: l) u'.
Inductive runs : list (A * nat) -> S -> list (list (A * A)) -> S -> Prop :=
| runs_nil u : runs [] u [] u
| runs_cons i n ps u u1 st l u2 ls u' : o_setCurrent o i true u = (u1, Ok st) -> held n u1 l u2 -> runs ps u2 ls u' ->
    runs ((i, n) :: ps) u (l :: ls) u'.
End Runs.
(** [n] pulses with current [i] for [np] seconds, each followed by a rest of [nr] seconds. *)
Definition pulse_plan {A : Type} {NA : Num A} (n np nr : nat) (i : A) : list (A * nat) := concat (repeat [(i, np); (nZ 0, nr)] n).
(** The columns of the file. *)
Definition col_t {A : Type} (r : A * A * A * A * A) : A := let '(t, _, _, _, _) := r in t.
Definition col_c {A : Type} (r : A * A * A * A * A) : A * A := let '(_, i, v, _, _) := r in (i, v).
Definition col_d {A : Type} (r : A * A * A * A * A) : A * A := let '(_, _, _, i, v) := r in (i, v).

(** All states of a single-particle cell but the stored voltage, the state of charge and the time, charge and energy counters. *)
Definition matter {A : Type} {NA : Num A} (s : spm_st A) : spm_st A :=
  st_cum (st_SOC (st_V s (nZ 0)) (nZ 0)) (nZ 0) (nZ 0) (nZ 0).

(** In every phase one current flows, which is the commanded one or the one that flowed before. *)
Fixpoint kept {A : Type} (i0 : A) (ps : list (A * nat)) (ls : list (list (A * A))) : Prop :=
  match ps, ls with
  | [], [] => True
  | (i, n) :: ps', l :: ls' => exists x, length l = n /\ Forall (fun y => fst y = x) l /\ (x = i \/ x = i0) /\ kept x ps' ls'
  | _, _ => False
  end.
(** The recorded currents are the commanded ones. *)
Definition as_planned {A : Type} (ps : list (A * nat)) (ls : list (list (A * A))) : Prop :=
  Forall2 (fun p l => length l = snd p /\ Forall (fun y => fst y = fst p) l) ps ls.
