(** * Specification: the law each ageing model follows in its own electrode *)
From Coq Require Import Reals.
From Verif Require Import Base RFacts CellModel SpmModel SpmSpec PhysSpec DegSpec TempSpec.
Local Open Scope R_scope.

(** How often model [i] was selected. *)
Definition times (i : Z) (l : list Z) : R := INR (count_occ Z.eq_dec l i).

(** By how much the largest stress in an electrode changed between two states of a cell: in the cathode and the anode after Dai, in the
    anode after Laresgoiti. *)
Definition stress_change (f : stress R -> R) (c c' : spm R) : R := Rabs (f (c_str c') - f (c_str c)).

(** The cell at the end of a call, before anything aged: the same call on a cell that does not age, at the temperature reached. *)
Definition unaged (F : fns R) (tm : Z) (dt : R) (n : Z) (c c' : spm R) : spm R :=
  spm_setT (s_T (cs c')) (fst (spm_timeStep_CC F tm dt n (after F tm (OpBlock true) c))).

(** Filling of the anode at its surface, and the difference between surface (the first node) and centre (the node after the inner ones). *)
Definition anode_filling (F : fns R) (c : spm R) : R := snd (surface F c) / q_Cmaxn (cp c).
Definition anode_spread (F : fns R) (c : spm R) : R :=
  let cc := snd (getC F c) in (nth 0 cc 0 - nth (S (length (m_xch (q_M (cp c))))) cc 0) / q_Cmaxn (cp c).

(** How strongly the fifth crack model acts: on charge only, double on a nearly empty anode, not in the middle. *)
Definition stage (i z : R) : R :=
  if Rlt_dec 0 i then 0 else if Rlt_dec z (3 / 10) then 2 else if Rlt_dec z (7 / 10) then 0 else 1.

(** The states a single-particle cell accepts. *)
Record sound_states (F : fns R) (c : spm R) : Prop := {
  acc_SOC : 0 <= s_SOC (cs c) <= 1;
  acc_T : q_Tmin (cp c) <= s_T (cs c) <= q_Tmax (cp c);
  acc_surface : 0 < fst (surface F c) < q_Cmaxp (cp c) /\ 0 < snd (surface F c) < q_Cmaxn (cp c);
  acc_film : 0 < s_delta (cs c);
  acc_cathode : Rabs (s_ap (cs c) - 3 * s_ep (cs c) / q_Rp (cp c)) / s_ap (cs c) <= 1 / 100000;
  acc_anode : Rabs (s_an (cs c) - 3 * s_en (cs c) / q_Rn (cp c)) / s_an (cs c) <= 1 / 100000;
  acc_cracks : 0 <= s_CS (cs c);
  acc_resistances : 0 <= s_rp (cs c) /\ 0 <= s_rn (cs c) /\ 0 <= s_rcc (cs c);
  acc_plated : 0 <= s_dpl (cs c) }.

(** A sequence of calls of the time step, each with its step length and number of steps, all successful. *)
Inductive calls (F : fns R) (tm : Z) : spm R -> list (R * Z) -> spm R -> Prop :=
| calls_nil : forall c, calls F tm c [] c
| calls_cons : forall c dt n c1 l c', spm_timeStep_CC F tm dt n c = (c1, Ok tt) -> calls F tm c1 l c' -> calls F tm c ((dt, n) :: l) c'.
(** What is left after losing the fraction [k] per second throughout such calls. *)
Fixpoint left_over (k : R) (l : list (R * Z)) : R :=
  match l with [] => 1 | (dt, n) :: t => (1 - k * (IZR n * dt)) * left_over k t end.
