(** * Specification: the books of a single-particle cell in the program's double arithmetic *)
From Coq Require Import Reals SpecFloat ZArith List.
Import ListNotations.
From Flocq Require Import Core BinarySingleNaN.
From Verif Require Import Base StatusModel UtilModel CellModel CellSpec SpmModel SpmSpec CyclerModel CyclerSpec FloatSpec.
Local Open Scope R_scope.

(** The current and the counters are doubles: finite, infinite or not-a-number. *)
Definition double_books (c : spm f64) : Prop := double (s_I (cs c)) /\ double (s_time (cs c)) /\ double (s_Ah (cs c)).
(** Currents and step lengths passed to the calls are doubles. *)
Definition double_args (o : spm_op f64) : Prop :=
  match o with OpCurrent i _ => double i | OpStep dt _ => double dt | _ => True end.
(** The exponential and the inverse hyperbolic sine return doubles. *)
Definition double_fns (F : fns f64) : Prop := forall x, double (f_exp F x) /\ double (f_asinh F x).
(** Every number the voltage is computed from is a double. *)
Definition double_spm (c : spm f64) : Prop :=
  let s := cs c in let p := cp c in let m := q_M p in
  Forall double [s_I s; s_T s; s_delta s; s_thickp s; s_thickn s; s_ap s; s_an s; s_Dp s; s_Dn s; s_rp s; s_rn s; s_rcc s; s_Wh s;
                 q_surf p; q_n p; q_rsei p; q_Cmaxp p; q_Cmaxn p; q_Tref p] /\
  Forall double (s_zp s) /\ Forall double (s_zn s) /\ Forall double (m_Ap m) /\ Forall double (m_An m) /\ Forall double (m_Bp m) /\
  Forall double (m_Bn m) /\ Forall (Forall double) (m_Cp m) /\ Forall (Forall double) (m_Cn m) /\ Forall double (m_Dp m) /\ Forall double (m_Dn m) /\
  Forall (fun o => Forall double (xy_x o) /\ Forall double (xy_y o)) [q_OCVp p; q_OCVn p; q_dOCVtot p].

(** State of charge within [-2, 2], time and charge counters not negative, all finite. *)
Definition sound_spm (c : spm f64) : Prop :=
  fin (s_SOC (cs c)) /\ Rabs (fval (s_SOC (cs c))) <= 2 /\ fin (s_time (cs c)) /\ 0 <= fval (s_time (cs c)) <= bpow radix2 1000 /\
  fin (s_Ah (cs c)) /\ 0 <= fval (s_Ah (cs c)) <= bpow radix2 1000.
(** Operating histories in doubles, with the log of completed time steps: current, step length, number of steps (a C++ [int]). Commands
    (setting the current, temperatures, concentrations, reading the voltage ...) may have any outcome. *)
Inductive spm_double_hist (F : fns f64) (tm : Z) : spm f64 -> list (f64 * f64 * nat) -> spm f64 -> Prop :=
| sdh_nil c : spm_double_hist F tm c [] c
| sdh_cmd c o log c' : operating o -> (forall dt n, o <> OpStep dt n) -> spm_double_hist F tm (after F tm o c) log c' -> spm_double_hist F tm c log c'
| sdh_step c dt (n : nat) c1 log c' : sound_spm c -> moderate (s_I (cs c)) -> moderate dt -> (Z.of_nat n < 2 ^ 31)%Z ->
    spm_timeStep_CC F tm dt (Z.of_nat n) c = (c1, Ok tt) -> sound_spm c1 -> spm_double_hist F tm c1 log c' ->
    spm_double_hist F tm c ((s_I (cs c), dt, n) :: log) c'.
