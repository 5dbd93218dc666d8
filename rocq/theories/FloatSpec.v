(** * Specification: what the program's double arithmetic does to its books *)
From Coq Require Import Reals SpecFloat.
From Flocq Require Import Core BinarySingleNaN.
From Verif Require Import Base StatusModel UtilModel CellModel CellSpec CyclerModel CyclerSpec.
Local Open Scope R_scope.

(** The real number a double stands for (0 for infinities and not-a-numbers). *)
Definition fval (x : f64) : R := SF2R radix2 x.
(** A finite double: canonical mantissa and exponent, neither infinite nor not-a-number. *)
Definition fin (x : f64) : Prop := valid_binary prec64 emax64 x = true /\ is_finite_SF x = true.
(** Any double: finite, infinite or not-a-number. *)
Definition double (x : f64) : Prop := valid_binary prec64 emax64 x = true.
(** The rounding unit, 2^-53. *)
Definition eps : R := / 9007199254740992.
(** Zero, or of a magnitude between 2^-300 and 2^300 (about 1e-90 and 1e90): products and quotients neither overflow nor underflow. *)
Definition moderate (x : f64) : Prop := fin x /\ (fval x = 0 \/ bpow radix2 (-300) <= Rabs (fval x) <= bpow radix2 300).

(** Histories of an equivalent-circuit cell in double arithmetic, with the log of time steps: current, step length, number of steps; [ok]
    holds of the cell before and after every time step. *)
Inductive double_hist (ok : ecm f64 -> Prop) : ecm f64 -> list (f64 * f64 * nat) -> ecm f64 -> Prop :=
| dh_nil c : double_hist ok c [] c
| dh_setI c i chk c1 st log c2 : ecm_setCurrent i chk c = (c1, Ok st) -> double_hist ok c1 log c2 -> double_hist ok c log c2
| dh_setV c v chk c1 st log c2 : ecm_setVoltage v chk c = (c1, Ok st) -> double_hist ok c1 log c2 -> double_hist ok c log c2
| dh_setT c t log c2 : double_hist ok (ecm_setT t c) log c2 -> double_hist ok c log c2
| dh_step c dt (n : nat) c1 log c2 : ok c -> moderate (e_I (es c)) -> moderate dt ->
    ecm_timeStep_CC dt (Z.of_nat n) c = (c1, Ok tt) -> ok c1 -> double_hist ok c1 log c2 ->
    double_hist ok c ((e_I (es c), dt, n) :: log) c2.
(** State of charge within [-2, 2], time and charge counters not negative, all finite. *)
Definition sound_books (c : ecm f64) : Prop :=
  fin (e_SOC (es c)) /\ Rabs (fval (e_SOC (es c))) <= 2 /\ fin (e_time (es c)) /\ 0 <= fval (e_time (es c)) <= bpow radix2 1000 /\
  fin (e_Ah (es c)) /\ 0 <= fval (e_Ah (es c)) <= bpow radix2 1000.
Definition log_val (l : list (f64 * f64 * nat)) : list (R * R * nat) := map (fun '(i, dt, n) => (fval i, fval dt, n)) l.
Definition log_steps (l : list (f64 * f64 * nat)) : R := INR (list_sum (map snd l)).

(** Time the unit was advanced by, exactly. *)
Fixpoint true_elapsed (l : list (event f64)) : R :=
  match l with
  | [] => 0
  | EStep dt n :: l' => fval dt * IZR n + true_elapsed l'
  | _ :: l' => true_elapsed l'
  end.
(** Sizes and numbers of the steps asked for. *)
Definition dsteps_within (dt : R) (nmax : Z) (l : list (event f64)) : Prop :=
  forall d n, In (EStep d n) l \/ In (ETried d n) l -> fin d /\ 0 < fval d <= dt /\ (1 <= n <= nmax)%Z.
(** Every value stored in a cell is a double. *)
Definition double_cell (c : ecm f64) : Prop :=
  Forall double [e_SOC (es c); e_I (es c); e_time (es c); e_Ah (es c); e_Wh (es c); p_cap (ep c); p_Rdc (ep c)] /\
  Forall double (e_Ir (es c)) /\ Forall double (p_Rp (ep c)) /\ Forall double (p_itau (ep c)) /\
  Forall double (xy_x (p_ocv (ep c))) /\ Forall double (xy_y (p_ocv (ep c))).
(** Number of time steps taken. *)
Definition dturns (l : list (event f64)) : nat := length (filter is_step l).
(** A unit whose voltage check never answers with the cycler's "time limit reached". *)
Definition dhonest {S : Type} (o : unit_if f64 S) : Prop := forall s s' v st, q_checkV o s = (s', Ok (v, st)) -> st <> ReachedTimeLimit.
