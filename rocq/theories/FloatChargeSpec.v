(** * Specification: the charge the cycler reports, in double arithmetic *)
From Coq Require Import Reals.
From Flocq Require Import Core BinarySingleNaN.
From Verif Require Import Base StatusModel CellModel ModuleModel CyclerModel CyclerSpec FloatSpec.
Local Open Scope R_scope.

(** Exact charge (Ah) of a varying current: |I| dt over the steps, with the current read straight after each step. *)
Fixpoint true_charge (l : list (event f64)) : R :=
  match l with
  | [] => 0
  | EStep dt n :: l' =>
      match l' with
      | EReadI i :: _ => Rabs (fval i) * (fval dt * IZR n) / 3600
      | _ => 0
      end + true_charge l'
  | _ :: l' => true_charge l'
  end.
(** The currents read are finite and below 2^300. *)
Definition readings_moderate (l : list (event f64)) : Prop := forall i, In (EReadI i) l -> fin i /\ Rabs (fval i) <= bpow radix2 300.
(** A unit whose voltage check answers neither with the cycler's "time limit reached" nor with its "voltage limit reached". *)
Definition dhonest_V {S : Type} (o : unit_if f64 S) : Prop :=
  forall s s' v st, q_checkV o s = (s', Ok (v, st)) -> st <> ReachedTimeLimit /\ st <> ReachedVoltageLimit.
(** A counter [b] that is [a] plus the exact amount [q], up to two rounding units of its final value per step and four of the amount. *)
Definition counts (steps : nat) (q : R) (a b : f64) : Prop :=
  fin b /\ fval a <= fval b /\
  Rabs (fval b - (fval a + q)) <= INR steps * (2 * eps * fval b + bpow radix2 (-1000)) + 4 * eps * q.
(** The steps asked for and taken are finite, between 0 and 2^300 s, and at most 2^50 in number. *)
Definition steps_moderate (l : list (event f64)) : Prop :=
  (forall d n, In (EStep d n) l -> fin d /\ 0 <= fval d <= bpow radix2 300) /\ INR (dturns l) <= bpow radix2 50.
(** A counter to begin with: finite, between 0 and 2^1000. *)
Definition counter (a : f64) : Prop := fin a /\ 0 <= fval a <= bpow radix2 1000.
