(** * Specifications for cells, independent of the model's helpers *)
From Verif Require Import Base RFacts StatusModel UtilModel UtilSpec CellModel.
Local Open Scope R_scope.

(** Usable OCV table: strictly increasing abscissae from 0 to 1; if flagged equally spaced, it is. *)
Record good_ocv (d : XYdata R) : Prop := {
  go_len : length (xy_x d) = length (xy_y d);
  go_two : (2 <= length (xy_x d))%nat;
  go_max : (Z.of_nat (length (xy_x d)) <= 2147483647)%Z;
  go_inc : increasing (xy_x d);
  go_first : nth_error (xy_x d) 0 = Some 0;
  go_last : nth_error (xy_x d) (length (xy_x d) - 1) = Some 1;
  go_fix : xy_fixed d = true -> exists x0 dt, 0 < dt /\ uniform (xy_x d) x0 dt }.

(** The documented decision table of the voltage check (free_functions.hpp:141-149), with the margin [tol]
    on the soft limits. *)
Section Table.
Variables (Vmin Vmax VMIN VMAX tol : R).
Definition verdict (v i : R) (s : Status) : Prop :=
  match s with
  | V_not_calculated => v <= 0
  | VMIN_violation => 0 < v < VMIN /\ 0 < i
  | VMAX_violation => 0 < v /\ VMAX < v /\ i < 0
  | Vmin_violation => 0 < v /\ VMIN <= v < Vmin - tol /\ 0 < i
  | Vmax_violation => 0 < v /\ Vmax + tol < v <= VMAX /\ i < 0
  | Success => 0 < v /\ (0 < i -> Vmin - tol <= v) /\ (i < 0 -> v <= Vmax + tol)
  | _ => False
  end.
End Table.

(** Histories of an ECM cell: current, voltage and temperature commands (accepted or rejected) and constant
    current steps. The log holds, for every [timeStep_CC] call, the current during the call, the step length
    and the number of steps. *)
Inductive ecm_hist : ecm R -> list (R * R * nat) -> ecm R -> Prop :=
| h_nil c : ecm_hist c [] c
| h_setI c i chk c1 st log c2 :
    ecm_setCurrent i chk c = (c1, Ok st) -> ecm_hist c1 log c2 -> ecm_hist c log c2
| h_setV c v chk c1 st log c2 :
    ecm_setVoltage v chk c = (c1, Ok st) -> ecm_hist c1 log c2 -> ecm_hist c log c2
| h_setV_throws c v chk c1 n log c2 :
    ecm_setVoltage v chk c = (c1, Throw n) -> ecm_hist c1 log c2 -> ecm_hist c log c2
| h_setT c t log c2 : ecm_hist (ecm_setT t c) log c2 -> ecm_hist c log c2
| h_step c dt (n : nat) c1 log c2 :
    ecm_timeStep_CC dt (Z.of_nat n) c = (c1, Ok tt) -> ecm_hist c1 log c2 ->
    ecm_hist c ((e_I (es c), dt, n) :: log) c2.

(** Charge, absolute charge (in As) and time of a log. *)
Definition net_charge (log : list (R * R * nat)) : R :=
  Rsum (map (fun '(i, dt, n) => i * (INR n * dt)) log).
Definition abs_charge (log : list (R * R * nat)) : R :=
  Rsum (map (fun '(i, dt, n) => Rabs i * (INR n * dt)) log).
Definition total_time (log : list (R * R * nat)) : R :=
  Rsum (map (fun '(i, dt, n) => INR n * dt) log).

(** Polarisation voltage. *)
Definition pol (rp ir : list R) : R := Rsum (map (fun '(r, i) => r * i) (combine rp ir)).

(** Commands on an ECM cell, for histories over any carrier. *)
Inductive ecm_cmd (A : Type) : Type :=
| CmdI (i : A) (chk : bool) | CmdV (v : A) (chk : bool) | CmdSOC (x : A) (chk : bool)
| CmdStates (l : list A) (chk : bool).
Arguments CmdI {A} i chk.
Arguments CmdV {A} v chk.
Arguments CmdSOC {A} x chk.
Arguments CmdStates {A} l chk.
Inductive ecm_cmds {A : Type} {NA : Num A} : ecm A -> list (ecm_cmd A) -> ecm A -> Prop :=
| q_nil c : ecm_cmds c [] c
| q_I c i chk c1 st l c2 : ecm_setCurrent i chk c = (c1, Ok st) -> ecm_cmds c1 l c2 -> ecm_cmds c (CmdI i chk :: l) c2
| q_V c v chk c1 st l c2 : ecm_setVoltage v chk c = (c1, Ok st) -> ecm_cmds c1 l c2 -> ecm_cmds c (CmdV v chk :: l) c2
| q_S c x chk c1 st l c2 : ecm_setSOC x chk c = (c1, Ok st) -> ecm_cmds c1 l c2 -> ecm_cmds c (CmdSOC x chk :: l) c2
| q_X c s chk c1 r l c2 : ecm_setStates s chk c = (c1, Ok r) -> ecm_cmds c1 l c2 -> ecm_cmds c (CmdStates s chk :: l) c2.
