(** * Model of [src/types/Status.hpp] *)
From Verif Require Import Base.

(** src/types/Status.hpp:14-44, [enum class Status].  The two auxiliary enumerators [Critical] and [NotSafe]
    are aliases of [VMIN_violation] and [VMINsafety_violation]. *)
Inductive Status : Type :=
| ReachedCurrentLimit | ReachedVoltageLimit | ReachedTimeLimit | ReachedSmallCurrent
| Invalid_Vset | SafeVoltage
| Success
| Vmin_violation | Vmax_violation
| VMIN_violation | VMAX_violation
| VMINsafety_violation | VMAXsafety_violation
| V_not_calculated | SOC_limits_violation | Invalid_states | Invalid_SUs
| ParallelUnit_failed | RedistributeCurrent_failed | timeStep_CC_failed
| setVoltage_not_defined | Unknown_problem.

(** src/types/Status.hpp:16-38, the underlying [int_fast8_t] values. *)
Definition status_val (s : Status) : Z :=
  (match s with
  | ReachedCurrentLimit => -6 | ReachedVoltageLimit => -5 | ReachedTimeLimit => -4
  | ReachedSmallCurrent => -3 | Invalid_Vset => -2 | SafeVoltage => -1
  | Success => 0
  | Vmin_violation => 1 | Vmax_violation => 2 | VMIN_violation => 3 | VMAX_violation => 4
  | VMINsafety_violation => 5 | VMAXsafety_violation => 6
  | V_not_calculated => 7 | SOC_limits_violation => 8 | Invalid_states => 9 | Invalid_SUs => 10
  | ParallelUnit_failed => 11 | RedistributeCurrent_failed => 12 | timeStep_CC_failed => 13
  | setVoltage_not_defined => 14
  | Unknown_problem => 127
  end)%Z.

(** src/types/Status.hpp:41-42 *)
Definition Critical : Status := VMIN_violation.
Definition NotSafe : Status := VMINsafety_violation.

(** [operator<], [<=], [==] on the scoped enum compare the underlying values. *)
Definition status_ltb (a b : Status) : bool := (status_val a <? status_val b)%Z.
Definition status_leb (a b : Status) : bool := (status_val a <=? status_val b)%Z.
Definition status_eqb (a b : Status) : bool := (status_val a =? status_val b)%Z.

(** src/types/Status.hpp:47-60 *)
Definition isStatusSuccessful (s : Status) : bool := status_eqb s Success.
Definition isStatusFailed (s : Status) : bool := negb (isStatusSuccessful s).
Definition isStatusOK (s : Status) : bool := status_ltb s Critical.
Definition isStatusBad (s : Status) : bool := negb (isStatusOK s).
Definition isStatusWarning (s : Status) : bool := negb (status_eqb s Success) && isStatusOK s.
Definition isStatusSafe (s : Status) : bool := status_ltb s NotSafe.
Definition isLimitsReached (s : Status) : bool := status_ltb s ReachedTimeLimit.
Definition isStatusVoltageLimitsViolated (s : Status) : bool :=
  status_ltb Success s && status_leb s VMAXsafety_violation.
Definition isCCLimitReached (s : Status) : bool :=
  status_eqb s ReachedVoltageLimit || status_eqb s ReachedTimeLimit.
Definition isCVLimitReached (s : Status) : bool :=
  status_eqb s ReachedCurrentLimit || status_eqb s ReachedTimeLimit.
Definition isCurrentLimitReached (s : Status) : bool := status_eqb s ReachedCurrentLimit.
Definition isVoltageLimitReached (s : Status) : bool := status_eqb s ReachedVoltageLimit.

(** [std::max(res, vi)] on statuses, src/modules/Module.cpp:125: [(a < b) ? b : a]. *)
Definition status_max (a b : Status) : Status := if status_ltb a b then b else a.

(** The loop of src/modules/Module.cpp:116-126 over the children's statuses, starting from [Success]. *)
Definition status_worst (l : list Status) : Status := fold_left status_max l Success.

(** src/types/Status.hpp:63-109, [getStatusMessage]: which statuses have a message of their own
    ([false] = the [default:] branch, "Unkown status?!"). *)
Definition has_status_message (s : Status) : bool :=
  match s with
  | VMINsafety_violation | VMAXsafety_violation => false
  | _ => true
  end.
