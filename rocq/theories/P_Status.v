(** * C01: status classification *)
From Verif Require Import Base StatusModel StatusProofs.

(** Specification: the four groups of statuses, listed by name.
    - [ended]   : a cycler procedure ended by one of its limits;
    - [info]    : informational, not a failure;
    - [soft]    : a soft voltage limit is exceeded (still allowed);
    - [failure] : everything else that is not [Success]. *)
Definition ended : list Status := [ReachedCurrentLimit; ReachedVoltageLimit; ReachedTimeLimit].
Definition info : list Status := [ReachedSmallCurrent; Invalid_Vset; SafeVoltage].
Definition soft : list Status := [Vmin_violation; Vmax_violation].
Definition failure : list Status :=
  [VMIN_violation; VMAX_violation; VMINsafety_violation; VMAXsafety_violation; V_not_calculated;
   SOC_limits_violation; Invalid_states; Invalid_SUs; ParallelUnit_failed; RedistributeCurrent_failed;
   timeStep_CC_failed; setVoltage_not_defined; Unknown_problem].

(** Statuses are distinct values: comparing with [==] is equality of names. *)
Theorem C01_status_eq_names : forall a b, status_eqb a b = true <-> a = b.
Proof. intros a b; split; [destruct a, b; cbv; intros H; congruence | intros ->; destruct b; reflexivity]. Qed.
Print Assumptions C01_status_eq_names.

(** Exactly one of OK / bad; bad is exactly the failure group; a warning is OK and not success. *)
Theorem C01_partition : forall s,
  (isStatusOK s = negb (isStatusBad s)) /\
  (isStatusBad s = true <-> In s failure) /\
  (isStatusOK s = true <-> In s (Success :: ended ++ info ++ soft)) /\
  (isStatusWarning s = true <-> In s (ended ++ info ++ soft)) /\
  (isStatusSuccessful s = true <-> s = Success) /\
  (isStatusFailed s = true <-> s <> Success).
Proof. intros s; destruct s; cbv; intuition (try congruence; try discriminate). Qed.
Print Assumptions C01_partition.

(** The limit predicates name exactly the end conditions of each procedure. *)
Theorem C01_limit_predicates : forall s,
  (isCCLimitReached s = true <-> s = ReachedVoltageLimit \/ s = ReachedTimeLimit) /\
  (isCVLimitReached s = true <-> s = ReachedCurrentLimit \/ s = ReachedTimeLimit) /\
  (isCurrentLimitReached s = true <-> s = ReachedCurrentLimit) /\
  (isVoltageLimitReached s = true <-> s = ReachedVoltageLimit) /\
  (isLimitsReached s = true <-> s = ReachedCurrentLimit \/ s = ReachedVoltageLimit) /\
  (isStatusVoltageLimitsViolated s = true <->
     In s [Vmin_violation; Vmax_violation; VMIN_violation; VMAX_violation;
           VMINsafety_violation; VMAXsafety_violation]) /\
  (In s ended -> isStatusBad s = false).
Proof. intros s; destruct s; cbv; intuition (try congruence; try discriminate). Qed.
Print Assumptions C01_limit_predicates.

(** Finding: [isLimitsReached] misses one of the procedure ends, the time limit. *)
Theorem C01_isLimitsReached_all_ends_refuted :
  exists s, In s ended /\ isLimitsReached s = false.
Proof. exists ReachedTimeLimit. split; [cbv; auto | reflexivity]. Qed.
Print Assumptions C01_isLimitsReached_all_ends_refuted.

(** Finding: the two safety violations have no message. *)
Theorem C01_every_status_has_message_refuted : exists s, has_status_message s = false.
Proof. exists VMINsafety_violation. reflexivity. Qed.
Print Assumptions C01_every_status_has_message_refuted.

(** "Worst wins": the combination of any list of statuses is one of them (or [Success]), is at least as
    severe as each of them, and is OK exactly when all of them are OK. *)
Theorem C01_worst_status : forall l,
  (status_worst l = Success \/ In (status_worst l) l) /\
  (forall s, In s l -> (status_val s <= status_val (status_worst l))%Z) /\
  (isStatusOK (status_worst l) = true <-> forall s, In s l -> isStatusOK s = true).
Proof. exact status_worst_spec. Qed.
Print Assumptions C01_worst_status.

Example C01_worst_status_ex :
  status_worst [Success; Vmin_violation; VMAX_violation; SafeVoltage] = VMAX_violation.
Proof. reflexivity. Qed.
