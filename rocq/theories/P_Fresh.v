(** * C95: new equivalent-circuit cells *)
From Coq Require Import ZArith List Reals Lra Lia.
From Verif Require Import Base RFacts StatusModel CellModel P_Conv ModuleExamples.
Import ListNotations.
Local Open Scope R_scope.

(** A cell at rest: no current anywhere, nothing counted yet. *)
Definition at_rest (c : ecm R) : Prop :=
  e_I (es c) = 0 /\ Forall (fun i => i = 0) (e_Ir (es c)) /\ e_Ah (es c) = 0 /\ e_Wh (es c) = 0.

(** The constructor accepts the states of charge from 0 to 1 and raises an error for all others. *)
Theorem C95_accepts : forall nrc cap soc : _, (0 <= soc <= 1 -> exists c, ecm_make (A := R) nrc cap soc = Ok c) /\
  (~ 0 <= soc <= 1 -> ecm_make (A := R) nrc cap soc = Throw 10).
Proof.
  intros nrc cap soc. unfold ecm_make, check_SOC. rewrite !R_nZ.
  destruct (nltb (A := R) soc 0) eqn:E1; [apply RFacts.Rltb_true in E1|apply RFacts.Rltb_false in E1]; cbn [orb].
  - split; intros H; [lra|reflexivity].
  - destruct (nltb (A := R) 1 soc) eqn:E2; [apply RFacts.Rltb_true in E2|apply RFacts.Rltb_false in E2]; (split; intros H); try lra; try reflexivity. eexists. reflexivity.
Qed.
Print Assumptions C95_accepts.

(** The new cell is what was asked for: it is at rest, its states are valid and it shows its open circuit voltage. *)
Theorem C95_new : forall nrc cap soc c, ecm_make (A := R) nrc cap soc = Ok c ->
  p_cap (ep c) = cap /\ e_SOC (es c) = soc /\ length (e_Ir (es c)) = nrc /\ e_time (es c) = 0 /\ at_rest c /\
  ecm_validStates c = true /\ forall v, ecm_OCV c = Ok v -> ecm_V c = Ok v.
Proof.
  intros nrc cap soc c E. unfold ecm_make in E. destruct (check_SOC soc) eqn:Es; cbn [negb] in E; [|discriminate]. apply (f_equal (fun r => match r with Ok x => x | _ => c end)) in E; cbv beta iota in E; subst c.
  cbn [ep es p_cap e_SOC e_Ir e_time ecm_default]. rewrite !R_nZ. split; [reflexivity|]. split; [reflexivity|]. split; [apply repeat_length|]. split; [reflexivity|].
  split; [|split].
  - unfold at_rest. cbn [ep es e_I e_Ir e_Ah e_Wh ecm_default]. rewrite ?R_nZ. repeat split; try reflexivity. apply Forall_forall. intros x X. exact (repeat_spec _ _ _ X).
  - unfold ecm_validStates. cbn [ep es e_SOC e_T p_Tmin p_Tmax ecm_default ecm_default_par]. rewrite Es, ?R_nZ. cbn [andb].
    destruct (nltb (A := R) 288 273) eqn:X; [apply RFacts.Rltb_true in X; lra|]. destruct (nltb (A := R) 333 288) eqn:Y; [apply RFacts.Rltb_true in Y; lra|]. reflexivity.
  - intros v H. unfold ecm_V. rewrite H. cbn [ep es e_I e_Ir p_Rdc p_Rp ecm_default]. rewrite ?R_nZ. f_equal.
    assert (Z : forall rp n w, sub_drops (A := R) w rp (repeat 0 n) = w).
    { induction rp as [|r rp IH]; intros [|n] w; cbn; auto. rewrite Rmult_0_r. unfold Rminus. rewrite Ropp_0, Rplus_0_r. apply IH. }
    rewrite Z. cbn. ring.
Qed.
Print Assumptions C95_new.

Lemma rest_Ir dt k l : Forall (fun i => i = 0) l -> (length l <= length k)%nat -> step_Ir (A := R) dt 0 k l = l.
Proof.
  intros H. revert k. induction H as [|x l -> _ IH]; intros [|y k] L; cbn in *; try lia; auto. rewrite IH by lia. f_equal. ring.
Qed.

Definition later (t : R) (c : ecm R) : ecm R :=
  mkEcm (ep c) (mkEst (e_T (es c)) (e_SOC (es c)) (e_I (es c)) (e_Ir (es c)) (e_time (es c) + t) (e_Ah (es c)) (e_Wh (es c))).

Lemma rest_step dt c v : at_rest c -> (length (e_Ir (es c)) <= length (p_itau (ep c)))%nat -> ecm_V c = Ok v -> ecm_step1 dt c = (later dt c, Ok tt).
Proof.
  intros (H1 & H2 & H3 & H4) L E. destruct c as [p [T soc i ir t ah wh]]. cbn [ep es e_I e_Ir e_Ah e_Wh] in *. subst i ah wh.
  unfold ecm_step1. cbn [ep es e_T e_SOC e_I e_Ir e_time e_Ah e_Wh]. rewrite !R_nZ, rest_Ir by assumption. cbn [nmul ndiv nadd nsub nabs RNum].
  replace (0 * (dt / 3600)) with 0 by ring. replace (soc - 0 / p_cap p) with soc by (unfold Rdiv; ring). rewrite Rabs_R0, Rplus_0_l.
  replace (ecm_V _) with (Ok v). rewrite Rmult_0_l, Rabs_R0, Rplus_0_l. reflexivity.
Qed.

(** Time steps of a new cell, any number of any length, change nothing but the time. *)
Theorem C95_rest : forall nrc cap soc c v dt n, ecm_make (A := R) nrc cap soc = Ok c -> ecm_OCV c = Ok v -> 0 <= dt -> (0 <= n)%Z ->
  ecm_timeStep_CC dt n c = (later (IZR n * dt) c, Ok tt) /\ ecm_V (later (IZR n * dt) c) = Ok v.
Proof.
  intros nrc cap soc c v dt n E O Hd Hn. destruct (C95_new _ _ _ _ E) as (_ & _ & L & _ & Q & _ & W). specialize (W _ O).
  assert (L' : (length (e_Ir (es c)) <= length (p_itau (ep c)))%nat).
  { rewrite L. unfold ecm_make in E. destruct (check_SOC soc); cbn [negb] in E; [|discriminate]. apply (f_equal (fun r => match r with Ok x => x | _ => c end)) in E; cbv beta iota in E; subst c. cbn.
    destruct nrc as [|[|[|k]]]; cbn; rewrite ?repeat_length; lia. }
  split; [|exact W]. unfold ecm_timeStep_CC. rewrite R_nZ. destruct (nltb (A := R) dt 0) eqn:X; [apply RFacts.Rltb_true in X; lra|].
  rewrite <- (Z2Nat.id n Hn) at 2. rewrite <- INR_IZR_INZ. generalize (Z.to_nat n) as m. clear n Hn X E O L Hd. intros m. revert c Q W L'.
  induction m as [|m IH]; intros c Q W L'.
  - cbn [ecm_steps INR]. unfold later. rewrite Rmult_0_l, Rplus_0_r. destruct c as [p [? ? ? ? ? ? ?]]. reflexivity.
  - cbn [ecm_steps]. rewrite (rest_step dt c v Q L' W), (IH (later dt c) Q W L'). unfold later. cbn [ep es e_T e_SOC e_I e_Ir e_time e_Ah e_Wh].
    rewrite S_INR. replace (e_time (es c) + dt + INR m * dt) with (e_time (es c) + (INR m + 1) * dt) by ring. reflexivity.
Qed.
Print Assumptions C95_rest.

Example C95_inhabited : exists c, ecm_make (A := R) 1 10 1 = Ok c /\ ecm_OCV c = Ok chi /\ length (e_Ir (es c)) = 1%nat.
Proof.
  destruct (proj1 (C95_accepts 1 10 1) ltac:(lra)) as (c & E). exists c. split; [exact E|]. split; [|apply (C95_new _ _ _ _ E)].
  rewrite <- (full_OCV 10 0). unfold ecm_make in E. destruct (check_SOC 1); cbn [negb] in E; [|discriminate]. apply (f_equal (fun r => match r with Ok x => x | _ => c end)) in E; cbv beta iota in E; subst c. reflexivity.
Qed.
