(** * C91: an equivalent-circuit cell never gives back more energy than was put in *)
From Coq Require Import SpecFloat.
From Verif Require Import Base RFacts StatusModel UtilModel UtilSpec CellModel CellSpec CellProofs EnergySpec EnergyProofs.
From Coq Require Import Lra Lia.
Local Open Scope R_scope.

(** Any use of a passive cell: the energy counted (Wh) while discharging, plus what the capacitors hold at the
    end, is at most the energy counted while charging, plus what they held at the start, plus the charge given
    up (Ah) at the open-circuit voltage of the start. *)
Theorem C91_passive : forall c del tak d o, passive c -> used c del tak d -> ecm_OCV c = Ok o ->
  del + stored d / 3600 <= tak + stored c / 3600 + p_cap (ep c) * (e_SOC (es c) - e_SOC (es d)) * o.
Proof.
  intros c del tak d o P U Ho. assert (B := used_bound c del tak d o U P Ho).
  replace (p_cap (ep c) * (e_SOC (es c) - e_SOC (es d)) * o)
    with (p_cap (ep c) * o * (e_SOC (es c) - e_SOC (es d))) by ring. exact B.
Qed.
Print Assumptions C91_passive.

(** The capacitors never hold negative energy. *)
Lemma stored_pos c : passive c -> 0 <= stored c.
Proof.
  intros [_ _ P3 P4 _ _]. unfold stored. generalize (e_Ir (es c)). revert P4. generalize (p_itau (ep c)).
  induction P3 as [|r rp H1 H2 IH]; intros itau P4 ir; [cbn; lra|].
  destruct P4 as [|k itau K1 K2]; [cbn; lra|]. destruct ir as [|i ir]; [cbn; lra|].
  cbn [pairs_energy]. assert (I := IH itau K2 ir).
  assert (0 < 1 / k) by (apply Rdiv_lt_0_compat; lra).
  assert (0 <= 1 / 2 * r * (1 / k) * (i * i)).
  { apply Rmult_le_pos; [|apply Rle_0_sqr]. apply Rmult_le_pos; lra. }
  lra.
Qed.

Lemma used_passive c del tak d : used c del tak d -> passive c -> passive d.
Proof.
  induction 1; intros P; auto.
  - apply IHused. apply setCurrent_frame in H. apply (passive_same _ _ H P).
  - apply IHused. apply setVoltage_frame in H. apply (passive_same _ _ H P).
  - apply setVoltage_throws in H. destruct H as [-> _]. auto.
  - apply IHused. destruct P; split; auto.
  - apply IHused. unfold ecm_timeStep_CC in *. destruct (nltb dt (nZ 0)) eqn:Hd; [discriminate|].
    apply Rltb_false in Hd. rewrite R_nZ in Hd. rewrite Nat2Z.id in H.
    destruct (steps_energy dt Hd n c c1 P H0 H) as (l & _ & _ & L3 & _); [|exact L3].
    intros k Hk. specialize (H1 k Hk). rewrite Nat2Z.id in H1. exact H1.
Qed.

(** A rested cell brought back to its state of charge, or above it: the round-trip efficiency is at most 1. *)
Theorem C91_round_trip : forall c del tak d o, passive c -> used c del tak d -> ecm_OCV c = Ok o -> 0 <= o ->
  Forall (fun i => i = 0) (e_Ir (es c)) -> e_SOC (es c) <= e_SOC (es d) -> del <= tak.
Proof.
  intros c del tak d o P U Ho Ho0 Hr Hs. assert (B := C91_passive c del tak d o P U Ho).
  assert (S0 : stored c = 0).
  { unfold stored. clear -Hr. revert Hr. generalize (e_Ir (es c)) (p_itau (ep c)) (p_Rp (ep c)). intros ir itau rp.
    revert ir itau. induction rp as [|r rp IH]; intros ir itau Hr; [reflexivity|].
    destruct itau as [|k itau]; [reflexivity|]. destruct Hr as [|i ir E Hr]; [reflexivity|].
    cbn [pairs_energy]. rewrite IH by auto. subst i. ring. }
  assert (Sd := stored_pos d (used_passive _ _ _ _ U P)). rewrite S0 in B.
  assert (0 <= p_cap (ep c) * (e_SOC (es d) - e_SOC (es c)) * o).
  { destruct P. apply Rmult_le_pos; auto. apply Rmult_le_pos; lra. }
  lra.
Qed.
Print Assumptions C91_round_trip.

(** Tables that never fall as the cell is charged: ascending abscissae (evenly spaced where flagged so) and
    ordinates that do not descend. The default cells qualify. *)
Theorem C91_tables : forall d : XYdata R, good_ocv d ->
  (forall i j u v, (i <= j)%nat -> nth_error (xy_y d) i = Some u -> nth_error (xy_y d) j = Some v -> u <= v) ->
  rising d.
Proof. intros d [G1 G2 G3 G4 _ _ G5] H. apply rising_table; auto. Qed.
Print Assumptions C91_tables.
Theorem C91_default_passive : forall nrc, (nrc <= 2)%nat -> passive (ecm_default (A := R) nrc).
Proof. exact default_passive. Qed.
Print Assumptions C91_default_passive.

(** A cycle of the default cell: charged with 1 A for 576 s and discharged with 1 A for as long. *)
Example C91_inhabited : exists del tak d,
  passive (ecm_default 1) /\ used (ecm_default 1) del tak d /\ e_SOC (es d) = e_SOC (es (ecm_default 1)) /\
  0 < del.
Proof.
  set (c0 := mkEcm (ecm_default_par (A := R) 1) (with_I (es (ecm_default 1)) (-1))).
  assert (D : nltb (576 : R) (nZ 0) = false) by (apply Rltb_false; rewrite R_nZ; lra).
  assert (K : Forall (fun k => 576 * k <= 2) (p_itau (ecm_default_par (A := R) 1))).
  { cbn -[nlit]. unfold nZ. rewrite ?R_nlit. constructor; [|constructor]. cbn [ndiv nmul RNum].
    match goal with |- 576 * (_ / ?q) <= 2 => apply Rmult_le_reg_r with q; [lra|] end. field_simplify; lra. }
  assert (G1 := ecm_steps_total 1 576 c0 (default_ocv_good 1)). destruct G1 as [c1 E1].
  assert (E1' := E1). cbn [ecm_steps] in E1'.
  destruct (ecm_step1 576 c0) as [c1' [[]| | |]] eqn:S1; try discriminate. injection E1' as ->.
  destruct (step1_R _ _ _ _ S1) as (A1 & _ & _ & _ & A5).
  destruct (ecm_steps_frame 1 576 c0 c1 _ E1) as (F1 & I1 & _).
  assert (C1 : c1 = mkEcm (ecm_default_par 1) (es c1)) by (destruct c1; cbn in *; subst; reflexivity).
  set (k := nth 0 (p_itau (ecm_default_par (A := R) 1)) 0).
  assert (Ek : k = 1 / (158 / 10000 * 38000)).
  { unfold k. cbn -[nlit]. unfold nZ. rewrite ?R_nlit. cbn [ndiv nmul RNum]. field. }
  assert (Hk : 0 <= 576 * k <= 1).
  { rewrite Ek. split; [apply Rmult_le_pos; [lra|]; apply Rlt_le, Rdiv_lt_0_compat; lra|].
    apply Rmult_le_reg_r with (158 / 10000 * 38000); [lra|]. field_simplify; lra. }
  assert (S0 : e_SOC (es c0) = 1 / 2) by (cbn -[nlit]; rewrite R_nlit; reflexivity).
  assert (Cap : p_cap (ecm_default_par (A := R) 1) = 16) by (cbn -[nlit]; unfold nZ; rewrite R_nlit; lra).
  change (ep c0) with (ecm_default_par (A := R) 1) in *. change (e_I (es c0)) with (-1) in *.
  rewrite S0, Cap in A1.
  assert (X1 : e_Ir (es c1) = [0 + 576 * k * (-1 - 0)]).
  { rewrite A5. unfold k. clear. change (step_Ir 576 (-1) (p_itau (ecm_default_par (A := R) 1)) (e_Ir (es (ecm_default (A := R) 1))) =
      [0 + 576 * nth 0 (p_itau (ecm_default_par (A := R) 1)) 0 * (-1 - 0)]).
    cbn -[nlit]. unfold nZ. rewrite !R_nlit. replace (0 / 1) with 0 by lra. reflexivity. }
  destruct (default_readable (es c1) _ ltac:(lra) ltac:(rewrite I1, Rabs_left1; lra) X1
              ltac:(rewrite Rabs_left1; lra)) as [R1 _].
  rewrite <- C1 in R1.
  set (c2 := mkEcm (ecm_default_par (A := R) 1) (with_I (es c1) 1)).
  destruct (ecm_steps_total 1 576 c2 (default_ocv_good 1)) as [d E2].
  assert (E2' := E2). cbn [ecm_steps] in E2'.
  destruct (ecm_step1 576 c2) as [d' [[]| | |]] eqn:S2; try discriminate. injection E2' as ->.
  destruct (step1_R _ _ _ _ S2) as (B1 & _ & _ & _ & B5).
  destruct (ecm_steps_frame 1 576 c2 d _ E2) as (F2 & I2 & _).
  assert (C2 : d = mkEcm (ecm_default_par 1) (es d)) by (destruct d; cbn in *; subst; reflexivity).
  change (ep c2) with (ecm_default_par (A := R) 1) in *. change (e_I (es c2)) with 1 in *.
  change (e_SOC (es c2)) with (e_SOC (es c1)) in *. change (e_Ir (es c2)) with (e_Ir (es c1)) in *.
  rewrite A1, Cap in B1.
  set (x1 := 0 + 576 * k * (-1 - 0)) in *.
  assert (X2 : e_Ir (es d) = [x1 + 576 * k * (1 - x1)]) by (rewrite B5, X1; reflexivity).
  assert (Hx2 : Rabs (x1 + 576 * k * (1 - x1)) <= 10).
  { unfold x1. apply Rabs_le. nra. }
  destruct (default_readable (es d) _ ltac:(lra) ltac:(rewrite I2, Rabs_right; lra) X2 Hx2) as [R2 (v & Hv & Hv1)].
  rewrite <- C2 in R2, Hv.
  assert (W := step1_Wh 576 c2 d v S2 Hv). change (e_I (es c2)) with 1 in W.
  eexists _, _, d. split; [apply default_passive; lia|]. split.
  - apply (u_setI _ (-1) false c0 Success); [reflexivity|].
    apply (u_step c0 576 1 c1); [unfold ecm_timeStep_CC; rewrite D; exact E1|exact K| |].
    { intros j Hj. replace j with 1%nat by lia. unfold ecm_timeStep_CC. rewrite D.
      change (Z.to_nat (Z.of_nat 1)) with 1%nat. rewrite E1. exact R1. }
    apply (u_setI c1 1 false c2 Success); [rewrite C1; reflexivity|].
    apply (u_step c2 576 1 d 0 0 d); [unfold ecm_timeStep_CC; rewrite D; exact E2|exact K| |constructor].
    intros j Hj. replace j with 1%nat by lia. unfold ecm_timeStep_CC. rewrite D.
    change (Z.to_nat (Z.of_nat 1)) with 1%nat. rewrite E2. exact R2.
  - split.
    + rewrite B1. change (e_SOC (es (ecm_default (A := R) 1))) with (e_SOC (es c0)). rewrite S0. field.
    + change (e_I (es c0)) with (-1). change (e_I (es c2)) with 1. unfold out.
      destruct (Rlt_dec 0 (-1)); [lra|]. destruct (Rlt_dec 0 1); [|lra].
      rewrite W. rewrite Rabs_pos_eq; [lra|]. lra.
Qed.

(** Finding: charged past full, the cell books no energy (its voltage reads 0 outside the table), yet the way
    back counts: a closed cycle that yields energy. The default cell with no RC pair in doubles. *)
Definition full : ecm f64 := fst (ecm_setSOC (nZ 1) false (ecm_default 0)).
Definition topped : ecm f64 := fst (ecm_timeStep_CC (nZ 36) 1 (fst (ecm_setCurrent (nopp (nZ 16)) false full))).
Definition emptied : ecm f64 := fst (ecm_timeStep_CC (nZ 36) 1 (fst (ecm_setCurrent (nZ 16) false topped))).
Theorem C91_overcharge_refuted :
  e_SOC (es full) = nZ 1 /\ nltb (nZ 1) (e_SOC (es topped)) = true /\ e_SOC (es emptied) = nZ 1 /\
  e_Wh (es topped) = e_Wh (es full) /\
  nltb (e_Wh (es topped) + nlit 1 2)%num (e_Wh (es emptied)) = true.
Proof. vm_compute. repeat split; reflexivity. Qed.
Print Assumptions C91_overcharge_refuted.
