(** * C91 for packs: no combination of cells gives back more energy than was put in *)
From Coq Require Import List Lra Lia.
From Verif Require Import Base RFacts StatusModel UtilModel UtilSpec CellModel CellSpec CellProofs CoolModel ModuleModel ModuleSpec
  ModuleExamples EnergySpec EnergyProofs EnergyPackSpec EnergyPackProofs P_Energy.
Import ListNotations.
Local Open Scope R_scope.

(** Any tree of modules of passive cells, used in any way: what the cells gave while discharging plus what their
    capacitors hold at the end is at most what they took while charging plus what the capacitors held at the start
    plus the charge each gave up at its own open-circuit voltage of the start. *)
Theorem C91_pack : forall tm n u del tak v, pack_used tm n u del tak v ->
  Forall (fun c => passive (u_ecm c) /\ exists o, ecm_OCV (u_ecm c) = Ok o) (leaves n u) ->
  del + all_stored n v / 3600 <= tak + all_stored n u / 3600 + over_cells given_up n u v.
Proof. intros tm n u del tak v U H. exact (cells_bound _ _ _ _ (pack_cells _ _ _ _ _ _ U) H). Qed.
Print Assumptions C91_pack.

(** A rested pack of which no cell ends below its initial state of charge: del <= tak. *)
Theorem C91_pack_round_trip : forall tm n u del tak v, pack_used tm n u del tak v ->
  Forall (fun c => passive (u_ecm c) /\ (exists o, ecm_OCV (u_ecm c) = Ok o /\ 0 <= o) /\
                   Forall (fun i => i = 0) (e_Ir (es (u_ecm c)))) (leaves n u) ->
  Forall2 (fun c d => e_SOC (es (u_ecm c)) <= e_SOC (es (u_ecm d))) (leaves n u) (leaves n v) -> del <= tak.
Proof.
  intros tm n u del tak v U. apply pack_cells in U.
  induction U as [|c l a b del tak d l' U _ IH]; intros H F; [lra|].
  apply Forall_cons_iff in H. destruct H as [(P & (o & Ho & Ho0) & Z) H]. inversion F; subst.
  assert (B := C91_round_trip _ _ _ _ o P U Ho Ho0 Z ltac:(eassumption)). specialize (IH H ltac:(assumption)). lra.
Qed.
Print Assumptions C91_pack_round_trip.

(** Two default cells in series: charged with 1 A for 576 s and discharged with 1 A for as long. *)
Definition c0 : ecm R := mkEcm (ecm_default_par (A := R) 1) (with_I (es (ecm_default 1)) (-1)).
Lemma cell_cycle : exists c1 d, ecm_timeStep_CC 576 1 c0 = (c1, Ok tt) /\ readable c1 /\
  c1 = mkEcm (ecm_default_par 1) (es c1) /\
  let c2 := mkEcm (ecm_default_par (A := R) 1) (with_I (es c1) 1) in
  ecm_timeStep_CC 576 1 c2 = (d, Ok tt) /\ readable d /\ e_SOC (es d) = e_SOC (es c0) /\ e_Wh (es c2) < e_Wh (es d) /\
  Forall (fun k => 576 * k <= 2) (p_itau (ecm_default_par (A := R) 1)).
Proof.
  assert (D : nltb (576 : R) (nZ 0) = false) by (apply Rltb_false; rewrite R_nZ; lra).
  assert (K : Forall (fun k => 576 * k <= 2) (p_itau (ecm_default_par (A := R) 1))).
  { cbn -[nlit]. unfold nZ. rewrite ?R_nlit. constructor; [|constructor]. cbn [ndiv nmul RNum].
    match goal with |- 576 * (_ / ?q) <= 2 => apply Rmult_le_reg_r with q; [lra|] end. field_simplify; lra. }
  assert (G1 := ecm_steps_total 1 576 c0 (default_ocv_good 1)). destruct G1 as [c1 E1].
  assert (E1' := E1). cbn [ecm_steps] in E1'.
  destruct (ecm_step1 576 c0) as [c1' [[]| | |]] eqn:S1; try discriminate. injection E1' as ->.
  destruct (step1_R _ _ _ _ S1) as (A1 & _ & _ & _ & A5).
  destruct (ecm_steps_frame 1 576 c0 c1 _ E1) as (F1 & I1 & _).
  assert (C1 : c1 = mkEcm (ecm_default_par 1) (es c1)) by (destruct c1; cbn in *; subst; reflexivity).
  set (k := nth 0 (p_itau (ecm_default_par (A := R) 1)) 0).
  assert (Ek : k = 1 / (158 / 10000 * 38000)).
  { unfold k. cbn -[nlit]. unfold nZ. rewrite ?R_nlit. cbn [ndiv nmul RNum]. field. }
  assert (Hk : 0 <= 576 * k <= 1).
  { rewrite Ek. split; [apply Rmult_le_pos; [lra|]; apply Rlt_le, Rdiv_lt_0_compat; lra|].
    apply Rmult_le_reg_r with (158 / 10000 * 38000); [lra|]. field_simplify; lra. }
  assert (S0 : e_SOC (es c0) = 1 / 2) by (cbn -[nlit]; rewrite R_nlit; reflexivity).
  assert (Cap : p_cap (ecm_default_par (A := R) 1) = 16) by (cbn -[nlit]; unfold nZ; rewrite R_nlit; lra).
  change (ep c0) with (ecm_default_par (A := R) 1) in *. change (e_I (es c0)) with (-1) in *.
  rewrite S0, Cap in A1.
  assert (X1 : e_Ir (es c1) = [0 + 576 * k * (-1 - 0)]).
  { rewrite A5. unfold k. clear. change (step_Ir 576 (-1) (p_itau (ecm_default_par (A := R) 1)) (e_Ir (es (ecm_default (A := R) 1))) =
      [0 + 576 * nth 0 (p_itau (ecm_default_par (A := R) 1)) 0 * (-1 - 0)]).
    cbn -[nlit]. unfold nZ. rewrite !R_nlit. replace (0 / 1) with 0 by lra. reflexivity. }
  destruct (default_readable (es c1) _ ltac:(lra) ltac:(rewrite I1, Rabs_left1; lra) X1
              ltac:(rewrite Rabs_left1; lra)) as [R1 _].
  rewrite <- C1 in R1.
  set (c2 := mkEcm (ecm_default_par (A := R) 1) (with_I (es c1) 1)).
  destruct (ecm_steps_total 1 576 c2 (default_ocv_good 1)) as [d E2].
  assert (E2' := E2). cbn [ecm_steps] in E2'.
  destruct (ecm_step1 576 c2) as [d' [[]| | |]] eqn:S2; try discriminate. injection E2' as ->.
  destruct (step1_R _ _ _ _ S2) as (B1 & _ & _ & _ & B5).
  destruct (ecm_steps_frame 1 576 c2 d _ E2) as (F2 & I2 & _).
  assert (C2 : d = mkEcm (ecm_default_par 1) (es d)) by (destruct d; cbn in *; subst; reflexivity).
  change (ep c2) with (ecm_default_par (A := R) 1) in *. change (e_I (es c2)) with 1 in *.
  change (e_SOC (es c2)) with (e_SOC (es c1)) in *. change (e_Ir (es c2)) with (e_Ir (es c1)) in *.
  rewrite A1, Cap in B1.
  set (x1 := 0 + 576 * k * (-1 - 0)) in *.
  assert (X2 : e_Ir (es d) = [x1 + 576 * k * (1 - x1)]) by (rewrite B5, X1; reflexivity).
  assert (Hx2 : Rabs (x1 + 576 * k * (1 - x1)) <= 10).
  { unfold x1. apply Rabs_le. nra. }
  destruct (default_readable (es d) _ ltac:(lra) ltac:(rewrite I2, Rabs_right; lra) X2 Hx2) as [R2 (v & Hv & Hv1)].
  rewrite <- C2 in R2, Hv.
  assert (W := step1_Wh 576 c2 d v S2 Hv). change (e_I (es c2)) with 1 in W.
  exists c1, d. split; [unfold ecm_timeStep_CC; rewrite D; exact E1|]. split; [exact R1|]. split; [exact C1|].
  cbv zeta. fold c2. split; [unfold ecm_timeStep_CC; rewrite D; exact E2|]. split; [exact R2|]. split.
  { rewrite B1, S0. field. }
  split; [|exact K]. rewrite Rabs_pos_eq in W; lra.
Qed.

Lemma series_step (c1 c2 d1 d2 : ecm R) r : ecm_timeStep_CC 576 1 c1 = (d1, Ok tt) -> ecm_timeStep_CC 576 1 c2 = (d2, Ok tt) ->
  m_series r = true -> m_top r = false -> m_par r = false ->
  exists r', o_timeStep (su_ops_at (A := R) ecm_ops 0 1) 576 (Z.of_nat 1) (inr (mkM r [mkEu false c1; mkEu false c2]))
    = (inr (mkM r' [mkEu false d1; mkEu false d2]), Ok tt) /\ m_series r' = true /\ m_top r' = false /\ m_par r' = false.
Proof.
  intros E1 E2 Hs Ht Hp.
  assert (D : nltb (576 : R) (nZ 0) = false) by (apply Rltb_false; rewrite R_nZ; lra).
  assert (M : exists r', mod_timeStep (ecm_ops (A := R)) 0 576 1 (mkM r [mkEu false c1; mkEu false c2])
    = (mkM r' [mkEu false d1; mkEu false d2], Ok tt) /\ m_series r' = true /\ m_top r' = false /\ m_par r' = false).
  { unfold mod_timeStep. rewrite D. unfold step_children. cbn [ms mm each ecm_ops o_timeStep]. unfold lift_ecm. cbn [u_ecm u_block].
    rewrite E1, E2. cbn [rmap rbind]. unfold mod_heat_step. cbn [mm ms]. rewrite Ht, Hs.
    destruct (m_block r) eqn:Hb; cbn [mm ms]; eexists; (split; [reflexivity|]); cbn; auto. }
  destruct M as (r' & M & Q). exists r'. split; [|exact Q].
  change (on_r (mod_timeStep (ecm_ops (A := R)) 0 576 1) (mkM r [mkEu false c1; mkEu false c2]) =
    (@inr (ecmu R) (module R (ecmu R)) (mkM r' [mkEu false d1; mkEu false d2]), Ok tt)).
  unfold on_r. rewrite M. reflexivity.
Qed.

Example C91_pack_inhabited : exists del tak v,
  pack_used 0 1 (inr (mkM (ex_rec true [0; 0] 2) [mkEu false c0; mkEu false c0])) del tak v /\ 0 < del /\
  Forall (fun c => passive (u_ecm c)) (leaves 1 (inr (mkM (ex_rec true [0; 0] 2) [mkEu false c0; mkEu false c0]))) /\
  Forall (fun c => e_SOC (es (u_ecm c)) = e_SOC (es c0)) (leaves 1 v).
Proof.
  destruct cell_cycle as (c1 & d & E1 & R1 & C1 & E2 & R2 & S2 & W & K).
  set (c2 := mkEcm (ecm_default_par (A := R) 1) (with_I (es c1) 1)) in *.
  destruct (series_step c0 c0 c1 c1 (ex_rec true [0; 0] 2) E1 E1 eq_refl eq_refl eq_refl) as (r1 & T1 & X1 & X2 & X3).
  assert (T2 : exists r2, o_setCurrent (su_ops_at (A := R) ecm_ops 0 1) 1 false (inr (mkM r1 [mkEu false c1; mkEu false c1]))
     = (inr (mkM r2 [mkEu false c2; mkEu false c2]), Ok Success) /\ m_series r2 = true /\ m_top r2 = false /\ m_par r2 = false).
  { exists (inval r1). split; [|auto]. 
    change (on_r (mod_setCurrent (ecm_ops (A := R)) 1 false) (mkM r1 [mkEu false c1; mkEu false c1]) =
      (@inr (ecmu R) (module R (ecmu R)) (mkM (inval r1) [mkEu false c2; mkEu false c2]), Ok Success)).
    unfold on_r, mod_setCurrent. cbn [mm ms]. rewrite X1. unfold c2. rewrite C1. reflexivity. }
  destruct T2 as (r2 & T2 & Y1 & Y2 & Y3).
  destruct (series_step c2 c2 d d r2 E2 E2 Y1 Y2 Y3) as (r3 & T3 & _).
  eexists _, _, (inr (mkM r3 [mkEu false d; mkEu false d])). split; [|split; [|split]].
  - eapply (pu_step 0 1 576 1); [exact T1| |].
    { refine (Forall_cons _ _ (Forall_cons _ _ (Forall_nil _))); (split; [exact K|]); intros j Hj; replace j with 1%nat by lia;
        cbn [u_ecm]; change (Z.of_nat 1) with 1%Z; rewrite E1; exact R1. }
    eapply (pu_setCurrent 0 1 1 false); [exact T2|].
    eapply (pu_step 0 1 576 1); [exact T3| |constructor].
    refine (Forall_cons _ _ (Forall_cons _ _ (Forall_nil _))); (split; [exact K|]); intros j Hj; replace j with 1%nat by lia;
        cbn [u_ecm]; change (Z.of_nat 1) with 1%Z; rewrite E2; exact R2.
  - unfold cells_out, over_cells. cbn -[out c0 Rplus]. 
    assert (O1 : forall x, out (e_I (es c0)) x = 0).
    { intros x. change (e_I (es c0)) with (-1). unfold out. destruct (Rlt_dec 0 (-1)); [lra|reflexivity]. }
    rewrite !O1. unfold out. destruct (Rlt_dec 0 1); [|lra]. cbn in W. lra.
  - assert (P : passive c0) by exact (proj1 (passive_same (ecm_default 1) c0 ltac:(repeat split) (default_passive 1 ltac:(lia)))).
    exact (Forall_cons (mkEu false c0) P (Forall_cons (mkEu false c0) P (Forall_nil _))).
  - exact (Forall_cons (mkEu false d) S2 (Forall_cons (mkEu false d) S2 (Forall_nil _))).
Qed.
