(** * A concrete mixed string for the examples: an equivalent-circuit cell and a single-particle cell *)
From Coq Require Import List Lia Reals Lra.
From Verif Require Import Base RFacts StatusModel UtilModel UtilSpec UtilProofs CellModel CellSpec CellProofs CoolModel ModuleModel ModuleSpec ModuleProofs ModuleExamples
  SpmModel SpmUnitModel SpmSpec SpmProofs SpmReal CyclerModel CyclerSpec CyclerProofs PackModel PackSpec PackToy PhysToy FleetModel FleetSpec.
Import ListNotations.
Local Open Scope R_scope.

Section Mixed.
Context (F : fns R) (tm : Z).
Notation ops := (fleet_ops F tm 1).
Notation tree := (fleet (A := R) 1).

(** The small cell of PhysToy, with degradation and heating blocked. *)
Definition still : spm R := mkSpm (toy_par plain) (cs (toy plain 0 true)) false str0 true true 0 0 0 300.
Definition mixed (e : ecmu R) (p : spm R) (v : R) (b : bool) : tree :=
  inr (mkM (flat_rec v b) [inl e : cell; inr p]).
Definition mix_at (lo i : R) (u : tree) : Prop :=
  exists s t a w p v b, u = mixed (flat_cell s i t a w) p v b /\ lo <= s <= 1 - lo /\ toy_like plain p /\ c_block p = true /\ s_I (cs p) = i.
Lemma mix_V lo i u : 0 <= lo -> mix_at lo i u -> exists u' v, o_V ops u = (u', Ok v) /\ mix_at lo i u'.
Proof.
  intros L (s & t & a & w & p & v & b & -> & H1 & H2 & H3 & H4). destruct b.
  - eexists _, _. split; [reflexivity|]. exists s, t, a, w, p, v, true. auto.
  - unfold fleet_ops. cbn [su_ops_at sum_ops o_V both mixed mod_ops]. unfold on_r, mod_V.
    cbn [mm ms flat_rec m_series m_Vok m_rc sV_loop o_V o_I]. change (su_ops_at (cell_ops F tm) tm 0) with (cell_ops F tm).
    unfold cell_ops. cbn [sum_ops o_V o_I both]. unfold on_l, on_r. cbn [ecm_ops spm_ops o_V o_I]. rewrite flat_V by lra.
    replace (nleb 4 (nZ 0)) with false by (symmetry; apply Rleb_false; rewrite R_nZ; lra).
    assert (X : exists p' x, spm_V F p = (p', Ok x) /\ toy_like plain p' /\ c_block p' = true /\ s_I (cs p') = i).
    { unfold spm_V. destruct (c_valid p); [exists p; eauto|]. destruct (toy_calc F _ p H2) as (x & ->). eexists _, x. split; [reflexivity|].
      destruct H2 as (Q & y & z & Q1 & Q2). split; [split; [exact Q|]; exists y, z; auto|]. auto. }
    destruct X as (p' & x & -> & X1 & X2 & X3). destruct (nleb x (nZ 0)); (eexists _, _; split; [reflexivity|]; eexists s, t, a, w, p', _, _; split; [reflexivity|auto]).
Qed.
Lemma mix_set lo i j u : mix_at lo i u -> exists u', o_setCurrent ops j false u = (u', Ok Success) /\ mix_at lo j u'.
Proof.
  intros (s & t & a & w & p & v & b & -> & H1 & H2 & H3 & H4). eexists. split; [reflexivity|].
  eexists s, t, a, w, _, _, false. split; [reflexivity|]. split; [exact H1|]. split; [exact H2|]. split; [exact H3|reflexivity].
Qed.
Lemma mix_step lo i u : 1 / 4 <= lo -> Rabs i <= 1 -> mix_at lo i u -> exists u', o_timeStep ops 1 1 u = (u', Ok tt) /\ mix_at (lo - 1 / 3600) i u'.
Proof.
  intros L Hi (s & t & a & w & p & v & b & -> & H1 & H2 & H3 & H4).
  assert (Hi2 : -1 <= i <= 1) by (revert Hi; unfold Rabs; destruct (Rcase_abs i); lra).
  unfold fleet_ops. cbn [su_ops_at sum_ops o_timeStep both mixed mod_ops]. unfold on_r, mod_timeStep.
  replace (nltb 1 (nZ 0)) with false by (symmetry; apply Rltb_false; rewrite R_nZ; lra).
  cbn [mm ms flat_rec m_series m_par].
  assert (S1 : exists t' a' w', o_timeStep ecm_ops 1 1 (flat_cell s i t a w) = (flat_cell (s - i / 3600 / 16) i t' a' w', Ok tt)).
  { cbn [ecm_ops o_timeStep]. unfold lift_ecm, ecm_timeStep_CC.
    replace (nltb 1 (nZ 0)) with false by (symmetry; apply Rltb_false; rewrite R_nZ; lra). change (Z.to_nat 1) with 1%nat. cbn [ecm_steps]. unfold ecm_step1.
    cbn [u_ecm flat_cell ep es e_T e_SOC e_I e_Ir e_time e_Ah e_Wh flat_par p_cap p_itau step_Ir].
    rewrite R_nZ. cbn [nsub nmul ndiv nadd RNum].
    pose proof (flat_V (s - i * (1 / 3600) / 16) i (t + 1) (a + nabs (i * (1 / 3600))) w) as E. unfold flat_cell in E. cbn [u_ecm] in E.
    fold flat_par. rewrite E by lra. eexists _, _, _. f_equal. unfold flat_cell. do 3 f_equal. lra. }
  assert (S2 : exists p', o_timeStep (spm_ops F tm) 1 1 p = (p', Ok tt) /\ toy_like plain p' /\ c_block p' = true /\ s_I (cs p') = i).
  { cbn [spm_ops o_timeStep]. unfold spm_timeStep_CC. replace (nltb 1 (nZ 0)) with false by (symmetry; apply Rltb_false; rewrite R_nZ; lra).
    match goal with |- context [spm_steps F _ 1 ?e] => set (c1 := e) end. change (Z.to_nat 1) with 1%nat. cbn [spm_steps].
    assert (L1 : toy_like plain c1) by exact H2.
    destruct (toy_step1 F plain 1 c1 L1) as (c2 & E & L2). pose proof (step1_passed F 1 c1) as PS. rewrite E in *. cbn [fst] in PS.
    assert (B : c_block c2 = true) by (rewrite (ps_block _ _ _ _ PS); exact H3). rewrite B. exists c2. split; [reflexivity|]. split; [exact L2|]. split; [exact B|].
    rewrite (ps_I _ _ _ _ PS). exact H4. }
  destruct S1 as (t' & a' & w' & E1). destruct S2 as (p' & E2 & X1 & X2 & X3). unfold step_children. cbn [each].
  change (su_ops_at (cell_ops F tm) tm 0) with (cell_ops F tm). unfold cell_ops. cbn [sum_ops o_timeStep both]. unfold on_l, on_r.
  rewrite E1, E2. cbn [rmap rbind]. unfold mod_heat_step. cbn [mm m_block flat_rec].
  eexists. split; [reflexivity|].
  eexists _, t', a', w', p', _, false. split; [reflexivity|]. split; [lra|]. auto.
Qed.

Definition tr {B : Type} (P : tree -> Prop) (m : M (cyc R tree) B) (Q : B -> tree -> Prop) : Prop :=
  forall w, P (c_su w) -> exists w' b, m w = (w', Ok b) /\ Q b (c_su w').
Lemma tr_ret {B : Type} (P : tree -> Prop) (b : B) (Q : B -> tree -> Prop) : (forall u, P u -> Q b u) -> tr P (mret b) Q.
Proof. intros H w Hw. exists w, b. split; [reflexivity|auto]. Qed.
Lemma tr_bind {B C : Type} (P : tree -> Prop) (m : M _ B) (f : B -> M _ C) (R0 : B -> tree -> Prop) (Q : C -> tree -> Prop) :
  tr P m R0 -> (forall b, tr (R0 b) (f b) Q) -> tr P (mbind m f) Q.
Proof.
  intros H1 H2 w Hw. destruct (H1 w Hw) as (w1 & b & E1 & K1). destruct (H2 b w1 K1) as (w2 & c & E2 & K2).
  exists w2, c. split; [|exact K2]. unfold mbind. rewrite E1. exact E2.
Qed.
Lemma tr_call {B : Type} (P : tree -> Prop) (f : M tree B) (Q : B -> tree -> Prop) :
  (forall u, P u -> exists u' b, f u = (u', Ok b) /\ Q b u') -> tr P (call f) Q.
Proof. intros H w Hw. destruct (H _ Hw) as (u' & b & E & K). unfold call. rewrite E. eexists _, b. split; [reflexivity|exact K]. Qed.
Lemma tr_if {B : Type} (P : tree -> Prop) (b v : bool) (m m' : M _ B) (Q : B -> tree -> Prop) :
  b = v -> tr P (if v then m else m') Q -> tr P (if b then m else m') Q.
Proof. intros ->. auto. Qed.
Lemma tr_pure {B : Type} (p : Prop) (P : tree -> Prop) (m : M _ B) (Q : B -> tree -> Prop) : (p -> tr P m Q) -> tr (fun u => p /\ P u) m Q.
Proof. intros H w (Hp & Hw). exact (H Hp w Hw). Qed.

Section Run.
Context (store write : M tree unit).
Notation o := (fleet_if F tm 1 store write).
Lemma tr_set lo i j : tr (mix_at lo i) (call (q_setCurrent o j false)) (fun st u => st = Success /\ mix_at lo j u).
Proof. apply tr_call. intros u H. destruct (mix_set lo i j u H) as (u' & E & K). exists u', Success. auto. Qed.
Lemma tr_step lo i : 1 / 4 <= lo -> Rabs i <= 1 -> tr (mix_at lo i) (call (q_step o 1 1)) (fun _ => mix_at (lo - 1 / 3600) i).
Proof. intros L Hi. apply tr_call. intros u H. destruct (mix_step lo i u L Hi H) as (u' & E & K). exists u', tt. auto. Qed.
Lemma tr_rest lo i nmax : 1 / 4 <= lo -> tr (mix_at lo i) (rest o nmax 1 1 1 0) (fun st u => st = ReachedTimeLimit /\ mix_at (lo - 1 / 3600) 0 u).
Proof.
  intros L. unfold rest. change (store_if o nmax (0 <? 0)%Z) with (mret (S := cyc R tree) tt).
  eapply tr_bind; [apply (tr_ret _ _ (fun _ => mix_at lo i)); auto|]. intros [].
  eapply (tr_bind _ _ _ (fun r u => r = inr 1 /\ mix_at (lo - 1 / 3600) 0 u)).
  - cbn [rest_loop]. apply tr_if with (v := false).
    { rewrite R_nZ. destruct (nltb 0 1) eqn:E; [reflexivity|]. apply Rltb_false in E. lra. }
    eapply tr_bind; [apply (tr_set lo i)|]. intros st. apply tr_pure. intros ->. rewrite R_nZ.
    change (isStatusBad Success) with false. cbv iota. cbv zeta.
    replace (cut_n 1 1 (1 - 0)%num) with 1%Z by (unfold cut_n; rewrite R_nZ; destruct (nltb _ _); reflexivity).
    replace (cut_dt 1 (1 - 0)%num) with 1 by (unfold cut_dt; cbn [nsub RNum]; destruct (nltb _ _); lra).
    eapply tr_bind; [apply tr_step; [lra|rewrite Rabs_R0; lra]|]. intros ?.
    eapply tr_bind; [apply (tr_ret _ _ (fun _ => mix_at (lo - 1 / 3600) 0)); auto|]. intros idat.
    destruct (rest_adapt _ _ _ _) as (n' & ninc').
    assert (E : negb (nltb (0 + 1 * nZ 1)%num 1) = true).
    { rewrite R_nZ. cbn [nadd nmul RNum]. destruct (nltb _ 1) eqn:E; [|reflexivity]. apply Rltb_true in E. lra. }
    rewrite E. apply tr_ret. intros u H. split; [|exact H]. rewrite R_nZ. cbn [nadd nmul RNum]. f_equal. lra.
  - intros r. apply tr_pure. intros ->. apply tr_if with (v := true).
    { apply andb_true_iff. split; [apply Rleb_true; lra|]. apply Rltb_true. rewrite R_nZ. cbn [nsub nabs RNum].
      rewrite Rminus_diag_eq by reflexivity. rewrite Rabs_R0. lra. }
    eapply tr_bind; [apply (tr_set _ 0)|]. intros st. apply tr_pure. intros _.
    eapply tr_bind; [apply (tr_ret _ _ (fun _ => mix_at (lo - 1 / 3600) 0)); intros u; rewrite R_nZ; auto|]. intros ?.
    eapply (tr_bind _ _ _ (fun _ => mix_at (lo - 1 / 3600) 0)).
    + intros w Hw. eexists _, tt. split; [reflexivity|]. exact Hw.
    + intros []. apply tr_ret. auto.
Qed.
End Run.
Lemma mix_chain lo i u : mix_at lo i u -> chain 1 u /\ well_formed 1 u.
Proof.
  intros (s & t & a & w & p & v & b & -> & _). repeat split; repeat constructor; cbn; try lia; try discriminate.
Qed.
Lemma mix_start : mix_at (1 / 3) 0 (mixed (flat_cell (1 / 2) 0 0 0 0) still 0 false).
Proof.
  exists (1 / 2), 0, 0, 0, still, 0, false. split; [reflexivity|]. split; [lra|]. split; [|split; reflexivity].
  split; [reflexivity|]. exists 0, 0. now split.
Qed.
End Mixed.
