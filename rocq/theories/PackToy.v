(** * A concrete string for the examples: two cells with a flat OCV curve of 4 V *)
From Coq Require Import List Lia Reals Lra.
From Verif Require Import Base RFacts StatusModel UtilModel UtilSpec UtilProofs CellModel CellSpec CellProofs CoolModel ModuleModel ModuleSpec ModuleProofs ModuleExamples
  CyclerModel CyclerSpec CyclerProofs PackModel PackSpec.
Import ListNotations.
Local Open Scope R_scope.

Definition flat_ocv : XYdata R := mkXY [0; 1] [4; 4] false.
Definition flat_par := mkEpar 16 0 [] [] flat_ocv (p_lim (ecm_default_par 1)) 0 1000.
Definition flat_cell (soc i t a w : R) : ecmu R := mkEu false (mkEcm flat_par (mkEst 288 soc i [] t a w)).
Definition flat_rec (v : R) (b : bool) : modrec R := mkMod true [0; 0] (cool_make 2 1) 5 1 0 0 2 v b false true false.
Definition flat_string (c d : ecmu R) (v : R) (b : bool) : Tree R 1 := inr (mkM (flat_rec v b) [c; d]).

Lemma inc01 : increasing [0; 1].
Proof.
  intros [|[|i]] [|[|j]] a b L H1 H2; cbn in H1, H2; try lia; try discriminate; try (destruct i; discriminate); try (destruct j; discriminate).
  injection H1 as <-. injection H2 as <-. lra.
Qed.
Lemma flat_V soc i t a w : 0 <= soc <= 1 -> ecm_V (u_ecm (flat_cell soc i t a w)) = Ok 4.
Proof.
  intros H. unfold ecm_V, ecm_OCV, XYdata_interp. cbn [u_ecm flat_cell ep es e_SOC flat_par p_ocv flat_ocv xy_x xy_y xy_fixed].
  destruct (linInt_polyline [0; 1] [4; 4] soc 0 1 true) as (y & E & _); auto.
  { exact inc01. }
  rewrite E.
  assert (K : 4 <= y <= 4).
  { eapply (linInt_between [0; 1] [4; 4] soc y 0 1 4 4 true); auto.
    - exact inc01.
    - intros v [<-|[<-|[]]]; lra. }
  cbn. f_equal. lra.
Qed.

(** the two cells at current [i], with states of charge at least [lo] from empty and from full *)
Definition pair_at (lo i : R) (u : Tree R 1) : Prop :=
  exists s1 s2 t1 t2 a1 a2 w1 w2 v b, u = flat_string (flat_cell s1 i t1 a1 w1) (flat_cell s2 i t2 a2 w2) v b /\
    lo <= s1 <= 1 - lo /\ lo <= s2 <= 1 - lo /\ (b = true -> v = 8).
Notation ops := (su_ops_at (A := R) ecm_ops 0 1).
Lemma pair_V lo i u : 0 <= lo -> pair_at lo i u -> exists u', o_V ops u = (u', Ok 8) /\ pair_at lo i u'.
Proof.
  intros L (s1 & s2 & t1 & t2 & a1 & a2 & w1 & w2 & v & b & -> & H1 & H2 & H3). destruct b.
  - rewrite (H3 eq_refl). eexists. split; [reflexivity|]. repeat eexists; eauto; lra.
  - cbn [su_ops_at sum_ops o_V both flat_string mod_ops]. unfold on_r, mod_V. cbn [mm ms flat_rec m_series m_Vok m_rc sV_loop o_V ecm_ops o_I].
    rewrite !flat_V by lra.
    replace (nleb 4 (nZ 0)) with false by (symmetry; apply Rleb_false; rewrite R_nZ; lra). cbn -[nZ].
    eexists. split.
    + f_equal. f_equal. rewrite R_nZ. lra.
    + eexists s1, s2, t1, t2, a1, a2, w1, w2, _, true. split; [reflexivity|]. rewrite R_nZ. repeat split; try lra.
Qed.
Lemma pair_I lo i u : pair_at lo i u -> o_I ops u = i.
Proof. intros (s1 & s2 & t1 & t2 & a1 & a2 & w1 & w2 & v & b & -> & _). reflexivity. Qed.
Lemma pair_set lo i j u : pair_at lo i u -> exists u', o_setCurrent ops j false u = (u', Ok Success) /\ pair_at lo j u'.
Proof.
  intros (s1 & s2 & t1 & t2 & a1 & a2 & w1 & w2 & v & b & -> & H1 & H2 & H3). eexists. split; [reflexivity|].
  eexists s1, s2, t1, t2, a1, a2, w1, w2, _, false. split; [reflexivity|]. split; [exact H1|]. split; [exact H2|discriminate].
Qed.
Lemma pair_low lo i u : 0 <= lo -> pair_at lo i u -> exists u' v, o_Vlow ops u = (u', Ok v) /\ pair_at lo i u'.
Proof.
  intros L (s1 & s2 & t1 & t2 & a1 & a2 & w1 & w2 & v & b & -> & H1 & H2 & H3).
  cbn [su_ops_at sum_ops o_Vlow both flat_string mod_ops]. unfold on_r, mod_Vlow. cbn [mm ms each o_Vlow ecm_ops].
  rewrite !flat_V by lra. eexists _, _. split; [reflexivity|].
  eexists s1, s2, t1, t2, a1, a2, w1, w2, v, b. split; [reflexivity|]. split; [exact H1|]. split; [exact H2|exact H3].
Qed.
Lemma pair_step lo i u : 1 / 4 <= lo -> Rabs i <= 1 -> pair_at lo i u -> exists u', o_timeStep ops 1 1 u = (u', Ok tt) /\ pair_at (lo - 1 / 3600) i u'.
Proof.
  intros L Hi (s1 & s2 & t1 & t2 & a1 & a2 & w1 & w2 & v & b & -> & H1 & H2 & H3). assert (Hi2 : -1 <= i <= 1) by (revert Hi; unfold Rabs; destruct (Rcase_abs i); lra).
  cbn [su_ops_at sum_ops o_timeStep both flat_string mod_ops]. unfold on_r, mod_timeStep. 
  replace (nltb 1 (nZ 0)) with false by (symmetry; apply Rltb_false; rewrite R_nZ; lra).
  cbn [mm ms flat_rec m_series m_par step_children each].
  assert (S : forall s t a w, lo <= s <= 1 - lo -> exists t' a' w', o_timeStep ecm_ops 1 1 (flat_cell s i t a w) = (flat_cell (s - i / 3600 / 16) i t' a' w', Ok tt)).
  { intros s t a w Hs. cbn [ecm_ops o_timeStep]. unfold lift_ecm, ecm_timeStep_CC.
    replace (nltb 1 (nZ 0)) with false by (symmetry; apply Rltb_false; rewrite R_nZ; lra). change (Z.to_nat 1) with 1%nat. cbn [ecm_steps]. unfold ecm_step1.
    cbn [u_ecm flat_cell ep es e_T e_SOC e_I e_Ir e_time e_Ah e_Wh flat_par p_cap p_itau step_Ir].
    rewrite R_nZ. cbn [nsub nmul ndiv nadd RNum].
    pose proof (flat_V (s - i * (1 / 3600) / 16) i (t + 1) (a + nabs (i * (1 / 3600))) w) as E. unfold flat_cell in E. cbn [u_ecm] in E.
    fold flat_par. rewrite E by lra. eexists _, _, _. f_equal. unfold flat_cell. do 3 f_equal. lra. }
  destruct (S s1 t1 a1 w1 H1) as (t1' & a1' & w1' & E1). destruct (S s2 t2 a2 w2 H2) as (t2' & a2' & w2' & E2). unfold step_children. cbn [each].
  change (su R (ecmu R) 0) with (ecmu R). rewrite E1, E2.
  cbn [rmap rbind]. unfold mod_heat_step. cbn [mm m_block flat_rec].
  eexists. split; [reflexivity|].
  eexists _, _, t1', t2', a1', a2', w1', w2', _, false. split; [reflexivity|]. split; [lra|]. split; [lra|discriminate].
Qed.

(** Total correctness over the unit. *)
Definition tr {B : Type} (P : Tree R 1 -> Prop) (m : M (cyc R (Tree R 1)) B) (Q : B -> Tree R 1 -> Prop) : Prop :=
  forall w, P (c_su w) -> exists w' b, m w = (w', Ok b) /\ Q b (c_su w').
Lemma tr_ret {B : Type} (P : Tree R 1 -> Prop) (b : B) (Q : B -> Tree R 1 -> Prop) : (forall u, P u -> Q b u) -> tr P (mret b) Q.
Proof. intros H w Hw. exists w, b. split; [reflexivity|auto]. Qed.
Lemma tr_bind {B C : Type} (P : Tree R 1 -> Prop) (m : M _ B) (f : B -> M _ C) (R0 : B -> Tree R 1 -> Prop) (Q : C -> Tree R 1 -> Prop) :
  tr P m R0 -> (forall b, tr (R0 b) (f b) Q) -> tr P (mbind m f) Q.
Proof.
  intros H1 H2 w Hw. destruct (H1 w Hw) as (w1 & b & E1 & K1). destruct (H2 b w1 K1) as (w2 & c & E2 & K2).
  exists w2, c. split; [|exact K2]. unfold mbind. rewrite E1. exact E2.
Qed.
Lemma tr_call {B : Type} (P : Tree R 1 -> Prop) (f : M (Tree R 1) B) (Q : B -> Tree R 1 -> Prop) :
  (forall u, P u -> exists u' b, f u = (u', Ok b) /\ Q b u') -> tr P (call f) Q.
Proof. intros H w Hw. destruct (H _ Hw) as (u' & b & E & K). unfold call. rewrite E. eexists _, b. split; [reflexivity|exact K]. Qed.
Lemma tr_if {B : Type} (P : Tree R 1 -> Prop) (b v : bool) (m m' : M _ B) (Q : B -> Tree R 1 -> Prop) :
  b = v -> tr P (if v then m else m') Q -> tr P (if b then m else m') Q.
Proof. intros ->. auto. Qed.
Lemma tr_pure {B : Type} (p : Prop) (P : Tree R 1 -> Prop) (m : M _ B) (Q : B -> Tree R 1 -> Prop) : (p -> tr P m Q) -> tr (fun u => p /\ P u) m Q.
Proof. intros H w (Hp & Hw). exact (H Hp w Hw). Qed.

Section Toy.
Context (store write : M (Tree R 1) unit).
Notation o := (tree_if 0 1 store write).
Lemma tr_V lo i : 0 <= lo -> tr (pair_at lo i) (call (q_V o)) (fun v u => v = 8 /\ pair_at lo i u).
Proof. intros L. apply tr_call. intros u H. destruct (pair_V lo i u L H) as (u' & E & K). exists u', 8. auto. Qed.
Lemma tr_set lo i j : tr (pair_at lo i) (call (q_setCurrent o j false)) (fun st u => st = Success /\ pair_at lo j u).
Proof. apply tr_call. intros u H. destruct (pair_set lo i j u H) as (u' & E & K). exists u', Success. auto. Qed.
Lemma tr_step lo i : 1 / 4 <= lo -> Rabs i <= 1 -> tr (pair_at lo i) (call (q_step o 1 1)) (fun _ => pair_at (lo - 1 / 3600) i).
Proof. intros L Hi. apply tr_call. intros u H. destruct (pair_step lo i u L Hi H) as (u' & E & K). exists u', tt. auto. Qed.
Lemma tr_Vlow lo i : 0 <= lo -> tr (pair_at lo i) (call (q_Vlow o)) (fun _ => pair_at lo i).
Proof. intros L. apply tr_call. intros u H. destruct (pair_low lo i u L H) as (u' & v & E & K). exists u', v. auto. Qed.

Lemma tr_rest lo i nmax : 1 / 4 <= lo -> tr (pair_at lo i) (rest o nmax 1 1 1 0) (fun st u => st = ReachedTimeLimit /\ pair_at (lo - 1 / 3600) 0 u).
Proof.
  intros L. unfold rest. change (store_if o nmax (0 <? 0)%Z) with (mret (S := cyc R (Tree R 1)) tt).
  eapply tr_bind; [apply (tr_ret _ _ (fun _ => pair_at lo i)); auto|]. intros [].
  eapply (tr_bind _ _ _ (fun r u => r = inr 1 /\ pair_at (lo - 1 / 3600) 0 u)).
  - cbn [rest_loop]. apply tr_if with (v := false).
    { rewrite R_nZ. destruct (nltb 0 1) eqn:E; [reflexivity|]. apply Rltb_false in E. lra. }
    eapply tr_bind; [apply (tr_set lo i)|]. intros st. apply tr_pure. intros ->. rewrite R_nZ.
    change (isStatusBad Success) with false. cbv iota. cbv zeta.
    replace (cut_n 1 1 (1 - 0)%num) with 1%Z by (unfold cut_n; rewrite R_nZ; destruct (nltb _ _); reflexivity).
    replace (cut_dt 1 (1 - 0)%num) with 1 by (unfold cut_dt; cbn [nsub RNum]; destruct (nltb _ _); lra).
    eapply tr_bind; [apply tr_step; [lra|rewrite Rabs_R0; lra]|]. intros ?.
    eapply tr_bind; [apply (tr_ret _ _ (fun _ => pair_at (lo - 1 / 3600) 0)); auto|]. intros idat.
    destruct (rest_adapt _ _ _ _) as (n' & ninc').
    assert (E : negb (nltb (0 + 1 * nZ 1)%num 1) = true).
    { rewrite R_nZ. cbn [nadd nmul RNum]. destruct (nltb _ 1) eqn:E; [|reflexivity]. apply Rltb_true in E. lra. }
    rewrite E. apply tr_ret. intros u H. split; [|exact H]. rewrite R_nZ. cbn [nadd nmul RNum]. f_equal. lra.
  - intros r. apply tr_pure. intros ->. apply tr_if with (v := true).
    { apply andb_true_iff. split; [apply Rleb_true; lra|]. apply Rltb_true. rewrite R_nZ. cbn [nsub nabs RNum].
      rewrite Rminus_diag_eq by reflexivity. rewrite Rabs_R0. lra. }
    eapply tr_bind; [apply (tr_set _ 0)|]. intros st. apply tr_pure. intros _.
    eapply tr_bind; [apply (tr_ret _ _ (fun _ => pair_at (lo - 1 / 3600) 0)); intros u; rewrite R_nZ; auto|]. intros ?.
    eapply (tr_bind _ _ _ (fun _ => pair_at (lo - 1 / 3600) 0)).
    + intros w Hw. eexists _, tt. split; [reflexivity|]. exact Hw.
    + intros []. apply tr_ret. auto.
Qed.

Lemma tr_first lo i j vlim : 0 <= lo -> (j < 0 -> 8 < vlim) -> (0 < j -> vlim < 8) ->
  tr (pair_at lo i) (cyc_setCurrent o false j vlim) (fun st u => st = Success /\ pair_at lo j u).
Proof.
  intros L H1 H2. unfold cyc_setCurrent.
  eapply tr_bind; [apply (tr_V lo i L)|]. intros v. apply tr_pure. intros ->.
  eapply (tr_bind _ _ _ (fun _ => pair_at lo i)); [apply tr_call; intros u H; eexists _, _; split; [reflexivity|exact H]|]. intros Iini.
  eapply tr_bind; [apply (tr_set lo i)|]. intros st. apply tr_pure. intros ->.
  change (isStatusVoltageLimitsViolated Success) with false. cbv iota.
  eapply tr_bind; [apply (tr_V lo j L)|]. intros v. apply tr_pure. intros ->.
  destruct (Rlt_dec j 0) as [Hj|Hj].
  - apply tr_if with (v := false); [|apply tr_if with (v := false); [|apply tr_ret; auto]].
    + apply andb_false_intro2. apply Rltb_false. specialize (H1 Hj). lra.
    + apply andb_false_intro1. apply Rleb_false. specialize (H1 Hj). lra.
  - apply tr_if with (v := false); [|apply tr_if with (v := false); [|apply tr_ret; auto]].
    + apply andb_false_intro1. apply andb_false_intro1. apply Rltb_false. rewrite R_nZ. lra.
    + destruct (nleb vlim 8) eqn:E; [|reflexivity]. apply Rleb_true in E. apply Rltb_false. lra.
Qed.
Lemma not_beyond j vlim : (j < 0 -> 8 < vlim) -> (0 < j -> vlim < 8) -> beyond j 8 vlim = false.
Proof.
  intros H1 H2. unfold beyond. rewrite !R_nZ. apply orb_false_intro.
  - destruct (nltb j 0) eqn:E; [|reflexivity]. apply Rltb_true in E. apply Rltb_false. specialize (H1 E). lra.
  - destruct (nltb 0 j) eqn:E; [|reflexivity]. apply Rltb_true in E. apply Rltb_false. specialize (H2 E). lra.
Qed.
Lemma tr_CC lo i j vlim nmax : 1 / 3 <= lo -> Rabs j <= 1 -> (j < 0 -> 8 < vlim) -> (0 < j -> vlim < 8) ->
  tr (pair_at lo i) (CC o nmax false 1 j vlim 1 1 0) (fun st u => st = ReachedTimeLimit /\ pair_at (lo - 1 / 3600) j u).
Proof.
  intros L Hj H1 H2. unfold CC. change (store_if o nmax (0 <? 0)%Z) with (mret (S := cyc R (Tree R 1)) tt).
  eapply tr_bind; [apply (tr_ret _ _ (fun _ => pair_at lo i)); auto|]. intros [].
  eapply tr_bind; [apply (tr_first lo i j vlim); auto; lra|]. intros st. apply tr_pure. intros ->.
  change (negb (isStatusSuccessful Success)) with false. cbv iota.
  eapply tr_bind; [apply (tr_V lo j); lra|]. intros v. apply tr_pure. intros ->.
  rewrite not_beyond by assumption.
  eapply (tr_bind _ _ _ (fun r u => r = inr (1, false) /\ pair_at (lo - 1 / 3600) j u)).
  - cbn [cc_loop]. apply tr_if with (v := false).
    { rewrite R_nZ. destruct (nltb 0 1) eqn:E; [reflexivity|]. apply Rltb_false in E. lra. }
    eapply tr_bind; [apply (tr_first lo j j vlim); auto; lra|]. intros st. apply tr_pure. intros _. rewrite R_nZ. cbv zeta.
    replace (cut_n 1 1 (1 - 0)%num) with 1%Z by (unfold cut_n; rewrite R_nZ; destruct (nltb _ _); reflexivity).
    replace (cut_dt 1 (1 - 0)%num) with 1 by (unfold cut_dt; cbn [nsub RNum]; destruct (nltb _ _); lra).
    eapply (tr_bind _ _ _ (fun b u => b = true /\ pair_at (lo - 1 / 3600) j u)).
    { intros w Hw. destruct (tr_step lo j ltac:(lra) Hj w Hw) as (w' & b & E & K). exists w', true. split; [|auto].
      unfold try, mbind. rewrite E. reflexivity. }
    intros b. apply tr_pure. intros ->. cbn [negb]. 
    eapply (tr_bind _ _ _ (fun r u => r = inr 8 /\ pair_at (lo - 1 / 3600) j u)).
    { eapply tr_bind; [apply (tr_V (lo - 1 / 3600) j); lra|]. intros v. apply tr_pure. intros ->. apply tr_ret. intros u H. split; [|exact H].
      rewrite (proj2 (Rleb_false 8 0)) by lra. reflexivity. }
    intros r. apply tr_pure. intros ->.
    eapply tr_bind; [apply (tr_V (lo - 1 / 3600) j); lra|]. intros v. apply tr_pure. intros _.
    eapply (tr_bind _ _ _ (fun _ => pair_at (lo - 1 / 3600) j)). { intros w Hw. eexists _, tt. split; [reflexivity|]. exact Hw. }
    intros []. eapply tr_bind; [apply (tr_ret _ _ (fun _ => pair_at (lo - 1 / 3600) j)); auto|]. intros idat.
    rewrite not_beyond by assumption.
    eapply (tr_bind _ _ _ (fun _ => pair_at (lo - 1 / 3600) j)).
    { unfold cc_adapt. destruct (nltb j (nZ 0)); [apply tr_ret; auto|]. cbv zeta.
      eapply tr_bind; [apply tr_Vlow; lra|]. intros v1. destruct (if nltb v1 _ then _ else _) as (n2 & up2).
      eapply tr_bind; [apply tr_Vlow; lra|]. intros v2. apply tr_ret. auto. }
    intros nu.
    assert (E : negb (nltb (0 + 1 * nZ 1)%num 1) = true).
    { rewrite R_nZ. cbn [nadd nmul RNum]. destruct (nltb _ 1) eqn:E; [|reflexivity]. apply Rltb_true in E. lra. }
    rewrite E. apply tr_ret. intros u H. split; [|exact H]. rewrite R_nZ. cbn [nadd nmul RNum]. do 2 f_equal. lra.
  - intros r. apply tr_pure. intros ->. apply tr_if with (v := true); [apply Rleb_true; lra|].
    eapply tr_bind; [apply (tr_ret _ _ (fun _ => pair_at (lo - 1 / 3600) j)); auto|]. intros ?. apply tr_ret. auto.
Qed.
End Toy.

(** It is a string, and its cells live at any current. *)
Lemma pair_string lo i u : pair_at lo i u -> string 1 u.
Proof.
  intros (s1 & s2 & t1 & t2 & a1 & a2 & w1 & w2 & v & b & -> & H1 & H2 & H3). split.
  - split; cbn; repeat constructor; cbn; lia.
  - cbn. split; [discriminate|]. repeat constructor.
Qed.
Lemma pair_alive lo i j u : 0 <= lo -> pair_at lo i u -> alive_at j 1 u.
Proof.
  intros L (s1 & s2 & t1 & t2 & a1 & a2 & w1 & w2 & v & b & -> & H1 & H2 & H3).
  unfold alive_at. cbn [leaves flat_string flat_map map concat ms app].
  repeat constructor; exists 4; (split; [|lra]); [exact (flat_V s1 j t1 a1 w1 ltac:(lra))|exact (flat_V s2 j t2 a2 w2 ltac:(lra))].
Qed.
