(** * Proofs about batteries of identical cells: cycling *)
From Coq Require Import List Lia Reals Lra.
From Verif Require Import Base RFacts StatusModel StatusProofs UtilModel CellModel CellSpec CellProofs CoolModel ModuleModel ModuleSpec ModuleProofs ModuleProofs3 ModuleProofs5 ModuleProofs6
  CyclerModel PackModel ScaleSpec ScaleProofs.
Import ListNotations.
Local Open Scope R_scope.

Lemma with_same (s : ecm_state R) : with_I s (e_I s) = s.
Proof. destruct s; reflexivity. Qed.
Lemma at_same (c : ecmu R) : at_current c (e_I (es (u_ecm c))) = c.
Proof. unfold at_current. rewrite with_same. destruct c as [b [pp ss]]; reflexivity. Qed.
Lemma check_ok (c : ecmu R) v : ecm_V (u_ecm c) = Ok v -> exists s, ecm_checkVoltage (u_ecm c) = Ok (v, s).
Proof. intros E. unfold ecm_checkVoltage. rewrite E. cbn. eauto. Qed.
Lemma check_V (c : ecmu R) v s : ecm_checkVoltage (u_ecm c) = Ok (v, s) -> s <> V_not_calculated -> ecm_V (u_ecm c) = Ok v /\ 0 < v.
Proof.
  unfold ecm_checkVoltage, check_voltage. destruct (ecm_V (u_ecm c)) as [x| | |]; try discriminate; [|intros [= <- <-]; congruence].
  intros E H. injection E as <- <-. split; [reflexivity|]. destruct (Rle_dec x (0 / 1)); [congruence|]. lra.
Qed.
Lemma cell_set_same (c : ecmu R) v b : ecm_V (u_ecm c) = Ok v -> exists st, o_setCurrent ecm_ops (e_I (es (u_ecm c))) b c = (c, Ok st).
Proof.
  intros E. cbn [ecm_ops o_setCurrent]. unfold lift_ecm, ecm_setCurrent, ecm_checkCurrent. rewrite with_same. destruct (check_ok c v E) as (s & Es).
  replace (mkEcm (ep (u_ecm c)) (es (u_ecm c))) with (u_ecm c) by (destruct (u_ecm c); reflexivity). rewrite Es.
  destruct b; cbn [rmap rbind snd].
  - exists s. rewrite with_same. destruct (isStatusBad s); destruct c as [bb [pp ss]]; reflexivity.
  - exists Success. destruct c as [bb [pp ss]]; reflexivity.
Qed.
Lemma cell_set_free (c : ecmu R) j : o_setCurrent ecm_ops j false c = (at_current c j, Ok Success).
Proof. destruct c as [bb [pp ss]]; reflexivity. Qed.
Lemma cell_set_ok (c : ecmu R) j b : accepts c j -> o_setCurrent ecm_ops j b c = (at_current c j, Ok Success).
Proof.
  intros (v & E). destruct b; [|apply cell_set_free]. cbn [ecm_ops o_setCurrent]. unfold lift_ecm, ecm_setCurrent, ecm_checkCurrent. unfold at_current in E. cbn [u_ecm] in E.
  rewrite E. reflexivity.
Qed.
Lemma cell_step dt q (c c' : ecmu R) : o_timeStep ecm_ops dt q c = (c', Ok tt) -> ep (u_ecm c') = ep (u_ecm c) /\ e_I (es (u_ecm c')) = e_I (es (u_ecm c)).
Proof.
  cbn [ecm_ops o_timeStep]. unfold lift_ecm, ecm_timeStep_CC. destruct (nltb dt _); [discriminate|].
  destruct (ecm_steps _ dt (u_ecm c)) as (e & r) eqn:E. intros H. injection H as <- ->. apply ecm_steps_frame in E. cbn. tauto.
Qed.

Section Sim.
Context (tm : Z) (n k p ndata : nat) (diag : bool) (store write : M (tree n) unit).
Context (US : unobtrusive store) (UW : unobtrusive write).
Definition TI := tree_if (A := R) tm n store write.
Definition CI := tree_if (A := R) tm 0 ignore ignore.
Definition sim {B B' : Type} (J : ecmu R -> Prop) (J' : B' -> ecmu R -> Prop) (bad : B -> Prop) (Q : B -> B' -> Prop)
  (m : M (cyc R (tree n)) B) (mc : M (cyc R (tree 0)) B') : Prop :=
  forall w wc w' b, scaled n k p w wc -> J (c_su wc) -> m w = (w', Ok b) -> ~ bad b ->
  exists wc' b', mc wc = (wc', Ok b') /\ scaled n k p w' wc' /\ J' b' (c_su wc') /\ Q b b'.
Definition never {B : Type} (b : B) : Prop := False.
Definition any {B B' : Type} (b : B) (b' : B') : Prop := True.
Lemma sim_bind {B B' D D'} (J : ecmu R -> Prop) (K : B' -> ecmu R -> Prop) (J' : D' -> ecmu R -> Prop) (bad1 : B -> Prop) (bad : D -> Prop) (Q1 : B -> B' -> Prop) (Q : D -> D' -> Prop)
  (m : M (cyc R (tree n)) B) (mc : M (cyc R (tree 0)) B') (f : B -> M (cyc R (tree n)) D) (fc : B' -> M (cyc R (tree 0)) D') :
  sim J K bad1 Q1 m mc -> (forall b w w' r, bad1 b -> f b w = (w', Ok r) -> bad r) ->
  (forall b b', Q1 b b' -> sim (K b') J' bad Q (f b) (fc b')) -> sim J J' bad Q (mbind m f) (mbind mc fc).
Proof.
  intros H1 H2 H3 w wc w' b S HJ E NB. unfold mbind in E. destruct (m w) as (w1 & [b1| | |]) eqn:Em; try discriminate.
  destruct (H1 _ _ _ _ S HJ Em) as (wc1 & b1' & Ec & S1 & K1 & Q2); [intros X; apply NB; eapply H2; eauto|].
  unfold mbind. rewrite Ec. exact (H3 _ _ Q2 _ _ _ _ S1 K1 E NB).
Qed.
Lemma sim_bind0 {B B' D D'} (J : ecmu R -> Prop) (K : B' -> ecmu R -> Prop) (J' : D' -> ecmu R -> Prop) (bad : D -> Prop) (Q1 : B -> B' -> Prop) (Q : D -> D' -> Prop)
  (m : M (cyc R (tree n)) B) (mc : M (cyc R (tree 0)) B') (f : B -> M (cyc R (tree n)) D) (fc : B' -> M (cyc R (tree 0)) D') :
  sim J K never Q1 m mc -> (forall b b', Q1 b b' -> sim (K b') J' bad Q (f b) (fc b')) -> sim J J' bad Q (mbind m f) (mbind mc fc).
Proof. intros H1 H3. eapply sim_bind; [exact H1|intros ? ? ? ? []|exact H3]. Qed.
Lemma sim_ret {B B'} (J : ecmu R -> Prop) (J' : B' -> ecmu R -> Prop) (bad : B -> Prop) (Q : B -> B' -> Prop) b b' : (forall c, J c -> J' b' c) -> (~ bad b -> Q b b') -> sim J J' bad Q (mret b) (mret b').
Proof. intros H HQ w wc w' r S HJ E NB. cbn in E. injection E as <- <-. exists wc, b'. repeat split; auto; apply S. Qed.
Lemma sim_weak {B B'} (J J1 : ecmu R -> Prop) (K K1 : B' -> ecmu R -> Prop) (bad bad1 : B -> Prop) (Q Q1 : B -> B' -> Prop) m mc : sim J K bad Q m mc -> (forall c, J1 c -> J c) -> (forall b' c, K b' c -> K1 b' c) ->
  (forall b, bad b -> bad1 b) -> (forall b b', Q b b' -> Q1 b b') -> sim J1 K1 bad1 Q1 m mc.
Proof. intros H H1 H2 H3 H4 w wc w' b S HJ E NB. destruct (H _ _ _ _ S (H1 _ HJ) E) as (wc' & b' & G1 & G2 & G3 & G4); [intros X; apply NB; auto|]. exists wc', b'. auto. Qed.
Lemma sim_call {B B'} (J : ecmu R -> Prop) (J' : B' -> ecmu R -> Prop) (bad : B -> Prop) (Q : B -> B' -> Prop) (f : M (tree n) B) (g : M (tree 0) B') :
  (forall u u' c b, replica n u k p c -> J c -> f u = (u', Ok b) -> ~ bad b -> exists c' b', g c = (c', Ok b') /\ replica n u' k p c' /\ J' b' c' /\ Q b b') ->
  sim J J' bad Q (call f) (call g).
Proof.
  intros H w wc w' b S HJ E NB. unfold call in E. destruct (f (c_su w)) as (u' & r) eqn:Ef. injection E as <- ->. destruct S as (S1 & S2 & S3 & S4 & S5).
  destruct (H _ _ _ _ S1 HJ Ef NB) as (c' & b' & G1 & G2 & G3 & G4). unfold call. rewrite G1. eexists; exists b'. split; [reflexivity|].
  split; [|split; [exact G3|exact G4]]. unfold scaled. cbn. auto.
Qed.

Definition vrel (x v : R) : Prop := (0 < v -> x = INR k * v) /\ (v <= 0 -> x <= 0).
Lemma tv_vrel (u : tree n) c v : replica n u k p c -> vrel (tv n v u) v.
Proof. intros H. split; intros Hv; [eapply tv_pos; eauto|apply tv_neg; exact Hv]. Qed.
Lemma sim_V J : sim J (fun v c => J c /\ ecm_V (u_ecm c) = Ok v) never vrel (call (q_V TI)) (call (q_V CI)).
Proof.
  apply sim_call. intros u u' c x H HJ E _. cbn [TI tree_if q_V] in E. destruct (rep_V _ _ _ _ _ _ _ _ H E) as (H' & Hx). destruct (Hx _ eq_refl) as (v & Ev & ->).
  exists c, v. split; [cbn; rewrite Ev; reflexivity|]. split; [exact H'|]. split; [auto|]. eapply tv_vrel; exact H.
Qed.
Lemma sim_I J : sim J (fun i c => J c /\ i = e_I (es (u_ecm c))) never (fun x i => x = INR p * i) (call (q_I TI)) (call (q_I CI)).
Proof.
  apply sim_call. intros u u' c x H HJ E _. unfold TI, tree_if in E. cbn [q_I] in E. injection E as <- <-. exists c, (e_I (es (u_ecm c))). split; [reflexivity|]. split; [exact H|]. split; [auto|].
  eapply rep_I; exact H.
Qed.
Lemma sim_store J : sim J (fun _ => J) never any (storeData TI ndata) (storeData CI ndata).
Proof.
  intros w wc w' b (S1 & S2 & S3 & S4 & S5) HJ E _. unfold storeData, mbind, writeData, call in E |- *. unfold TI, tree_if in E. cbn [q_store q_write] in E. unfold CI, tree_if. cbn [q_store q_write].
  rewrite <- S2. destruct (Nat.leb ndata (c_idx w)).
  - destruct (write (c_su w)) as (u1 & [[]| | |]) eqn:Ew; try discriminate. cbn [c_su c_idx c_th] in E. destruct (store u1) as (u2 & [[]| | |]) eqn:Es; try discriminate.
    cbn in E. injection E as <- <-. cbn. eexists; exists tt. split; [reflexivity|]. split; [|split; [exact HJ|exact Logic.I]].
    unfold scaled. cbn. repeat split; auto. eapply US; [|exact Es]. eapply UW; [|exact Ew]. exact S1.
  - cbn [mret] in E. destruct (store (c_su w)) as (u2 & [[]| | |]) eqn:Es; try discriminate.
    cbn in E. injection E as <- <-. cbn. eexists; exists tt. split; [reflexivity|]. split; [|split; [exact HJ|exact Logic.I]].
    unfold scaled. cbn. repeat split; auto. eapply US; [|exact Es]; exact S1.
Qed.
Lemma sim_store_if J b : sim J (fun _ => J) never any (store_if TI ndata b) (store_if CI ndata b).
Proof. destruct b; [apply sim_store|]. apply sim_ret; [auto|]. intros _. exact Logic.I. Qed.
Lemma sim_store_due J i d : sim J (fun _ => J) never eq (store_due TI ndata i d) (store_due CI ndata i d).
Proof.
  unfold store_due. destruct (_ && _)%bool; [|apply sim_ret; auto]. eapply sim_bind0; [apply sim_store|]. intros ? ? _. apply sim_ret; auto.
Qed.
Lemma sim_set_same (J : ecmu R -> Prop) j b : (forall c, J c -> e_I (es (u_ecm c)) = j /\ (b = true -> exists v, ecm_V (u_ecm c) = Ok v)) ->
  sim J (fun _ => J) never any (call (q_setCurrent TI (INR p * j) b)) (call (q_setCurrent CI j b)).
Proof.
  intros HJ. apply sim_call. intros u u' c st H Hc E _. cbn [TI tree_if q_setCurrent] in E. destruct (HJ c Hc) as (<- & HV).
  exists c. assert (X : exists st', o_setCurrent ecm_ops (e_I (es (u_ecm c))) b c = (c, Ok st')).
  { destruct b; [destruct (HV eq_refl) as (v & Ev); exact (cell_set_same c v true Ev)|]. exists Success. rewrite cell_set_free, at_same. reflexivity. }
  destruct X as (st' & X). exists st'. split; [exact X|]. split; [eapply rep_same; [exact H|exact E]|]. split; [exact Hc|exact Logic.I].
Qed.
Lemma sim_set_ok c0 j b : accepts c0 j -> sim (eq c0) (fun _ c => c = at_current c0 j) never (fun a b => a = Success /\ b = Success)
  (call (q_setCurrent TI (INR p * j) b)) (call (q_setCurrent CI j b)).
Proof.
  intros A. apply sim_call. intros u u' c st H <- E _. cbn [TI tree_if q_setCurrent] in E.
  destruct (rep_set tm n u u' k p c0 b j st H) as [(-> & H')|(_ & N)]; [|exact E| |contradiction].
  - intros v s Es. destruct A as (v' & A). rewrite A in Es. injection Es as _ <-. auto.
  - exists (at_current c0 j), Success. split; [exact (cell_set_ok c0 j b A)|]. auto.
Qed.
Lemma pk : p <> 0%nat -> 0 < INR p. Proof. apply INR_pos. Qed.

Section CC.
Context (j vlim : R) (Hk : k <> 0%nat) (Hp : p <> 0%nat) (Hv : 0 < vlim).
Lemma ik : 0 < INR k. Proof. apply INR_pos, Hk. Qed.
Lemma ip : 0 < INR p. Proof. apply INR_pos, Hp. Qed.
Lemma sgn_neg : nltb (INR p * j) (nZ 0) = nltb j (nZ 0).
Proof.
  rewrite R_nZ. pose proof ip. destruct (nltb j 0) eqn:E; [apply Rltb_true in E; apply Rltb_true; nra|apply Rltb_false in E; apply Rltb_false; nra].
Qed.
Lemma sgn_pos : nltb (nZ 0) (INR p * j) = nltb (nZ 0) j.
Proof.
  rewrite R_nZ. pose proof ip. destruct (nltb 0 j) eqn:E; [apply Rltb_true in E; apply Rltb_true; nra|apply Rltb_false in E; apply Rltb_false; nra].
Qed.
Lemma cmp_lt x v : vrel x v -> nltb x (INR k * vlim) = nltb v vlim.
Proof.
  intros (V1 & V2). pose proof ik. destruct (nltb v vlim) eqn:E; [apply Rltb_true in E; apply Rltb_true|apply Rltb_false in E; apply Rltb_false];
    (destruct (Rle_dec v 0) as [L|L]; [specialize (V2 L)|rewrite V1 by lra]); nra.
Qed.
Lemma cmp_gt x v : vrel x v -> nltb (INR k * vlim) x = nltb vlim v.
Proof.
  intros (V1 & V2). pose proof ik. destruct (nltb vlim v) eqn:E; [apply Rltb_true in E; apply Rltb_true|apply Rltb_false in E; apply Rltb_false];
    (destruct (Rle_dec v 0) as [L|L]; [specialize (V2 L)|rewrite V1 by lra]); nra.
Qed.
Lemma cmp_le x v : vrel x v -> nleb x (INR k * vlim) = nleb v vlim.
Proof.
  intros (V1 & V2). pose proof ik. destruct (nleb v vlim) eqn:E; [apply Rleb_true in E; apply Rleb_true|apply Rleb_false in E; apply Rleb_false];
    (destruct (Rle_dec v 0) as [L|L]; [specialize (V2 L)|rewrite V1 by lra]); nra.
Qed.
Lemma cmp_ge x v : vrel x v -> nleb (INR k * vlim) x = nleb vlim v.
Proof.
  intros (V1 & V2). pose proof ik. destruct (nleb vlim v) eqn:E; [apply Rleb_true in E; apply Rleb_true|apply Rleb_false in E; apply Rleb_false];
    (destruct (Rle_dec v 0) as [L|L]; [specialize (V2 L)|rewrite V1 by lra]); nra.
Qed.
Lemma beyond_same x v : vrel x v -> beyond (INR p * j) x (INR k * vlim) = beyond j v vlim.
Proof. intros V. unfold beyond. rewrite sgn_neg, sgn_pos, (cmp_gt x v V), (cmp_lt x v V). reflexivity. Qed.

(** The first call, which sets the current. *)
Lemma sim_first c0 : accepts c0 j -> sim (eq c0) (fun _ c => c = at_current c0 j) never eq (cyc_setCurrent TI diag (INR p * j) (INR k * vlim)) (cyc_setCurrent CI diag j vlim).
Proof.
  intros A. unfold cyc_setCurrent. eapply sim_bind0; [apply sim_V|]. intros x v V.
  eapply sim_bind0; [apply (sim_I (fun c => c0 = c /\ ecm_V (u_ecm c) = Ok v))|]. intros xi i Hi.
  eapply sim_bind0; [eapply sim_weak; [apply (sim_set_ok c0 j diag A)|..]|].
  { intros c ((<- & _) & _). reflexivity. } { intros ? c H. exact H. } { intros b Hb. exact Hb. } { intros a b H. exact H. }
  intros a b (-> & ->). change (isStatusVoltageLimitsViolated Success) with false. cbv iota.
  eapply sim_bind0; [apply (sim_V (fun c => c = at_current c0 j))|]. intros x2 v2 V2. rewrite sgn_neg, (cmp_le x v V), (cmp_gt x2 v2 V2), (cmp_ge x v V), (cmp_lt x2 v2 V2).
  repeat match goal with |- context [if ?b then _ else _] => destruct b end; (apply sim_ret; [tauto|auto]).
Qed.
(** Later calls find the current as it is to be. *)
Definition at_j (P0 : ecm_par R) (c : ecmu R) : Prop := ep (u_ecm c) = P0 /\ e_I (es (u_ecm c)) = j.
Lemma sim_again P0 : sim (at_j P0) (fun _ => at_j P0) never any (cyc_setCurrent TI diag (INR p * j) (INR k * vlim)) (cyc_setCurrent CI diag j vlim).
Proof.
  intros w wc w' b S HJ E _. destruct S as (S1 & S2 & S3 & S4 & S5). destruct w as [u ix t]. destruct wc as [c ixc tc]. cbn [c_su c_idx c_th] in *. change (su R (ecmu R) 0) with (ecmu R) in c.
  unfold cyc_setCurrent, mbind, call in E |- *. unfold TI, tree_if in E. cbn [q_V q_I q_setCurrent c_su c_idx c_th] in E. unfold CI, tree_if. cbn [q_V q_I q_setCurrent c_su c_idx c_th].
  destruct (o_V (ops tm n) u) as (u1 & [x| | |]) eqn:E1; try discriminate. destruct (rep_V _ _ _ _ _ _ _ _ S1 E1) as (H1 & Hx). destruct (Hx _ eq_refl) as (v & Ev & _). clear Hx.
  cbn beta iota in E. cbn [c_su c_idx c_th] in E. rewrite (rep_I tm n u1 k p c H1) in E. destruct HJ as (J1 & J2). rewrite J2 in E.
  destruct (o_setCurrent (ops tm n) (INR p * j) diag u1) as (u2 & [st| | |]) eqn:E2; try discriminate. cbn beta iota in E. cbn [c_su c_idx c_th] in E.
  assert (H2 : replica n u2 k p c) by (eapply rep_same; [exact H1|rewrite J2; exact E2]).
  assert (H3 : replica n (c_su w') k p c /\ c_idx w' = ix /\ c_th w' = t).
  { destruct (isStatusVoltageLimitsViolated st).
    - cbn beta iota in E. cbn [c_su c_idx c_th] in E. destruct (o_setCurrent (ops tm n) (INR p * j) false u2) as (u3 & [st3| | |]) eqn:E3; try discriminate. unfold mret in E. cbn [c_su c_idx c_th] in E. injection E as <- <-. cbn. split; [|auto].
      eapply rep_same; [exact H2|rewrite J2; exact E3].
    - cbn beta iota in E. cbn [c_su c_idx c_th] in E. destruct (o_V (ops tm n) u2) as (u3 & [x3| | |]) eqn:E3; try discriminate. apply (rep_V _ _ _ _ _ _ _ _ H2) in E3. unfold mret in E. cbn [c_su c_idx c_th] in E.
      repeat match type of E with context [if ?b then _ else _] => destruct b end; injection E as <- <-; cbn; tauto. }
  destruct H3 as (H3 & H4 & H5).
  assert (X : exists b', (let '(s, r) := o_V (ops tm 0) c in (mkCyc s ixc tc, r)) = (mkCyc c ixc tc, Ok v) /\ exists st, o_setCurrent (ops tm 0) j diag c = (c, Ok st) /\ b' = st).
  { destruct (cell_set_same c v diag Ev) as (st' & Es). rewrite J2 in Es. exists st'. split; [cbn; rewrite Ev; reflexivity|]. eauto. }
  destruct X as (st' & Y1 & st2 & Y2 & ->). rewrite Y1. cbn [c_su c_idx c_th]. rewrite Y2. cbn [c_su c_idx c_th].
  assert (Sc : scaled n k p w' (mkCyc (c : tree 0) ixc tc)) by (unfold scaled; cbn; rewrite H4, H5; auto).
  destruct (isStatusVoltageLimitsViolated st2).
  - replace (o_I (ops tm 0) c) with j by (cbn; now rewrite J2). change (o_setCurrent (ops tm 0) j false c) with (o_setCurrent ecm_ops j false c). rewrite cell_set_free. rewrite <- J2, at_same. cbn.
    eexists; exists st2. split; [reflexivity|]. split; [exact Sc|]. split; [split; auto|exact Logic.I].
  - assert (Y3 : o_V (ops tm 0) c = (c, Ok v)) by (cbn; rewrite Ev; reflexivity). cbn beta iota. cbn [c_su c_idx c_th]. rewrite Y3. cbn beta iota. cbn [c_su c_idx c_th]. unfold mret.
    repeat match goal with |- context [if ?b then _ else _] => destruct b end; eexists; eexists; (split; [reflexivity|]); (split; [exact Sc|]); (split; [split; auto|exact Logic.I]).
Qed.

Lemma sim_adapt P0 vo vi nOnce up : 31 / 10 <= l_Vmax (p_lim P0) -> 0 < vo -> 0 < vi -> sim (at_j P0) (fun _ => at_j P0) never eq
  (cc_adapt TI (INR p * j) (INR k * vlim) (INR k * vo) (INR k * vi) nOnce up) (cc_adapt CI j vlim vo vi nOnce up).
Proof.
  intros HL Ho Hi. pose proof ik as K. unfold cc_adapt. rewrite sgn_neg.
  assert (LT : forall x y a b : R, y = INR k * b -> x = INR k * a -> nltb x y = nltb a b).
  { intros x y a b -> ->. destruct (nltb a b) eqn:E; [apply Rltb_true in E; apply Rltb_true; nra|apply Rltb_false in E; apply Rltb_false; nra]. }
  assert (LE : forall x y a b : R, y = INR k * b -> x = INR k * a -> nleb x y = nleb a b).
  { intros x y a b -> ->. destruct (nleb a b) eqn:E; [apply Rleb_true in E; apply Rleb_true; nra|apply Rleb_false in E; apply Rleb_false; nra]. }
  rewrite !R_nZ. cbn [nsub ndiv nmul RNum].
  destruct (nltb j 0).
  { rewrite (LT _ _ (vi - vo) ((vlim - vi) / 10)), (LE _ _ (vlim - vi) (vi - vo)) by lra. apply sim_ret; auto. }
  rewrite (LT _ _ (vo - vi) ((vi - vlim) / 10)), (LE _ _ ((vi - vlim) * 2) (vo - vi)) by lra.
  set (n1 := if (_ && up)%bool then _ else _). clearbody n1.
  assert (SL : forall y, y <= 31 / 10 -> sim (at_j P0) (fun _ => at_j P0) never (fun x v => nltb x y = nltb v y) (call (q_Vlow TI)) (call (q_Vlow CI))).
  { intros y Hy. apply sim_call. intros u u' c x H (J1 & J2) E _. unfold TI, tree_if in E. cbn [q_Vlow] in E.
    assert (P1 : 0 <= l_Vmax (p_lim (ep (u_ecm c)))) by (rewrite J1; lra). destruct (rep_Vlow tm n u u' k p c x H P1 E) as ((_ & KP) & v & Ev & L1 & L2).
    exists c, v. split; [cbn; rewrite Ev; reflexivity|]. split; [apply KP; exact H|]. split; [split; auto|]. destruct L2 as [->|L2]; [reflexivity|]. rewrite J1 in L2.
    transitivity false; [|symmetry]; apply Rltb_false; lra. }
  eapply sim_bind0; [apply (SL (nlit 31 10)); rewrite R_nlit; lra|]. cbn beta. intros a b ->.
  destruct (if nltb b _ then _ else _) as (n2 & up2).
  eapply sim_bind0; [apply (SL 3); lra|]. cbn beta. intros a' b' ->. apply sim_ret; auto.
Qed.

Definition failed (r : Status + (R * bool)) : Prop := r = inl timeStep_CC_failed.
Lemma sim_loop P0 tlim ndt nmax : 31 / 10 <= l_Vmax (p_lim P0) -> forall fuel dti ttot idat nOnce vo vi up, 0 < vo -> 0 < vi ->
  sim (at_j P0) (fun _ => at_j P0) failed eq
    (cc_loop TI ndata diag fuel (INR p * j) (INR k * vlim) tlim ndt nmax dti ttot idat nOnce (INR k * vo) (INR k * vi) up)
    (cc_loop CI ndata diag fuel j vlim tlim ndt nmax dti ttot idat nOnce vo vi up).
Proof.
  intros HL. induction fuel as [|fuel IH]; intros dti ttot idat nOnce vo vi up Ho Hi; cbn [cc_loop]; (destruct (negb _); [apply sim_ret; auto|]).
  { intros w wc w' b S J E. discriminate. }
  eapply sim_bind0; [apply sim_again|]. intros st0 st0' _. cbn beta. set (q := cut_n _ _ _). set (d := cut_dt _ _).
  eapply (sim_bind _ (fun b c => at_j P0 c) _ (fun b => b = false) _ (fun b b' => b = true /\ b' = true)).
  { intros w wc w' b S (J1 & J2) E NB. destruct w as [u ix t]. destruct wc as [c ixc tc]. unfold try, mbind, call in E |- *. cbn [c_su c_idx c_th] in *. unfold TI, tree_if in E. cbn [q_step] in E.
    destruct (o_timeStep (ops tm n) d q u) as (u' & [[]| | |]) eqn:Es; try discriminate; [|cbn in E; injection E as <- <-; congruence].
    cbn in E. injection E as <- <-. destruct S as (S1 & S2). cbn [c_su c_idx c_th] in *. destruct (rep_step _ _ _ _ _ _ _ _ _ S1 Es) as (c' & Ec & H').
    unfold CI, tree_if. cbn [q_step]. change (o_timeStep (ops tm 0) d q c) with (o_timeStep ecm_ops d q c). rewrite Ec. cbn. eexists; exists true. split; [reflexivity|]. split; [split; [exact H'|exact S2]|].
    apply cell_step in Ec. split; [|auto]. cbn. unfold at_j. destruct Ec as (-> & ->). auto. }
  { intros b w w' r -> E. cbn in E. injection E as <- <-. reflexivity. }
  intros b b' (-> & ->). cbn [negb].
  eapply (sim_bind0 _ (fun r c => at_j P0 c) _ _ (fun r r' => match r, r' with inl s, inl s' => s = s' | inr x, inr v => 0 < v /\ x = INR k * v | _, _ => False end)).
  { destruct diag.
    - eapply (sim_bind0 _ (fun r c => at_j P0 c) _ _ (fun r r' => snd r = snd r' /\ (snd r = Success -> 0 < fst r' /\ fst r = INR k * fst r'))).
      { apply sim_call. intros u u' c (x & st) H J E _. unfold TI, tree_if in E. cbn [q_checkV] in E. destruct (rep_checkV _ _ _ _ _ _ _ _ _ H E) as ((_ & KP) & v & Ev & ->).
        exists c, (v, st). split; [cbn; rewrite Ev; reflexivity|]. split; [apply KP; exact H|]. split; [exact J|]. cbn [fst snd]. split; [reflexivity|]. intros ->.
        destruct (check_V c v Success Ev) as (_ & Hv0); [discriminate|]. split; [exact Hv0|]. eapply tv_pos; [exact Hv0|exact H]. }
      cbn beta. intros (x & st) (v & st') (Es & H). cbn [fst snd] in *. subst st'. apply sim_ret; [auto|]. intros _. destruct (isStatusSuccessful st) eqn:EB; [|reflexivity]. apply H.
      unfold isStatusSuccessful in EB. destruct st; discriminate EB || reflexivity.
    - eapply sim_bind0; [apply sim_V|]. intros x v (V1 & V2). apply sim_ret; [tauto|]. intros _. rewrite R_nZ.
      destruct (nleb v 0) eqn:EL; [apply Rleb_true in EL; rewrite (proj2 (Rleb_true x 0)) by auto; reflexivity|apply Rleb_false in EL].
      specialize (V1 EL). pose proof ik. rewrite (proj2 (Rleb_false x 0)) by nra. auto. }
  intros r r' Hr. destruct r as [st|x]; destruct r' as [st'|v]; try contradiction; [subst st'; apply sim_ret; auto|]. destruct Hr as (Hv0 & ->).
  eapply (sim_bind0 _ (fun _ c => at_j P0 c)); [eapply sim_weak; [apply (sim_V (at_j P0))|auto|intros ? ? (H & _); exact H|auto|intros a b H; exact H]|]. intros ? ? _.
  eapply (sim_bind0 _ (fun _ c => at_j P0 c) _ _ any).
  { intros w wc w' b9 (S1 & S2 & S3 & S4 & S5) J E _. unfold add_th in E |- *. injection E as <- <-. eexists; exists tt. split; [reflexivity|]. split; [|split; [exact J|exact Logic.I]].
    unfold scaled. cbn [c_su c_idx c_th th_time th_Ah th_Wh]. split; [exact S1|]. split; [exact S2|]. rewrite S3, S4, S5, mult_INR. split; [reflexivity|].
    cbn [nadd nmul ndiv nabs RNum]. pose proof ip. rewrite !Rabs_mult, (Rabs_pos_eq (INR p)) by lra. rewrite !R_nZ. split; field. }
  intros ? ? _. eapply sim_bind0; [apply sim_store_due|]. intros i1 i2 ->. assert (VR : vrel (INR k * v) v) by (split; intros; lra).
  rewrite (beyond_same _ _ VR). destruct (beyond j v vlim); [apply sim_ret; auto|].
  eapply sim_bind0; [apply sim_adapt; auto|]. intros a9 b9 ->. apply IH; auto.
Qed.

Lemma sim_CC fuel tlim dt ndt c0 : accepts c0 j -> 31 / 10 <= l_Vmax (p_lim (ep (u_ecm c0))) ->
  sim (eq c0) (fun _ _ => True) (fun st => st = timeStep_CC_failed) eq (CC TI ndata diag fuel (INR p * j) (INR k * vlim) tlim dt ndt) (CC CI ndata diag fuel j vlim tlim dt ndt).
Proof.
  intros A HL. unfold CC. eapply sim_bind0; [apply sim_store_if|]. intros ? ? _. eapply sim_bind0; [apply (sim_first c0 A)|]. intros st ? <-.
  destruct (negb _); [apply sim_ret; auto|]. eapply sim_bind0; [apply (sim_V (fun c => c = at_current c0 j))|]. intros x v V.
  rewrite (beyond_same _ _ V). destruct (beyond j v vlim); [apply sim_ret; auto|].
  destruct A as (va & A). destruct (check_V _ _ _ A) as (Va & Pa); [discriminate|].
  assert (G : forall w wc, scaled n k p w wc -> c_su wc = at_current c0 j /\ ecm_V (u_ecm (c_su wc)) = Ok v -> v = va) by (intros w wc _ (E1 & E2); rewrite E1 in E2; congruence).
  intros w wc w' b8 S J E NB. assert (v = va) by (apply (G w wc S); exact J). subst va. rewrite (proj1 V Pa) in E. revert w wc w' b8 S J E NB.
  change (sim (fun c => c = at_current c0 j /\ ecm_V (u_ecm c) = Ok v) (fun _ _ => True) (fun st => st = timeStep_CC_failed) eq
    (mbind (cc_loop TI ndata diag fuel (INR p * j) (INR k * vlim) tlim ndt (if (0 <? ndt)%Z then Z.min 2 ndt else 2%Z) dt (nZ 0) 0 1 (INR k * v) (INR k * v) true) (fun r => match r with
         | inl st => mret st
         | inr (ttot, vtot) => if nleb tlim ttot then mbind (store_if TI ndata (0 <? ndt)%Z) (fun _ => mret ReachedTimeLimit)
             else if vtot then mbind (store_if TI ndata (0 <? ndt)%Z) (fun _ => mret ReachedVoltageLimit) else mthrow 100 end))
    (mbind (cc_loop CI ndata diag fuel j vlim tlim ndt (if (0 <? ndt)%Z then Z.min 2 ndt else 2%Z) dt (nZ 0) 0 1 v v true) (fun r => match r with
         | inl st => mret st
         | inr (ttot, vtot) => if nleb tlim ttot then mbind (store_if CI ndata (0 <? ndt)%Z) (fun _ => mret ReachedTimeLimit)
             else if vtot then mbind (store_if CI ndata (0 <? ndt)%Z) (fun _ => mret ReachedVoltageLimit) else mthrow 100 end))).
  eapply sim_bind; [eapply sim_weak; [apply (sim_loop (ep (u_ecm c0))); [exact HL|exact Pa|exact Pa]|..]|..].
  { intros c (-> & _). split; reflexivity. } { intros ? ? H; exact H. } { intros ? H; exact H. } { intros ? ? H; exact H. }
  { intros r w w' st8 -> E. cbn in E. injection E as <- <-. reflexivity. }
  intros r ? <-. destruct r as [st2|(ttot & vtot)]; [apply sim_ret; auto|]. destruct (nleb tlim ttot).
  { eapply sim_bind0; [apply sim_store_if|]. intros ? ? _. apply sim_ret; auto. }
  destruct vtot; [|intros ? ? ? ? ? ? E; discriminate]. eapply sim_bind0; [apply sim_store_if|]. intros ? ? _. apply sim_ret; auto.
Qed.
End CC.

(** ** Resting *)
Lemma check_rest (c : ecmu R) v s : ecm_checkVoltage (u_ecm (at_current c 0)) = Ok (v, s) -> s = Success \/ isStatusBad s = true.
Proof.
  unfold ecm_checkVoltage, check_voltage. destruct (ecm_V _) as [x| | |]; try discriminate; [|intros E; injection E as <- <-; right; reflexivity].
  intros E. injection E as <- <-. cbn [u_ecm at_current es with_I e_I]. unfold isDischargingI, isChargingI.
  destruct (Rle_dec x (0 / 1)); [right; reflexivity|]. left. destruct (Rlt_dec (0 / 1) 0); [lra|]. destruct (Rlt_dec 0 (0 / 1)); [lra|].
  rewrite !Bool.andb_false_r. destruct (_ && _)%bool; reflexivity.
Qed.
Definition stopped (r : Status + R) : Prop := exists st, r = inl st /\ isStatusBad st = true.
Definition idle (c : ecmu R) : Prop := e_I (es (u_ecm c)) = 0.
Lemma sim_zero J : sim J (fun _ => idle) (fun st => isStatusBad st = true) eq (call (q_setCurrent TI (nZ 0) false)) (call (q_setCurrent CI (nZ 0) false)).
Proof.
  apply sim_call. intros u u' c st H HJ E NB. unfold TI, tree_if in E. cbn [q_setCurrent] in E. rewrite R_nZ in E |- *. replace 0 with (INR p * 0) in E at 1 by lra.
  destruct (rep_set tm n u u' k p c false 0 st H (check_rest c) E) as [(-> & H')|(B & _)]; [|contradiction].
  exists (at_current c 0), Success. split; [exact (cell_set_free c 0)|]. split; [exact H'|]. split; reflexivity.
Qed.
Lemma sim_rest_loop tlim ndt nmax : forall fuel dti ttot idat nOnce ninc,
  sim (fun c => ttot < tlim \/ idle c) (fun _ => idle) stopped eq (rest_loop TI ndata fuel tlim ndt nmax dti ttot idat nOnce ninc) (rest_loop CI ndata fuel tlim ndt nmax dti ttot idat nOnce ninc).
Proof.
  induction fuel as [|fuel IH]; intros dti ttot idat nOnce ninc; cbn [rest_loop]; destruct (nltb ttot tlim) eqn:L; cbn [negb];
    try (apply Rltb_false in L; apply sim_ret; [intros c [H|H]; [lra|exact H]|auto]).
  { intros w wc w' b S J E. discriminate. }
  eapply sim_bind; [apply sim_zero| |].
  { intros st w w' r B E. rewrite B in E. cbn in E. injection E as <- <-. exists st. auto. }
  intros st ? <-. destruct (isStatusBad st) eqn:B.
  { intros w wc w' b S J E NB. cbn in E. injection E as <- <-. exfalso. apply NB. exists st. auto. }
  set (q := cut_n _ _ _). set (d := cut_dt _ _).
  eapply (sim_bind0 _ (fun _ => idle) _ _ any).
  { apply sim_call. intros u u' c [] H HJ E _. unfold TI, tree_if in E. cbn [q_step] in E. destruct (rep_step _ _ _ _ _ _ _ _ _ H E) as (c' & Ec & H').
    exists c', tt. split; [exact Ec|]. split; [exact H'|]. split; [|exact Logic.I]. apply cell_step in Ec. unfold idle in *. destruct Ec as (_ & ->). exact HJ. }
  intros ? ? _. eapply sim_bind0; [apply sim_store_due|]. intros i1 i2 ->. destruct (rest_adapt _ _ _ _) as (n' & ninc').
  eapply sim_weak; [apply IH|intros c H; right; exact H|intros ? ? H; exact H|intros ? H; exact H|intros ? ? H; exact H].
Qed.
Lemma sim_rest fuel tlim dt ndt J : 0 < tlim ->
  sim J (fun _ _ => True) (fun st => isStatusBad st = true) eq (rest TI ndata fuel tlim dt ndt) (rest CI ndata fuel tlim dt ndt).
Proof.
  intros Ht. unfold rest. eapply sim_bind0; [apply (sim_store_if J)|]. intros ? ? _.
  eapply sim_bind; [eapply sim_weak; [apply sim_rest_loop|intros c _; left; rewrite R_nZ; exact Ht|intros ? ? H; exact H|intros ? H; exact H|intros ? ? H; exact H]|..].
  { intros r w w' st (st0 & -> & B) E. cbn in E. injection E as <- <-. exact B. }
  intros r ? <-. destruct r as [st|ttot]; [apply sim_ret; auto|]. destruct (_ && _)%bool; [|intros ? ? ? ? ? ? E; discriminate].
  eapply (sim_bind0 _ (fun _ => idle) _ _ any).
  { intros w wc w' b9 S HI E NB. rewrite R_nZ in E |- *. replace 0 with (INR p * 0) in E by lra.
    eapply (sim_set_same idle 0 false); [|exact S|exact HI|exact E|exact NB]. intros c H. split; [exact H|discriminate]. }
  intros ? ? _. eapply sim_bind0; [apply (sim_store_if idle)|]. intros ? ? _.
  eapply (sim_bind0 _ (fun _ => idle) _ _ any).
  { intros w wc w' b9 (S1 & S2 & S3 & S4 & S5) J' E _. unfold add_th in E |- *. injection E as <- <-. eexists; exists tt. split; [reflexivity|]. split; [|split; [exact J'|exact Logic.I]].
    unfold scaled. cbn [c_su c_idx c_th th_time th_Ah th_Wh]. split; [exact S1|]. split; [exact S2|]. rewrite S3, S4, S5. split; [reflexivity|]. rewrite R_nZ. cbn [nadd RNum]. split; lra. }
  intros ? ? _. apply sim_ret; auto.
Qed.
End Sim.
