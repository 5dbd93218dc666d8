(** * Proofs for C75: batteries *)
From Coq Require Import List Lia.
From Verif Require Import Base StatusModel UtilModel CellModel CoolModel ModuleModel BattModel SpmModel SpmUnitModel SafeSpec SafeProofs.
Import ListNotations.

Section Batt.
Context {A : Type} {NA : Num A} {S : Type} (o : su_ops A S) (tm : Z) (wf : S -> Prop) (sh : S -> shape) (Hu : safe_unit o wf sh).
Notation mo := (mod_ops o tm).
Notation W := (mwf wf sh).
Let Hm : safe_unit mo W (msh sh) := mod_safe o wf sh Hu tm.
Definition conv_fits (v : conv A) : Prop := defined (to_int (nceil (ndiv (v_pnom v) (nmul (nZ 200) (nZ 1000))))).
Definition bwf (b : batt A S) : Prop := match bt_body b with Some (m, _) => W m | None => False end /\ conv_fits (bt_conv b).
Definition bsh (b : batt A S) : shape := match bt_body b with Some (m, _) => msh sh m | None => Leaf 0 false end.
Definition bpost {B : Type} (b : batt A S) (p : batt A S * res B) : Prop := bwf (fst p) /\ bsh (fst p) = bsh b /\ defined (snd p).

Lemma with_wf b m k m' k' : bwf b -> bt_body b = Some (m, k) -> W m' -> msh sh m' = msh sh m -> bwf (with_body b (m', k')) /\ bsh (with_body b (m', k')) = bsh b.
Proof. intros [_ H] E Hm' Es. unfold bwf, bsh. cbn [with_body bt_body bt_conv]. rewrite E. auto. Qed.
Lemma body_of b : bwf b -> exists m k, bt_body b = Some (m, k) /\ W m.
Proof. intros [H _]. destruct (bt_body b) as [[m k]|]; [eauto|tauto]. Qed.
Lemma on_cells_post {B} (f : M (module A S) B) b : (forall m, W m -> upost W (msh sh) m (f m)) -> bwf b -> bpost b (on_cells f b).
Proof.
  intros Hf Hb. destruct (body_of b Hb) as (m & k & E & Hw). unfold on_cells. rewrite E.
  destruct (Hf m Hw) as (P1 & P2 & P3). destruct (f m) as [m' r]. cbn [fst snd] in *.
  destruct (with_wf b m k m' k Hb E P1 P2). split; [|split]; auto.
Qed.
Lemma scaled_post f b : (forall m, W m -> upost W (msh sh) m (f m)) -> bwf b -> bpost b (scaled f b).
Proof.
  intros Hf Hb. unfold scaled. destruct (on_cells_post f b Hf Hb) as (P1 & P2 & P3).
  destruct (on_cells f b) as [b' [v|e| |]]; cbn [fst snd] in *; try (simpl in P3; tauto); (split; [|split]); auto; exact Logic.I.
Qed.
Lemma losses_def v (x i : A) : conv_fits v -> defined (conv_losses v x i).
Proof. intros H. unfold conv_losses. now apply defined_rmap. Qed.
Lemma batt_V_post b : bwf b -> bpost b (batt_V o tm b).
Proof. apply scaled_post. intros m Hw. apply post1_post, (sf_V _ _ _ Hm), Hw. Qed.
Lemma convLoss_post b : bwf b -> bpost b (batt_convLoss o tm b).
Proof.
  intros Hb. unfold batt_convLoss. destruct (batt_V_post b Hb) as (P1 & P2 & P3).
  destruct (batt_V o tm b) as [b1 [v|e| |]]; cbn [fst snd] in *; try (simpl in P3; tauto).
  - split; [|split]; auto. cbn [snd]. unfold batt_I, read_cells. destruct (body_of b1 P1) as (m & k & -> & _). cbn [rbind].
    apply losses_def, P1.
  - split; [|split]; auto.
Qed.
Lemma batt_setT_post t b : bwf b -> bpost b (batt_setT t b).
Proof.
  intros Hb. unfold batt_setT. destruct (body_of b Hb) as (m & k & E & Hw). rewrite E.
  pose proof (cool_setT_defined t k) as D. destruct (cool_setT t k) as [k' r]. cbn [snd] in D.
  destruct (with_wf b m k m k' Hb E Hw eq_refl). split; [|split]; auto.
Qed.
Lemma chain {B C} b (p : batt A S * res B) (q : batt A S * res C) : bpost b p -> bpost (fst p) q -> bpost b q.
Proof. intros (P1 & P2 & P3) (Q1 & Q2 & Q3). split; [|split]; auto. congruence. Qed.
Lemma batt_thermal_post nn t b : bwf b -> bpost b (batt_thermal o tm nn t b).
Proof.
  intros Hb. unfold batt_thermal. destruct (body_of b Hb) as (m & k & E & Hw). rewrite E.
  destruct (tm =? 0)%Z; [split; [|split]; auto; exact Logic.I|].
  destruct (sf_thermal _ _ _ Hm [(k_T k, cool_getH k, o_area mo m)] t m Hw) as (P1 & P2 & P3).
  destruct (o_thermal mo _ t m) as [m1 [Tc|e| |]]; cbn [fst snd] in *; try (simpl in P3; tauto).
  2: { destruct (with_wf b m k m1 k Hb E P1 P2). split; [|split]; auto. }
  destruct (with_wf b m k m1 k Hb E P1 P2) as [B1 S1]. set (b1 := with_body b (m1, k)) in *. clearbody b1.
  destruct (convLoss_post b1 B1) as (Q1 & Q2 & Q3).
  destruct (batt_convLoss o tm b1) as [b2 [l|e| |]]; cbn [fst snd] in *; try (simpl in Q3; tauto).
  2: { split; [|split]; auto. cbn [fst]. congruence. }
  destruct nn as [|nn]; [|split; [|split]; try exact Logic.I; cbn [fst]; auto; congruence].
  destruct (body_of b2 Q1) as (m2 & k2 & E2 & W2). rewrite E2.
  match goal with |- context [cool_dstate ?a ?b ?c ?d] => pose proof (cool_dstate_defined a b c d) as D; destruct (cool_dstate a b c d) as [k3 [Tb|e| |]] end;
    cbn [snd] in D; try (simpl in D; tauto).
  2: { destruct (with_wf b2 m2 k2 m2 k3 Q1 E2 W2 eq_refl). split; [|split]; auto. cbn [fst]. congruence. }
  destruct (with_wf b2 m2 k2 m2 k3 Q1 E2 W2 eq_refl) as [B3 S3].
  destruct (_ || _)%bool; [split; [|split]; try exact Logic.I; cbn [fst]; auto; congruence|].
  destruct (sf_setT _ _ _ Hm Tc m2 W2) as (T1 & T2 & T3).
  destruct (o_setT mo Tc m2) as [m3 [u|e| |]]; cbn [fst snd] in *; try (simpl in T3; tauto).
  2: { destruct (with_wf b2 m2 k2 m3 k3 Q1 E2 T1 T2) as [X1 X2]. split; [|split]; try exact Logic.I; cbn [fst]; [exact X1|].
       change (bsh (with_body b2 (m3, k3)) = bsh b). congruence. }
  destruct (with_wf b2 m2 k2 m3 k3 Q1 E2 T1 T2) as [X1 X2].
  change (with_body (with_body b2 (m2, k3)) (m3, k3)) with (with_body b2 (m3, k3)).
  destruct (batt_setT_post Tb _ X1) as (Y1 & Y2 & Y3).
  destruct (batt_setT Tb _) as [b4 [u'|e| |]]; cbn [fst snd] in *; try (simpl in Y3; tauto); (split; [|split]); try exact Logic.I; cbn [fst]; auto; congruence.
Qed.
Lemma batt_timeStep_post dt n b : bwf b -> bpost b (batt_timeStep o tm dt n b).
Proof.
  intros Hb. unfold batt_timeStep.
  destruct (on_cells_post (o_timeStep mo dt n) b) as (P1 & P2 & P3); auto. { intros m Hw. now apply (sf_step _ _ _ Hm). }
  destruct (on_cells _ b) as [b1 [u|e| |]]; cbn [fst snd] in *; try (simpl in P3; tauto).
  2: { split; [|split]; auto. }
  destruct (convLoss_post b1 P1) as (Q1 & Q2 & Q3).
  destruct (batt_convLoss o tm b1) as [b2 [l|e| |]]; cbn [fst snd] in *; try (simpl in Q3; tauto).
  2: { split; [|split]; auto. cbn [fst]. congruence. }
  cbn zeta. set (b3 := with_loss b2 _ _). assert (B3 : bwf b3) by exact Q1. assert (S3 : bsh b3 = bsh b2) by reflexivity. clearbody b3.
  destruct (if bt_block b3 then (b3, Ok (nZ 0)) else batt_thermal o tm 0 (nZ n * dt)%num b3) as [b4 r] eqn:E4.
  assert (P : bpost b3 (b4, r)).
  { rewrite <- E4. destruct (bt_block b3); [split; [|split]; auto; exact Logic.I|now apply batt_thermal_post]. }
  destruct P as (R1 & R2 & R3). cbn [fst snd] in *.
  destruct r as [x|e| |]; try (simpl in R3; tauto).
  2: { split; [|split]; auto. cbn [fst]. congruence. }
  destruct (body_of b4 R1) as (m4 & k4 & E & W4). rewrite E.
  match goal with |- context [with_body b4 (m4, ?kk)] => destruct (with_wf b4 m4 k4 m4 kk R1 E W4 eq_refl) end.
  split; [|split]; [auto|cbn [fst]; congruence|exact Logic.I].
Qed.
Lemma back_some (s : list A) : (1 <= length s)%nat -> exists t, back s = Some t.
Proof.
  intros H. unfold back. destruct (rev s) as [|t l] eqn:E; [|eauto]. apply (f_equal (@length A)) in E. rewrite rev_length in E. simpl in E. lia.
Qed.
Lemma batt_setStates_post l ch b : bwf b -> evenly (bsh b) -> (Datatypes.S (size (bsh b)) <= length l)%nat -> bpost b (batt_setStates o tm l ch b).
Proof.
  intros Hb He Hl. destruct (body_of b Hb) as (m & k & E & Hw). unfold bsh in He, Hl. rewrite E in He, Hl.
  unfold batt_setStates, on_cells. rewrite E.
  destruct (sf_states _ _ _ Hm l ch m Hw He ltac:(lia)) as [(P1 & P2 & P3) P4].
  destruct (o_setStates mo l ch m) as [m1 [[rest st]|e| |]]; cbn [fst snd] in *; try (simpl in P3; tauto);
    destruct (with_wf b m k m1 k Hb E P1 P2) as [B1 S1].
  - specialize (P4 rest st eq_refl). destruct (back_some rest ltac:(lia)) as (t & ->).
    destruct (batt_setT_post t _ B1) as (Q1 & Q2 & Q3).
    destruct (batt_setT t _) as [b2 [u|e| |]]; cbn [fst snd] in *; try (simpl in Q3; tauto); (split; [|split]); try exact Logic.I; cbn [fst]; auto; congruence.
  - split; [|split]; auto.
Qed.
Lemma do_bcall_post c b : bwf b -> badmissible (bsh b) c -> bpost b (do_bcall o tm c b).
Proof.
  intros Hb Ad. assert (G : forall B (p : batt A S * res B), bpost b p -> bpost b (forget p)).
  { intros B [b' r] (P1 & P2 & P3). split; [|split]; auto. cbn [forget snd]. now apply defined_rmap. }
  destruct (body_of b Hb) as (m & k & E & Hw).
  destruct c; cbn [do_bcall].
  - apply G, batt_V_post, Hb.
  - apply G. unfold batt_checkV.
    destruct (on_cells_post (o_checkV mo) b) as (P1 & P2 & P3); auto. { intros x Hx. apply post1_post. now apply (sf_checkV _ _ _ Hm). }
    destruct (on_cells _ b) as [b1 [[v st]|e| |]]; cbn [fst snd] in *; try (simpl in P3; tauto); (split; [|split]); auto; exact Logic.I.
  - apply G, scaled_post; auto. intros x Hx. now apply (sf_Vhigh _ _ _ Hm).
  - apply G, scaled_post; auto. intros x Hx. now apply (sf_Vlow _ _ _ Hm).
  - apply G. split; [|split]; auto. cbn [snd]. unfold batt_OCV, read_cells. rewrite E. cbn [rbind].
    apply defined_rmap. now apply (sf_OCV _ _ _ Hm).
  - apply G. split; [|split]; auto. cbn [snd]. unfold batt_Rtot, read_cells. rewrite E. cbn [rbind].
    apply defined_rmap. now apply (sf_Rtot _ _ _ Hm).
  - apply G. split; [|split]; auto. cbn [snd]. unfold batt_I, read_cells. rewrite E. exact Logic.I.
  - apply G. split; [|split]; auto. cbn [snd]. unfold batt_T. rewrite E. exact Logic.I.
  - apply G. split; [|split]; auto. cbn [snd]. unfold batt_getStates. rewrite E. exact Logic.I.
  - apply G. apply on_cells_post; auto. intros x Hx. now apply (sf_set _ _ _ Hm).
  - apply G. destruct Ad. now apply batt_setStates_post.
  - now apply batt_timeStep_post.
  - now apply G, batt_thermal_post.
  - now apply batt_setT_post.
  - unfold batt_setBlock, bpost, bsh. rewrite E. 
    destruct (mwf_change wf sh m (mod_setBlock o b0 m)) as [F1 F2]; auto.
    { unfold mod_setBlock, lwf. cbn [ms]. rewrite Forall_map. destruct Hw as (_ & _ & _ & L). eapply Forall_impl; [|exact L].
      intros s Ws. now apply (sf_flag _ _ _ Hu). }
    { unfold mod_setBlock. cbn [ms]. rewrite map_map. apply map_ext_in. intros s Hs. destruct Hw as (_ & _ & _ & L).
      unfold lwf in L. rewrite Forall_forall in L. now apply (sf_flag _ _ _ Hu), L. }
    cbn [fst snd bt_body]. split; [split; [exact F1|apply Hb]|split; [exact F2|exact Logic.I]].
  - apply G. unfold batt_coolload. rewrite E. destruct (sf_cool _ _ _ Hm m Hw) as (P1 & P2 & P3).
    cbn [mod_ops o_coolload] in P1, P2, P3. destruct (mod_coolload o m) as [m' r]. cbn [fst snd] in *.
    match goal with |- context [with_body b (m', ?kk)] => destruct (with_wf b m k m' kk Hb E P1 P2) end.
    split; [|split]; auto. cbn [snd]. apply defined_rmap. destruct r; simpl in *; auto.
Qed.
Theorem bhistory_safe cs : forall b, bwf b -> Forall (badmissible (bsh b)) cs -> Forall defined (boutcomes o tm cs b).
Proof.
  induction cs as [|c cs IH]; intros b Hb Ad; cbn [boutcomes]; [auto|].
  inversion Ad as [|? ? Ac Ad']; subst.
  destruct (do_bcall_post c b Hb Ac) as (P1 & P2 & P3). destruct (do_bcall o tm c b) as [b' r]. cbn [fst snd] in *.
  rewrite <- P2 in Ad'. constructor; auto.
Qed.
End Batt.
Lemma bformed_wf {A} {NA : Num A} {C} (oc : su_ops A C) leaf lsh n (b : batt A (su A C n)) : safe_unit oc leaf lsh -> bformed leaf lsh n b ->
  bwf (formed leaf lsh n) (shape_of lsh n) b /\ bsh (shape_of lsh n) b = bshape lsh n b.
Proof.
  intros Hs ((m & k & E & H) & D). unfold bwf, bsh, bshape. rewrite E. split; [|reflexivity]. split; [exact H|exact D].
Qed.
