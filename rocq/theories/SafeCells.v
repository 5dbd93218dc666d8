(** * Proofs for C75: the cells *)
From Verif Require Import Base StatusModel UtilModel CellModel CoolModel ModuleModel SpmModel SpmUnitModel SafeSpec SafeProofs.
From Coq Require Import List Lia.
Import ListNotations.

Section Cells.
Context {A : Type} {NA : Num A}.

(** ** equivalent-circuit cells *)
Lemma ecm_V_returns (c : ecm A) : closed_table (p_ocv (ep c)) -> returns (ecm_V c).
Proof.
  intros H. specialize (H (e_SOC (es c))). unfold ecm_V, ecm_OCV. destruct (XYdata_interp _ _ _); simpl in *; auto.
Qed.
Lemma ecm_checkV_returns (c : ecm A) : closed_table (p_ocv (ep c)) -> returns (ecm_checkVoltage c).
Proof.
  intros H. unfold ecm_checkVoltage. apply ecm_V_returns in H. destruct (ecm_V c); simpl in *; tauto.
Qed.
Lemma ecm_checkI_returns b (c : ecm A) : closed_table (p_ocv (ep c)) -> returns (ecm_checkCurrent b c).
Proof. intros H. unfold ecm_checkCurrent. destruct b; [|exact Logic.I]. now apply returns_rmap, ecm_checkV_returns. Qed.
Lemma step_Ir_length (dt i : A) itau ir : length (step_Ir dt i itau ir) = length ir.
Proof. revert ir. induction itau; destruct ir; simpl; auto. Qed.
Lemma ecm_step1_post (dt : A) c : closed_table (p_ocv (ep c)) ->
  ep (fst (ecm_step1 dt c)) = ep c /\ length (e_Ir (es (fst (ecm_step1 dt c)))) = length (e_Ir (es c)) /\ returns (snd (ecm_step1 dt c)).
Proof.
  intros H. unfold ecm_step1. match goal with |- context [ecm_V ?x] => set (c1 := x) end.
  assert (R : returns (ecm_V c1)) by (apply ecm_V_returns; exact H).
  assert (L : length (e_Ir (es c1)) = length (e_Ir (es c))) by apply step_Ir_length.
  assert (E : ep c1 = ep c) by reflexivity. clearbody c1.
  destruct (ecm_V c1); cbn [fst snd]; simpl in R; try tauto; repeat split; auto.
Qed.
Lemma ecm_steps_post n : forall (dt : A) c, closed_table (p_ocv (ep c)) ->
  ep (fst (ecm_steps n dt c)) = ep c /\ length (e_Ir (es (fst (ecm_steps n dt c)))) = length (e_Ir (es c)) /\ returns (snd (ecm_steps n dt c)).
Proof.
  induction n as [|n IH]; intros dt c H; cbn [ecm_steps]; [simpl; auto|].
  destruct (ecm_step1_post dt c H) as (P1 & P2 & P3). destruct (ecm_step1 dt c) as [c' [u|e| |]]; cbn [fst snd] in *; try (simpl in P3; tauto).
  rewrite <- P1 in H. destruct (IH dt c' H) as (Q1 & Q2 & Q3). split; [|split]; congruence || auto.
Qed.
Lemma ecm_read_ok k (s : list A) : (6 + k <= length s)%nat ->
  exists st rest, ecm_read k s = Ok (st, rest) /\ length (e_Ir st) = k /\ length s = (length rest + 6 + k)%nat.
Proof.
  intros H. unfold ecm_read. do 3 (destruct s as [|? s]; [simpl in H; lia|]). simpl in H.
  assert (Lf : length (firstn k s) = k) by (apply firstn_length_le; lia).
  assert (Ls : length (skipn k s) = (length s - k)%nat) by apply skipn_length.
  destruct (skipn k s) as [|? [|? [|? rest]]] eqn:E; try (simpl in Ls; lia).
  rewrite Lf, Nat.eqb_refl. do 2 eexists. split; [reflexivity|]. split; [exact Lf|]. simpl in *. lia.
Qed.

Ltac eparts := cbn [ecm_ops o_getStates o_OCV o_Rtot o_V o_checkV o_Vhigh o_Vlow o_setCurrent o_timeStep o_thermal o_setT o_setFlag o_coolload o_setStates].
Lemma ecm_up (u : ecmu A) c' b {B} (r : res B) : ecm_formed u -> ep c' = ep (u_ecm u) -> length (e_Ir (es c')) = length (e_Ir (es (u_ecm u))) ->
  defined r -> upost ecm_formed ecm_shape u (mkEu b c', r).
Proof.
  intros [(W1 & W2) T] E L D. split; [|split]; auto.
  - split; [split|]; cbn [fst u_ecm]; rewrite ?E, ?L; auto.
  - unfold ecm_shape. cbn [fst u_ecm]. now rewrite L.
Qed.
Theorem ecm_safe : safe_unit (ecm_ops (A := A)) ecm_formed ecm_shape.
Proof.
  constructor; eparts.
  - intros u _. unfold ecm_getStates, ecm_shape. cbn [size]. simpl. rewrite app_length. simpl. lia.
  - intros u [_ T]. apply T.
  - intros; exact Logic.I.
  - intros u W. split; [|split]; auto. apply ecm_V_returns, W.
  - intros u W. split; [|split]; auto. apply ecm_checkV_returns, W.
  - intros u W. split; [|split]; auto. apply returns_defined, ecm_V_returns, W.
  - intros u W. split; [|split]; auto. apply returns_defined, ecm_V_returns, W.
  - intros i b u W. unfold lift_ecm, ecm_setCurrent.
    match goal with |- context [ecm_checkCurrent b ?x] => set (c1 := x) end.
    assert (R : returns (ecm_checkCurrent b c1)) by (apply ecm_checkI_returns, W).
    assert (E : ep c1 = ep (u_ecm u)) by reflexivity. assert (L : e_Ir (es c1) = e_Ir (es (u_ecm u))) by reflexivity. clearbody c1.
    destruct (ecm_checkCurrent b c1); simpl in R; try tauto.
    destruct (isStatusBad _); apply ecm_up; cbn [ep es with_I e_Ir]; auto; try exact Logic.I; now rewrite L.
  - intros dt n u W. unfold lift_ecm, ecm_timeStep_CC. destruct (dt <? nZ 0)%num; [apply ecm_up; auto; exact Logic.I|].
    destruct (ecm_steps_post (Z.to_nat n) dt (u_ecm u) (proj2 W)) as (P1 & P2 & P3).
    destruct (ecm_steps _ dt (u_ecm u)) as [c' r]. apply ecm_up; auto using returns_defined.
  - intros dt n u W _ H. unfold lift_ecm, ecm_timeStep_CC. rewrite H.
    destruct (ecm_steps_post (Z.to_nat n) dt (u_ecm u) (proj2 W)) as (P1 & P2 & P3).
    destruct (ecm_steps _ dt (u_ecm u)) as [c' r]. exact P3.
  - intros nb t u W. split; [|split]; auto. exact Logic.I.
  - intros t u W. apply ecm_up; auto. exact Logic.I.
  - intros b u W. split; auto.
  - intros u W. split; [|split]; auto. exact Logic.I.
  - intros l b u W _ H. unfold ecm_shape in H |- *. cbn [size] in H |- *.
    destruct (ecm_read_ok (length (e_Ir (es (u_ecm u)))) l H) as (st & rest & E & Li & Lr).
    unfold lift_ecm, ecm_setStates. rewrite E.
    match goal with |- context [ecm_checkVoltage ?x] => set (c1 := x) end.
    assert (R : returns (check_Cell_states (ecm_validStates c1) (ecm_checkVoltage c1) b)).
    { unfold check_Cell_states. destruct (ecm_validStates c1); [|exact Logic.I]. destruct b; [|exact Logic.I].
      cbn [negb]. apply returns_rmap, ecm_checkV_returns, W. }
    assert (Ee : ep c1 = ep (u_ecm u)) by reflexivity. assert (Le : length (e_Ir (es c1)) = length (e_Ir (es (u_ecm u)))) by exact Li. clearbody c1.
    destruct (check_Cell_states _ _ b); simpl in R; try tauto. split.
    + fold (ecm_shape u). destruct (isStatusBad _); apply ecm_up; auto; exact Logic.I.
    + cbn. intros ? ? Q. injection Q as <- <-. lia.
Qed.

(** ** single-particle cells *)
Variables (F : fns A) (tm : Z).
Definition alike (c c' : spm A) : Prop :=
  cp c' = cp c /\ length (s_zp (cs c')) = length (s_zp (cs c)) /\ length (s_zn (cs c')) = length (s_zn (cs c)).
Lemma alike_refl c : alike c c.
Proof. repeat split. Qed.
Lemma alike_trans a b c : alike a b -> alike b c -> alike a c.
Proof. intros (H1 & H2 & H3) (H4 & H5 & H6). repeat split; congruence. Qed.
Definition spm_post {B} (c : spm A) (p : spm A * res B) : Prop := alike c (fst p) /\ defined (snd p).
Definition spm_post1 {B} (c : spm A) (p : spm A * res B) : Prop := alike c (fst p) /\ returns (snd p).
Lemma spm_formed_alike c c' : alike c c' -> spm_formed c -> spm_formed c'.
Proof. intros (E & _) H. unfold spm_formed in *. now rewrite E. Qed.
Lemma spm_shape_alike c c' : alike c c' -> spm_shape c' = spm_shape c.
Proof. intros (_ & E1 & E2). unfold spm_shape. now rewrite E1, E2. Qed.
Lemma spm_up {B} c (p : spm A * res B) : spm_formed c -> spm_post c p -> upost spm_formed spm_shape c p.
Proof. intros W [H D]. split; [|split]; auto. eapply spm_formed_alike; eauto. now apply spm_shape_alike. Qed.
Lemma spm_up1 {B} c (p : spm A * res B) : spm_formed c -> spm_post1 c p -> upost1 spm_formed spm_shape c p.
Proof. intros W [H D]. split; [|split]; auto. eapply spm_formed_alike; eauto. now apply spm_shape_alike. Qed.
Lemma post1_of {B} c (p : spm A * res B) : spm_post1 c p -> spm_post c p.
Proof. intros [H D]. split; auto using returns_defined. Qed.
Lemma bind_post {B C} c (m : M (spm A) B) (f : B -> M (spm A) C) : spm_formed c ->
  spm_post c (m c) -> (forall b c', alike c c' -> spm_formed c' -> spm_post c' (f b c')) -> spm_post c (mbind m f c).
Proof.
  intros W [H D] Hf. unfold mbind. destruct (m c) as [c' [b|e| |]]; cbn [fst snd] in *; try (simpl in D; tauto).
  - destruct (Hf b c' H (spm_formed_alike _ _ H W)) as [H1 D1]. split; auto. eapply alike_trans; eauto.
  - split; [exact H|exact Logic.I].
Qed.

Lemma getCSurf_flag c a b : getCSurf F c = (a, b, true) -> conc_bad c a b = false.
Proof.
  unfold getCSurf. destruct (calcDiffConstant F c). destruct (calcMolarFlux c) as [[? ?] ?].
  destruct (calcSurfaceConcentration _ _ _ _ _) as [x y]. intros E. injection E as <- <- E. now destruct (conc_bad c x y).
Qed.
Lemma conc_parts (c : spm A) a b : conc_bad c a b = false ->
  nleb a (nZ 0) = false /\ nleb (q_Cmaxp (cp c)) a = false /\ nleb b (nZ 0) = false /\ nleb (q_Cmaxn (cp c)) b = false.
Proof.
  unfold conc_bad. rewrite !Bool.orb_false_iff. tauto.
Qed.
Lemma spm_V_post c : spm_formed c -> spm_post1 c (spm_V F c).
Proof.
  intros (_ & _ & _ & _ & C1 & C2 & C3). unfold spm_V. destruct (c_valid c); [split; [apply alike_refl|exact Logic.I]|].
  assert (R : returns (calcV F c)).
  { unfold calcV. destruct (getCSurf F c) as [[a b] [|]] eqn:E; cbn [negb]; [|exact Logic.I].
    apply getCSurf_flag, conc_parts in E. destruct E as (E1 & E2 & E3 & E4).
    apply returns_rbind; [now apply C3|]. intros. apply returns_rbind; [now apply C2|]. intros.
    apply returns_rbind; [now apply C1|]. intros. now destruct (calcOverPotential F c a b _). }
  destruct (calcV F c) as [[v|]|e| |]; simpl in R; try tauto; (split; [repeat split|exact Logic.I]).
Qed.
Lemma spm_checkV_post c : spm_formed c -> spm_post1 c (spm_checkVoltage F c).
Proof.
  intros W. unfold spm_checkVoltage. destruct (spm_V_post c W) as [H D]. destruct (spm_V F c) as [c1 [v|e| |]]; cbn [fst snd] in *; simpl in D; try tauto.
  split; [exact H|exact Logic.I].
Qed.
Lemma spm_OCV_def c : spm_formed c -> defined (spm_OCV F c).
Proof.
  intros (T1 & T2 & T3 & T4 & _). unfold spm_OCV. destruct (getCSurf F c) as [[a b] f].
  apply defined_rbind; [apply T4|]. intros. apply defined_rbind; [apply T2|]. intros. apply defined_rbind; [apply T1|]. intros. exact Logic.I.
Qed.
Lemma spm_setCurrent_post i b c : spm_formed c -> spm_post c (spm_setCurrent F i b c).
Proof.
  intros W. unfold spm_setCurrent. set (c1 := set_valid (set_st c (st_I (cs c) i)) false).
  assert (H1 : alike c c1) by (repeat split). clearbody c1. unfold spm_checkCurrent.
  assert (P : spm_post1 c1 (if b then let '(c2, r) := spm_checkVoltage F c1 in (c2, rmap snd r) else (c1, Ok Success))).
  { destruct b; [|split; [apply alike_refl|exact Logic.I]].
    destruct (spm_checkV_post c1 (spm_formed_alike _ _ H1 W)) as [P Q]. destruct (spm_checkVoltage F c1) as [c2 r]. split; auto. now apply returns_rmap. }
  destruct (if b then _ else _) as [c2 [st|e| |]]; destruct P as [P Q]; cbn [fst snd] in *; simpl in Q; try tauto.
  pose proof (alike_trans _ _ _ H1 P) as (E1 & E2 & E3).
  destruct (isStatusBad st); (split; [repeat split; auto|exact Logic.I]).
Qed.
Lemma spm_read_ok np nn (l : list A) : (22 + np + nn <= length l)%nat ->
  exists st rest, spm_read np nn l = Ok (st, rest) /\ length (s_zp st) = np /\ length (s_zn st) = nn /\ length l = (length rest + 22 + np + nn)%nat.
Proof.
  intros H. unfold spm_read. do 15 (destruct l as [|? l]; [simpl in H; lia|]). cbn [length] in H.
  assert (L1 : length (firstn np l) = np) by (apply firstn_length_le; lia).
  assert (L2 : length (skipn np l) = (length l - np)%nat) by apply skipn_length.
  set (l2 := skipn np l) in *. clearbody l2.
  assert (L3 : length (firstn nn l2) = nn) by (apply firstn_length_le; lia).
  assert (L4 : length (skipn nn l2) = (length l2 - nn)%nat) by apply skipn_length.
  set (l3 := skipn nn l2) in *. clearbody l3.
  do 7 (destruct l3 as [|? l3]; [simpl in L4; lia|]).
  do 2 eexists. split; [reflexivity|]. cbn [s_zp s_zn]. split; auto. split; auto. cbn [length] in *. lia.
Qed.
Lemma spm_valid_def c : defined (spm_validStates F c).
Proof.
  unfold spm_validStates. destruct (getCSurf F c) as [[a b] f]. destruct (s_LLI (cs c) <? nZ 0)%num; exact Logic.I.
Qed.
Lemma spm_setStates_post l b c : spm_formed c -> (size (spm_shape c) <= length l)%nat ->
  spm_post c (spm_setStates F l b c) /\
  forall rest st, snd (spm_setStates F l b c) = Ok (rest, st) -> (length l <= length rest + size (spm_shape c))%nat.
Proof.
  intros W H. unfold spm_shape in H |- *. cbn [size] in H |- *.
  destruct (spm_read_ok _ _ l H) as (st & rest & E & L1 & L2 & L3).
  unfold spm_setStates. rewrite E. set (c1 := set_valid (set_st c st) false).
  assert (H1 : alike c c1) by (repeat split; auto). 
  assert (Hback : forall c2, alike c c2 -> alike c (set_valid (set_st c2 (cs c)) (c_valid c))) by (intros c2 (E1 & _); repeat split; auto).
  clearbody c1. pose proof (spm_valid_def c1) as D. destruct (spm_validStates F c1) as [[|]|e| |]; simpl in D; try tauto.
  - destruct b.
    + destruct (spm_checkV_post c1 (spm_formed_alike _ _ H1 W)) as [P Q].
      destruct (spm_checkVoltage F c1) as [c2 [[v s]|e| |]]; cbn [fst snd] in *; simpl in Q; try tauto.
      pose proof (alike_trans _ _ _ H1 P) as H2. split.
      * split; [|exact Logic.I]. destruct (isStatusBad s); cbn [fst]; auto.
      * cbn [snd]. intros ? ? X. injection X as <- <-. lia.
    + split; [split; [auto|exact Logic.I]|]. cbn [snd]. intros ? ? X. injection X as <- <-. lia.
  - split; [split; [cbn [fst]; auto|exact Logic.I]|]. cbn [snd]. intros ? ? X. injection X as <- <-. lia.
  - split; [split; [auto|exact Logic.I]|]. cbn. intros ? ? X. discriminate.
Qed.
Lemma z_step_length (dt : A) z dz : length (z_step dt z dz) = length z.
Proof. revert dz. induction z; destruct dz; simpl; auto. Qed.
Lemma age_z_length (dt n : A) z dz : length (age_z dt n z dz) = length z.
Proof. revert dz. induction z; destruct dz; simpl; auto. Qed.
Lemma spm_step1_post dt c : spm_formed c -> spm_post1 c (spm_step1 F dt c).
Proof.
  intros W. unfold spm_step1. destruct (calcDiffConstant F c) as [dp dn]. destruct (calcMolarFlux c) as [[x jp] jn].
  match goal with |- context [spm_V F ?x] => set (c1 := x) end.
  assert (H1 : alike c c1).
  { split; [reflexivity|]. split; [exact (z_step_length dt (s_zp (cs c)) _)|exact (z_step_length dt (s_zn (cs c)) _)]. }
  clearbody c1. destruct (spm_V_post c1 (spm_formed_alike _ _ H1 W)) as [P Q].
  destruct (spm_V F c1) as [c2 [v|e| |]]; cbn [fst snd] in *; simpl in Q; try tauto.
  destruct (alike_trans _ _ _ H1 P) as (E1 & E2 & E3). split; [repeat split; auto|exact Logic.I].
Qed.
Lemma spm_steps_post n dt : forall c, spm_formed c -> spm_post1 c (spm_steps F n dt c).
Proof.
  induction n as [|n IH]; intros c W; cbn [spm_steps]; [split; [apply alike_refl|exact Logic.I]|].
  destruct (spm_step1_post dt c W) as [P Q]. destruct (spm_step1 F dt c) as [c2 [v|e| |]]; cbn [fst snd] in *; simpl in Q; try tauto.
  destruct (IH c2 (spm_formed_alike _ _ P W)) as [P2 Q2]. split; auto. eapply alike_trans; eauto.
Qed.
Ltac ds := repeat (match goal with
  | |- defined (if ?b then _ else _) => destruct b
  | |- defined (match ?x with _ => _ end) => destruct x
  end; try exact Logic.I).
Lemma sei_all_def c o e ids : forall acc, defined (sei_all F c o e ids acc).
Proof.
  induction ids as [|i ids IH]; intros acc; cbn [sei_all]; [exact Logic.I|]. apply defined_rbind; [|auto].
  unfold sei_one. ds.
Qed.
Lemma SEI_def c o e : defined (SEI F c o e).
Proof. unfold SEI. apply defined_rbind; [apply sei_all_def|]. intros. ds. Qed.
Lemma cs_all_def c o e ids : forall a b, defined (cs_all F c o e ids a b).
Proof.
  induction ids as [|i ids IH]; intros a b; cbn [cs_all]; [exact Logic.I|]. apply defined_rbind.
  - unfold cs_one. ds.
  - intros [x y] _. auto.
Qed.
Lemma CSm_def c o e : defined (CSm F c o e).
Proof. unfold CSm. apply defined_rbind; [apply cs_all_def|]. intros. ds. Qed.
Lemma lam_all_def c o e ids : spm_formed c -> forall r, defined (lam_all F c o e ids r).
Proof.
  intros (T1 & _). induction ids as [|i ids IH]; intros r; cbn [lam_all]; [exact Logic.I|]. apply defined_rbind; [|auto].
  unfold lam_one. ds; (apply defined_rbind; [apply T1|intros; exact Logic.I]).
Qed.
Lemma LAM_def c o e : spm_formed c -> defined (LAM F c o e).
Proof. intros W. unfold LAM. now apply lam_all_def. Qed.
Lemma Li_def c o e : defined (LiPlating F c o e).
Proof. unfold LiPlating. ds. Qed.
Lemma dState_thermal_def c : spm_formed c -> defined (dState_thermal F c).
Proof.
  intros (T1 & T2 & T3 & T4 & _). unfold dState_thermal. destruct (calcDiffConstant F c). destruct (calcMolarFlux c) as [[? ?] ?].
  destruct (calcSurfaceConcentration _ _ _ _ _). destruct (conc_bad c _ _); [exact Logic.I|].
  destruct (calcOverPotential _ _ _ _ _). apply defined_rbind; [apply T4|]. intros; exact Logic.I.
Qed.
Lemma dState_deg_def c : spm_formed c -> defined (dState_degradation F c).
Proof.
  intros W. pose proof W as (T1 & T2 & T3 & T4 & _). unfold dState_degradation. destruct (calcDiffConstant F c). destruct (calcMolarFlux c) as [[? ?] ?].
  destruct (calcSurfaceConcentration _ _ _ _ _). destruct (conc_bad c _ _); [exact Logic.I|].
  destruct (calcOverPotential _ _ _ _ _). apply defined_rbind; [apply T3|]. intros. apply defined_rbind; [apply T2|]. intros.
  apply defined_rbind; [apply SEI_def|]. intros [? ?] _. apply defined_rbind; [apply CSm_def|]. intros [[? ?] ?] _.
  apply defined_rbind; [now apply LAM_def|]. intros. apply defined_rbind; [apply Li_def|]. intros. exact Logic.I.
Qed.
Lemma spm_thermal_post nb t c : spm_post c (spm_thermal tm nb t c).
Proof.
  unfold spm_thermal. split; [repeat split|]. cbn [snd]. unfold tnew_check. ds.
Qed.
Hypothesis Hst : stress_closed (A := A).
Lemma lares_def c : defined (laresgoiti F c).
Proof. unfold laresgoiti. destruct (getCSurf F c) as [[? ?] ?]. match goal with |- context [if ?b then _ else _] => destruct b end; [exact Logic.I|apply Hst]. Qed.
Lemma spm_heat_age_post dt n c : spm_formed c -> spm_post c (spm_heat_age F tm dt n c).
Proof.
  intros W. unfold spm_heat_age. apply bind_post; auto.
  { split; [apply alike_refl|now apply dState_thermal_def]. }
  intros dq c1 _ W1. apply bind_post; auto. { split; [repeat split|exact Logic.I]. }
  intros _ c2 _ W2. apply bind_post; auto.
  { destruct (c_parent c2); [split; [apply alike_refl|exact Logic.I]|].
    destruct (spm_thermal_post [(c_Tenv c2, q_Qch (cp c2), q_Acell (cp c2))] (c_tth c2) c2) as [P Q].
    destruct (spm_thermal tm _ _ c2) as [c3 [t|e| |]]; cbn [fst snd] in *; simpl in Q; try tauto; (split; [|exact Logic.I]); auto. }
  intros _ c3 _ W3. apply bind_post; auto.
  { split; [|exact Logic.I]. cbn [fst]. destruct (q_sdai (cp c3)); [|apply alike_refl]. unfold updateDaiStress.
    destruct (getC F c3). repeat split. }
  intros _ c4 _ W4. apply bind_post; auto.
  { destruct (q_slares (cp c4)); [|split; [apply alike_refl|exact Logic.I]]. unfold updateLaresgoitiStress.
    pose proof (lares_def c4) as D. destruct (laresgoiti F c4); simpl in D; try tauto; (split; [repeat split|exact Logic.I]). }
  intros _ c5 _ W5. apply bind_post; auto. { split; [apply alike_refl|now apply dState_deg_def]. }
  intros d c6 _ W6. split; [|exact Logic.I]. cbn [fst]. split; [reflexivity|]. split.
  - exact (map_length _ (s_zp (cs c6))).
  - exact (age_z_length dt (nZ n) (s_zn (cs c6)) (dd_zn d)).
Qed.
Lemma spm_timeStep_post dt n c : spm_formed c -> spm_post c (spm_timeStep_CC F tm dt n c).
Proof.
  intros W. unfold spm_timeStep_CC. destruct (dt <? nZ 0)%num; [split; [apply alike_refl|exact Logic.I]|].
  match goal with |- context [spm_steps F _ dt ?x] => set (c1 := x) end.
  assert (H1 : alike c c1) by (repeat split). clearbody c1.
  destruct (spm_steps_post (Z.to_nat n) dt c1 (spm_formed_alike _ _ H1 W)) as [P Q].
  destruct (spm_steps F _ dt c1) as [c2 [u|e| |]]; cbn [fst snd] in *; simpl in Q; try tauto.
  pose proof (alike_trans _ _ _ H1 P) as H2.
  destruct (c_block c2); [split; [auto|exact Logic.I]|].
  destruct (spm_heat_age_post dt n c2 (spm_formed_alike _ _ H2 W)) as [P3 Q3]. split; auto. eapply alike_trans; eauto.
Qed.
Theorem spm_safe : safe_unit (spm_ops F tm) spm_formed spm_shape.
Proof.
  constructor; cbn [spm_ops o_getStates o_OCV o_Rtot o_V o_checkV o_Vhigh o_Vlow o_setCurrent o_timeStep o_thermal o_setT o_setFlag o_coolload o_setStates].
  - intros c _. unfold spm_getStates, st_list, spm_shape. cbn [size]. rewrite !app_length. cbn [length]. lia.
  - apply spm_OCV_def.
  - intros; exact Logic.I.
  - intros c W. apply spm_up1; auto. now apply spm_V_post.
  - intros c W. apply spm_up1; auto. now apply spm_checkV_post.
  - intros c W. apply spm_up; auto. now apply post1_of, spm_V_post.
  - intros c W. apply spm_up; auto. now apply post1_of, spm_V_post.
  - intros i b c W. apply spm_up; auto. now apply spm_setCurrent_post.
  - intros dt n c W. apply spm_up; auto. now apply spm_timeStep_post.
  - intros dt n c W C. discriminate C.
  - intros nb t c W. apply spm_up; auto. apply spm_thermal_post.
  - intros t c W. apply spm_up; auto. split; [repeat split|exact Logic.I].
  - intros b c W. split; [exact W|reflexivity].
  - intros c W. apply spm_up; auto. split; [repeat split|exact Logic.I].
  - intros l b c W _ H. destruct (spm_setStates_post l b c W H) as [P Q]. split; auto. now apply spm_up.
Qed.
End Cells.
