(** * Lemmas about the ECM cell *)
From Verif Require Import Base RFacts StatusModel StatusProofs UtilModel UtilSpec UtilProofs CellModel CellSpec.

Section Any.
Context {A : Type} {NA : Num A}.
Local Open Scope num_scope.

Lemma ecm_eta (c : ecm A) : mkEcm (ep c) (es c) = c.
Proof. destruct c; reflexivity. Qed.
Lemma with_I_undo (s : ecm_state A) i : with_I (with_I s i) (e_I s) = s.
Proof. destruct s; reflexivity. Qed.
Lemma with_SOC_undo (s : ecm_state A) i : with_SOC (with_SOC s i) (e_SOC s) = s.
Proof. destruct s; reflexivity. Qed.

Lemma bad_ok s : isStatusBad s = negb (isStatusOK s).
Proof. reflexivity. Qed.

Lemma setCurrent_spec (c c' : ecm A) Inew chk st :
  ecm_setCurrent Inew chk c = (c', Ok st) ->
  (isStatusBad st = true -> c' = c) /\
  (isStatusOK st = true -> c' = mkEcm (ep c) (with_I (es c) Inew) /\
     (if chk then exists v, ecm_checkVoltage c' = Ok (v, st) else st = Success)).
Proof.
  unfold ecm_setCurrent, ecm_checkCurrent. cbn zeta.
  destruct chk.
  - destruct (ecm_checkVoltage _) as [[v s]| | |] eqn:E; cbn [rmap rbind snd]; try discriminate.
    rewrite bad_ok. destruct (isStatusOK s) eqn:O; cbn [negb]; intros H; injection H as <- <-.
    + rewrite ?bad_ok, O. cbn [negb]. split; [discriminate|]. intros _. split; [reflexivity|]. exists v; auto.
    + rewrite ?bad_ok, O. split; [|discriminate]. intros _. cbn [es]. rewrite with_I_undo. apply ecm_eta.
  - cbn. intros H; injection H as <- <-. split; [discriminate|]. intros _. split; reflexivity.
Qed.

Lemma setVoltage_spec (c c' : ecm A) Vnew chk st :
  ecm_setVoltage Vnew chk c = (c', Ok st) ->
  (isStatusBad st = true -> c' = c) /\
  (isStatusOK st = true -> exists ocv, ecm_OCV c = Ok ocv /\
     c' = mkEcm (ep c) (with_I (es c)
            (sub_drops (ocv - Vnew) (p_Rp (ep c)) (e_Ir (es c)) / p_Rdc (ep c))) /\
     (if chk then exists v, ecm_checkVoltage c' = Ok (v, st) else st = Success)).
Proof.
  unfold ecm_setVoltage, ecm_checkCurrent. cbn zeta.
  destruct (ecm_OCV c) as [ocv| | |] eqn:Eo; try discriminate.
  destruct chk.
  - destruct (ecm_checkVoltage _) as [[v s]| | |] eqn:E; cbn [rmap rbind snd]; try discriminate.
    rewrite bad_ok. destruct (isStatusOK s) eqn:O; cbn [negb]; intros H; injection H as <- <-.
    + rewrite ?bad_ok, O. cbn [negb]. split; [discriminate|]. intros _. exists ocv. split; [reflexivity|]. split; [reflexivity|].
      exists v; auto.
    + rewrite ?bad_ok, O. split; [|discriminate]. intros _. cbn [es]. rewrite with_I_undo. apply ecm_eta.
  - cbn. intros H; injection H as <- <-. split; [discriminate|]. intros _.
    exists ocv. repeat split; reflexivity.
Qed.

Lemma setVoltage_throws (c c' : ecm A) Vnew chk n :
  ecm_setVoltage Vnew chk c = (c', Throw n) -> c' = c /\ ecm_OCV c = Throw n.
Proof.
  unfold ecm_setVoltage, ecm_checkCurrent. cbn zeta.
  destruct (ecm_OCV c) as [ocv| | |] eqn:Eo; try discriminate.
  - destruct chk; [|discriminate].
    unfold ecm_checkVoltage, check_voltage.
    destruct (ecm_V _); cbn; try discriminate.
  - intros H; injection H as <- <-. auto.
Qed.

Lemma setSOC_spec (c c' : ecm A) x chk st :
  ecm_setSOC x chk c = (c', Ok st) ->
  (isStatusBad st = true -> c' = c) /\
  (isStatusOK st = true -> c' = mkEcm (ep c) (with_SOC (es c) x) /\ check_SOC x = true /\
     (if chk then exists v, ecm_checkVoltage c' = Ok (v, st) else st = Success)).
Proof.
  unfold ecm_setSOC. cbn zeta. destruct (check_SOC x) eqn:C; cbn [negb].
  2:{ intros H; injection H as <- <-. split; [reflexivity|discriminate]. }
  destruct chk.
  - destruct (ecm_checkVoltage _) as [[v s]| | |] eqn:E; try discriminate.
    rewrite bad_ok. destruct (isStatusOK s) eqn:O; cbn [negb]; intros H; injection H as <- <-.
    + rewrite ?bad_ok, O. cbn [negb]. split; [discriminate|]. intros _. repeat split. exists v; auto.
    + rewrite ?bad_ok, O. split; [|discriminate]. intros _. cbn [es]. rewrite with_SOC_undo. apply ecm_eta.
  - cbn. intros H; injection H as <- <-. split; [discriminate|]. intros _. repeat split; reflexivity.
Qed.

Lemma ecm_read_ok nrc (s rest : list A) st :
  ecm_read nrc s = Ok (st, rest) -> length (e_Ir st) = nrc /\
  forall p, s = ecm_getStates (mkEcm p st) ++ rest.
Proof.
  unfold ecm_read. destruct s as [|t [|soc [|i s1]]]; try discriminate.
  destruct (skipn nrc s1) as [|tm [|ah [|wh r]]] eqn:E; try discriminate.
  destruct (Nat.eqb (length (firstn nrc s1)) nrc) eqn:L; [|discriminate].
  apply Nat.eqb_eq in L.
  intros H; injection H as <- <-. split; [exact L|]. intros p.
  unfold ecm_getStates. cbn [es e_T e_SOC e_I e_Ir e_time e_Ah e_Wh].
  rewrite <- (firstn_skipn nrc s1) at 1. rewrite E. rewrite <- !app_assoc. reflexivity.
Qed.

Lemma ecm_read_getStates (c : ecm A) rest :
  ecm_read (length (e_Ir (es c))) (ecm_getStates c ++ rest) = Ok (es c, rest).
Proof.
  destruct c as [p [t soc i ir tm ah wh]]. unfold ecm_getStates, ecm_read.
  cbn [es e_T e_SOC e_I e_Ir e_time e_Ah e_Wh app].
  rewrite <- app_assoc. cbn [app].
  rewrite skipn_app, skipn_all, Nat.sub_diag. cbn [app skipn].
  rewrite firstn_app, Nat.sub_diag, firstn_all, app_nil_r. rewrite Nat.eqb_refl. reflexivity.
Qed.

Lemma setStates_spec (c c' : ecm A) s chk st rest :
  ecm_setStates s chk c = (c', Ok (rest, st)) ->
  (isStatusBad st = true -> c' = c) /\
  (isStatusOK st = true -> ep c' = ep c /\ s = ecm_getStates c' ++ rest /\
     length (e_Ir (es c')) = length (e_Ir (es c)) /\ ecm_validStates c' = true /\
     (if chk then exists v, ecm_checkVoltage c' = Ok (v, st) else st = Success)).
Proof.
  unfold ecm_setStates.
  destruct (ecm_read _ s) as [[st1 r]| | |] eqn:E; try discriminate.
  apply ecm_read_ok in E. destruct E as [Hl Hs].
  cbn zeta. unfold check_Cell_states.
  destruct (ecm_validStates _) eqn:V; cbn [negb].
  2:{ cbn. intros H; injection H as <- <- <-. split; [reflexivity|discriminate]. }
  destruct chk.
  - destruct (ecm_checkVoltage _) as [[v s2]| | |] eqn:Ev; cbn [rmap rbind snd]; try discriminate.
    rewrite bad_ok. destruct (isStatusOK s2) eqn:O; cbn [negb]; intros H; injection H as <- <- <-.
    + rewrite ?bad_ok, O. cbn [negb]. split; [discriminate|]. intros _. cbn [ep es].
      repeat split; auto. exists v; auto.
    + rewrite ?bad_ok, O. split; [reflexivity|discriminate].
  - cbn. intros H; injection H as <- <- <-. split; [discriminate|]. intros _. cbn [ep es]. repeat split; auto. exact (Hs (ep c)).
Qed.

Lemma states_roundtrip (c d : ecm A) rest chk :
  ep d = ep c -> length (e_Ir (es d)) = length (e_Ir (es c)) ->
  ecm_validStates c = true ->
  (chk = true -> exists v st, ecm_checkVoltage c = Ok (v, st) /\ isStatusOK st = true) ->
  exists st, isStatusOK st = true /\ ecm_setStates (ecm_getStates c ++ rest) chk d = (c, Ok (rest, st)).
Proof.
  intros Hp Hl Hv Hchk. unfold ecm_setStates. rewrite Hl, ecm_read_getStates. cbn zeta.
  rewrite Hp, ecm_eta. unfold check_Cell_states. rewrite Hv. cbn [negb].
  destruct chk.
  - destruct (Hchk eq_refl) as (v & st & E & O). rewrite E. cbn [rmap rbind snd].
    exists st. split; [exact O|]. rewrite bad_ok, O. reflexivity.
  - exists Success. split; reflexivity.
Qed.

Lemma states_invalid (c d : ecm A) rest chk :
  ep d = ep c -> length (e_Ir (es d)) = length (e_Ir (es c)) ->
  ecm_validStates c = false ->
  ecm_setStates (ecm_getStates c ++ rest) chk d = (d, Ok (rest, Invalid_states)).
Proof.
  intros Hp Hl Hv. unfold ecm_setStates. rewrite Hl, ecm_read_getStates. cbn zeta.
  rewrite Hp, ecm_eta. unfold check_Cell_states. rewrite Hv. reflexivity.
Qed.

Lemma states_short (d : ecm A) s chk :
  (length s < ecm_nstates d)%nat -> ecm_setStates s chk d = (d, UB).
Proof.
  unfold ecm_nstates, ecm_setStates, ecm_read. intros H.
  destruct s as [|t [|soc [|i s1]]]; try reflexivity. simpl in H.
  destruct (skipn _ s1) as [|tm [|ah [|wh r]]] eqn:E; try reflexivity.
  apply (f_equal (@length _)) in E. rewrite skipn_length in E. simpl in E. lia.
Qed.

(** ** Composition *)
Lemma ecm_steps_add n m dt (c c1 : ecm A) :
  ecm_steps n dt c = (c1, Ok tt) -> ecm_steps (n + m) dt c = ecm_steps m dt c1.
Proof.
  revert c. induction n as [|n IH]; intros c; cbn [ecm_steps plus].
  - intros H; injection H as <-. reflexivity.
  - destruct (ecm_step1 dt c) as [c' [[]| | |]]; try discriminate. apply IH.
Qed.

Lemma ecm_steps_add_fail n m dt (c c1 : ecm A) r :
  ecm_steps n dt c = (c1, r) -> r <> Ok tt -> ecm_steps (n + m) dt c = (c1, r).
Proof.
  revert c. induction n as [|n IH]; intros c; cbn [ecm_steps plus].
  - intros H; injection H as <- <-. congruence.
  - destruct (ecm_step1 dt c) as [c' [[]| | |]]; auto.
Qed.

Lemma ecm_step1_wf dt (c : ecm A) : ecm_wf c -> ecm_wf (fst (ecm_step1 dt c)) /\ ep (fst (ecm_step1 dt c)) = ep c
   /\ e_I (es (fst (ecm_step1 dt c))) = e_I (es c) /\ e_T (es (fst (ecm_step1 dt c))) = e_T (es c).
Proof.
  assert (L : forall it ir, length (step_Ir dt (e_I (es c)) it ir) = length ir).
  { induction it; intros [|x ir]; simpl; auto. }
  intros [H1 H2]. unfold ecm_step1. cbn zeta.
  unfold ecm_wf. destruct (ecm_V _); cbn [fst ep es e_Ir e_I e_T]; rewrite ?L; auto.
Qed.

Lemma ecm_steps_frame n dt : forall (c c1 : ecm A) r, ecm_steps n dt c = (c1, r) ->
  ep c1 = ep c /\ e_I (es c1) = e_I (es c) /\ e_T (es c1) = e_T (es c) /\ (ecm_wf c -> ecm_wf c1).
Proof.
  induction n as [|n IH]; intros c c1 r; cbn [ecm_steps].
  - intros H; injection H as <- <-. auto.
  - assert (K : forall d, ecm_step1 dt c = d -> ep (fst d) = ep c /\ e_I (es (fst d)) = e_I (es c) /\ e_T (es (fst d)) = e_T (es c)).
    { intros d <-. unfold ecm_step1. cbn zeta. destruct (ecm_V _); cbn; auto. }
    assert (W := fun H => proj1 (ecm_step1_wf dt c H)).
    destruct (ecm_step1 dt c) as [c' [[]| | |]] eqn:E; cbn [fst] in W.
    + intros H. apply IH in H. destruct H as (H1 & H2 & H3 & H4).
      destruct (K _ eq_refl) as (K1 & K2 & K3). cbn in K1, K2, K3. repeat split; try congruence; try (apply H4; auto).
    + intros H; injection H as <- <-. destruct (K _ eq_refl) as (K1 & K2 & K3). cbn in *. auto.
    + intros H; injection H as <- <-. destruct (K _ eq_refl) as (K1 & K2 & K3). cbn in *. auto.
    + intros H; injection H as <- <-. destruct (K _ eq_refl) as (K1 & K2 & K3). cbn in *. auto.
Qed.

(** SOC outside the table: the voltage is 0 and every check reports it. *)
Lemma out_of_range_detected (c : ecm A) (x0 xn : A) :
  nth_error (xy_x (p_ocv (ep c))) 0 = Some x0 ->
  nth_error (xy_x (p_ocv (ep c))) (length (xy_x (p_ocv (ep c))) - 1) = Some xn ->
  (e_SOC (es c) <? x0) = true \/ (xn <? e_SOC (es c)) = true ->
  nZ 0 <=? nZ 0 = true ->
  ecm_V c = Ok (nZ 0) /\ ecm_checkVoltage c = Ok (nZ 0, V_not_calculated) /\
  (forall i, ecm_setCurrent i true c = (c, Ok V_not_calculated)) /\
  (forall v chk, ecm_setVoltage v chk c = (c, Throw 1)).
Proof.
  intros H0 Hn Hr Hz.
  assert (Ho : forall s, e_SOC s = e_SOC (es c) -> XYdata_interp (p_ocv (ep c)) (e_SOC s) true = Throw 1).
  { intros s ->. unfold XYdata_interp. destruct Hr as [Hr|Hr].
    - eapply linInt_below; eauto.
    - eapply linInt_above; eauto. }
  assert (Hv : forall s, e_SOC s = e_SOC (es c) -> ecm_V (mkEcm (ep c) s) = Ok (nZ 0)).
  { intros s Hs. unfold ecm_V, ecm_OCV. cbn [ep es]. rewrite Ho; auto. }
  assert (Hc : forall s, e_SOC s = e_SOC (es c) ->
      ecm_checkVoltage (mkEcm (ep c) s) = Ok (nZ 0, V_not_calculated)).
  { intros s Hs. unfold ecm_checkVoltage. rewrite Hv by auto. unfold check_voltage. rewrite Hz. reflexivity. }
  rewrite <- (ecm_eta c) at 1 2. repeat split; auto.
  - intros i. unfold ecm_setCurrent, ecm_checkCurrent. cbn zeta. rewrite Hc by reflexivity. cbn.
    rewrite with_I_undo, ecm_eta. reflexivity.
  - intros v chk. unfold ecm_setVoltage, ecm_OCV. rewrite Ho by auto. reflexivity.
Qed.

End Any.

(** ** Reals *)
Local Open Scope R_scope.

Lemma check_voltage_table (l : limits R) v i :
  l_VMIN l <= l_Vmin l - / 100 -> l_Vmin l <= l_Vmax l -> l_Vmax l + / 100 <= l_VMAX l ->
  exists s, check_voltage (Ok v) l i = Ok (v, s) /\
    forall s', verdict (l_Vmin l) (l_Vmax l) (l_VMIN l) (l_VMAX l) (/ 100) v i s' <-> s' = s.
Proof.
  intros H1 H2 H3. unfold check_voltage. eexists. split; [reflexivity|].
  unfold isDischargingI, isChargingI, V_ABSTOL. rewrite R_nZ, R_nlit.
  replace (1 / 100) with (/ 100) by lra. cbn [nsub nadd nltb nleb RNum].
  intros s'. rcase; cbn [andb]; try (exfalso; lra);
    destruct s'; cbn [verdict]; (split; intros H; [first [reflexivity | exfalso; lra] | first [discriminate H | lra]]).
Qed.

Lemma sub_drops_pol v rp : forall ir, sub_drops v rp ir = v - pol rp ir.
Proof.
  revert v. induction rp as [|r rp IH]; intros v [|i ir]; cbn; unfold pol in *; cbn; try lra.
  rewrite IH. cbn. lra.
Qed.

Lemma good_ocv_interp d x : good_ocv d -> 0 <= x <= 1 ->
  exists y, XYdata_interp d x true = Ok y /\ on_polyline (xy_x d) (xy_y d) x y.
Proof.
  intros G Hx. destruct G as [Gl G2 Gm Gi Gf Gn Gfix]. unfold XYdata_interp.
  destruct (linInt_value (xy_x d) (xy_y d) x 0 1 true) as (y & E & P & _); auto.
  exists y. split; auto.
  destruct (xy_fixed d) eqn:F; auto.
  destruct (Gfix eq_refl) as (x0 & dt & Hd & U).
  rewrite (linInt_fixed_eq _ _ _ x0 dt); auto.
Qed.

Lemma good_ocv_V (c : ecm R) : good_ocv (p_ocv (ep c)) -> exists v, ecm_V c = Ok v.
Proof.
  intros G. unfold ecm_V, ecm_OCV.
  destruct (Rlt_dec (e_SOC (es c)) 0) as [L|L].
  - unfold XYdata_interp. erewrite linInt_below; [eauto| apply (go_first _ G) | apply (go_last _ G)|].
    now apply Rltb_true.
  - destruct (Rlt_dec 1 (e_SOC (es c))) as [L1|L1].
    + unfold XYdata_interp. erewrite linInt_above; [eauto| apply (go_first _ G) | apply (go_last _ G)|].
      now apply Rltb_true.
    + destruct (good_ocv_interp (p_ocv (ep c)) (e_SOC (es c)) G) as (y & E & _); [lra|].
      rewrite E. eauto.
Qed.

Lemma ecm_steps_total n dt : forall c : ecm R, good_ocv (p_ocv (ep c)) -> exists c', ecm_steps n dt c = (c', Ok tt).
Proof.
  induction n as [|n IH]; intros c G; cbn [ecm_steps]; [eauto|].
  unfold ecm_step1. cbn zeta.
  match goal with |- context [ecm_V ?d] => destruct (good_ocv_V d) as [v E]; [exact G|]; rewrite E end.
  apply IH. exact G.
Qed.

Lemma step_Ir_convex dt i (it ir : list R) m :
  Forall (fun k => 0 <= dt * k <= 1) it -> Rabs i <= m ->
  Forall (fun x => Rabs x <= m) ir -> Forall (fun x => Rabs x <= m) (step_Ir dt i it ir).
Proof.
  intros Hk Hi. revert ir. induction Hk as [|k it Hk1 Hk2 IH]; intros ir Hr; cbn [step_Ir].
  - destruct ir; auto.
  - destruct Hr as [|x ir Hx Hr]; constructor; auto.
    cbn [nadd nsub nmul RNum].
    replace (x + dt * k * (i - x)) with ((1 - dt * k) * x + dt * k * i) by ring.
    eapply Rle_trans; [apply Rabs_triang|].
    rewrite (Rabs_mult (1 - dt * k) x), (Rabs_mult (dt * k) i).
    rewrite (Rabs_pos_eq (1 - dt * k)), (Rabs_pos_eq (dt * k)) by lra.
    assert (0 <= Rabs x) by apply Rabs_pos. assert (0 <= Rabs i) by apply Rabs_pos. nra.
Qed.

(** One step in the reals. *)
Lemma step1_R dt (c c1 : ecm R) r : ecm_step1 dt c = (c1, r) ->
  e_SOC (es c1) = e_SOC (es c) - e_I (es c) * dt / 3600 / p_cap (ep c) /\
  e_time (es c1) = e_time (es c) + dt /\
  e_Ah (es c1) = e_Ah (es c) + Rabs (e_I (es c) * dt / 3600) /\
  e_Wh (es c) <= e_Wh (es c1) /\
  e_Ir (es c1) = step_Ir dt (e_I (es c)) (p_itau (ep c)) (e_Ir (es c)).
Proof.
  unfold ecm_step1. cbn zeta. rewrite R_nZ. cbn [nadd nsub nmul ndiv nabs RNum].
  assert (E : e_I (es c) * (dt / 3600) = e_I (es c) * dt / 3600) by (unfold Rdiv; ring).
  rewrite E.
  destruct (ecm_V _) as [v| | |]; intros H; injection H as <- <-; cbn; repeat split; try lra.
  assert (0 <= Rabs (e_I (es c) * dt / 3600 * v)) by apply Rabs_pos. lra.
Qed.

Lemma steps_R n dt : 0 <= dt -> forall (c c1 : ecm R) r, ecm_steps n dt c = (c1, Ok r) ->
  e_SOC (es c1) = e_SOC (es c) - e_I (es c) * (INR n * dt) / 3600 / p_cap (ep c) /\
  e_time (es c1) = e_time (es c) + INR n * dt /\
  e_Ah (es c1) = e_Ah (es c) + Rabs (e_I (es c)) * (INR n * dt) / 3600 /\
  e_Wh (es c) <= e_Wh (es c1).
Proof.
  intros Hdt. induction n as [|n IH]; intros c c1 r; cbn [ecm_steps].
  - intros H; injection H as <- <-. cbn. repeat split; try lra; unfold Rdiv; ring.
  - destruct (ecm_step1 dt c) as [c' [[]| | |]] eqn:E; try discriminate.
    intros H. assert (F := ecm_steps_frame 1 dt c c' (Ok tt)).
    cbn [ecm_steps] in F. rewrite E in F. destruct (F eq_refl) as (Fp & Fi & _).
    apply IH in H. destruct H as (H1 & H2 & H3 & H4).
    apply step1_R in E. destruct E as (E1 & E2 & E3 & E4 & _).
    rewrite Fp, Fi in *. rewrite S_INR.
    rewrite H1, H2, H3, E1, E2, E3.
    replace (e_I (es c) * dt / 3600) with (e_I (es c) * (dt / 3600)) by (unfold Rdiv; ring).
    rewrite Rabs_mult, (Rabs_pos_eq (dt / 3600)) by lra.
    repeat split; try lra; unfold Rdiv; ring.
Qed.

Lemma hist_frame c log d : ecm_hist c log d -> ep d = ep c.
Proof.
  induction 1; auto.
  - apply setCurrent_spec in H. destruct H as [H1 H2]. rewrite bad_ok in H1.
    rewrite IHecm_hist. destruct (isStatusOK st) eqn:O.
    + destruct (H2 eq_refl) as [-> _]. reflexivity.
    + rewrite H1; auto.
  - apply setVoltage_spec in H. destruct H as [H1 H2]. rewrite bad_ok in H1.
    rewrite IHecm_hist. destruct (isStatusOK st) eqn:O.
    + destruct (H2 eq_refl) as (o & _ & -> & _). reflexivity.
    + rewrite H1; auto.
  - apply setVoltage_throws in H. destruct H as [-> _]. auto.
  - unfold ecm_timeStep_CC in H. destruct (nltb dt (nZ 0)); [discriminate|].
    apply ecm_steps_frame in H. destruct H as (H & _). congruence.
Qed.

(** The commands touch only the current. *)
Definition same_but_I (c d : ecm R) : Prop :=
  ep d = ep c /\ e_T (es d) = e_T (es c) /\ e_SOC (es d) = e_SOC (es c) /\ e_Ir (es d) = e_Ir (es c) /\
  e_time (es d) = e_time (es c) /\ e_Ah (es d) = e_Ah (es c) /\ e_Wh (es d) = e_Wh (es c).
Lemma setCurrent_frame i chk (c c1 : ecm R) st : ecm_setCurrent i chk c = (c1, Ok st) -> same_but_I c c1.
Proof.
  intros H. apply setCurrent_spec in H. destruct H as [H1 H2]. rewrite bad_ok in H1.
  destruct (isStatusOK st) eqn:O.
  - destruct (H2 eq_refl) as [-> _]. repeat split.
  - rewrite H1; auto. repeat split.
Qed.
Lemma setVoltage_frame i chk (c c1 : ecm R) st : ecm_setVoltage i chk c = (c1, Ok st) -> same_but_I c c1.
Proof.
  intros H. apply setVoltage_spec in H. destruct H as [H1 H2]. rewrite bad_ok in H1.
  destruct (isStatusOK st) eqn:O.
  - destruct (H2 eq_refl) as (o & _ & -> & _). repeat split.
  - rewrite H1; auto. repeat split.
Qed.

Lemma hist_accounting c log d : ecm_hist c log d -> p_cap (ep c) <> 0 ->
  e_SOC (es d) = e_SOC (es c) - net_charge log / 3600 / p_cap (ep c) /\
  e_Ah (es d) = e_Ah (es c) + abs_charge log / 3600 /\
  e_time (es d) = e_time (es c) + total_time log /\
  e_time (es c) <= e_time (es d) /\ e_Ah (es c) <= e_Ah (es d) /\ e_Wh (es c) <= e_Wh (es d).
Proof.
  induction 1; intros Hcap.
  - unfold net_charge, abs_charge, total_time; cbn. repeat split; unfold Rdiv; try ring; lra.
  - apply setCurrent_frame in H. destruct H as (H1 & H2 & H3 & H4 & H5 & H6 & H7).
    rewrite H1 in IHecm_hist. specialize (IHecm_hist Hcap). rewrite H3, H5, H6, H7 in IHecm_hist. exact IHecm_hist.
  - apply setVoltage_frame in H. destruct H as (H1 & H2 & H3 & H4 & H5 & H6 & H7).
    rewrite H1 in IHecm_hist. specialize (IHecm_hist Hcap). rewrite H3, H5, H6, H7 in IHecm_hist. exact IHecm_hist.
  - apply setVoltage_throws in H. destruct H as [-> _]. auto.
  - exact (IHecm_hist Hcap).
  - unfold ecm_timeStep_CC in H. destruct (nltb dt (nZ 0)) eqn:L; [discriminate|].
    apply Rltb_false in L. rewrite R_nZ in L. rewrite Nat2Z.id in H.
    assert (F := ecm_steps_frame _ _ _ _ _ H). destruct F as (F1 & F2 & _).
    apply steps_R in H; auto. destruct H as (H1 & H2 & H3 & H4).
    rewrite F1 in IHecm_hist. destruct (IHecm_hist Hcap) as (I1 & I2 & I3 & I4 & I5 & I6).
    unfold net_charge, abs_charge, total_time in *. cbn [map Rsum].
    rewrite I1, I2, I3, H1, H2, H3.
    assert (Hn : 0 <= INR n * dt) by (apply Rmult_le_pos; [apply pos_INR|auto]).
    assert (Ha : 0 <= Rabs (e_I (es c)) * (INR n * dt)) by (apply Rmult_le_pos; [apply Rabs_pos|auto]).
    repeat split; try lra; try (unfold Rdiv; ring).
Qed.

Lemma steps_bounded n dt m : forall c c1 : ecm R,
  ecm_steps n dt c = (c1, Ok tt) -> Rabs (e_I (es c)) <= m ->
  Forall (fun k => 0 <= dt * k <= 1) (p_itau (ep c)) ->
  Forall (fun x => Rabs x <= m) (e_Ir (es c)) -> Forall (fun x => Rabs x <= m) (e_Ir (es c1)).
Proof.
  induction n as [|n IH]; intros c c1; cbn [ecm_steps].
  - intros H; injection H as <-; auto.
  - destruct (ecm_step1 dt c) as [c' [[]| | |]] eqn:E; try discriminate.
    intros H Hm Hk Hr. assert (F := ecm_steps_frame 1 dt c c' (Ok tt)).
    cbn [ecm_steps] in F. rewrite E in F. destruct (F eq_refl) as (Fp & Fi & _).
    apply step1_R in E. destruct E as (_ & _ & _ & _ & E5).
    apply IH in H; auto; rewrite ?Fp, ?Fi; auto. rewrite E5. apply step_Ir_convex; auto.
Qed.

Lemma hist_bounded m c log d : ecm_hist c log d ->
  Forall (fun '(i, dt, _) => Rabs i <= m /\ Forall (fun k => 0 <= dt * k <= 1) (p_itau (ep c))) log ->
  Forall (fun x => Rabs x <= m) (e_Ir (es c)) -> Forall (fun x => Rabs x <= m) (e_Ir (es d)).
Proof.
  induction 1; intros Hl Hr; auto.
  - apply setCurrent_frame in H. destruct H as (H1 & _ & _ & H4 & _). rewrite H1, H4 in IHecm_hist. auto.
  - apply setVoltage_frame in H. destruct H as (H1 & _ & _ & H4 & _). rewrite H1, H4 in IHecm_hist. auto.
  - apply setVoltage_throws in H. destruct H as [-> _]. auto.
  - apply Forall_cons_iff in Hl. destruct Hl as [[Hi Hk] Hl'].
    unfold ecm_timeStep_CC in H. destruct (nltb dt (nZ 0)); [discriminate|]. rewrite Nat2Z.id in H.
    assert (F := ecm_steps_frame _ _ _ _ _ H). destruct F as (F1 & _).
    rewrite F1 in IHecm_hist. apply IHecm_hist; auto. eapply steps_bounded; eauto.
Qed.

Lemma pol_bounded rp ir m : Forall (fun r => 0 <= r) rp -> Forall (fun x => Rabs x <= m) ir -> 0 <= m ->
  Rabs (pol rp ir) <= Rsum rp * m.
Proof.
  intros Hr. revert ir. unfold pol. induction Hr as [|r rp Hr1 Hr2 IH]; intros ir Hi Hm; cbn.
  - rewrite Rabs_R0. lra.
  - destruct Hi as [|i ir Hi1 Hi2]; cbn.
    + rewrite Rabs_R0. assert (0 <= Rsum rp) by (apply Rsum_nonneg; auto). nra.
    + eapply Rle_trans; [apply Rabs_triang|]. specialize (IH ir Hi2 Hm).
      rewrite Rabs_mult, (Rabs_pos_eq r) by auto. nra.
Qed.

(** Relaxation: with constant current every branch moves towards it, never past it. *)
Lemma relax_step dt i k x : 0 <= dt * k <= 1 ->
  let x' := x + dt * k * (i - x) in Rabs (i - x') = (1 - dt * k) * Rabs (i - x) /\ (x <= i -> x <= x' <= i) /\ (i <= x -> i <= x' <= x).
Proof.
  intros H. cbn zeta. repeat split; try nra.
  replace (i - (x + dt * k * (i - x))) with ((1 - dt * k) * (i - x)) by ring.
  rewrite Rabs_mult, Rabs_pos_eq by lra. reflexivity.
Qed.

Lemma step_Ir_nth dt i (it ir : list R) j k x : nth_error it j = Some k -> nth_error ir j = Some x ->
  nth_error (step_Ir dt i it ir) j = Some (x + dt * k * (i - x)).
Proof.
  revert ir j. induction it as [|k0 it IH]; intros [|x0 ir] [|j]; cbn; try discriminate.
  - intros H1 H2. injection H1 as ->. injection H2 as ->. reflexivity.
  - apply IH.
Qed.

Lemma steps_relax n dt : forall (c c1 : ecm R) j k x,
  ecm_steps n dt c = (c1, Ok tt) ->
  nth_error (p_itau (ep c)) j = Some k -> nth_error (e_Ir (es c)) j = Some x ->
  0 <= dt * k <= 1 ->
  exists x', nth_error (e_Ir (es c1)) j = Some x' /\
    e_I (es c) - x' = (1 - dt * k) ^ n * (e_I (es c) - x).
Proof.
  induction n as [|n IH]; intros c c1 j k x; cbn [ecm_steps].
  - intros H; injection H as <-. intros. exists x. split; auto. cbn; lra.
  - destruct (ecm_step1 dt c) as [c' [[]| | |]] eqn:E; try discriminate.
    intros H Hk Hx Hd. assert (F := ecm_steps_frame 1 dt c c' (Ok tt)).
    cbn [ecm_steps] in F. rewrite E in F. destruct (F eq_refl) as (Fp & Fi & _).
    apply step1_R in E. destruct E as (_ & _ & _ & _ & E5).
    destruct (IH c' c1 j k (x + dt * k * (e_I (es c) - x)) H) as (x' & X1 & X2); auto.
    + congruence.
    + rewrite E5. apply step_Ir_nth; auto.
    + exists x'. split; auto. rewrite Fi in X2. rewrite X2. cbn. ring.
Qed.

Lemma setVoltage_delivers (c c' : ecm R) v chk st :
  p_Rdc (ep c) <> 0 -> ecm_setVoltage v chk c = (c', Ok st) -> isStatusOK st = true ->
  ecm_V c' = Ok v /\
  exists ocv, ecm_OCV c = Ok ocv /\
    e_I (es c') = (ocv - v - pol (p_Rp (ep c)) (e_Ir (es c))) / p_Rdc (ep c).
Proof.
  intros HR H O. apply setVoltage_spec in H. destruct H as [_ H].
  destruct (H O) as (ocv & E & -> & _). split.
  - unfold ecm_V, ecm_OCV in *. cbn [ep es with_I e_SOC e_I e_Ir]. rewrite E. f_equal.
    rewrite !sub_drops_pol. cbn [nsub nmul ndiv RNum]. field. exact HR.
  - exists ocv. split; auto. cbn [es with_I e_I]. rewrite sub_drops_pol. reflexivity.
Qed.

Lemma cmds_soc (c d : ecm R) l : ecm_cmds c l d -> 0 <= e_SOC (es c) <= 1 -> 0 <= e_SOC (es d) <= 1.
Proof.
  induction 1; intros Hs; auto; apply IHecm_cmds.
  - apply setCurrent_frame in H. destruct H as (_ & _ & -> & _). auto.
  - apply setVoltage_frame in H. destruct H as (_ & _ & -> & _). auto.
  - apply setSOC_spec in H. destruct H as [H1 H2]. rewrite bad_ok in H1.
    destruct (isStatusOK st).
    + destruct (H2 eq_refl) as (-> & C & _). cbn. unfold check_SOC in C.
      destruct (nltb x (nZ 0)) eqn:L1; [discriminate|]. destruct (nltb (nZ 1) x) eqn:L2; [discriminate|].
      apply Rltb_false in L1. apply Rltb_false in L2. rewrite R_nZ in *. lra.
    + rewrite H1; auto.
  - destruct r as [rest st]. apply setStates_spec in H. destruct H as [H1 H2]. rewrite bad_ok in H1.
    destruct (isStatusOK st).
    + destruct (H2 eq_refl) as (_ & _ & _ & V & _). unfold ecm_validStates, check_SOC in V.
      destruct (nltb (e_SOC (es c1)) (nZ 0)) eqn:L1; [discriminate|].
      destruct (nltb (nZ 1) (e_SOC (es c1))) eqn:L2; [discriminate|].
      apply Rltb_false in L1. apply Rltb_false in L2. rewrite R_nZ in *. lra.
    + rewrite H1; auto.
Qed.

(** ** Statements used by P_Cell *)
Section Any2.
Context {A : Type} {NA : Num A}.

Lemma setCurrent_status (c c' : ecm A) Inew chk st :
  ecm_setCurrent Inew chk c = (c', Ok st) ->
  if chk then exists v, ecm_checkVoltage (mkEcm (ep c) (with_I (es c) Inew)) = Ok (v, st) else st = Success.
Proof.
  unfold ecm_setCurrent, ecm_checkCurrent. cbn zeta. destruct chk.
  - destruct (ecm_checkVoltage _) as [[v s]| | |] eqn:E; cbn [rmap rbind snd]; try discriminate.
    intros H; injection H as _ <-. eauto.
  - intros H; injection H as _ <-. reflexivity.
Qed.
Lemma setSOC_status (c c' : ecm A) x chk st :
  ecm_setSOC x chk c = (c', Ok st) ->
  if check_SOC x then
    if chk then exists v, ecm_checkVoltage (mkEcm (ep c) (with_SOC (es c) x)) = Ok (v, st) else st = Success
  else st = SOC_limits_violation.
Proof.
  unfold ecm_setSOC. cbn zeta. destruct (check_SOC x); cbn [negb].
  2:{ intros H; injection H as _ <-. reflexivity. }
  destruct chk.
  - destruct (ecm_checkVoltage _) as [[v s]| | |] eqn:E; try discriminate.
    intros H; injection H as _ <-. eauto.
  - intros H; injection H as _ <-. reflexivity.
Qed.
End Any2.

Lemma setCurrent_total (c : ecm R) i chk : good_ocv (p_ocv (ep c)) ->
  exists c' st, ecm_setCurrent i chk c = (c', Ok st).
Proof.
  intros G. unfold ecm_setCurrent, ecm_checkCurrent. cbn zeta. destruct chk; [|eauto].
  unfold ecm_checkVoltage.
  match goal with |- context [ecm_V ?d] => destruct (good_ocv_V d) as [v E]; [exact G|]; rewrite E end.
  cbn [check_voltage rmap rbind snd]. eauto.
Qed.

(** The default cell has a good OCV table. *)
Lemma default_ocv_good nrc : good_ocv (p_ocv (ep (ecm_default (A := R) nrc))).
Proof.
  assert (Ex : xy_x (p_ocv (ep (ecm_default (A := R) nrc))) = [0; / 2; 1]).
  { cbn -[nlit]. unfold nZ. rewrite !R_nlit. change (Pos.to_nat 3) with 3%nat. cbn [seq map]. rewrite !R_nlit. cbn [Z.of_nat Pos.of_succ_nat Pos.succ].
    match goal with |- [?a;?b;?c] = _ => replace a with 0 by lra; replace b with (/2) by lra; replace c with 1 by lra end. reflexivity. }
  assert (Ey : length (xy_y (p_ocv (ep (ecm_default (A := R) nrc)))) = 3%nat) by reflexivity.
  constructor; rewrite ?Ex, ?Ey; try reflexivity.
  - cbn; lia.
  - cbn; lia.
  - intros [|[|[|i]]] [|[|[|j]]] a b Hij; cbn; try lia; intros H1 H2;
      try (destruct i; discriminate); try (destruct j; discriminate); injection H1 as <-; injection H2 as <-; lra.
  - intros _. exists 0, (/ 2). split; [lra|].
    intros [|[|[|i]]] a; cbn; intros H; try (destruct i; discriminate); injection H as <-; lra.
Qed.
