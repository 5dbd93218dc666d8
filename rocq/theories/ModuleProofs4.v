(** * Proofs about modules: voltages and caches, over the reals *)
From Coq Require Import List Lia.
From Verif Require Import Base RFacts StatusModel StatusProofs CellModel CellSpec CellProofs CoolModel ModuleModel ModuleSpec ModuleProofs ModuleProofs2 ModuleProofs3.
Import ListNotations.
Local Open Scope R_scope.
Notation tree n := (su R (ecmu R) n).

(** ** The same circuit: everything a voltage depends on *)
Definition same_cell (c d : ecmu R) : Prop :=
  ep (u_ecm d) = ep (u_ecm c) /\ e_SOC (es (u_ecm d)) = e_SOC (es (u_ecm c)) /\ e_I (es (u_ecm d)) = e_I (es (u_ecm c)) /\
  e_Ir (es (u_ecm d)) = e_Ir (es (u_ecm c)).
Fixpoint sim (n : nat) : tree n -> tree n -> Prop :=
  match n return tree n -> tree n -> Prop with
  | O => same_cell
  | S n' => fun u v =>
      match (u : ecmu R + module R (tree n')), (v : ecmu R + module R (tree n')) with
      | inl c, inl d => same_cell c d
      | inr m, inr k => m_series (mm k) = m_series (mm m) /\ m_rc (mm k) = m_rc (mm m) /\ Forall2 (sim n') (ms m) (ms k)
      | _, _ => False
      end
  end.
Lemma same_cell_refl c : same_cell c c. Proof. repeat split. Qed.
Lemma sim_refl n : forall u, sim n u u.
Proof. induction n as [|n IH]; intros u; [apply same_cell_refl|]. node u c m; cbn; [apply same_cell_refl|]. repeat split. now apply Forall2_refl. Qed.
Lemma sim_trans n : forall u v w, sim n u v -> sim n v w -> sim n u w.
Proof.
  assert (L : forall a b c, same_cell a b -> same_cell b c -> same_cell a c).
  { intros a b c (H1 & H2 & H3 & H4) (K1 & K2 & K3 & K4). repeat split; congruence. }
  induction n as [|n IH]; intros u v w; [apply L|]. node u c m; node v d k; node w e j; cbn; try tauto; [apply L|].
  intros (H1 & H2 & H3) (K1 & K2 & K3). repeat split; try congruence. eapply Forall2_trans; eauto.
Qed.
Lemma sims_trans n l1 l2 l3 : Forall2 (sim n) l1 l2 -> Forall2 (sim n) l2 l3 -> Forall2 (sim n) l1 l3.
Proof. apply Forall2_trans, sim_trans. Qed.
Lemma Forall2_rev_impl {X Y} (P : X -> Y -> Prop) (Q : Y -> X -> Prop) l l' : (forall x y, P x y -> Q y x) -> Forall2 P l l' -> Forall2 Q l' l.
Proof. intros H; induction 1; constructor; auto. Qed.
Lemma sim_sym n : forall u v, sim n u v -> sim n v u.
Proof.
  assert (L : forall a b, same_cell a b -> same_cell b a) by (intros a b (H1 & H2 & H3 & H4); repeat split; congruence).
  induction n as [|n IH]; intros u v; [apply L|]. node u c m; node v d k; cbn; try tauto; [apply L|].
  intros (H1 & H2 & H3). repeat split; try congruence. eapply Forall2_rev_impl; eauto.
Qed.
Lemma sim_current n : forall u v, sim n u v -> current n v = current n u.
Proof.
  assert (L : forall a b, same_cell a b -> e_I (es (u_ecm b)) = e_I (es (u_ecm a))) by (intros a b (H1 & H2 & H3 & H4); assumption).
  induction n as [|n IH]; intros u v; [apply L|]. node u c m; node v d k; cbn; try tauto; [apply L|].
  intros (H1 & _ & H3). rewrite H1. destruct (m_series (mm m)).
  - inversion H3; [reflexivity|]. auto.
  - f_equal. induction H3; cbn; [reflexivity|]. f_equal; auto.
Qed.
Lemma same_cell_V c d : same_cell c d -> ecm_V (u_ecm d) = ecm_V (u_ecm c).
Proof. intros (H1 & H2 & H3 & H4). unfold ecm_V, ecm_OCV. rewrite H1, H2, H3, H4. reflexivity. Qed.
Lemma sims_currents n l l' : Forall2 (sim n) l l' -> map (current n) l' = map (current n) l.
Proof. induction 1; cbn; [reflexivity|]. f_equal; [now apply sim_current|assumption]. Qed.
Lemma sims_drop n l l' rc : Forall2 (sim n) l l' ->
  map (fun p => fst p * current n (snd p)) (combine rc l') = map (fun p => fst p * current n (snd p)) (combine rc l).
Proof.
  intros H; revert rc. induction H; intros [|r rc]; cbn; try reflexivity. f_equal; [|auto]. f_equal. now apply sim_current.
Qed.
Lemma sim_voltage n : forall u v x, sim n u v -> voltage n u x -> voltage n v x.
Proof.
  induction n as [|n IH]; intros u v x.
  - cbn. intros H. rewrite (same_cell_V _ _ H). auto.
  - node u c m; node v d k; cbn [sim voltage]; try tauto; [intros H; rewrite (same_cell_V _ _ H); auto|].
    intros (H1 & H2 & H3). rewrite H1, H2. destruct (m_series (mm m)).
    + intros (vs & F & E). exists vs. rewrite (sims_drop _ _ _ _ H3). split; [|exact E].
      clear - IH H3 F. revert vs F. induction H3; intros vs F; inversion F; subst; constructor; eauto.
    + rewrite (sims_currents _ _ _ H3). destruct H3 as [|a b l l' Hab H3]; [auto|]. intros (v0 & V & E). exists v0. eauto.
Qed.

(** The invariant *)
Lemma ok_module n (m : module R (tree n)) :
  ok (S n) (inr m) <-> (m_Vok (mm m) = true -> m_series (mm m) = true -> voltage (S n) (inr m) (m_V (mm m))) /\
    ms m <> [] /\ length (m_rc (mm m)) = length (ms m) /\ Forall (ok n) (ms m).
Proof.
  unfold ok, tame, caches_right, well_formed. cbn [every_module leaves]. rewrite Forall_flat. destruct m as [r l]. cbn [mm ms].
  split.
  - intros ((H1 & H2) & ((H3 & H4) & H5) & H6). repeat split; auto. rewrite Forall_forall in *. auto.
  - intros (H1 & H2 & H3 & H4). rewrite Forall_forall in H4. repeat split; auto; apply Forall_forall; intros x Hx; apply (H4 x Hx).
Qed.
(** A module keeps the invariant when its cache is invalidated or when the circuit stays the same. *)
Lemma ok_inval n (m m' : module R (tree n)) : ok (S n) (inr m) -> m_rc (mm m') = m_rc (mm m) ->
  (m_Vok (mm m') = true -> m_series (mm m') = false) -> length (ms m') = length (ms m) -> Forall (ok n) (ms m') -> ok (S n) (inr m').
Proof.
  rewrite !ok_module. intros (_ & H2 & H3 & _) Hr Hv Hl F. repeat split; auto.
  - intros K1 K2. rewrite Hv in K2 by assumption. discriminate.
  - destruct (ms m'), (ms m); cbn in *; congruence.
  - congruence.
Qed.
Lemma ok_sim n (m m' : module R (tree n)) : ok (S n) (inr m) -> m_rc (mm m') = m_rc (mm m) ->
  m_series (mm m') = m_series (mm m) -> m_V (mm m') = m_V (mm m) -> m_Vok (mm m') = m_Vok (mm m) ->
  Forall2 (sim n) (ms m) (ms m') -> Forall (ok n) (ms m') -> ok (S n) (inr m') /\ sim (S n) (inr m) (inr m').
Proof.
  intros H Hr Hs Hv Ho F G. assert (K : sim (S n) (inr m) (inr m')) by (cbn; auto). split; [|exact K].
  rewrite ok_module in *. destruct H as (H1 & H2 & H3 & _). repeat split; auto.
  - rewrite Hv, Ho, Hs. intros A1 A2. eapply sim_voltage; [exact K|auto].
  - inversion F; subst; congruence.
  - rewrite Hr. rewrite H3. eapply Forall2_len; eauto.
Qed.

(** Operations that keep the circuit (and the invariant) *)
Definition keeps {X} (n : nat) (f : tree n -> tree n * X) : Prop :=
  forall u u' r, ok n u -> f u = (u', r) -> ok n u' /\ sim n u u'.
Definition preserves {X} (n : nat) (f : tree n -> tree n * X) : Prop :=
  forall u u' r, ok n u -> f u = (u', r) -> ok n u'.

Lemma rel_keeps n (rel : tree n -> tree n -> Prop) : forall l l', Forall2 rel l l' ->
  (forall s s', ok n s -> rel s s' -> ok n s' /\ sim n s s') -> Forall (ok n) l -> Forall (ok n) l' /\ Forall2 (sim n) l l'.
Proof.
  induction 1 as [|a b l l' H _ IH]; intros K F; [split; constructor|]. inversion F; subst.
  destruct (K a b H2 H). destruct (IH K H3). split; constructor; auto.
Qed.
Lemma rel_preserves n (rel : tree n -> tree n -> Prop) : forall l l', Forall2 rel l l' ->
  (forall s s', ok n s -> rel s s' -> ok n s') -> Forall (ok n) l -> Forall (ok n) l'.
Proof.
  induction 1 as [|a b l l' H _ IH]; intros K F; [constructor|]. inversion F; subst. constructor; eauto.
Qed.
Lemma v_rel_keeps tm n : keeps n (o_V (ops tm n)) -> forall s s', v_rel (ops tm n) s s' -> ok n s -> ok n s' /\ sim n s s'.
Proof.
  intros K. induction 1 as [s|s s' H IH]; intros O; [split; [assumption|apply sim_refl]|].
  destruct (o_V (ops tm n) s) as [s1 r] eqn:E. destruct (K _ _ _ O E) as [O1 S1]. cbn in IH. destruct (IH O1). split; [assumption|].
  eapply sim_trans; eauto.
Qed.
Lemma cur_rel_preserves tm n : keeps n (o_V (ops tm n)) -> (forall i b, preserves n (o_setCurrent (ops tm n) i b)) ->
  forall s s', cur_rel (ops tm n) s s' -> ok n s -> ok n s'.
Proof.
  intros K P. induction 1 as [s|s s' H IH|i b s s' H IH]; intros O; auto; apply IH.
  - destruct (o_V (ops tm n) s) as [s1 r] eqn:E. apply (K _ _ _ O E).
  - destruct (o_setCurrent (ops tm n) i b s) as [s1 r] eqn:E. apply (P i b _ _ _ O E).
Qed.

(** ** The voltage *)
Definition V_right (tm : Z) (n : nat) (u : tree n) : Prop :=
  exists u' v, o_V (ops tm n) u = (u', Ok v) /\ voltage n u v /\ ok n u' /\ sim n u u'.
Lemma sV_loop_right tm n : forall l rc acc, Forall (V_right tm n) l -> length rc = length l -> Forall (ok n) l ->
  exists l' a b, sV_loop (ops tm n) acc l rc = (l', a, Ok b) /\ Forall2 (sim n) l l' /\ Forall (ok n) l' /\
    exists vs, Forall2 (voltage n) l vs /\
      (if b then Forall (fun x => 0 < x) vs /\ a = acc + (Rsum vs - Rsum (map (fun p => fst p * current n (snd p)) (combine rc l)))
       else Exists (fun x => x <= 0) vs).
Proof.
  induction l as [|s l IH]; intros rc acc HF Hl Ho.
  - exists [], acc, true. destruct rc; [|discriminate]. cbn. repeat split; try constructor. exists []. repeat split; try constructor. cbn. lra.
  - destruct rc as [|r rc]; [discriminate|]. inversion HF as [|? ? (s' & v & E & Hv & Ok' & Hsim) HF']; subst.
    inversion Ho; subst. cbn [sV_loop]. rewrite E. rewrite R_nZ. destruct (nleb v (IZR 0)) eqn:C.
    + apply Rleb_true in C. exists (s' :: l), acc, false. split; [reflexivity|]. split; [constructor; auto; apply Forall2_refl, sim_refl|].
      split; [constructor; auto|].
      assert (X : exists vs, Forall2 (voltage n) l vs).
      { clear - HF'. induction HF' as [|x l (x' & v & _ & Hv & _) _ (vs & IH)]; [exists []; constructor|]. exists (v :: vs). constructor; auto. }
      destruct X as (vs & Hvs). exists (v :: vs). split; [constructor; auto|]. now apply Exists_cons_hd.
    + apply Rleb_false in C.
      destruct (IH rc (acc + (v - r * current n s)) HF' (eq_add_S _ _ Hl) H2) as (l' & a & b & E2 & S2 & O2 & vs & V2 & R2).
      exists (s' :: l'), a, b. rewrite I_current. cbn [nadd nsub nmul RNum]. rewrite (sim_current _ _ _ Hsim), E2.
      split; [reflexivity|]. split; [constructor; auto|]. split; [constructor; auto|]. exists (v :: vs). split; [constructor; auto|].
      destruct b; [|now apply Exists_cons_tl]. destruct R2 as [R2 R3]. split; [constructor; auto|]. rewrite R3. cbn. lra.
Qed.
Lemma V_right_all tm n : forall u, ok n u -> V_right tm n u.
Proof.
  assert (L : forall c : ecmu R, good_ocv (p_ocv (ep (u_ecm c))) -> exists v, ecm_V (u_ecm c) = Ok v) by (intros c; apply good_ocv_V).
  induction n as [|n IH]; intros u O.
  - destruct O as [_ [_ G]]. inversion G; subst. destruct (L _ H1) as [v Hv]. exists u, v. cbn. rewrite Hv. repeat split; auto.
  - node u c m.
    + assert (O' := O). destruct O as [_ [_ G]]. inversion G; subst. destruct (L _ H1) as [v Hv]. exists (inl c), v. cbn. unfold on_l. cbn. rewrite Hv.
      split; [reflexivity|]. split; [reflexivity|]. split; [exact O'|]. apply same_cell_refl.
    + assert (O' := O). rewrite ok_module in O. destruct O as (O1 & O2 & O3 & O4).
      assert (HV : Forall (V_right tm n) (ms m)) by (eapply Forall_impl; [|exact O4]; exact IH).
      unfold V_right. cbn [su_ops_at sum_ops o_V both mod_ops]. unfold on_r, mod_V.
      destruct (m_series (mm m)) eqn:Es.
      * destruct (m_Vok (mm m)) eqn:Ev.
        { exists (inr m), (m_V (mm m)). split; [reflexivity|]. split; [auto|]. split; [exact O'|apply sim_refl]. }
        destruct (sV_loop_right tm n (ms m) (m_rc (mm m)) (nZ 0) HV O3 O4) as (l' & a & b & E & S & K & vs & V & B).
        rewrite E. assert (Len := Forall2_len _ _ _ S).
        assert (Si : forall v b, sim (Datatypes.S n) (inr m) (inr (mkM (set_V (mm m) v b) l'))) by (intros; cbn; auto).
        destruct b.
        -- destruct B as [B1 B2]. rewrite R_nZ in B2. exists (inr (mkM (set_V (mm m) a true) l')), a. split; [reflexivity|].
           assert (VV : voltage (Datatypes.S n) (inr m) a).
           { cbn [voltage]. rewrite Es. exists vs. split; [exact V|]. left. split; [exact B1|]. lra. }
           split; [exact VV|]. split; [|apply Si].
           apply ok_module. cbn [mm ms set_V m_rc m_V m_series]. repeat split; auto; try congruence.
           ++ intros _ _. eapply sim_voltage; [apply Si|exact VV].
           ++ destruct l', (ms m); cbn in *; congruence.
        -- exists (inr (mkM (set_V (mm m) a false) l')), 0. rewrite R_nZ. split; [reflexivity|]. split; [|split; [|apply Si]].
           { cbn [voltage]. rewrite Es. exists vs. split; [exact V|]. right. auto. }
           apply ok_module. cbn [mm ms set_V m_rc m_V m_series m_Vok]. repeat split; auto; try congruence.
           destruct l', (ms m); cbn in *; congruence.
      * destruct (ms m) as [|s l] eqn:El; [congruence|]. destruct (m_rc (mm m)) as [|r rc] eqn:Er; [discriminate|].
        inversion HV as [|? ? (s' & v & E & Hv & Ok' & Hsim) HF']; subst. rewrite E.
        exists (inr (mkM (mm m) (s' :: l))), (v - current (Datatypes.S n) (inr m) * r).
        assert (Fs : Forall2 (sim n) (s :: l) (s' :: l)) by (constructor; [assumption|apply Forall2_refl, sim_refl]).
        assert (Si : sim (Datatypes.S n) (inr m) (inr (mkM (mm m) (s' :: l)))).
        { cbn [sim mm ms]. rewrite El. auto. }
        assert (Ec := I_current tm (Datatypes.S n) (inr (mkM (mm m) (s' :: l)))). cbn [su_ops_at sum_ops o_I both mod_ops] in Ec.
        split; [rewrite Ec, (sim_current _ _ _ Si); reflexivity|]. split.
        { cbn [voltage]. rewrite Es, El, Er. exists v. split; [exact Hv|]. cbn [current]. rewrite Es, El. cbn [nth]. reflexivity. }
        split; [|exact Si]. apply ok_module. cbn [mm ms]. rewrite Es, Er. inversion O4; subst.
        repeat split; auto; try discriminate.
Qed.
Lemma V_keeps tm n : keeps n (o_V (ops tm n)).
Proof.
  intros u u' r O E. destruct (V_right_all tm n u O) as (u1 & v & E1 & _ & K1 & K2). rewrite E1 in E. injection E as <- <-. auto.
Qed.

(** ** Current commands *)
Lemma leaf_ok (c c' : ecmu R) : ep (u_ecm c') = ep (u_ecm c) -> ok 0 c -> ok 0 c'.
Proof.
  intros E (_ & _ & G). inversion G; subst. split; [exact I|]. split; [exact I|]. constructor; [|constructor]. congruence.
Qed.
Lemma leaf_ok_S n (c c' : ecmu R) : ep (u_ecm c') = ep (u_ecm c) -> ok (S n) (inl c) -> ok (S n) (inl c').
Proof.
  intros E (_ & _ & G). inversion G; subst. split; [exact I|]. split; [exact I|]. constructor; [|constructor]. congruence.
Qed.
Lemma setCurrent_preserves tm n : forall i b, preserves n (o_setCurrent (ops tm n) i b).
Proof.
  induction n as [|n IH]; intros i b u u' r O H.
  - apply leaf_setCurrent_frame in H. destruct H as (_ & E & _). now apply (leaf_ok u).
  - node u c m; cbn in H; unfold on_l, on_r in H.
    + destruct (lift_ecm _ c) as [c' r'] eqn:E. injection H as <- <-. apply (leaf_setCurrent_frame i b c c' r') in E.
      destruct E as (_ & E & _). now apply (leaf_ok_S n c).
    + destruct (mod_setCurrent _ i b m) as [m' r'] eqn:E. injection H as <- <-. apply mod_setCurrent_rel in E. destruct E as [F E].
      apply (ok_inval n m); auto.
      * rewrite E. destruct (m_series (mm m)); reflexivity.
      * rewrite E. destruct (m_series (mm m)) eqn:D; [discriminate|auto].
      * symmetry. eapply Forall2_len; exact F.
      * apply ok_module in O. eapply rel_preserves; [exact F| |apply O]. intros s s' Os Hs. eapply cur_rel_preserves; eauto using V_keeps.
Qed.
Lemma curs_preserve tm n l l' : curs (ops tm n) l l' -> Forall (ok n) l -> Forall (ok n) l'.
Proof.
  intros F. eapply rel_preserves; [exact F|]. intros s s' O H. eapply cur_rel_preserves; eauto using V_keeps, setCurrent_preserves.
Qed.

(** ** States *)
Section Restore.
Context {S : Type} (o : su_ops R S).
Inductive st_rel : S -> S -> Prop :=
| sr_refl s : st_rel s s
| sr_set l b s s' : st_rel (fst (o_setStates o l b s)) s' -> st_rel s s'.
Lemma st_trans s1 s2 s3 : st_rel s1 s2 -> st_rel s2 s3 -> st_rel s1 s3.
Proof. induction 1; eauto using st_rel. Qed.
Lemma child_st x b j l l' r : child_do (o_setStates o x b) j l = (l', r) -> Forall2 st_rel l l'.
Proof.
  intros H. destruct (child_do_spec _ _ _ _ _ H) as [(s & s' & E1 & E2 & ->)|(_ & -> & _)]; [|apply Forall2_refl, sr_refl].
  eapply Forall2_set; eauto using st_rel. apply (sr_set x b). rewrite E2. constructor.
Qed.
Lemma ss_restore_st c : forall i orig l l' r, ss_restore_from o c i orig l = (l', r) -> Forall2 st_rel l l'.
Proof.
  induction c as [|c IH]; intros i orig l l' r H; cbn [ss_restore_from] in H; [injection H as <- <-; apply Forall2_refl, sr_refl|].
  destruct (child_do _ i l) as [l1 [[rest st]| | |]] eqn:E; apply child_st in E; try (injection H as <- <-; exact E).
  eapply Forall2_trans; [exact st_trans|exact E|eauto].
Qed.
Lemma ss_loop_st todo : forall i s orig b l l' r, ss_loop o todo i s orig b l = (l', r) -> Forall2 st_rel l l'.
Proof.
  induction todo as [|t IH]; intros i s orig b l l' r H; cbn [ss_loop] in H; [injection H as <- <-; apply Forall2_refl, sr_refl|].
  destruct (child_do _ i l) as [l1 [[rest st]| | |]] eqn:E; apply child_st in E; try (injection H as <- <-; exact E).
  destruct (isStatusBad st).
  - destruct (ss_restore_from o _ i orig l1) as [l2 [x| | |]] eqn:E2; apply ss_restore_st in E2; injection H as <- <-;
      (eapply Forall2_trans; [exact st_trans|exact E|exact E2]).
  - eapply Forall2_trans; [exact st_trans|exact E|eauto].
Qed.
Lemma mod_setStates_rel s b m m' r : mod_setStates o s b m = (m', r) ->
  Forall2 st_rel (ms m) (ms m') /\ exists k, mm m' = set_cool (inval (mm m)) k.
Proof.
  unfold mod_setStates. destruct (ss_loop o _ _ s _ b _) as [l rr] eqn:E. apply ss_loop_st in E.
  assert (T : exists k, inval (mm m) = set_cool (inval (mm m)) k) by (exists (m_cool (mm m)); destruct m as [[] ?]; reflexivity).
  destruct rr as [[rest st]| | |]; try (intros [= <- <-]; auto).
  destruct (isStatusBad st); [intros [= <- <-]; auto|]. destruct rest as [|t rest]; [intros [= <- <-]; auto|].
  destruct (cool_setT _ _) as [k [x| | |]]; intros [= <- <-]; cbn; eauto.
Qed.
End Restore.
Lemma leaf_setStates_ep s b (c c' : ecmu R) r : o_setStates ecm_ops s b c = (c', r) -> ep (u_ecm c') = ep (u_ecm c).
Proof.
  cbn [ecm_ops o_setStates]. unfold lift_ecm. destruct (ecm_setStates s b (u_ecm c)) as [e r'] eqn:E. intros [= <- <-]. cbn.
  unfold ecm_setStates in E. destruct (ecm_read _ s) as [[st rest]| | |]; try (injection E as <- <-; reflexivity).
  destruct (check_Cell_states _ _ _) as [st'| | |]; injection E as <- <-; try destruct (isStatusBad st'); reflexivity.
Qed.
Lemma setStates_preserves tm n : forall s b, preserves n (o_setStates (ops tm n) s b).
Proof.
  induction n as [|n IH]; intros s b u u' r O H.
  - apply leaf_setStates_ep in H. now apply (leaf_ok u).
  - node u c m; cbn [su_ops_at sum_ops o_setStates both mod_ops] in H; unfold on_l, on_r in H.
    + destruct (o_setStates ecm_ops s b c) as [c' r'] eqn:E. injection H as <- <-. apply leaf_setStates_ep in E. now apply (leaf_ok_S n c).
    + destruct (mod_setStates _ s b m) as [m' r'] eqn:E. injection H as <- <-. apply mod_setStates_rel in E. destruct E as [F (k & E)].
      apply (ok_inval n m); auto.
      * rewrite E. reflexivity.
      * rewrite E. discriminate.
      * symmetry. eapply Forall2_len; exact F.
      * apply ok_module in O. eapply rel_preserves; [exact F| |apply O]. intros x x' Ox Hx. revert Ox. induction Hx as [x|l bb x x' Hx IHx]; auto.
        intros Ox. apply IHx. destruct (o_setStates (ops tm n) l bb x) as [x1 r1] eqn:E1. eapply IH; eauto.
Qed.
