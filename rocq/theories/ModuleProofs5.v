(** * Proofs about modules: thermal model, time step, histories *)
From Coq Require Import List Lia.
From Verif Require Import Base RFacts StatusModel StatusProofs CellModel CellSpec CellProofs CoolModel ModuleModel ModuleSpec ModuleProofs ModuleProofs2 ModuleProofs3 ModuleProofs4.
Import ListNotations.

(** ** What the thermal model may change, for any carrier *)
Section Thermal.
Context {A : Type} {NA : Num A} {S : Type} (o : su_ops A S).
Implicit Types m : module A S.
Definition frame_rec (r r' : modrec A) : Prop :=
  m_series r' = m_series r /\ m_rc r' = m_rc r /\ m_k r' = m_k r /\ m_area r' = m_area r /\ m_N r' = m_N r /\ m_V r' = m_V r /\
  m_Vok r' = m_Vok r /\ m_par r' = m_par r /\ m_block r' = m_block r /\ m_top r' = m_top r.
Lemma frame_rec_refl r : frame_rec r r. Proof. repeat split. Qed.
Lemma frame_rec_trans r1 r2 r3 : frame_rec r1 r2 -> frame_rec r2 r3 -> frame_rec r1 r3.
Proof. unfold frame_rec. intuition congruence. Qed.
Lemma frame_cool r k : frame_rec r (set_cool r k). Proof. repeat split. Qed.
Lemma frame_therm r q t : frame_rec r (set_therm r q t). Proof. repeat split. Qed.
Inductive th_rel : S -> S -> Prop :=
| tr_refl s : th_rel s s
| tr_th nb t s s' : th_rel (fst (o_thermal o nb t s)) s' -> th_rel s s'
| tr_setT t s s' : th_rel (fst (o_setT o t s)) s' -> th_rel s s'.
Definition ths := Forall2 th_rel.
Lemma th_rel_trans s1 s2 s3 : th_rel s1 s2 -> th_rel s2 s3 -> th_rel s1 s3.
Proof. induction 1; eauto using th_rel. Qed.
Lemma ths_trans l1 l2 l3 : ths l1 l2 -> ths l2 l3 -> ths l1 l3.
Proof. apply Forall2_trans, th_rel_trans. Qed.
Lemma ths_refl l : ths l l. Proof. apply Forall2_refl, tr_refl. Qed.
Lemma th_children_ths m tim : forall todo i l l' r, th_children o todo i m tim l = (l', r) -> ths l l'.
Proof.
  induction todo as [|t IH]; intros i l l' r H; cbn [th_children] in H; [injection H as <- <-; apply ths_refl|].
  destruct (neighbours o m i l) as [nb|]; [|injection H as <- <-; apply ths_refl].
  destruct (child_do _ i l) as [l1 rr] eqn:E.
  assert (F : ths l l1).
  { destruct (child_do_spec _ _ _ _ _ E) as [(s & s' & E1 & E2 & ->)|(_ & -> & _)]; [|apply ths_refl].
    eapply Forall2_set; eauto using th_rel. apply (tr_th nb tim). rewrite E2. constructor. }
  destruct rr; try (injection H as <- <-; exact F).
  destruct (th_children o t _ m tim l1) as [l2 r2] eqn:E2. injection H as <- <-. eapply ths_trans; eauto.
Qed.
Lemma set_temps_ths : forall l ts l' r, set_temps o ts l = (l', r) -> ths l l'.
Proof.
  induction l as [|s l IH]; intros [|t ts] l' r H; cbn [set_temps] in H; try (injection H as <- <-; apply ths_refl).
  assert (X : th_rel s (fst (o_setT o t s))) by (apply (tr_setT t); constructor).
  destruct (o_setT o t s) as [s' [x| | |]]; try (injection H as <- <-; constructor; [exact X|apply ths_refl]).
  destruct (set_temps o ts l) as [l2 r2] eqn:E. injection H as <- <-. constructor; [exact X|exact (IH _ _ _ E)].
Qed.
Lemma th_coupled_frame nb tim m m' r : th_coupled o nb tim m = (m', r) -> ths (ms m) (ms m') /\ frame_rec (mm m) (mm m').
Proof.
  unfold th_coupled. match goal with |- context [if ?b then _ else _] => destruct b end; [intros [= <- <-]; split; [apply ths_refl|apply frame_rec_refl]|].
  destruct (neqb tim _); [intros [= <- <-]; split; [apply ths_refl|apply frame_rec_refl]|].
  destruct (Nat.ltb _ _); [intros [= <- <-]; split; [apply ths_refl|apply frame_rec_refl]|].
  destruct (th_children o _ 0 m tim (ms m)) as [l rr] eqn:E. apply th_children_ths in E.
  destruct rr; try (intros [= <- <-]; split; [exact E|apply frame_rec_refl]).
  match goal with |- context [cool_dstate ?a ?b ?c ?d] => destruct (cool_dstate a b c d) as [k [Tc| | |]] end;
    try (intros [= <- <-]; split; [exact E|apply frame_cool]).
  destruct (set_temps o _ l) as [l2 rr2] eqn:E2. apply set_temps_ths in E2.
  assert (F : ths (ms m) l2) by (eapply ths_trans; eauto).
  destruct rr2; try (intros [= <- <-]; split; [exact F|apply frame_cool]).
  match goal with |- context [if ?b then _ else _] => destruct b end; intros [= <- <-]; (split; [exact F|]);
    (eapply frame_rec_trans; [apply frame_cool|apply frame_therm]).
Qed.
Lemma th_cell_frame m m' r : th_cell o m = (m', r) -> ths (ms m) (ms m') /\ mm m' = mm m.
Proof.
  unfold th_cell. destruct (Nat.ltb _ _); [intros [= <- <-]; split; [apply ths_refl|reflexivity]|].
  destruct (each _ (ms m)) as [l rr] eqn:E. assert (F : ths (ms m) l).
  { eapply Forall2_impl; [|exact (each_rel _ _ _ _ E)]. intros s s' [->| ->]; [constructor|]. eapply tr_th. constructor. }
  destruct rr; try (intros [= <- <-]; split; [exact F|reflexivity]).
  destruct (set_temps o _ l) as [l2 rr2] eqn:E2. apply set_temps_ths in E2.
  destruct rr2; intros [= <- <-]; split; try reflexivity; eapply ths_trans; eauto.
Qed.
Lemma mod_thermal_frame tm nb tim m m' r : mod_thermal o tm nb tim m = (m', r) -> ths (ms m) (ms m') /\ frame_rec (mm m) (mm m').
Proof.
  unfold mod_thermal.
  destruct (if (tm =? 0)%Z then _ else _) as [m1 rr] eqn:E.
  assert (F : ths (ms m) (ms m1) /\ frame_rec (mm m) (mm m1)).
  { destruct (tm =? 0)%Z; [injection E as <- <-; split; [apply ths_refl|apply frame_rec_refl]|].
    destruct (tm =? 1)%Z; [apply th_cell_frame in E; destruct E as [E ->]; split; [exact E|apply frame_rec_refl]|].
    now apply th_coupled_frame in E. }
  destruct F as [F1 F2]. destruct rr; intros [= <- <-]; (split; [exact F1|]); try exact F2;
    (eapply frame_rec_trans; [exact F2|apply frame_therm]).
Qed.
Lemma mod_setT_frame t m m' r : mod_setT t m = (m', r) -> ms m' = ms m /\ frame_rec (mm m) (mm m').
Proof. unfold mod_setT. destruct (cool_setT _ _) as [k rr]. intros [= <- <-]. split; [reflexivity|apply frame_cool]. Qed.
Lemma mod_heat_step_frame tm dt n m m' r : mod_heat_step o tm dt n m = (m', r) -> ths (ms m) (ms m') /\ frame_rec (mm m) (mm m').
Proof.
  unfold mod_heat_step. destruct (m_block (mm m)); [intros [= <- <-]; split; [apply ths_refl|apply frame_rec_refl]|].
  set (q := if m_series (mm m) then _ else _). clearbody q.
  set (m1 := mkM (set_therm (mm m) q _) (ms m)).
  destruct (if m_top (mm m) then _ else _) as [m2 rr] eqn:E.
  assert (F : ths (ms m) (ms m2) /\ frame_rec (mm m) (mm m2)).
  { assert (F1 : frame_rec (mm m) (mm m1)) by apply frame_therm.
    destruct (m_top (mm m)); [|injection E as <- <-; split; [apply ths_refl|exact F1]].
    destruct (k_kind _); try (injection E as <- <-; split; [apply ths_refl|exact F1]).
    destruct (mod_thermal o tm [] (m_time (mm m1)) m1) as [m3 r3] eqn:E3. apply mod_thermal_frame in E3. destruct E3 as [E3 E4].
    destruct r3; try (injection E as <- <-; split; [exact E3|eapply frame_rec_trans; eassumption]).
    apply mod_setT_frame in E. destruct E as [E5 E6]. rewrite E5. split; [exact E3|].
    eapply frame_rec_trans; [exact F1|]. exact (frame_rec_trans _ _ _ E4 E6). }
  destruct F as [F1 F2]. destruct rr; intros [= <- <-]; (split; [exact F1|]); try exact F2.
Qed.
(** A time step that returns *)
Lemma mod_timeStep_ok tm dt n m m' : mod_timeStep o tm dt n m = (m', Ok tt) ->
  exists l1 l2 us, each (o_timeStep o dt n) (ms m) = (l1, Ok us) /\ ths l1 l2 /\
    (if m_series (mm m) then ms m' = l2 else curs o l2 (ms m')) /\
    exists r, mod_heat_step o tm dt n (mkM (mm m) l1) = (mkM r l2, Ok tt) /\ mm m' = inval r /\ frame_rec (mm m) r.
Proof.
  unfold mod_timeStep, step_children. match goal with |- context [if ?b then _ else _] => destruct b end; [discriminate|].
  destruct (each _ (ms m)) as [l1 [us| | |]] eqn:E; [|destruct (m_par (mm m)); discriminate|discriminate|discriminate].
  destruct (mod_heat_step o tm dt n (mkM (mm m) l1)) as [[r l2] [[]| | |]] eqn:E2; try discriminate.
  assert (F := mod_heat_step_frame _ _ _ _ _ _ E2). cbn [ms mm] in *. destruct F as [F1 F2].
  intros H. exists l1, l2, us. split; [reflexivity|]. split; [exact F1|].
  destruct (m_series (mm m)).
  - injection H as <-. split; [reflexivity|]. exists r. auto.
  - destruct (p_redistribute _ _ l2) as [l3 [st| | |]] eqn:E3; try discriminate.
    apply p_redistribute_curs in E3. destruct (status_eqb st Success).
    + injection H as <-. split; [exact E3|]. exists r. auto.
    + destruct (p_redistribute _ _ l3) as [l4 [st4| | |]]; discriminate.
Qed.
Lemma cl_children_rel : forall l acc l' r, cl_children o acc l = (l', r) -> Forall2 (fun s s' => s' = s \/ s' = fst (o_coolload o s)) l l'.
Proof.
  induction l as [|s l IH]; intros acc l' r H; cbn [cl_children] in H; [injection H as <- <-; constructor|].
  destruct (o_coolload o s) as [s1 [[e|]| | |]] eqn:E;
    try (injection H as <- <-; constructor; [right; now rewrite E|apply Forall2_refl; auto]).
  - destruct (cl_children o (nadd acc e) l) as [l2 r2] eqn:E2. injection H as <- <-. constructor; [right; now rewrite E|eauto].
  - destruct (cl_children o acc l) as [l2 r2] eqn:E2. injection H as <- <-. constructor; [right; now rewrite E|eauto].
Qed.
End Thermal.

Local Open Scope R_scope.
Lemma leaf_sim n (c c' : ecmu R) : same_cell c c' -> ok (S n) (inl c) -> ok (S n) (inl c') /\ sim (S n) (inl c) (inl c').
Proof. intros H O. split; [|exact H]. apply (leaf_ok_S n c); [apply H|exact O]. Qed.
Lemma leaf_sim0 (c c' : ecmu R) : same_cell c c' -> ok 0 c -> ok 0 c' /\ sim 0 c c'.
Proof. intros H O. split; [|exact H]. apply (leaf_ok c); [apply H|exact O]. Qed.
Lemma each_keeps {X} n (f : tree n -> tree n * res X) l l' r : keeps n f -> each f l = (l', r) -> Forall (ok n) l ->
  Forall (ok n) l' /\ Forall2 (sim n) l l'.
Proof.
  intros K E. eapply rel_keeps; [exact (each_rel _ _ _ _ E)|]. intros s s' O [->| ->]; [split; [exact O|apply sim_refl]|].
  destruct (f s) as [s1 r1] eqn:E1. exact (K _ _ _ O E1).
Qed.
Lemma lift_leaf {X} (f : ecm R -> ecm R * res X) (c c' : ecmu R) r : lift_ecm f c = (c', r) ->
  (forall e, fst (f e) = e) -> c' = c.
Proof. unfold lift_ecm. intros H K. specialize (K (u_ecm c)). destruct (f (u_ecm c)) as [e x]. injection H as <- <-. cbn in K. rewrite K. now destruct c. Qed.

(** Limits and extremes *)
Lemma checkV_keeps tm n : keeps n (o_checkV (ops tm n)).
Proof.
  induction n as [|n IH]; intros u u' r O H.
  - cbn in H. injection H as <- <-. split; [exact O|apply sim_refl].
  - node u c m; cbn [su_ops_at sum_ops o_checkV both mod_ops] in H; unfold on_l, on_r in H.
    + cbn in H. injection H as <- <-. split; [exact O|apply sim_refl].
    + destruct (mod_checkV _ m) as [m' r'] eqn:E. injection H as <- <-. unfold mod_checkV in E.
      assert (KV := V_keeps tm (S n) (inr m)). cbn [su_ops_at sum_ops o_V both mod_ops] in KV. unfold on_r in KV.
      destruct (mod_V _ m) as [m1 rv] eqn:EV. specialize (KV _ _ O eq_refl). destruct KV as [O1 S1].
      destruct rv; try (injection E as <- <-; auto).
      destruct (each _ (ms m1)) as [l rl] eqn:EL. pose proof (proj1 (ok_module n m1) O1) as (_ & _ & _ & F1).
      destruct (each_keeps n _ _ _ _ IH EL F1) as [F2 F3].
      destruct (ok_sim n m1 (mkM (mm m1) l) O1 eq_refl eq_refl eq_refl eq_refl F3 F2) as [O2 S2].
      destruct rl; injection E as <- <-; split; auto; eapply sim_trans; eauto.
Qed.
Lemma Vhigh_keeps tm n : keeps n (o_Vhigh (ops tm n)).
Proof.
  induction n as [|n IH]; intros u u' r O H.
  - cbn in H. injection H as <- <-. split; [exact O|apply sim_refl].
  - node u c m; cbn [su_ops_at sum_ops o_Vhigh both mod_ops] in H; unfold on_l, on_r in H.
    + cbn in H. injection H as <- <-. split; [exact O|apply sim_refl].
    + unfold mod_Vhigh in H. destruct (each _ (ms m)) as [l rl] eqn:EL. injection H as <- <-.
      pose proof (proj1 (ok_module n m) O) as (_ & _ & _ & F1).
      destruct (each_keeps n _ _ _ _ IH EL F1) as [F2 F3]. exact (ok_sim n m (mkM (mm m) l) O eq_refl eq_refl eq_refl eq_refl F3 F2).
Qed.
Lemma Vlow_keeps tm n : keeps n (o_Vlow (ops tm n)).
Proof.
  induction n as [|n IH]; intros u u' r O H.
  - cbn in H. injection H as <- <-. split; [exact O|apply sim_refl].
  - node u c m; cbn [su_ops_at sum_ops o_Vlow both mod_ops] in H; unfold on_l, on_r in H.
    + cbn in H. injection H as <- <-. split; [exact O|apply sim_refl].
    + unfold mod_Vlow in H. destruct (each _ (ms m)) as [l rl] eqn:EL. injection H as <- <-.
      pose proof (proj1 (ok_module n m) O) as (_ & _ & _ & F1).
      destruct (each_keeps n _ _ _ _ IH EL F1) as [F2 F3]. exact (ok_sim n m (mkM (mm m) l) O eq_refl eq_refl eq_refl eq_refl F3 F2).
Qed.

(** Temperatures *)
Lemma leaf_setT_sim t (c c' : ecmu R) r : o_setT ecm_ops t c = (c', r) -> same_cell c c'.
Proof.
  cbn [ecm_ops o_setT]. unfold lift_ecm. destruct (ecm_setT t (u_ecm c)) as [e x] eqn:E. intros [= <- <-]. cbn. unfold ecm_setT in E.
  injection E as <- <-. repeat split.
Qed.
Lemma leaf_thermal_sim nb t (c c' : ecmu R) r : o_thermal ecm_ops nb t c = (c', r) -> same_cell c c'.
Proof. cbn [ecm_ops o_thermal]. intros [= <- <-]. apply same_cell_refl. Qed.
Lemma setT_keeps tm n t : keeps n (o_setT (ops tm n) t).
Proof.
  destruct n as [|n]; intros u u' r O H.
  - apply leaf_setT_sim in H. now apply leaf_sim0.
  - node u c m; cbn [su_ops_at sum_ops o_setT both mod_ops] in H; unfold on_l, on_r in H.
    + destruct (o_setT ecm_ops t c) as [c' r'] eqn:E. injection H as <- <-. apply leaf_setT_sim in E. now apply leaf_sim.
    + destruct (mod_setT t m) as [m' r'] eqn:E. injection H as <- <-. apply mod_setT_frame in E. destruct E as [E1 F].
      destruct F as (F1 & F2 & F3 & F4 & F5 & F6 & F7 & F8). apply ok_sim; auto; rewrite E1; [apply Forall2_refl, sim_refl|].
      now apply ok_module in O.
Qed.
Lemma thermal_keeps tm n : forall nb t, keeps n (o_thermal (ops tm n) nb t).
Proof.
  induction n as [|n IH]; intros nb t u u' r O H.
  - apply leaf_thermal_sim in H. now apply leaf_sim0.
  - node u c m; cbn [su_ops_at sum_ops o_thermal both mod_ops] in H; unfold on_l, on_r in H.
    + destruct (o_thermal ecm_ops nb t c) as [c' r'] eqn:E. injection H as <- <-. apply leaf_thermal_sim in E. now apply leaf_sim.
    + destruct (mod_thermal _ tm nb t m) as [m' r'] eqn:E. injection H as <- <-. apply mod_thermal_frame in E. destruct E as [E1 F].
      destruct F as (F1 & F2 & F3 & F4 & F5 & F6 & F7 & F8).
      assert (X : Forall (ok n) (ms m') /\ Forall2 (sim n) (ms m) (ms m')); [|destruct X; now apply ok_sim].
      eapply rel_keeps; [exact E1| |now apply ok_module in O]. clear - IH.
      intros s s' O H. revert O. induction H as [s|nb t s s' H IHr|t s s' H IHr]; intros O; [split; [exact O|apply sim_refl]| |].
      * destruct (o_thermal (ops tm n) nb t s) as [s1 r1] eqn:E1. destruct (IH _ _ _ _ _ O E1) as [K1 K2].
        destruct (IHr K1) as [K3 K4]. split; [exact K3|eapply sim_trans; eauto].
      * destruct (o_setT (ops tm n) t s) as [s1 r1] eqn:E1. destruct (setT_keeps _ _ _ _ _ _ O E1) as [K1 K2].
        destruct (IHr K1) as [K3 K4]. split; [exact K3|eapply sim_trans; eauto].
Qed.
Lemma ths_keep tm n l l' : ths (ops tm n) l l' -> Forall (ok n) l -> Forall (ok n) l' /\ Forall2 (sim n) l l'.
Proof.
  intros E. eapply rel_keeps; [exact E|]. clear.
  intros s s' O H. revert O. induction H as [s|nb t s s' H IHr|t s s' H IHr]; intros O; [split; [exact O|apply sim_refl]| |].
  * destruct (o_thermal (ops tm n) nb t s) as [s1 r1] eqn:E1. destruct (thermal_keeps _ _ _ _ _ _ _ O E1) as [K1 K2].
    destruct (IHr K1) as [K3 K4]. split; [exact K3|eapply sim_trans; eauto].
  * destruct (o_setT (ops tm n) t s) as [s1 r1] eqn:E1. destruct (setT_keeps _ _ _ _ _ _ O E1) as [K1 K2].
    destruct (IHr K1) as [K3 K4]. split; [exact K3|eapply sim_trans; eauto].
Qed.

(** Flags and cooling load *)
Lemma setFlag_keeps tm n b (u : tree n) : ok n u -> ok n (o_setFlag (ops tm n) b u) /\ sim n u (o_setFlag (ops tm n) b u).
Proof.
  destruct n as [|n]; intros O.
  - cbn. apply leaf_sim0; [repeat split|exact O].
  - node u c m; cbn [su_ops_at sum_ops o_setFlag both mod_ops].
    + cbn. apply leaf_sim; [repeat split|exact O].
    + apply ok_sim; auto; [apply Forall2_refl, sim_refl|]. now apply ok_module in O.
Qed.
Lemma coolload_keeps tm n : keeps n (o_coolload (ops tm n)).
Proof.
  induction n as [|n IH]; intros u u' r O H.
  - cbn in H. injection H as <- <-. split; [exact O|apply sim_refl].
  - node u c m; cbn [su_ops_at sum_ops o_coolload both mod_ops] in H; unfold on_l, on_r in H.
    + cbn in H. injection H as <- <-. split; [exact O|apply sim_refl].
    + unfold mod_coolload in H. destruct (cl_children _ _ (ms m)) as [l rl] eqn:EL. injection H as <- <-.
      apply cl_children_rel in EL. apply ok_module in O as F. destruct F as (_ & _ & _ & F).
      assert (X : Forall (ok n) l /\ Forall2 (sim n) (ms m) l); [|destruct X; now apply ok_sim].
      eapply rel_keeps; [exact EL| |exact F]. intros s s' Os [->| ->]; [split; [exact Os|apply sim_refl]|].
      destruct (o_coolload (ops tm n) s) as [s1 r1] eqn:E1. exact (IH _ _ _ Os E1).
Qed.

(** Time steps that return *)
Lemma leaf_step_ep dt k (c c' : ecmu R) r : o_timeStep ecm_ops dt k c = (c', r) -> ep (u_ecm c') = ep (u_ecm c).
Proof.
  cbn [ecm_ops o_timeStep]. unfold lift_ecm. destruct (ecm_timeStep_CC dt k (u_ecm c)) as [e x] eqn:E. intros [= <- <-]. cbn.
  unfold ecm_timeStep_CC in E. destruct (nltb dt (nZ 0)); [injection E as <- <-; reflexivity|]. now apply ecm_steps_frame in E.
Qed.
Lemma timeStep_preserves tm n : forall dt k (u u' : tree n), ok n u -> o_timeStep (ops tm n) dt k u = (u', Ok tt) -> ok n u'.
Proof.
  induction n as [|n IH]; intros dt k u u' O H.
  - apply leaf_step_ep in H. now apply (leaf_ok u).
  - node u c m; cbn [su_ops_at sum_ops o_timeStep both mod_ops] in H; unfold on_l, on_r in H.
    + destruct (o_timeStep ecm_ops dt k c) as [c' r'] eqn:E. injection H as <- ->. apply leaf_step_ep in E. now apply (leaf_ok_S n c).
    + destruct (mod_timeStep _ tm dt k m) as [m' r'] eqn:E. injection H as <- ->. apply mod_timeStep_ok in E.
      destruct E as (l1 & l2 & us & E1 & E2 & E3 & r & _ & E4 & E5).
      apply ok_module in O as F. destruct F as (_ & _ & _ & F).
      destruct (each_ok _ _ _ _ E1) as (G & L1 & L2).
      assert (F1 : Forall (ok n) l1).
      { clear - IH G F L1. revert l1 us G L1. induction (ms m) as [|s l IHl]; intros [|a l1] [|x us] G L1; inversion G; subst; try discriminate; constructor.
        - inversion F; subst. cbn in *. destruct x. eapply IH; eauto.
        - inversion F; subst. eapply IHl; eauto. }
      destruct (ths_keep _ _ _ _ E2 F1) as [F2 F3]. assert (L3 := Forall2_len _ _ _ F3).
      assert (F4 : Forall (ok n) (ms m') /\ length (ms m') = length (ms m)).
      { destruct (m_series (mm m)); [rewrite E3; split; [exact F2|congruence]|]. split; [exact (curs_preserve _ _ _ _ E3 F2)|].
        assert (L4 := Forall2_len _ _ _ E3). congruence. }
      apply (ok_inval n m); auto; try apply F4.
      * rewrite E4. apply E5.
      * rewrite E4. discriminate.
Qed.

(** ** Histories *)
Lemma setVoltage_preserves tm n v : preserves n (setVoltage_iterative (ops tm n) v).
Proof.
  unfold setVoltage_iterative. intros u. generalize (o_I (ops tm n) u) as ia. generalize 50%nat as it. intros it; revert u.
  induction it as [|it IH]; intros u ia u' r O H; cbn [setVoltage_loop] in H; [injection H as <- <-; exact O|].
  destruct (o_V (ops tm n) u) as [s1 r1] eqn:E1. destruct (V_keeps _ _ _ _ _ O E1) as [O1 _].
  destruct r1; try (injection H as <- <-; exact O1).
  match type of H with context [if ?b then _ else _] => destruct b end; [injection H as <- <-; exact O1|].
  match type of H with context [o_setCurrent (ops tm n) ?i true s1] => destruct (o_setCurrent (ops tm n) i true s1) as [s2 r2] eqn:E2 end.
  assert (O2 := setCurrent_preserves _ _ _ _ _ _ _ O1 E2). destruct r2; try (injection H as <- <-; exact O2).
  destruct (o_V (ops tm n) s2) as [s3 r3] eqn:E3. destruct (V_keeps _ _ _ _ _ O2 E3) as [O3 _].
  destruct r3; try (injection H as <- <-; exact O3).
  match type of H with context [o_setCurrent (ops tm n) ?i true s3] => destruct (o_setCurrent (ops tm n) i true s3) as [s4 r4] eqn:E4 end.
  assert (O4 := setCurrent_preserves _ _ _ _ _ _ _ O3 E4). destruct r4; try (injection H as <- <-; exact O4). eauto.
Qed.
Lemma root_call_ok tm n u u' : root_call tm n u u' -> ok n u -> ok n u'.
Proof.
  intros H O. destruct H as [u u' r H|u u' r H|u u' r H|u u' r H|i chk u u' r H|v u u' r H|s chk u u' r H|dt k u u' H|nb t u u' r H|t u u' r H|b u|u u' r H].
  - eapply V_keeps; eauto.
  - eapply checkV_keeps; eauto.
  - eapply Vhigh_keeps; eauto.
  - eapply Vlow_keeps; eauto.
  - eapply setCurrent_preserves; eauto.
  - eapply setVoltage_preserves; eauto.
  - eapply setStates_preserves; eauto.
  - eapply timeStep_preserves; eauto.
  - eapply thermal_keeps; eauto.
  - eapply setT_keeps; eauto.
  - apply setFlag_keeps, O.
  - eapply coolload_keeps; eauto.
Qed.
Lemma module_call_ok tm n m m' : module_call tm n m m' -> ok (S n) (inr m) -> ok (S n) (inr m').
Proof.
  intros H O. apply ok_module in O as F. destruct F as (_ & F1 & F2 & F3).
  destruct H as [m m' H|m l r H Hs|v m l r H Hs|b m|rc m H|l m H1 H2 H3 H4].
  - eapply root_call_ok; eauto.
  - apply p_redistribute_curs in H. apply (ok_inval n m); auto; [symmetry; exact (Forall2_len _ _ _ H)|exact (curs_preserve _ _ _ _ H F3)].
  - apply p_setVoltage_curs in H. apply (ok_inval n m); auto; [symmetry; exact (Forall2_len _ _ _ H)|exact (curs_preserve _ _ _ _ H F3)].
  - assert (X : Forall (ok n) (map (o_setFlag (ops tm n) b) (ms m)) /\ Forall2 (sim n) (ms m) (map (o_setFlag (ops tm n) b) (ms m))).
    { clear - F3. induction F3 as [|s l Hs _ [IH1 IH2]]; cbn; [split; constructor|]. destruct (setFlag_keeps tm n b s Hs). split; constructor; auto. }
    destruct X as [X1 X2]. apply (ok_sim n m (mod_setBlock _ b m)); auto.
  - apply ok_module. cbn. repeat split; auto; discriminate.
  - apply ok_module. cbn. rewrite repeat_length. repeat split; auto; try discriminate.
    rewrite Forall_forall in *. intros s Hs. split; [auto|split; [exact (H2 s Hs)|exact (H4 s Hs)]].
Qed.
Lemma voltage_unique n : forall (u : tree n) v w, voltage n u v -> voltage n u w -> v = w.
Proof.
  induction n as [|n IH]; intros u v w.
  - cbn. congruence.
  - node u c m; cbn [voltage]; [cbn; congruence|]. destruct (m_series (mm m)).
    + intros (vs & F & E) (ws & G & K).
      assert (X : vs = ws).
      { clear - IH F G. revert ws G. induction F; intros ws G; inversion G; subst; [reflexivity|]. f_equal; eauto. }
      subst ws. destruct E as [[E1 E2]|[E1 E2]], K as [[K1 K2]|[K1 K2]]; try congruence.
      * exfalso. apply Exists_exists in K1. destruct K1 as (x & Hx & Lx). rewrite Forall_forall in E1. specialize (E1 x Hx). lra.
      * exfalso. apply Exists_exists in E1. destruct E1 as (x & Hx & Lx). rewrite Forall_forall in K1. specialize (K1 x Hx). lra.
    + destruct (ms m) as [|s l]; [congruence|].
      intros (a & Ha & ->) (b & Hb & ->). rewrite (IH _ _ _ Ha Hb). reflexivity.
Qed.
