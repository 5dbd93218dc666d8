(** * Proofs about modules: ladder, time, heat, extremes, cooling energy *)
From Coq Require Import List Lia.
From Verif Require Import Base RFacts StatusModel StatusProofs CellModel CellSpec CellProofs CoolModel ModuleModel ModuleSpec ModuleProofs ModuleProofs2 ModuleProofs3 ModuleProofs4 ModuleProofs5.
Import ListNotations.

(** ** Time steps, for any carrier *)
Section Any.
Context {A : Type} {NA : Num A}.
Notation tree n := (su A (ecmu A) n).
Notation ops tm n := (su_ops_at (C := ecmu A) ecm_ops tm n).
Definition but_IT (c d : ecmu A) : Prop :=
  u_block d = u_block c /\ ep (u_ecm d) = ep (u_ecm c) /\ e_SOC (es (u_ecm d)) = e_SOC (es (u_ecm c)) /\
  e_Ir (es (u_ecm d)) = e_Ir (es (u_ecm c)) /\ e_time (es (u_ecm d)) = e_time (es (u_ecm c)) /\
  e_Ah (es (u_ecm d)) = e_Ah (es (u_ecm c)) /\ e_Wh (es (u_ecm d)) = e_Wh (es (u_ecm c)).
Lemma but_IT_refl c : but_IT c c. Proof. repeat split. Qed.
Lemma but_IT_trans a b c : but_IT a b -> but_IT b c -> but_IT a c.
Proof. unfold but_IT. intuition congruence. Qed.
Lemma only_I_IT c d : only_I c d -> but_IT c d.
Proof. intros (H1 & H2 & H3). unfold but_IT. rewrite H3. auto 10. Qed.
Lemma st_refl (P : ecmu A -> ecmu A -> Prop) n : (forall c, P c c) -> forall u : tree n, same_tree P n u u.
Proof.
  intros H. induction n as [|n IH]; intros u; [apply H|]. node u c m; cbn; [apply H|].
  split; [reflexivity|]. now apply Forall2_refl.
Qed.
Lemma st_trans3 (P Q T : ecmu A -> ecmu A -> Prop) n : (forall a b c, P a b -> Q b c -> T a c) ->
  forall u v w : tree n, same_tree P n u v -> same_tree Q n v w -> same_tree T n u w.
Proof.
  intros H. induction n as [|n IH]; intros u v w; [apply H|].
  node u c m; node v d k; node w e j; cbn; try tauto; [apply H|].
  intros [H1 H2] [K1 K2]. split; [congruence|]. clear H1 K1. revert K2. generalize (ms j) as l3.
  induction H2 as [|a b l1 l2 Hab _ IHl]; intros l3 K; inversion K; subst; constructor; eauto.
Qed.
Lemma cur_frame tm n s s' : cur_rel (ops tm n) s s' -> same_tree but_IT n s s'.
Proof.
  induction 1 as [s|s s' H IH|i b s s' H IH]; [apply st_refl, but_IT_refl| |].
  - destruct (o_V (ops tm n) s) as [s1 r1] eqn:E1. destruct (V_leaves _ _ _ _ _ E1) as [_ J].
    refine (st_trans3 eq but_IT but_IT n _ _ _ _ J IH). intros; subst; assumption.
  - destruct (o_setCurrent (ops tm n) i b s) as [s1 r1] eqn:E1. apply setCurrent_frame_tree in E1.
    refine (st_trans3 only_I but_IT but_IT n _ _ _ _ E1 IH). intros a b0 c H1 H2. eapply but_IT_trans; [apply only_I_IT, H1|exact H2].
Qed.
Lemma leaf_setT_IT t (c c' : ecmu A) r : o_setT ecm_ops t c = (c', r) -> but_IT c c'.
Proof.
  cbn [ecm_ops o_setT]. unfold lift_ecm. destruct (ecm_setT t (u_ecm c)) as [e x] eqn:E. intros [= <- <-]. unfold ecm_setT in E.
  injection E as <- <-. repeat split.
Qed.
Lemma setT_IT tm n t (u u' : tree n) r : o_setT (ops tm n) t u = (u', r) -> same_tree but_IT n u u'.
Proof.
  destruct n as [|n]; intros H; [now apply leaf_setT_IT in H|].
  node u c m; cbn [su_ops_at sum_ops o_setT both mod_ops] in H; unfold on_l, on_r in H.
  - destruct (o_setT ecm_ops t c) as [c' r'] eqn:E. injection H as <- <-. now apply leaf_setT_IT in E.
  - destruct (mod_setT t m) as [m' r'] eqn:E. injection H as <- <-. apply mod_setT_frame in E. destruct E as [E1 F].
    cbn. rewrite E1. split; [symmetry; apply F|]. apply Forall2_refl, st_refl, but_IT_refl.
Qed.
Lemma th_frame tm n : (forall nb t (u u' : tree n) r, o_thermal (ops tm n) nb t u = (u', r) -> same_tree but_IT n u u') ->
  forall s s', th_rel (ops tm n) s s' -> same_tree but_IT n s s'.
Proof.
  intros K. induction 1 as [s|nb t s s' H IHr|t s s' H IHr]; [apply st_refl, but_IT_refl| |].
  - destruct (o_thermal (ops tm n) nb t s) as [s1 r1] eqn:E1. apply K in E1. eapply st_trans3; [exact but_IT_trans|exact E1|exact IHr].
  - destruct (o_setT (ops tm n) t s) as [s1 r1] eqn:E1. apply setT_IT in E1. eapply st_trans3; [exact but_IT_trans|exact E1|exact IHr].
Qed.
Lemma thermal_IT tm n : forall nb t (u u' : tree n) r, o_thermal (ops tm n) nb t u = (u', r) -> same_tree but_IT n u u'.
Proof.
  induction n as [|n IH]; intros nb t u u' r H; [cbn in H; injection H as <- <-; apply but_IT_refl|].
  node u c m; cbn [su_ops_at sum_ops o_thermal both mod_ops] in H; unfold on_l, on_r in H.
  - cbn in H. injection H as <- <-. apply but_IT_refl.
  - destruct (mod_thermal _ tm nb t m) as [m' r'] eqn:E. injection H as <- <-. apply mod_thermal_frame in E. destruct E as [E1 F].
    cbn. split; [symmetry; apply F|]. eapply Forall2_impl; [|exact E1]. apply th_frame, IH.
Qed.
Lemma advanced_all tm n : forall dt k (u u' : tree n), o_timeStep (ops tm n) dt k u = (u', Ok tt) -> same_tree (advanced dt k) n u u'.
Proof.
  assert (L : forall dt k (c c' : ecmu A), o_timeStep ecm_ops dt k c = (c', Ok tt) -> advanced dt k c c').
  { intros dt k c c'. cbn [ecm_ops o_timeStep]. unfold lift_ecm. destruct (ecm_timeStep_CC dt k (u_ecm c)) as [e x] eqn:E.
    intros [= <- ->]. exists e. auto 10. }
  induction n as [|n IH]; intros dt k u u' H; [now apply L|].
  node u c m; cbn [su_ops_at sum_ops o_timeStep both mod_ops] in H; unfold on_l, on_r in H.
  - destruct (o_timeStep ecm_ops dt k c) as [c' r'] eqn:E. injection H as <- ->. now apply L.
  - destruct (mod_timeStep _ tm dt k m) as [m' r'] eqn:E. injection H as <- ->. apply mod_timeStep_ok in E.
    destruct E as (l1 & l2 & us & E1 & E2 & E3 & r & _ & E4 & E5). cbn. split; [rewrite E4; symmetry; apply E5|].
    destruct (each_ok _ _ _ _ E1) as (G & L1 & L2).
    assert (F1 : Forall2 (same_tree (advanced dt k) n) (ms m) l1).
    { clear - IH G L1. revert l1 us G L1. induction (ms m) as [|s l IHl]; intros [|a l1] [|x us] G L1; inversion G; subst; try discriminate; constructor.
      - cbn in *. destruct x. eapply IH; eauto.
      - eapply IHl; eauto. }
    assert (F2 : Forall2 (same_tree but_IT n) l1 (ms m')).
    { assert (F3 : Forall2 (same_tree but_IT n) l1 l2) by (eapply Forall2_impl; [|exact E2]; apply th_frame, thermal_IT).
      destruct (m_series (mm m)); [now rewrite E3|]. eapply Forall2_trans; [apply st_trans3, but_IT_trans|exact F3|].
      eapply Forall2_impl; [|exact E3]. apply cur_frame. }
    clear - F1 F2. revert F2. generalize (ms m') as l3. induction F1 as [|a b la lb Hab _ IHl]; intros l3 K; inversion K; subst; constructor; auto.
    eapply st_trans3; [|exact Hab|eassumption]. intros x1 y1 z1 (e & J1 & J2 & J3 & J4 & J5 & J6 & J7 & J8) (K1 & K2 & K3 & K4 & K5 & K6 & K7).
    exists e. repeat split; congruence.
Qed.
End Any.

Local Open Scope R_scope.

(** The elapsed time *)
Lemma steps_time n dt : forall (c c1 : ecm R), ecm_steps n dt c = (c1, Ok tt) -> e_time (es c1) = e_time (es c) + INR n * dt.
Proof.
  induction n as [|n IH]; intros c c1 H; cbn [ecm_steps] in H; [injection H as <-; cbn; lra|].
  destruct (ecm_step1 dt c) as [c' [[]| | |]] eqn:E; try discriminate. rewrite (IH _ _ H). rewrite S_INR.
  unfold ecm_step1 in E. destruct (ecm_V _); try discriminate. injection E as <-. cbn. lra.
Qed.
Lemma advanced_time dt k (c d : ecmu R) : advanced dt k c d -> (0 <= k)%Z -> e_time (es (u_ecm d)) = e_time (es (u_ecm c)) + IZR k * dt.
Proof.
  intros (e & H & _ & _ & _ & _ & -> & _) K. unfold ecm_timeStep_CC in H. destruct (nltb dt _); [discriminate|].
  rewrite (steps_time _ _ _ _ H). rewrite INR_IZR_INZ, Z2Nat.id by exact K. reflexivity.
Qed.

(** ** Branch voltages *)
Lemma getVall_ladder tm n : forall l rc, Forall (ok n) l -> length rc = length l ->
  exists l' vs ws, getVall_from (ops tm n) l rc = (l', Ok (ws, Rsum (map (current n) l))) /\ Forall2 (voltage n) l vs /\
    length ws = length l /\ forall j v w, nth_error vs j = Some v -> nth_error ws j = Some w -> w = v - ladder_drop rc (map (current n) l) j.
Proof.
  induction l as [|s l IH]; intros [|r rc] F L; try discriminate.
  - exists [], [], []. cbn [getVall_from map Rsum]. rewrite R_nZ. split; [reflexivity|]. split; [constructor|]. split; [reflexivity|]. intros [|j] v w H; discriminate.
  - inversion F; subst. destruct (IH rc H2 (eq_add_S _ _ L)) as (l' & vs & ws & E & V & W & K). cbn [getVall_from]. rewrite E.
    destruct (V_right_all tm n s H1) as (s' & v & Ev & Hv & _ & Hs). rewrite Ev. rewrite I_current, (sim_current _ _ _ Hs).
    cbn [nadd nsub nmul RNum map]. eexists _, (v :: vs), _. split; [f_equal; f_equal; f_equal; cbn [Rsum]; ring|].
    split; [constructor; auto|]. split; [cbn; now rewrite map_length, W|].
    intros [|j] v0 w H3 H4; cbn in H3, H4.
    + injection H3 as <-. injection H4 as <-. rewrite ladder_drop_0. cbn [Rsum]. ring.
    + rewrite nth_error_map in H4. destruct (nth_error ws j) as [w0|] eqn:Ew; [|discriminate]. injection H4 as <-.
      rewrite (K j v0 w0 H3 Ew), ladder_drop_S. cbn [Rsum]. ring.
Qed.

(** ** Contact heat *)
Lemma heat_s_R tm n k dt (m : module R (tree n)) :
  heat_s (ops tm n) k dt m = m_Qc (mm m) + contact_heat (m_rc (mm m)) (mod_I (ops tm n) m) (IZR k * dt).
Proof.
  unfold heat_s, contact_heat. generalize (m_Qc (mm m)) as q, (mod_I (ops tm n) m) as i. intros q i. revert q.
  induction (m_rc (mm m)) as [|r rc IH]; intros q; cbn [fold_left map Rsum]; [lra|]. rewrite IH. rewrite R_nZ. cbn. ring.
Qed.
Lemma heat_step_series tm n dt k (m m' : module R (tree n)) : m_series (mm m) = true -> m_block (mm m) = false -> m_top (mm m) = false ->
  mod_heat_step (ops tm n) tm dt k m = (m', Ok tt) ->
  ms m' = ms m /\ m_Qc (mm m') = m_Qc (mm m) + contact_heat (m_rc (mm m)) (mod_I (ops tm n) m) (IZR k * dt).
Proof.
  intros Hs Hb Ht. unfold mod_heat_step. rewrite Hs, Hb, Ht. intros [= <-]. split; [reflexivity|]. cbn [mm set_cool set_therm m_Qc]. apply heat_s_R.
Qed.
Lemma timeStep_heat tm n dt k (m m' : module R (tree n)) : m_series (mm m) = true -> m_block (mm m) = false -> m_top (mm m) = false ->
  mod_timeStep (ops tm n) tm dt k m = (m', Ok tt) ->
  m_Qc (mm m') = m_Qc (mm m) + contact_heat (m_rc (mm m)) (current (S n) (inr m')) (IZR k * dt).
Proof.
  intros Hs Hb Ht H. apply mod_timeStep_ok in H. destruct H as (l1 & l2 & us & E1 & E2 & E3 & r & E4 & E5 & E6).
  rewrite Hs in E3. apply heat_step_series in E4; auto. cbn [mm ms] in E4. destruct E4 as [-> E4]. rewrite E5.
  change (m_Qc (inval r)) with (m_Qc r). rewrite E4. do 2 f_equal.
  rewrite <- (I_current tm). cbn [su_ops_at sum_ops o_I both mod_ops]. unfold mod_I. rewrite E5. cbn [mm ms inval set_V m_series].
  rewrite (proj1 E6), Hs, E3. reflexivity.
Qed.
Definition heat_frame (r r' : modrec R) : Prop :=
  m_series r' = m_series r /\ m_rc r' = m_rc r /\ m_Qc r' = m_Qc r /\ m_block r' = m_block r /\ m_top r' = m_top r.
Lemma mod_V_mm {A} {NA : Num A} {S : Type} (o : su_ops A S) m m' r : mod_V o m = (m', r) -> exists v b, mm m' = set_V (mm m) v b.
Proof.
  assert (T : exists v b, mm m = set_V (mm m) v b) by (exists (m_V (mm m)), (m_Vok (mm m)); destruct m as [[] ?]; reflexivity).
  unfold mod_V. destruct (m_series (mm m)).
  - destruct (m_Vok (mm m)); [intros [= <- <-]; exact T|]. destruct (sV_loop o _ _ _) as [[l a] [[]| | |]]; intros [= <- <-]; cbn; eauto.
  - destruct (ms m) as [|s l]; [intros [= <- <-]; exact T|]. destruct (m_rc (mm m)) as [|r0 rc]; [intros [= <- <-]; exact T|].
    destruct (o_V o s) as [s' [v| | |]]; intros [= <- <-]; exact T.
Qed.
Lemma mod_V_frame tm n (m m' : module R (tree n)) r : mod_V (ops tm n) m = (m', r) -> heat_frame (mm m) (mm m').
Proof. intros H. apply mod_V_mm in H. destruct H as (v & b & ->). repeat split. Qed.
Lemma mod_checkV_mm {A} {NA : Num A} {S : Type} (o : su_ops A S) m m' r : mod_checkV o m = (m', r) -> exists v b, mm m' = set_V (mm m) v b.
Proof.
  unfold mod_checkV. destruct (mod_V o m) as [m1 r1] eqn:E. apply mod_V_mm in E. destruct r1; try (intros [= <- <-]; exact E).
  destruct (each _ (ms m1)) as [l [x| | |]]; intros [= <- <-]; exact E.
Qed.
Lemma heat_history_frame tm n a q b : heat_history tm n a q b ->
  m_series (mm a) = true -> m_block (mm a) = false -> m_top (mm a) = false ->
  m_series (mm b) = true /\ m_rc (mm b) = m_rc (mm a) /\ m_block (mm b) = false /\ m_top (mm b) = false /\ m_Qc (mm b) = m_Qc (mm a) + q.
Proof.
  intros H Hs Hb Ht. induction H as [m|dt k a q b c H IH E|i chk a q b c r H IH E|s chk a q b c r H IH E|a q b c r H IH E|a q b c r H IH E|a q b c r H IH E].
  - repeat split; auto. lra.
  - destruct (IH Hs Hb Ht) as (I1 & I2 & I3 & I4 & I5). assert (Q := timeStep_heat _ _ _ _ _ _ I1 I3 I4 E).
    apply mod_timeStep_ok in E. destruct E as (l1 & l2 & us & E1 & E2 & E3 & r & E4 & E5 & E6).
    destruct E6 as (F1 & F2 & _ & _ & _ & _ & _ & _ & F3 & F4). rewrite Q, E5. cbn [inval set_V m_series m_rc m_block m_top].
    repeat split; try congruence. rewrite I5. ring.
  - destruct (IH Hs Hb Ht) as (I1 & I2 & I3 & I4 & I5). apply mod_setCurrent_rel in E. destruct E as [_ ->]. rewrite I1. cbn. auto.
  - destruct (IH Hs Hb Ht) as (I1 & I2 & I3 & I4 & I5). apply mod_setStates_rel in E. destruct E as [_ [k ->]]. cbn. auto.
  - destruct (IH Hs Hb Ht) as (I1 & I2 & I3 & I4 & I5). apply mod_V_mm in E. destruct E as (v & x & ->). cbn. auto.
  - destruct (IH Hs Hb Ht) as (I1 & I2 & I3 & I4 & I5). apply mod_checkV_mm in E. destruct E as (v & x & ->). cbn. auto.
  - destruct (IH Hs Hb Ht) as (I1 & I2 & I3 & I4 & I5). unfold mod_coolload in E. destruct (cl_children _ _ _). injection E as <- <-. cbn. auto.
Qed.

(** ** Extreme cell voltages *)
Lemma is_max_flat {X} (f : X -> list R) (l : list X) (vs : list R) x0 : Forall2 (fun x v => is_max (f x) v) l vs ->
  is_max (x0 :: flat_map f l) (fold_left nmax vs x0).
Proof.
  intros F. destruct (fold_nmax_spec vs x0) as [I L]. split.
  - destruct I as [I|I]; [now left|]. right. apply in_flat_map. clear L. remember (fold_left nmax vs x0) as y eqn:E. clear E.
    induction F as [|a v l vs [H1 H2] _ IH]; [destruct I|]. destruct I as [->|I]; [exists a; split; [now left|exact H1]|].
    destruct (IH I) as (x & Hx & K). exists x. split; [now right|exact K].
  - intros y [<-|H]; [apply L; now left|]. apply in_flat_map in H. destruct H as (x & Hx & Hy).
    assert (K : exists v, In v vs /\ y <= v).
    { clear - F Hx Hy. induction F as [|a v l vs [H1 H2] _ IH]; [destruct Hx|]. destruct Hx as [->|Hx]; [exists v; split; [now left|auto]|].
      destruct (IH Hx) as (v' & Hv & Hl). exists v'. split; [now right|exact Hl]. }
    destruct K as (v & Hv & Hl). assert (v <= fold_left nmax vs x0) by (apply L; now right). lra.
Qed.
Lemma is_min_flat {X} (f : X -> list R) (l : list X) (vs : list R) x0 : Forall2 (fun x v => is_min (f x) v) l vs ->
  is_min (x0 :: flat_map f l) (fold_left nmin vs x0).
Proof.
  intros F. destruct (fold_nmin_spec vs x0) as [I L]. split.
  - destruct I as [I|I]; [now left|]. right. apply in_flat_map. clear L. remember (fold_left nmin vs x0) as y eqn:E. clear E.
    induction F as [|a v l vs [H1 H2] _ IH]; [destruct I|]. destruct I as [->|I]; [exists a; split; [now left|exact H1]|].
    destruct (IH I) as (x & Hx & K). exists x. split; [now right|exact K].
  - intros y [<-|H]; [apply L; now left|]. apply in_flat_map in H. destruct H as (x & Hx & Hy).
    assert (K : exists v, In v vs /\ v <= y).
    { clear - F Hx Hy. induction F as [|a v l vs [H1 H2] _ IH]; [destruct Hx|]. destruct Hx as [->|Hx]; [exists v; split; [now left|auto]|].
      destruct (IH Hx) as (v' & Hv & Hl). exists v'. split; [now right|exact Hl]. }
    destruct K as (v & Hv & Hl). assert (fold_left nmin vs x0 <= v) by (apply L; now right). lra.
Qed.
(** the cell voltages and the lower (upper) limits of the modules, module by module *)
Fixpoint highs (tm : Z) (n : nat) : tree n -> list R :=
  match n return tree n -> list R with
  | O => fun c => [cell_V c]
  | S n' => fun u => match (u : ecmu R + module R (tree n')) with
                     | inl c => [cell_V c]
                     | inr m => l_Vmin (mod_lim (ops tm n') m) :: flat_map (highs tm n') (ms m)
                     end
  end.
Fixpoint lows (tm : Z) (n : nat) : tree n -> list R :=
  match n return tree n -> list R with
  | O => fun c => [cell_V c]
  | S n' => fun u => match (u : ecmu R + module R (tree n')) with
                     | inl c => [cell_V c]
                     | inr m => l_Vmax (mod_lim (ops tm n') m) :: flat_map (lows tm n') (ms m)
                     end
  end.
Lemma highs_In tm n : forall u x, In x (highs tm n u) <-> In x (map cell_V (leaves n u)) \/
  In x (over_modules (fun k r l => l_Vmin (mod_lim (ops tm k) (mkM r l))) n u).
Proof.
  induction n as [|n IH]; intros u x; [cbn; tauto|]. node u c m; [cbn; tauto|].
  cbn [highs leaves over_modules In]. destruct m as [r l]. cbn [mm ms]. rewrite in_map_iff, !in_flat_map.
  split.
  - intros [H|(s & Hs & H)]; [right; now left|]. apply IH in H. destruct H as [H|H].
    + apply in_map_iff in H. destruct H as (c & E & H). left. exists c. split; [exact E|]. apply in_flat_map. eauto.
    + right. right. eauto.
  - intros [(c & E & H)|[H|(s & Hs & H)]]; [|now left|].
    + apply in_flat_map in H. destruct H as (s & Hs & H). right. exists s. split; [exact Hs|]. apply IH. left. apply in_map_iff. eauto.
    + right. exists s. split; [exact Hs|]. apply IH. now right.
Qed.
Lemma lows_In tm n : forall u x, In x (lows tm n u) <-> In x (map cell_V (leaves n u)) \/
  In x (over_modules (fun k r l => l_Vmax (mod_lim (ops tm k) (mkM r l))) n u).
Proof.
  induction n as [|n IH]; intros u x; [cbn; tauto|]. node u c m; [cbn; tauto|].
  cbn [lows leaves over_modules In]. destruct m as [r l]. cbn [mm ms]. rewrite in_map_iff, !in_flat_map.
  split.
  - intros [H|(s & Hs & H)]; [right; now left|]. apply IH in H. destruct H as [H|H].
    + apply in_map_iff in H. destruct H as (c & E & H). left. exists c. split; [exact E|]. apply in_flat_map. eauto.
    + right. right. eauto.
  - intros [(c & E & H)|[H|(s & Hs & H)]]; [|now left|].
    + apply in_flat_map in H. destruct H as (s & Hs & H). right. exists s. split; [exact Hs|]. apply IH. left. apply in_map_iff. eauto.
    + right. exists s. split; [exact Hs|]. apply IH. now right.
Qed.
Lemma single_max x : is_max [x] x. Proof. split; [now left|]. intros y [<-|[]]. lra. Qed.
Lemma single_min x : is_min [x] x. Proof. split; [now left|]. intros y [<-|[]]. lra. Qed.
Lemma Vhigh_max tm n : forall u u' v, o_Vhigh (ops tm n) u = (u', Ok v) -> is_max (highs tm n u) v.
Proof.
  assert (L : forall (c : ecmu R) v, ecm_V (u_ecm c) = Ok v -> is_max [cell_V c] v) by (intros c v E; unfold cell_V; rewrite E; apply single_max).
  induction n as [|n IH]; intros u u' v H; [cbn in H; apply L; congruence|].
  node u c m; cbn [su_ops_at sum_ops o_Vhigh both mod_ops] in H; unfold on_l, on_r in H; [cbn in H; apply L; congruence|].
  unfold mod_Vhigh in H. destruct (each _ (ms m)) as [l [vs| | |]] eqn:E; try discriminate. injection H as <- <-.
  cbn [highs]. apply is_max_flat. destruct (each_ok _ _ _ _ E) as (G & L1 & L2). clear - G IH L1.
  revert l vs G L1. induction (ms m) as [|s t IHl]; intros [|a l] [|x vs] G L1; inversion G; subst; try discriminate; constructor; eauto.
Qed.
Lemma Vlow_min tm n : forall u u' v, o_Vlow (ops tm n) u = (u', Ok v) -> is_min (lows tm n u) v.
Proof.
  assert (L : forall (c : ecmu R) v, ecm_V (u_ecm c) = Ok v -> is_min [cell_V c] v) by (intros c v E; unfold cell_V; rewrite E; apply single_min).
  induction n as [|n IH]; intros u u' v H; [cbn in H; apply L; congruence|].
  node u c m; cbn [su_ops_at sum_ops o_Vlow both mod_ops] in H; unfold on_l, on_r in H; [cbn in H; apply L; congruence|].
  unfold mod_Vlow in H. destruct (each _ (ms m)) as [l [vs| | |]] eqn:E; try discriminate. injection H as <- <-.
  cbn [lows]. apply is_min_flat. destruct (each_ok _ _ _ _ E) as (G & L1 & L2). clear - G IH L1.
  revert l vs G L1. induction (ms m) as [|s t IHl]; intros [|a l] [|x vs] G L1; inversion G; subst; try discriminate; constructor; eauto.
Qed.
