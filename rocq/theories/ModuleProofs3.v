(** * Proofs about modules: current commands and state vectors, any carrier *)
From Coq Require Import List Lia.
From Verif Require Import Base RFacts StatusModel StatusProofs CellModel CellSpec CellProofs CoolModel CoolSpec CoolProofs ModuleModel ModuleSpec ModuleProofs.
Import ListNotations.

Section Any.
Context {A : Type} {NA : Num A}.
Notation ops tm n := (su_ops_at (A := A) ecm_ops tm n).
Notation tree n := (su A (ecmu A) n).

(** ** Only currents change *)
Definition only_I (c d : ecmu A) : Prop :=
  u_block d = u_block c /\ ep (u_ecm d) = ep (u_ecm c) /\ es (u_ecm d) = with_I (es (u_ecm c)) (e_I (es (u_ecm d))).
Lemma only_I_refl c : only_I c c.
Proof. repeat split. destruct (es (u_ecm c)); reflexivity. Qed.
Lemma only_I_trans a b c : only_I a b -> only_I b c -> only_I a c.
Proof.
  intros (H1 & H2 & H3) (K1 & K2 & K3). repeat split; try congruence. rewrite K3 at 1. rewrite H3. reflexivity.
Qed.
Lemma only_I_eq c d : only_I c d -> e_I (es (u_ecm d)) = e_I (es (u_ecm c)) -> d = c.
Proof.
  intros (H1 & H2 & H3) E. destruct c as [b [p s]], d as [b' [p' s']]; cbn in *. subst. rewrite H3, E. destruct s; reflexivity.
Qed.
Lemma leaf_setCurrent_frame i chk (c c' : ecmu A) r : o_setCurrent ecm_ops i chk c = (c', r) -> only_I c c'.
Proof.
  cbn. unfold lift_ecm. destruct (ecm_setCurrent i chk (u_ecm c)) as [e r'] eqn:E. intros [= <- <-].
  unfold ecm_setCurrent in E. destruct (ecm_checkCurrent _ _) as [st| | |]; injection E as <- <-;
    try destruct (isStatusBad st); repeat split; destruct (es (u_ecm c)); reflexivity.
Qed.

Definition frame (n : nat) (u u' : tree n) : Prop :=
  Forall2 only_I (leaves n u) (leaves n u') /\ same_tree only_I n u u'.
Lemma frame_refl n : forall u : tree n, same_tree only_I n u u.
Proof.
  induction n as [|n IH]; intros u; [apply only_I_refl|]. node u c m; cbn; [apply only_I_refl|].
  split; [reflexivity|]. now apply Forall2_refl.
Qed.
Lemma frame_trans n : forall u v w : tree n, same_tree only_I n u v -> same_tree only_I n v w -> same_tree only_I n u w.
Proof.
  induction n as [|n IH]; intros u v w; [apply only_I_trans|].
  node u c m; node v d k; node w e j; cbn; try tauto; [apply only_I_trans|].
  intros [H1 H2] [K1 K2]. split; [congruence|]. eapply Forall2_trans; eauto.
Qed.
Lemma same_tree_leaves P n : forall u v : tree n, same_tree P n u v -> Forall2 P (leaves n u) (leaves n v).
Proof.
  induction n as [|n IH]; intros u v; [intros H; repeat constructor; exact H|].
  node u c m; node v d k; cbn; try tauto; [intros H; repeat constructor; exact H|].
  intros [_ H]. apply Forall2_flat. eapply Forall2_impl; [|exact H]. exact IH.
Qed.

Lemma V_leaves tm n : forall u u' r, o_V (ops tm n) u = (u', r) ->
  leaves n u' = leaves n u /\ same_tree eq n u u'.
Proof.
  induction n as [|n IH]; intros u u' r H.
  - cbn in H. injection H as <- <-. split; reflexivity.
  - node u c m; cbn in H; unfold on_l, on_r in H.
    + injection H as <- <-. split; reflexivity.
    + destruct (mod_V _ m) as [m' r'] eqn:E. injection H as <- <-. apply mod_V_rel in E. destruct E as [F (v & b & E)].
      assert (G : Forall2 (fun s s' => leaves n s' = leaves n s /\ same_tree eq n s s') (ms m) (ms m')).
      { eapply Forall2_impl; [|exact F]. induction 1 as [s|s s' K [IK1 IK2]].
        - split; [reflexivity|]. clear - n. induction n as [|n IHn]; [reflexivity|]. node s c m; cbn; [reflexivity|].
          split; [reflexivity|]. now apply Forall2_refl.
        - destruct (o_V (ops tm n) s) as [s1 r1] eqn:E1. destruct (IH _ _ _ E1) as [J1 J2]. cbn in IK1, IK2. split; [congruence|].
          clear - J2 IK2. revert s s1 s' J2 IK2. induction n as [|n IHn]; intros s s1 s' J2 IK2; [cbn in *; congruence|].
          node s c m; node s1 c1 m1; node s' c' m'; cbn in *; try tauto; [congruence|].
          destruct J2 as [J J2], IK2 as [K K2]. split; [congruence|]. eapply Forall2_trans; eauto. }
      cbn. split.
      * apply Forall2_flat_map. eapply Forall2_impl; [|exact G]. now intros ? ? [? _].
      * split; [rewrite E; reflexivity|]. eapply Forall2_impl; [|exact G]. now intros ? ? [_ ?].
Qed.
Lemma same_tree_impl (P Q : ecmu A -> ecmu A -> Prop) n : (forall c d, P c d -> Q c d) ->
  forall u v : tree n, same_tree P n u v -> same_tree Q n u v.
Proof.
  intros HPQ. induction n as [|n IH]; intros u v; [apply HPQ|].
  node u c m; node v d k; cbn; try tauto; [apply HPQ|].
  intros [H1 H2]. split; [exact H1|]. eapply Forall2_impl; [|exact H2]. exact IH.
Qed.
Lemma setCurrent_frame_tree tm n : forall i chk u u' r, o_setCurrent (ops tm n) i chk u = (u', r) -> same_tree only_I n u u'.
Proof.
  induction n as [|n IH]; intros i chk u u' r H; [now apply leaf_setCurrent_frame in H|].
  node u c m; cbn in H; unfold on_l, on_r in H.
  - destruct (lift_ecm _ c) as [c' r'] eqn:E. injection H as <- <-. exact (leaf_setCurrent_frame i chk c c' r' E).
  - destruct (mod_setCurrent _ i chk m) as [m' r'] eqn:E. injection H as <- <-. apply mod_setCurrent_rel in E. destruct E as [F E].
    cbn. split.
    + rewrite E. destruct (m_series (mm m)) eqn:D; [cbn; congruence|congruence].
    + eapply Forall2_impl; [|exact F]. induction 1 as [s|s s' K IK|j b s s' K IK].
      * apply frame_refl.
      * destruct (o_V (ops tm n) s) as [s1 r1] eqn:E1. destruct (V_leaves _ _ _ _ _ E1) as [_ J].
        eapply frame_trans; [|exact IK]. cbn. eapply same_tree_impl; [|exact J]. intros c d ->. apply only_I_refl.
      * destruct (o_setCurrent (ops tm n) j b s) as [s1 r1] eqn:E1. eapply frame_trans; [|exact IK]. eapply IH; exact E1.
Qed.

(** ** Series commands *)
Section Series.
Context {S : Type} (o : su_ops A S).
Lemma s_setCurrent_ok todo : forall i Inew chk olds l l' st,
  s_setCurrent o todo i Inew chk olds l = (l', Ok st) -> isStatusBad st = false ->
  (forall j, (j < i)%nat -> nth_error l' j = nth_error l j) /\ length l' = length l /\
  (forall j, (i <= j < i + todo)%nat -> exists s s' stj, nth_error l j = Some s /\ nth_error l' j = Some s' /\
     o_setCurrent o Inew chk s = (s', Ok stj) /\ isStatusBad stj = false).
Proof.
  induction todo as [|todo IH]; intros i Inew chk olds l l' st H B; cbn [s_setCurrent] in H.
  - injection H as <- <-. repeat split; auto. intros j Hj. lia.
  - destruct (Nat.leb NSUs_MAX i); [discriminate|]. destruct (nth_error l i) as [s|] eqn:En; [|discriminate].
    destruct (child_do _ i l) as [l1 [st1| | |]] eqn:E; try discriminate.
    destruct (child_do_spec _ _ _ _ _ E) as [(s0 & s' & E1 & E2 & ->)|(_ & _ & ?)]; [|discriminate].
    assert (s0 = s) by congruence. subst s0.
    destruct (isStatusBad st1) eqn:B1.
    { destruct (s_restore o i _ _) as [l2 [x| | |]]; try discriminate. injection H as <- <-. congruence. }
    destruct (IH _ _ _ _ _ _ _ H B) as (K1 & K2 & K3). assert (Li : (i < length l)%nat) by (apply nth_error_Some; congruence).
    rewrite list_set_length in K2. repeat split; auto.
    + intros j Hj. rewrite K1 by lia. rewrite nth_error_list_set. destruct (Nat.eqb_spec i j); [lia|reflexivity].
    + intros j Hj. destruct (Nat.eq_dec i j) as [<-|Hne].
      * exists s, s', st1. repeat split; auto. rewrite K1 by lia. rewrite nth_error_list_set, Nat.eqb_refl.
        apply Nat.ltb_lt in Li. now rewrite Li.
      * destruct (K3 j) as (t & t' & stj & T1 & T2 & T3 & T4); [lia|]. exists t, t', stj. repeat split; auto.
        rewrite nth_error_list_set in T1. destruct (Nat.eqb_spec i j); [lia|exact T1].
Qed.

(** [good]: units on which an unchecked command always succeeds. *)
Lemma s_restore_ok (good : S -> Prop) :
  (forall s i, good s -> exists s' st, o_setCurrent o i false s = (s', Ok st)) ->
  forall i olds l, (i < length olds)%nat -> (i < length l)%nat -> (forall j s, (j <= i)%nat -> nth_error l j = Some s -> good s) ->
  exists l', s_restore o i olds l = (l', Ok tt) /\ length l' = length l /\
    (forall j, (j = 0 \/ i < j)%nat -> nth_error l' j = nth_error l j) /\
    (forall j, (1 <= j <= i)%nat -> exists s io, nth_error l j = Some s /\ nth_error olds j = Some io /\
        nth_error l' j = Some (fst (o_setCurrent o io false s))).
Proof.
  intros G. induction i as [|i IH]; intros olds l Ho Hl F.
  - exists l. cbn. repeat split; auto. intros j Hj. lia.
  - cbn [s_restore]. destruct (nth_error olds (Datatypes.S i)) as [io|] eqn:E1; [|apply nth_error_None in E1; lia].
    unfold child_do. destruct (nth_error l (Datatypes.S i)) as [s|] eqn:E2; [|apply nth_error_None in E2; lia].
    destruct (G s io) as (s' & st & E3); [exact (F _ s (le_n _) E2)|]. rewrite E3.
    destruct (IH olds (list_set l (Datatypes.S i) s')) as (l' & R1 & R2 & R3 & R4).
    + lia.
    + rewrite list_set_length. lia.
    + intros j t Hj. rewrite nth_error_list_set. destruct (Nat.eqb_spec (Datatypes.S i) j); [lia|]. apply F. lia.
    + exists l'. split; [exact R1|]. rewrite list_set_length in R2. split; [exact R2|]. split.
      * intros j Hj. rewrite R3 by lia. rewrite nth_error_list_set. destruct (Nat.eqb_spec (Datatypes.S i) j); [lia|reflexivity].
      * intros j Hj. destruct (Nat.eq_dec j (Datatypes.S i)) as [->|Hne].
        -- exists s, io. repeat split; auto. rewrite R3 by lia. rewrite nth_error_list_set, Nat.eqb_refl, E3.
           replace (Nat.ltb (Datatypes.S i) (length l)) with true by (symmetry; apply Nat.ltb_lt; lia). reflexivity.
        -- destruct (R4 j) as (t & x & T1 & T2 & T3); [lia|]. exists t, x. repeat split; auto.
           rewrite nth_error_list_set in T1. destruct (Nat.eqb_spec (Datatypes.S i) j); [lia|exact T1].
Qed.

(** A rejected command: what happens to the children. *)
Lemma s_setCurrent_bad (good : S -> Prop) :
  (forall s i, good s -> exists s' st, o_setCurrent o i false s = (s', Ok st)) ->
  (forall s s' i b r, good s -> o_setCurrent o i b s = (s', r) -> good s') ->
  forall todo i Inew chk olds l0 l l' st, (i + todo <= length l)%nat -> length l = length l0 ->
  Forall good l -> length olds = i ->
  (forall j, (j < i)%nat -> exists s0 r, nth_error l0 j = Some s0 /\ o_setCurrent o Inew chk s0 = (nth j l s0, r)) ->
  (forall j, (i <= j)%nat -> nth_error l j = nth_error l0 j) ->
  (forall j s0, (j < i)%nat -> nth_error l0 j = Some s0 -> nth_error olds j = Some (o_I o s0)) ->
  s_setCurrent o todo i Inew chk olds l = (l', Ok st) -> isStatusBad st = true ->
  length l' = length l0 /\
  exists k, (i <= k < i + todo)%nat /\
    (exists s0 s1, nth_error l0 k = Some s0 /\ o_setCurrent o Inew chk s0 = (s1, Ok st)) /\
    (forall j, (k < j)%nat -> nth_error l' j = nth_error l0 j) /\
    (forall s0, nth_error l0 0 = Some s0 -> nth_error l' 0 = Some (fst (o_setCurrent o Inew chk s0))) /\
    (forall j s0, (1 <= j <= k)%nat -> nth_error l0 j = Some s0 ->
        nth_error l' j = Some (fst (o_setCurrent o (o_I o s0) false (fst (o_setCurrent o Inew chk s0))))).
Proof.
  intros G P. induction todo as [|todo IH]; intros i Inew chk olds l0 l l' st Hl Hl0 F Ho Hlow Hhigh Hold H B; cbn [s_setCurrent] in H.
  - injection H as <- <-. discriminate.
  - destruct (Nat.leb NSUs_MAX i); [discriminate|]. destruct (nth_error l i) as [s|] eqn:En; [|discriminate].
    destruct (child_do _ i l) as [l1 [st1| | |]] eqn:E; try discriminate.
    destruct (child_do_spec _ _ _ _ _ E) as [(s0 & s' & E1 & E2 & ->)|(_ & _ & ?)]; [|discriminate].
    assert (s0 = s) by congruence. subst s0.
    assert (Gs : good s) by (eapply Forall_forall; [exact F|]; eapply nth_error_In; eauto).
    assert (Gs' : good s') by (eapply P; eauto).
    assert (F1 : Forall good (list_set l i s')).
    { apply Forall_forall. intros x Hx. apply In_nth_error in Hx. destruct Hx as [j Hj]. rewrite nth_error_list_set in Hj.
      destruct (Nat.eqb i j).
      - destruct (Nat.ltb i (length l)); [|discriminate]. injection Hj as <-. exact Gs'.
      - eapply Forall_forall; [exact F|]. eapply nth_error_In; eauto. }
    assert (Low : forall j, (j <= i)%nat -> exists s0 r, nth_error l0 j = Some s0 /\ o_setCurrent o Inew chk s0 = (nth j (list_set l i s') s0, r)).
    { intros j Hj. destruct (Nat.eq_dec j i) as [->|Hne].
      - exists s, (Ok st1). rewrite <- Hhigh by lia. split; [exact En|].
        assert (X : nth_error (list_set l i s') i = Some s').
        { rewrite nth_error_list_set, Nat.eqb_refl. replace (Nat.ltb i (length l)) with true by (symmetry; apply Nat.ltb_lt; lia). reflexivity. }
        rewrite (nth_error_nth _ _ _ X). exact E2.
      - destruct (Hlow j) as (s0 & r & L1 & L2); [lia|]. exists s0, r. split; [exact L1|].
        assert (X : nth_error (list_set l i s') j = nth_error l j).
        { rewrite nth_error_list_set. destruct (Nat.eqb_spec i j); [lia|reflexivity]. }
        destruct (nth_error l j) as [t|] eqn:Et; [|apply nth_error_None in Et; lia].
        rewrite (nth_error_nth _ _ _ X). rewrite (nth_error_nth _ _ _ Et) in L2. exact L2. }
    assert (Olds : forall j s0, (j <= i)%nat -> nth_error l0 j = Some s0 -> nth_error (olds ++ [o_I o s]) j = Some (o_I o s0)).
    { intros j s0 Hj Hs. destruct (Nat.eq_dec j i) as [->|Hne].
      - rewrite <- Hhigh in Hs by lia. assert (s0 = s) by congruence. subst s0.
        rewrite nth_error_app2 by lia. rewrite Ho, Nat.sub_diag. reflexivity.
      - rewrite nth_error_app1 by lia. apply Hold; [lia|exact Hs]. }
    destruct (isStatusBad st1) eqn:B1.
    + destruct (s_restore_ok good G i (olds ++ [o_I o s]) (list_set l i s')) as (l2 & R1 & R2 & R3 & R4).
      { rewrite app_length. cbn. lia. } { rewrite list_set_length. lia. }
      { intros j t _ Ht. eapply Forall_forall; [exact F1|]. eapply nth_error_In; eauto. }
      rewrite R1 in H. injection H as <- <-. rewrite list_set_length in R2. split; [congruence|].
      exists i. split; [lia|]. split.
      { exists s, s'. rewrite <- Hhigh by lia. auto. }
      split.
      { intros j Hj. rewrite R3 by lia. rewrite nth_error_list_set. destruct (Nat.eqb_spec i j); [lia|]. apply Hhigh. lia. }
      split.
      { intros s0 Hs0. rewrite R3 by lia. destruct (Low 0%nat) as (t & r & L1 & L2); [lia|]. assert (t = s0) by congruence. subst t.
        rewrite L2. cbn [fst]. apply nth_error_nth'. rewrite list_set_length. lia. }
      { intros j s0 Hj Hs0. destruct (R4 j Hj) as (t & io & T1 & T2 & T3). rewrite T3. f_equal. f_equal.
        rewrite (Olds j s0) in T2 by (auto; lia). injection T2 as <-.
        destruct (Low j) as (t0 & r & L1 & L2); [lia|]. assert (t0 = s0) by congruence. subst t0.
        rewrite L2. cbn [fst]. rewrite (nth_error_nth _ _ _ T1). reflexivity. }
    + destruct (IH (Datatypes.S i) Inew chk (olds ++ [o_I o s]) l0 (list_set l i s') l' st) as (K1 & k & K2 & K3).
      { rewrite list_set_length. lia. } { rewrite list_set_length. exact Hl0. } { exact F1. } { rewrite app_length; cbn; lia. }
      { intros j Hj. apply Low. lia. }
      { intros j Hj. rewrite nth_error_list_set. destruct (Nat.eqb_spec i j); [lia|]. apply Hhigh. lia. }
      { intros j s0 Hj. apply Olds. lia. }
      { exact H. } { exact B. }
      split; [exact K1|]. exists k. split; [lia|exact K3].
Qed.
End Series.

Lemma serial_same P n : forall u v : tree n, same_tree P n u v -> serial n u -> serial n v.
Proof.
  unfold serial, all_series, narrow. induction n as [|n IH]; intros u v; [cbn; auto|].
  node u c m; node v d k; cbn; try tauto. intros [H1 H2] [[S1 S2] [N1 N2]].
  assert (L := Forall2_len _ _ _ H2).
  assert (X : Forall (every_module (fun _ r _ => m_series r = true) n) (ms k) /\ Forall (every_module (fun _ _ l => (length l <= 100)%nat) n) (ms k)).
  { clear - IH H2 S2 N2. induction H2 as [|a b l l' H _ IHl]; [split; constructor|].
    inversion S2; subst. inversion N2; subst. destruct (IH a b H) as [Q1 Q2]; [split; assumption|].
    destruct IHl; auto. }
  destruct X. split; split; auto; congruence || lia.
Qed.
Lemma unchecked_succeeds tm n : forall (u : tree n) i, serial n u ->
  exists u' st, o_setCurrent (ops tm n) i false u = (u', Ok st) /\ isStatusBad st = false.
Proof.
  induction n as [|n IH]; intros u i Hs.
  - cbn. unfold lift_ecm, ecm_setCurrent. cbn. eauto.
  - node u c m.
    + cbn. unfold on_l, lift_ecm, ecm_setCurrent. cbn. eauto.
    + destruct Hs as [[S1 S2] [N1 N2]]. cbn in S1, S2, N1, N2. cbn. unfold on_r, mod_setCurrent. rewrite S1.
      assert (F : Forall (serial n) (ms m)).
      { rewrite Forall_forall in *. intros x Hx. split; [exact (S2 x Hx)|exact (N2 x Hx)]. }
      assert (X : forall todo k olds (l : list (tree n)), (k + todo <= length l)%nat -> (length l <= 100)%nat ->
        (forall j s, (k <= j)%nat -> nth_error l j = Some s -> serial n s) ->
        exists l', s_setCurrent (ops tm n) todo k i false olds l = (l', Ok Success)).
      { clear - IH. induction todo as [|todo IHt]; intros k olds l Hk Hn Hg; cbn [s_setCurrent]; [eauto|].
        replace (Nat.leb NSUs_MAX k) with false by (symmetry; apply Nat.leb_gt; unfold NSUs_MAX; lia).
        destruct (nth_error l k) as [s|] eqn:E; [|apply nth_error_None in E; lia].
        destruct (IH s i (Hg k s (le_n _) E)) as (s' & st & E1 & E2). unfold child_do. rewrite E, E1, E2.
        apply IHt; rewrite ?list_set_length; try lia.
        intros j t Hj. rewrite nth_error_list_set. destruct (Nat.eqb_spec k j); [lia|]. apply Hg. lia. }
      destruct (X (length (ms m)) 0%nat [] (ms m)) as [l' E]; auto; try lia.
      { intros j s _ Hj. eapply Forall_forall; [exact F|]. eapply nth_error_In; eauto. }
      rewrite E. eauto.
Qed.
Lemma accepted_everywhere tm n : forall (u u' : tree n) Inew chk st, all_series n u ->
  o_setCurrent (ops tm n) Inew chk u = (u', Ok st) -> isStatusBad st = false ->
  Forall (fun c => e_I (es (u_ecm c)) = Inew) (leaves n u').
Proof.
  assert (L : forall (c c' : ecmu A) Inew chk st, o_setCurrent ecm_ops Inew chk c = (c', Ok st) -> isStatusBad st = false ->
    e_I (es (u_ecm c')) = Inew).
  { intros c c' Inew chk st. cbn. unfold lift_ecm. destruct (ecm_setCurrent Inew chk (u_ecm c)) as [e r] eqn:E. intros [= <- ->] B.
    destruct (setCurrent_spec _ _ _ _ _ E) as [_ H]. rewrite bad_ok in B. destruct H as [-> _]; [now destruct (isStatusOK st)|reflexivity]. }
  induction n as [|n IH]; intros u u' Inew chk st Hs H B.
  - constructor; [|constructor]. exact (L _ _ _ _ _ H B).
  - node u c m.
    + cbn in H. unfold on_l in H. destruct (lift_ecm _ c) as [c' r] eqn:E. injection H as <- ->.
      constructor; [|constructor]. exact (L _ _ _ _ _ E B).
    + cbn in H. unfold on_r in H. destruct (mod_setCurrent _ Inew chk m) as [m' r] eqn:E. injection H as <- ->.
      destruct Hs as [S1 S2]. cbn in S1, S2. unfold mod_setCurrent in E. rewrite S1 in E.
      destruct (s_setCurrent _ _ _ _ _ _ _) as [l r] eqn:E1. injection E as <- ->.
      destruct (s_setCurrent_ok _ _ _ _ _ _ _ _ _ E1 B) as (_ & K2 & K3). cbn. apply Forall_flat.
      apply Forall_forall. intros s' Hs'. apply In_nth_error in Hs'. destruct Hs' as [j Hj].
      assert (Lj : (j < length l)%nat) by (apply nth_error_Some; congruence).
      destruct (K3 j) as (s & t & stj & T1 & T2 & T3 & T4); [lia|]. assert (t = s') by congruence. subst t.
      eapply IH; [|exact T3|exact T4]. eapply Forall_forall; [exact S2|]. eapply nth_error_In; eauto.
Qed.
Lemma all_I_equal tm n : forall (u u1 : tree n) i chk r, serial n u ->
  Forall (fun c => e_I (es (u_ecm c)) = i) (leaves n u) ->
  same_tree only_I n u u1 -> o_setCurrent (ops tm n) i false u1 = r -> chk = false ->
  leaves n (fst r) = leaves n u.
Proof.
  intros u u1 i chk r Hs Hi Hf <- _.
  destruct (unchecked_succeeds tm n u1 i (serial_same _ _ _ _ Hf Hs)) as (u' & st & E & B).
  assert (K := accepted_everywhere tm n u1 u' i false st (proj1 (serial_same _ _ _ _ Hf Hs)) E B).
  assert (J := setCurrent_frame_tree _ _ _ _ _ _ _ E). rewrite E. cbn [fst].
  assert (F := same_tree_leaves _ _ _ _ (frame_trans _ _ _ _ Hf J)).
  clear - F K Hi. induction F as [|a b l l' H _ IH]; [reflexivity|]. inversion K; subst. inversion Hi; subst.
  f_equal; [|auto]. apply only_I_eq; [exact H|congruence].
Qed.
(** Currents of a series tree with one current in all cells. *)
Lemma uniform_I tm n : forall (u : tree n) i, all_series n u -> leaves n u <> [] ->
  Forall (fun c => e_I (es (u_ecm c)) = i) (leaves n u) -> every_module (fun _ _ l => l <> []) n u -> o_I (ops tm n) u = i.
Proof.
  induction n as [|n IH]; intros u i Hs Ne F W; [now inversion F|].
  node u c m; [now inversion F|]. cbn in *. unfold mod_I. destruct Hs as [-> Hs]. destruct W as [W0 W].
  destruct (ms m) as [|s l]; [congruence|]. cbn in F. rewrite Forall_app in F. destruct F as [F _]. inversion Hs; subst. inversion W; subst.
  apply IH; auto. clear - n H3. revert s H3. induction n as [|n IH]; intros s W; [discriminate|]. node s c m; [discriminate|].
  cbn in *. destruct W as [W0 W]. destruct (ms m) as [|t k]; [congruence|]. inversion W; subst. cbn.
  intros E. apply app_eq_nil in E. destruct E as [E _]. exact (IH t H1 E).
Qed.

(** A rejected command leaves everything below the children other than the first as it was. *)
Lemma rejected_tail tm n (m m' : module A (tree n)) Inew chk st i :
  serial (Datatypes.S n) (inr m) -> every_module (fun _ _ l => l <> []) (Datatypes.S n) (inr m : tree (Datatypes.S n)) ->
  Forall (fun c => e_I (es (u_ecm c)) = i) (leaves (Datatypes.S n) (inr m)) ->
  mod_setCurrent (ops tm n) Inew chk m = (m', Ok st) -> isStatusBad st = true ->
  map (leaves n) (tl (ms m')) = map (leaves n) (tl (ms m)) /\
  exists s l, ms m = s :: l /\ exists l', ms m' = fst (o_setCurrent (ops tm n) Inew chk s) :: l'.
Proof.
  intros [[S1 S2] [N1 N2]] [W0 W] Fi H B. cbn in S1, S2, N1, N2, W0, W, Fi. unfold mod_setCurrent in H. rewrite S1 in H.
  destruct (s_setCurrent _ _ _ _ _ _ _) as [l' r] eqn:E. injection H as <- ->. cbn [ms].
  assert (F : Forall (serial n) (ms m)).
  { rewrite Forall_forall in S2, N2 |- *. intros x Hx. split; [exact (S2 x Hx)|exact (N2 x Hx)]. }
  apply (s_setCurrent_bad _ (serial n)) with (l0 := ms m) in E; auto.
  - destruct E as (K1 & k & K2 & K3 & K4 & K5 & K6).
    destruct (ms m) as [|s l] eqn:El; [congruence|]. destruct l' as [|s' l']; [discriminate|].
    split.
    2:{ exists s, l. split; [reflexivity|]. exists l'. specialize (K5 s eq_refl). cbn in K5. congruence. }
    cbn [tl]. apply nth_error_ext. intros j. rewrite !nth_error_map.
    destruct (nth_error l j) as [x|] eqn:Ex.
    2:{ replace (nth_error l' j) with (@None (tree n)); [reflexivity|]. symmetry. apply nth_error_None. apply nth_error_None in Ex.
        cbn in K1. lia. }
    assert (Fx : serial n x /\ every_module (fun _ _ l => l <> []) n x /\ Forall (fun c => e_I (es (u_ecm c)) = i) (leaves n x)).
    { assert (In x (s :: l)) by (right; eapply nth_error_In; eauto). rewrite Forall_flat in Fi. rewrite Forall_forall in F, W, Fi.
      auto. }
    destruct Fx as (Fx1 & Fx2 & Fx3).
    destruct (Compare_dec.le_lt_dec (Datatypes.S j) k) as [Hj|Hj].
    + assert (X := K6 (Datatypes.S j) x). cbn [nth_error] in X. rewrite X; auto; [|lia]. cbn [option_map]. f_equal.
      destruct (o_setCurrent (ops tm n) Inew chk x) as [x1 r1] eqn:E1. cbn [fst].
      rewrite (uniform_I tm n x i); auto; [|apply Fx1|].
      * eapply all_I_equal; [exact Fx1|exact Fx3|eapply setCurrent_frame_tree; exact E1|reflexivity|reflexivity].
      * clear - Fx2. revert x Fx2. induction n as [|n IH]; intros s W; [discriminate|]. node s c m; [discriminate|].
        cbn in *. destruct W as [W0 W]. destruct (ms m) as [|t k]; [congruence|]. inversion W; subst. cbn.
        intros E. apply app_eq_nil in E. destruct E as [E _]. exact (IH t H1 E).
    + assert (X := K4 (Datatypes.S j)). cbn [nth_error] in X. rewrite X by lia. rewrite Ex. reflexivity.
  - intros s j Hs. destruct (unchecked_succeeds tm n s j Hs) as (x & y & E1 & _). eauto.
  - intros s s' j b r Hs E1. eapply serial_same; [eapply setCurrent_frame_tree; exact E1|exact Hs].
  - intros j Hj. lia.
  - intros j x Hj. lia.
Qed.

(** ** State vectors *)
(** A cell that can take over the state of [d]. *)
(** States a tree accepts: valid cells (with acceptable voltages when they are checked), coolant temperatures in range. *)

Lemma setT_allowed (t : A) (k : cool A) : T_allowed t -> cool_setT t k = (with_kT k t, Ok tt).
Proof.
  intros (H1 & H2 & H3). unfold cool_setT. rewrite H1, H2. unfold nisnan. rewrite H3. reflexivity.
Qed.
Lemma states_roundtrip_tree tm n : forall (u d : tree n) chk rest,
  same_tree like n u d -> Forall (acceptable_cell chk) (leaves n d) -> temps_allowed n d ->
  exists u' st, o_setStates (ops tm n) (o_getStates (ops tm n) d ++ rest) chk u = (u', Ok (rest, st)) /\ isStatusBad st = false /\
    same_tree (fun c e => u_ecm c = u_ecm e) n u' d /\ o_getStates (ops tm n) u' = o_getStates (ops tm n) d.
Proof.
  assert (L : forall (u d : ecmu A) chk rest, like u d -> acceptable_cell chk d ->
    exists u' st, o_setStates ecm_ops (o_getStates ecm_ops d ++ rest) chk u = (u', Ok (rest, st)) /\ isStatusBad st = false /\
      u_ecm u' = u_ecm d).
  { intros u d chk rest [P1 P2] [Q1 Q2]. cbn [ecm_ops o_setStates o_getStates]. unfold lift_ecm.
    destruct (states_roundtrip (u_ecm d) (u_ecm u) rest chk) as (st & O & E); auto.
    rewrite E. eexists _, st. split; [reflexivity|]. rewrite bad_ok, O. split; reflexivity. }
  induction n as [|n IH]; intros u d chk rest Hst Ha Ht.
  - inversion Ha; subst. destruct (L u d chk rest Hst H1) as (u' & st & E & B & K). exists u', st. split; [exact E|].
    split; [exact B|]. split; [exact K|]. cbn. congruence.
  - node u c m; node d d0 k; try contradiction.
    + inversion Ha; subst. destruct (L c d0 chk rest Hst H1) as (u' & st & E & B & K). exists (inl u'), st.
      cbn [su_ops_at sum_ops o_setStates o_getStates both]. unfold on_l. rewrite E. split; [reflexivity|]. split; [exact B|]. split; [exact K|]. cbn. congruence.
    + cbn in Hst, Ha, Ht. destruct Hst as [Hser Hst]. destruct Ht as [Ht Hts]. rewrite Forall_flat in Ha.
      cbn [su_ops_at sum_ops o_setStates o_getStates both]. unfold on_r. cbn [mod_ops o_setStates]. unfold mod_setStates.
      assert (X : forall (ld lu pre : list (tree n)) orig, Forall2 (same_tree like n) lu ld ->
        Forall (fun s => Forall (acceptable_cell chk) (leaves n s)) ld -> Forall (temps_allowed n) ld ->
        forall rest', exists lu', ss_loop (ops tm n) (length lu) (length pre) (flat_map (o_getStates (ops tm n)) ld ++ rest') orig chk (pre ++ lu)
          = (pre ++ lu', Ok (rest', Success)) /\ Forall2 (same_tree (fun c e => u_ecm c = u_ecm e) n) lu' ld /\
          flat_map (o_getStates (ops tm n)) lu' = flat_map (o_getStates (ops tm n)) ld).
      { clear - IH. induction ld as [|d ld IHl]; intros lu pre orig HF Ha Ht rest'; inversion HF; subst.
        - exists []. cbn. repeat split; constructor.
        - inversion Ha; subst. inversion Ht; subst. cbn [length ss_loop flat_map]. rewrite <- app_assoc.
          destruct (IH x d chk (flat_map (o_getStates (ops tm n)) ld ++ rest')) as (x' & st & E & B & K1 & K2); auto.
          unfold child_do. rewrite nth_error_app2, Nat.sub_diag by lia. cbn [nth_error]. rewrite E, B.
          assert (Y : list_set (pre ++ x :: l) (length pre) x' = (pre ++ [x']) ++ l).
          { rewrite <- app_assoc. clear. induction pre; cbn; [reflexivity|]. now rewrite IHpre. }
          rewrite Y. replace (Datatypes.S (length pre)) with (length (pre ++ [x'])) by (rewrite app_length; cbn; lia).
          destruct (IHl l (pre ++ [x']) orig H3 H4 H6 rest') as (lu' & E2 & F & G). exists (x' :: lu').
          rewrite E2, <- app_assoc. split; [reflexivity|]. split; [constructor; auto|]. cbn. congruence. }
      destruct (X (ms k) (ms m) [] (mod_getStates (ops tm n) m) Hst Ha Hts ([mod_T k] ++ rest)) as (lu' & E & F & G).
      cbn [app length] in E. change (o_getStates (mod_ops (ops tm n) tm) k) with (flat_map (o_getStates (ops tm n)) (ms k) ++ [mod_T k]).
      rewrite <- app_assoc. cbn [app]. rewrite E. cbn [isStatusBad].
      replace (isStatusBad Success) with false by reflexivity. cbn [mm m_cool inval set_V]. unfold mod_T at 1.
      rewrite (setT_allowed _ _ Ht). eexists _, Success. split; [reflexivity|]. split; [reflexivity|]. cbn. split.
      * split; [exact Hser|exact F].
      * unfold mod_getStates. cbn. rewrite G. reflexivity.
Qed.

(** ** The voltage check *)
Lemma ecm_status_nonneg (c : ecm A) v s : ecm_checkVoltage c = Ok (v, s) -> (0 <= status_val s)%Z.
Proof.
  unfold ecm_checkVoltage, check_voltage. destruct (ecm_V c); try discriminate; [|intros [= <- <-]; cbn; lia].
  intros [= <- <-]. repeat match goal with |- context [if ?b then _ else _] => destruct b end; cbn; lia.
Qed.
Lemma status_val_0 s : status_val s = 0%Z -> s = Success.
Proof. destruct s; cbn; intros; try lia; reflexivity. Qed.
Lemma checkV_tree tm n : forall (u u' : tree n) v st, o_checkV (ops tm n) u = (u', Ok (v, st)) ->
  leaves n u' = leaves n u /\
  exists sts, Forall2 cell_status (leaves n u) sts /\ worst_of sts st.
Proof.
  assert (L : forall (c : ecmu A) v st, ecm_checkVoltage (u_ecm c) = Ok (v, st) ->
    exists sts, Forall2 cell_status [c] sts /\ worst_of sts st).
  { intros c v st E. exists [st]. split; [constructor; [now exists v|constructor]|].
    split; [|left; now left]. intros s [<-|[]]. lia. }
  induction n as [|n IH]; intros u u' v st H.
  - cbn in H. injection H as <- H. split; [reflexivity|]. eapply L; exact H.
  - node u c m.
    + cbn in H. unfold on_l in H. injection H as <- H. split; [reflexivity|]. eapply L; exact H.
    + cbn in H. unfold on_r in H. destruct (mod_checkV _ m) as [m' r] eqn:E. injection H as <- ->.
      unfold mod_checkV in E. destruct (mod_V _ m) as [m1 [v1| | |]] eqn:EV; try discriminate.
      destruct (each _ (ms m1)) as [l [rs| | |]] eqn:Ee; try discriminate. injection E as <- <- <-. cbn [leaves ms].
      assert (LV : flat_map (leaves n) (ms m1) = flat_map (leaves n) (ms m)).
      { destruct (V_leaves tm (Datatypes.S n) (inr m) (inr m1) (Ok v1)) as [X _]; [cbn; unfold on_r; rewrite EV; reflexivity|exact X]. }
      destruct (each_ok _ _ _ _ Ee) as (F & L1 & L2). rewrite <- LV. clear LV EV Ee L2.
      assert (X : flat_map (leaves n) l = flat_map (leaves n) (ms m1) /\ exists stss,
        Forall2 cell_status (flat_map (leaves n) (ms m1)) (concat stss) /\ Forall2 worst_of stss (map snd rs)).
      { revert l rs F L1. induction (ms m1) as [|s t IHt]; intros l rs F L1.
        - destruct l; [|destruct rs; [discriminate|inversion F]]. split; [reflexivity|]. exists []. destruct rs; [|discriminate].
          split; constructor.
        - destruct l as [|s' l]; [inversion F|]. destruct rs as [|[vs st] rs]; [discriminate|]. cbn [combine] in F. inversion F; subst.
          cbn [fst snd] in H2. destruct (IH _ _ _ _ H2) as [J1 (sts & J2 & J3)].
          destruct (IHt l rs H4) as [K1 (stss & K2 & K3)]; [cbn in L1; lia|]. cbn [flat_map]. split; [congruence|].
          exists (sts :: stss). cbn [concat map snd]. split; [now apply Forall2_app|]. now constructor. }
      destruct X as [X1 (stss & X2 & X3)]. split; [exact X1|]. exists (concat stss). split; [exact X2|].
      destruct (status_worst_spec (map snd rs)) as (W1 & W2 & _).
      set (w := status_worst (map snd rs)) in *. clearbody w.
      assert (U : forall s, In s (concat stss) -> (status_val s <= status_val w)%Z).
      { intros s Hs. apply in_concat in Hs. destruct Hs as (sts & Hs1 & Hs2).
        destruct (In_nth_error _ _ Hs1) as [j Hj].
        destruct (nth_error (map snd rs) j) as [sj|] eqn:Ej.
        2:{ exfalso. apply nth_error_None in Ej. apply Forall2_len in X3. assert (j < length stss)%nat by (apply nth_error_Some; congruence). lia. }
        assert (Y : worst_of sts sj).
        { clear - X3 Hj Ej. revert j Hj Ej. induction X3; intros [|j] Hj Ej; cbn in *; try discriminate; [congruence|eauto]. }
        apply proj1 in Y. specialize (Y s Hs2). specialize (W2 sj (nth_error_In _ _ Ej)). lia. }
      split; [exact U|].
      assert (Z : w = Success -> In w (concat stss) \/ concat stss = [] /\ w = Success).
      { intros ->. destruct (concat stss) as [|s q] eqn:Ec; [right; auto|left; left]. apply status_val_0.
        specialize (U s (or_introl eq_refl)). cbn in U. try rewrite Ec in X2. inversion X2 as [|? ? ? ? [vv Hv] ?]; subst. apply ecm_status_nonneg in Hv. lia. }
      destruct W1 as [W1|W1]; [exact (Z W1)|].
      destruct (In_nth_error _ _ W1) as [j Ej]. destruct (nth_error stss j) as [sts|] eqn:Hj.
      2:{ exfalso. apply nth_error_None in Hj. apply Forall2_len in X3. assert (j < length (map snd rs))%nat by (apply nth_error_Some; congruence). lia. }
      assert (Y : worst_of sts w).
      { clear - X3 Hj Ej. revert j Hj Ej. induction X3; intros [|j] Hj Ej; cbn in *; try discriminate; [congruence|eauto]. }
      destruct Y as [_ [Y|[_ Y]]]; [|exact (Z Y)]. left. apply in_concat. exists sts. split; [eapply nth_error_In; eauto|exact Y].
Qed.
End Any.
