(** * Proofs about modules: rejected states in a flat module *)
From Coq Require Import List Lia.
From Verif Require Import Base StatusModel StatusProofs CellModel CellSpec CellProofs CoolModel ModuleModel ModuleSpec ModuleProofs ModuleProofs3.
Import ListNotations.
Section Flat.
Context {A : Type} {NA : Num A}.
Notation cell := (ecmu A).
Definition nrc (c : cell) : nat := length (e_Ir (es (u_ecm c))).

Lemma setStates_unchecked (c d : cell) rest : nrc d = nrc c ->
  exists d' st, o_setStates ecm_ops (o_getStates ecm_ops c ++ rest) false d = (d', Ok (rest, st)) /\ nrc d' = nrc d /\
    ep (u_ecm d') = ep (u_ecm d) /\ u_block d' = u_block d /\
    (ep (u_ecm d) = ep (u_ecm c) -> ecm_validStates (u_ecm c) = true -> u_ecm d' = u_ecm c).
Proof.
  intros Hn. cbn [ecm_ops o_setStates o_getStates]. unfold lift_ecm, ecm_setStates.
  change (length (e_Ir (es (u_ecm d)))) with (nrc d). rewrite Hn. unfold nrc at 1. rewrite ecm_read_getStates. cbn zeta.
  unfold check_Cell_states. destruct (ecm_validStates (mkEcm (ep (u_ecm d)) (es (u_ecm c)))) eqn:V; cbn [negb].
  - eexists _, _. split; [reflexivity|]. cbn. repeat split; auto. intros E _. rewrite E. destruct (u_ecm c); reflexivity.
  - eexists _, _. split; [reflexivity|]. cbn. repeat split; auto. intros E K. rewrite E, ecm_eta in V. congruence.
Qed.
Lemma list_set_same {X} : forall (l : list X) i x, nth_error l i = Some x -> list_set l i x = l.
Proof. induction l as [|y l IH]; intros [|i] x H; try discriminate; cbn in *; [congruence|]. now rewrite IH. Qed.
Lemma list_set_set {X} : forall (l : list X) i x y, list_set (list_set l i x) i y = list_set l i y.
Proof. induction l as [|z l IH]; intros [|i] x y; cbn; try reflexivity. now rewrite IH. Qed.
Lemma restore_last (cs : list cell) : forall i (c d : cell) l tail,
  nth_error l i = Some d -> Forall (fun x => nrc x = nrc d) cs -> nrc c = nrc d -> ep (u_ecm d) = ep (u_ecm c) ->
  ecm_validStates (u_ecm c) = true ->
  exists d', ss_restore_from ecm_ops (S (length cs)) i (flat_map (o_getStates ecm_ops) (cs ++ [c]) ++ tail) l = (list_set l i d', Ok tt) /\
    u_ecm d' = u_ecm c /\ u_block d' = u_block d.
Proof.
  induction cs as [|x cs IH]; intros i c d l tail Hd F Hn He Hv.
  - cbn [length app flat_map]. rewrite app_nil_r.
    destruct (setStates_unchecked c d tail (eq_sym Hn)) as (d' & st & E & N & P & B & K).
    cbn [ss_restore_from]. unfold child_do. rewrite Hd, E. exists d'. auto.
  - inversion F; subst. cbn [length app flat_map]. rewrite <- app_assoc.
    destruct (setStates_unchecked x d (flat_map (o_getStates ecm_ops) (cs ++ [c]) ++ tail) (eq_sym H1)) as (d' & st & E & N & P & B & K).
    cbn [ss_restore_from] in *. unfold child_do at 1. rewrite Hd, E.
    assert (G : nth_error (list_set l i d') i = Some d').
    { rewrite nth_error_list_set. rewrite Nat.eqb_refl. assert (i < length l)%nat by (apply nth_error_Some; congruence).
      destruct (Nat.ltb_spec i (length l)); [reflexivity|lia]. }
    destruct (IH i c d' (list_set l i d') tail G) as (e & E2 & K1 & K2).
    + eapply Forall_impl; [|exact H2]. cbn. intros; congruence.
    + congruence.
    + congruence.
    + exact Hv.
    + rewrite E2. exists e. rewrite list_set_set. split; [reflexivity|]. split; congruence.
Qed.
(** The first [i] children have taken the new values, the failing one and the later ones are as before. *)
Lemma ss_loop_bad : forall todo i s tail (pre post : list cell) orig_pre l' rest st,
  length post = todo -> length pre = i -> Forall2 (fun c d => nrc c = nrc d) orig_pre pre ->
  Forall (fun c => ecm_validStates (u_ecm c) = true) post -> (forall a b, In a (orig_pre ++ post) -> In b (orig_pre ++ post) -> nrc a = nrc b) ->
  ss_loop ecm_ops todo i s (flat_map (o_getStates ecm_ops) (orig_pre ++ post) ++ tail) true (pre ++ post) = (l', Ok (rest, st)) \/
  ss_loop ecm_ops todo i s (flat_map (o_getStates ecm_ops) (orig_pre ++ post) ++ tail) false (pre ++ post) = (l', Ok (rest, st)) ->
  isStatusBad st = true ->
  exists j c chk sj, (i <= j)%nat /\ nth_error (pre ++ post) j = Some c /\ snd (o_setStates ecm_ops sj chk c) = Ok (rest, st) /\
    skipn j l' = skipn j (pre ++ post) /\ (j = i -> sj = s /\ l' = pre ++ post).
Proof.
  induction todo as [|t IH]; intros i s tail pre post op l' rest st Lp Li Fo Fv Hn H B.
  - exfalso. destruct H as [H|H]; cbn in H; injection H as <- <- <-; discriminate.
  - destruct post as [|c post]; [discriminate|]. injection Lp as Lp.
    assert (Hc : nth_error (pre ++ c :: post) i = Some c) by (rewrite nth_error_app2 by lia; replace (i - length pre)%nat with 0%nat by lia; reflexivity).
    assert (G : exists chk, ss_loop ecm_ops (S t) i s (flat_map (o_getStates ecm_ops) (op ++ c :: post) ++ tail) chk (pre ++ c :: post) = (l', Ok (rest, st))) by (destruct H; eauto).
    assert (Hrec : forall chk, ss_loop ecm_ops (S t) i s (flat_map (o_getStates ecm_ops) (op ++ c :: post) ++ tail) chk (pre ++ c :: post) = (l', Ok (rest, st)) ->
      exists j c' chk' sj, (i <= j)%nat /\ nth_error (pre ++ c :: post) j = Some c' /\ snd (o_setStates ecm_ops sj chk' c') = Ok (rest, st) /\
        skipn j l' = skipn j (pre ++ c :: post) /\ (j = i -> sj = s /\ l' = pre ++ c :: post)).
    2:{ destruct H as [H|H]; exact (Hrec _ H). }
    clear H G. intros chk G. cbn [ss_loop] in G. unfold child_do in G at 1. rewrite Hc in G.
    destruct (o_setStates ecm_ops s chk c) as [c1 r1] eqn:E. cbn in r1. destruct r1 as [[rest1 st1]| | |]; try discriminate.
    assert (K : ep (u_ecm c1) = ep (u_ecm c) /\ u_block c1 = u_block c /\ nrc c1 = nrc c /\ (isStatusBad st1 = true -> c1 = c)).
    { cbn [ecm_ops o_setStates] in E. unfold lift_ecm in E. destruct (ecm_setStates s chk (u_ecm c)) as [e x] eqn:Ee. injection E as <- ->.
      cbn [u_ecm u_block]. destruct (setStates_spec _ _ _ _ _ _ Ee) as [S1 S2]. unfold nrc. cbn [u_ecm].
      destruct (isStatusBad st1) eqn:Eb.
      - rewrite (S1 eq_refl). repeat split. intros _. now destruct c.
      - rewrite bad_ok in Eb. destruct S2 as (T1 & T2 & T3 & T4); [now destruct (isStatusOK st1)|]. repeat split; auto. discriminate. }
    destruct K as (K1 & K2 & K3 & K4). assert (Ls : list_set (pre ++ c :: post) i c1 = pre ++ c1 :: post).
    { clear - Li. subst i. induction pre; cbn; congruence. }
    rewrite Ls in G. destruct (isStatusBad st1) eqn:Eb.
    + specialize (K4 eq_refl). subst c1.
      assert (Ho : length op = i) by (rewrite (Forall2_len _ _ _ Fo) in Li || idtac; apply Forall2_len in Fo; congruence).
      assert (Hx : flat_map (o_getStates ecm_ops) (op ++ c :: post) ++ tail = flat_map (o_getStates ecm_ops) (op ++ [c]) ++ (flat_map (o_getStates ecm_ops) post ++ tail)).
      { rewrite !flat_map_app. cbn [flat_map]. rewrite app_nil_r, !app_assoc. reflexivity. }
      rewrite Hx in G. inversion Fv; subst.
      destruct (restore_last op (length pre) c c (pre ++ c :: post) (flat_map (o_getStates ecm_ops) post ++ tail)) as (d' & R1 & R2 & R3); auto.
      { apply Forall_forall. intros x Hxx. apply Hn; apply in_or_app; [now left|right; now left]. }
      rewrite Ho in R1. rewrite R1 in G. injection G as <- <- <-. assert (d' = c) by (destruct d', c; cbn in *; congruence). subst d'.
      rewrite (list_set_same _ _ _ Hc). exists (length pre), c, chk, s. rewrite E. repeat split; auto.
    + assert (Hx : pre ++ c1 :: post = (pre ++ [c1]) ++ post) by (rewrite <- app_assoc; reflexivity).
      assert (Hy : op ++ c :: post = (op ++ [c]) ++ post) by (rewrite <- app_assoc; reflexivity).
      rewrite Hx, Hy in G.
      destruct (IH (S i) rest1 tail (pre ++ [c1]) post (op ++ [c]) l' rest st) as (j & c' & chk' & sj & J1 & J2 & J3 & J4 & J5); auto.
      * rewrite app_length. cbn. lia.
      * apply Forall2_app; [exact Fo|]. constructor; [congruence|constructor].
      * now inversion Fv.
      * rewrite <- Hy. exact Hn.
      * destruct chk; [left|right]; exact G.
      * exists j, c', chk', sj. split; [lia|]. rewrite <- Hx in J2, J4.
        assert (Sk : forall z, skipn j (pre ++ z :: post) = skipn (j - S i) post).
        { intros z. rewrite skipn_app. rewrite (skipn_all2 pre) by lia. replace (j - length pre)%nat with (S (j - S i)) by lia. reflexivity. }
        split; [|split; [exact J3|split; [rewrite J4, !Sk; reflexivity|lia]]].
        rewrite nth_error_app2 in * by lia. replace (j - length pre)%nat with (S (j - S i)) in * by lia. exact J2.
Qed.
Lemma flat_rejected (m m' : module A cell) s chk rest st :
  Forall (fun c => ecm_validStates (u_ecm c) = true) (ms m) -> (forall a b, In a (ms m) -> In b (ms m) -> nrc a = nrc b) ->
  mod_setStates ecm_ops s chk m = (m', Ok (rest, st)) -> isStatusBad st = true ->
  exists j c chk' sj, nth_error (ms m) j = Some c /\ snd (o_setStates ecm_ops sj chk' c) = Ok (rest, st) /\
    skipn j (ms m') = skipn j (ms m) /\ (j = 0%nat -> sj = s /\ ms m' = ms m).
Proof.
  intros Fv Hn H B. unfold mod_setStates in H.
  destruct (ss_loop _ _ _ _ _ _ _) as [l [[rest1 st1]| | |]] eqn:E; try discriminate.
  destruct (isStatusBad st1) eqn:Eb.
  - injection H as <- <- <-.
    assert (G : exists tail, mod_getStates ecm_ops m = flat_map (o_getStates ecm_ops) (ms m) ++ tail) by (unfold mod_getStates; eauto).
    destruct G as [tail G]. rewrite G in E.
    destruct (ss_loop_bad (length (ms m)) 0 s tail [] (ms m) [] l rest1 st1) as (j & c & chk' & sj & J1 & J2 & J3 & J4 & J5); auto.
    { cbn [app]. destruct chk; auto. }
    exists j, c, chk', sj. cbn [ms]. auto.
  - destruct rest1 as [|t rest1]; [discriminate|]. destruct (cool_setT _ _) as [k [x| | |]]; try discriminate. injection H as <- <- <-. discriminate.
Qed.
End Flat.
