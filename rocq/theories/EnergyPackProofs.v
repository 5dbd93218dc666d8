(** * Proof of the energy statement about packs *)
From Coq Require Import Lra Lia.
From Verif Require Import Base RFacts StatusModel StatusProofs UtilModel UtilSpec UtilProofs CellModel CellSpec CellProofs
  CoolModel ModuleModel ModuleSpec ModuleProofs ModuleProofs2 ModuleProofs3 ModuleProofs4 ModuleProofs5 ModuleProofs6
  EnergySpec EnergyProofs EnergyPackSpec.
Local Open Scope R_scope.
Notation ops tm n := (su_ops_at (C := ecmu R) (A := R) ecm_ops tm n).
Notation tree n := (su R (ecmu R) n).

(** A change of current and temperature is a current and a temperature command. *)
Lemma used_IT (c d : ecmu R) del tak e : but_IT c d -> used (u_ecm d) del tak e -> used (u_ecm c) del tak e.
Proof.
  intros (_ & H1 & H2 & H3 & H4 & H5 & H6) U.
  apply (u_setI _ (e_I (es (u_ecm d))) false (mkEcm (ep (u_ecm c)) (with_I (es (u_ecm c)) (e_I (es (u_ecm d))))) Success);
    [reflexivity|].
  apply (u_setT _ (e_T (es (u_ecm d)))).
  match goal with |- used ?x _ _ _ => replace x with (u_ecm d); [exact U|] end.
  destruct d as [b [p s]], c as [b' [p' s']]. cbn in *. subst. destruct s, s'. cbn in *. subst. reflexivity.
Qed.

Lemma setV_loop_cur tm n v : forall it ia (s s' : tree n) r, setVoltage_loop (ops tm n) it v ia s = (s', r) ->
  cur_rel (ops tm n) s s'.
Proof.
  induction it as [|it IH]; intros ia s s' r E; cbn [setVoltage_loop] in E; [injection E as <- _; constructor|].
  destruct (o_V (ops tm n) s) as [s1 [va| | |]] eqn:E1; try (injection E as <- _; eapply cur_of_V; eauto).
  assert (C1 := cur_of_V _ _ _ _ E1).
  destruct (nltb _ _); [injection E as <- _; exact C1|].
  match type of E with context [o_setCurrent _ ?i true s1] => destruct (o_setCurrent (ops tm n) i true s1) as [s2 r2] eqn:E2 end.
  assert (C2 := cur_trans _ _ _ _ C1 (cur_of_I _ _ _ _ _ _ E2)).
  destruct r2; try (injection E as <- _; exact C2).
  destruct (o_V (ops tm n) s2) as [s3 r3] eqn:E3. assert (C3 := cur_trans _ _ _ _ C2 (cur_of_V _ _ _ _ E3)).
  destruct r3 as [vb| | |]; try (injection E as <- _; exact C3).
  match type of E with context [o_setCurrent _ ?i true s3] => destruct (o_setCurrent (ops tm n) i true s3) as [s4 r4] eqn:E4 end.
  assert (C4 := cur_trans _ _ _ _ C3 (cur_of_I _ _ _ _ _ _ E4)).
  destruct r4; try (injection E as <- _; exact C4).
  eapply cur_trans; [exact C4|eapply IH; eauto].
Qed.

Lemma setV_cur tm n v (s s' : tree n) r : setVoltage_iterative (ops tm n) v s = (s', r) -> cur_rel (ops tm n) s s'.
Proof. unfold setVoltage_iterative. generalize 50%nat as it. intros it. apply setV_loop_cur. Qed.

(** Per cell: what it delivered and took in. *)
Inductive cells_used : list (ecmu R) -> R -> R -> list (ecmu R) -> Prop :=
| cu_nil : cells_used [] 0 0 []
| cu_cons c l a b del tak d l' : used (u_ecm c) a b (u_ecm d) -> cells_used l del tak l' ->
    cells_used (c :: l) (a + del) (b + tak) (d :: l').

Lemma cells_refl l : cells_used l 0 0 l.
Proof.
  induction l as [|c l IH]; [constructor|].
  replace 0 with (0 + 0) by ring. constructor; [constructor|exact IH].
Qed.
Lemma cells_IT l l1 del tak l2 : Forall2 but_IT l l1 -> cells_used l1 del tak l2 -> cells_used l del tak l2.
Proof.
  intros H. revert del tak l2. induction H as [|c d l l1 Hc _ IH]; intros del tak l2 U; inversion U; subst; [constructor|].
  constructor; [eapply used_IT; eauto|auto].
Qed.
Lemma cells_step dt (k : nat) l l1 del tak l2 : Forall2 (advanced dt (Z.of_nat k)) l l1 ->
  Forall (fun c => Forall (fun q => dt * q <= 2) (p_itau (ep (u_ecm c))) /\
      forall j : nat, (1 <= j <= k)%nat -> readable (fst (ecm_timeStep_CC dt (Z.of_nat j) (u_ecm c)))) l ->
  cells_used l1 del tak l2 ->
  cells_used l
   (Rsum (map (fun '(c, d) => out (e_I (es (u_ecm c))) (e_Wh (es (u_ecm d)) - e_Wh (es (u_ecm c)))) (combine l l1)) + del)
   (Rsum (map (fun '(c, d) => into (e_I (es (u_ecm c))) (e_Wh (es (u_ecm d)) - e_Wh (es (u_ecm c)))) (combine l l1)) + tak) l2.
Proof.
  intros H. revert del tak l2. induction H as [|c d l l1 Hc _ IH]; intros del tak l2 HF U.
  - cbn. rewrite !Rplus_0_l. exact U.
  - inversion U as [|c0 l0 a b del' tak' e l2' U1 U2]; subst. apply Forall_cons_iff in HF. destruct HF as [[F1 F2] F3].
    cbn [combine map Rsum].
    match goal with |- cells_used _ (?x + ?y + (?p + ?q)) (?z + ?w + (?s + ?t)) _ =>
      replace (x + y + (p + q)) with ((x + p) + (y + q)) by ring;
      replace (z + w + (s + t)) with ((z + s) + (w + t)) by ring end.
    constructor; [|apply IH; auto].
    destruct Hc as (e' & E & B & P & S1 & S2 & S3 & S4 & S5).
    rewrite S5. apply (u_step (u_ecm c) dt k e' a b (u_ecm e) E F1 F2).
    apply (used_IT (mkEu (u_block d) e') d); [|exact U1].
    repeat split; cbn [u_block u_ecm]; auto.
Qed.

Lemma pack_cells tm n u del tak v : pack_used tm n u del tak v -> cells_used (leaves n u) del tak (leaves n v).
Proof.
  induction 1 as [u|u u1 r del tak v E _ IH|i chk u u1 r del tak v E _ IH|x u u1 r del tak v E _ IH
    |nb t u u1 r del tak v E _ IH|t u u1 r del tak v E _ IH|dt k u u1 del tak v E F _ IH].
  - apply cells_refl.
  - eapply cells_IT; [|exact IH]. apply same_tree_leaves, (cur_frame tm). eapply cur_of_V; eauto.
  - eapply cells_IT; [|exact IH]. apply same_tree_leaves, (cur_frame tm). eapply cur_of_I; eauto.
  - eapply cells_IT; [|exact IH]. apply same_tree_leaves, (cur_frame tm). eapply setV_cur; eauto.
  - eapply cells_IT; [|exact IH]. eapply same_tree_leaves, thermal_IT; eauto.
  - eapply cells_IT; [|exact IH]. eapply same_tree_leaves, setT_IT; eauto.
  - apply (cells_step dt k _ (leaves n u1)); auto. apply same_tree_leaves. eapply advanced_all; eauto.
Qed.

Lemma cells_bound l del tak l' : cells_used l del tak l' ->
  Forall (fun c => passive (u_ecm c) /\ exists o, ecm_OCV (u_ecm c) = Ok o) l ->
  del + Rsum (map (fun c => stored (u_ecm c)) l') / 3600
  <= tak + Rsum (map (fun c => stored (u_ecm c)) l) / 3600
     + Rsum (map (fun '(c, d) => given_up (u_ecm c) (u_ecm d)) (combine l l')).
Proof.
  induction 1 as [|c l a b del tak d l' U _ IH]; intros HF; [cbn; lra|].
  apply Forall_cons_iff in HF. destruct HF as [[P (o & Ho)] HF]. specialize (IH HF).
  assert (B := used_bound _ _ _ _ o U P Ho). cbn [combine map Rsum].
  unfold given_up at 1, ocv_of. rewrite Ho. lra.
Qed.
