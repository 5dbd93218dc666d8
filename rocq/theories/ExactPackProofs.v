(** * Every cell of a pack has the history of a cell on its own *)
From Coq Require Import Lra Lia.
From Verif Require Import Base RFacts StatusModel StatusProofs UtilModel UtilSpec UtilProofs CellModel CellSpec CellProofs
  CoolModel ModuleModel ModuleSpec ModuleProofs ModuleProofs2 ModuleProofs3 ModuleProofs4 ModuleProofs5 ModuleProofs6
  EnergyPackProofs ExactPackSpec.
Local Open Scope R_scope.

(** Cell by cell: the first state, its log, the last state. *)
Inductive own : list (ecmu R) -> list (list (R * R * nat)) -> list (ecmu R) -> Prop :=
| own_nil : own nil nil nil
| own_cons c l log logs d l' : ecm_hist (u_ecm c) log (u_ecm d) -> own l logs l' -> own (cons c l) (cons log logs) (cons d l').

Lemma hist_IT (c d : ecmu R) log e : but_IT c d -> ecm_hist (u_ecm d) log e -> ecm_hist (u_ecm c) log e.
Proof.
  intros (_ & H1 & H2 & H3 & H4 & H5 & H6) U.
  apply (h_setI _ (e_I (es (u_ecm d))) false (mkEcm (ep (u_ecm c)) (with_I (es (u_ecm c)) (e_I (es (u_ecm d))))) Success);
    [reflexivity|].
  apply (h_setT _ (e_T (es (u_ecm d)))).
  match goal with |- ecm_hist ?x _ _ => replace x with (u_ecm d); [exact U|] end.
  destruct d as [b [p s]], c as [b' [p' s']]. cbn in *. subst. destruct s, s'. cbn in *. subst. reflexivity.
Qed.
Lemma own_refl l : own l (map (fun _ => nil) l) l.
Proof. induction l; cbn [map]; constructor; auto. constructor. Qed.
Lemma own_IT l l1 logs l2 : Forall2 but_IT l l1 -> own l1 logs l2 -> own l logs l2.
Proof.
  intros H. revert logs l2. induction H as [|c d l l1 Hc _ IH]; intros logs l2 U; inversion U; subst; [constructor|].
  constructor; [eapply hist_IT; eauto|auto].
Qed.
Lemma own_step dt (k : nat) l l1 logs l2 : Forall2 (advanced dt (Z.of_nat k)) l l1 -> own l1 logs l2 -> own l (step_log dt k l logs) l2.
Proof.
  intros H. revert logs l2. induction H as [|c d l l1 Hc _ IH]; intros logs l2 U; inversion U as [|? ? log logs' e l2' U1 U2]; subst; [constructor|].
  unfold step_log in *. cbn [combine map]. constructor; [|apply IH; auto].
  destruct Hc as (e' & E & B & P & S1 & S2 & S3 & S4 & S5).
  eapply h_step; [exact E|]. apply (hist_IT (mkEu (u_block d) e') d); [|exact U1].
  repeat split; cbn [u_block u_ecm]; auto.
Qed.
Lemma pack_own tm n u logs v : pack_hist tm n u logs v -> own (leaves n u) logs (leaves n v).
Proof.
  induction 1 as [u|u u1 r logs v E _ IH|i chk u u1 r logs v E _ IH|x u u1 r logs v E _ IH
    |nb t u u1 r logs v E _ IH|t u u1 r logs v E _ IH|dt k u u1 logs v E _ IH].
  - apply own_refl.
  - eapply own_IT; [|exact IH]. apply same_tree_leaves, (cur_frame tm). eapply cur_of_V; eauto.
  - eapply own_IT; [|exact IH]. apply same_tree_leaves, (cur_frame tm). eapply cur_of_I; eauto.
  - eapply own_IT; [|exact IH]. apply same_tree_leaves, (cur_frame tm). eapply setV_cur; eauto.
  - eapply own_IT; [|exact IH]. eapply same_tree_leaves, thermal_IT; eauto.
  - eapply own_IT; [|exact IH]. eapply same_tree_leaves, setT_IT; eauto.
  - apply (own_step dt k _ (leaves n u1)); auto. apply same_tree_leaves. eapply advanced_all; eauto.
Qed.
Lemma own_nth l logs l' : own l logs l' -> forall a c d log, nth_error l a = Some c -> nth_error logs a = Some log -> nth_error l' a = Some d ->
  ecm_hist (u_ecm c) log (u_ecm d).
Proof.
  induction 1 as [|c l log logs d l' H _ IH]; intros [|a] c' d' log' E1 E2 E3; cbn in *; try discriminate; [congruence|eauto].
Qed.
