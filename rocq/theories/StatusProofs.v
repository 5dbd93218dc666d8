(** * Lemmas about statuses *)
From Verif Require Import Base StatusModel.

Lemma status_val_max a b : status_val (status_max a b) = Z.max (status_val a) (status_val b).
Proof. unfold status_max, status_ltb. destruct (Z.ltb_spec (status_val a) (status_val b)); lia. Qed.

Lemma fold_max_spec l a :
  let w := fold_left status_max l a in
  (w = a \/ In w l) /\
  (status_val a <= status_val w)%Z /\
  (forall s, In s l -> (status_val s <= status_val w)%Z).
Proof.
  revert a; induction l as [|x t IH]; intros a; simpl.
  - repeat split; auto; try lia; tauto.
  - destruct (IH (status_max a x)) as (H1 & H2 & H3).
    rewrite status_val_max in H2.
    repeat split.
    + destruct H1 as [H1|H1]; [|auto]. rewrite H1 at 1 2. unfold status_max.
      destruct (status_ltb a x); auto.
    + lia.
    + intros s [->|Hs]; [lia | auto].
Qed.

Lemma status_worst_ok l :
  isStatusOK (status_worst l) = forallb isStatusOK l.
Proof.
  unfold status_worst.
  destruct (fold_max_spec l Success) as (H1 & H2 & H3); cbv zeta in *.
  apply eq_true_iff_eq. rewrite forallb_forall. split.
  - intros H s Hs. specialize (H3 s Hs). unfold isStatusOK, status_ltb in *. lia.
  - intros H. destruct H1 as [->|H1]; [reflexivity | now apply H].
Qed.


Lemma status_worst_spec l :
  (status_worst l = Success \/ In (status_worst l) l) /\
  (forall s, In s l -> (status_val s <= status_val (status_worst l))%Z) /\
  (isStatusOK (status_worst l) = true <-> forall s, In s l -> isStatusOK s = true).
Proof.
  destruct (fold_max_spec l Success) as (H1 & _ & H3).
  split; [exact H1 | split; [exact H3 |]].
  rewrite status_worst_ok. apply forallb_forall.
Qed.
