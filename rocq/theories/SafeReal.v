(** * Proofs for C75: look-ups in usable tables stay inside them *)
From Coq Require Import Reals Lra Lia List.
From Verif Require Import Base RFacts StatusModel UtilModel UtilSpec UtilProofs CellModel CoolModel ModuleModel SpmModel SpmUnitModel SafeSpec SafeProofs SafeCells.
Import ListNotations.
Local Open Scope R_scope.

Lemma usable_ends (d : XYdata R) : usable_table d -> exists a b, nth_error (xy_x d) 0 = Some a /\ nth_error (xy_x d) (length (xy_x d) - 1) = Some b.
Proof.
  intros (_ & H & _). destruct (nth_error (xy_x d) 0) as [a|] eqn:Ha; [|apply nth_error_None in Ha; lia].
  destruct (nth_error (xy_x d) (length (xy_x d) - 1)) as [b|] eqn:Hb; [|apply nth_error_None in Hb; lia]. eauto.
Qed.
Lemma usable_inside d x a b : usable_table d -> nth_error (xy_x d) 0 = Some a -> nth_error (xy_x d) (length (xy_x d) - 1) = Some b ->
  a <= x <= b -> exists y, XYdata_interp d x true = Ok y.
Proof.
  intros (H1 & H2 & H3 & H4 & H5) Ha Hb Hx. unfold XYdata_interp.
  destruct (linInt_value (xy_x d) (xy_y d) x a b true) as (y & E & _); auto. exists y.
  destruct (xy_fixed d); auto. destruct H5 as (x0 & dt & H6 & H7); auto.
  rewrite (linInt_fixed_eq _ _ _ x0 dt); auto.
Qed.
Lemma usable_closed d : usable_table d -> closed_table d.
Proof.
  intros H x. destruct (usable_ends d H) as (a & b & Ha & Hb).
  destruct (Rlt_dec x a) as [L|L].
  - unfold XYdata_interp. rewrite (linInt_below _ _ x a b); auto; try exact Logic.I; now apply Rltb_true.
  - destruct (Rlt_dec b x) as [G|G].
    + unfold XYdata_interp. rewrite (linInt_above _ _ x a b); auto; try exact Logic.I; now apply Rltb_true.
    + destruct (usable_inside d x a b) as (y & ->); auto; [lra|exact Logic.I].
Qed.
Lemma usable_covers d cmax : usable_table d -> spans_unit d -> covers d cmax.
Proof.
  intros H (a & b & Ha & Hb & La & Lb) x H0 H1. apply Rleb_false in H0, H1. rewrite R_nZ in H0.
  assert (0 <= x / cmax <= 1).
  { assert (0 < / cmax) by (apply Rinv_0_lt_compat; lra). unfold Rdiv. split; [nra|].
    apply Rmult_le_reg_r with cmax; [lra|]. rewrite Rmult_assoc, Rinv_l; lra. }
  destruct (usable_inside d (x / cmax) a b) as (y & E); auto; [lra|]. change (ndiv x cmax) with (x / cmax). rewrite E. exact Logic.I.
Qed.
Lemma lares_uniform : uniform (@lares_x R _) 0 (/ 10).
Proof.
  intros i a H. unfold lares_x in H. rewrite nth_error_map in H.
  do 11 (destruct i as [|i]; [injection H as <-; cbn; lra|]). now destruct i.
Qed.
Lemma stress_closed_R : stress_closed (A := R).
Proof.
  intros x. apply (usable_closed (mkXY lares_x lares_y true)). repeat split; cbn [xy_x xy_y xy_fixed].
  - cbn. lia. - cbn. lia.
  - apply (uniform_increasing _ 0 (/ 10)); [lra|apply lares_uniform].
  - intros _. exists 0, (/ 10). split; [lra|apply lares_uniform].
Qed.
Lemma ecm_usable_formed u : ecm_usable u -> ecm_formed u.
Proof. intros [H1 H2]. split; auto using usable_closed. Qed.
Lemma spm_usable_formed c : spm_usable c -> spm_formed c.
Proof. intros (H1 & H2 & H3 & H4 & H5 & H6 & H7). repeat split; auto using usable_closed, usable_covers. Qed.
Lemma formed_leaf {A C} (p q : C -> Prop) sh : (forall c, p c -> q c) -> forall n (u : su A C n), formed p sh n u -> formed q sh n u.
Proof.
  intros H. induction n as [|n IH]; cbn [formed]; auto. intros [c|m]; auto.
  intros (H1 & H2 & H3 & H4). repeat split; auto. eapply Forall_impl; [|exact H4]. auto.
Qed.
