(** * Cycling towards a limit that has been passed already *)
From Coq Require Import Reals Lra Lia.
From Verif Require Import Base RFacts StatusModel CellModel DataModel CoolModel ModuleModel CyclerModel CyclerSpec CyclerProofs CyclerProofs2 PrepModel.

Section Past.
Context {A : Type} {NA : Num A} {S : Type} (o : unit_if A S) (nmaxd : nat) (diag : bool).
Notation L := (list (event A)).
Definition calm (l : L) : Prop := Forall (fun e => is_step e = false) l.
Lemma calm_nsteps (l : L) : calm l -> nsteps l = 0%nat.
Proof. induction 1 as [|e l H _ IH]; [reflexivity|]. unfold nsteps in *. cbn [filter]. now rewrite H. Qed.
Lemma calm_app (l l' : L) : calm l -> calm l' -> calm (l ++ l').
Proof. intros; now apply Forall_app. Qed.

Lemma setCurrent_calm I vlim l t :
  wp (cyc_setCurrent (logged o) diag I vlim) (fun l' t' r => exists l1, l' = l ++ l1 /\ calm l1 /\ t' = t) l t.
Proof.
  assert (X : forall (l1 : L) e, calm l1 -> is_step e = false -> exists l2, (l ++ l1) ++ [e] = l ++ l2 /\ calm l2 /\ t = t).
  { intros l1 e Hl He. exists (l1 ++ [e]). rewrite app_assoc. split; [reflexivity|]. split; [|reflexivity]. apply calm_app; [exact Hl|]. now constructor. }
  unfold cyc_setCurrent. match goal with |- wp ?m ?Q l t => cut (wp m Q (l ++ []) t); [now rewrite app_nil_r|] end. apply wp_bind, wp_call.
  2:{ intros e He. destruct e; [destruct He| | |]; (apply X; [now repeat constructor|reflexivity]). }
  intros _ _ Vini _. apply wp_bind. rewrite <- app_assoc. cbn [app]. apply wp_call.
  2:{ intros e He. destruct e; [destruct He| | |]; (apply X; [now repeat constructor|reflexivity]). }
  intros _ _ Iini _. apply wp_bind. rewrite <- app_assoc. cbn [app]. apply wp_call.
  2:{ intros e He. destruct e; [destruct He| | |]; (apply X; [now repeat constructor|reflexivity]). }
  intros _ _ st _. rewrite <- app_assoc. cbn [app]. destruct (isStatusVoltageLimitsViolated st).
  - apply wp_bind. apply wp_call.
    + intros _ _ st2 _. apply wp_ret. apply X; [now repeat constructor|reflexivity].
    + intros e He. destruct e; [destruct He| | |]; (apply X; [now repeat constructor|reflexivity]).
  - apply wp_bind. apply wp_call.
    + intros _ _ v _. destruct (_ && _ && _); [|destruct (_ && _)]; apply wp_ret; (apply X; [now repeat constructor|reflexivity]).
    + intros e He. destruct e; [destruct He| | |]; (apply X; [now repeat constructor|reflexivity]).
Qed.

Lemma CC_past fuel I vlim tlim dt ndt t :
  wp (CC (logged o) nmaxd diag fuel I vlim tlim dt ndt)
     (fun l' t' r => (forall v, In (EReadV v) l' -> beyond I v vlim = true) -> calm l' /\ t' = t) [] t.
Proof.
  assert (HQ : forall l, quiet l -> calm (l : L)) by (intros l H; now apply quiet_nostep).
  unfold CC. apply wp_bind, wp_store_if.
  2:{ intros l e Hl He. cbn [app]. destruct e; [destruct He| | |]; (split; [apply calm_app; [now apply HQ|now repeat constructor]|reflexivity]). }
  intros l0 Hl0. cbn [app]. apply wp_bind. eapply wp_conseq; [apply setCurrent_calm|]. intros l1 t1 r (l2 & -> & C2 & ->).
  assert (C : calm (l0 ++ l2)) by (apply calm_app; auto).
  destruct r as [st| | |]; [|now split|now split|now split]. destruct (negb (isStatusSuccessful st)); [apply wp_ret; now split|].
  apply wp_bind, wp_call.
  2:{ intros e He. destruct e; [destruct He| | |]; (intros _; split; [apply calm_app; [exact C|now repeat constructor]|reflexivity]). }
  intros _ _ v0 _. destruct (beyond I v0 vlim) eqn:E; [apply wp_ret; intros _; split; [apply calm_app; [exact C|now repeat constructor]|reflexivity]|].
  set (nm := if (0 <? ndt)%Z then Z.min 2 ndt else 2%Z). eapply wp_conseq.
  - match goal with |- wp ?m _ ?l _ => apply (wp_frame m (mbind (cc_loop o nmaxd diag fuel I vlim tlim ndt nm dt (nZ 0) 0 1 v0 v0 true)
      (fun r => match r with
         | inl st => mret st
         | inr (ttot, vtot) =>
             if nleb tlim ttot then mbind (store_if o nmaxd (0 <? ndt)%Z) (fun _ => mret ReachedTimeLimit)
             else if vtot then mbind (store_if o nmaxd (0 <? ndt)%Z) (fun _ => mret ReachedVoltageLimit) else mthrow 100
         end)) (fun _ _ _ => True) l) end.
    + apply fa_bind; [apply fa_cc_loop|]. intros [st'|[x v]]; [apply fa_ret|]. destruct (nleb tlim x); [|destruct v].
      * apply fa_bind; [apply fa_store_if|]. intros; apply fa_ret.
      * apply fa_bind; [apply fa_store_if|]. intros; apply fa_ret.
      * apply fa_throw.
    + intros s i. exact Logic.I.
  - intros l' t' r (l1 & -> & _) H. exfalso. specialize (H v0). rewrite E in H. discriminate H. apply in_or_app. left. apply in_or_app. right. now left.
Qed.
End Past.

Section LongR.
Context {S : Type} (o : unit_if R S) (nmaxd : nat) (diag : bool).
Local Open Scope R_scope.
Notation L := (list (event R)).
Lemma calm_elapsed (l : L) : calm l -> elapsed l = 0.
Proof. induction 1 as [|e l H _ IH]; [reflexivity|]. destruct e; cbn [elapsed]; auto. discriminate. Qed.
Lemma pack_long_spec fuel : 1800 <= INR fuel -> (diag = true -> honest o) -> forall n l t,
  wp (pack_long (logged o) nmaxd diag n fuel)
     (fun l' t' r => exists l1, l' = l ++ l1 /\ ((forall v, In (EReadV v) l1 -> 27 / 10 < v) -> elapsed l1 <= INR n * 3900)) l t.
Proof.
  intros Hf Hh. induction n as [|n IH]; intros l t.
  { apply wp_ret. exists []. rewrite app_nil_r. split; [reflexivity|]. intros _. cbn [elapsed INR]. lra. }
  cbn [pack_long].
  assert (HR : forall x l t, 0 <= x <= 1800 -> wp (rest (logged o) nmaxd fuel x (nZ 1) 10) (fun l' t' r => exists l1, l' = l ++ l1 /\ elapsed l1 <= x) l t).
  { intros x l' t' Hx. eapply wp_conseq; [eapply wp_frame; [apply fa_rest|]; apply rest_spec; rewrite ?R_nZ; lra|].
    intros l2 t2 r (l1 & -> & _ & _ & H & _). now exists l1. }
  assert (S1 : INR (Datatypes.S n) = INR n + 1) by apply S_INR.
  assert (Pn : 0 <= INR n) by apply pos_INR.
  apply wp_bind. eapply wp_conseq; [eapply wp_frame; [apply fa_CC|]; apply CC_past|]. intros la ta r (l1 & -> & H1).
  assert (E1 : (forall v, In (EReadV v) l1 -> 27 / 10 < v) -> elapsed l1 = 0).
  { intros H. apply calm_elapsed, H1. intros v Hv. specialize (H v Hv). unfold beyond. apply Bool.orb_true_iff. left. apply Bool.andb_true_iff.
    split; apply Rltb_true; rewrite ?R_nZ; [lra|]. cbn [nlit RNum]. lra. }
  clear H1. destruct r as [st| | |].
  2-4: (exists l1; split; [reflexivity|]; intros H; rewrite (E1 H), S1; nra).
  apply wp_bind. eapply wp_conseq; [apply HR; rewrite R_nZ; lra|]. intros lb tb r (l2 & -> & H2). rewrite R_nZ in H2.
  destruct r as [st2| | |].
  2-4: (exists (l1 ++ l2); rewrite app_assoc; split; [reflexivity|]; intros H; rewrite elapsed_app, E1, S1 by (intros v Hv; apply H, in_or_app; auto); nra).
  apply wp_bind. eapply wp_conseq; [eapply wp_frame; [apply fa_CC|]; apply CC_spec; rewrite ?R_nZ; try lra; exact Hh|]. intros lc tc r (l3 & -> & H3 & _).
  rewrite R_nZ in H3.
  destruct r as [st3| | |].
  2-4: (exists (l1 ++ l2 ++ l3); rewrite !app_assoc; split; [reflexivity|]; intros H; rewrite !elapsed_app, E1, S1 by (intros v Hv; apply H; rewrite <- app_assoc; apply in_or_app; auto); nra).
  apply wp_bind. eapply wp_conseq; [apply HR; rewrite R_nZ; lra|]. intros ld td r (l4 & -> & H4). rewrite R_nZ in H4.
  destruct r as [st4| | |].
  2-4: (exists (l1 ++ l2 ++ l3 ++ l4); rewrite !app_assoc; split; [reflexivity|]; intros H; rewrite !elapsed_app, E1, S1 by (intros v Hv; apply H; rewrite <- !app_assoc; apply in_or_app; auto); nra).
  eapply wp_conseq; [apply IH|]. intros le te r (l5 & -> & H5). exists (l1 ++ l2 ++ l3 ++ l4 ++ l5). rewrite !app_assoc. split; [reflexivity|].
  intros H. rewrite !elapsed_app, E1, S1 by (intros v Hv; apply H; rewrite <- !app_assoc; apply in_or_app; auto).
  specialize (H5 ltac:(intros v Hv; apply H; apply in_or_app; auto)). lra.
Qed.
End LongR.
