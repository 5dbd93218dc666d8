(** * Proofs about modules: structure of the operations *)
From Coq Require Import List Lia Relations.
From Verif Require Import Base RFacts StatusModel StatusProofs CellModel CellSpec CellProofs CoolModel CoolSpec CoolProofs ModuleModel ModuleSpec.
Import ListNotations.

Lemma Forall2_refl {X} (P : X -> X -> Prop) (l : list X) : (forall x, P x x) -> Forall2 P l l.
Proof. intros H; induction l; constructor; auto. Qed.
Lemma Forall2_trans {X} (P : X -> X -> Prop) (HP : forall x y z, P x y -> P y z -> P x z) :
  forall l1 l2 l3 : list X, Forall2 P l1 l2 -> Forall2 P l2 l3 -> Forall2 P l1 l3.
Proof.
  intros l1 l2 l3 H; revert l3; induction H; intros l3 H3; inversion H3; subst; constructor; eauto.
Qed.
Lemma Forall2_impl {X Y} (P Q : X -> Y -> Prop) l l' : (forall x y, P x y -> Q x y) -> Forall2 P l l' -> Forall2 Q l l'.
Proof. intros H; induction 1; constructor; auto. Qed.
Lemma Forall2_len {X Y} (P : X -> Y -> Prop) l l' : Forall2 P l l' -> length l = length l'.
Proof. induction 1; cbn; congruence. Qed.
Lemma Forall2_set {X} (P : X -> X -> Prop) (l : list X) i s s' : (forall x, P x x) ->
  nth_error l i = Some s -> P s s' -> Forall2 P l (list_set l i s').
Proof.
  intros HR. revert i; induction l as [|a t IH]; intros [|i] H HP; cbn in *; try discriminate.
  - injection H as ->. constructor; auto using Forall2_refl.
  - constructor; auto.
Qed.
Lemma Forall2_flat_map {X Y} (f : X -> list Y) (l l' : list X) : Forall2 (fun s s' => f s' = f s) l l' ->
  flat_map f l' = flat_map f l.
Proof. induction 1; cbn; congruence. Qed.
Lemma Forall2_flat {X Y} (P : Y -> Y -> Prop) (f : X -> list Y) (l l' : list X) :
  Forall2 (fun s s' => Forall2 P (f s) (f s')) l l' -> Forall2 P (flat_map f l) (flat_map f l').
Proof. induction 1; cbn; [constructor|]. now apply Forall2_app. Qed.
Lemma Forall_flat {X Y} (P : Y -> Prop) (f : X -> list Y) (l : list X) :
  Forall P (flat_map f l) <-> Forall (fun s => Forall P (f s)) l.
Proof.
  induction l; cbn; [split; constructor|]. rewrite Forall_app, Forall_cons_iff, IHl. reflexivity.
Qed.
Lemma cast_not_ok {B C} (r : res B) (b : C) : cast (C := C) r <> Ok b.
Proof. destruct r; discriminate. Qed.
Lemma nth_error_list_set {X} (l : list X) i j (x : X) :
  nth_error (list_set l i x) j = if Nat.eqb i j then (if Nat.ltb i (length l) then Some x else None) else nth_error l j.
Proof.
  revert i j; induction l as [|a t IH]; intros [|i] [|j]; cbn; auto.
  - destruct (Nat.eqb i j); reflexivity.
  - rewrite IH. reflexivity.
Qed.

Lemma nth_error_ext {X} : forall l l' : list X, (forall j, nth_error l j = nth_error l' j) -> l = l'.
Proof.
  induction l as [|a l IH]; intros [|b l'] H; auto.
  - specialize (H 0%nat). discriminate.
  - specialize (H 0%nat). discriminate.
  - assert (H0 := H 0%nat). cbn in H0. injection H0 as ->. f_equal. apply IH. intros j. exact (H (S j)).
Qed.
(** Decompose a [match] on a pair produced by an operation. *)
#[global] Opaque setCurrent_iterations redistribute_iterations.
Ltac mpair H x y E := match type of H with context [match ?t with (_, _) => _ end] => destruct t as [x y] eqn:E end.

(** Case analysis on a unit of positive depth. *)
Tactic Notation "node" hyp(u) ident(c) ident(m) := match type of u with su ?A ?C (S ?n) => change (su A C (S n)) with (C + module A (su A C n))%type in u; destruct u as [c|m] end.

Section Over.
Context {A : Type} {NA : Num A} {S : Type} (o : su_ops A S).

(** Calls of [V] and [setCurrent] only. *)
Inductive cur_rel : S -> S -> Prop :=
| cr_refl s : cur_rel s s
| cr_V s s' : cur_rel (fst (o_V o s)) s' -> cur_rel s s'
| cr_I i b s s' : cur_rel (fst (o_setCurrent o i b s)) s' -> cur_rel s s'.
Lemma cur_trans s1 s2 s3 : cur_rel s1 s2 -> cur_rel s2 s3 -> cur_rel s1 s3.
Proof. induction 1; intros; eauto using cur_rel. Qed.
Lemma cur_of_V s s' r : o_V o s = (s', r) -> cur_rel s s'.
Proof. intros E. apply cr_V. rewrite E. constructor. Qed.
Lemma cur_of_I i b s s' r : o_setCurrent o i b s = (s', r) -> cur_rel s s'.
Proof. intros E. apply (cr_I i b). rewrite E. constructor. Qed.
Definition curs := Forall2 cur_rel.
Lemma curs_refl l : curs l l.
Proof. apply Forall2_refl, cr_refl. Qed.
Lemma curs_trans l1 l2 l3 : curs l1 l2 -> curs l2 l3 -> curs l1 l3.
Proof. apply Forall2_trans, cur_trans. Qed.
#[local] Hint Resolve curs_refl cr_refl cur_of_V cur_of_I : core.

(** Calls of [V] only. *)
Inductive v_rel : S -> S -> Prop :=
| vr_refl s : v_rel s s
| vr_V s s' : v_rel (fst (o_V o s)) s' -> v_rel s s'.
Lemma v_of_V s s' r : o_V o s = (s', r) -> v_rel s s'.
Proof. intros E. apply vr_V. rewrite E. constructor. Qed.
Lemma v_cur s s' : v_rel s s' -> cur_rel s s'.
Proof. induction 1; eauto using cur_rel. Qed.
#[local] Hint Resolve vr_refl v_of_V : core.

Lemma sV_loop_rel rc : forall l acc l' a e, sV_loop o acc l rc = (l', a, e) -> Forall2 v_rel l l'.
Proof.
  induction rc as [|r rc IH]; intros [|s l] acc l' a e H; cbn in H.
  1,3: injection H as <- <- <-; constructor.
  - destruct (o_V o s) as [s1 [v| | |]] eqn:E; [destruct (nleb v _)|..]; injection H as <- <- <-; constructor; eauto; now apply Forall2_refl.
  - destruct (o_V o s) as [s1 [v| | |]] eqn:E; [destruct (nleb v _)|..];
      try (injection H as <- <- <-; constructor; eauto; now apply Forall2_refl).
    destruct (sV_loop o _ l rc) as [[l2 a2] e2] eqn:E2. injection H as <- <- <-. constructor; eauto.
Qed.
Lemma getVall_from_rel : forall l rc l' r, getVall_from o l rc = (l', r) -> Forall2 v_rel l l'.
Proof.
  induction l as [|s l IH]; intros rc l' r H; cbn in H; [injection H as <- <-; constructor|].
  destruct rc as [|x rc]; [injection H as <- <-; apply Forall2_refl; auto|].
  destruct (getVall_from o l rc) as [l2 [[vs ic]| | |]] eqn:E; specialize (IH _ _ _ E).
  - destruct (o_V o s) as [s1 [v| | |]] eqn:EV; injection H as <- <-; constructor; eauto.
  - injection H as <- <-; constructor; auto.
  - injection H as <- <-; constructor; auto.
  - injection H as <- <-; constructor; auto.
Qed.
Lemma getVall_rel l rc l' r : getVall o l rc = (l', r) -> Forall2 v_rel l l'.
Proof.
  unfold getVall. destruct (Nat.ltb _ _); [intros [= <- <-]; now apply Forall2_refl|].
  destruct (getVall_from o l rc) as [l2 r2] eqn:E. intros [= <- <-]. eauto using getVall_from_rel.
Qed.
Lemma vs_curs l l' : Forall2 v_rel l l' -> curs l l'.
Proof. apply Forall2_impl, v_cur. Qed.
Lemma mod_V_rel m m' r : mod_V o m = (m', r) ->
  Forall2 v_rel (ms m) (ms m') /\ exists v b, mm m' = set_V (mm m) v b.
Proof.
  assert (T : exists v b, mm m = set_V (mm m) v b).
  { exists (m_V (mm m)), (m_Vok (mm m)). destruct m as [[] ?]; reflexivity. }
  unfold mod_V. destruct (m_series (mm m)).
  - destruct (m_Vok (mm m)).
    { intros [= <- <-]. split; [now apply Forall2_refl|exact T]. }
    destruct (sV_loop o _ (ms m) (m_rc (mm m))) as [[l a] e] eqn:E. apply sV_loop_rel in E.
    destruct e as [[]| | |]; intros [= <- <-]; cbn; split; eauto.
  - destruct (ms m) as [|s l] eqn:El.
    { intros [= <- <-]. rewrite El. split; [now constructor|exact T]. }
    destruct (m_rc (mm m)) as [|x rc].
    { intros [= <- <-]. rewrite El. split; [now apply Forall2_refl|exact T]. }
    destruct (o_V o s) as [s1 [v| | |]] eqn:EV; intros [= <- <-]; cbn; (split; [constructor; [eauto|now apply Forall2_refl]|exact T]).
Qed.

Lemma child_do_spec {B} (f : M S B) i l l' r : child_do f i l = (l', r) ->
  (exists s s', nth_error l i = Some s /\ f s = (s', r) /\ l' = list_set l i s') \/
  (nth_error l i = None /\ l' = l /\ r = UB).
Proof.
  unfold child_do. destruct (nth_error l i) as [s|] eqn:E.
  - destruct (f s) as [s' r'] eqn:F. intros [= <- <-]. left; eauto 6.
  - intros [= <- <-]. auto.
Qed.
Lemma child_do_curs i b j l l' r : child_do (o_setCurrent o i b) j l = (l', r) -> curs l l'.
Proof.
  intros H. destruct (child_do_spec _ _ _ _ _ H) as [(s & s' & E1 & E2 & ->)|(_ & -> & _)]; [|auto].
  eapply Forall2_set; eauto.
Qed.
Lemma s_restore_curs i : forall olds l l' r, s_restore o i olds l = (l', r) -> curs l l'.
Proof.
  induction i as [|i IH]; intros olds l l' r H; cbn [s_restore] in H; [injection H as <- <-; auto|].
  destruct (nth_error olds (Datatypes.S i)); [|injection H as <- <-; auto].
  destruct (child_do _ _ l) as [l1 [x| | |]] eqn:E; apply child_do_curs in E; try (injection H as <- <-; auto).
  eauto using curs_trans.
Qed.
Lemma s_setCurrent_curs todo : forall i Inew chk olds l l' r, s_setCurrent o todo i Inew chk olds l = (l', r) -> curs l l'.
Proof.
  induction todo as [|todo IH]; intros i Inew chk olds l l' r H; cbn [s_setCurrent] in H; [injection H as <- <-; auto|].
  destruct (Nat.leb NSUs_MAX i); [injection H as <- <-; auto|].
  destruct (nth_error l i) as [s|] eqn:En; [|injection H as <- <-; auto].
  destruct (child_do _ i l) as [l1 [st| | |]] eqn:E; apply child_do_curs in E; try (injection H as <- <-; auto).
  destruct (isStatusBad st).
  - destruct (s_restore o i _ l1) as [l2 [x| | |]] eqn:E2; apply s_restore_curs in E2; injection H as <- <-; eauto using curs_trans.
  - eauto using curs_trans.
Qed.
Lemma p_adjust_curs vm : forall l Ia Va l' r, p_adjust o vm Ia Va l = (l', r) -> curs l l'.
Proof.
  induction l as [|s l IH]; intros Ia Va l' r H; cbn in H; [injection H as <- <-; constructor|].
  destruct Ia as [|ia Ia]; [injection H as <- <-; auto|]. destruct Va as [|va Va]; [injection H as <- <-; auto|].
  destruct (o_setCurrent o _ true s) as [s1 [st| | |]] eqn:E; try (injection H as <- <-; constructor; eauto; now apply curs_refl).
  destruct (p_adjust o vm Ia Va l) as [l2 r2] eqn:E2. injection H as <- <-. constructor; eauto. eapply IH; eauto.
Qed.
Lemma p_vadjust_curs vm : forall l Ia Va l' r, p_vadjust o vm Ia Va l = (l', r) -> curs l l'.
Proof.
  induction l as [|s l IH]; intros Ia Va l' r H; cbn in H; [injection H as <- <-; constructor|].
  destruct Ia as [|ia Ia]; [injection H as <- <-; auto|]. destruct Va as [|va Va]; [injection H as <- <-; auto|].
  destruct (o_setCurrent o _ true s) as [s1 [st| | |]] eqn:E; try (injection H as <- <-; constructor; eauto; now apply curs_refl).
  destruct (p_vadjust o vm Ia Va l) as [l2 r2] eqn:E2. injection H as <- <-. constructor; eauto. eapply IH; eauto.
Qed.
Lemma p_balance_curs iter tol rc : forall Ia Va l l' r, p_balance o iter tol rc Ia Va l = (l', r) -> curs l l'.
Proof.
  induction iter as [|it IH]; intros Ia Va l l' r H; cbn [p_balance] in H; [injection H as <- <-; auto|].
  destruct (nltb _ tol); [injection H as <- <-; auto|].
  destruct (p_adjust o _ Ia Va l) as [l1 [Ia1| | |]] eqn:E1; apply p_adjust_curs in E1; try (injection H as <- <-; auto).
  destruct (getVall o l1 rc) as [l2 [Va2| | |]] eqn:E2; apply getVall_rel, vs_curs in E2; try (injection H as <- <-; eauto using curs_trans).
  apply IH in H. eauto using curs_trans.
Qed.
Lemma p_vloop_curs iter v rc : forall Ia l l' r, p_vloop o iter v rc Ia l = (l', r) -> curs l l'.
Proof.
  induction iter as [|it IH]; intros Ia l l' r H; cbn [p_vloop] in H; [injection H as <- <-; auto|].
  destruct (getVall o l rc) as [l2 [Va2| | |]] eqn:E2; apply getVall_rel, vs_curs in E2; try (injection H as <- <-; eauto using curs_trans).
  destruct (nltb _ _); [injection H as <- <-; auto|].
  destruct (p_vadjust o _ Ia Va2 l2) as [l1 [Ia1| | |]] eqn:E1; apply p_vadjust_curs in E1; try (injection H as <- <-; eauto using curs_trans).
  apply IH in H. eauto using curs_trans.
Qed.
Lemma p_first_curs dI : forall l Ia st l' r, p_first o dI Ia st l = (l', r) -> curs l l'.
Proof.
  induction l as [|s l IH]; intros Ia st l' r H; cbn in H; [injection H as <- <-; constructor|].
  destruct Ia as [|ia Ia]; [injection H as <- <-; auto|].
  destruct (o_setCurrent o _ true s) as [s1 [st1| | |]] eqn:E; try (injection H as <- <-; constructor; eauto; now apply curs_refl).
  destruct (isStatusOK st1); [|injection H as <- <-; constructor; eauto; now apply curs_refl].
  destruct (p_first o dI Ia st1 l) as [l2 r2] eqn:E2. injection H as <- <-. constructor; eauto. eapply IH; eauto.
Qed.
Lemma p_setCurrent_curs Inew rc l l' r : p_setCurrent o Inew rc l = (l', r) -> curs l l'.
Proof.
  unfold p_setCurrent. generalize setCurrent_iterations as N; intros N. destruct (Nat.ltb _ _); [intros [= <- <-]; auto|].
  destruct (p_first o _ _ Success l) as [l1 [[Ia1 st]| | |]] eqn:E1; apply p_first_curs in E1; try (intros [= <- <-]; auto).
  destruct (isStatusOK st); [|intros [= <- <-]; auto].
  destruct (getVall o l1 rc) as [l2 [Va2| | |]] eqn:E2; apply getVall_rel, vs_curs in E2; try (intros [= <- <-]; eauto using curs_trans).
  destruct (p_balance o _ _ rc Ia1 Va2 l2) as [l3 [[x|]| | |]] eqn:E3; apply p_balance_curs in E3; intros [= <- <-]; eauto using curs_trans.
Qed.
Lemma p_redistribute_curs rc l l' r : p_redistribute o rc l = (l', r) -> curs l l'.
Proof.
  unfold p_redistribute. generalize redistribute_iterations as N; intros N. destruct (Nat.leb _ _); [intros [= <- <-]; auto|]. destruct (Nat.ltb _ _); [intros [= <- <-]; auto|].
  destruct (getVall o l rc) as [l2 [Va2| | |]] eqn:E2; apply getVall_rel, vs_curs in E2; try (intros [= <- <-]; eauto using curs_trans).
  destruct (p_balance o _ _ rc _ Va2 l2) as [l3 [[x|]| | |]] eqn:E3; apply p_balance_curs in E3; intros [= <- <-]; eauto using curs_trans.
Qed.
Lemma p_setVoltage_curs v rc l l' r : p_setVoltage o v rc l = (l', r) -> curs l l'.
Proof. unfold p_setVoltage. destruct (Nat.ltb _ _); [intros [= <- <-]; auto|]. apply p_vloop_curs. Qed.
Lemma mod_setCurrent_rel Inew chk m m' r : mod_setCurrent o Inew chk m = (m', r) ->
  curs (ms m) (ms m') /\ mm m' = if m_series (mm m) then inval (mm m) else mm m.
Proof.
  unfold mod_setCurrent. destruct (m_series (mm m)).
  - destruct (s_setCurrent o _ _ _ _ _ _) as [l r1] eqn:E. apply s_setCurrent_curs in E. intros [= <- <-]. auto.
  - destruct (p_setCurrent o _ _ _) as [l r1] eqn:E. apply p_setCurrent_curs in E. intros [= <- <-]. auto.
Qed.

(** [each] *)
Lemma each_rel {B} (f : M S B) : forall l l' r, each f l = (l', r) ->
  Forall2 (fun s s' => s' = s \/ s' = fst (f s)) l l'.
Proof.
  induction l as [|s l IH]; intros l' r H; cbn in H; [injection H as <- <-; constructor|].
  destruct (f s) as [s1 [b| | |]] eqn:E; try (injection H as <- <-; constructor; [right; now rewrite E|apply Forall2_refl; auto]).
  destruct (each f l) as [l2 r2] eqn:E2. injection H as <- <-. constructor; [right; now rewrite E|eauto].
Qed.
Lemma each_ok {B} (f : M S B) : forall l l' bs, each f l = (l', Ok bs) ->
  Forall2 (fun s sb => f s = (fst sb, Ok (snd sb))) l (combine l' bs) /\ length bs = length l' /\ length l' = length l.
Proof.
  induction l as [|s l IH]; intros l' bs H; cbn in H; [injection H as <- <-; repeat constructor|].
  destruct (f s) as [s1 [b| | |]] eqn:E; try discriminate.
  destruct (each f l) as [l2 r2] eqn:E2. destruct r2 as [bs2| | |]; try discriminate. injection H as <- <-.
  destruct (IH _ _ eq_refl) as (H1 & H2 & H3). cbn. repeat split; [constructor; auto|congruence|congruence].
Qed.
Lemma each_ok_all {B} (f : M S B) : forall l, Forall (fun s => exists s' b, f s = (s', Ok b)) l ->
  exists l' bs, each f l = (l', Ok bs).
Proof.
  induction 1 as [|s l (s' & b & E) H (l' & bs & IH)]; cbn; [eauto|]. rewrite E, IH. cbn. eauto.
Qed.
End Over.
