(** * What a logged run can read *)
From Coq Require Import Reals Lra Lia.
From Verif Require Import Base RFacts StatusModel CellModel DataModel CoolModel ModuleModel CyclerModel CyclerSpec CyclerProofs PrepModel.

Section Track.
Context {A : Type} {NA : Num A} {S : Type} (o : unit_if A S) (nmax : nat) (diag : bool) (P : A -> Prop).
Notation W := (cyc A (S * list (event A))).
Definition fine (e : event A) : Prop := match e with EReadV v => P v | _ => True end.
Definition tracks {B : Type} (m : M W B) : Prop := forall l t, Forall fine l -> wp m (fun l' _ _ => Forall fine l') l t.
Lemma tr_ret {B : Type} (b : B) : tracks (mret b).
Proof. intros l t H. now apply wp_ret. Qed.
Lemma tr_throw {B : Type} c : tracks (mthrow c : M W B).
Proof. intros l t H. now apply wp_throw. Qed.
Lemma tr_bind {B C : Type} (m : M W B) (f : B -> M W C) : tracks m -> (forall b, tracks (f b)) -> tracks (mbind m f).
Proof. intros Hm Hf l t H. apply wp_bind. eapply wp_conseq; [exact (Hm l t H)|]. intros l' t' [b| | |] H'; auto. now apply Hf. Qed.
Lemma tr_call {B : Type} (f : M S B) ok ko : (forall s s' b, f s = (s', Ok b) -> Forall fine (ok b)) -> fine ko -> tracks (call (observe f ok ko)).
Proof.
  intros H1 H2 l t H. apply wp_call.
  - intros s s' b E. apply Forall_app. split; [exact H|exact (H1 _ _ _ E)].
  - intros e _. apply Forall_app. split; [exact H|now constructor].
Qed.
Lemma tr_try {B : Type} (m h : M W B) : tracks m -> tracks h -> tracks (try m h).
Proof. intros Hm Hh l t H. apply wp_try. eapply wp_conseq; [exact (Hm l t H)|]. intros l' t' [b| | |] H'; auto. Qed.
Lemma quiet_fine l : quiet l -> Forall fine (l : list (event A)).
Proof. apply Forall_impl. now intros e [->| ->]. Qed.
Lemma tr_store_if b : tracks (store_if (logged o) nmax b).
Proof. intros l t H. apply wp_store_if; intros; rewrite ?Forall_app; repeat split; auto using quiet_fine. now repeat constructor. Qed.
Lemma tr_store_due i n : tracks (store_due (logged o) nmax i n).
Proof. intros l t H. apply wp_store_due; intros; rewrite ?Forall_app; repeat split; auto using quiet_fine. now repeat constructor. Qed.
Lemma tr_th a b c : tracks (add_th a b c).
Proof. intros l t H. now apply wp_add_th. Qed.
Lemma tr_fuel {B : Type} : tracks (fun w => (w, Fuel : res B)).
Proof. intros l t H s i. exact H. Qed.

Context (HV : forall s s' v, q_V o s = (s', Ok v) -> P v) (HC : forall s s' v, q_checkV o s = (s', Ok v) -> P (fst v)).
Ltac tr :=
  lazymatch goal with
  | |- tracks (mbind _ _) => apply tr_bind; [tr|intros; tr]
  | |- tracks (call (q_V _)) => apply tr_call; [intros ? ? ? E; constructor; [exact (HV _ _ _ E)|constructor]|exact Logic.I]
  | |- tracks (call (q_checkV _)) => apply tr_call; [intros ? ? ? E; constructor; [exact (HC _ _ _ E)|constructor]|exact Logic.I]
  | |- tracks (call _) => apply tr_call; [intros; repeat constructor|exact Logic.I]
  | |- tracks (mret _) => apply tr_ret
  | |- tracks (mthrow _) => apply tr_throw
  | |- tracks (try _ _) => apply tr_try; tr
  | |- tracks (add_th _ _ _) => apply tr_th
  | |- tracks (store_if _ _ _) => apply tr_store_if
  | |- tracks (store_due _ _ _ _) => apply tr_store_due
  | |- tracks (if ?b then _ else _) => destruct b; tr
  | |- tracks (let '(_, _) := ?p in _) => destruct p; tr
  | |- tracks (match ?p with inl _ => _ | inr _ => _ end) => destruct p; tr
  | |- _ => cbn zeta; auto
  end.
Lemma tr_rest_loop fuel : forall tlim ndt nm dti ttot idat nOnce ninc, tracks (rest_loop (logged o) nmax fuel tlim ndt nm dti ttot idat nOnce ninc).
Proof. induction fuel as [|f IH]; intros; cbn [rest_loop]; (destruct (nltb ttot tlim); cbn [negb]; [|apply tr_ret]); [apply tr_fuel|]. cbn zeta. tr. Qed.
Lemma tr_rest fuel tlim dt ndt : tracks (rest (logged o) nmax fuel tlim dt ndt).
Proof. unfold rest. apply tr_bind; [apply tr_store_if|]. intros. apply tr_bind; [apply tr_rest_loop|]. intros. tr. Qed.
Lemma tr_setCurrent I vlim : tracks (cyc_setCurrent (logged o) diag I vlim).
Proof. unfold cyc_setCurrent. tr. Qed.
Lemma tr_adapt I vlim vo vi n up : tracks (cc_adapt (logged o) I vlim vo vi n up).
Proof. unfold cc_adapt. tr. Qed.
Lemma tr_cc_loop fuel : forall I vlim tlim ndt nm dti ttot idat nOnce vo vi up, tracks (cc_loop (logged o) nmax diag fuel I vlim tlim ndt nm dti ttot idat nOnce vo vi up).
Proof.
  induction fuel as [|f IH]; intros; cbn [cc_loop]; (destruct (nltb ttot tlim); cbn [negb]; [|apply tr_ret]); [apply tr_fuel|].
  apply tr_bind; [apply tr_setCurrent|]. intros _. cbn zeta. tr; try (destruct b0; tr); try (apply tr_adapt).
Qed.
Lemma tr_CC fuel I vlim tlim dt ndt : tracks (CC (logged o) nmax diag fuel I vlim tlim dt ndt).
Proof.
  unfold CC. apply tr_bind; [apply tr_store_if|]. intros _. apply tr_bind; [apply tr_setCurrent|]. intros st.
  destruct (negb _); [apply tr_ret|]. apply tr_bind; [tr|]. intros v0. destruct (beyond _ _ _); [apply tr_ret|].
  apply tr_bind; [apply tr_cc_loop|]. intros [st'|[x v]]; tr.
Qed.
Lemma tr_long n fuel : tracks (pack_long (logged o) nmax diag n fuel).
Proof.
  induction n as [|n IH]; cbn [pack_long]; [apply tr_ret|]. apply tr_bind; [apply tr_CC|]. intros _. apply tr_bind; [apply tr_rest|]. intros _.
  apply tr_bind; [apply tr_CC|]. intros _. apply tr_bind; [apply tr_rest|]. intros _. exact IH.
Qed.
End Track.
