(** * Lemmas: predicates of the unit that every call on it keeps, and the cell's samples *)
From Coq Require Import Reals Lra.
From Verif Require Import Base RFacts StatusModel CellModel DataModel DataSpec DataProofs CoolModel ModuleModel CyclerModel CyclerSpec CyclerProofs CyclerProofs2 CyclerProofs3.

Section Pres.
Context {A : Type} {NA : Num A} {S : Type}.
Notation W := (cyc A S).
Context (P : S -> Prop) (nmax : nat).
Definition safe {B : Type} (f : M S B) : Prop := forall s, P s -> P (fst (f s)).

Definition pres {B : Type} (m : M W B) : Prop :=
  forall w, P (c_su w) -> P (c_su (fst (m w))).

Lemma pr_res {B : Type} (f : W -> res B) : pres (fun w => (w, f w)).
Proof. intros w H. exact H. Qed.
Lemma pr_ret {B : Type} (b : B) : pres (mret b).
Proof. intros w H. exact H. Qed.
Lemma pr_throw {B : Type} c : pres (B := B) (mthrow c).
Proof. intros w H. exact H. Qed.
Lemma pr_bind {B C : Type} (m : M W B) (f : B -> M W C) : pres m -> (forall b, pres (f b)) -> pres (mbind m f).
Proof.
  intros Hm Hf w H. specialize (Hm w H). unfold mbind. destruct (m w) as [w' r]. destruct r; try exact Hm. apply Hf, Hm.
Qed.
Lemma pr_call {B : Type} (f : M S B) : safe f -> pres (call f).
Proof. intros Hf w H. unfold call. specialize (Hf _ H). destruct (f (c_su w)). exact Hf. Qed.
Lemma pr_try {B : Type} (m h : M W B) : pres m -> pres h -> pres (try m h).
Proof. intros Hm Hh w H. specialize (Hm w H). unfold try. destruct (m w) as [w' r]. destruct r; try exact Hm. apply Hh, Hm. Qed.
Lemma pr_with {B : Type} (m : M W B) : pres m -> pres (with_th m).
Proof.
  intros Hm w H. specialize (Hm (mkCyc (c_su w) (c_idx w) th0) H). unfold with_th.
  destruct (m (mkCyc (c_su w) (c_idx w) th0)) as [w' r]. destruct r; exact Hm.
Qed.
Lemma pr_th (a b c : A) : pres (add_th a b c).
Proof. intros w H. exact H. Qed.
Lemma pr_charge (b c : A) : pres (add_charge b c).
Proof. intros w H. exact H. Qed.
Lemma pr_set t' : pres (set_th t').
Proof. intros w H. exact H. Qed.

Context (o : unit_if A S) (diag : bool).
Definition all_safe : Prop :=
  safe (q_I o) /\ safe (q_Cap o) /\ safe (q_lim o) /\ safe (q_V o) /\ safe (q_checkV o) /\ safe (q_Vlow o) /\ safe (q_getStates o) /\
  (forall s b, safe (q_setStates o s b)) /\ (forall i b, safe (q_setCurrent o i b)) /\ (forall v, safe (q_setVoltage o v)) /\
  (forall dt n, safe (q_step o dt n)) /\ safe (q_store o) /\ safe (q_write o).
Hypothesis HS : all_safe.
Ltac kcall := apply pr_call; apply HS.
Lemma pr_write : pres (writeData o).
Proof.
  intros w H. unfold writeData. assert (Hw : safe (q_write o)) by apply HS. specialize (Hw _ H). destruct (q_write o (c_su w)) as [s' r]. destruct r; exact Hw.
Qed.
Lemma pr_store : pres (storeData o nmax).
Proof.
  unfold storeData. apply pr_bind; [apply pr_res|]. intros i. apply pr_bind; [destruct (Nat.leb nmax i); [apply pr_write|apply pr_ret]|]. intros _.
  apply pr_bind; [kcall|]. intros _ w H. exact H.
Qed.
Lemma pr_store_if b : pres (store_if o nmax b).
Proof. destruct b; [apply pr_store|apply pr_ret]. Qed.
Lemma pr_store_due idat ndt : pres (store_due o nmax idat ndt).
Proof. unfold store_due. destruct (_ && _); [|apply pr_ret]. apply pr_bind; [apply pr_store|intros; apply pr_ret]. Qed.

Ltac ke :=
  lazymatch goal with
  | |- pres (mbind _ _) => apply pr_bind; [ke|intros; ke]
  | |- pres (call _) => kcall
  | |- pres (mret _) => apply pr_ret
  | |- pres (mthrow _) => apply pr_throw
  | |- pres (try _ _) => apply pr_try; ke
  | |- pres (with_th _) => apply pr_with; ke
  | |- pres (add_th _ _ _) => apply pr_th
  | |- pres (add_charge _ _) => apply pr_charge
  | |- pres (set_th _) => apply pr_set
  | |- pres (store_if _ _ _) => apply pr_store_if
  | |- pres (store_due _ _ _ _) => apply pr_store_due
  | |- pres (if ?b then _ else _) => destruct b; ke
  | |- pres (let '(_, _) := ?p in _) => destruct p; ke
  | |- pres (match ?p with inl _ => _ | inr _ => _ end) => destruct p; ke
  | |- _ => cbn zeta; auto
  end.

Lemma pr_rest_loop fuel : forall tlim ndt nm dti ttot idat nOnce ninc, pres (rest_loop o nmax fuel tlim ndt nm dti ttot idat nOnce ninc).
Proof.
  induction fuel as [|f IH]; intros; cbn [rest_loop]; (destruct (nltb ttot tlim); cbn [negb]; [|apply pr_ret]); [apply pr_res|].
  cbn zeta. ke.
Qed.
Lemma pr_rest fuel tlim dt ndt : pres (rest o nmax fuel tlim dt ndt).
Proof. unfold rest. apply pr_bind; [apply pr_store_if|]. intros. apply pr_bind; [apply pr_rest_loop|]. intros. ke. Qed.
Lemma pr_setCurrent I vlim : pres (cyc_setCurrent o diag I vlim).
Proof. unfold cyc_setCurrent. ke. Qed.
Lemma pr_adapt I vlim vo vi n up : pres (cc_adapt o I vlim vo vi n up).
Proof. unfold cc_adapt. ke. Qed.
Lemma pr_cc_loop fuel : forall I vlim tlim ndt nm dti ttot idat nOnce vo vi up,
  pres (cc_loop o nmax diag fuel I vlim tlim ndt nm dti ttot idat nOnce vo vi up).
Proof.
  induction fuel as [|f IH]; intros; cbn [cc_loop]; (destruct (nltb ttot tlim); cbn [negb]; [|apply pr_ret]); [apply pr_res|].
  apply pr_bind; [apply pr_setCurrent|]. intros _. cbn zeta. ke; try (destruct b0; ke); try (apply pr_adapt).
Qed.
Lemma pr_CC fuel I vlim tlim dt ndt : pres (CC o nmax diag fuel I vlim tlim dt ndt).
Proof.
  unfold CC. apply pr_bind; [apply pr_store_if|]. intros _. apply pr_bind; [apply pr_setCurrent|]. intros st.
  destruct (negb _); [apply pr_ret|]. apply pr_bind; [kcall|]. intros v0. destruct (beyond _ _ _); [apply pr_ret|].
  apply pr_bind; [apply pr_cc_loop|]. intros [st'|[x v]]; ke.
Qed.
Lemma pr_cv_loop todo : forall i nt Vset Ilim tlim dt ndt ttot, pres (cv_loop o nmax todo i nt Vset Ilim tlim dt ndt ttot).
Proof. induction todo as [|td IH]; intros; cbn [cv_loop]; [apply pr_ret|]. cbn zeta. ke. Qed.
Lemma pr_CV Vset Ilim tlim dt ndt : pres (CV o nmax Vset Ilim tlim dt ndt).
Proof.
  unfold CV. apply pr_bind; [apply pr_store_if|]. intros _. apply pr_bind; [kcall|]. intros v. apply pr_bind; [kcall|]. intros i.
  destruct (_ && _); [apply pr_ret|]. apply pr_bind; [apply pr_res|]. intros nt. apply pr_bind; [apply pr_cv_loop|]. intros [st|[[x a] b]]; ke.
Qed.
Lemma pr_CCCV fuel I Vset Ilim tlim dt ndt : pres (CCCV_with_tlim o nmax diag fuel I Vset Ilim tlim dt ndt).
Proof. unfold CCCV_with_tlim. cbn zeta. ke; first [apply pr_CC|apply pr_CV]. Qed.
Lemma pr_setStates s : pres (call (q_setStates o s false)).
Proof. kcall. Qed.
Lemma pr_testCapacity fuel : pres (testCapacity o nmax diag fuel).
Proof.
  unfold testCapacity. cbn zeta. do 3 (apply pr_bind; [kcall|]; intros). apply pr_bind; [apply pr_with, pr_CC|]. intros.
  destruct (negb _); [apply pr_bind; [apply pr_setStates|intros; apply pr_ret]|].
  apply pr_bind; [kcall|]; intros. apply pr_bind; [apply pr_with, pr_CC|]. intros.
  destruct (negb _); [apply pr_bind; [apply pr_setStates|intros; apply pr_ret]|apply pr_ret].
Qed.
End Pres.

Section Calls.
Context {A : Type} {NA : Num A} {S : Type} (P : S -> Prop) (o : unit_if A S) (nmax : nat) (diag : bool) (fuel : nat).
Lemma pr_calls (HS : all_safe P o) cs : forall w, P (c_su w) -> P (c_su (do_calls o nmax diag fuel cs w)).
Proof.
  induction cs as [|c cs IH]; intros w H; cbn [do_calls]; [exact H|]. apply IH. destruct c; cbn [do_call].
  - apply (pr_rest P nmax o HS). exact H.
  - apply (pr_CC P nmax o diag HS). exact H.
  - apply (pr_CV P nmax o HS). exact H.
  - apply (pr_CCCV P nmax o diag HS). exact H.
  - apply (pr_testCapacity P nmax o diag HS). exact H.
  - apply (pr_store P nmax o HS). exact H.
  - apply (pr_write P o HS). exact H.
Qed.
End Calls.
Section CallsKeep.
Context {A : Type} {NA : Num A} {S : Type}.
Definition Jbuf (nmax : nat) (i : nat) (l : list (event A)) : Prop :=
  i = pending l /\ forall l1 l2, l = l1 ++ l2 -> (pending l1 <= nmax)%nat.
Lemma pending_snoc (l : list (event A)) e : pending (l ++ [e]) = match e with EStore => (pending l + 1)%nat | EWrite => 0%nat | _ => pending l end.
Proof. unfold pending. rewrite fold_left_app. reflexivity. Qed.
Lemma Jbuf_snoc nmax i l e : Jbuf nmax i l -> (pending (l ++ [e]) <= nmax)%nat -> Jbuf nmax (pending (l ++ [e])) (l ++ [e]).
Proof.
  intros [-> H] He. split; [reflexivity|]. intros l1 l2. induction l2 as [|x l2 _] using rev_ind; intros E.
  - rewrite app_nil_r in E. now rewrite <- E.
  - rewrite app_assoc in E. apply app_inj_tail in E. destruct E as [E _]. now apply (H l1 l2).
Qed.
Lemma Jbuf_cur nmax i l : Jbuf nmax i l -> (i <= nmax)%nat.
Proof. intros [-> H]. apply (H l []). now rewrite app_nil_r. Qed.
Lemma calls_pending (o : unit_if A S) nmax diag fuel cs : (0 < nmax)%nat -> forall w : cyc A (S * list (event A)),
  Jbuf nmax (c_idx w) (snd (c_su w)) -> Jbuf nmax (c_idx (do_calls (logged o) nmax diag fuel cs w)) (snd (c_su (do_calls (logged o) nmax diag fuel cs w))).
Proof.
  intros Hn.
  assert (J1 : forall i l e, Jbuf nmax i l -> neutral e -> Jbuf nmax i (l ++ [e])).
  { intros i l e H He. pose proof (Jbuf_cur _ _ _ H) as Hi. assert (E : pending (l ++ [e]) = i).
    { rewrite pending_snoc. destruct H as [-> _]. destruct e; try reflexivity; destruct He. }
    rewrite <- E at 1. apply (Jbuf_snoc _ i); [exact H|]. now rewrite E. }
  assert (J2 : forall i l, Jbuf nmax i l -> (i < nmax)%nat -> Jbuf nmax (i + 1) (l ++ [EStore])).
  { intros i l H Hi. assert (E : pending (l ++ [EStore]) = (i + 1)%nat) by (rewrite pending_snoc; destruct H as [-> _]; reflexivity).
    rewrite <- E at 1. apply (Jbuf_snoc _ i); [exact H|]. rewrite E. lia. }
  assert (J3 : forall i l, Jbuf nmax i l -> Jbuf nmax 0 (l ++ [EWrite])).
  { intros i l H. assert (E : pending (l ++ [EWrite]) = 0%nat) by (rewrite pending_snoc; reflexivity).
    rewrite <- E at 1. apply (Jbuf_snoc _ i); [exact H|]. rewrite E. lia. }
  assert (J4 : forall i l s, Jbuf nmax i l -> Jbuf nmax i (l ++ [EStates s])).
  { intros i l s H. pose proof (Jbuf_cur _ _ _ H) as Hi. assert (E : pending (l ++ [EStates s]) = i) by (rewrite pending_snoc; destruct H as [-> _]; reflexivity).
    rewrite <- E at 1. apply (Jbuf_snoc _ i); [exact H|]. now rewrite E. }
  induction cs as [|c cs IH]; intros w H; cbn [do_calls]; [exact H|]. apply IH. destruct c; cbn [do_call].
  - exact (ke_rest (S := S) _ _ J1 J2 J3 Hn o fuel tlim dt ndt w H).
  - exact (ke_CC (S := S) _ _ J1 J2 J3 Hn o diag fuel i vlim tlim dt ndt w H).
  - exact (ke_CV (S := S) _ _ J1 J2 J3 Hn o v ilim tlim dt ndt w H).
  - exact (ke_CCCV (S := S) _ _ J1 J2 J3 Hn o diag fuel i v ilim tlim dt ndt w H).
  - exact (ke_testCapacity (S := S) _ _ J1 J2 J3 Hn o diag J4 fuel w H).
  - exact (ke_store (S := S) _ _ J1 J2 J3 Hn o w H).
  - exact (ke_write (S := S) _ J1 J3 o w H).
Qed.
End CallsKeep.

Section Samples.
Context {A : Type} {NA : Num A}.
(** Buffer and file together hold what was there plus the observed data points, in order. *)
Definition kept (f0 : list (ftok A)) (b0 : list A) (w : rcell A * list (list A)) : Prop :=
  exists bs, rc_file (fst w) = f0 ++ flat_map block_text bs /\ flat_map snd bs ++ rc_buf (fst w) = b0 ++ concat (snd w).
Lemma kept_lift f0 b0 {B : Type} (f : M (ecmu A) B) :
  safe (kept f0 b0) (fun w => ((fst (rlift f (fst w)), snd w), snd (rlift f (fst w)))).
Proof. intros w H. unfold rlift. destruct (f (rc_u (fst w))) as [u r]. exact H. Qed.
Lemma write_cell_text (s : list A) f b : write_cell s (f, b) = Ok (f ++ block_text (s, b), []).
Proof.
  unfold block_text, write_cell, write_data. cbn [fst snd]. destruct (write_loop_numbers 7 b ltac:(lia) 0) as [t [-> _]].
  cbn [rmap rbind]. rewrite !app_nil_l, !app_assoc. reflexivity.
Qed.
Lemma sampled_safe f0 b0 : all_safe (kept f0 b0) sampled.
Proof.
  repeat match goal with |- _ /\ _ => split | |- all_safe _ _ => unfold all_safe, sampled, rc_if; cbn [q_I q_Cap q_lim q_V q_checkV q_Vlow q_getStates q_setStates q_setCurrent q_setVoltage q_step q_store q_write] end;
    intros; try apply kept_lift; try (intros w H; exact H).
  - intros w [bs [H1 H2]]. unfold rc_store, sample. destruct (ecm_V (u_ecm (rc_u (fst w)))) as [v| | |]; exists bs; cbn [fst snd rc_file rc_buf];
      (split; [exact H1|]); rewrite concat_app; cbn [concat]; rewrite app_nil_r, !app_assoc; now rewrite H2.
  - intros w [bs [H1 H2]]. unfold rc_write. rewrite write_cell_text. cbn [fst snd].
    exists (bs ++ [(ecm_getStates (u_ecm (rc_u (fst w))), rc_buf (fst w))]). cbn [fst snd rc_file rc_buf].
    rewrite !flat_map_app. cbn [flat_map snd]. rewrite !app_nil_r. rewrite H1, app_assoc. now split.
Qed.
End Samples.
