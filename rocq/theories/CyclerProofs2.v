(** * Proofs about the cycler: the observer changes nothing; CC, CV, CCCV *)
From Coq Require Import Reals Lra.
From Verif Require Import Base RFacts StatusModel CellModel CoolModel ModuleModel CyclerModel CyclerSpec CyclerProofs.

(** ** The observer only appends to its log and changes nothing else *)
Section Faithful.
Context {A : Type} {NA : Num A} {S : Type}.
Notation W := (cyc A (S * list (event A))).

Definition relog (l : list (event A)) (w : cyc A S) : W := mkCyc (c_su w, l) (c_idx w) (c_th w).
Definition faithful {B : Type} (m : M W B) (p : M (cyc A S) B) : Prop :=
  forall s i t, exists l1, forall l, m (mkCyc (s, l) i t) = (relog (l ++ l1) (fst (p (mkCyc s i t))), snd (p (mkCyc s i t))).

Lemma fa_ret {B : Type} (b : B) : faithful (mret b) (mret b).
Proof. intros s i t. exists []. intros l. rewrite app_nil_r. reflexivity. Qed.
Lemma fa_throw {B : Type} c : faithful (B := B) (mthrow c) (mthrow c).
Proof. intros s i t. exists []. intros l. rewrite app_nil_r. reflexivity. Qed.
Lemma fa_res {B : Type} (r : res B) : faithful (fun w => (w, r)) (fun w => (w, r)).
Proof. intros s i t. exists []. intros l. rewrite app_nil_r. reflexivity. Qed.
Lemma fa_bind {B C : Type} (m : M W B) p (f : B -> M W C) g :
  faithful m p -> (forall b, faithful (f b) (g b)) -> faithful (mbind m f) (mbind p g).
Proof.
  intros Hm Hf s i t. destruct (Hm s i t) as [l1 H1]. unfold mbind.
  destruct (p (mkCyc s i t)) as [[s' i' t'] r]; cbn [fst snd] in H1.
  destruct r as [b|c| |].
  - destruct (Hf b s' i' t') as [l2 H2]. exists (l1 ++ l2). intros l. rewrite H1. unfold relog at 1. cbn [c_su c_idx c_th]. rewrite H2, app_assoc. reflexivity.
  - exists l1. intros l. now rewrite H1.
  - exists l1. intros l. now rewrite H1.
  - exists l1. intros l. now rewrite H1.
Qed.
Lemma fa_call {B : Type} (f : M S B) ok ko : faithful (call (observe f ok ko)) (call f).
Proof.
  intros s i t. unfold call, observe. cbn [c_su c_idx c_th fst snd]. destruct (f s) as [s' r].
  destruct r as [b|c| |]; [exists (ok b)|exists [ko]|exists [ko]|exists [ko]]; intros l; reflexivity.
Qed.
Lemma fa_try {B : Type} (m h : M W B) p k : faithful m p -> faithful h k -> faithful (try m h) (try p k).
Proof.
  intros Hm Hh s i t. destruct (Hm s i t) as [l1 H1]. unfold try.
  destruct (p (mkCyc s i t)) as [[s' i' t'] r]; cbn [fst snd] in H1.
  destruct r as [b|c| |]; try (exists l1; intros l; now rewrite H1).
  destruct (Hh s' i' t') as [l2 H2]. exists (l1 ++ l2). intros l. rewrite H1. unfold relog at 1. cbn [c_su c_idx c_th]. rewrite H2, app_assoc. reflexivity.
Qed.
Lemma fa_with {B : Type} (m : M W B) p : faithful m p -> faithful (with_th m) (with_th p).
Proof.
  intros Hm s i t. destruct (Hm s i th0) as [l1 H1]. exists l1. intros l. unfold with_th. cbn [c_su c_idx c_th]. rewrite H1.
  destruct (p (mkCyc s i th0)) as [[s' i' t'] r]. destruct r; reflexivity.
Qed.
Lemma fa_th (a b c : A) : faithful (add_th a b c) (add_th a b c).
Proof. intros s i t. exists []. intros l. rewrite app_nil_r. reflexivity. Qed.
Lemma fa_charge (b c : A) : faithful (add_charge b c) (add_charge b c).
Proof. intros s i t. exists []. intros l. rewrite app_nil_r. reflexivity. Qed.
Lemma fa_set t' : faithful (set_th t') (set_th t').
Proof. intros s i t. exists []. intros l. rewrite app_nil_r. reflexivity. Qed.

Context (o : unit_if A S) (nmax : nat) (diag : bool).
Lemma fa_write : faithful (writeData (logged o)) (writeData o).
Proof.
  intros s i t. unfold writeData. cbn [c_su c_idx c_th logged q_write]. unfold observe. cbn [fst snd].
  destruct (q_write o s) as [s' r]. destruct r; eexists; intros l; reflexivity.
Qed.
Lemma fa_index : faithful (fun w => (w, Ok (c_idx w))) (fun w => (w, Ok (c_idx w))).
Proof. intros s i t. exists []. intros l. rewrite app_nil_r. reflexivity. Qed.
Lemma fa_incr : faithful (fun w : W => (mkCyc (c_su w) (c_idx w + 1) (c_th w), Ok tt)) (fun w : cyc A S => (mkCyc (c_su w) (c_idx w + 1) (c_th w), Ok tt)).
Proof. intros s i t. exists []. intros l. rewrite app_nil_r. reflexivity. Qed.
Lemma fa_store : faithful (storeData (logged o) nmax) (storeData o nmax).
Proof.
  unfold storeData. apply fa_bind; [apply fa_index|]. intros i. apply fa_bind; [destruct (Nat.leb nmax i); [apply fa_write|apply fa_ret]|].
  intros _. apply fa_bind; [apply fa_call|]. intros _. apply fa_incr.
Qed.
Lemma fa_store_if b : faithful (store_if (logged o) nmax b) (store_if o nmax b).
Proof. destruct b; [apply fa_store|apply fa_ret]. Qed.
Lemma fa_store_due idat ndt : faithful (store_due (logged o) nmax idat ndt) (store_due o nmax idat ndt).
Proof. unfold store_due. destruct (_ && _); [|apply fa_ret]. apply fa_bind; [apply fa_store|intros; apply fa_ret]. Qed.

Ltac fa :=
  lazymatch goal with
  | |- faithful (mbind _ _) _ => apply fa_bind; [fa|intros; fa]
  | |- faithful (call _) _ => apply fa_call
  | |- faithful (mret _) _ => apply fa_ret
  | |- faithful (mthrow _) _ => apply fa_throw
  | |- faithful (try _ _) _ => apply fa_try; fa
  | |- faithful (with_th _) _ => apply fa_with; fa
  | |- faithful (add_th _ _ _) _ => apply fa_th
  | |- faithful (add_charge _ _) _ => apply fa_charge
  | |- faithful (set_th _) _ => apply fa_set
  | |- faithful (store_if _ _ _) _ => apply fa_store_if
  | |- faithful (store_due _ _ _ _) _ => apply fa_store_due
  | |- faithful (if ?b then _ else _) _ => destruct b; fa
  | |- faithful (let '(_, _) := ?p in _) _ => destruct p; fa
  | |- faithful (match ?p with inl _ => _ | inr _ => _ end) _ => destruct p; fa
  | |- _ => cbn zeta; auto
  end.

Lemma fa_rest_loop fuel : forall tlim ndt nm dti ttot idat nOnce ninc,
  faithful (rest_loop (logged o) nmax fuel tlim ndt nm dti ttot idat nOnce ninc) (rest_loop o nmax fuel tlim ndt nm dti ttot idat nOnce ninc).
Proof.
  induction fuel as [|f IH]; intros; cbn [rest_loop]; (destruct (nltb ttot tlim); cbn [negb]; [|apply fa_ret]); [apply fa_res|].
  cbn zeta. fa.
Qed.
Lemma fa_rest fuel tlim dt ndt : faithful (rest (logged o) nmax fuel tlim dt ndt) (rest o nmax fuel tlim dt ndt).
Proof. unfold rest. apply fa_bind; [apply fa_store_if|]. intros. apply fa_bind; [apply fa_rest_loop|]. intros. fa. Qed.
Lemma fa_setCurrent I vlim : faithful (cyc_setCurrent (logged o) diag I vlim) (cyc_setCurrent o diag I vlim).
Proof. unfold cyc_setCurrent. fa. Qed.
Lemma fa_adapt I vlim vo vi n up : faithful (cc_adapt (logged o) I vlim vo vi n up) (cc_adapt o I vlim vo vi n up).
Proof. unfold cc_adapt. fa. Qed.
Lemma fa_cc_loop fuel : forall I vlim tlim ndt nm dti ttot idat nOnce vo vi up,
  faithful (cc_loop (logged o) nmax diag fuel I vlim tlim ndt nm dti ttot idat nOnce vo vi up) (cc_loop o nmax diag fuel I vlim tlim ndt nm dti ttot idat nOnce vo vi up).
Proof.
  induction fuel as [|f IH]; intros; cbn [cc_loop]; (destruct (nltb ttot tlim); cbn [negb]; [|apply fa_ret]); [apply fa_res|].
  apply fa_bind; [apply fa_setCurrent|]. intros _. cbn zeta. fa; try (destruct b0; fa); try (apply fa_adapt).
Qed.
Lemma fa_CC fuel I vlim tlim dt ndt : faithful (CC (logged o) nmax diag fuel I vlim tlim dt ndt) (CC o nmax diag fuel I vlim tlim dt ndt).
Proof.
  unfold CC. apply fa_bind; [apply fa_store_if|]. intros _. apply fa_bind; [apply fa_setCurrent|]. intros st.
  destruct (negb _); [apply fa_ret|]. apply fa_bind; [apply fa_call|]. intros v0. destruct (beyond _ _ _); [apply fa_ret|].
  apply fa_bind; [apply fa_cc_loop|]. intros [st'|[x v]]; fa.
Qed.
Lemma fa_cv_loop todo : forall i nt Vset Ilim tlim dt ndt ttot,
  faithful (cv_loop (logged o) nmax todo i nt Vset Ilim tlim dt ndt ttot) (cv_loop o nmax todo i nt Vset Ilim tlim dt ndt ttot).
Proof. induction todo as [|td IH]; intros; cbn [cv_loop]; [apply fa_ret|]. cbn zeta. fa. Qed.
Lemma fa_CV Vset Ilim tlim dt ndt : faithful (CV (logged o) nmax Vset Ilim tlim dt ndt) (CV o nmax Vset Ilim tlim dt ndt).
Proof.
  unfold CV. apply fa_bind; [apply fa_store_if|]. intros _. apply fa_bind; [apply fa_call|]. intros v. apply fa_bind; [apply fa_call|]. intros i.
  destruct (_ && _); [apply fa_ret|]. apply fa_bind; [apply fa_res|]. intros nt. apply fa_bind; [apply fa_cv_loop|]. intros [st|[[x a] b]]; fa.
Qed.
Lemma fa_CCCV fuel I Vset Ilim tlim dt ndt :
  faithful (CCCV_with_tlim (logged o) nmax diag fuel I Vset Ilim tlim dt ndt) (CCCV_with_tlim o nmax diag fuel I Vset Ilim tlim dt ndt).
Proof.
  unfold CCCV_with_tlim. cbn zeta. fa; first [apply fa_CC|apply fa_CV].
Qed.
Lemma fa_testCapacity fuel : faithful (testCapacity (logged o) nmax diag fuel) (testCapacity o nmax diag fuel).
Proof. unfold testCapacity. cbn zeta. fa; apply fa_CC. Qed.

Lemma wp_frame {B : Type} (m : M W B) p (Q : list (event A) -> th A -> res B -> Prop) l0 t :
  faithful m p -> wp m Q [] t -> wp m (fun l' t' r => exists l1, l' = l0 ++ l1 /\ Q l1 t' r) l0 t.
Proof.
  intros Hf H s i. destruct (Hf s i t) as [l1 H1]. specialize (H s i). rewrite (H1 []) in H. rewrite (H1 l0). cbn [fst snd relog c_su c_th app] in *.
  exists l1. now split.
Qed.
End Faithful.

Local Open Scope R_scope.

Lemma books_nil I t : books I [] t t.
Proof. unfold books. cbn [elapsed cc_energy]. repeat split; lra. Qed.

Section CC2.
Context {S : Type} (o : unit_if R S) (nmaxd : nat) (diag : bool).

(** What holds when CC stops, seen from an empty log. *)
Definition CCpost (I vlim tlim dt : R) (nmax : Z) (t : th R) (l' : RL) (t' : th R) (r : res Status) : Prop :=
  elapsed l' <= tlim /\ steps_within dt nmax l' /\ commanded I l' /\
  match r with
  | Ok ReachedTimeLimit => elapsed l' = tlim /\ books I l' t t' /\ length (ends l') = nsteps l' /\ Forall (fun v => inside I v vlim) (removelast (ends l'))
  | Ok ReachedVoltageLimit =>
      books I l' t t' /\ length (ends l') = nsteps l' /\ Forall (fun v => inside I v vlim) (removelast (ends l')) /\
      ((exists vs v, ends l' = vs ++ [v] /\ reached I v vlim) \/
       (nsteps l' = 0%nat /\ exists l0 v, l' = l0 ++ [EReadV v] /\
         (0 < I \/ (I < 0 /\ exists v0, first_V l' = Some v0 /\ v0 < vlim) -> reached I v vlim)))
  | Ok _ => booked I l' t t'
  | _ => failed_last l'
  end.

Lemma first_V_quiet (l l' : RL) : quiet l -> first_V (l ++ l') = first_V l'.
Proof. induction 1 as [|e l [->| ->] _ IH]; cbn [app first_V]; auto. Qed.

Lemma violated_not_reached st : isStatusVoltageLimitsViolated st = true -> st <> ReachedTimeLimit /\ st <> ReachedVoltageLimit /\ st <> Success.
Proof. destruct st; cbn; (discriminate || (intros _; repeat split; discriminate)). Qed.

Lemma CC_spec (I vlim tlim dt : R) ndt fuel t : 0 < dt -> 0 <= tlim -> tlim <= dt * INR fuel -> (diag = true -> honest o) ->
  wp (CC (logged o) nmaxd diag fuel I vlim tlim dt ndt) (CCpost I vlim tlim dt (if (0 <? ndt)%Z then Z.min 2 ndt else 2%Z) t) [] t.
Proof.
  intros Hdt Ht Hf Hh. unfold CC. set (nmax := if (0 <? ndt)%Z then Z.min 2 ndt else 2%Z).
  assert (Hnm : (1 <= nmax)%Z) by (unfold nmax; destruct (Z.ltb_spec 0 ndt); lia).
  assert (HP : forall l, Forall passive l -> elapsed l <= tlim /\ steps_within dt nmax l /\ commanded I l).
  { intros l Hp. rewrite elapsed_passive by assumption. split; [lra|]. split; [now apply steps_within_passive|].
    rewrite <- (app_nil_l l). apply before_app; [apply before_nil|now apply passive_nostep]. }
  assert (HE : forall l B (e : res B) t', Forall passive l -> notok e -> CCpost I vlim tlim dt nmax t (l ++ [EErr]) t' (cast e)).
  { intros l B e t' Hp He. assert (Hp' : Forall passive (l ++ [EErr])) by (apply Forall_app; split; [assumption|repeat constructor]).
    destruct (HP _ Hp') as [? [? ?]]. split; [assumption|]. split; [assumption|]. split; [assumption|].
    destruct e; [destruct He| | |]; apply failed_last_err. }
  apply wp_bind, wp_store_if.
  2: { intros l' e Hl' He. cbn [app]. pose proof (HE l' _ e t (quiet_passive _ Hl') He). destruct e; [destruct He| | |]; assumption. }
  intros l0 Hl0. cbn [app]. pose proof (quiet_passive _ Hl0) as Hp0.
  apply wp_bind, wp_cyc_setCurrent.
  - intros Vini Iini st st2 Hv. destruct (violated_not_reached st Hv) as [H1 [H2 H3]].
    assert (E : isStatusSuccessful st = false) by (destruct st; try reflexivity; now destruct H3). rewrite E. cbn [negb].
    apply wp_ret. destruct (HP (l0 ++ [EReadV Vini; EReadI Iini; ESet I st; ESet Iini st2])) as [Ha [Hb Hc]].
    { apply Forall_app; split; [assumption|repeat constructor]. }
    split; [assumption|]. split; [assumption|]. split; [assumption|]. 
    assert (HL : booked I (l0 ++ [EReadV Vini; EReadI Iini; ESet I st; ESet Iini st2]) t t).
    { left. rewrite <- (app_nil_l (l0 ++ _)). apply books_passive; [apply books_nil|apply closed_nil|]. apply Forall_app; split; [assumption|repeat constructor]. }
    destruct st; exact HL || now (try destruct H1) || (try destruct H2).
  - intros Vini Iini st Vnew _.
    set (l1 := l0 ++ [EReadV Vini; EReadI Iini; ESet I st; EReadV Vnew]).
    assert (Hp1 : Forall passive l1) by (apply Forall_app; split; [assumption|repeat constructor]).
    destruct (crossing I vlim Vini Vnew) eqn:Ec; cbn [isStatusSuccessful status_eqb status_val Z.eqb negb].
    + apply wp_ret. destruct (HP l1 Hp1) as [Ha [Hb Hc]]. split; [assumption|]. split; [assumption|]. split; [assumption|].
      split; [rewrite <- (app_nil_l l1); apply books_passive; [apply books_nil|apply closed_nil|assumption]|].
      rewrite ends_passive, nsteps_passive by assumption. split; [reflexivity|]. split; [constructor|].
      right. split; [reflexivity|]. exists (l0 ++ [EReadV Vini; EReadI Iini; ESet I st]), Vnew. split; [unfold l1; rewrite <- app_assoc; reflexivity|].
      unfold l1. rewrite first_V_quiet by assumption. cbn [app first_V].
      intros Hor. unfold crossing in Ec. rewrite orb_true_iff, !andb_true_iff, !Rltb_true, !Rleb_true, R_nZ in Ec. unfold reached.
      destruct Hor as [HI|[HI [v0 [E0 Hv0]]]]; [lra|]. injection E0 as <-. lra.
    + apply wp_bind, wp_call.
      2: { intros e He. pose proof (HE l1 _ e t Hp1 He). destruct e; [destruct He| | |]; assumption. }
      intros s0 s1 v0 _.
      set (l2 := l1 ++ [EReadV v0]).
      assert (Hp2 : Forall passive l2) by (apply Forall_app; split; [assumption|repeat constructor]).
      destruct (HP l2 Hp2) as [Ha [Hb Hc]].
      assert (Hbk : books I l2 t t) by (rewrite <- (app_nil_l l2); apply books_passive; [apply books_nil|apply closed_nil|assumption]).
      destruct (beyond I v0 vlim) eqn:Eb.
      * apply wp_ret. split; [assumption|]. split; [assumption|]. split; [assumption|]. split; [assumption|].
        rewrite ends_passive, nsteps_passive by assumption. split; [reflexivity|]. split; [constructor|].
        right. split; [reflexivity|]. exists l1, v0. split; [reflexivity|]. intros _. now apply reached_beyond.
      * apply wp_bind. eapply wp_conseq.
        { apply cc_loop_spec with (dt := dt) (t0 := t); try assumption; try (left; reflexivity); rewrite ?R_nZ; try lra; try lia.
          - split; [now apply elapsed_passive|]. split; [assumption|].
            split; [apply (closed_app [] l2); [apply closed_nil|assumption]|]. split; [assumption|].
            split; [rewrite ends_passive, nsteps_passive by assumption; reflexivity|assumption].
          - rewrite ends_passive by assumption. constructor. }
        cbn beta. intros l3 t3 r [H1 [H2 [H8 H3]]].
        destruct r as [[st'|[x v]]| | |]; try (split; [assumption|]; split; [assumption|]; split; [assumption|]; assumption).
        { apply wp_ret. split; [assumption|]. split; [assumption|]. split; [assumption|]. destruct H3 as [H3 [H4 H9]]. destruct st'; try exact H9; [destruct (H4 eq_refl)|destruct (H3 eq_refl)]. }
        destruct H3 as [H3 [H4 [H5 [H6 H7]]]].
        assert (HFin : forall st' : Status, st' = ReachedTimeLimit \/ st' = ReachedVoltageLimit ->
                  (st' = ReachedTimeLimit -> elapsed l3 = tlim) ->
                  (st' = ReachedVoltageLimit -> exists vs v, ends l3 = vs ++ [v] /\ reached I v vlim) ->
                  Forall (fun v => inside I v vlim) (removelast (ends l3)) ->
                  wp (A := R) (S := S) (store_if (logged o) nmaxd (0 <? ndt)%Z ;;; mret st')%prog (CCpost I vlim tlim dt nmax t) l3 t3).
        { intros st' Hst He Hr Hin. apply wp_bind, wp_store_if.
          2: { intros l' e Hl' He'. assert (Hpe : Forall passive (l' ++ [EErr])) by (apply Forall_app; split; [now apply quiet_passive|repeat constructor]).
               assert (HQ : elapsed (l3 ++ l' ++ [EErr]) <= tlim /\ steps_within dt nmax (l3 ++ l' ++ [EErr]) /\ commanded I (l3 ++ l' ++ [EErr]) /\ failed_last (l3 ++ l' ++ [EErr])).
               { rewrite elapsed_app, (elapsed_passive (l' ++ [EErr])) by assumption. split; [lra|].
                 split; [apply steps_within_app; [assumption|now apply steps_within_passive]|].
                 split; [apply before_app; [assumption|now apply passive_nostep]|]. rewrite app_assoc. apply failed_last_err. }
               destruct e; [destruct He'| | |]; exact HQ. }
          intros l' Hl'. pose proof (quiet_passive _ Hl') as Hpl'. apply wp_ret.
          assert (Q1 : elapsed (l3 ++ l') = elapsed l3) by (rewrite elapsed_app, (elapsed_passive l') by assumption; lra).
          assert (Q2 : steps_within dt nmax (l3 ++ l')) by (apply steps_within_app; [assumption|now apply steps_within_passive]).
          assert (Q3 : books I (l3 ++ l') t t3) by now apply books_passive.
          assert (Q4 : ends (l3 ++ l') = ends l3) by now apply ends_keep.
          assert (Q5 : nsteps (l3 ++ l') = nsteps l3) by (rewrite nsteps_app, (nsteps_passive l') by assumption; lia).
          unfold CCpost. rewrite Q1, Q4, Q5. split; [assumption|]. split; [assumption|]. split; [apply before_app; [assumption|now apply passive_nostep]|].
          destruct Hst as [->| ->].
          - split; [now apply He|]. split; [assumption|]. split; assumption.
          - split; [assumption|]. split; [assumption|]. split; [assumption|]. left. now apply Hr. }
        assert (Hin : Forall (fun v => inside I v vlim) (removelast (ends l3))).
        { destruct v.
          - destruct H7 as [vs [v1 [E [Hi _]]]]. rewrite E, removelast_last. assumption.
          - destruct H7 as [_ Hi]. clear - Hi. induction (ends l3) as [|y ys IHy]; [constructor|]. cbn [removelast]. inversion Hi; subst.
            destruct ys; constructor; auto. }
        destruct (nleb tlim x) eqn:Ex.
        { apply Rleb_true in Ex. apply HFin; auto; [intros _; lra|discriminate]. }
        apply Rleb_false in Ex. destruct v.
        { apply HFin; auto; [discriminate|]. intros _. destruct H7 as [vs [v1 [E [_ Hr]]]]. exists vs, v1. now split. }
        { destruct H7 as [H7 _]. lra. }
  - intros l' e Hp He. rewrite app_assoc. assert (Hp' : Forall passive (l0 ++ l')) by (apply Forall_app; now split).
    pose proof (HE (l0 ++ l') _ e t Hp' He). destruct e; [destruct He| | |]; assumption.
Qed.
End CC2.
