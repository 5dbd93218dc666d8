(** * Lemmas: the daily use case, balancing a tree, the throughput records *)
From Coq Require Import Reals Lra.
From Verif Require Import Base RFacts StatusModel StatusProofs CellModel DataModel CoolModel ModuleModel CyclerModel CyclerProofs ProcModel ProcSpec ProcProofs.

Ltac ok H w b := apply bind_ok in H; let E := fresh "E" in destruct H as (w & b & E & H).
Section Days.
Context {A : Type} {NA : Num A} {W : Type}.
Context (r : run_if A W).
Fixpoint plan (p : list act) : M W bool :=
  match p with
  | [] => mret true
  | ARest h :: p => rested r (h * 3600) (plan p)
  | ACC g V must :: p =>
      mbind (r_cap r) (fun c => mbind (r_CC r (g c) V) (fun st => mbind (r_store r) (fun _ =>
        if must then (if negb (status_eqb st ReachedVoltageLimit) then mret false else plan p) else plan p)))
  end.
Lemma one_day_plan Vmax Vmin : one_day r Vmax Vmin = plan (day Vmax Vmin).
Proof. reflexivity. Qed.
Lemma plan_ok p : forall w w' b, plan p w = (w', Ok b) -> exists l, log r w l w' /\ follows p l b.
Proof.
  induction p as [|a p IH]; intros w w' b H.
  - injection H as <- <-. exists []. split; [apply log_nil|constructor].
  - destruct a as [h|g V must]; cbn [plan] in H.
    + unfold rested in H. ok H w1 st. ok H w2 u. destruct u. destruct (status_eqb st ReachedTimeLimit) eqn:E1; cbn [negb] in H.
      * apply status_eqb_true in E1. subst st. destruct (IH _ _ _ H) as (l & L & F).
        eexists. split; [|constructor; exact F]. eapply log_cons; [exact E|]. eapply log_cons; [exact E0|exact L].
      * injection H as <- <-. eexists. split; [|apply fo_rest_bad; apply status_eqb_false; exact E1].
        eapply log_cons; [exact E|]. now apply log_one.
    + ok H w1 c. ok H w2 st. ok H w3 u. destruct u.
      assert (G : forall l, log r w3 l w' -> log r w (KCap c :: KCC (g c) V st :: KStore :: l) w').
      { intros. eapply log_cons; [exact E|]. eapply log_cons; [exact E0|]. eapply log_cons; [exact E1|assumption]. }
      destruct must.
      * destruct (status_eqb st ReachedVoltageLimit) eqn:E2; cbn [negb] in H.
        -- destruct (IH _ _ _ H) as (l & L & F). eexists. split; [apply G; exact L|]. constructor; [intros _; now apply status_eqb_true|exact F].
        -- injection H as <- <-. eexists. split; [apply G; apply log_nil|]. apply fo_cc_bad. now apply status_eqb_false.
      * destruct (IH _ _ _ H) as (l & L & F). eexists. split; [apply G; exact L|]. constructor; [discriminate|exact F].
Qed.
Lemma log_snoc w l w1 e w2 : log r w l w1 -> does r e w1 w2 -> log r w (l ++ [e]) w2.
Proof. intros L D. eapply log_app; [exact L|]. now apply log_one. Qed.
Lemma plan_throw p : forall w w' c, plan p w = (w', Throw c) -> exists l, log r w l w' /\ follows p l false.
Proof.
  induction p as [|a p IH]; intros w w' c H; [discriminate|].
  destruct a as [h|g V must]; cbn [plan] in H.
  - unfold rested in H. apply bind_throw in H. destruct H as [H|(w1 & st & E & H)].
    { eexists. split; [|apply fo_threw; now left]. apply log_one. exists c. right. right. left. eauto. }
    apply bind_throw in H. destruct H as [H|(w2 & u & E0 & H)].
    { eexists. split; [|apply fo_threw; right; left; exists h; split; [reflexivity|]; eauto].
      eapply log_snoc; [apply log_one; exact E|]. exists c. auto. }
    destruct u. destruct (status_eqb st ReachedTimeLimit) eqn:E1; cbn [negb] in H; [|discriminate].
    apply status_eqb_true in E1. subst st. destruct (IH _ _ _ H) as (l & L & F).
    eexists. split; [|constructor; exact F]. eapply log_cons; [exact E|]. eapply log_cons; [exact E0|exact L].
  - apply bind_throw in H. destruct H as [H|(w1 & x & E & H)].
    { eexists. split; [|apply fo_threw; now left]. apply log_one. exists c. now left. }
    apply bind_throw in H. destruct H as [H|(w2 & st & E0 & H)].
    { eexists. split; [|apply fo_threw; right; right; exists g, V, must, x; split; [reflexivity|now left]].
      eapply log_snoc; [apply log_one; exact E|]. exists c. right. left. eauto. }
    apply bind_throw in H. destruct H as [H|(w3 & u & E1 & H)].
    { eexists. split; [|apply fo_threw; right; right; exists g, V, must, x; split; [reflexivity|right; eauto]].
      eapply log_snoc; [eapply log_cons; [exact E|]; apply log_one; exact E0|]. exists c. auto. }
    destruct u.
    assert (G : forall l, log r w3 l w' -> log r w (KCap x :: KCC (g x) V st :: KStore :: l) w').
    { intros. eapply log_cons; [exact E|]. eapply log_cons; [exact E0|]. eapply log_cons; [exact E1|assumption]. }
    destruct must.
    + destruct (status_eqb st ReachedVoltageLimit) eqn:E2; cbn [negb] in H; [|discriminate].
      destruct (IH _ _ _ H) as (l & L & F). eexists. split; [apply G; exact L|]. constructor; [intros _; now apply status_eqb_true|exact F].
    + destruct (IH _ _ _ H) as (l & L & F). eexists. split; [apply G; exact L|]. constructor; [discriminate|exact F].
Qed.
Context (bal : bool) (Vmax Vmin : A).
Lemma days_ok todo : forall i w w', (0 <= i)%Z -> days r bal todo i Vmax Vmin w = (w', Ok tt) ->
  exists ls last, log r w (concat ls ++ last) w' /\
    (forall k d, nth_error ls k = Some d -> exists x, d = lead bal 10 7 (i + Z.of_nat k) ++ x /\ follows (day Vmax Vmin) x true) /\
    ((length ls = todo /\ last = []) \/
     ((length ls < todo)%nat /\ exists x, last = lead bal 10 7 (i + Z.of_nat (length ls)) ++ x /\ follows (day Vmax Vmin) x false)).
Proof.
  induction todo as [|td IH]; intros i w w' Hi H.
  - injection H as <-. exists [], []. split; [apply log_nil|]. split; [|left; auto]. intros [|k] c; discriminate.
  - cbn [days] in H. ok H w1 u1. ok H w2 u2. ok H w3 go. destruct u1, u2.
    assert (L : log r w (lead bal 10 7 i) w2) by (apply lead_ok; [exact Hi|unfold mbind; now rewrite E]).
    assert (D : exists x, log r w2 x w3 /\ follows (day Vmax Vmin) x go).
    { unfold caught in E1. destruct (one_day r Vmax Vmin w2) as [w4 [b|c| |]] eqn:E2; try discriminate.
      - injection E1 as -> ->. rewrite one_day_plan in E2. now apply plan_ok.
      - injection E1 as -> <-. rewrite one_day_plan in E2. now apply (plan_throw _ _ _ c). }
    destruct D as (x & D & F). assert (L2 := log_app _ _ _ _ _ _ L D). destruct go.
    + destruct (IH (i + 1)%Z w3 w' ltac:(lia) H) as (ls & last & L' & HF & HE).
      exists ((lead bal 10 7 i ++ x) :: ls), last.
      split; [cbn [concat]; rewrite <- (app_assoc _ (concat ls)); now apply (log_app r w _ w3)|]. split.
      * intros [|k] c; cbn.
        -- intros [= <-]. rewrite Z.add_0_r. now exists x.
        -- intros Ek. specialize (HF _ _ Ek). now replace (i + Z.pos (Pos.of_succ_nat k))%Z with (i + 1 + Z.of_nat k)%Z by lia.
      * destruct HE as [[<- ->]|[HL' HG]]; [now left|]. right. split; [cbn; lia|].
        cbn [length]. now replace (i + Z.of_nat (Datatypes.S (length ls)))%Z with (i + 1 + Z.of_nat (length ls))%Z by lia.
    + injection H as <-. exists [], (lead bal 10 7 i ++ x). split; [exact L2|]. split; [intros [|k] c; discriminate|].
      right. split; [cbn; lia|]. rewrite Z.add_0_r. now exists x.
Qed.
Lemma useCaseAge_ok w w' : useCaseAge r bal Vmax Vmin w = (w', Ok tt) ->
  exists c st l, log r w ([KCap c; KCC (ndiv c (nZ 2)) Vmin st] ++ l ++ [KFinal 20]) w' /\ used Vmax Vmin bal 20 l.
Proof.
  intros H. unfold useCaseAge in H. ok H w1 c. ok H w2 st. ok H w3 u. destruct u.
  destruct (days_ok _ 0%Z _ _ ltac:(lia) E1) as (ls & last & L & HF & HE).
  exists c, st, (concat ls ++ last). split; [|now exists ls, last].
  apply (log_app _ _ _ w2); [eapply log_cons; [exact E|]; now apply log_one|]. eapply log_app; [exact L|]. now apply log_one.
Qed.
End Days.

(** ** Balancing *)
Section Rebalance.
Context {A : Type} {NA : Num A} {S : Type} (o : unit_if A S) (nmax fuel : nat) (Vbal : A).
Notation T := (sut (leaf S)).
Notation RB := (rebalance o nmax fuel Vbal).
Fixpoint rb_list (l : list T) : list T * res Status :=
  match l with
  | [] => ([], Ok Success)
  | c :: rest =>
      match RB c with
      | (c', Ok st) => if isStatusSuccessful st then let '(rest', r) := rb_list rest in (c' :: rest', r) else (c' :: rest, Ok st)
      | (c', e) => (c' :: rest, e)
      end
  end.
Lemma rebalance_mod x l : RB (TMod x l) = let '(l', r) := rb_list l in (TMod x l', r).
Proof. reflexivity. Qed.
Definition spm_cells (t : T) : Prop := forall q x, cell_at t q x -> l_spm x = true.
Definition split_st (t t' : T) (st : Status) : Prop :=
  (st = Success /\ all_cycled o nmax fuel Vbal t t') \/ (st <> Success /\ cycled_until o nmax fuel Vbal t t' st).
Lemma bad_not_success st : isStatusBad st = true -> st <> Success.
Proof. intros H ->. discriminate. Qed.
Lemma balance_cell_ok s s' st : balance_cell o nmax fuel Vbal s = (s', Ok st) ->
  exists st', cycled o nmax fuel Vbal s s' st' /\ st = (if isStatusBad st' then st' else Success).
Proof.
  unfold balance_cell, cycled. destruct (q_Cap o s) as [s1 [cap| | |]]; try discriminate.
  destruct (CCCV _ _ _ _ _ _ _ _ _ _) as [w [any| | |]] eqn:E; try discriminate.
  destruct (q_setCurrent o (nZ 0) true (c_su w)) as [s2 [x| | |]] eqn:E2; try discriminate.
  intros [= <- <-]. exists x. split; [|reflexivity]. exists s1, cap, w, any. auto.
Qed.
Lemma rb_list_ok l : Forall (fun c => forall t' st, RB c = (t', Ok st) -> split_st c t' st) l ->
  forall l' st, rb_list l = (l', Ok st) ->
  (st = Success /\ forall k c, nth_error l k = Some c -> exists c', nth_error l' k = Some c' /\ all_cycled o nmax fuel Vbal c c') \/
  (st <> Success /\ exists k0 c0 c0', nth_error l k0 = Some c0 /\ nth_error l' k0 = Some c0' /\ cycled_until o nmax fuel Vbal c0 c0' st /\
     (forall k c, nth_error l k = Some c -> (k < k0)%nat -> exists c', nth_error l' k = Some c' /\ all_cycled o nmax fuel Vbal c c') /\
     (forall k, (k0 < k)%nat -> nth_error l' k = nth_error l k)).
Proof.
  induction 1 as [|c l Hc HF IH]; intros l' st H.
  - injection H as <- <-. left. split; [reflexivity|]. intros [|k] c; discriminate.
  - cbn [rb_list] in H. destruct (RB c) as [c' [s| | |]] eqn:E; try discriminate. specialize (Hc _ _ eq_refl).
    destruct (isStatusSuccessful s) eqn:ES.
    + apply status_eqb_true in ES. subst s. destruct Hc as [[_ Hc]|[Hc _]]; [|congruence].
      destruct (rb_list l) as [rest' r'] eqn:EL. injection H as <- ->. destruct (IH _ _ eq_refl) as [[-> HK]|(HN & k0 & c0 & c0' & K1 & K2 & K3 & K4 & K5)].
      * left. split; [reflexivity|]. intros [|k] d; cbn; [intros [= <-]; eauto|apply HK].
      * right. split; [exact HN|]. exists (Datatypes.S k0), c0, c0'. split; [exact K1|]. split; [exact K2|]. split; [exact K3|]. split.
        -- intros [|k] d; cbn; [intros [= <-] _; eauto|]. intros Hd Hk. apply K4; [exact Hd|lia].
        -- intros [|k] Hk; [lia|]. cbn. apply K5. lia.
    + injection H as <- <-. destruct Hc as [[-> _]|[HN Hc]]; [discriminate|].
      right. split; [exact HN|]. exists 0%nat, c, c'. split; [reflexivity|]. split; [reflexivity|]. split; [exact Hc|]. split.
      * intros k d _ Hk. lia.
      * intros [|k] Hk; [lia|reflexivity].
Qed.
Lemma cell_mod_inv x (l : list T) q y : cell_at (TMod x l) q y -> exists k c q', q = k :: q' /\ nth_error l k = Some c /\ cell_at c q' y.
Proof. intros H. inversion H; subst. eauto 6. Qed.
Lemma before_cons k q k' q' : before (k :: q) (k' :: q') -> (k < k')%nat \/ (k = k' /\ before q q').
Proof. intros H. inversion H; subst; auto. Qed.
Lemma no_bat_mod x (l : list T) : no_battery (TMod x l) -> Forall no_battery l.
Proof. cbn. induction l as [|c l IH]; [constructor|]. intros [H1 H2]. constructor; [exact H1|]. now apply IH. Qed.
Lemma rebalance_ok t : no_battery t -> spm_cells t -> forall t' st, RB t = (t', Ok st) -> split_st t t' st.
Proof.
  induction t as [x|x l IH|x|x c IH] using sut_induct; intros NB SP t' st H.
  - cbn [rebalance] in H. rewrite (SP _ _ (cell_here x)) in H.
    destruct (balance_cell o nmax fuel Vbal (l_unit x)) as [s' r0] eqn:E. injection H as <- ->.
    destruct (balance_cell_ok _ _ _ E) as (st' & C & ->).
    destruct (isStatusBad st') eqn:B.
    + right. split; [now apply bad_not_success|]. exists [], x, (mkLeaf true s'). split; [constructor|]. split; [constructor|].
      split; [exact C|]. split; [exact B|]. intros q y HC. split; intros HB; inversion HC; subst; inversion HB.
    + left. split; [reflexivity|]. intros q y HC. inversion HC; subst. exists (mkLeaf true s'), st'. cbn. split; [constructor|].
      split; [symmetry; apply (SP _ _ (cell_here y))|]. split; [exact C|exact B].
  - rewrite rebalance_mod in H. destruct (rb_list l) as [l' r0] eqn:E. injection H as <- ->.
    assert (HF : Forall (fun c => forall t' st, RB c = (t', Ok st) -> split_st c t' st) l).
    { assert (NB' := no_bat_mod _ _ NB). rewrite Forall_forall in *. intros c Hc. apply IH; [exact Hc|now apply NB'|].
      intros q y Hy. apply In_nth_error in Hc. destruct Hc as [k Hk]. apply (SP (k :: q)). now apply cell_mod with (c := c). }
    destruct (rb_list_ok l HF _ _ E) as [[-> HK]|(HN & k0 & c0 & c0' & K1 & K2 & K3 & K4 & K5)].
    + left. split; [reflexivity|]. intros q y HC. destruct (cell_mod_inv _ _ _ _ HC) as (k & c & q' & -> & Hk & Hy).
      destruct (HK _ _ Hk) as (c' & Hc' & HA).
      destruct (HA _ _ Hy) as (y' & st & P1 & P2). exists y', st. split; [now apply cell_mod with (c := c')|exact P2].
    + right. split; [exact HN|]. destruct K3 as (q0 & x0 & x0' & P1 & P2 & P3 & P4 & P5).
      exists (k0 :: q0), x0, x0'. split; [now apply cell_mod with (c := c0)|]. split; [now apply cell_mod with (c := c0')|].
      split; [exact P3|]. split; [exact P4|]. intros q y HC. destruct (cell_mod_inv _ _ _ _ HC) as (k & c & q' & -> & Hk & Hy).
      split; intros HB; apply before_cons in HB; destruct HB as [HB|[-> HB]].
      * destruct (K4 _ _ Hk HB) as (c' & Hc' & HA). destruct (HA _ _ Hy) as (y' & st' & Q1 & Q2).
        exists y', st'. split; [now apply cell_mod with (c := c')|exact Q2].
      * rewrite K1 in Hk. injection Hk as <-. destruct (proj1 (P5 _ _ Hy) HB) as (y' & st' & Q1 & Q2).
        exists y', st'. split; [now apply cell_mod with (c := c0')|exact Q2].
      * apply cell_mod with (c := c); [now rewrite K5|exact Hy].
      * rewrite K1 in Hk. injection Hk as <-. apply cell_mod with (c := c0'); [exact K2|]. now apply P5.
  - destruct NB.
  - destruct NB.
Qed.
End Rebalance.
