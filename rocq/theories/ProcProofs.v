(** * Lemmas on the ageing procedures *)
From Coq Require Import Reals Lra Sorting.Sorted.
From Verif Require Import Base RFacts StatusModel StatusProofs CellModel DataModel CoolModel ModuleModel CyclerModel ProcModel ProcSpec.

(** ** Trees *)
Section Trees.
Context {X : Type}.
Section Ind.
Context (P : sut X -> Prop).
Hypothesis HC : forall x, P (TCell x).
Hypothesis HM : forall x l, Forall P l -> P (TMod x l).
Hypothesis HB : forall x, P (TBat x None).
Hypothesis HB' : forall x c, P c -> P (TBat x (Some c)).
Fixpoint sut_induct (t : sut X) : P t :=
  match t with
  | TCell x => HC x
  | TMod x l => HM x l ((fix go (l : list (sut X)) : Forall P l := match l with [] => Forall_nil _ | c :: l' => Forall_cons _ (sut_induct c) (go l') end) l)
  | TBat x None => HB x
  | TBat x (Some c) => HB' x c (sut_induct c)
  end.
End Ind.

(** The units with their paths, in reading order. *)
Fixpoint places (t : sut X) : list (list nat * X) :=
  match t with
  | TCell x => [([], x)]
  | TBat x None => [([], x)]
  | TBat x (Some c) => ([], x) :: map (fun px => (0%nat :: fst px, snd px)) (places c)
  | TMod x l => ([], x) :: (fix go (k : nat) (l : list (sut X)) : list (list nat * X) :=
      match l with [] => [] | c :: l' => map (fun px => (k :: fst px, snd px)) (places c) ++ go (Datatypes.S k) l' end) 0%nat l
  end.
Fixpoint kids (k : nat) (l : list (sut X)) : list (list nat * X) :=
  match l with [] => [] | c :: l' => map (fun px => (k :: fst px, snd px)) (places c) ++ kids (Datatypes.S k) l' end.
Lemma places_mod x l : places (TMod x l) = ([], x) :: kids 0 l.
Proof. reflexivity. Qed.
Definition run_list {W : Type} (f : X -> W -> W) (l : list (list nat * X)) (w : W) : W := fold_left (fun w px => f (snd px) w) l w.
Lemma run_map {W : Type} (f : X -> W -> W) g l : forall w, run_list f (map (fun px => (g (fst px) : list nat, snd px)) l) w = run_list f l w.
Proof. unfold run_list. induction l as [|a l IH]; intros w; [reflexivity|]. cbn. apply IH. Qed.
Lemma run_app {W : Type} (f : X -> W -> W) l l' w : run_list f (l ++ l') w = run_list f l' (run_list f l w).
Proof. apply fold_left_app. Qed.
Lemma visit_places t : forall W (f : X -> W -> W) w, visit_SUs f t w = run_list f (places t) w.
Proof.
  induction t as [x|x l IH|x|x c IH] using sut_induct; intros W f w; try reflexivity.
  - rewrite places_mod. cbn [visit_SUs]. change (run_list f (([], x) :: kids 0 l) w) with (run_list f (kids 0 l) (f x w)).
    generalize (f x w) as w0. generalize 0%nat as k.
    induction IH as [|c l Hc _ IHl]; intros k w0; [reflexivity|]. cbn [kids].
    rewrite run_app, (run_map f (cons k)), <- Hc. apply IHl.
  - cbn [visit_SUs places]. rewrite IH. change (run_list f (places c) (f x w) = run_list f (map (fun px => (0%nat :: fst px, snd px)) (places c)) (f x w)).
    now rewrite (run_map f (cons 0%nat)).
Qed.
Lemma places_sound t : Forall (fun px => at_path t (fst px) (snd px)) (places t).
Proof.
  induction t as [x|x l IH|x|x c IH] using sut_induct.
  - repeat constructor.
  - rewrite places_mod. constructor; [constructor|].
    enough (G : forall m, Forall (fun px => at_path (TMod x (m ++ l)) (fst px) (snd px)) (kids (length m) l)) by apply (G []).
    induction IH as [|c l Hc _ IHl]; intros m; [constructor|]. cbn [kids]. apply Forall_app. split.
    + apply Forall_map. eapply Forall_impl; [|exact Hc]. intros px H. cbn. econstructor; [|exact H].
      rewrite nth_error_app2, Nat.sub_diag by lia. reflexivity.
    + specialize (IHl (m ++ [c])). rewrite <- app_assoc, app_length, Nat.add_comm in IHl. exact IHl.
  - repeat constructor.
  - cbn [places]. constructor; [constructor|]. apply Forall_map. eapply Forall_impl; [|exact IH]. intros px H. cbn. now constructor.
Qed.
Lemma kids_in k0 l k c px : nth_error l k = Some c -> In px (places c) -> In ((k0 + k)%nat :: fst px, snd px) (kids k0 l).
Proof.
  revert k0 k. induction l as [|d l IH]; intros k0 k; destruct k; cbn; try discriminate.
  - intros [= ->] H. apply in_or_app. left. rewrite Nat.add_0_r. now apply (in_map (fun px => (k0 :: fst px, snd px))).
  - intros E H. apply in_or_app. right. replace (k0 + Datatypes.S k)%nat with (Datatypes.S k0 + k)%nat by lia. now apply IH.
Qed.
Lemma places_complete t q x : at_path t q x -> In (q, x) (places t).
Proof.
  induction 1 as [x|x l|x c|x l k c q y E H IH|x c q y H IH].
  - now left.
  - rewrite places_mod. now left.
  - destruct c; now left.
  - rewrite places_mod. right. exact (kids_in 0 l k c (q, y) E IH).
  - cbn [places]. right. exact (in_map (fun px => (0%nat :: fst px, snd px)) _ _ IH).
Qed.
Lemma kids_head k l px : In px (kids k l) -> exists k' q, fst px = k' :: q /\ (k <= k')%nat.
Proof.
  revert k. induction l as [|c l IH]; intros k; [intros []|]. cbn [kids]. intros H. apply in_app_or in H. destruct H as [H|H].
  - apply in_map_iff in H. destruct H as (y & <- & _). exists k, (fst y). split; [reflexivity|lia].
  - destruct (IH _ H) as (k' & q & E & L). exists k', q. split; [exact E|lia].
Qed.
Definition lt2 (a b : list nat * X) : Prop := before (fst a) (fst b).
Lemma sorted_map k l : StronglySorted lt2 l -> StronglySorted lt2 (map (fun px => (k :: fst px, snd px)) l).
Proof.
  induction 1 as [|a l HS IH HF]; [constructor|]. cbn. constructor; [exact IH|]. apply Forall_map.
  eapply Forall_impl; [|exact HF]. intros b Hb. now apply bf_eq.
Qed.
Lemma sorted_app (l l' : list (list nat * X)) : StronglySorted lt2 l -> StronglySorted lt2 l' -> (forall a b, In a l -> In b l' -> lt2 a b) ->
  StronglySorted lt2 (l ++ l').
Proof.
  induction 1 as [|a l HS IH HF]; intros H' HX; [exact H'|]. cbn. constructor.
  - apply IH; [exact H'|]. intros; apply HX; [now right|assumption].
  - apply Forall_app. split; [exact HF|]. apply Forall_forall. intros b Hb. apply HX; [now left|exact Hb].
Qed.
Lemma places_sorted t : StronglySorted lt2 (places t).
Proof.
  induction t as [x|x l IH|x|x c IH] using sut_induct.
  - repeat constructor.
  - rewrite places_mod. constructor.
    + generalize 0%nat as k. induction IH as [|c l Hc _ IHl]; intros k; [constructor|]. cbn [kids]. apply sorted_app.
      * now apply sorted_map.
      * apply IHl.
      * intros a b Ha Hb. apply in_map_iff in Ha. destruct Ha as (y & <- & _). destruct (kids_head _ _ _ Hb) as (k' & q & E & L).
        unfold lt2. rewrite E. cbn. apply bf_lt. lia.
    + apply Forall_forall. intros b Hb. destruct (kids_head _ _ _ Hb) as (k' & q & E & L). unfold lt2. rewrite E. constructor.
  - repeat constructor.
  - cbn [places]. constructor; [now apply sorted_map|]. apply Forall_map. apply Forall_forall. intros b _. constructor.
Qed.
Lemma before_irrefl q : ~ before q q.
Proof. induction q as [|k q IH]; intros H; inversion H; subst; [lia|now apply IH]. Qed.
End Trees.

(** ** Traces *)
Section Traces.
Context {A : Type} {NA : Num A} {W : Type}.
Context (r : run_if A W).
Notation PE := (pev A).
Lemma runs_app w l w1 l' w2 : runs r w l w1 -> runs r w1 l' w2 -> runs r w (l ++ l') w2.
Proof. induction 1; [auto|]. intros H'. cbn. econstructor; eauto. Qed.
Lemma runs_split w l l' w2 : runs r w (l ++ l') w2 -> exists w1, runs r w l w1 /\ runs r w1 l' w2.
Proof.
  revert w. induction l as [|[e w1] l IH]; intros w H; [exists w; split; [constructor|exact H]|].
  cbn in H. inversion H; subst. destruct (IH _ H6) as (w3 & H1 & H2). exists w3. split; [econstructor; eauto|exact H2].
Qed.
(** From [w] the calls [l] can be made and lead to [w']. *)
Definition log (w : W) (l : list PE) (w' : W) : Prop := exists tr, map fst tr = l /\ runs r w tr w'.
Lemma log_nil w : log w [] w.
Proof. exists []. split; [reflexivity|constructor]. Qed.
Lemma log_one e w w' : does r e w w' -> log w [e] w'.
Proof. intros H. exists [(e, w')]. split; [reflexivity|]. econstructor; [exact H|constructor]. Qed.
Lemma log_app w l w1 l' w2 : log w l w1 -> log w1 l' w2 -> log w (l ++ l') w2.
Proof. intros (t & <- & H) (t' & <- & H'). exists (t ++ t'). split; [apply map_app|]. now apply (runs_app w t w1). Qed.
Lemma log_cons w e w1 l w2 : does r e w w1 -> log w1 l w2 -> log w (e :: l) w2.
Proof. intros H H'. apply (log_app w [e] w1); [now apply log_one|exact H']. Qed.

Lemma bind_ok {B C : Type} (m : M W B) (f : B -> M W C) w w2 c : mbind m f w = (w2, Ok c) -> exists w1 b, m w = (w1, Ok b) /\ f b w1 = (w2, Ok c).
Proof. unfold mbind. destruct (m w) as [w1 [b| | |]]; intros H; try discriminate. now exists w1, b. Qed.
Lemma bind_throw {B C : Type} (m : M W B) (f : B -> M W C) w w2 c :
  mbind m f w = (w2, Throw c) -> m w = (w2, Throw c) \/ exists w1 b, m w = (w1, Ok b) /\ f b w1 = (w2, Throw c).
Proof. unfold mbind. destruct (m w) as [w1 [b| | |]]; intros H; try discriminate; [right; now exists w1, b|left; now injection H as -> ->]. Qed.
Lemma due_ok i n w w' b : (0 <= i)%Z -> due (W := W) i n w = (w', Ok b) -> w' = w /\ n <> 0%Z /\ b = (i mod n =? 0)%Z.
Proof.
  intros Hi. unfold due. destruct (n =? 0)%Z eqn:E; [discriminate|]. apply Z.eqb_neq in E. intros [= <- <-].
  split; [reflexivity|]. split; [exact E|]. apply eq_true_iff_eq. rewrite !Z.eqb_eq. now rewrite Z.rem_divide, Z.mod_divide.
Qed.
Context (bal : bool).
Lemma lead_ok Ncheck Nbal i w w' : (0 <= i)%Z ->
  mbind (r_show r) (fun _ => balanceCheckup r bal i Nbal Ncheck) w = (w', Ok tt) -> log w (lead bal Ncheck Nbal i) w'.
Proof.
  intros Hi H. apply bind_ok in H. destruct H as (w1 & [] & E1 & H). unfold lead. eapply log_app; [apply log_one; exact E1|].
  unfold balanceCheckup in H. apply bind_ok in H. destruct H as (w2 & b & E2 & H). apply bind_ok in H. destruct H as (w3 & c & E3 & H).
  apply bind_ok in H. destruct H as (w4 & [] & E4 & H).
  destruct (due_ok _ _ _ _ _ Hi E3) as (-> & _ & ->).
  assert (Eb : w2 = w1 /\ b = bal && (i mod Nbal =? 0)%Z).
  { destruct bal; [destruct (due_ok _ _ _ _ _ Hi E2) as (-> & _ & ->); auto|]. injection E2 as <- <-. auto. }
  destruct Eb as [-> ->].
  apply (log_app _ _ w4).
  - destruct (bal && _); [now apply log_one|]. injection E4 as <-. apply log_nil.
  - destruct (_ =? 0)%Z; [now apply log_one|]. injection H as <-. apply log_nil.
Qed.
Lemma status_eqb_true a b : status_eqb a b = true -> a = b.
Proof. destruct a, b; cbn; intros H; try discriminate; reflexivity. Qed.
Lemma status_eqb_false a b : status_eqb a b = false -> a <> b.
Proof. intros H ->. destruct b; discriminate. Qed.
Ltac ok H w b := apply bind_ok in H; let E := fresh "E" in destruct H as (w & b & E & H).
Lemma one_cycle_ok i Ncheck Nbal testCV Icha Idis Vmax Vmin w w' go : (0 <= i)%Z ->
  one_cycle r bal i Ncheck Nbal testCV Icha Idis Vmax Vmin w = (w', Ok go) ->
  exists l, log w l w' /\ (if go then full_cycle bal Ncheck Nbal testCV Icha Idis Vmax Vmin i l
                           else given_up bal Ncheck Nbal testCV Icha Idis Vmax Vmin i l).
Proof.
  intros Hi H. unfold one_cycle in H.
  ok H w1 u1. ok H w2 u2. destruct u1, u2.
  assert (L : log w (lead bal Ncheck Nbal i) w2) by (apply lead_ok; [exact Hi|unfold mbind; now rewrite E]). clear E E0.
  ok H w3 a. ok H w4 s1.
  assert (L1 : forall s, s = s1 -> log w (lead bal Ncheck Nbal i ++ charge Icha Vmax a s) w4).
  { intros s ->. eapply log_app; [exact L|]. eapply log_cons; [exact E|]. now apply log_one. }
  destruct (isVoltageLimitReached s1) eqn:S1; unfold negb in H.
  2: { injection H as <- <-. exists (lead bal Ncheck Nbal i ++ charge Icha Vmax a s1). split; [now apply L1|]. apply up_charge. now apply status_eqb_false. }
  apply status_eqb_true in S1. specialize (L1 _ (eq_sym S1)). clear S1 L E E0.
  ok H w5 u5. destruct u5. ok H w6 b.
  assert (L2 : log w (lead bal Ncheck Nbal i ++ charge Icha Vmax a ReachedVoltageLimit ++ [KStore; KAh b]) w6).
  { rewrite app_assoc. eapply log_app; [exact L1|]. eapply log_cons; [exact E|]. now apply log_one. }
  clear L1 E E0.
  destruct (nltb (nsub b a) (nlit 1 100000)) eqn:LT.
  { injection H as <- <-. eexists. split; [exact L2|]. now apply up_little. }
  assert (NL : ~ little a b) by (unfold little; rewrite LT; discriminate).
  ok H w7 g1.
  assert (L3 : if g1 then log w (lead bal Ncheck Nbal i ++ charge Icha Vmax a ReachedVoltageLimit ++ [KStore; KAh b] ++
                                sure testCV (hold Vmax ReachedCurrentLimit ++ [KStore])) w7
               else exists l, log w l w7 /\ given_up bal Ncheck Nbal testCV Icha Idis Vmax Vmin i l).
  { destruct testCV.
    - ok E w8 s2. destruct (isCurrentLimitReached s2) eqn:S2; unfold negb in E.
      + apply status_eqb_true in S2. subst s2. ok E w9 u9. destruct u9. injection E as <- <-.
        replace (lead bal Ncheck Nbal i ++ charge Icha Vmax a ReachedVoltageLimit ++ [KStore; KAh b] ++ sure true (hold Vmax ReachedCurrentLimit ++ [KStore]))
          with ((lead bal Ncheck Nbal i ++ charge Icha Vmax a ReachedVoltageLimit ++ [KStore; KAh b]) ++ sure true (hold Vmax ReachedCurrentLimit ++ [KStore]))
          by now rewrite <- !app_assoc.
        eapply log_app; [exact L2|]. eapply log_cons; [exact E0|]. now apply log_one.
      + injection E as <- <-. exists ((lead bal Ncheck Nbal i ++ charge Icha Vmax a ReachedVoltageLimit ++ [KStore; KAh b]) ++ hold Vmax s2). split.
        * eapply log_app; [exact L2|]. now apply log_one.
        * rewrite <- !app_assoc. apply up_hold; auto. now apply status_eqb_false.
    - injection E as <- <-. cbn [sure]. now rewrite app_nil_r. }
  clear E L2. destruct g1; unfold negb in H; [|injection H as <- <-; exact L3].
  ok H w8 s3. ok H w9 u9. destruct u9.
  assert (L4 : forall s, s = s3 -> log w (lead bal Ncheck Nbal i ++ charge Icha Vmax a ReachedVoltageLimit ++ [KStore; KAh b] ++
                                sure testCV (hold Vmax ReachedCurrentLimit ++ [KStore]) ++ discharge Idis Vmin s) w9).
  { intros s ->.
    replace (lead bal Ncheck Nbal i ++ charge Icha Vmax a ReachedVoltageLimit ++ [KStore; KAh b] ++ sure testCV (hold Vmax ReachedCurrentLimit ++ [KStore]) ++ discharge Idis Vmin s3)
      with ((lead bal Ncheck Nbal i ++ charge Icha Vmax a ReachedVoltageLimit ++ [KStore; KAh b] ++ sure testCV (hold Vmax ReachedCurrentLimit ++ [KStore])) ++ discharge Idis Vmin s3)
      by now rewrite <- !app_assoc.
    eapply log_app; [exact L3|]. eapply log_cons; [exact E|]. now apply log_one. }
  destruct (isVoltageLimitReached s3) eqn:S3; unfold negb in H.
  2: { injection H as <- <-. eexists. split; [now apply L4|]. apply up_discharge; [exact NL|]. now apply status_eqb_false. }
  apply status_eqb_true in S3. specialize (L4 _ (eq_sym S3)). clear L3 E E0 S3.
  destruct testCV.
  - ok H w10 s4. destruct (isCurrentLimitReached s4) eqn:S4; unfold negb in H.
    + apply status_eqb_true in S4. subst s4. ok H w11 u. destruct u. injection H as <- <-.
      exists ((lead bal Ncheck Nbal i ++ charge Icha Vmax a ReachedVoltageLimit ++ [KStore; KAh b] ++
               sure true (hold Vmax ReachedCurrentLimit ++ [KStore]) ++ discharge Idis Vmin ReachedVoltageLimit) ++ sure true (hold Vmin ReachedCurrentLimit ++ [KStore])).
      split.
      * eapply log_app; [exact L4|]. eapply log_cons; [exact E|]. now apply log_one.
      * exists a, b. split; [exact NL|]. now rewrite <- !app_assoc.
    + injection H as <- <-.
      exists ((lead bal Ncheck Nbal i ++ charge Icha Vmax a ReachedVoltageLimit ++ [KStore; KAh b] ++
               sure true (hold Vmax ReachedCurrentLimit ++ [KStore]) ++ discharge Idis Vmin ReachedVoltageLimit) ++ hold Vmin s4).
      split.
      * eapply log_app; [exact L4|]. now apply log_one.
      * rewrite <- !app_assoc. apply up_low; auto. now apply status_eqb_false.
  - injection H as <- <-. eexists. split; [exact L4|]. exists a, b. split; [exact NL|]. cbn [sure]. now rewrite app_nil_r.
Qed.
Lemma cycles_ok Ncheck Nbal testCV Icha Idis Vmax Vmin todo : forall i w w', (0 <= i)%Z ->
  cycles r bal todo i Ncheck Nbal testCV Icha Idis Vmax Vmin w = (w', Ok tt) ->
  exists ls last, log w (concat ls ++ last) w' /\
    (forall k c, nth_error ls k = Some c -> full_cycle bal Ncheck Nbal testCV Icha Idis Vmax Vmin (i + Z.of_nat k) c) /\
    ((length ls = todo /\ last = []) \/
     ((length ls < todo)%nat /\ given_up bal Ncheck Nbal testCV Icha Idis Vmax Vmin (i + Z.of_nat (length ls)) last)).
Proof.
  induction todo as [|td IH]; intros i w w' Hi H.
  - injection H as <-. exists [], []. split; [apply log_nil|]. split; [|left; auto]. intros [|k] c; discriminate.
  - cbn [cycles] in H. ok H w1 go. destruct (one_cycle_ok _ _ _ _ _ _ _ _ _ _ _ Hi E) as (l & L & HL). destruct go.
    + destruct (IH (i + 1)%Z w1 w' ltac:(lia) H) as (ls & last & L' & HF & HE).
      exists (l :: ls), last. split; [cbn; rewrite <- app_assoc; now apply (log_app w l w1)|]. split.
      * intros [|k] c; cbn.
        -- intros [= <-]. now rewrite Z.add_0_r.
        -- intros Ek. specialize (HF _ _ Ek). now replace (i + Z.pos (Pos.of_succ_nat k))%Z with (i + 1 + Z.of_nat k)%Z by lia.
      * destruct HE as [[<- ->]|[HL' HG]]; [now left|]. right. split; [cbn; lia|].
        cbn [length]. now replace (i + Z.of_nat (Datatypes.S (length ls)))%Z with (i + 1 + Z.of_nat (length ls))%Z by lia.
    + injection H as <-. exists [], l. split; [exact L|]. split; [intros [|k] c; discriminate|]. right. split; [cbn; lia|]. now rewrite Z.add_0_r.
Qed.
Lemma cycleAge_ok Ncycle Ncheck Nbal testCV Ccha Cdis Vmax Vmin w w' :
  cycleAge r bal Ncycle Ncheck Nbal testCV Ccha Cdis Vmax Vmin w = (w', Ok tt) ->
  exists ca cb l, log w ([KCap ca; KCap cb] ++ l ++ [KFinal Ncycle]) w' /\
    aged bal Ncheck Nbal testCV (nmul (nopp Ccha) ca) (nmul Cdis cb) Vmax Vmin Ncycle l.
Proof.
  intros H. unfold cycleAge in H. ok H w1 ca. ok H w2 cb. ok H w3 u. destruct u.
  destruct (cycles_ok _ _ _ _ _ _ _ _ 0%Z _ _ ltac:(lia) E1) as (ls & last & L & HF & HE).
  exists ca, cb, (concat ls ++ last). split; [|now exists ls, last].
  apply (log_app _ _ w2); [eapply log_cons; [exact E|]; now apply log_one|]. eapply log_app; [exact L|]. now apply log_one.
Qed.

(** Every call returns. *)
Definition returns {B : Type} (m : M W B) : Prop := forall w, exists w' b, m w = (w', Ok b).
Lemma ret_bind {B C : Type} (m : M W B) (f : B -> M W C) : returns m -> (forall b, returns (f b)) -> returns (mbind m f).
Proof. intros Hm Hf w. unfold mbind. destruct (Hm w) as (w1 & b & ->). apply Hf. Qed.
Lemma ret_ret {B : Type} (b : B) : returns (mret b).
Proof. intros w. now exists w, b. Qed.
Lemma ret_due i n : n <> 0%Z -> returns (due i n).
Proof. intros Hn w. unfold due. apply Z.eqb_neq in Hn. rewrite Hn. eauto. Qed.
Hypothesis R1 : returns (r_show r).
Hypothesis R2 : returns (r_cap r).
Hypothesis R3 : returns (r_Ah r).
Hypothesis R4 : forall i v, returns (r_CC r i v).
Hypothesis R5 : forall v i, returns (r_CV r v i).
Hypothesis R6 : forall t, returns (r_rest r t).
Hypothesis R7 : returns (r_store r).
Hypothesis R8 : returns (r_balance r).
Hypothesis R9 : forall i, returns (r_check r i).
Hypothesis R10 : forall n, returns (r_final r n).
Ltac rt := repeat first [apply ret_bind; [|intros] | apply ret_ret | assumption | apply R4 | apply R5 | apply R6 | apply R9 | apply R10 |
  match goal with |- returns (if ?b then _ else _) => destruct b end].
Lemma ret_lead i Nbal Ncheck : Ncheck <> 0%Z -> (bal = true -> Nbal <> 0%Z) -> returns (balanceCheckup r bal i Nbal Ncheck).
Proof.
  intros H1 H2. unfold balanceCheckup. apply ret_bind; [destruct bal; [apply ret_due; auto|apply ret_ret]|]. intros b.
  apply ret_bind; [now apply ret_due|]. intros c. rt.
Qed.
Lemma ret_cycle i Ncheck Nbal testCV Icha Idis Vmax Vmin : Ncheck <> 0%Z -> (bal = true -> Nbal <> 0%Z) ->
  returns (one_cycle r bal i Ncheck Nbal testCV Icha Idis Vmax Vmin).
Proof. intros H1 H2. unfold one_cycle. apply ret_bind; [assumption|]. intros _. apply ret_bind; [now apply ret_lead|]. intros _. rt. Qed.
Lemma ret_cycles Ncheck Nbal testCV Icha Idis Vmax Vmin todo : Ncheck <> 0%Z -> (bal = true -> Nbal <> 0%Z) ->
  forall i, returns (cycles r bal todo i Ncheck Nbal testCV Icha Idis Vmax Vmin).
Proof.
  intros H1 H2. induction todo as [|td IH]; intros i; [apply ret_ret|]. cbn [cycles]. apply ret_bind; [now apply ret_cycle|].
  intros [|]; [apply IH|apply ret_ret].
Qed.
Lemma ret_cycleAge Ncycle Ncheck Nbal testCV Ccha Cdis Vmax Vmin : Ncheck <> 0%Z -> (bal = true -> Nbal <> 0%Z) ->
  returns (cycleAge r bal Ncycle Ncheck Nbal testCV Ccha Cdis Vmax Vmin).
Proof.
  intros H1 H2. unfold cycleAge. apply ret_bind; [assumption|]. intros c1. apply ret_bind; [assumption|]. intros c2.
  apply ret_bind; [now apply ret_cycles|]. intros _. apply R10.
Qed.
End Traces.
