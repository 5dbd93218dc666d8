(** * Proofs about the cycler: a weakest-precondition calculus over the observer's log *)
From Coq Require Import Reals Lra.
From Verif Require Import Base RFacts StatusModel CellModel CoolModel ModuleModel CyclerModel CyclerSpec.

Section WP.
Context {A : Type} {NA : Num A} {S : Type}.
Notation W := (cyc A (S * list (event A))).
Notation L := (list (event A)).

Definition notok {B : Type} (r : res B) : Prop := match r with Ok _ => False | _ => True end.

Definition wp {B : Type} (m : M W B) (Q : L -> th A -> res B -> Prop) (l : L) (t : th A) : Prop :=
  forall s i, Q (snd (c_su (fst (m (mkCyc (s, l) i t))))) (c_th (fst (m (mkCyc (s, l) i t)))) (snd (m (mkCyc (s, l) i t))).

Lemma wp_conseq {B : Type} (m : M W B) (Q Q' : L -> th A -> res B -> Prop) l t :
  wp m Q l t -> (forall l' t' r, Q l' t' r -> Q' l' t' r) -> wp m Q' l t.
Proof. intros H HQ s i. apply HQ, H. Qed.

Lemma wp_ret {B : Type} (b : B) (Q : L -> th A -> res B -> Prop) l t : Q l t (Ok b) -> wp (mret b) Q l t.
Proof. intros H s i. exact H. Qed.

Lemma wp_throw {B : Type} c (Q : L -> th A -> res B -> Prop) l t : Q l t (Throw c) -> wp (mthrow c) Q l t.
Proof. intros H s i. exact H. Qed.

Lemma wp_bind {B C : Type} (m : M W B) (f : B -> M W C) (Q : L -> th A -> res C -> Prop) l t :
  wp m (fun l' t' r => match r with Ok b => wp (f b) Q l' t' | e => Q l' t' (cast e) end) l t ->
  wp (mbind m f) Q l t.
Proof.
  intros H s i. specialize (H s i). unfold mbind.
  destruct (m (mkCyc (s, l) i t)) as [[[s' l'] i' t'] r]; cbn [fst snd c_su c_th] in H.
  destruct r; cbn [fst snd c_su c_th]; [apply H| | |]; exact H.
Qed.

Lemma wp_call {B : Type} (f : M S B) (ok : B -> L) ko (Q : L -> th A -> res B -> Prop) l t :
  (forall s s' b, f s = (s', Ok b) -> Q (l ++ ok b) t (Ok b)) ->
  (forall e, notok e -> Q (l ++ [ko]) t e) ->
  wp (call (observe f ok ko)) Q l t.
Proof.
  intros H1 H2 s i. unfold call, observe. cbn [c_su fst snd].
  destruct (f s) as [s' r] eqn:E.
  destruct r; cbn [fst snd c_su c_th]; [eapply H1; exact E| | |]; apply H2; exact I.
Qed.

Lemma wp_try {B : Type} (m h : M W B) (Q : L -> th A -> res B -> Prop) l t :
  wp m (fun l' t' r => match r with Throw _ => wp h Q l' t' | e => Q l' t' e end) l t ->
  wp (try m h) Q l t.
Proof.
  intros H s i. specialize (H s i). unfold try.
  destruct (m (mkCyc (s, l) i t)) as [[[s' l'] i' t'] r]; cbn [fst snd c_su c_th] in H.
  destruct r; cbn [fst snd c_su c_th]; try exact H. apply H.
Qed.

Definition quiet (l : L) : Prop := Forall (fun e => e = EStore \/ e = EWrite) l.

Lemma wp_store (o : unit_if A S) nmax (Q : L -> th A -> res unit -> Prop) l t :
  (forall l', quiet l' -> Q (l ++ l' ++ [EStore]) t (Ok tt)) ->
  (forall l' e, quiet l' -> notok e -> Q (l ++ l' ++ [EErr]) t e) ->
  wp (storeData (logged o) nmax) Q l t.
Proof.
  intros H1 H2 s i. unfold storeData, mbind. cbn [c_idx].
  assert (HS : forall s1 i1 l', quiet l' ->
    forall (k := (fun w : W => (mkCyc (c_su w) (c_idx w + 1) (c_th w), Ok tt)))
           (x := match call (q_store (logged o)) (mkCyc (s1, l ++ l') i1 t) with
                 | (s', Ok _) => k s' | (s', Throw n) => (s', Throw n) | (s', UB) => (s', UB) | (s', Fuel) => (s', Fuel) end),
      Q (snd (c_su (fst x))) (c_th (fst x)) (snd x)).
  { intros s1 i1 l' Hl'. cbn zeta. unfold call. cbn [c_su c_idx c_th q_store logged]. unfold observe; cbn [fst snd].
    destruct (q_store o s1) as [s2 r]; destruct r; cbn [fst snd c_su c_th]; rewrite <- app_assoc;
      [apply H1; assumption| | |]; (apply H2; [assumption|exact I]). }
  destruct (Nat.leb nmax i).
  - unfold writeData. cbn [c_su c_idx c_th q_write logged]. unfold observe; cbn [fst snd].
    destruct (q_write o s) as [s' r]. destruct r as [u| | |].
    + refine (HS s' 0%nat [EWrite] _). constructor; [now right|constructor].
    + cbn [fst snd c_su c_th]. apply (H2 []); [constructor|exact I].
    + cbn [fst snd c_su c_th]. apply (H2 []); [constructor|exact I].
    + cbn [fst snd c_su c_th]. apply (H2 []); [constructor|exact I].
  - cbn [mret]. refine (_ (HS s i [] _)); [|constructor]. rewrite app_nil_r. exact (fun x => x).
Qed.

Lemma wp_store_if (o : unit_if A S) nmax b (Q : L -> th A -> res unit -> Prop) l t :
  (forall l', quiet l' -> Q (l ++ l') t (Ok tt)) ->
  (forall l' e, quiet l' -> notok e -> Q (l ++ l' ++ [EErr]) t e) ->
  wp (store_if (logged o) nmax b) Q l t.
Proof.
  intros H1 H2. destruct b; cbn [store_if].
  - apply wp_store; [|assumption]. intros l' Hl'. apply H1. apply Forall_app; split; [assumption|]. constructor; [now left|constructor].
  - apply wp_ret. rewrite <- (app_nil_r l) at 1. apply H1. constructor.
Qed.

Lemma wp_store_due (o : unit_if A S) nmax idat ndt (Q : L -> th A -> res Z -> Prop) l t :
  (forall l' z, quiet l' -> Q (l ++ l') t (Ok z)) ->
  (forall l' e, quiet l' -> notok e -> Q (l ++ l' ++ [EErr]) t e) ->
  wp (store_due (logged o) nmax idat ndt) Q l t.
Proof.
  intros H1 H2. unfold store_due. destruct ((0 <? ndt)%Z && (ndt <=? idat)%Z).
  - apply wp_bind, wp_store.
    + intros l' Hl'. apply wp_ret, H1. apply Forall_app; split; [assumption|]. constructor; [now left|constructor].
    + intros l' e Hl' He. destruct e; [destruct He| | |]; (apply H2; [assumption|exact I]).
  - apply wp_ret. rewrite <- (app_nil_r l) at 1. apply H1. constructor.
Qed.

Lemma wp_add_th a b c (Q : L -> th A -> res unit -> Prop) l t :
  Q l (mkTh (nadd (th_time t) a) (nadd (th_Ah t) b) (nadd (th_Wh t) c)) (Ok tt) -> wp (add_th a b c) Q l t.
Proof. intros H s i. exact H. Qed.
Lemma wp_add_charge b c (Q : L -> th A -> res unit -> Prop) l t :
  Q l (mkTh (th_time t) (nadd (th_Ah t) b) (nadd (th_Wh t) c)) (Ok tt) -> wp (add_charge b c) Q l t.
Proof. intros H s i. exact H. Qed.
Lemma wp_set_th t' (Q : L -> th A -> res unit -> Prop) l t : Q l t' (Ok tt) -> wp (set_th t') Q l t.
Proof. intros H s i. exact H. Qed.
Lemma wp_with_th {B : Type} (m : M W B) (Q : L -> th A -> res (B * th A) -> Prop) l t :
  wp m (fun l' t' r => match r with Ok b => Q l' t (Ok (b, t')) | e => Q l' t (cast e) end) l th0 -> wp (with_th m) Q l t.
Proof.
  intros H s i. specialize (H s i). unfold with_th. cbn [c_su c_idx c_th].
  destruct (m (mkCyc (s, l) i th0)) as [[[s' l'] i' t'] r]; cbn [fst snd c_su c_th] in H.
  destruct r; exact H.
Qed.

Lemma failed_last_err (l : L) : failed_last (l ++ [EErr]).
Proof. exists l, EErr. auto. Qed.
Lemma failed_last_tried (l : L) d n : failed_last (l ++ [ETried d n]).
Proof. exists l, (ETried d n). split; [reflexivity|]. right. eauto. Qed.

(** [steps_under] along a growing log *)
Lemma before_snoc (P : L -> Prop) (l : L) e : before_steps P l -> is_step e = false -> before_steps P (l ++ [e]).
Proof.
  intros H He l1 d n l2 E.
  induction l2 as [|x l2' _] using rev_ind.
  - apply app_inj_tail in E. destruct E as [_ ->]. discriminate.
  - rewrite app_comm_cons, app_assoc in E. apply app_inj_tail in E. destruct E as [E _]. eapply H, E.
Qed.
Lemma before_step (P : L -> Prop) (l : L) d n : before_steps P l -> P l -> before_steps P (l ++ [EStep d n]).
Proof.
  intros H HP l1 d' n' l2 E.
  induction l2 as [|x l2' _] using rev_ind.
  - apply app_inj_tail in E. destruct E as [<- _]. assumption.
  - rewrite app_comm_cons, app_assoc in E. apply app_inj_tail in E. destruct E as [E _]. eapply H, E.
Qed.
Lemma before_app (P : L -> Prop) (l l' : L) : before_steps P l -> Forall (fun e => is_step e = false) l' -> before_steps P (l ++ l').
Proof.
  intros H. induction l' as [|e l' IH] using rev_ind; intros HF; [now rewrite app_nil_r|].
  apply Forall_app in HF. destruct HF as [HF He]. rewrite app_assoc. apply before_snoc; [now apply IH|now inversion He].
Qed.
Lemma before_nil (P : L -> Prop) : before_steps P [].
Proof. intros l1 d n l2 E. destruct l1; discriminate. Qed.
Lemma steps_under_snoc i (l : L) e : steps_under i l -> is_step e = false -> steps_under i (l ++ [e]).
Proof. apply before_snoc. Qed.
Lemma steps_under_step i (l : L) st d n : steps_under i l -> isStatusBad st = false -> steps_under i (l ++ [ESet i st] ++ [EStep d n]).
Proof. intros H Hst. rewrite app_assoc. apply before_step; [now apply before_snoc|]. exists l, st. now split. Qed.
Lemma steps_under_app i (l l' : L) : steps_under i l -> Forall (fun e => is_step e = false) l' -> steps_under i (l ++ l').
Proof. apply before_app. Qed.
Lemma quiet_nostep (l : L) : quiet l -> Forall (fun e => is_step e = false) l.
Proof. intros H. eapply Forall_impl; [|exact H]. intros e [->| ->]; reflexivity. Qed.
Lemma steps_under_nil i : steps_under i ([] : L).
Proof. apply before_nil. Qed.
End WP.

(** ** Over the reals *)
Local Open Scope R_scope.
Notation RL := (list (event R)).

Lemma elapsed_app (a b : RL) : elapsed (a ++ b) = elapsed a + elapsed b.
Proof. induction a as [|e a IH]; cbn [app elapsed]; [lra|]. destruct e; rewrite ?IH; lra. Qed.
Lemma elapsed_quiet (l : RL) : quiet l -> elapsed l = 0.
Proof. induction 1 as [|e l [->| ->] _ IH]; cbn [elapsed]; auto. Qed.

Lemma steps_within_app dt nmax (a b : RL) : steps_within dt nmax a -> steps_within dt nmax b -> steps_within dt nmax (a ++ b).
Proof. intros Ha Hb d n H. rewrite !in_app_iff in H. destruct H as [[H|H]|[H|H]]; [apply Ha|apply Hb|apply Ha|apply Hb]; auto. Qed.
Lemma steps_within_none dt nmax (l : RL) : (forall d n, ~ In (EStep d n) l) -> (forall d n, ~ In (ETried d n) l) -> steps_within dt nmax l.
Proof. intros H1 H2 d n [H|H]; [destruct (H1 _ _ H)|destruct (H2 _ _ H)]. Qed.
Lemma steps_within_quiet dt nmax (l : RL) : quiet l -> steps_within dt nmax l.
Proof.
  intros Hq. apply steps_within_none; intros d n H; eapply Forall_forall in H; try eassumption; cbn in H; destruct H; discriminate.
Qed.
Lemma elapsed_nonneg dt nmax (l : RL) : steps_within dt nmax l -> 0 <= elapsed l.
Proof.
  induction l as [|e l IH]; intros H; cbn [elapsed]; [lra|].
  assert (H' : steps_within dt nmax l) by (intros d n [Hi|Hi]; apply H; [left|right]; now right).
  specialize (IH H'). destruct e; try assumption.
  destruct (H dt0 n) as [Hd Hn]; [left; now left|]. assert (1 <= IZR n) by (apply IZR_le; lia). nra.
Qed.
Lemma steps_within_one dt nmax d n : 0 < d <= dt -> (1 <= n <= nmax)%Z -> steps_within dt nmax [EStep d n].
Proof. intros Hd Hn d' n' [[E|[]]|[E|[]]]; inversion E; subst; auto. Qed.
Lemma steps_within_tried dt nmax d n : 0 < d <= dt -> (1 <= n <= nmax)%Z -> steps_within dt nmax [ETried d n].
Proof. intros Hd Hn d' n' [[E|[]]|[E|[]]]; inversion E; subst; auto. Qed.
Lemma steps_within_other dt nmax (e : event R) : is_step e = false -> (forall d n, e <> ETried d n) -> steps_within dt nmax [e].
Proof. intros H1 H2. apply steps_within_none; intros d n [E|[]]; subst; [discriminate|eapply H2; reflexivity]. Qed.

Lemma zclamp_range v nmax : (1 <= nmax -> 1 <= zclamp v 1 nmax <= nmax)%Z.
Proof. unfold zclamp. intros. destruct (Z.ltb_spec v 1); [lia|]. destruct (Z.ltb_spec nmax v); lia. Qed.

(** The step chosen never overshoots and is never shorter than it must be. *)
Lemma cut_facts nOnce dti left : (1 <= nOnce)%Z -> 0 < dti -> 0 < left ->
  let n := cut_n nOnce dti left in let d := cut_dt dti left in
  (1 <= n <= nOnce)%Z /\ 0 < d <= dti /\ d * IZR n <= left /\ (d = dti \/ (d * IZR n = left)) /\ (d * IZR n >= dti \/ d * IZR n = left).
Proof.
  intros Hn Hd Hl n d. subst n d. unfold cut_n, cut_dt. rewrite R_nZ. cbn [nmul nltb RNum].
  assert (1 <= IZR nOnce) by (apply IZR_le; lia).
  destruct (Rlt_dec left (IZR nOnce * dti)); destruct (Rlt_dec left dti).
  - split; [lia|]. split; [lra|]. split; [lra|]. split; right; lra.
  - split; [lia|]. split; [lra|]. split; [lra|]. split; left; lra.
  - exfalso; nra.
  - split; [lia|]. split; [lra|]. split; [lra|]. split; left; nra.
Qed.

Section Rest.
Context {S : Type} (o : unit_if R S) (nmaxd : nat).

Lemma rest_loop_spec (tlim dt : R) ndt nmax : 0 < dt -> (1 <= nmax)%Z ->
  forall fuel dti ttot idat nOnce ninc l t,
  0 < dti <= dt -> (dti = dt \/ ttot = tlim) -> ttot <= tlim -> (1 <= nOnce <= nmax)%Z ->
  tlim - ttot <= dt * INR fuel ->
  elapsed l = ttot -> steps_within dt nmax l -> steps_under 0 l ->
  wp (rest_loop (logged o) nmaxd fuel tlim ndt nmax dti ttot idat nOnce ninc)
     (fun l' t' r => t' = t /\ steps_within dt nmax l' /\ steps_under 0 l' /\ elapsed l' <= tlim /\
        match r with
        | Ok (inl st) => isStatusBad st = true
        | Ok (inr x) => x = tlim /\ elapsed l' = tlim
        | _ => failed_last l'
        end) l t.
Proof.
  intros Hdt Hnm fuel. induction fuel as [|f IH]; intros dti ttot idat nOnce ninc l t Hdti Hor Hle Hn Hf Hel Hsw Hsu.
  - assert (Et : ttot = tlim) by (cbn [INR] in Hf; lra).
    unfold rest_loop. rewrite (proj2 (Rltb_false ttot tlim)) by lra. cbn [negb].
    apply wp_ret. do 3 (split; [assumption || reflexivity|]). split; lra.
  - cbn [rest_loop]. destruct (nltb ttot tlim) eqn:Elt; cbn [negb].
    2: { apply Rltb_false in Elt. assert (ttot = tlim) by lra. apply wp_ret. do 3 (split; [assumption || reflexivity|]). split; lra. }
    apply Rltb_true in Elt. destruct Hor as [->|]; [|lra].
    rewrite S_INR in Hf.
    apply wp_bind. cbn [logged q_setCurrent]. rewrite R_nZ. apply wp_call.
    2: { intros e He. 
         assert (HQ : t = t /\ steps_within dt nmax (l ++ [EErr]) /\ steps_under 0 (l ++ [EErr]) /\ elapsed (l ++ [EErr]) <= tlim /\ failed_last (l ++ [EErr])).
         { split; [reflexivity|]. split; [apply steps_within_app; [assumption|apply steps_within_other; [reflexivity|discriminate]]|].
           split; [apply steps_under_snoc; [assumption|reflexivity]|]. rewrite elapsed_app. cbn. split; [lra|apply failed_last_err]. }
         destruct e; [destruct He| | |]; exact HQ. }
    intros s0 s1 st _.
    assert (Hsw1 : steps_within dt nmax (l ++ [ESet 0 st])).
    { apply steps_within_app; [assumption|apply steps_within_other; [reflexivity|discriminate]]. }
    assert (Hsu1 : steps_under 0 (l ++ [ESet 0 st])) by (apply steps_under_snoc; [assumption|reflexivity]).
    assert (Hel1 : elapsed (l ++ [ESet 0 st]) = ttot) by (rewrite elapsed_app; cbn; lra).
    destruct (isStatusBad st) eqn:Ebad.
    { apply wp_ret. do 3 (split; [assumption || reflexivity|]). split; [lra|assumption]. }
    cbn [nsub RNum].
    set (n := cut_n nOnce dt (tlim - ttot)). set (d := cut_dt dt (tlim - ttot)).
    destruct (cut_facts nOnce dt (tlim - ttot)) as [Hcn [Hcd [Hcl [Hcs Hcp]]]]; [lia|lra|lra|].
    fold n in Hcn, Hcl, Hcs, Hcp. fold d in Hcd, Hcl, Hcs, Hcp.
    apply wp_bind. cbn [logged q_step]. apply wp_call.
    2: { intros e He.
         assert (HQ : t = t /\ steps_within dt nmax ((l ++ [ESet 0 st]) ++ [ETried d n]) /\ steps_under 0 ((l ++ [ESet 0 st]) ++ [ETried d n])
                 /\ elapsed ((l ++ [ESet 0 st]) ++ [ETried d n]) <= tlim /\ failed_last ((l ++ [ESet 0 st]) ++ [ETried d n])).
         { split; [reflexivity|]. split; [apply steps_within_app; [assumption|apply steps_within_tried; [lra|lia]]|].
           split; [apply steps_under_snoc; [assumption|reflexivity]|]. rewrite elapsed_app. cbn. split; [lra|apply failed_last_tried]. }
         destruct e; [destruct He| | |]; exact HQ. }
    intros s2 s3 u _.
    set (l1 := (l ++ [ESet 0 st]) ++ [EStep d n]).
    assert (Hsw2 : steps_within dt nmax l1) by (apply steps_within_app; [assumption|apply steps_within_one; [lra|lia]]).
    assert (Hsu2 : steps_under 0 l1) by (unfold l1; rewrite <- app_assoc; apply steps_under_step; assumption).
    assert (Hel2 : elapsed l1 = ttot + d * IZR n) by (unfold l1; rewrite elapsed_app; cbn [elapsed]; lra).
    cbn [nadd nmul RNum]. rewrite !R_nZ.
    apply wp_bind, wp_store_due.
    2: { intros l' e Hl' He.
         assert (HQ : t = t /\ steps_within dt nmax (l1 ++ l' ++ [EErr]) /\ steps_under 0 (l1 ++ l' ++ [EErr])
                 /\ elapsed (l1 ++ l' ++ [EErr]) <= tlim /\ failed_last (l1 ++ l' ++ [EErr])).
         { split; [reflexivity|]. split.
           { apply steps_within_app; [assumption|]. apply steps_within_app; [now apply steps_within_quiet|apply steps_within_other; [reflexivity|discriminate]]. }
           split. { apply steps_under_app; [assumption|]. apply Forall_app; split; [now apply quiet_nostep|repeat constructor]. }
           rewrite !elapsed_app, (elapsed_quiet l') by assumption. cbn. split; [lra|].
           rewrite app_assoc. apply failed_last_err. }
         destruct e; [destruct He| | |]; exact HQ. }
    intros l' z Hl'.
    destruct (rest_adapt n ninc _ d) as [n' ninc'].
    apply IH.
    + lra.
    + destruct Hcs as [Hcs|Hcs]; [left; assumption|right; lra].
    + lra.
    + apply zclamp_range; lia.
    + pose proof (pos_INR f). destruct Hcp as [Hcp|Hcp]; nra.
    + rewrite elapsed_app, (elapsed_quiet l') by assumption. lra.
    + apply steps_within_app; [assumption|now apply steps_within_quiet].
    + apply steps_under_app; [assumption|now apply quiet_nostep].
Qed.

Lemma rest_spec (tlim dt : R) ndt fuel t : 0 < dt -> 0 <= tlim -> tlim <= dt * INR fuel ->
  wp (rest (logged o) nmaxd fuel tlim dt ndt)
     (fun l' t' r => steps_within dt (if (0 <? ndt)%Z then Z.min 10 ndt else 10%Z) l' /\ steps_under 0 l' /\ elapsed l' <= tlim /\
        match r with
        | Ok st => (st = ReachedTimeLimit /\ elapsed l' = tlim /\ th_time t' = th_time t + tlim /\ th_Ah t' = th_Ah t /\ th_Wh t' = th_Wh t) \/
                   (isStatusBad st = true /\ t' = t)
        | _ => failed_last l' /\ t' = t
        end) [] t.
Proof.
  intros Hdt Ht Hf. unfold rest. set (nmax := if (0 <? ndt)%Z then Z.min 10 ndt else 10%Z).
  assert (Hnm : (1 <= nmax)%Z) by (unfold nmax; destruct (Z.ltb_spec 0 ndt); lia).
  assert (HF : forall l l', steps_within dt nmax l -> steps_under 0 l -> elapsed l <= tlim -> quiet l' ->
            forall t', t' = t ->
            steps_within dt nmax (l ++ l' ++ [EErr]) /\ steps_under 0 (l ++ l' ++ [EErr]) /\ elapsed (l ++ l' ++ [EErr]) <= tlim /\ failed_last (l ++ l' ++ [EErr]) /\ t' = t).
  { intros l l' H1 H2 H3 Hl' t' ->. split.
    { apply steps_within_app; [assumption|]. apply steps_within_app; [now apply steps_within_quiet|apply steps_within_other; [reflexivity|discriminate]]. }
    split. { apply steps_under_app; [assumption|]. apply Forall_app; split; [now apply quiet_nostep|repeat constructor]. }
    rewrite !elapsed_app, (elapsed_quiet l') by assumption. cbn. split; [lra|]. split; [|reflexivity].
    rewrite app_assoc. apply failed_last_err. }
  assert (H0 : steps_within dt nmax [] /\ steps_under 0 ([] : RL) /\ elapsed [] <= tlim).
  { split; [intros d n [[]|[]]|]. split; [apply steps_under_nil|cbn; lra]. }
  destruct H0 as [Ha [Hb Hc]].
  apply wp_bind, wp_store_if.
  2: { intros l' e Hl' He. destruct e; [destruct He| | |]; (apply (HF [] l'); auto). }
  intros l' Hl'. cbn [app].
  apply wp_bind. eapply wp_conseq.
  { apply rest_loop_spec with (dt := dt); try assumption; try (left; reflexivity); try (now apply steps_within_quiet); rewrite ?R_nZ; try lra; try lia.
    - now apply elapsed_quiet.
    - apply (steps_under_app 0 []); [apply steps_under_nil|now apply quiet_nostep]. }
  cbn beta. intros l1 t1 r [-> [H1 [H2 [H3 H4]]]].
  destruct r as [[st|x]| | |]; try (split; [assumption|]; split; [assumption|]; split; [assumption|]; split; [assumption|reflexivity]).
  - apply wp_ret. split; [assumption|]; split; [assumption|]; split; [assumption|]. right; auto.
  - destruct H4 as [-> H4].
    rewrite (proj2 (Rleb_true tlim tlim)) by lra.
    match goal with |- context [nltb ?a ?b] => rewrite (proj2 (Rltb_true a b)) by (cbn [nabs nsub RNum]; rewrite R_nZ, Rminus_diag_eq, Rabs_R0 by reflexivity; lra) end.
    cbn [andb]. apply wp_bind. cbn [logged q_setCurrent]. rewrite R_nZ. apply wp_call.
    2: { intros e He. destruct e; [destruct He| | |]; (apply (HF l1 []); auto; constructor). }
    intros s0 s1 st _.
    assert (Hs1 : steps_within dt nmax (l1 ++ [ESet 0 st])).
    { apply steps_within_app; [assumption|apply steps_within_other; [reflexivity|discriminate]]. }
    assert (Hs2 : steps_under 0 (l1 ++ [ESet 0 st])) by (apply steps_under_snoc; [assumption|reflexivity]).
    assert (Hs3 : elapsed (l1 ++ [ESet 0 st]) = tlim) by (rewrite elapsed_app; cbn; lra).
    apply wp_bind, wp_store_if.
    2: { intros l2 e Hl2 He. destruct e; [destruct He| | |]; (apply HF; auto; lra). }
    intros l2 Hl2. apply wp_bind, wp_add_th, wp_ret. cbn [nadd RNum]. rewrite ?R_nZ.
    split; [apply steps_within_app; [assumption|now apply steps_within_quiet]|].
    split; [apply steps_under_app; [assumption|now apply quiet_nostep]|].
    rewrite elapsed_app, (elapsed_quiet l2) by assumption. split; [lra|].
    left. split; [reflexivity|]. cbn [th_time th_Ah th_Wh]. repeat split; lra.
Qed.
End Rest.

(** ** CC *)
Definition passive (e : event R) : Prop := match e with EStep _ _ | ETried _ _ => False | _ => True end.
Definition closed (l : RL) : Prop := is_step (last l EErr) = false.

Lemma closed_snoc l e : is_step e = false -> closed (l ++ [e]).
Proof. intros H. unfold closed. now rewrite last_last. Qed.
Lemma closed_app l l' : closed l -> Forall passive l' -> closed (l ++ l').
Proof.
  intros H. induction l' as [|e l' _] using rev_ind; intros HF; [now rewrite app_nil_r|].
  rewrite app_assoc. apply closed_snoc. apply Forall_app in HF. destruct HF as [_ HF]. inversion HF as [|? ? Hp _]; subst. now destruct e.
Qed.
Lemma closed_nil : closed [].
Proof. reflexivity. Qed.
Lemma closed_cons e l : closed (e :: l) -> l <> [] -> closed l.
Proof. unfold closed. destruct l; [contradiction|]. intros H _. exact H. Qed.

Lemma quiet_passive (l : RL) : quiet l -> Forall passive l.
Proof. intros H. eapply Forall_impl; [|exact H]. intros e [->| ->]; exact I. Qed.
Lemma passive_nostep l : Forall passive l -> Forall (fun e : event R => is_step e = false) l.
Proof. intros H. eapply Forall_impl; [|exact H]. intros []; auto; intros []. Qed.
Lemma elapsed_passive l : Forall passive l -> elapsed l = 0.
Proof. induction 1 as [|e l He _ IH]; [reflexivity|]. destruct e; cbn [elapsed]; auto; destruct He. Qed.
Lemma steps_within_passive dt nmax l : Forall passive l -> steps_within dt nmax l.
Proof. intros H d n [Hi|Hi]; eapply Forall_forall in Hi; try eassumption; destruct Hi. Qed.
Lemma cc_energy_app i a b : closed a -> cc_energy i (a ++ b) = cc_energy i a + cc_energy i b.
Proof.
  induction a as [|e a IH]; intros H; cbn [app cc_energy]; [lra|].
  destruct a as [|e2 a'].
  - destruct e; cbn [cc_energy app]; try lra. discriminate H.
  - assert (IH' := IH (closed_cons _ _ H ltac:(discriminate))). destruct e; rewrite ?IH'; try reflexivity.
    cbn [app]. lra.
Qed.
Lemma cc_energy_passive i l : Forall passive l -> cc_energy i l = 0.
Proof. induction 1 as [|e l He _ IH]; [reflexivity|]. destruct e; cbn [cc_energy]; auto; destruct He. Qed.
Lemma ends_app a b : closed a -> ends (a ++ b) = ends a ++ ends b.
Proof.
  induction a as [|e a IH]; intros H; cbn [app ends]; [reflexivity|].
  destruct a as [|e2 a'].
  - destruct e; cbn [ends app]; try reflexivity. discriminate H.
  - assert (IH' := IH (closed_cons _ _ H ltac:(discriminate))). destruct e; rewrite ?IH'; try reflexivity.
    cbn [app]. now rewrite app_assoc.
Qed.
Lemma ends_passive l : Forall passive l -> ends l = [].
Proof. induction 1 as [|e l He _ IH]; [reflexivity|]. destruct e; cbn [ends]; auto; destruct He. Qed.
Lemma nsteps_app (a b : RL) : nsteps (a ++ b) = (nsteps a + nsteps b)%nat.
Proof. unfold nsteps. now rewrite filter_app, app_length. Qed.
Lemma nsteps_passive (l : RL) : Forall passive l -> nsteps l = 0%nat.
Proof. induction 1 as [|e l He _ IH]; [reflexivity|]. unfold nsteps in *. destruct e; cbn [filter is_step]; auto; destruct He. Qed.

(** *** rest in any arithmetic *)
Section RestAny.
Context {A : Type} {NA : Num A} {S : Type} (o : unit_if A S) (nmaxd : nat).
Notation fin := (fold_left (fun (a : A) (e : event A) => match e with EStep d n => nadd a (nmul d (nZ n)) | _ => a end)).
Lemma fin_quiet (l : list (event A)) x : quiet l -> fin l x = x.
Proof. intros H. revert x. induction H as [|e l [->| ->] _ IH]; intros x; cbn [fold_left]; auto. Qed.
Lemma rest_loop_any tlim ndt nmax : forall fuel dti ttot idat nOnce ninc l t,
  elapsed_in_order l = ttot ->
  wp (rest_loop (logged o) nmaxd fuel tlim ndt nmax dti ttot idat nOnce ninc)
     (fun l' t' r => match r with Ok (inr x) => elapsed_in_order l' = x /\ t' = t | Ok (inl st) => isStatusBad st = true | _ => True end) l t.
Proof.
  induction fuel as [|f IH]; intros dti ttot idat nOnce ninc l t Hel; cbn [rest_loop]; (destruct (nltb ttot tlim); cbn [negb]; [|apply wp_ret; now split]).
  - intros s i. exact I.
  - apply wp_bind. cbn [logged q_setCurrent]. apply wp_call; [|intros [] He; exact I || destruct He].
    intros s0 s1 st _. destruct (isStatusBad st) eqn:E; [apply wp_ret; exact E|].
    apply wp_bind. cbn [logged q_step]. apply wp_call; [|intros [] He; exact I || destruct He].
    intros s2 s3 u _. apply wp_bind, wp_store_due; [|intros l' [] Hl' He; exact I || destruct He].
    intros l' z Hl'. destruct (rest_adapt _ _ _ _) as [n' ninc']. apply IH.
    unfold elapsed_in_order in *. rewrite !fold_left_app. rewrite fin_quiet by assumption. cbn [fold_left]. rewrite Hel. reflexivity.
Qed.
Lemma rest_any fuel tlim dt ndt t :
  wp (rest (logged o) nmaxd fuel tlim dt ndt)
     (fun l' t' r => match r with
        | Ok ReachedTimeLimit => let x := elapsed_in_order l' in nleb tlim x = true /\ nltb (nabs (nsub x tlim)) (nZ 1) = true /\ th_time t' = nadd (th_time t) x
        | _ => True end) [] t.
Proof.
  unfold rest. apply wp_bind, wp_store_if; [|intros l' [] Hl' He; exact I || destruct He].
  intros l0 Hl0. cbn [app]. apply wp_bind. eapply wp_conseq.
  { apply rest_loop_any. unfold elapsed_in_order. now apply fin_quiet. }
  cbn beta. intros l1 t1 [[st|x]| | |] H; try exact I.
  - apply wp_ret. destruct st; try exact I. discriminate.
  - destruct H as [H ->]. destruct (nleb tlim x) eqn:E1; cbn [andb]; [|apply wp_throw; exact I].
    destruct (nltb _ _) eqn:E2; [|apply wp_throw; exact I].
    apply wp_bind. cbn [logged q_setCurrent]. apply wp_call; [|intros [] He; exact I || destruct He].
    intros s0 s1 st _. apply wp_bind, wp_store_if; [|intros l' [] Hl' He; exact I || destruct He].
    intros l' Hl'. apply wp_bind, wp_add_th, wp_ret. cbn zeta.
    assert (HX : elapsed_in_order ((l1 ++ [ESet (nZ 0) st]) ++ l') = x).
    { unfold elapsed_in_order in *. rewrite !fold_left_app. rewrite fin_quiet by assumption. cbn [fold_left]. assumption. }
    rewrite HX. auto.
Qed.
End RestAny.

Section CC.
Context {S : Type} (o : unit_if R S) (nmaxd : nat) (diag : bool).

Definition crossing (I vlim Vini Vnew : R) : bool :=
  (nltb I (nZ 0) && nleb Vini vlim && nltb vlim Vnew) || (nleb vlim Vini && nltb Vnew vlim).

Lemma wp_cyc_setCurrent I vlim (Q : RL -> th R -> res Status -> Prop) l t :
  (forall Vini Iini st st2, isStatusVoltageLimitsViolated st = true -> Q (l ++ [EReadV Vini; EReadI Iini; ESet I st; ESet Iini st2]) t (Ok st)) ->
  (forall Vini Iini st Vnew, isStatusVoltageLimitsViolated st = false ->
     Q (l ++ [EReadV Vini; EReadI Iini; ESet I st; EReadV Vnew]) t (Ok (if crossing I vlim Vini Vnew then ReachedVoltageLimit else Success))) ->
  (forall l' e, Forall passive l' -> notok e -> Q (l ++ l' ++ [EErr]) t e) ->
  wp (cyc_setCurrent (logged o) diag I vlim) Q l t.
Proof.
  intros H1 H2 H3. unfold cyc_setCurrent.
  apply wp_bind, wp_call.
  2: { intros e He. destruct e; [destruct He| | |]; apply (H3 []); first [exact Logic.I | constructor]. }
  intros s0 s1 Vini _. apply wp_bind, wp_call.
  2: { intros e He. rewrite <- app_assoc. destruct e; [destruct He| | |]; apply (H3 [_]); first [exact Logic.I | repeat constructor]. }
  intros s2 s3 Iini _. rewrite <- app_assoc. apply wp_bind. cbn [logged q_setCurrent]. apply wp_call.
  2: { intros e He. rewrite <- app_assoc. destruct e; [destruct He| | |]; apply (H3 [_;_]); first [exact Logic.I | repeat constructor]. }
  intros s4 s5 st _. rewrite <- app_assoc. cbn [app].
  destruct (isStatusVoltageLimitsViolated st) eqn:Ev.
  - apply wp_bind. apply wp_call.
    2: { intros e He. rewrite <- app_assoc. destruct e; [destruct He| | |]; apply (H3 [_;_;_]); first [exact Logic.I | repeat constructor]. }
    intros s6 s7 st2 _. rewrite <- app_assoc. apply wp_ret. apply (H1 Vini Iini st st2 Ev).
  - apply wp_bind, wp_call.
    2: { intros e He. rewrite <- app_assoc. destruct e; [destruct He| | |]; apply (H3 [_;_;_]); first [exact Logic.I | repeat constructor]. }
    intros s6 s7 Vnew _. rewrite <- app_assoc. cbn [app].
    specialize (H2 Vini Iini st Vnew Ev). unfold crossing in H2.
    destruct (nltb I (nZ 0) && nleb Vini vlim && nltb vlim Vnew); cbn [orb] in H2; [now apply wp_ret|].
    destruct (nleb vlim Vini && nltb Vnew vlim); now apply wp_ret.
Qed.

Lemma wp_cc_adapt I vlim vo vi n up (Q : RL -> th R -> res (Z * bool) -> Prop) l t :
  (forall nu, Q l t (Ok nu)) -> (forall e, notok e -> Q (l ++ [EErr]) t e) ->
  wp (cc_adapt (logged o) I vlim vo vi n up) Q l t.
Proof.
  intros H1 H2. unfold cc_adapt. destruct (nltb I (nZ 0)); [apply wp_ret, H1|].
  apply wp_bind, wp_call.
  2: { intros e He. destruct e; [destruct He| | |]; apply H2; exact Logic.I. }
  intros s0 s1 v1 _. rewrite app_nil_r.
  match goal with |- context [if ?b then _ else _] => destruct b end; cbn match beta; (apply wp_bind, wp_call;
    [intros s2 s3 v2 _; rewrite app_nil_r; apply wp_ret, H1
    |intros e He; destruct e; [destruct He| | |]; apply H2; exact Logic.I]).
Qed.

Lemma books_passive I l l' t0 t : books I l t0 t -> closed l -> Forall passive l' -> books I (l ++ l') t0 t.
Proof.
  intros [H1 [H2 H3]] Hc Hp. unfold books. rewrite elapsed_app, cc_energy_app, (elapsed_passive l'), (cc_energy_passive I l') by assumption.
  rewrite !Rplus_0_r. auto.
Qed.

Definition ccinv (I dt : R) (nmax : Z) (t0 : th R) (ttot : R) (l : RL) (t : th R) : Prop :=
  elapsed l = ttot /\ steps_within dt nmax l /\ closed l /\ books I l t0 t /\ length (ends l) = nsteps l /\ commanded I l.
Lemma ccinv_passive I dt nmax t0 ttot l l' t : ccinv I dt nmax t0 ttot l t -> Forall passive l' -> ccinv I dt nmax t0 ttot (l ++ l') t.
Proof.
  intros [H1 [H2 [H3 [H4 [H5 H6]]]]] Hp. split; [rewrite elapsed_app, (elapsed_passive l'); [lra|assumption]|].
  split; [apply steps_within_app; [assumption|now apply steps_within_passive]|].
  split; [now apply closed_app|]. split; [now apply books_passive|].
  split; [rewrite ends_app, nsteps_app, (ends_passive l'), (nsteps_passive l'), app_nil_r, H5 by assumption; lia|].
  apply before_app; [assumption|now apply passive_nostep].
Qed.
Lemma ends_keep l l' : closed l -> Forall passive l' -> ends (l ++ l') = ends l.
Proof. intros. rewrite ends_app, (ends_passive l'), app_nil_r by assumption. reflexivity. Qed.

Definition inside_b (I v vlim : R) : Prop := beyond I v vlim = false.
Lemma inside_beyond I v vlim : beyond I v vlim = false -> inside I v vlim.
Proof.
  unfold beyond. rewrite orb_false_iff, !andb_false_iff, !Rltb_false. rewrite R_nZ. unfold inside. lra.
Qed.
Lemma reached_beyond I v vlim : beyond I v vlim = true -> reached I v vlim.
Proof.
  unfold beyond. rewrite orb_true_iff, !andb_true_iff, !Rltb_true. rewrite R_nZ. unfold reached. lra.
Qed.

Definition ccpost (I vlim tlim dt : R) (nmax : Z) (t0 : th R) (l' : RL) (t' : th R) (r : res (Status + R * bool)) : Prop :=
  elapsed l' <= tlim /\ steps_within dt nmax l' /\ commanded I l' /\
  match r with
  | Ok (inl st) => st <> ReachedTimeLimit /\ st <> ReachedVoltageLimit /\ booked I l' t0 t'
  | Ok (inr (x, v)) =>
      elapsed l' = x /\ closed l' /\ books I l' t0 t' /\ length (ends l') = nsteps l' /\
      (if v then exists vs v1, ends l' = vs ++ [v1] /\ Forall (fun v => inside I v vlim) vs /\ reached I v1 vlim
       else x = tlim /\ Forall (fun v => inside I v vlim) (ends l'))
  | _ => failed_last l'
  end.

Lemma cc_loop_spec (I vlim tlim dt : R) ndt nmax t0 : 0 < dt -> (1 <= nmax)%Z -> (diag = true -> honest o) ->
  forall fuel dti ttot idat nOnce vo vi up l t,
  0 < dti <= dt -> (dti = dt \/ ttot = tlim) -> ttot <= tlim -> (1 <= nOnce <= nmax)%Z ->
  tlim - ttot <= dt * INR fuel ->
  ccinv I dt nmax t0 ttot l t -> Forall (fun v => inside I v vlim) (ends l) ->
  wp (cc_loop (logged o) nmaxd diag fuel I vlim tlim ndt nmax dti ttot idat nOnce vo vi up) (ccpost I vlim tlim dt nmax t0) l t.
Proof.
  intros Hdt Hnm Hh fuel. induction fuel as [|f IH]; intros dti ttot idat nOnce vo vi up l t Hdti Hor Hle Hn Hf Hinv Hin.
  - assert (Et : ttot = tlim) by (cbn [INR] in Hf; lra).
    unfold cc_loop. rewrite (proj2 (Rltb_false ttot tlim)) by lra. cbn [negb].
    apply wp_ret. destruct Hinv as [H1 [H2 [H3 [H4 [H5 H6]]]]]. split; [lra|]. split; [assumption|]. split; [assumption|].
    do 4 (split; [assumption|]). split; assumption.
  - cbn [cc_loop]. destruct (nltb ttot tlim) eqn:Elt; cbn [negb].
    2: { apply Rltb_false in Elt. assert (ttot = tlim) by lra. apply wp_ret.
         destruct Hinv as [H1 [H2 [H3 [H4 [H5 H6]]]]]. split; [lra|]. split; [assumption|]. split; [assumption|].
         do 4 (split; [assumption|]). split; assumption. }
    apply Rltb_true in Elt. destruct Hor as [->|]; [|lra].
    rewrite S_INR in Hf.
    (* every failure that is not a step *)
    assert (HE : forall l' B (e : res B), Forall passive l' -> notok e -> ccpost I vlim tlim dt nmax t0 (l ++ l' ++ [EErr]) t (cast e)).
    { intros l' B e Hp He. assert (Hp' : Forall passive (l' ++ [EErr])) by (apply Forall_app; split; [assumption|repeat constructor]).
      destruct (ccinv_passive _ _ _ _ _ _ _ _ Hinv Hp') as [H1 [H2 [_ [_ [_ H6]]]]].
      split; [lra|]. split; [assumption|]. split; [assumption|]. destruct e; [destruct He| | |]; cbn [cast]; rewrite app_assoc; apply failed_last_err. }
    assert (HSet : forall l1, Forall passive l1 -> let L1 := l ++ l1 in
      (exists l' st e, L1 = l' ++ [ESet I st; e] /\ (isStatusVoltageLimitsViolated st = false -> exists v, e = EReadV v)) ->
      wp (A := R) (S := S)
        (let n := cut_n nOnce dt (tlim - ttot)%num in
         let d := cut_dt dt (tlim - ttot)%num in
         stepped <- try (call (q_step (logged o) d n) ;;; mret true) (mret false) ;;
         if negb stepped then mret (inl timeStep_CC_failed)
         else
           r <- (if diag then
                   (vs <- call (q_checkV (logged o)) ;;
                    mret (if isStatusSuccessful (snd vs) then inr (fst vs) else inl (snd vs)))
                 else
                   (v <- call (q_V (logged o)) ;;
                    mret (if nleb v (nZ 0) then inl V_not_calculated else inr v))) ;;
           match r with
           | inl st => mret (inl st)
           | inr vi' =>
               (call (q_V (logged o)) ;;;
                let dtn := (d * nZ n)%num in
                add_th dtn (nabs I * dtn / nZ 3600)%num (nabs I * dtn / nZ 3600 * vi')%num ;;;
                let t' := (ttot + dtn)%num in
                idat' <- store_due (logged o) nmaxd (idat + n)%Z ndt ;;
                if beyond I vi' vlim then mret (inr (t', true))
                else
                  (nu <- cc_adapt (logged o) I vlim vo vi' n up ;;
                   cc_loop (logged o) nmaxd diag f I vlim tlim ndt nmax d t' idat' (zclamp (fst nu) 1 nmax) vi' vi' (snd nu)))
           end)%prog (ccpost I vlim tlim dt nmax t0) L1 t).
    2: { apply wp_bind, wp_cyc_setCurrent.
         - intros Vini Iini st st2 Hv. apply HSet; [repeat constructor|]. exists (l ++ [EReadV Vini; EReadI Iini]), st, (ESet Iini st2).
           rewrite <- app_assoc. split; [reflexivity|]. rewrite Hv. discriminate.
         - intros Vini Iini st Vnew Hv. apply HSet; [repeat constructor|]. exists (l ++ [EReadV Vini; EReadI Iini]), st, (EReadV Vnew).
           rewrite <- app_assoc. split; [reflexivity|]. eauto.
         - intros l' e Hp He. pose proof (HE l' _ e Hp He). destruct e; [destruct He| | |]; assumption. }
    intros l1 Hp1 L1 Hcmd. cbn zeta.
    assert (HL1 : ccinv I dt nmax t0 ttot L1 t) by now apply ccinv_passive.
    assert (HinL1 : Forall (fun v => inside I v vlim) (ends L1)).
    { unfold L1. destruct Hinv as [_ [_ [Hc _]]]. rewrite ends_keep by assumption. assumption. }
    clearbody L1. clear HE Hinv Hin l l1 Hp1. rename HL1 into Hinv, HinL1 into Hin, L1 into l.
    cbn [nsub RNum].
    set (n := cut_n nOnce dt (tlim - ttot)). set (d := cut_dt dt (tlim - ttot)).
    destruct (cut_facts nOnce dt (tlim - ttot)) as [Hcn [Hcd [Hcl [Hcs Hcp]]]]; [lia|lra|lra|].
    fold n in Hcn, Hcl, Hcs, Hcp. fold d in Hcd, Hcl, Hcs, Hcp.
    destruct Hinv as [Hel [Hsw [Hcl0 [Hb [Hlen Hcm]]]]]. pose proof (elapsed_nonneg _ _ _ Hsw) as Hge.
    assert (Hn1 : 1 <= IZR nmax) by (apply IZR_le; lia).
    assert (HT : elapsed (l ++ [ETried d n]) <= tlim /\ steps_within dt nmax (l ++ [ETried d n]) /\ commanded I (l ++ [ETried d n])).
    { rewrite elapsed_app. cbn [elapsed]. split; [lra|]. split; [apply steps_within_app; [assumption|]; apply steps_within_tried; [lra|lia]|]. apply before_snoc; [assumption|reflexivity]. }
    apply wp_bind, wp_try, wp_bind. cbn [logged q_step]. apply wp_call.
    2: { intros e He. destruct e; [destruct He| | |]; cbn [cast].
         - apply wp_ret. cbn [negb]. apply wp_ret. split; [apply HT|]. split; [apply HT|]. split; [apply HT|]. split; [discriminate|]. split; [discriminate|].
           left. destruct Hb as [B1 [B2 B3]]. unfold books. rewrite elapsed_app, cc_energy_app by assumption. cbn [elapsed cc_energy]. rewrite !Rplus_0_r. auto.
         - split; [apply HT|]. split; [apply HT|]. split; [apply HT|]. apply failed_last_tried.
         - split; [apply HT|]. split; [apply HT|]. split; [apply HT|]. apply failed_last_tried. }
    intros s2 s3 u _. apply wp_ret. cbn [negb].
    assert (Hel2 : forall l', Forall passive l' -> elapsed (l ++ [EStep d n] ++ l') = ttot + d * IZR n).
    { intros l' Hp. rewrite !elapsed_app, (elapsed_passive l') by assumption. cbn [elapsed]. lra. }
    assert (Hsw2 : forall l', Forall passive l' -> steps_within dt nmax (l ++ [EStep d n] ++ l')).
    { intros l' Hp. apply steps_within_app; [assumption|]. apply steps_within_app; [apply steps_within_one; [lra|lia]|now apply steps_within_passive]. }
    assert (Hcm2 : forall l', Forall passive l' -> commanded I (l ++ [EStep d n] ++ l')).
    { intros l' Hp. rewrite app_assoc. apply before_app; [|now apply passive_nostep]. now apply before_step. }
    assert (HE : forall l' B (e : res B), Forall passive l' -> notok e -> forall t', ccpost I vlim tlim dt nmax t0 (l ++ [EStep d n] ++ l' ++ [EErr]) t' (cast e)).
    { intros l' B e Hp He t'. assert (Hp' : Forall passive (l' ++ [EErr])) by (apply Forall_app; split; [assumption|repeat constructor]).
      split; [rewrite Hel2 by assumption; lra|]. split; [now apply Hsw2|]. split; [now apply Hcm2|].
      replace (l ++ [EStep d n] ++ l' ++ [EErr]) with ((l ++ [EStep d n] ++ l') ++ [EErr]) by (rewrite <- !app_assoc; reflexivity).
      destruct e; [destruct He| | |]; cbn [cast]; apply failed_last_err. }
    (* the voltage reading *)
    assert (HV : forall v,
      wp (A := R) (S := S)
       (call (q_V (logged o)) ;;;
        add_th (d * nZ n)%num (nabs I * (d * nZ n) / nZ 3600)%num (nabs I * (d * nZ n) / nZ 3600 * v)%num ;;;
        idat' <- store_due (logged o) nmaxd (idat + n)%Z ndt ;;
        if beyond I v vlim then mret (inr ((ttot + d * nZ n)%num, true))
        else
          (nu <- cc_adapt (logged o) I vlim vo v n up ;;
           cc_loop (logged o) nmaxd diag f I vlim tlim ndt nmax d (ttot + d * nZ n)%num idat' (zclamp (fst nu) 1 nmax) v v (snd nu)))%prog
        (ccpost I vlim tlim dt nmax t0) (l ++ [EStep d n] ++ [EReadV v]) t).
    { intros v. apply wp_bind, wp_call.
      2: { intros e He. pose proof (HE [EReadV v] _ e ltac:(repeat constructor) He t).
           replace ((l ++ [EStep d n] ++ [EReadV v]) ++ [EErr]) with (l ++ [EStep d n] ++ [EReadV v] ++ [EErr]) by (rewrite <- !app_assoc; reflexivity).
           destruct e; [destruct He| | |]; assumption. }
      intros s4 s5 v2 _. rewrite <- !app_assoc. apply wp_bind, wp_add_th. rewrite !R_nZ. cbn [nadd nmul ndiv nabs RNum].
      set (t' := mkTh _ _ _).
      apply wp_bind, wp_store_due.
      2: { intros l' e Hl' He.
           pose proof (HE ([EReadV v] ++ [EReadV v2] ++ l') _ e ltac:(apply Forall_app; split; [repeat constructor|apply Forall_app; split; [repeat constructor|now apply quiet_passive]]) He t').
           rewrite <- !app_assoc in *. destruct e; [destruct He| | |]; assumption. }
      intros l' z Hl'.
      set (l2 := (l ++ [EStep d n] ++ [EReadV v] ++ [EReadV v2]) ++ l').
      assert (Hl2 : l2 = l ++ [EStep d n] ++ ([EReadV v] ++ [EReadV v2] ++ l')) by (unfold l2; rewrite <- !app_assoc; reflexivity).
      assert (Hp2 : Forall passive ([EReadV v] ++ [EReadV v2] ++ l')).
      { apply Forall_app; split; [repeat constructor|apply Forall_app; split; [repeat constructor|now apply quiet_passive]]. }
      assert (Hends : ends l2 = ends l ++ [v]).
      { rewrite Hl2, ends_app by assumption. cbn [app ends]. rewrite (ends_passive l') by now apply quiet_passive. reflexivity. }
      assert (HI : ccinv I dt nmax t0 (ttot + d * IZR n) l2 t').
      { split; [rewrite Hl2; now apply Hel2|]. split; [rewrite Hl2; now apply Hsw2|].
        split. { unfold l2. apply closed_app; [|now apply quiet_passive]. rewrite !app_assoc. now apply closed_snoc. }
        split.
        { assert (Hee : cc_energy I l2 = cc_energy I l + Rabs I * (d * IZR n) / 3600 * v).
          { rewrite Hl2, cc_energy_app by assumption. cbn [app cc_energy]. rewrite (cc_energy_passive I l') by now apply quiet_passive. lra. }
          destruct Hb as [Hb1 [Hb2 Hb3]]. unfold books, t'. cbn [th_time th_Ah th_Wh].
          rewrite Hee. rewrite Hl2, Hel2 by assumption. rewrite Hb1, Hb2, Hb3, Hel. repeat split; lra. }
        split; [|rewrite Hl2; now apply Hcm2].
        rewrite Hends, Hl2, app_length, nsteps_app. cbn [length app]. rewrite Hlen.
        change (EStep d n :: EReadV v :: EReadV v2 :: l') with ([EStep d n] ++ ([EReadV v] ++ [EReadV v2] ++ l')).
        rewrite nsteps_app, (nsteps_passive ([EReadV v] ++ [EReadV v2] ++ l')) by assumption. cbn. lia. }
      clearbody l2.
      destruct (beyond I v vlim) eqn:Ebe.
      - apply wp_ret. destruct HI as [H1 [H2 [H3 [H4 [H5 H6]]]]]. split; [lra|]. split; [assumption|]. split; [assumption|].
        do 4 (split; [assumption|]). exists (ends l), v. split; [assumption|]. split; [assumption|]. now apply reached_beyond.
      - apply wp_bind, wp_cc_adapt.
        2: { intros e He. destruct (ccinv_passive _ _ _ _ _ _ [EErr] _ HI) as [H1 [H2 [_ [_ [_ H6]]]]]; [repeat constructor|].
             assert (HQ : forall C (r : res C), elapsed (l2 ++ [EErr]) <= tlim /\ steps_within dt nmax (l2 ++ [EErr]) /\ commanded I (l2 ++ [EErr]) /\ failed_last (l2 ++ [EErr])).
             { intros _ _. split; [lra|]. split; [assumption|]. split; [assumption|]. apply failed_last_err. }
             destruct e; [destruct He| | |]; exact (HQ _ (Ok tt)). }
        intros nu. apply IH.
        + lra.
        + destruct Hcs as [Hcs|Hcs]; [left; assumption|right; lra].
        + lra.
        + apply zclamp_range; lia.
        + pose proof (pos_INR f). destruct Hcp as [Hcp|Hcp]; nra.
        + assumption.
        + rewrite Hends. apply Forall_app; split; [assumption|]. constructor; [|constructor]. now apply inside_beyond. }
    assert (HS : forall v st, st <> ReachedTimeLimit -> st <> ReachedVoltageLimit ->
      ccpost I vlim tlim dt nmax t0 (l ++ [EStep d n] ++ [EReadV v]) t (Ok (inl st))).
    { intros v st Hs1 Hs2. split; [rewrite Hel2 by (repeat constructor); lra|]. split; [apply Hsw2; repeat constructor|]. split; [apply Hcm2; repeat constructor|]. split; [assumption|]. split; [assumption|].
      right. exists l, d, n, v. split; [reflexivity|assumption]. }
    apply wp_bind. destruct diag eqn:Ediag.
    + apply wp_bind, wp_call.
      2: { intros e He. pose proof (HE [] _ e ltac:(constructor) He t) as HX. cbn [app] in HX. rewrite <- app_assoc.
           destruct e; [destruct He| | |]; exact HX. }
      intros s4 s5 [v st] Echk. cbn [fst snd]. rewrite <- app_assoc. apply wp_ret.
      destruct (isStatusSuccessful st).
      * apply HV.
      * apply wp_ret. destruct (Hh eq_refl _ _ _ _ Echk). now apply HS.
    + apply wp_bind, wp_call.
      2: { intros e He. pose proof (HE [] _ e ltac:(constructor) He t) as HX. cbn [app] in HX. rewrite <- app_assoc.
           destruct e; [destruct He| | |]; exact HX. }
      intros s4 s5 v _. rewrite <- app_assoc. apply wp_ret.
      destruct (nleb v (nZ 0)).
      * apply wp_ret. apply HS; discriminate.
      * apply HV.
Qed.
End CC.
