(** * Proofs about a cycler working on a chain of cells of either kind *)
From Coq Require Import List Lia Reals Lra.
From Verif Require Import Base RFacts StatusModel StatusProofs CellModel CellSpec CoolModel ModuleModel ModuleSpec ModuleProofs ModuleProofs2
  SpmModel SpmUnitModel CyclerModel CyclerSpec CyclerProofs PackSpec PackProofs FleetModel FleetSpec FleetProofs FleetLaws.
Import ListNotations.
Local Open Scope R_scope.

Section Fleet.
Context (F : fns R) (tm : Z).
Notation tree n := (fleet (A := R) n).
Notation ops n := (fleet_ops F tm n).
Notation law := (cell_lawful F tm).
Notation same := (same_tree (fun c d : cell => account_of d = account_of c)).

(** ** Phases *)
Lemma after_app a b x y z : account_after a x y -> account_after b y z -> account_after (a ++ b) x z.
Proof.
  intros (H1 & H2 & H3 & H4) (K1 & K2 & K3 & K4). unfold account_after. rewrite charge_app, throughput_app, duration_app.
  rewrite K1, K2, K3, K4, H1, H2, H3, H4. split; [reflexivity|]. unfold Rdiv. repeat split; ring.
Qed.
Lemma after_nil x : account_after [] x x.
Proof. unfold account_after. cbn. unfold Rdiv. repeat split; ring. Qed.
Lemma after_same a b x y : charge a = charge b -> throughput a = throughput b -> duration a = duration b -> account_after a x y -> account_after b x y.
Proof. unfold account_after. intros -> -> ->. auto. Qed.
Lemma passed_all_app a b (l1 l2 l3 : list (cell (A := R))) : Forall2 (passed a) l1 l2 -> Forall2 (passed b) l2 l3 -> Forall2 (passed (a ++ b)) l1 l3.
Proof.
  intros H. revert l3. induction H as [|c d l1 l2 Hcd _ IH]; intros l3 K; inversion K; subst; constructor; auto. eapply after_app; eauto.
Qed.
Lemma passed_si c d : si account_of c d -> passed [] c d.
Proof. unfold si, passed. intros ->. unfold account_after, at_current. cbn. unfold Rdiv. repeat split; ring. Qed.
Lemma passed_moved t c d : moved' account_of t c d -> passed [(current_of c, t)] c d.
Proof. unfold moved', passed, current_of. intros ->. unfold account_after, drawn. cbn. unfold Rdiv. repeat split; ring. Qed.
Lemma passed_with l (a b c : list (cell (A := R))) : Forall2 (passed l) a b -> Forall2 (si account_of) b c -> Forall2 (passed l) a c.
Proof.
  intros H K. rewrite <- (app_nil_r l). eapply passed_all_app; [exact H|]. eapply Forall2_impl; [|exact K]. exact passed_si.
Qed.
Lemma same_passed l n (a : list cell) (u v : tree n) : same n u v -> Forall2 (passed l) a (leaves n u) -> Forall2 (passed l) a (leaves n v).
Proof.
  intros H K. eapply passed_with; [exact K|]. apply st_leaves in H. eapply Forall2_impl; [|exact H]. apply sa_si.
Qed.

(** ** Reading voltages *)
Lemma answers_V i c : answers F tm i c -> answers F tm i (fst (o_V (cell_ops F tm) c)).
Proof.
  unfold answers. destruct c as [e|p]; [auto|]. intros H c' st. cbn [cell_ops sum_ops o_V o_setCurrent both] in *. unfold on_r in *.
  cbn [spm_ops o_V o_setCurrent] in *.
  destruct (spm_V F p) as [p1 r1] eqn:E1. cbn [fst both].
  destruct (spm_setCurrent F i true p1) as [p2 r2] eqn:E2. intros [= <- ->] B.
  assert (X : exists p3, spm_setCurrent F i true p = (p3, Ok st)).
  { unfold spm_V in E1. destruct (c_valid p); [injection E1 as <- _; eauto|].
    destruct (calcV F p) as [[v|]| | |]; injection E1 as <- _; eauto.
    clear - E2. unfold spm_setCurrent, spm_checkCurrent, spm_checkVoltage, spm_V in *. cbn [c_valid set_valid set_st cs cp] in *.
    change (calcV F (set_valid (set_st (set_valid (set_st p (st_V (cs p) v)) true) (st_I (st_V (cs p) v) i)) false))
      with (calcV F (set_valid (set_st p (st_I (cs p) i)) false)) in E2.
    change (s_I (st_I (st_V (cs p) v) i)) with (s_I (st_I (cs p) i)) in E2.
    destruct (calcV F (set_valid (set_st p (st_I (cs p) i)) false)) as [[w|]| | |]; cbn [rmap rbind snd] in *.
    all: match type of E2 with context [check_voltage ?a ?b ?c] => destruct (check_voltage a b c) as [[x s]| | |] end; cbn [rmap rbind snd] in *; try discriminate;
      injection E2 as _ <-; eauto. }
  destruct X as [p3 X]. eapply H; [|exact B]. rewrite X. reflexivity.
Qed.

Lemma V_twice c : fst (o_V (cell_ops F tm) (fst (o_V (cell_ops F tm) c))) = fst (o_V (cell_ops F tm) c).
Proof.
  destruct c as [e|p]; [reflexivity|]. cbn [cell_ops sum_ops o_V both]. unfold on_r. cbn [spm_ops o_V].
  destruct (spm_V F p) as [p1 r1] eqn:E1. cbn [fst both]. destruct (spm_V F p1) as [p2 r2] eqn:E2. cbn [fst]. f_equal.
  unfold spm_V in E1, E2. destruct (c_valid p) eqn:Ev; [injection E1 as <- _; rewrite Ev in E2; now injection E2|].
  destruct (calcV F p) as [[v|]| | |] eqn:Ec; injection E1 as <- _; cbn [c_valid set_valid] in E2; rewrite ?Ev, ?Ec in E2; now injection E2.
Qed.
Lemma looked_trans a b c : looked F tm a b -> looked F tm b c -> looked F tm a c.
Proof. unfold looked. intros [->| ->] [->| ->]; auto. right. apply V_twice. Qed.
Lemma V_looked n (u u' : tree n) r : o_V (ops n) u = (u', r) -> same_tree (looked F tm) n u u'.
Proof. apply V_rel_tree; [intros; now left|exact looked_trans|intros; now right]. Qed.
Lemma looked_same n (u u' : tree n) : same_tree (looked F tm) n u u' -> same n u u'.
Proof. apply st_impl. intros c d [->| ->]; [reflexivity|apply (lw_V _ _ law)]. Qed.

(** ** Runs that return *)
Section Run.
Context (n : nat) (store write : M (tree n) unit) (nmax : nat).
Notation o := (fleet_if F tm n store write).
Notation W := (cyc R (tree n)).
Context (Hstore : innocent F tm store) (Hwrite : innocent F tm write).

Definition sp {B : Type} (P : tree n -> th R -> Prop) (m : M W B) (Q : B -> tree n -> th R -> Prop) : Prop :=
  forall w w' b, P (c_su w) (c_th w) -> m w = (w', Ok b) -> Q b (c_su w') (c_th w').
Lemma sp_ret {B : Type} (P : tree n -> th R -> Prop) (b : B) (Q : B -> tree n -> th R -> Prop) : (forall u t, P u t -> Q b u t) -> sp P (mret b) Q.
Proof. intros H w w' b' Hp [= <- <-]. auto. Qed.
Lemma sp_throw {B : Type} (P : tree n -> th R -> Prop) c (Q : B -> tree n -> th R -> Prop) : sp P (mthrow c) Q.
Proof. intros w w' b' Hp. discriminate. Qed.
Lemma sp_bind {B C : Type} (P : tree n -> th R -> Prop) (m : M W B) (f : B -> M W C) (R0 : B -> tree n -> th R -> Prop) (Q : C -> tree n -> th R -> Prop) :
  sp P m R0 -> (forall b, sp (R0 b) (f b) Q) -> sp P (mbind m f) Q.
Proof.
  intros H1 H2 w w' c Hp E. unfold mbind in E. destruct (m w) as [w1 [b| | |]] eqn:Em; try discriminate.
  eapply H2; [|exact E]. eapply H1; eauto.
Qed.
Lemma sp_conseq {B : Type} (P P' : tree n -> th R -> Prop) (m : M W B) (Q Q' : B -> tree n -> th R -> Prop) :
  (forall u t, P' u t -> P u t) -> (forall b u t, Q b u t -> Q' b u t) -> sp P m Q -> sp P' m Q'.
Proof. intros H1 H2 H w w' b Hp E. eapply H2, H; eauto. Qed.
Lemma sp_call {B : Type} (P : tree n -> th R -> Prop) (f : M (tree n) B) (Q : B -> tree n -> th R -> Prop) :
  (forall u u' t b, P u t -> f u = (u', Ok b) -> Q b u' t) -> sp P (call f) Q.
Proof.
  intros H w w' b Hp E. unfold call in E. destruct (f (c_su w)) as [s r] eqn:Ef. injection E as <- ->. cbn. eauto.
Qed.
Lemma sp_add (P : tree n -> th R -> Prop) (t a e : R) (Q : unit -> tree n -> th R -> Prop) :
  (forall u h, P u h -> Q tt u (mkTh (th_time h + t) (th_Ah h + a) (th_Wh h + e))) -> sp P (add_th t a e) Q.
Proof. intros H w w' [] Hp [= <-]. cbn. auto. Qed.

(** properties of the cells and the structure only *)
Definition sees (P : tree n -> th R -> Prop) : Prop := forall u u' t, same_tree (looked F tm) n u u' -> P u t -> P u' t.
Lemma sp_query {B : Type} (P : tree n -> th R -> Prop) (f : M (tree n) B) : sees P -> (forall u u' b, f u = (u', Ok b) -> same_tree (looked F tm) n u u') -> sp P (call f) (fun _ => P).
Proof. intros HS H. apply sp_call. intros u u' t b Hp E. eapply HS; [eapply H; eauto|exact Hp]. Qed.
Lemma sp_store P : sees P -> sp P (storeData o nmax) (fun _ => P).
Proof.
  intros HS. unfold storeData. eapply (sp_bind _ _ _ (fun _ => P)).
  - intros w w' b Hp [= <- <-]. exact Hp.
  - intros i. eapply (sp_bind _ _ _ (fun _ => P)).
    + destruct (Nat.leb nmax i); [|now apply sp_ret]. intros w w' b Hp. unfold writeData. cbn [q_write fleet_if].
      destruct (write (c_su w)) as [s [[]| | |]] eqn:E; try discriminate. intros [= <- <-]. cbn. eapply HS; [eapply Hwrite; exact E|exact Hp].
    + intros []. eapply (sp_bind _ _ _ (fun _ => P)).
      * apply sp_query; [exact HS|]. cbn [q_store fleet_if]. intros u u' [] E. now apply Hstore.
      * intros []. intros w w' b Hp [= <- <-]. exact Hp.
Qed.
Lemma sp_store_if P b : sees P -> sp P (store_if o nmax b) (fun _ => P).
Proof. intros HS. unfold store_if. destruct b; [now apply sp_store|now apply sp_ret]. Qed.
Lemma sp_store_due P idat ndt : sees P -> sp P (store_due o nmax idat ndt) (fun _ => P).
Proof.
  intros HS. unfold store_due. destruct (_ && _); [|now apply sp_ret].
  eapply (sp_bind _ _ _ (fun _ => P)); [now apply sp_store|]. intros ?. now apply sp_ret.
Qed.
Lemma sp_V P : sees P -> sp P (call (q_V o)) (fun _ => P).
Proof. intros HS. apply sp_query; [exact HS|]. cbn [q_V fleet_if]. intros u u' b E. exact (V_looked n _ _ _ E). Qed.

(** ** Resting *)
Context (l0 : list (cell (A := R))).
Definition restinv (t0 : th R) (T : R) (u : tree n) (t : th R) : Prop :=
  chain n u /\ Forall2 (passed [(0, T)]) l0 (leaves n u) /\ t = t0.
Lemma restinv_sees t0 T : sees (restinv t0 T).
Proof.
  intros u u' t E (H1 & H2 & H3). split; [eapply st_chain; eauto|]. split; [eapply same_passed; [apply looked_same; exact E|exact H2]|exact H3].
Qed.
Lemma same_even i (u v : tree n) : same n u v -> Forall (fun c => current_of c = i) (leaves n u) -> Forall (fun c => current_of c = i) (leaves n v).
Proof. exact (sa_even account_of n u v i). Qed.
Lemma sp_set0 t0 T : sp (restinv t0 T) (call (q_setCurrent o (nZ 0) false))
  (fun _ u t => restinv t0 T u t /\ Forall (fun c => current_of c = 0) (leaves n u)).
Proof.
  apply sp_call. cbn [q_setCurrent fleet_if]. intros u u' t st (H1 & H2 & H3) E.
  pose proof (set_frame _ _ law tm n _ _ _ _ _ E) as G.
  assert (X : isStatusBad st = false) by (eapply (unchecked_ok _ _ law tm n); [apply H1|exact E]).
  split.
  - split; [eapply st_chain; eauto|]. split; [|exact H3]. eapply passed_with; [exact H2|]. now apply st_leaves in G.
  - pose proof (accepted _ _ law tm n u u' (nZ 0) false st (proj1 H1) E X) as K. rewrite R_nZ in K. exact K.
Qed.
Lemma step_went i T d k (u u' : tree n) : chain n u -> Forall2 (passed [(i, T)]) l0 (leaves n u) ->
  Forall (fun c => current_of c = i) (leaves n u) -> (0 <= k)%Z ->
  o_timeStep (ops n) d k u = (u', Ok tt) ->
  chain n u' /\ Forall2 (passed [(i, T + d * IZR k)]) l0 (leaves n u') /\ Forall (fun c => current_of c = i) (leaves n u').
Proof.
  intros H1 H2 H3 Hk E. pose proof (step_steady _ _ law tm n d k u u' Hk (proj1 H1) E) as G.
  split; [eapply st_chain; eauto|]. apply st_leaves in G.
  assert (J : Forall2 (passed [(i, d * IZR k)]) (leaves n u) (leaves n u')).
  { clear - G H3. induction G as [|c c' l l' H _ IH]; [constructor|]. inversion H3; subst. constructor; [|auto]. now apply passed_moved. }
  split.
  - pose proof (passed_all_app _ _ _ _ _ H2 J) as K. eapply Forall2_impl; [|exact K]. intros c d0. apply after_same; cbn; ring.
  - clear - G H3. induction G as [|c c' l l' H _ IH]; [constructor|]. inversion H3; subst. constructor; [|auto].
    unfold moved', current_of in *. rewrite H. reflexivity.
Qed.
Lemma sp_rest_loop t0 (tlim : R) ndt nm : (1 <= nm)%Z -> forall fuel dti ttot idat nOnce ninc, 0 < dti -> ttot <= tlim -> (1 <= nOnce)%Z ->
  sp (restinv t0 ttot) (rest_loop o nmax fuel tlim ndt nm dti ttot idat nOnce ninc)
     (fun r u t => match r with inl st => isStatusBad st = true | inr T => T <= tlim /\ restinv t0 T u t end).
Proof.
  intros Hnm. induction fuel as [|fuel IH]; intros dti ttot idat nOnce ninc Hd Hl Hn; cbn [rest_loop].
  all: destruct (negb (nltb ttot tlim)) eqn:L; [apply sp_ret; auto|].
  { intros w w' b _. discriminate. }
  assert (L' : ttot < tlim) by (apply Rltb_true; now destruct (nltb ttot tlim)). clear L.
  eapply sp_bind; [apply sp_set0|]. intros st. destruct (isStatusBad st) eqn:B; [now apply sp_ret|].
  cbn zeta. destruct (cut_facts nOnce dti (tlim - ttot)) as (C1 & C2 & C3); [exact Hn|exact Hd|lra|].
  cbn [nsub RNum] in *.
  set (k := cut_n nOnce dti (tlim - ttot)) in *. set (d := cut_dt dti (tlim - ttot)) in *. clearbody k d.
  eapply (sp_bind _ _ _ (fun _ => restinv t0 (ttot + d * IZR k))).
  { apply sp_call. cbn [q_step fleet_if]. intros u u' t [] [(H1 & H2 & H3) H4] E.
    destruct (step_went 0 ttot d k u u' H1 H2 H4) as (K1 & K2 & K3); [lia|exact E|]. split; [exact K1|]. split; [exact K2|exact H3]. }
  intros []. eapply sp_bind; [apply sp_store_due, restinv_sees|]. intros idat'.
  cbn [nadd nmul RNum]. rewrite R_nZ.
  destruct (rest_adapt _ _ _ _) as [n' ninc'].
  apply IH; [lra|lra|]. apply zclamp_range. exact Hnm.
Qed.
Lemma sp_rest t0 fuel (tlim dt : R) ndt : 0 < dt -> 0 <= tlim -> sp (restinv t0 0) (rest o nmax fuel tlim dt ndt)
  (fun st u t => st = ReachedTimeLimit -> restinv t tlim u t /\ t = mkTh (th_time t0 + tlim) (th_Ah t0 + nZ 0) (th_Wh t0 + nZ 0)).
Proof.
  intros Hd Ht. unfold rest. eapply sp_bind; [apply sp_store_if, restinv_sees|]. intros ?.
  eapply sp_bind.
  { rewrite R_nZ. apply sp_rest_loop; [|exact Hd|exact Ht|lia]. destruct (Z.ltb_spec 0 ndt); lia. }
  intros [st|T]; cbn beta.
  - apply sp_ret. intros u t B ->. discriminate.
  - destruct (nleb tlim T && nltb (nabs (nsub T tlim)) (nZ 1)) eqn:E; [|apply sp_throw].
    apply andb_prop in E. destruct E as [E _]. apply Rleb_true in E.
    assert (HS : sees (fun u t => T = tlim /\ restinv t0 tlim u t)).
    { intros u u' t Eq [H1 H2]. split; [exact H1|]. eapply restinv_sees; eauto. }
    eapply (sp_bind _ _ _ (fun _ u t => T = tlim /\ restinv t0 tlim u t)).
    { intros w w' st0 [H1 H2] Ec. assert (HT : T = tlim) by lra. split; [exact HT|]. subst T.
      apply (sp_set0 t0 tlim w w' st0 H2 Ec). }
    intros ?. eapply sp_bind; [apply sp_store_if, HS|]. intros ?.
    eapply (sp_bind _ _ _ (fun _ u t => restinv t tlim u t /\ t = mkTh (th_time t0 + tlim) (th_Ah t0 + nZ 0) (th_Wh t0 + nZ 0))).
    { apply sp_add. intros u h [-> (H1 & H2 & ->)]. split; [split; [exact H1|split; [exact H2|reflexivity]]|]. reflexivity. }
    intros ?. apply sp_ret. auto.
Qed.

(** ** Constant current *)
Section CC.
Context (diag : bool) (i vlim tlim : R) (t0 : th R).
Definition ccrun (T : R) (u : tree n) (t : th R) : Prop :=
  chain n u /\ Forall2 (passed [(i, T)]) l0 (leaves n u) /\ Forall (fun c => current_of c = i) (leaves n u) /\
  th_time t = th_time t0 + T /\ th_Ah t = th_Ah t0 + Rabs i * T / 3600.
Lemma ccrun_same T u u' t : same n u u' -> ccrun T u t -> ccrun T u' t.
Proof.
  intros E (H1 & H2 & H3 & H4). split; [eapply st_chain; eauto|]. split; [eapply same_passed; eauto|].
  split; [eapply same_even; eauto|exact H4].
Qed.
Lemma ccrun_sees T : sees (ccrun T).
Proof. intros u u' t E. apply ccrun_same, looked_same, E. Qed.
(** setting the current that already flows *)
Lemma ccrun_again T (u u' : tree n) t chk st : ccrun T u t -> o_setCurrent (ops n) i chk u = (u', Ok st) -> ccrun T u' t.
Proof.
  intros H E. eapply ccrun_same; [|exact H]. destruct H as (H1 & H2 & H3 & H4).
  exact (set_again _ _ law tm n u u' i chk st H1 H3 E).
Qed.
Lemma sp_again T : sp (ccrun T) (cyc_setCurrent o diag i vlim) (fun _ => ccrun T).
Proof.
  unfold cyc_setCurrent. eapply sp_bind; [apply sp_V, ccrun_sees|]. intros Vini.
  eapply (sp_bind _ _ _ (fun Iini u t => ccrun T u t /\ Iini = i)).
  { apply sp_call. cbn [q_I fleet_if]. intros u u' t b H [= <- <-]. split; [exact H|]. destruct H as (H1 & _ & H3 & _).
    exact (even_I _ _ law tm n u i H1 H3). }
  intros Iini. eapply (sp_bind _ _ _ (fun st u t => ccrun T u t /\ Iini = i)).
  { apply sp_call. cbn [q_setCurrent fleet_if]. intros u u' t st [H ->] E. split; [|reflexivity]. eapply ccrun_again; eauto. }
  intros st. destruct (isStatusVoltageLimitsViolated st) eqn:V.
  - eapply (sp_bind _ _ _ (fun _ => ccrun T)); [|intros; now apply sp_ret].
    apply sp_call. cbn [q_setCurrent fleet_if]. intros u u' t st' [H ->] E. eapply ccrun_again; eauto.
  - eapply (sp_bind _ _ _ (fun _ => ccrun T)).
    + eapply sp_conseq; [|intros b u t H; exact H|apply sp_V, ccrun_sees]. now intros u t [H _].
    + intros Vnew. repeat match goal with |- context [if ?b then mret _ else _] => destruct b end; now apply sp_ret.
Qed.
(** the first command *)
Definition ready (u : tree n) (t : th R) : Prop :=
  chain n u /\ Forall2 (passed []) l0 (leaves n u) /\ (diag = true -> Forall (answers F tm i) (leaves n u)) /\ t = t0.
Lemma ready_sees : sees ready.
Proof.
  intros u u' t E (H1 & H2 & H3 & H4). split; [eapply st_chain; eauto|]. split; [eapply same_passed; [apply looked_same; exact E|exact H2]|].
  split; [|exact H4]. intros D. specialize (H3 D). apply st_leaves in E. clear - E H3. induction E as [|c d l l' H _ IH]; [constructor|].
  inversion H3; subst. constructor; [|auto]. destruct H as [->| ->]; [assumption|]. now apply answers_V.
Qed.
Lemma accepted_or_limited (u u' : tree n) st : all_series n u -> (diag = true -> Forall (answers F tm i) (leaves n u)) ->
  o_setCurrent (ops n) i diag u = (u', Ok st) -> isStatusVoltageLimitsViolated st = false -> isStatusBad st = false.
Proof.
  intros Hs Ha H V. destruct (isStatusBad st) eqn:B; [|reflexivity]. exfalso. destruct diag.
  - destruct (rejected_where (cell_ops F tm) tm n _ _ _ _ _ Hs H B) as (c & c' & K1 & K2). specialize (Ha eq_refl). rewrite Forall_forall in Ha.
    specialize (Ha c K1 c' st K2 B). congruence.
  - pose proof (unchecked_ok _ _ law tm n u u' i st Hs H). congruence.
Qed.
Lemma sp_first : sp ready (cyc_setCurrent o diag i vlim) (fun st u t => st <> ReachedTimeLimit /\ (st = Success \/ st = ReachedVoltageLimit -> ccrun 0 u t)).
Proof.
  unfold cyc_setCurrent. eapply sp_bind; [apply sp_V, ready_sees|]. intros Vini.
  eapply (sp_bind _ _ _ (fun _ => ready)).
  { apply sp_call. cbn [q_I fleet_if]. intros u u' t b H [= <- <-]. exact H. }
  intros Iini. eapply (sp_bind _ _ _ (fun st u t => isStatusVoltageLimitsViolated st = false -> ccrun 0 u t)).
  { apply sp_call. cbn [q_setCurrent fleet_if]. intros u u' t st (H1 & H2 & H3 & H4) E V.
    pose proof (set_frame _ _ law tm n _ _ _ _ _ E) as G.
    assert (B : isStatusBad st = false) by (eapply accepted_or_limited; [apply H1|exact H3|exact E|exact V]).
    split; [eapply st_chain; eauto|]. split.
    { apply st_leaves in G. pose proof (passed_with _ _ _ _ H2 G) as K. eapply Forall2_impl; [|exact K]. intros c d. apply after_same; cbn; ring. }
    split; [exact (accepted _ _ law tm n u u' i diag st (proj1 H1) E B)|].
    rewrite H4. unfold Rdiv. split; ring. }
  intros st. destruct (isStatusVoltageLimitsViolated st) eqn:V.
  - eapply (sp_bind _ _ _ (fun _ _ _ => True)); [apply sp_call; auto|]. intros st'. apply sp_ret. intros u t _. split; [|intros [-> | ->]; discriminate]. intros ->. discriminate.
  - eapply (sp_bind _ _ _ (fun _ => ccrun 0)).
    + eapply sp_conseq; [|intros b u t H; exact H|apply sp_V, ccrun_sees]. auto.
    + intros Vnew. repeat match goal with |- context [if ?b then mret _ else _] => destruct b end; apply sp_ret; intros; (split; [discriminate|auto]).
Qed.

Lemma success_is st : isStatusSuccessful st = true -> st = Success.
Proof. destruct st; cbn; congruence. Qed.
Lemma sp_cc_adapt T vo vi k up : sp (ccrun T) (cc_adapt o i vlim vo vi k up) (fun _ => ccrun T).
Proof.
  unfold cc_adapt. destruct (nltb i (nZ 0)); [now apply sp_ret|]. cbn zeta.
  assert (Q : sp (ccrun T) (call (q_Vlow o)) (fun _ => ccrun T)).
  { apply sp_call. cbn [q_Vlow fleet_if]. intros u u' t b H E. eapply ccrun_same; [|exact H]. exact (low_calm _ _ law tm n _ _ _ E). }
  eapply sp_bind; [exact Q|]. intros v1. match goal with |- context [let '(_, _) := ?p in _] => destruct p as [n2 up2] end.
  eapply sp_bind; [exact Q|]. intros v2. now apply sp_ret.
Qed.
Lemma sp_cc_loop ndt nm : (1 <= nm)%Z -> forall fuel dti ttot idat nOnce vo vi up, 0 < dti -> 0 <= ttot <= tlim -> (1 <= nOnce)%Z ->
  sp (ccrun ttot) (cc_loop o nmax diag fuel i vlim tlim ndt nm dti ttot idat nOnce vo vi up)
     (fun r u t => match r with inl st => st <> ReachedTimeLimit /\ st <> ReachedVoltageLimit
                           | inr (T, _) => 0 <= T <= tlim /\ ccrun T u t end).
Proof.
  intros Hnm. induction fuel as [|fuel IH]; intros dti ttot idat nOnce vo vi up Hd Hl Hn; cbn [cc_loop].
  all: destruct (negb (nltb ttot tlim)) eqn:L; [apply sp_ret; auto|].
  { intros w w' b _. discriminate. }
  assert (L' : ttot < tlim) by (apply Rltb_true; now destruct (nltb ttot tlim)). clear L.
  eapply sp_bind; [apply sp_again|]. intros st0. cbn zeta.
  destruct (cut_facts nOnce dti (tlim - ttot)) as (C1 & C2 & C3 & _); [exact Hn|exact Hd|lra|].
  cbn [nsub RNum] in *.
  set (k := cut_n nOnce dti (tlim - ttot)) in *. set (d := cut_dt dti (tlim - ttot)) in *. clearbody k d.
  set (T' := ttot + d * IZR k).
  assert (HT : 0 <= T' <= tlim) by (assert (0 <= IZR k) by (apply IZR_le; lia); assert (0 <= d * IZR k) by (apply Rmult_le_pos; lra); unfold T'; lra).
  set (half := fun (u : tree n) (t : th R) => chain n u /\ Forall2 (passed [(i, T')]) l0 (leaves n u) /\
    Forall (fun c => current_of c = i) (leaves n u) /\ th_time t = th_time t0 + ttot /\ th_Ah t = th_Ah t0 + Rabs i * ttot / 3600).
  assert (HS' : forall u u' t, same n u u' -> half u t -> half u' t).
  { intros u u' t E (H1 & H2 & H3 & H4). split; [eapply st_chain; eauto|]. split; [eapply same_passed; eauto|]. split; [eapply same_even; eauto|exact H4]. }
  assert (HS : sees half) by (intros u u' t E; apply HS', looked_same, E).
  eapply (sp_bind _ _ _ (fun ok u t => ok = true -> half u t)).
  { intros w w' b Hp. unfold try, mbind. destruct (call (q_step o d k) w) as [w1 [[]| | |]] eqn:E; cbn beta iota; intros [= <- <-]; [|discriminate].
    intros ?. unfold call in E. cbn [q_step fleet_if] in E. destruct (o_timeStep (ops n) d k (c_su w)) as [u' r] eqn:Es. injection E as <- ->. cbn [c_su c_th].
    destruct Hp as (H1 & H2 & H3 & H5 & H6).
    destruct (step_went i ttot d k _ u' H1 H2 H3) as (K1 & K2 & K3); [lia|exact Es|]. exact (conj K1 (conj K2 (conj K3 (conj H5 H6)))). }
  intros [|]; cbn [negb]; [|apply sp_ret; intros; split; discriminate].
  eapply (sp_bind _ _ _ (fun r u t => match r with inl st => st <> ReachedTimeLimit /\ st <> ReachedVoltageLimit
                                             | inr v => half u t end)).
  { destruct diag.
    - eapply (sp_bind _ _ _ (fun vs u t => half u t /\ snd vs <> ReachedTimeLimit /\ snd vs <> ReachedVoltageLimit)).
      + apply sp_call. cbn [q_checkV fleet_if]. intros u u' t [v st] Hh E. specialize (Hh eq_refl). cbn [snd].
        split; [eapply HS'; [exact (check_calm _ _ law tm n _ _ _ E)|exact Hh]|].
        pose proof (check_status _ _ law tm n _ _ _ _ E) as N. split; intros ->; cbn in N; lia.
      + intros [v st]. cbn [fst snd]. apply sp_ret. intros u t [H1 H2]. destruct (isStatusSuccessful st) eqn:B; [exact H1|exact H2].
    - eapply (sp_bind _ _ _ (fun _ => half)).
      + eapply sp_conseq; [|intros b u t H; exact H|apply sp_V, HS]. auto.
      + intros v. apply sp_ret. intros u t H. destruct (nleb v (nZ 0)); [split; discriminate|]. exact H. }
  intros [st|vi']; [now apply sp_ret|].
  eapply (sp_bind _ _ _ (fun _ => half)); [apply sp_V, HS|].
  intros ?. eapply (sp_bind _ _ _ (fun _ => ccrun T')).
  { apply sp_add. intros u h (H1 & H2 & H3 & H4 & H5). unfold ccrun. cbn [th_time th_Ah]. rewrite H4, H5. cbn [nadd nmul ndiv nabs RNum]. rewrite !R_nZ.
    repeat (split; [assumption|]). unfold T', Rdiv. split; ring. }
  intros ?. cbn [nadd nmul RNum]. rewrite R_nZ. fold T'. eapply sp_bind; [apply sp_store_due, ccrun_sees|]. intros idat'.
  destruct (beyond i vi' vlim).
  - apply sp_ret. intros u t H. split; [exact HT|exact H].
  - eapply sp_bind; [apply sp_cc_adapt|]. intros nu. apply IH; [lra|exact HT|]. apply zclamp_range. exact Hnm.
Qed.
Lemma sp_CC fuel dt ndt : 0 < dt -> 0 <= tlim -> sp ready (CC o nmax diag fuel i vlim tlim dt ndt)
  (fun st u t => st = ReachedTimeLimit \/ st = ReachedVoltageLimit ->
     exists T, 0 <= T <= tlim /\ (st = ReachedTimeLimit -> T = tlim) /\ ccrun T u t).
Proof.
  intros Hd Ht. unfold CC. eapply sp_bind; [apply sp_store_if, ready_sees|]. intros ?.
  eapply sp_bind; [apply sp_first|]. intros st. destruct (isStatusSuccessful st) eqn:B; cbn [negb].
  2:{ apply sp_ret. intros u t [N H] Hst. exists 0. split; [lra|]. split; [intros ->; congruence|]. destruct Hst as [-> | ->]; [congruence|auto]. }
  apply success_is in B. subst st.
  eapply (sp_bind _ _ _ (fun _ => ccrun 0)).
  { eapply sp_conseq; [|intros b0 u t H; exact H|apply sp_V, ccrun_sees]. intros u t [_ H]. auto. }
  intros v0. destruct (beyond i v0 vlim).
  { apply sp_ret. intros u t H _. exists 0. split; [lra|]. split; [discriminate|exact H]. }
  eapply sp_bind.
  { rewrite R_nZ. apply sp_cc_loop; [|exact Hd|lra|lia]. destruct (Z.ltb_spec 0 ndt); lia. }
  intros [st|[T vt]]; cbn beta iota.
  { apply sp_ret. intros u t [H1 H2] [-> | ->]; congruence. }
  destruct (nleb tlim T) eqn:E.
  - apply Rleb_true in E. eapply (sp_bind _ _ _ (fun _ u t => 0 <= T <= tlim /\ ccrun T u t)).
    { apply sp_store_if. intros u u' t Eq [H1 H2]. split; [exact H1|]. eapply ccrun_sees; eauto. }
    intros ?. apply sp_ret. intros u t [H1 H2] _. exists T. split; [exact H1|]. split; [lra|exact H2].
  - destruct vt; [|apply sp_throw]. eapply (sp_bind _ _ _ (fun _ u t => 0 <= T <= tlim /\ ccrun T u t)).
    { apply sp_store_if. intros u u' t Eq [H1 H2]. split; [exact H1|]. eapply ccrun_sees; eauto. }
    intros ?. apply sp_ret. intros u t [H1 H2] _. exists T. split; [exact H1|]. split; [discriminate|exact H2].
Qed.
End CC.
End Run.
End Fleet.
