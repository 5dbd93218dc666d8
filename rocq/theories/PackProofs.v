(** * Proofs about a cycler working on a string of cells *)
From Coq Require Import List Lia Reals Lra.
From Verif Require Import Base RFacts StatusModel StatusProofs CellModel CellSpec CellProofs CoolModel ModuleModel ModuleSpec ModuleProofs ModuleProofs2 ModuleProofs3
  ModuleProofs4 ModuleProofs5 ModuleProofs6 CyclerModel CyclerSpec CyclerProofs PackModel PackSpec.
Import ListNotations.
Local Open Scope R_scope.

Section Tree.
Notation tree n := (su R (ecmu R) n).
Notation ops tm n := (su_ops_at (A := R) ecm_ops tm n).

(** ** Queries leave the tree alone *)
Lemma eq_refl_tree n (u : tree n) : same_tree eq n u u.
Proof. apply st_refl. reflexivity. Qed.
Lemma each_rel {S B : Type} (P : S -> S -> Prop) (f : M S B) : (forall s, P s s) -> (forall s s' r, f s = (s', r) -> P s s') ->
  forall l l' r, each f l = (l', r) -> Forall2 P l l'.
Proof.
  intros HR HP. induction l as [|s l IH]; intros l' r H; cbn [each] in H; [injection H as <- <-; constructor|].
  destruct (f s) as [s' [b| | |]] eqn:E; try (injection H as <- <-; constructor; [eapply HP; eauto|now apply Forall2_refl]).
  destruct (each f l) as [l'' r'] eqn:E2. injection H as <- <-. constructor; [eapply HP; eauto|eapply IH; eauto].
Qed.
Lemma eq_tree_trans n (u v w : tree n) : same_tree eq n u v -> same_tree eq n v w -> same_tree eq n u w.
Proof. apply st_trans3. intros; congruence. Qed.
Lemma checkV_same tm n : forall (u u' : tree n) r, o_checkV (ops tm n) u = (u', r) -> same_tree eq n u u'.
Proof.
  induction n as [|n IH]; intros u u' r H; [cbn in H; now injection H|].
  node u c m; cbn [su_ops_at sum_ops o_checkV both mod_ops] in H; unfold on_l, on_r in H; [cbn in H; injection H as <- <-; apply eq_refl|].
  unfold mod_checkV in H. destruct (mod_V _ m) as [m1 rv] eqn:EV.
  assert (K : same_tree eq (S n) (inr m : tree (S n)) (inr m1)).
  { destruct (V_leaves tm (S n) (inr m) (inr m1) rv) as [_ X]; [cbn; unfold on_r; rewrite EV; reflexivity|exact X]. }
  destruct rv as [v| | |]; try (injection H as <- <-; exact K).
  destruct (each _ (ms m1)) as [l rl] eqn:EL. assert (F := each_rel _ _ (eq_refl_tree n) IH _ _ _ EL).
  assert (J : same_tree eq (S n) (inr m : tree (S n)) (inr (mkM (mm m1) l))).
  { eapply eq_tree_trans; [exact K|]. cbn. split; [reflexivity|exact F]. }
  destruct rl; injection H as <- <-; exact J.
Qed.
Lemma Vlow_same tm n : forall (u u' : tree n) r, o_Vlow (ops tm n) u = (u', r) -> same_tree eq n u u'.
Proof.
  induction n as [|n IH]; intros u u' r H; [cbn in H; now injection H|].
  node u c m; cbn [su_ops_at sum_ops o_Vlow both mod_ops] in H; unfold on_l, on_r in H; [cbn in H; injection H as <- <-; apply eq_refl|].
  unfold mod_Vlow in H. destruct (each _ (ms m)) as [l rl] eqn:EL. injection H as <- <-.
  cbn. split; [reflexivity|]. exact (each_rel _ _ (eq_refl_tree n) IH _ _ _ EL).
Qed.
Lemma eq_leaves n (u v : tree n) : same_tree eq n u v -> leaves n v = leaves n u.
Proof. intros H. apply same_tree_leaves in H. induction H; cbn; congruence. Qed.

Lemma nonempty_same P n : forall u v : tree n, same_tree P n u v -> every_module (fun _ _ l => l <> []) n u -> every_module (fun _ _ l => l <> []) n v.
Proof.
  induction n as [|n IH]; intros u v; [cbn; auto|]. node u c m; node v d k; cbn; try tauto. intros [_ H] [N F]. split.
  - intros E. rewrite E in H. inversion H. congruence.
  - clear N. revert F. induction H as [|a b l l' Hab _ IHl]; intros F; [constructor|]. inversion F; subst. constructor; eauto.
Qed.
Lemma string_same P n (u v : tree n) : same_tree P n u v -> string n u -> string n v.
Proof. intros H [S1 S2]. split; [eapply serial_same; eauto|eapply nonempty_same; eauto]. Qed.

(** ** Time steps of series trees keep the currents *)
Definition but_T (c d : ecmu R) : Prop := but_IT c d /\ e_I (es (u_ecm d)) = e_I (es (u_ecm c)).
Lemma but_T_refl c : but_T c c. Proof. split; [apply but_IT_refl|reflexivity]. Qed.
Lemma but_T_trans a b c : but_T a b -> but_T b c -> but_T a c.
Proof. intros [H1 H2] [K1 K2]. split; [eapply but_IT_trans; eauto|congruence]. Qed.
Lemma leaf_setT_T t (c c' : ecmu R) r : o_setT ecm_ops t c = (c', r) -> but_T c c'.
Proof.
  intros H. split; [eapply leaf_setT_IT; eauto|]. revert H.
  cbn [ecm_ops o_setT]. unfold lift_ecm. destruct (ecm_setT t (u_ecm c)) as [e x] eqn:E. intros [= <- <-]. unfold ecm_setT in E.
  injection E as <- <-. reflexivity.
Qed.
Lemma setT_T tm n t (u u' : tree n) r : o_setT (ops tm n) t u = (u', r) -> same_tree but_T n u u'.
Proof.
  destruct n as [|n]; intros H; [now apply leaf_setT_T in H|].
  node u c m; cbn [su_ops_at sum_ops o_setT both mod_ops] in H; unfold on_l, on_r in H.
  - destruct (o_setT ecm_ops t c) as [c' r'] eqn:E. injection H as <- <-. now apply leaf_setT_T in E.
  - destruct (mod_setT t m) as [m' r'] eqn:E. injection H as <- <-. apply mod_setT_frame in E. destruct E as [E1 F].
    cbn. rewrite E1. split; [symmetry; apply F|]. apply Forall2_refl, st_refl, but_T_refl.
Qed.
Lemma th_T tm n : (forall nb t (u u' : tree n) r, o_thermal (ops tm n) nb t u = (u', r) -> same_tree but_T n u u') ->
  forall s s', th_rel (ops tm n) s s' -> same_tree but_T n s s'.
Proof.
  intros K. induction 1 as [s|nb t s s' H IHr|t s s' H IHr]; [apply st_refl, but_T_refl| |].
  - destruct (o_thermal (ops tm n) nb t s) as [s1 r1] eqn:E1. apply K in E1. eapply st_trans3; [exact but_T_trans|exact E1|exact IHr].
  - destruct (o_setT (ops tm n) t s) as [s1 r1] eqn:E1. apply setT_T in E1. eapply st_trans3; [exact but_T_trans|exact E1|exact IHr].
Qed.
Lemma thermal_T tm n : forall nb t (u u' : tree n) r, o_thermal (ops tm n) nb t u = (u', r) -> same_tree but_T n u u'.
Proof.
  induction n as [|n IH]; intros nb t u u' r H; [cbn in H; injection H as <- <-; apply but_T_refl|].
  node u c m; cbn [su_ops_at sum_ops o_thermal both mod_ops] in H; unfold on_l, on_r in H.
  - cbn in H. injection H as <- <-. apply but_T_refl.
  - destruct (mod_thermal _ tm nb t m) as [m' r'] eqn:E. injection H as <- <-. apply mod_thermal_frame in E. destruct E as [E1 F].
    cbn. split; [symmetry; apply F|]. eapply Forall2_impl; [|exact E1]. apply th_T, IH.
Qed.
Definition steady (dt : R) (k : Z) (c d : ecmu R) : Prop := advanced dt k c d /\ e_I (es (u_ecm d)) = e_I (es (u_ecm c)).
Lemma steady_all tm n : forall dt k (u u' : tree n), all_series n u -> o_timeStep (ops tm n) dt k u = (u', Ok tt) -> same_tree (steady dt k) n u u'.
Proof.
  assert (L : forall dt k (c c' : ecmu R), o_timeStep ecm_ops dt k c = (c', Ok tt) -> steady dt k c c').
  { intros dt k c c'. cbn [ecm_ops o_timeStep]. unfold lift_ecm. destruct (ecm_timeStep_CC dt k (u_ecm c)) as [e x] eqn:E.
    intros [= <- ->]. split; [exists e; auto 10|]. cbn [u_ecm]. unfold ecm_timeStep_CC in E. destruct (nltb dt (nZ 0)); [discriminate|].
    apply ecm_steps_frame in E. apply E. }
  induction n as [|n IH]; intros dt k u u' Hs H; [now apply L|].
  node u c m; cbn [su_ops_at sum_ops o_timeStep both mod_ops] in H; unfold on_l, on_r in H.
  - destruct (o_timeStep ecm_ops dt k c) as [c' r'] eqn:E. injection H as <- ->. now apply L.
  - destruct (mod_timeStep _ tm dt k m) as [m' r'] eqn:E. injection H as <- ->. apply mod_timeStep_ok in E.
    destruct Hs as [S1 S2]. cbn in S1. fold (all_series (A := R) (C := ecmu R) n) in S2.
    destruct E as (l1 & l2 & us & E1 & E2 & E3 & r & _ & E4 & E5). cbn. split; [rewrite E4; symmetry; apply E5|].
    rewrite S1 in E3. rewrite E3. destruct (each_ok _ _ _ _ E1) as (G & L1 & L2).
    assert (F1 : Forall2 (same_tree (steady dt k) n) (ms m) l1).
    { clear - IH G L1 S2. revert l1 us G L1. induction (ms m) as [|s l IHl]; intros [|a l1] [|x us] G L1; inversion G; subst; try discriminate; constructor.
      - cbn in *. destruct x. inversion S2; subst. eapply IH; eauto.
      - inversion S2; subst. eapply IHl; eauto. }
    assert (F2 : Forall2 (same_tree but_T n) l1 l2) by (eapply Forall2_impl; [|exact E2]; apply th_T, thermal_T).
    clear - F1 F2. revert F2. generalize l2 as l3. induction F1 as [|a b la lb Hab _ IHl]; intros l3 K; inversion K; subst; constructor; auto.
    eapply st_trans3; [|exact Hab|eassumption]. intros x1 y1 z1 [(e & J1 & J2 & J3 & J4 & J5 & J6 & J7 & J8) J9] [(K1 & K2 & K3 & K4 & K5 & K6 & K7) K8].
    split; [exists e; repeat split; congruence|congruence].
Qed.
Lemma steady_counts dt k c d : steady dt k c d -> (0 <= k)%Z -> 0 <= dt -> went_through [(e_I (es (u_ecm c)), dt * IZR k)] c d.
Proof.
  intros [(e & H & _ & H2 & H3 & _ & H5 & H6 & _) _] Hk Hd. unfold ecm_timeStep_CC in H. destruct (nltb dt _); [discriminate|].
  pose proof (ecm_steps_frame _ _ _ _ _ H) as (Fp & _). destruct (steps_R _ dt Hd _ _ _ H) as (S1 & S2 & S3 & _).
  rewrite INR_IZR_INZ, Z2Nat.id in * by exact Hk. unfold went_through. cbn [charge throughput duration].
  rewrite H2, H3, H5, H6, Fp, S1, S2, S3. split; [reflexivity|]. unfold Rdiv. repeat split; ring.
Qed.

(** ** Phases *)
Lemma charge_app a b : charge (a ++ b) = charge a + charge b.
Proof. induction a as [|[i t] a IH]; cbn; [ring|]. rewrite IH. ring. Qed.
Lemma throughput_app a b : throughput (a ++ b) = throughput a + throughput b.
Proof. induction a as [|[i t] a IH]; cbn; [ring|]. rewrite IH. ring. Qed.
Lemma duration_app a b : duration (a ++ b) = duration a + duration b.
Proof. induction a as [|[i t] a IH]; cbn; [ring|]. rewrite IH. ring. Qed.
Lemma went_app a b c d e : went_through a c d -> went_through b d e -> went_through (a ++ b) c e.
Proof.
  intros (H1 & H2 & H3 & H4) (K1 & K2 & K3 & K4). unfold went_through. rewrite charge_app, throughput_app, duration_app.
  rewrite K1, K2, K3, K4, H1, H2, H3, H4. split; [reflexivity|]. unfold Rdiv. repeat split; ring.
Qed.
Lemma went_nil c : went_through [] c c.
Proof. unfold went_through. cbn. unfold Rdiv. repeat split; ring. Qed.
Lemma went_same a b c d : charge a = charge b -> throughput a = throughput b -> duration a = duration b -> went_through a c d -> went_through b c d.
Proof. unfold went_through. intros -> -> ->. auto. Qed.
Lemma went_only_I c d : only_I c d -> went_through [] c d.
Proof. intros (_ & H2 & H3). unfold went_through. rewrite H2, H3. cbn. unfold Rdiv. repeat split; ring. Qed.
Lemma went_all_app a b (l1 l2 l3 : list (ecmu R)) : Forall2 (went_through a) l1 l2 -> Forall2 (went_through b) l2 l3 -> Forall2 (went_through (a ++ b)) l1 l3.
Proof.
  intros H. revert l3. induction H as [|c d l1 l2 Hcd _ IH]; intros l3 K; inversion K; subst; constructor; auto. eapply went_app; eauto.
Qed.
Lemma booked_app a b t1 t2 t3 : booked_as a t1 t2 -> booked_as b t2 t3 -> booked_as (a ++ b) t1 t3.
Proof.
  intros [H1 H2] [K1 K2]. unfold booked_as. rewrite duration_app, throughput_app, K1, K2, H1, H2. unfold Rdiv. split; ring.
Qed.

(** ** Current commands *)
Definition live (c : ecmu R) : Prop := exists v, ecm_V (u_ecm c) = Ok v /\ 0 < v.
(** a rejected command on a series tree comes from one of its cells *)
Lemma rejected_by tm n : forall (u u' : tree n) i chk st, all_series n u ->
  o_setCurrent (ops tm n) i chk u = (u', Ok st) -> isStatusBad st = true ->
  exists c e, In c (leaves n u) /\ ecm_setCurrent i chk (u_ecm c) = (e, Ok st).
Proof.
  assert (L : forall (c c' : ecmu R) i chk st, o_setCurrent ecm_ops i chk c = (c', Ok st) -> exists e, ecm_setCurrent i chk (u_ecm c) = (e, Ok st)).
  { intros c c' i chk st. cbn. unfold lift_ecm. destruct (ecm_setCurrent i chk (u_ecm c)) as [e r]. intros [= <- ->]. eauto. }
  induction n as [|n IH]; intros u u' i chk st Hs H B.
  - destruct (L _ _ _ _ _ H) as [e E]. exists u, e. split; [now left|exact E].
  - node u c m; cbn [su_ops_at sum_ops o_setCurrent both mod_ops] in H; unfold on_l, on_r in H.
    + destruct (o_setCurrent ecm_ops i chk c) as [c' r] eqn:E. injection H as <- ->. destruct (L _ _ _ _ _ E) as [e E']. exists c, e. split; [now left|exact E'].
    + destruct (mod_setCurrent _ i chk m) as [m' r] eqn:E. injection H as <- ->. destruct Hs as [S1 S2]. cbn in S1. fold (all_series (A := R) (C := ecmu R) n) in S2.
      unfold mod_setCurrent in E. rewrite S1 in E. destruct (s_setCurrent _ _ _ _ _ _ _) as [l r] eqn:E1. injection E as <- ->.
      assert (X : forall todo k olds (l0 l1 : list (tree n)), (forall j s, (k <= j)%nat -> nth_error l0 j = Some s -> In s (ms m)) ->
        s_setCurrent (ops tm n) todo k i chk olds l0 = (l1, Ok st) -> exists s s', In s (ms m) /\ o_setCurrent (ops tm n) i chk s = (s', Ok st)).
      { clear - B. induction todo as [|todo IHt]; intros k olds l0 l1 Hin H; cbn [s_setCurrent] in H; [injection H as _ <-; discriminate|].
        destruct (Nat.leb NSUs_MAX k); [discriminate|]. destruct (nth_error l0 k) as [s|] eqn:En; [|discriminate].
        destruct (child_do _ k l0) as [l2 [st1| | |]] eqn:Ec; try discriminate.
        destruct (child_do_spec _ _ _ _ _ Ec) as [(s0 & s' & F1 & F2 & ->)|(_ & _ & ?)]; [|discriminate].
        assert (s0 = s) by congruence. subst s0.
        destruct (isStatusBad st1).
        - destruct (s_restore _ k _ _) as [l3 [x| | |]]; try discriminate. injection H as _ <-. exists s, s'. split; [eapply Hin; eauto|exact F2].
        - eapply IHt; [|exact H]. intros j t Hj Ht. rewrite nth_error_list_set in Ht. destruct (Nat.eqb_spec k j); [lia|]. eapply Hin; [|exact Ht]. lia. }
      destruct (X _ _ _ _ _ (fun j s _ Hj => nth_error_In _ _ Hj) E1) as (s & s' & I1 & I2).
      destruct (IH s s' i chk st) as (c & e & K1 & K2); auto; [rewrite Forall_forall in S2; auto|].
      exists c, e. split; [|exact K2]. cbn. apply in_flat_map. eauto.
Qed.
(** with live cells, a command is accepted or a voltage limit is reported *)
Lemma accepted_or_limit tm n (u u' : tree n) i chk st : all_series n u -> (chk = true -> alive_at i n u) ->
  o_setCurrent (ops tm n) i chk u = (u', Ok st) -> isStatusVoltageLimitsViolated st = false -> isStatusBad st = false.
Proof.
  intros Hs Ha H V. destruct (isStatusBad st) eqn:B; [|reflexivity]. exfalso.
  destruct (rejected_by _ _ _ _ _ _ _ Hs H B) as (c & e & H1 & H2). unfold ecm_setCurrent, ecm_checkCurrent in H2. destruct chk.
  - specialize (Ha eq_refl). unfold alive_at in Ha. rewrite Forall_forall in Ha. destruct (Ha c H1) as (v & Ev & Hv).
    unfold ecm_checkVoltage, check_voltage in H2. rewrite Ev in H2. cbn [rmap rbind snd] in H2. injection H2 as _ <-.
    match type of V with isStatusVoltageLimitsViolated (if ?b then _ else _) = _ => destruct b eqn:El end.
    { apply Rleb_true in El. unfold nlit, RNum in El. cbn in El. lra. }
    clear H. repeat match type of V with context [isStatusVoltageLimitsViolated (if ?b then _ else _)] => destruct b end; discriminate.
  - injection H2 as _ <-. discriminate.
Qed.

Lemma leaves_some n : forall u : tree n, every_module (fun _ _ l => l <> []) n u -> leaves n u <> [].
Proof.
  induction n as [|n IH]; intros s W; [discriminate|]. node s c m; [discriminate|].
  cbn in *. destruct W as [W0 W]. destruct (ms m) as [|x l]; [congruence|]. inversion W; subst. cbn.
  intros E. apply app_eq_nil in E. destruct E as [E _]. exact (IH x H1 E).
Qed.

(** ** Runs that return *)
Section Run.
Context (tm : Z) (n : nat) (store write : M (tree n) unit) (nmax : nat).
Notation o := (tree_if tm n store write).
Notation W := (cyc R (tree n)).
Context (Hstore : harmless store) (Hwrite : harmless write).

Definition sp {B : Type} (P : tree n -> th R -> Prop) (m : M W B) (Q : B -> tree n -> th R -> Prop) : Prop :=
  forall w w' b, P (c_su w) (c_th w) -> m w = (w', Ok b) -> Q b (c_su w') (c_th w').
Lemma sp_ret {B : Type} (P : tree n -> th R -> Prop) (b : B) (Q : B -> tree n -> th R -> Prop) : (forall u t, P u t -> Q b u t) -> sp P (mret b) Q.
Proof. intros H w w' b' Hp [= <- <-]. auto. Qed.
Lemma sp_throw {B : Type} (P : tree n -> th R -> Prop) c (Q : B -> tree n -> th R -> Prop) : sp P (mthrow c) Q.
Proof. intros w w' b' Hp. discriminate. Qed.
Lemma sp_bind {B C : Type} (P : tree n -> th R -> Prop) (m : M W B) (f : B -> M W C) (R0 : B -> tree n -> th R -> Prop) (Q : C -> tree n -> th R -> Prop) :
  sp P m R0 -> (forall b, sp (R0 b) (f b) Q) -> sp P (mbind m f) Q.
Proof.
  intros H1 H2 w w' c Hp E. unfold mbind in E. destruct (m w) as [w1 [b| | |]] eqn:Em; try discriminate.
  eapply H2; [|exact E]. eapply H1; eauto.
Qed.
Lemma sp_conseq {B : Type} (P P' : tree n -> th R -> Prop) (m : M W B) (Q Q' : B -> tree n -> th R -> Prop) :
  (forall u t, P' u t -> P u t) -> (forall b u t, Q b u t -> Q' b u t) -> sp P m Q -> sp P' m Q'.
Proof. intros H1 H2 H w w' b Hp E. eapply H2, H; eauto. Qed.
Lemma sp_call {B : Type} (P : tree n -> th R -> Prop) (f : M (tree n) B) (Q : B -> tree n -> th R -> Prop) :
  (forall u u' t b, P u t -> f u = (u', Ok b) -> Q b u' t) -> sp P (call f) Q.
Proof.
  intros H w w' b Hp E. unfold call in E. destruct (f (c_su w)) as [s r] eqn:Ef. injection E as <- ->. cbn. eauto.
Qed.
Lemma sp_add (P : tree n -> th R -> Prop) (t a e : R) (Q : unit -> tree n -> th R -> Prop) :
  (forall u h, P u h -> Q tt u (mkTh (th_time h + t) (th_Ah h + a) (th_Wh h + e))) -> sp P (add_th t a e) Q.
Proof. intros H w w' [] Hp [= <-]. cbn. auto. Qed.

(** properties of the cells and the structure only *)
Definition sees (P : tree n -> th R -> Prop) : Prop := forall u u' t, same_tree eq n u u' -> P u t -> P u' t.
Lemma sp_query {B : Type} (P : tree n -> th R -> Prop) (f : M (tree n) B) : sees P -> (forall u u' b, f u = (u', Ok b) -> same_tree eq n u u') -> sp P (call f) (fun _ => P).
Proof. intros HS H. apply sp_call. intros u u' t b Hp E. eapply HS; [eapply H; eauto|exact Hp]. Qed.
Lemma sp_store P : sees P -> sp P (storeData o nmax) (fun _ => P).
Proof.
  intros HS. unfold storeData. eapply (sp_bind _ _ _ (fun _ => P)).
  - intros w w' b Hp [= <- <-]. exact Hp.
  - intros i. eapply (sp_bind _ _ _ (fun _ => P)).
    + destruct (Nat.leb nmax i); [|now apply sp_ret]. intros w w' b Hp. unfold writeData. cbn [q_write tree_if].
      destruct (write (c_su w)) as [s [[]| | |]] eqn:E; try discriminate. intros [= <- <-]. cbn. eapply HS; [eapply Hwrite; exact E|exact Hp].
    + intros []. eapply (sp_bind _ _ _ (fun _ => P)).
      * apply sp_query; [exact HS|]. cbn [q_store tree_if]. intros u u' [] E. now apply Hstore.
      * intros []. intros w w' b Hp [= <- <-]. exact Hp.
Qed.
Lemma sp_store_if P b : sees P -> sp P (store_if o nmax b) (fun _ => P).
Proof. intros HS. unfold store_if. destruct b; [now apply sp_store|now apply sp_ret]. Qed.
Lemma sp_store_due P idat ndt : sees P -> sp P (store_due o nmax idat ndt) (fun _ => P).
Proof.
  intros HS. unfold store_due. destruct (_ && _); [|now apply sp_ret].
  eapply (sp_bind _ _ _ (fun _ => P)); [now apply sp_store|]. intros ?. now apply sp_ret.
Qed.
Lemma sp_V P : sees P -> sp P (call (q_V o)) (fun _ => P).
Proof. intros HS. apply sp_query; [exact HS|]. cbn [q_V tree_if]. intros u u' b E. eapply V_leaves; exact E. Qed.

(** ** Resting *)
Context (l0 : list (ecmu R)).
Definition restinv (t0 : th R) (T : R) (u : tree n) (t : th R) : Prop :=
  string n u /\ Forall2 (went_through [(0, T)]) l0 (leaves n u) /\ t = t0.
Lemma restinv_sees t0 T : sees (restinv t0 T).
Proof.
  intros u u' t E (H1 & H2 & H3). split; [eapply string_same; eauto|]. rewrite (eq_leaves _ _ _ E). auto.
Qed.
Lemma sp_set0 t0 T : sp (restinv t0 T) (call (q_setCurrent o (nZ 0) false))
  (fun _ u t => restinv t0 T u t /\ Forall (fun c => e_I (es (u_ecm c)) = 0) (leaves n u)).
Proof.
  apply sp_call. cbn [q_setCurrent tree_if]. intros u u' t st (H1 & H2 & H3) E.
  pose proof (setCurrent_frame_tree _ _ _ _ _ _ _ E) as F.
  destruct (unchecked_succeeds tm n u (nZ 0) (proj1 H1)) as (u1 & st1 & E1 & B1).
  assert (X : isStatusBad st = false) by (rewrite E in E1; congruence).
  split.
  - split; [eapply string_same; eauto|]. split; [|exact H3]. apply same_tree_leaves in F.
    change [(0, T)] with ([(0, T)] ++ []). eapply went_all_app; [exact H2|]. eapply Forall2_impl; [|exact F]. exact went_only_I.
  - pose proof (accepted_everywhere tm n u u' (nZ 0) false st (proj1 (proj1 H1)) E X) as K. rewrite R_nZ in K. exact K.
Qed.
Lemma step_went i T d k (u u' : tree n) : string n u -> Forall2 (went_through [(i, T)]) l0 (leaves n u) ->
  Forall (fun c => e_I (es (u_ecm c)) = i) (leaves n u) -> 0 <= d -> (0 <= k)%Z ->
  o_timeStep (ops tm n) d k u = (u', Ok tt) ->
  string n u' /\ Forall2 (went_through [(i, T + d * IZR k)]) l0 (leaves n u') /\ Forall (fun c => e_I (es (u_ecm c)) = i) (leaves n u').
Proof.
  intros H1 H2 H3 Hd Hk E. pose proof (steady_all tm n d k u u' (proj1 (proj1 H1)) E) as F.
  split; [eapply string_same; eauto|]. apply same_tree_leaves in F.
  assert (G : Forall2 (went_through [(i, d * IZR k)]) (leaves n u) (leaves n u')).
  { clear - F H3 Hd Hk. induction F as [|c c' l l' H _ IH]; [constructor|]. inversion H3; subst. constructor; [|auto]. now apply steady_counts. }
  split.
  - pose proof (went_all_app _ _ _ _ _ H2 G) as K. eapply Forall2_impl; [|exact K]. intros c d0. apply went_same; cbn; ring.
  - clear - F H3. induction F as [|c c' l l' H _ IH]; [constructor|]. inversion H3; subst. constructor; [apply H|auto].
Qed.
Lemma sp_rest_loop t0 (tlim : R) ndt nm : (1 <= nm)%Z -> forall fuel dti ttot idat nOnce ninc, 0 < dti -> ttot <= tlim -> (1 <= nOnce)%Z ->
  sp (restinv t0 ttot) (rest_loop o nmax fuel tlim ndt nm dti ttot idat nOnce ninc)
     (fun r u t => match r with inl st => isStatusBad st = true | inr T => T <= tlim /\ restinv t0 T u t end).
Proof.
  intros Hnm. induction fuel as [|fuel IH]; intros dti ttot idat nOnce ninc Hd Hl Hn; cbn [rest_loop].
  all: destruct (negb (nltb ttot tlim)) eqn:L; [apply sp_ret; auto|].
  { intros w w' b _. discriminate. }
  assert (L' : ttot < tlim) by (apply Rltb_true; now destruct (nltb ttot tlim)). clear L.
  eapply sp_bind; [apply sp_set0|]. intros st. destruct (isStatusBad st) eqn:B; [now apply sp_ret|].
  cbn zeta. destruct (cut_facts nOnce dti (tlim - ttot)) as (C1 & C2 & C3); [exact Hn|exact Hd|lra|].
  cbn [nsub RNum] in *.
  set (k := cut_n nOnce dti (tlim - ttot)) in *. set (d := cut_dt dti (tlim - ttot)) in *. clearbody k d.
  eapply (sp_bind _ _ _ (fun _ => restinv t0 (ttot + d * IZR k))).
  { apply sp_call. cbn [q_step tree_if]. intros u u' t [] [(H1 & H2 & H3) H4] E.
    destruct (step_went 0 ttot d k u u' H1 H2 H4) as (K1 & K2 & K3); [lra|lia|exact E|]. split; [exact K1|]. split; [exact K2|exact H3]. }
  intros []. eapply sp_bind; [apply sp_store_due, restinv_sees|]. intros idat'.
  cbn [nadd nmul RNum]. rewrite R_nZ.
  destruct (rest_adapt _ _ _ _) as [n' ninc'].
  apply IH; [lra|lra|]. apply zclamp_range. exact Hnm.
Qed.
Lemma sp_rest t0 fuel (tlim dt : R) ndt : 0 < dt -> 0 <= tlim -> sp (restinv t0 0) (rest o nmax fuel tlim dt ndt)
  (fun st u t => st = ReachedTimeLimit -> restinv t tlim u t /\ t = mkTh (th_time t0 + tlim) (th_Ah t0 + nZ 0) (th_Wh t0 + nZ 0)).
Proof.
  intros Hd Ht. unfold rest. eapply sp_bind; [apply sp_store_if, restinv_sees|]. intros ?.
  eapply sp_bind.
  { rewrite R_nZ. apply sp_rest_loop; [|exact Hd|exact Ht|lia]. destruct (Z.ltb_spec 0 ndt); lia. }
  intros [st|T]; cbn beta.
  - apply sp_ret. intros u t B ->. discriminate.
  - destruct (nleb tlim T && nltb (nabs (nsub T tlim)) (nZ 1)) eqn:E; [|apply sp_throw].
    apply andb_prop in E. destruct E as [E _]. apply Rleb_true in E.
    assert (HS : sees (fun u t => T = tlim /\ restinv t0 tlim u t)).
    { intros u u' t Eq [H1 H2]. split; [exact H1|]. eapply restinv_sees; eauto. }
    eapply (sp_bind _ _ _ (fun _ u t => T = tlim /\ restinv t0 tlim u t)).
    { intros w w' st0 [H1 H2] Ec. assert (HT : T = tlim) by lra. split; [exact HT|]. subst T.
      apply (sp_set0 t0 tlim w w' st0 H2 Ec). }
    intros ?. eapply sp_bind; [apply sp_store_if, HS|]. intros ?.
    eapply (sp_bind _ _ _ (fun _ u t => restinv t tlim u t /\ t = mkTh (th_time t0 + tlim) (th_Ah t0 + nZ 0) (th_Wh t0 + nZ 0))).
    { apply sp_add. intros u h [-> (H1 & H2 & ->)]. split; [split; [exact H1|split; [exact H2|reflexivity]]|]. reflexivity. }
    intros ?. apply sp_ret. auto.
Qed.

(** ** Constant current *)
Section CC.
Context (diag : bool) (i vlim tlim : R) (t0 : th R).
Definition ccrun (T : R) (u : tree n) (t : th R) : Prop :=
  string n u /\ Forall2 (went_through [(i, T)]) l0 (leaves n u) /\ Forall (fun c => e_I (es (u_ecm c)) = i) (leaves n u) /\
  (diag = true -> alive_at i n u) /\ th_time t = th_time t0 + T /\ th_Ah t = th_Ah t0 + Rabs i * T / 3600.
Lemma ccrun_sees T : sees (ccrun T).
Proof.
  intros u u' t E (H1 & H2 & H3 & H4 & H5). unfold ccrun, alive_at in *. rewrite (eq_leaves _ _ _ E). split; [eapply string_same; eauto|]. auto.
Qed.
Lemma alive_only_I (u u' : tree n) : same_tree only_I n u u' -> alive_at i n u -> alive_at i n u'.
Proof.
  intros F. apply same_tree_leaves in F. unfold alive_at. induction F as [|c d l l' (H1 & H2 & H3) _ IH]; intros H; [constructor|].
  inversion H as [|? ? (v & Hv) HT]; subst. constructor; [|auto]. exists v. rewrite H2, H3. exact Hv.
Qed.
Lemma went_with l (a b c : list (ecmu R)) : Forall2 (went_through l) a b -> Forall2 only_I b c -> Forall2 (went_through l) a c.
Proof.
  intros H K. rewrite <- (app_nil_r l). eapply went_all_app; [exact H|]. eapply Forall2_impl; [|exact K]. exact went_only_I.
Qed.
(** setting the current that already flows *)
Lemma ccrun_again T (u u' : tree n) t chk st : ccrun T u t -> (chk = true -> diag = true) ->
  o_setCurrent (ops tm n) i chk u = (u', Ok st) -> isStatusVoltageLimitsViolated st = false -> ccrun T u' t.
Proof.
  intros (H1 & H2 & H3 & H4 & H5) Hc E V. pose proof (setCurrent_frame_tree _ _ _ _ _ _ _ E) as F.
  assert (B : isStatusBad st = false) by (eapply accepted_or_limit; [apply H1| |exact E|exact V]; auto).
  pose proof (accepted_everywhere tm n u u' i chk st (proj1 (proj1 H1)) E B) as K.
  split; [eapply string_same; eauto|]. split; [eapply went_with; [exact H2|now apply same_tree_leaves]|]. split; [exact K|].
  split; [|exact H5]. intros D. eapply alive_only_I; eauto.
Qed.
Lemma sp_again T : sp (ccrun T) (cyc_setCurrent o diag i vlim) (fun _ => ccrun T).
Proof.
  unfold cyc_setCurrent. eapply sp_bind; [apply sp_V, ccrun_sees|]. intros Vini.
  eapply (sp_bind _ _ _ (fun Iini u t => ccrun T u t /\ Iini = i)).
  { apply sp_call. cbn [q_I tree_if]. intros u u' t b H [= <- <-]. split; [exact H|]. destruct H as (H1 & _ & H3 & _).
    apply uniform_I; [apply H1| |exact H3|apply H1]. apply leaves_some, H1. }
  intros Iini. eapply (sp_bind _ _ _ (fun st u t => exists u0, ccrun T u0 t /\ Iini = i /\ o_setCurrent (ops tm n) i diag u0 = (u, Ok st))).
  { apply sp_call. cbn [q_setCurrent tree_if]. intros u u' t st [H ->] E. exists u. auto. }
  intros st. destruct (isStatusVoltageLimitsViolated st) eqn:V.
  - eapply (sp_bind _ _ _ (fun _ => ccrun T)); [|intros; now apply sp_ret].
    apply sp_call. cbn [q_setCurrent tree_if]. intros u u' t st' (u0 & (H1 & H2 & H3 & H4 & H5) & -> & E0) E.
    pose proof (setCurrent_frame_tree _ _ _ _ _ _ _ E0) as F0. pose proof (setCurrent_frame_tree _ _ _ _ _ _ _ E) as F.
    assert (L : leaves n u' = leaves n u0).
    { pose proof (all_I_equal tm n u0 u i false _ (proj1 H1) H3 F0 E eq_refl) as K. exact K. }
    unfold ccrun, alive_at. rewrite L. split; [eapply string_same; [exact F|]; eapply string_same; eauto|]. auto.
  - eapply (sp_bind _ _ _ (fun _ => ccrun T)).
    + eapply sp_conseq; [|intros b u t H; exact H|apply sp_V, ccrun_sees].
      intros u t (u0 & H & -> & E0). eapply ccrun_again; eauto.
    + intros Vnew. repeat match goal with |- context [if ?b then mret _ else _] => destruct b end; now apply sp_ret.
Qed.
(** the first command *)
Definition ready (u : tree n) (t : th R) : Prop :=
  string n u /\ l0 = leaves n u /\ (diag = true -> alive_at i n u) /\ t = t0.
Lemma ready_sees : sees ready.
Proof.
  intros u u' t E (H1 & H2 & H3 & H4). unfold ready, alive_at in *. rewrite (eq_leaves _ _ _ E). split; [eapply string_same; eauto|]. auto.
Qed.
Lemma sp_first : sp ready (cyc_setCurrent o diag i vlim) (fun st u t => st <> ReachedTimeLimit /\ (st = Success \/ st = ReachedVoltageLimit -> ccrun 0 u t)).
Proof.
  unfold cyc_setCurrent. eapply sp_bind; [apply sp_V, ready_sees|]. intros Vini.
  eapply (sp_bind _ _ _ (fun _ => ready)).
  { apply sp_call. cbn [q_I tree_if]. intros u u' t b H [= <- <-]. exact H. }
  intros Iini. eapply (sp_bind _ _ _ (fun st u t => isStatusVoltageLimitsViolated st = false -> ccrun 0 u t)).
  { apply sp_call. cbn [q_setCurrent tree_if]. intros u u' t st (H1 & H2 & H3 & H4) E V.
    pose proof (setCurrent_frame_tree _ _ _ _ _ _ _ E) as F.
    assert (B : isStatusBad st = false) by (eapply accepted_or_limit; [apply H1| |exact E|exact V]; auto).
    split; [eapply string_same; eauto|]. split.
    { apply same_tree_leaves in F. rewrite H2. eapply Forall2_impl; [|exact F]. intros c d K. apply went_only_I in K.
      revert K. apply went_same; cbn; ring. }
    split; [exact (accepted_everywhere tm n u u' i diag st (proj1 (proj1 H1)) E B)|]. split; [intros D; eapply alive_only_I; eauto|].
    rewrite H4. unfold Rdiv. split; ring. }
  intros st. destruct (isStatusVoltageLimitsViolated st) eqn:V.
  - eapply (sp_bind _ _ _ (fun _ _ _ => True)); [apply sp_call; auto|]. intros st'. apply sp_ret. intros u t _. split; [|intros [-> | ->]; discriminate]. intros ->. discriminate.
  - eapply (sp_bind _ _ _ (fun _ => ccrun 0)).
    + eapply sp_conseq; [|intros b u t H; exact H|apply sp_V, ccrun_sees]. auto.
    + intros Vnew. repeat match goal with |- context [if ?b then mret _ else _] => destruct b end; apply sp_ret; intros; (split; [discriminate|auto]).
Qed.

Lemma success_is st : isStatusSuccessful st = true -> st = Success.
Proof. destruct st; cbn; congruence. Qed.
(** a voltage check that finds every cell in order *)
Lemma checked_alive (u u' : tree n) v : Forall (fun c => e_I (es (u_ecm c)) = i) (leaves n u) ->
  o_checkV (ops tm n) u = (u', Ok (v, Success)) -> alive_at i n u.
Proof.
  intros H E. destruct (checkV_tree tm n u u' v Success E) as (_ & sts & F & [W _]). unfold alive_at.
  assert (W' : forall s, In s sts -> (status_val s <= 0)%Z) by exact W. clear W E. revert H W'.
  induction F as [|c s l sts' (x & Hx) _ IH]; intros H W; [constructor|]. inversion H; subst. constructor.
  - assert (W0 := W s (or_introl eq_refl)). unfold ecm_checkVoltage, check_voltage in Hx.
    replace (mkEcm (ep (u_ecm c)) (with_I (es (u_ecm c)) (e_I (es (u_ecm c))))) with (u_ecm c) by (destruct c as [b [p []]]; reflexivity).
    destruct (ecm_V (u_ecm c)) as [y| | |]; try discriminate; [|injection Hx as _ <-; cbn in W0; lia].
    exists y. split; [reflexivity|]. injection Hx as _ Hx.
    match type of Hx with (if ?b then _ else _) = _ => destruct b eqn:El end; [subst s; cbn in W0; lia|].
    apply Rleb_false in El. cbn in El. unfold nlit, RNum in El. cbn in El. lra.
  - apply IH; auto. intros s' Hs'. apply W. now right.
Qed.
Lemma sp_cc_adapt T vo vi k up : sp (ccrun T) (cc_adapt o i vlim vo vi k up) (fun _ => ccrun T).
Proof.
  unfold cc_adapt. destruct (nltb i (nZ 0)); [now apply sp_ret|]. cbn zeta.
  assert (Q : sp (ccrun T) (call (q_Vlow o)) (fun _ => ccrun T)).
  { apply sp_query; [apply ccrun_sees|]. cbn [q_Vlow tree_if]. intros u u' b E. eapply Vlow_same; exact E. }
  eapply sp_bind; [exact Q|]. intros v1. match goal with |- context [let '(_, _) := ?p in _] => destruct p as [n2 up2] end.
  eapply sp_bind; [exact Q|]. intros v2. now apply sp_ret.
Qed.
Lemma sp_cc_loop ndt nm : (1 <= nm)%Z -> forall fuel dti ttot idat nOnce vo vi up, 0 < dti -> 0 <= ttot <= tlim -> (1 <= nOnce)%Z ->
  sp (ccrun ttot) (cc_loop o nmax diag fuel i vlim tlim ndt nm dti ttot idat nOnce vo vi up)
     (fun r u t => match r with inl st => st <> ReachedTimeLimit /\ st <> ReachedVoltageLimit
                           | inr (T, _) => 0 <= T <= tlim /\ ccrun T u t end).
Proof.
  intros Hnm. induction fuel as [|fuel IH]; intros dti ttot idat nOnce vo vi up Hd Hl Hn; cbn [cc_loop].
  all: destruct (negb (nltb ttot tlim)) eqn:L; [apply sp_ret; auto|].
  { intros w w' b _. discriminate. }
  assert (L' : ttot < tlim) by (apply Rltb_true; now destruct (nltb ttot tlim)). clear L.
  eapply sp_bind; [apply sp_again|]. intros st0. cbn zeta.
  destruct (cut_facts nOnce dti (tlim - ttot)) as (C1 & C2 & C3 & _); [exact Hn|exact Hd|lra|].
  cbn [nsub RNum] in *.
  set (k := cut_n nOnce dti (tlim - ttot)) in *. set (d := cut_dt dti (tlim - ttot)) in *. clearbody k d.
  set (T' := ttot + d * IZR k).
  assert (HT : 0 <= T' <= tlim) by (assert (0 <= IZR k) by (apply IZR_le; lia); assert (0 <= d * IZR k) by (apply Rmult_le_pos; lra); unfold T'; lra).
  set (half := fun (u : tree n) (t : th R) => string n u /\ Forall2 (went_through [(i, T')]) l0 (leaves n u) /\
    Forall (fun c => e_I (es (u_ecm c)) = i) (leaves n u) /\ th_time t = th_time t0 + ttot /\ th_Ah t = th_Ah t0 + Rabs i * ttot / 3600).
  assert (HS : sees half).
  { intros u u' t E (H1 & H2 & H3 & H4). unfold half. rewrite (eq_leaves _ _ _ E). split; [eapply string_same; eauto|]. auto. }
  eapply (sp_bind _ _ _ (fun ok u t => ok = true -> half u t)).
  { intros w w' b Hp. unfold try, mbind. destruct (call (q_step o d k) w) as [w1 [[]| | |]] eqn:E; cbn beta iota; intros [= <- <-]; [|discriminate].
    intros ?. unfold call in E. cbn [q_step tree_if] in E. destruct (o_timeStep (ops tm n) d k (c_su w)) as [u' r] eqn:Es. injection E as <- ->. cbn [c_su c_th].
    destruct Hp as (H1 & H2 & H3 & _ & H5 & H6).
    destruct (step_went i ttot d k _ u' H1 H2 H3) as (K1 & K2 & K3); [lra|lia|exact Es|]. exact (conj K1 (conj K2 (conj K3 (conj H5 H6)))). }
  intros [|]; cbn [negb]; [|apply sp_ret; intros; split; discriminate].
  eapply (sp_bind _ _ _ (fun r u t => match r with inl st => st <> ReachedTimeLimit /\ st <> ReachedVoltageLimit
                                             | inr v => half u t /\ (diag = true -> alive_at i n u) end)).
  { destruct diag.
    - eapply (sp_bind _ _ _ (fun vs u t => (half u t /\ (snd vs = Success -> alive_at i n u)) /\ snd vs <> ReachedTimeLimit /\ snd vs <> ReachedVoltageLimit)).
      + apply sp_call. cbn [q_checkV tree_if]. intros u u' t [v st] Hh E. specialize (Hh eq_refl).
        pose proof (checkV_same _ _ _ _ _ E) as Eq. cbn [snd]. split; [split|].
        * eapply HS; eauto.
        * intros ->. unfold alive_at. rewrite (eq_leaves _ _ _ Eq). eapply checked_alive; [apply Hh|exact E].
        * destruct (checkV_tree tm n u u' v st E) as (_ & sts & F & [_ [In0|[_ ->]]]); [|split; discriminate].
          assert (N : (0 <= status_val st)%Z).
          { clear - F In0. induction F as [|c s l sts' (x & Hx) _ IH]; [destruct In0|]. destruct In0 as [<-|In0]; [eapply ecm_status_nonneg; eauto|auto]. }
          split; intros ->; cbn in N; lia.
      + intros [v st]. cbn [fst snd]. apply sp_ret. intros u t [[H1 H2] H3]. destruct (isStatusSuccessful st) eqn:B; [|exact H3].
        apply success_is in B. split; [exact H1|]. auto.
    - eapply (sp_bind _ _ _ (fun _ => half)).
      + eapply sp_conseq; [|intros b u t H; exact H|apply sp_V, HS]. auto.
      + intros v. apply sp_ret. intros u t H. destruct (nleb v (nZ 0)); [split; discriminate|]. split; [exact H|discriminate]. }
  intros [st|vi']; [now apply sp_ret|].
  eapply (sp_bind _ _ _ (fun _ u t => half u t /\ (diag = true -> alive_at i n u))).
  { apply sp_V. intros u u' t E [H1 H2]. split; [eapply HS; eauto|]. unfold alive_at. rewrite (eq_leaves _ _ _ E). exact H2. }
  intros ?. eapply (sp_bind _ _ _ (fun _ => ccrun T')).
  { apply sp_add. intros u h [(H1 & H2 & H3 & H4 & H5) H6]. unfold ccrun. cbn [th_time th_Ah]. rewrite H4, H5. cbn [nadd nmul ndiv nabs RNum]. rewrite !R_nZ.
    repeat (split; [assumption|]). unfold T', Rdiv. split; ring. }
  intros ?. cbn [nadd nmul RNum]. rewrite R_nZ. fold T'. eapply sp_bind; [apply sp_store_due, ccrun_sees|]. intros idat'.
  destruct (beyond i vi' vlim).
  - apply sp_ret. intros u t H. split; [exact HT|exact H].
  - eapply sp_bind; [apply sp_cc_adapt|]. intros nu. apply IH; [lra|exact HT|]. apply zclamp_range. exact Hnm.
Qed.
Lemma sp_CC fuel dt ndt : 0 < dt -> 0 <= tlim -> sp ready (CC o nmax diag fuel i vlim tlim dt ndt)
  (fun st u t => st = ReachedTimeLimit \/ st = ReachedVoltageLimit ->
     exists T, 0 <= T <= tlim /\ (st = ReachedTimeLimit -> T = tlim) /\ ccrun T u t).
Proof.
  intros Hd Ht. unfold CC. eapply sp_bind; [apply sp_store_if, ready_sees|]. intros ?.
  eapply sp_bind; [apply sp_first|]. intros st. destruct (isStatusSuccessful st) eqn:B; cbn [negb].
  2:{ apply sp_ret. intros u t [N H] Hst. exists 0. split; [lra|]. split; [intros ->; congruence|]. destruct Hst as [-> | ->]; [congruence|auto]. }
  apply success_is in B. subst st.
  eapply (sp_bind _ _ _ (fun _ => ccrun 0)).
  { eapply sp_conseq; [|intros b0 u t H; exact H|apply sp_V, ccrun_sees]. intros u t [_ H]. auto. }
  intros v0. destruct (beyond i v0 vlim).
  { apply sp_ret. intros u t H _. exists 0. split; [lra|]. split; [discriminate|exact H]. }
  eapply sp_bind.
  { rewrite R_nZ. apply sp_cc_loop; [|exact Hd|lra|lia]. destruct (Z.ltb_spec 0 ndt); lia. }
  intros [st|[T vt]]; cbn beta iota.
  { apply sp_ret. intros u t [H1 H2] [-> | ->]; congruence. }
  destruct (nleb tlim T) eqn:E.
  - apply Rleb_true in E. eapply (sp_bind _ _ _ (fun _ u t => 0 <= T <= tlim /\ ccrun T u t)).
    { apply sp_store_if. intros u u' t Eq [H1 H2]. split; [exact H1|]. eapply ccrun_sees; eauto. }
    intros ?. apply sp_ret. intros u t [H1 H2] _. exists T. split; [exact H1|]. split; [lra|exact H2].
  - destruct vt; [|apply sp_throw]. eapply (sp_bind _ _ _ (fun _ u t => 0 <= T <= tlim /\ ccrun T u t)).
    { apply sp_store_if. intros u u' t Eq [H1 H2]. split; [exact H1|]. eapply ccrun_sees; eauto. }
    intros ?. apply sp_ret. intros u t [H1 H2] _. exists T. split; [exact H1|]. split; [discriminate|exact H2].
Qed.
End CC.
End Run.
End Tree.
