(** * Proofs about trees over any lawful kind of cell *)
From Coq Require Import List Lia Reals Lra.
From Verif Require Import Base RFacts StatusModel StatusProofs CellModel CoolModel ModuleModel ModuleSpec ModuleProofs ModuleProofs2 ModuleProofs3
  ModuleProofs4 ModuleProofs5 ModuleProofs6 PackSpec FleetModel FleetSpec.
Import ListNotations.
Local Open Scope R_scope.

(** ** Trees *)
Section Same.
Context {A C : Type}.
Notation tree n := (su A C n).
Lemma st_refl' (P : C -> C -> Prop) n : (forall c, P c c) -> forall u : tree n, same_tree P n u u.
Proof.
  intros H. induction n as [|n IH]; intros u; [apply H|]. node u c m; cbn; [apply H|]. split; [reflexivity|]. now apply Forall2_refl.
Qed.
Lemma st_comp (P Q S : C -> C -> Prop) n : (forall a b c, P a b -> Q b c -> S a c) ->
  forall u v w : tree n, same_tree P n u v -> same_tree Q n v w -> same_tree S n u w.
Proof.
  intros HS. induction n as [|n IH]; intros u v w; [apply HS|].
  node u c m; node v d k; node w e j; cbn; try tauto; [apply HS|].
  intros [H1 H2] [K1 K2]. split; [congruence|]. clear H1 K1. revert K2. generalize (ms j).
  induction H2 as [|a b la lb Hab _ IHl]; intros l3 K; inversion K; subst; constructor; eauto.
Qed.
Lemma st_impl (P Q : C -> C -> Prop) n : (forall c d, P c d -> Q c d) -> forall u v : tree n, same_tree P n u v -> same_tree Q n u v.
Proof.
  intros HPQ. induction n as [|n IH]; intros u v; [apply HPQ|]. node u c m; node v d k; cbn; try tauto; [apply HPQ|].
  intros [H1 H2]. split; [exact H1|]. eapply Forall2_impl; [|exact H2]. exact IH.
Qed.
Lemma st_leaves (P : C -> C -> Prop) n : forall u v : tree n, same_tree P n u v -> Forall2 P (leaves n u) (leaves n v).
Proof.
  induction n as [|n IH]; intros u v; [intros H; repeat constructor; exact H|].
  node u c m; node v d k; cbn; try tauto; [intros H; repeat constructor; exact H|].
  intros [_ H]. induction H as [|a b la lb Hab _ IHl]; cbn; [constructor|]. apply Forall2_app; auto.
Qed.
Lemma st_chain (P : C -> C -> Prop) n : forall u v : tree n, same_tree P n u v -> chain n u -> chain n v.
Proof.
  induction n as [|n IH]; intros u v; [intros _ _; split; exact Logic.I|]. node u c m; node v d k; cbn; try tauto.
  intros [E H] [[S1 S2] [[N1 N2] N3]]. cbn in *.
  assert (G : Forall (fun x => chain n x) (ms k)).
  { clear N1 N2. revert S2 N3. induction H as [|a b la lb Hab _ IHl]; intros S2 N3; [constructor|]. inversion S2; subst. inversion N3; subst.
    constructor; [eapply IH; [exact Hab|]; split; assumption|auto]. }
  split; cbn; (split; [|eapply Forall_impl; [|exact G]; intros ? [? ?]; assumption]).
  - congruence.
  - rewrite <- (Forall2_len _ _ _ H). split; [|exact N2]. intros Z. rewrite Z in H. inversion H. congruence.
Qed.
Lemma chain_kids n (m : module A (tree n)) : chain (S n) (inr m : tree (S n)) -> Forall (fun x => chain n x) (ms m).
Proof.
  intros [[_ S2] [_ N3]]. cbn in S2, N3. rewrite Forall_forall in *. intros x Hx. split; [exact (S2 x Hx)|exact (N3 x Hx)].
Qed.
Lemma chain_some n : forall u : tree n, chain n u -> leaves n u <> [].
Proof.
  induction n as [|n IH]; intros s W; [discriminate|]. node s c m; [discriminate|].
  pose proof (chain_kids _ _ W) as K. destruct W as [_ [[W0 _] _]]. cbn in *. destruct (ms m) as [|x l]; [congruence|]. inversion K; subst. cbn.
  intros E. apply app_eq_nil in E. destruct E as [E _]. exact (IH x H1 E).
Qed.
End Same.

(** ** What is asked of a kind of cell *)
Section Lawful.
Context {C : Type} (oc : su_ops R C) (acc : C -> account).
Definition sa (c d : C) : Prop := acc d = acc c.
Definition si (c d : C) : Prop := acc d = at_current (a_I (acc d)) (acc c).
Record lawful := {
  lw_I : forall c, o_I oc c = a_I (acc c);
  lw_V : forall c, acc (fst (o_V oc c)) = acc c;
  lw_check : forall c, acc (fst (o_checkV oc c)) = acc c;
  lw_low : forall c, acc (fst (o_Vlow oc c)) = acc c;
  lw_high : forall c, acc (fst (o_Vhigh oc c)) = acc c;
  lw_thermal : forall nb t c, acc (fst (o_thermal oc nb t c)) = acc c;
  lw_setT : forall t c, acc (fst (o_setT oc t c)) = acc c;
  lw_cool : forall c, acc (fst (o_coolload oc c)) = acc c;
  lw_set : forall i b c, si c (fst (o_setCurrent oc i b c));
  lw_set_ok : forall i b c c' st, o_setCurrent oc i b c = (c', Ok st) -> a_I (acc c') = if isStatusBad st then a_I (acc c) else i;
  lw_unchecked : forall i c c' st, o_setCurrent oc i false c = (c', Ok st) -> isStatusBad st = false;
  lw_step : forall dt k c c', o_timeStep oc dt k c = (c', Ok tt) -> (0 <= k)%Z -> acc c' = drawn (dt * IZR k) (acc c);
  lw_status : forall c v st, snd (o_checkV oc c) = Ok (v, st) -> (0 <= status_val st)%Z;
  lw_see : forall c, snd (o_checkV oc (fst (o_V oc c))) = snd (o_checkV oc c);
  lw_lows : forall c, snd (o_Vlow oc c) = snd (o_V oc c);
  lw_highs : forall c, snd (o_Vhigh oc c) = snd (o_V oc c) }.
Context (L : lawful).
Notation tree n := (su R C n).
Notation ops tm n := (su_ops_at oc tm n).
Lemma sa_refl c : sa c c. Proof. reflexivity. Qed.
Lemma sa_trans a b c : sa a b -> sa b c -> sa a c. Proof. unfold sa. congruence. Qed.
Lemma si_refl c : si c c. Proof. unfold si. destruct (acc c); reflexivity. Qed.
Lemma si_trans a b c : si a b -> si b c -> si a c.
Proof. unfold si. intros H K. rewrite K, H. reflexivity. Qed.
Lemma sa_si c d : sa c d -> si c d. Proof. unfold sa, si. intros ->. destruct (acc c); reflexivity. Qed.
Lemma rel_of {B} (P : C -> C -> Prop) (f : M C B) c c' r : P c (fst (f c)) -> f c = (c', r) -> P c c'.
Proof. intros H E. rewrite E in H. exact H. Qed.

Definition calm (n : nat) {B} (f : M (tree n) B) : Prop := forall u u' r, f u = (u', r) -> same_tree sa n u u'.
Lemma sa_tree n (u : tree n) : same_tree sa n u u. Proof. apply st_refl', sa_refl. Qed.
Lemma sa_tree_trans n (u v w : tree n) : same_tree sa n u v -> same_tree sa n v w -> same_tree sa n u w.
Proof. apply st_comp. exact sa_trans. Qed.
Lemma each_calm n {B} (f : M (tree n) B) l l' r : calm n f -> each f l = (l', r) -> Forall2 (same_tree sa n) l l'.
Proof.
  intros K E. eapply Forall2_impl; [|exact (each_rel _ _ _ _ E)]. intros s s' [->| ->]; [apply sa_tree|].
  destruct (f s) as [s1 r1] eqn:E1. exact (K _ _ _ E1).
Qed.
Ltac leaf_of lw H := first [exact (rel_of sa _ _ _ _ lw H) | exact (rel_of si _ _ _ _ lw H)].
Lemma V_rel_tree (P : C -> C -> Prop) tm n : (forall c, P c c) -> (forall a b c, P a b -> P b c -> P a c) -> (forall c, P c (fst (o_V oc c))) ->
  forall (u u' : tree n) r, o_V (ops tm n) u = (u', r) -> same_tree P n u u'.
Proof.
  intros PR PT PV. induction n as [|n IH]; intros u u' r H; [exact (rel_of P _ _ _ _ (PV u) H)|].
  node u c m; cbn [su_ops_at sum_ops o_V both mod_ops] in H; unfold on_l, on_r in H.
  - destruct (o_V oc c) as [c' r'] eqn:E. injection H as <- <-. exact (rel_of P _ _ _ _ (PV c) E).
  - destruct (mod_V _ m) as [m' r'] eqn:E. injection H as <- <-. apply mod_V_rel in E. destruct E as [G (v & b & E)]. cbn.
    split; [rewrite E; reflexivity|]. eapply Forall2_impl; [|exact G]. induction 1 as [s|s s' K IK]; [apply st_refl', PR|].
    destruct (o_V (ops tm n) s) as [s1 r1] eqn:E1. eapply st_comp; [exact PT|exact (IH _ _ _ E1)|exact IK].
Qed.
Lemma V_calm tm n : calm n (o_V (ops tm n)).
Proof. intros u u' r. apply V_rel_tree; [exact sa_refl|exact sa_trans|exact (lw_V L)]. Qed.
Lemma check_calm tm n : calm n (o_checkV (ops tm n)).
Proof.
  induction n as [|n IH]; intros u u' r H; [leaf_of (lw_check L u) H|].
  node u c m; cbn [su_ops_at sum_ops o_checkV both mod_ops] in H; unfold on_l, on_r in H.
  - destruct (o_checkV oc c) as [c' r'] eqn:E. injection H as <- <-. leaf_of (lw_check L c) E.
  - unfold mod_checkV in H. destruct (mod_V _ m) as [m1 rv] eqn:EV.
    assert (K : same_tree sa (S n) (inr m : tree (S n)) (inr m1)).
    { apply (V_calm tm (S n) (inr m) (inr m1) rv). cbn. unfold on_r. rewrite EV. reflexivity. }
    destruct rv as [v| | |]; try (injection H as <- <-; exact K).
    destruct (each _ (ms m1)) as [l rl] eqn:EL. assert (G := each_calm _ _ _ _ _ IH EL).
    assert (J : same_tree sa (S n) (inr m : tree (S n)) (inr (mkM (mm m1) l))).
    { eapply sa_tree_trans; [exact K|]. cbn. split; [reflexivity|exact G]. }
    destruct rl; injection H as <- <-; exact J.
Qed.
Lemma low_calm tm n : calm n (o_Vlow (ops tm n)).
Proof.
  induction n as [|n IH]; intros u u' r H; [leaf_of (lw_low L u) H|].
  node u c m; cbn [su_ops_at sum_ops o_Vlow both mod_ops] in H; unfold on_l, on_r in H.
  - destruct (o_Vlow oc c) as [c' r'] eqn:E. injection H as <- <-. leaf_of (lw_low L c) E.
  - unfold mod_Vlow in H. destruct (each _ (ms m)) as [l rl] eqn:EL. injection H as <- <-. cbn. split; [reflexivity|]. exact (each_calm _ _ _ _ _ IH EL).
Qed.
Lemma high_calm tm n : calm n (o_Vhigh (ops tm n)).
Proof.
  induction n as [|n IH]; intros u u' r H; [leaf_of (lw_high L u) H|].
  node u c m; cbn [su_ops_at sum_ops o_Vhigh both mod_ops] in H; unfold on_l, on_r in H.
  - destruct (o_Vhigh oc c) as [c' r'] eqn:E. injection H as <- <-. leaf_of (lw_high L c) E.
  - unfold mod_Vhigh in H. destruct (each _ (ms m)) as [l rl] eqn:EL. injection H as <- <-. cbn. split; [reflexivity|]. exact (each_calm _ _ _ _ _ IH EL).
Qed.
Lemma setT_calm tm n t : calm n (o_setT (ops tm n) t).
Proof.
  destruct n as [|n]; intros u u' r H; [leaf_of (lw_setT L t u) H|].
  node u c m; cbn [su_ops_at sum_ops o_setT both mod_ops] in H; unfold on_l, on_r in H.
  - destruct (o_setT oc t c) as [c' r'] eqn:E. injection H as <- <-. leaf_of (lw_setT L t c) E.
  - destruct (mod_setT t m) as [m' r'] eqn:E. injection H as <- <-. apply mod_setT_frame in E. destruct E as [E1 G].
    cbn. rewrite E1. split; [symmetry; apply G|]. apply Forall2_refl. intros; apply sa_tree.
Qed.
Lemma th_calm tm n : (forall nb t, calm n (o_thermal (ops tm n) nb t)) -> forall s s', th_rel (ops tm n) s s' -> same_tree sa n s s'.
Proof.
  intros K. induction 1 as [s|nb t s s' H IHr|t s s' H IHr]; [apply sa_tree| |].
  - destruct (o_thermal (ops tm n) nb t s) as [s1 r1] eqn:E1. apply K in E1. eapply sa_tree_trans; [exact E1|exact IHr].
  - destruct (o_setT (ops tm n) t s) as [s1 r1] eqn:E1. apply setT_calm in E1. eapply sa_tree_trans; [exact E1|exact IHr].
Qed.
Lemma thermal_calm tm n : forall nb t, calm n (o_thermal (ops tm n) nb t).
Proof.
  induction n as [|n IH]; intros nb t u u' r H; [leaf_of (lw_thermal L nb t u) H|].
  node u c m; cbn [su_ops_at sum_ops o_thermal both mod_ops] in H; unfold on_l, on_r in H.
  - destruct (o_thermal oc nb t c) as [c' r'] eqn:E. injection H as <- <-. leaf_of (lw_thermal L nb t c) E.
  - destruct (mod_thermal _ tm nb t m) as [m' r'] eqn:E. injection H as <- <-. apply mod_thermal_frame in E. destruct E as [E1 G].
    cbn. split; [symmetry; apply G|]. eapply Forall2_impl; [|exact E1]. apply th_calm, IH.
Qed.
Lemma set_frame tm n : forall i b (u u' : tree n) r, o_setCurrent (ops tm n) i b u = (u', r) -> same_tree si n u u'.
Proof.
  induction n as [|n IH]; intros i b u u' r H; [leaf_of (lw_set L i b u) H|].
  node u c m; cbn [su_ops_at sum_ops o_setCurrent both mod_ops] in H; unfold on_l, on_r in H.
  - destruct (o_setCurrent oc i b c) as [c' r'] eqn:E. injection H as <- <-. leaf_of (lw_set L i b c) E.
  - destruct (mod_setCurrent _ i b m) as [m' r'] eqn:E. injection H as <- <-. apply mod_setCurrent_rel in E. destruct E as [G E]. cbn. split.
    + rewrite E. destruct (m_series (mm m)) eqn:D; [cbn; congruence|congruence].
    + eapply Forall2_impl; [|exact G]. induction 1 as [s|s s' K IK|j b9 s s' K IK].
      * apply st_refl', si_refl.
      * destruct (o_V (ops tm n) s) as [s1 r1] eqn:E1. apply V_calm in E1. eapply st_comp; [|exact E1|exact IK].
        intros x y z H1 H2. eapply si_trans; [apply sa_si, H1|exact H2].
      * destruct (o_setCurrent (ops tm n) j b9 s) as [s1 r1] eqn:E1. eapply st_comp; [exact si_trans| |exact IK]. eapply IH; exact E1.
Qed.
Lemma curs_frame tm n (s s' : tree n) : cur_rel (ops tm n) s s' -> same_tree si n s s'.
Proof.
  induction 1 as [s|s s' K IK|j b9 s s' K IK].
  - apply st_refl', si_refl.
  - destruct (o_V (ops tm n) s) as [s1 r1] eqn:E1. apply V_calm in E1. eapply st_comp; [|exact E1|exact IK].
    intros x y z H1 H2. eapply si_trans; [apply sa_si, H1|exact H2].
  - destruct (o_setCurrent (ops tm n) j b9 s) as [s1 r1] eqn:E1. apply set_frame in E1. eapply st_comp; [exact si_trans|exact E1|exact IK].
Qed.

(** ** Checks and extremes *)
Lemma check_seen tm n (u u' : tree n) r : o_V (ops tm n) u = (u', r) ->
  Forall2 (fun c d => snd (o_checkV oc d) = snd (o_checkV oc c)) (leaves n u) (leaves n u').
Proof.
  intros H. apply st_leaves. eapply (V_rel_tree (fun c d => snd (o_checkV oc d) = snd (o_checkV oc c))); [reflexivity|congruence|exact (lw_see L)|exact H].
Qed.
Lemma check_worst tm n : forall (u u' : tree n) v st, o_checkV (ops tm n) u = (u', Ok (v, st)) ->
  exists sts, Forall2 (fun c s => exists x, snd (o_checkV oc c) = Ok (x, s)) (leaves n u) sts /\ worst_of sts st.
Proof.
  assert (LL : forall c c' v st, o_checkV oc c = (c', Ok (v, st)) ->
    exists sts, Forall2 (fun c s => exists x, snd (o_checkV oc c) = Ok (x, s)) [c] sts /\ worst_of sts st).
  { intros c c' v st E. exists [st]. split; [constructor; [exists v; now rewrite E|constructor]|].
    split; [|left; now left]. intros s [<-|[]]. lia. }
  induction n as [|n IH]; intros u u' v st H; [exact (LL _ _ _ _ H)|].
  node u c m; cbn [su_ops_at sum_ops o_checkV both mod_ops] in H; unfold on_l, on_r in H.
  - destruct (o_checkV oc c) as [c' r] eqn:E. injection H as <- ->. exact (LL _ _ _ _ E).
  - destruct (mod_checkV _ m) as [m' r] eqn:E. injection H as <- ->.
    unfold mod_checkV in E. destruct (mod_V _ m) as [m1 [v1| | |]] eqn:EV; try discriminate.
    destruct (each _ (ms m1)) as [l [rs| | |]] eqn:Ee; try discriminate. injection E as <- <- <-. cbn [leaves].
    assert (LV := check_seen tm (S n) (inr m) (inr m1) (Ok v1)). cbn [su_ops_at sum_ops o_V both mod_ops] in LV. unfold on_r in LV. rewrite EV in LV.
    specialize (LV eq_refl). cbn [leaves] in LV.
    assert (X : exists stss, Forall2 (fun c s => exists x, snd (o_checkV oc c) = Ok (x, s)) (flat_map (leaves n) (ms m1)) (concat stss) /\ Forall2 worst_of stss (map snd rs)).
    { destruct (each_ok _ _ _ _ Ee) as (G & L1 & _). clear - G L1 IH. revert l rs G L1. induction (ms m1) as [|s t IHt]; intros [|s' l] [|[vs st] rs] G L1; inversion G; subst; try discriminate.
      - exists []. split; constructor.
      - cbn [combine fst snd] in *. destruct (IH _ _ _ _ H2) as (sts & J2 & J3).
        destruct (IHt l rs H4) as (stss & K2 & K3); [cbn in L1; lia|]. exists (sts :: stss). cbn [concat map snd flat_map]. split; [now apply Forall2_app|]. now constructor. }
    destruct X as (stss & X2 & X3). exists (concat stss). split.
    { clear - LV X2. revert X2. generalize (concat stss). induction LV as [|a b la lb Hab _ IHl]; intros sts K; inversion K; subst; constructor; auto.
      destruct H1 as [x Hx]. exists x. congruence. }
    destruct (status_worst_spec (map snd rs)) as (W1 & W2 & _).
    set (w := status_worst (map snd rs)) in *. clearbody w.
    assert (P : forall s, In s (concat stss) -> (0 <= status_val s)%Z).
    { clear - X2 L. intros s Hs. induction X2 as [|c s' l l' [x Hx] _ IHl]; [destruct Hs|]. destruct Hs as [<-|Hs]; [exact (lw_status L _ _ _ Hx)|auto]. }
    clear - W1 W2 X3 P.
    assert (U : forall s, In s (concat stss) -> (status_val s <= status_val w)%Z).
    { intros s Hs. apply in_concat in Hs. destruct Hs as (sts & Hs1 & Hs2).
      destruct (In_nth_error _ _ Hs1) as [j Hj].
      destruct (nth_error (map snd rs) j) as [sj|] eqn:Ej.
      2:{ exfalso. apply nth_error_None in Ej. apply Forall2_len in X3. assert (j < length stss)%nat by (apply nth_error_Some; congruence). lia. }
      assert (Y : worst_of sts sj).
      { clear - X3 Hj Ej. revert j Hj Ej. induction X3; intros [|j] Hj Ej; cbn in *; try discriminate; [congruence|eauto]. }
      apply proj1 in Y. specialize (Y s Hs2). specialize (W2 sj (nth_error_In _ _ Ej)). lia. }
    split; [exact U|].
    assert (Z : w = Success -> In w (concat stss) \/ concat stss = [] /\ w = Success).
    { intros ->. destruct (concat stss) as [|s q] eqn:Ec; [right; auto|left; left]. apply status_val_0.
      specialize (U s (or_introl eq_refl)). specialize (P s (or_introl eq_refl)). cbn in U. lia. }
    destruct W1 as [W1|W1]; [exact (Z W1)|].
    destruct (In_nth_error _ _ W1) as [j Ej]. destruct (nth_error stss j) as [sts|] eqn:Hj.
    2:{ exfalso. apply nth_error_None in Hj. apply Forall2_len in X3. assert (j < length (map snd rs))%nat by (apply nth_error_Some; congruence). lia. }
    assert (Y : worst_of sts w).
    { clear - X3 Hj Ej. revert j Hj Ej. induction X3; intros [|j] Hj Ej; cbn in *; try discriminate; [congruence|eauto]. }
    destruct Y as [_ [Y|[_ Y]]]; [|exact (Z Y)]. left. apply in_concat. exists sts. split; [eapply nth_error_In; eauto|exact Y].
Qed.
Lemma check_status tm n (u u' : tree n) v st : o_checkV (ops tm n) u = (u', Ok (v, st)) -> (0 <= status_val st)%Z.
Proof.
  intros H. apply check_worst in H. destruct H as (sts & G & _ & [In0|[_ ->]]); [|cbn; lia].
  clear - G In0 L. induction G as [|c s l sts' (x & Hx) _ IH]; [destruct In0|]. destruct In0 as [<-|In0]; [exact (lw_status L _ _ _ Hx)|auto].
Qed.
Definition ceilings tm n : tree n -> list R := over_modules (fun k r l => l_Vmax (mod_lim (ops tm k) (mkM r l))) n.
Definition floors tm n : tree n -> list R := over_modules (fun k r l => l_Vmin (mod_lim (ops tm k) (mkM r l))) n.
Lemma low_all tm n : forall (u u' : tree n) v, o_Vlow (ops tm n) u = (u', Ok v) ->
  exists vs, Forall2 (fun c w => snd (o_V oc c) = Ok w) (leaves n u) vs /\ (In v vs \/ In v (ceilings tm n u)) /\
    Forall (fun y => v <= y) vs /\ Forall (fun y => v <= y) (ceilings tm n u).
Proof.
  assert (LL : forall c c' v, o_Vlow oc c = (c', Ok v) -> exists vs, Forall2 (fun c w => snd (o_V oc c) = Ok w) [c] vs /\ (In v vs \/ False) /\
    Forall (fun y => v <= y) vs /\ Forall (fun y => v <= y) []).
  { intros c c' v E. exists [v]. split; [constructor; [rewrite <- (lw_lows L), E; reflexivity|constructor]|].
    split; [left; now left|]. split; [constructor; [lra|constructor]|constructor]. }
  induction n as [|n IH]; intros u u' v H; [exact (LL _ _ _ H)|].
  node u c m; cbn [su_ops_at sum_ops o_Vlow both mod_ops] in H; unfold on_l, on_r in H.
  - destruct (o_Vlow oc c) as [c' r] eqn:E. injection H as <- ->. exact (LL _ _ _ E).
  - unfold mod_Vlow in H. destruct (each _ (ms m)) as [l [vs| | |]] eqn:E; try discriminate. injection H as <- <-.
    destruct (fold_nmin_spec vs (l_Vmax (mod_lim (ops tm n) m))) as [I1 I2]. set (w := fold_left _ _ _) in *. clearbody w.
    assert (X : exists xs, Forall2 (fun c w => snd (o_V oc c) = Ok w) (flat_map (leaves n) (ms m)) xs /\
      (forall v, In v vs -> In v xs \/ In v (flat_map (ceilings tm n) (ms m))) /\ (forall y, In y xs \/ In y (flat_map (ceilings tm n) (ms m)) -> exists v, In v vs /\ v <= y)).
    { destruct (each_ok _ _ _ _ E) as (G & L1 & _). clear - IH G L1. revert l vs G L1.
      induction (ms m) as [|s t IHl]; intros [|a l] [|x vs] G L1; inversion G; subst; try discriminate.
      - exists []. split; [constructor|]. split; [intros v []|intros y [[]|[]]].
      - cbn [combine fst snd] in *. destruct (IH _ _ _ H2) as (ys & Y1 & Y2 & Y3 & Y4). destruct (IHl l vs H4) as (xs & X1 & X2 & X3); [cbn in L1; lia|].
        rewrite Forall_forall in Y3, Y4. exists (ys ++ xs). cbn [flat_map]. split; [now apply Forall2_app|]. split.
        + intros v [<-|Hv]; rewrite !in_app_iff; [destruct Y2; auto|]. destruct (X2 v Hv); auto.
        + intros y Hy. rewrite !in_app_iff in Hy.
          assert (HC : (In y ys \/ In y (ceilings tm n s)) \/ (In y xs \/ In y (flat_map (ceilings tm n) t))) by tauto. clear Hy.
          destruct HC as [HC|HC]; [exists x; split; [now left|]; destruct HC; auto|]. destruct (X3 y HC) as (v & V1 & V2). exists v. split; [now right|exact V2]. }
    destruct X as (xs & X1 & X2 & X3). exists xs. cbn [leaves]. split; [exact X1|].
    change (ceilings tm (S n) (inr m : tree (S n))) with (l_Vmax (mod_lim (ops tm n) (mkM (mm m) (ms m))) :: flat_map (ceilings tm n) (ms m)).
    assert (EM : mkM (mm m) (ms m) = m) by (destruct m; reflexivity). rewrite EM.
    assert (B : forall y, In y xs \/ In y (flat_map (ceilings tm n) (ms m)) -> w <= y).
    { intros y Hy. destruct (X3 y Hy) as (v & V1 & V2). assert (w <= v) by (apply I2; now right). lra. }
    split.
    + destruct I1 as [<-|I1]; [right; now left|]. destruct (X2 _ I1); [now left|right; now right].
    + split; [apply Forall_forall; auto|]. constructor; [apply I2; now left|apply Forall_forall; auto].
Qed.
Lemma high_all tm n : forall (u u' : tree n) v, o_Vhigh (ops tm n) u = (u', Ok v) ->
  exists vs, Forall2 (fun c w => snd (o_V oc c) = Ok w) (leaves n u) vs /\ (In v vs \/ In v (floors tm n u)) /\
    Forall (fun y => y <= v) vs /\ Forall (fun y => y <= v) (floors tm n u).
Proof.
  assert (LL : forall c c' v, o_Vhigh oc c = (c', Ok v) -> exists vs, Forall2 (fun c w => snd (o_V oc c) = Ok w) [c] vs /\ (In v vs \/ False) /\
    Forall (fun y => y <= v) vs /\ Forall (fun y => y <= v) []).
  { intros c c' v E. exists [v]. split; [constructor; [rewrite <- (lw_highs L), E; reflexivity|constructor]|].
    split; [left; now left|]. split; [constructor; [lra|constructor]|constructor]. }
  induction n as [|n IH]; intros u u' v H; [exact (LL _ _ _ H)|].
  node u c m; cbn [su_ops_at sum_ops o_Vhigh both mod_ops] in H; unfold on_l, on_r in H.
  - destruct (o_Vhigh oc c) as [c' r] eqn:E. injection H as <- ->. exact (LL _ _ _ E).
  - unfold mod_Vhigh in H. destruct (each _ (ms m)) as [l [vs| | |]] eqn:E; try discriminate. injection H as <- <-.
    destruct (fold_nmax_spec vs (l_Vmin (mod_lim (ops tm n) m))) as [I1 I2]. set (w := fold_left _ _ _) in *. clearbody w.
    assert (X : exists xs, Forall2 (fun c w => snd (o_V oc c) = Ok w) (flat_map (leaves n) (ms m)) xs /\
      (forall v, In v vs -> In v xs \/ In v (flat_map (floors tm n) (ms m))) /\ (forall y, In y xs \/ In y (flat_map (floors tm n) (ms m)) -> exists v, In v vs /\ y <= v)).
    { destruct (each_ok _ _ _ _ E) as (G & L1 & _). clear - IH G L1. revert l vs G L1.
      induction (ms m) as [|s t IHl]; intros [|a l] [|x vs] G L1; inversion G; subst; try discriminate.
      - exists []. split; [constructor|]. split; [intros v []|intros y [[]|[]]].
      - cbn [combine fst snd] in *. destruct (IH _ _ _ H2) as (ys & Y1 & Y2 & Y3 & Y4). destruct (IHl l vs H4) as (xs & X1 & X2 & X3); [cbn in L1; lia|].
        rewrite Forall_forall in Y3, Y4. exists (ys ++ xs). cbn [flat_map]. split; [now apply Forall2_app|]. split.
        + intros v [<-|Hv]; rewrite !in_app_iff; [destruct Y2; auto|]. destruct (X2 v Hv); auto.
        + intros y Hy. rewrite !in_app_iff in Hy.
          assert (HC : (In y ys \/ In y (floors tm n s)) \/ (In y xs \/ In y (flat_map (floors tm n) t))) by tauto. clear Hy.
          destruct HC as [HC|HC]; [exists x; split; [now left|]; destruct HC; auto|]. destruct (X3 y HC) as (v & V1 & V2). exists v. split; [now right|exact V2]. }
    destruct X as (xs & X1 & X2 & X3). exists xs. cbn [leaves]. split; [exact X1|].
    change (floors tm (S n) (inr m : tree (S n))) with (l_Vmin (mod_lim (ops tm n) (mkM (mm m) (ms m))) :: flat_map (floors tm n) (ms m)).
    assert (EM : mkM (mm m) (ms m) = m) by (destruct m; reflexivity). rewrite EM.
    assert (B : forall y, In y xs \/ In y (flat_map (floors tm n) (ms m)) -> y <= w).
    { intros y Hy. destruct (X3 y Hy) as (v & V1 & V2). assert (v <= w) by (apply I2; now right). lra. }
    split.
    + destruct I1 as [<-|I1]; [right; now left|]. destruct (X2 _ I1); [now left|right; now right].
    + split; [apply Forall_forall; auto|]. constructor; [apply I2; now left|apply Forall_forall; auto].
Qed.

(** ** Time steps *)
Definition moved (t : R) (c d : C) : Prop := acc d = at_current (a_I (acc d)) (drawn t (acc c)).
Definition moved' (t : R) (c d : C) : Prop := acc d = drawn t (acc c).
Lemma each_P n (P : C -> C -> Prop) (f : M (tree n) unit) (Q : tree n -> Prop) l l1 us :
  (forall u u', Q u -> f u = (u', Ok tt) -> same_tree P n u u') -> Forall Q l -> each f l = (l1, Ok us) -> Forall2 (same_tree P n) l l1.
Proof.
  intros K HQ E. destruct (each_ok _ _ _ _ E) as (G & L1 & _). clear E. revert l1 us G L1.
  induction l as [|s l IH]; intros [|a l1] [|x us] G L1; inversion G; subst; try discriminate; constructor; inversion HQ; subst.
  - cbn in *. destruct x. eapply K; eauto.
  - eapply IH; eauto.
Qed.
Lemma step_moved tm n : forall dt k (u u' : tree n), (0 <= k)%Z -> o_timeStep (ops tm n) dt k u = (u', Ok tt) -> same_tree (moved (dt * IZR k)) n u u'.
Proof.
  assert (LL : forall dt k c c', (0 <= k)%Z -> o_timeStep oc dt k c = (c', Ok tt) -> moved (dt * IZR k) c c').
  { intros dt k c c' Hk E. unfold moved. rewrite (lw_step L _ _ _ _ E Hk). reflexivity. }
  induction n as [|n IH]; intros dt k u u' Hk H; [now apply LL|].
  node u c m; cbn [su_ops_at sum_ops o_timeStep both mod_ops] in H; unfold on_l, on_r in H.
  - destruct (o_timeStep oc dt k c) as [c' r'] eqn:E. injection H as <- ->. now apply LL.
  - destruct (mod_timeStep _ tm dt k m) as [m' r'] eqn:E. injection H as <- ->. apply mod_timeStep_ok in E.
    destruct E as (l1 & l2 & us & E1 & E2 & E3 & r & _ & E4 & E5). cbn. split; [rewrite E4; symmetry; apply E5|].
    assert (F1 : Forall2 (same_tree (moved (dt * IZR k)) n) (ms m) l1).
    { eapply (each_P _ _ _ (fun _ => True)); [|apply Forall_forall; auto|exact E1]. intros u u' _. now apply IH. }
    assert (F2 : Forall2 (same_tree si n) l1 (ms m')).
    { assert (F3 : Forall2 (same_tree si n) l1 l2).
      { eapply Forall2_impl; [|exact E2]. intros s s' H. eapply st_impl; [apply sa_si|]. exact (th_calm tm n (thermal_calm tm n) s s' H). }
      destruct (m_series (mm m)); [rewrite E3; exact F3|]. clear - F3 E3 L. revert F3. generalize l1.
      induction E3 as [|a b la lb Hab _ IHl]; intros l0 K; inversion K; subst; constructor; auto.
      apply curs_frame in Hab. eapply st_comp; [exact si_trans|eassumption|exact Hab]. }
    clear - F1 F2. revert F2. generalize (ms m'). induction F1 as [|a b la lb Hab _ IHl]; intros l3 K; inversion K; subst; constructor; auto.
    eapply st_comp; [|exact Hab|eassumption]. unfold moved, si. intros x9 y9 z9 J1 J2. rewrite J2, J1. reflexivity.
Qed.
Lemma step_steady tm n : forall dt k (u u' : tree n), (0 <= k)%Z -> all_series n u -> o_timeStep (ops tm n) dt k u = (u', Ok tt) ->
  same_tree (moved' (dt * IZR k)) n u u'.
Proof.
  induction n as [|n IH]; intros dt k u u' Hk Hs H; [exact (lw_step L _ _ _ _ H Hk)|].
  node u c m; cbn [su_ops_at sum_ops o_timeStep both mod_ops] in H; unfold on_l, on_r in H.
  - destruct (o_timeStep oc dt k c) as [c' r'] eqn:E. injection H as <- ->. exact (lw_step L _ _ _ _ E Hk).
  - destruct (mod_timeStep _ tm dt k m) as [m' r'] eqn:E. injection H as <- ->. apply mod_timeStep_ok in E.
    destruct Hs as [S1 S2]. cbn in S1. fold (all_series (A := R) (C := C) n) in S2.
    destruct E as (l1 & l2 & us & E1 & E2 & E3 & r & _ & E4 & E5). cbn. split; [rewrite E4; symmetry; apply E5|].
    rewrite S1 in E3. rewrite E3.
    assert (F1 : Forall2 (same_tree (moved' (dt * IZR k)) n) (ms m) l1).
    { eapply (each_P _ _ _ (all_series n)); [|exact S2|exact E1]. intros u u'. now apply IH. }
    assert (F2 : Forall2 (same_tree sa n) l1 l2) by (eapply Forall2_impl; [|exact E2]; apply th_calm, thermal_calm).
    clear - F1 F2. revert F2. generalize l2. induction F1 as [|a b la lb Hab _ IHl]; intros l3 K; inversion K; subst; constructor; auto.
    eapply st_comp; [|exact Hab|eassumption]. unfold moved', sa. intros x9 y9 z9 J1 J2. rewrite J2, J1. reflexivity.
Qed.

(** ** Commands to chains *)
Lemma accepted tm n : forall (u u' : tree n) i chk st, all_series n u ->
  o_setCurrent (ops tm n) i chk u = (u', Ok st) -> isStatusBad st = false -> Forall (fun c => a_I (acc c) = i) (leaves n u').
Proof.
  assert (LL : forall c c' i chk st, o_setCurrent oc i chk c = (c', Ok st) -> isStatusBad st = false -> a_I (acc c') = i).
  { intros c c' i chk st E B. rewrite (lw_set_ok L _ _ _ _ _ E), B. reflexivity. }
  induction n as [|n IH]; intros u u' i chk st Hs H B.
  - constructor; [|constructor]. exact (LL _ _ _ _ _ H B).
  - node u c m; cbn [su_ops_at sum_ops o_setCurrent both mod_ops] in H; unfold on_l, on_r in H.
    + destruct (o_setCurrent oc i chk c) as [c' r] eqn:E. injection H as <- ->. constructor; [|constructor]. exact (LL _ _ _ _ _ E B).
    + destruct (mod_setCurrent _ i chk m) as [m' r] eqn:E. injection H as <- ->.
      destruct Hs as [S1 S2]. cbn in S1, S2. unfold mod_setCurrent in E. rewrite S1 in E.
      destruct (s_setCurrent _ _ _ _ _ _ _) as [l r] eqn:E1. injection E as <- ->.
      destruct (s_setCurrent_ok _ _ _ _ _ _ _ _ _ E1 B) as (_ & K2 & K3). cbn. apply Forall_flat.
      apply Forall_forall. intros s' Hs'. apply In_nth_error in Hs'. destruct Hs' as [j Hj].
      assert (Lj : (j < length l)%nat) by (apply nth_error_Some; congruence).
      destruct (K3 j) as (s & t & stj & T1 & T2 & T3 & T4); [lia|]. assert (t = s') by congruence. subst t.
      eapply IH; [|exact T3|exact T4]. eapply Forall_forall; [exact S2|]. eapply nth_error_In; eauto.
Qed.
Lemma unchecked_ok tm n : forall (u u' : tree n) i st, all_series n u -> o_setCurrent (ops tm n) i false u = (u', Ok st) -> isStatusBad st = false.
Proof.
  induction n as [|n IH]; intros u u' i st Hs H; [exact (lw_unchecked L _ _ _ _ H)|].
  node u c m; cbn [su_ops_at sum_ops o_setCurrent both mod_ops] in H; unfold on_l, on_r in H.
  - destruct (o_setCurrent oc i false c) as [c' r] eqn:E. injection H as <- ->. exact (lw_unchecked L _ _ _ _ E).
  - destruct (mod_setCurrent _ i false m) as [m' r] eqn:E. injection H as <- ->. destruct Hs as [S1 S2]. cbn in S1. fold (all_series (A := R) (C := C) n) in S2.
    unfold mod_setCurrent in E. rewrite S1 in E. destruct (s_setCurrent _ _ _ _ _ _ _) as [l r] eqn:E1. injection E as <- ->.
    assert (X : forall todo k olds (l0 l1 : list (tree n)) st, (forall j s, (k <= j)%nat -> nth_error l0 j = Some s -> all_series n s) ->
      s_setCurrent (ops tm n) todo k i false olds l0 = (l1, Ok st) -> isStatusBad st = false).
    { clear - IH. induction todo as [|todo IHt]; intros k olds l0 l1 st Hin H; cbn [s_setCurrent] in H; [injection H as _ <-; reflexivity|].
      destruct (Nat.leb NSUs_MAX k); [discriminate|]. destruct (nth_error l0 k) as [s|] eqn:En; [|discriminate].
      destruct (child_do _ k l0) as [l2 [st1| | |]] eqn:Ec; try discriminate.
      destruct (child_do_spec _ _ _ _ _ Ec) as [(s0 & s' & F1 & F2 & ->)|(_ & _ & ?)]; [|discriminate].
      assert (s0 = s) by congruence. subst s0. rewrite (IH _ _ _ _ (Hin _ _ (le_n _) En) F2) in H.
      eapply IHt; [|exact H]. intros j t Hj Ht. rewrite nth_error_list_set in Ht. destruct (Nat.eqb_spec k j); [lia|]. eapply Hin; [|exact Ht]. lia. }
    eapply X; [|exact E1]. intros j s _ Hj. eapply Forall_forall; [exact S2|]. eapply nth_error_In; eauto.
Qed.
Lemma rejected_where tm n : forall (u u' : tree n) i chk st, all_series n u ->
  o_setCurrent (ops tm n) i chk u = (u', Ok st) -> isStatusBad st = true ->
  exists c c', In c (leaves n u) /\ o_setCurrent oc i chk c = (c', Ok st).
Proof.
  induction n as [|n IH]; intros u u' i chk st Hs H B.
  - exists u, u'. split; [now left|exact H].
  - node u c m; cbn [su_ops_at sum_ops o_setCurrent both mod_ops] in H; unfold on_l, on_r in H.
    + destruct (o_setCurrent oc i chk c) as [c' r] eqn:E. injection H as <- ->. exists c, c'. split; [now left|exact E].
    + destruct (mod_setCurrent _ i chk m) as [m' r] eqn:E. injection H as <- ->. destruct Hs as [S1 S2]. cbn in S1. fold (all_series (A := R) (C := C) n) in S2.
      unfold mod_setCurrent in E. rewrite S1 in E. destruct (s_setCurrent _ _ _ _ _ _ _) as [l r] eqn:E1. injection E as <- ->.
      assert (X : forall todo k olds (l0 l1 : list (tree n)), (forall j s, (k <= j)%nat -> nth_error l0 j = Some s -> In s (ms m)) ->
        s_setCurrent (ops tm n) todo k i chk olds l0 = (l1, Ok st) -> exists s s', In s (ms m) /\ o_setCurrent (ops tm n) i chk s = (s', Ok st)).
      { clear - B. induction todo as [|todo IHt]; intros k olds l0 l1 Hin H; cbn [s_setCurrent] in H; [injection H as _ <-; discriminate|].
        destruct (Nat.leb NSUs_MAX k); [discriminate|]. destruct (nth_error l0 k) as [s|] eqn:En; [|discriminate].
        destruct (child_do _ k l0) as [l2 [st1| | |]] eqn:Ec; try discriminate.
        destruct (child_do_spec _ _ _ _ _ Ec) as [(s0 & s' & F1 & F2 & ->)|(_ & _ & ?)]; [|discriminate].
        assert (s0 = s) by congruence. subst s0.
        destruct (isStatusBad st1).
        - destruct (s_restore _ k _ _) as [l3 [x| | |]]; try discriminate. injection H as _ <-. exists s, s'. split; [eapply Hin; eauto|exact F2].
        - eapply IHt; [|exact H]. intros j t Hj Ht. rewrite nth_error_list_set in Ht. destruct (Nat.eqb_spec k j); [lia|]. eapply Hin; [|exact Ht]. lia. }
      destruct (X _ _ _ _ _ (fun j s _ Hj => nth_error_In _ _ Hj) E1) as (s & s' & I1 & I2).
      destruct (IH s s' i chk st) as (c & c' & K1 & K2); auto; [rewrite Forall_forall in S2; auto|].
      exists c, c'. split; [|exact K2]. cbn. apply in_flat_map. eauto.
Qed.
Lemma even_I tm n : forall (u : tree n) i, chain n u -> Forall (fun c => a_I (acc c) = i) (leaves n u) -> o_I (ops tm n) u = i.
Proof.
  induction n as [|n IH]; intros u i Hs G; [cbn; rewrite (lw_I L); now inversion G|].
  node u c m; [cbn; rewrite (lw_I L); now inversion G|]. pose proof (chain_kids _ _ Hs) as K. destruct Hs as [[S1 _] [[N0 _] _]].
  cbn in *. unfold mod_I. rewrite S1.
  destruct (ms m) as [|s l]; [congruence|]. cbn in G. rewrite Forall_app in G. destruct G as [G _]. inversion K; subst. apply IH; auto.
Qed.
Lemma sa_even n (u v : tree n) i : same_tree sa n u v -> Forall (fun c => a_I (acc c) = i) (leaves n u) -> Forall (fun c => a_I (acc c) = i) (leaves n v).
Proof.
  intros H. apply st_leaves in H. unfold sa in H. induction H as [|a b l l' Hab _ IH]; intros G; [constructor|]. inversion G; subst. constructor; [congruence|auto].
Qed.
(** Commanding the current that already flows *)
Lemma set_again tm n : forall (u u' : tree n) i chk st, chain n u -> Forall (fun c => a_I (acc c) = i) (leaves n u) ->
  o_setCurrent (ops tm n) i chk u = (u', Ok st) -> same_tree sa n u u'.
Proof.
  assert (LL : forall c c' i chk st, a_I (acc c) = i -> o_setCurrent oc i chk c = (c', Ok st) -> sa c c').
  { intros c c' i chk st Hi E. pose proof (lw_set L i chk c) as K. rewrite E in K. cbn in K. unfold sa, si in *.
    rewrite K, (lw_set_ok L _ _ _ _ _ E), Hi. replace (if isStatusBad st then i else i) with (a_I (acc c)) by (destruct (isStatusBad st); exact Hi).
    destruct (acc c); reflexivity. }
  induction n as [|n IH]; intros u u' i chk st Hs Hi H.
  - apply Forall_inv in Hi. exact (LL _ _ _ _ _ Hi H).
  - node u c m; cbn [su_ops_at sum_ops o_setCurrent both mod_ops] in H; unfold on_l, on_r in H.
    + destruct (o_setCurrent oc i chk c) as [c' r] eqn:E. injection H as <- ->. apply Forall_inv in Hi. exact (LL _ _ _ _ _ Hi E).
    + destruct (mod_setCurrent _ i chk m) as [m' r] eqn:E. injection H as <- ->. pose proof (chain_kids _ _ Hs) as K.
      destruct Hs as [[S1 _] _]. cbn in S1.
      unfold mod_setCurrent in E. rewrite S1 in E. destruct (s_setCurrent _ _ _ _ _ _ _) as [l r] eqn:E1. injection E as <- ->.
      set (good := fun s : tree n => chain n s /\ Forall (fun c => a_I (acc c) = i) (leaves n s)).
      assert (Hg : Forall good (ms m)).
      { apply Forall_forall. intros s Hin. rewrite Forall_forall in K. split; [auto|]. rewrite Forall_forall in Hi |- *.
        intros c Hc. apply Hi. cbn. apply in_flat_map. eauto. }
      assert (gs : forall s s', good s -> same_tree sa n s s' -> good s').
      { intros s s' [G1 G2] G3. split; [eapply st_chain; eauto|eapply sa_even; eauto]. }
      assert (gss : forall l1 l2, Forall good l1 -> Forall2 (same_tree sa n) l1 l2 -> Forall good l2).
      { intros l1 l2 G1 G2. revert G1. induction G2 as [|a b la lb Hab _ IHl]; intros G1; [constructor|]. inversion G1; subst. constructor; eauto. }
      assert (one : forall b j (l1 l2 : list (tree n)) st, Forall good l1 -> child_do (o_setCurrent (ops tm n) i b) j l1 = (l2, Ok st) -> Forall2 (same_tree sa n) l1 l2).
      { intros b j l1 l2 st1 G1 E. destruct (child_do_spec _ _ _ _ _ E) as [(s0 & s' & F1 & F2 & ->)|(_ & _ & ?)]; [|discriminate].
        rewrite Forall_forall in G1. destruct (G1 s0 (nth_error_In _ _ F1)) as [Q1 Q2].
        eapply Forall2_set; [apply sa_tree|exact F1|]. eapply IH; eauto. }
      assert (rst : forall j olds (l1 l2 : list (tree n)) x, Forall (eq i) olds -> Forall good l1 -> s_restore (ops tm n) j olds l1 = (l2, Ok x) -> Forall2 (same_tree sa n) l1 l2).
      { clear - one gss. induction j as [|j IHj]; intros olds l1 l2 x Ho G1 E; cbn [s_restore] in E; [injection E as <- _; apply Forall2_refl, sa_tree|].
        destruct (nth_error olds (S j)) as [io|] eqn:En; [|discriminate]. assert (io = i) by (rewrite Forall_forall in Ho; symmetry; apply Ho; eapply nth_error_In; eauto). subst io.
        destruct (child_do _ (S j) l1) as [l3 [st1| | |]] eqn:Ec; try discriminate. pose proof (one _ _ _ _ _ G1 Ec) as P1.
        eapply Forall2_trans; [apply sa_tree_trans|exact P1|]. eapply IHj; [exact Ho| |exact E]. eauto. }
      assert (X : forall todo k olds (l0 l1 : list (tree n)) st, Forall (eq i) olds -> Forall good l0 ->
        s_setCurrent (ops tm n) todo k i chk olds l0 = (l1, Ok st) -> Forall2 (same_tree sa n) l0 l1).
      { clear - one gss rst L. induction todo as [|todo IHt]; intros k olds l0 l1 st Ho G0 H; cbn [s_setCurrent] in H; [injection H as <- _; apply Forall2_refl, sa_tree|].
        destruct (Nat.leb NSUs_MAX k); [discriminate|]. destruct (nth_error l0 k) as [s|] eqn:En; [|discriminate].
        assert (Ho' : Forall (eq i) (olds ++ [o_I (ops tm n) s])).
        { apply Forall_app. split; [exact Ho|]. constructor; [|constructor]. symmetry. rewrite Forall_forall in G0. destruct (G0 s (nth_error_In _ _ En)). now apply even_I. }
        destruct (child_do _ k l0) as [l2 [st1| | |]] eqn:Ec; try discriminate. pose proof (one _ _ _ _ _ G0 Ec) as P1.
        destruct (isStatusBad st1).
        - destruct (s_restore _ k _ _) as [l3 [x| | |]] eqn:Er; try discriminate. injection H as <- _.
          eapply Forall2_trans; [apply sa_tree_trans|exact P1|]. eapply rst; [exact Ho'| |exact Er]. eauto.
        - eapply Forall2_trans; [apply sa_tree_trans|exact P1|]. eapply IHt; [exact Ho'| |exact H]. eauto. }
      cbn. split; [cbn; congruence|]. eapply X; [constructor|exact Hg|exact E1].
Qed.
End Lawful.
