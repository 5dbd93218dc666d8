(** * Proofs about modules: balancing parallel branches *)
From Coq Require Import List Lia.
From Verif Require Import Base RFacts StatusModel StatusProofs CellModel CellSpec CellProofs CoolModel ModuleModel ModuleSpec ModuleProofs ModuleProofs2 ModuleProofs3 ModuleProofs4 ModuleProofs5 ModuleProofs6.
Import ListNotations.
Local Open Scope R_scope.

Lemma branch_sim n l l' rc ws : Forall2 (sim n) l l' -> branch_voltages n l rc ws -> branch_voltages n l' rc ws.
Proof.
  intros S (vs & F & L & K). exists vs. split; [|split].
  - clear - S F. revert vs F. induction S as [|a b l l' H _ IH]; intros vs F; inversion F; subst; constructor; eauto using sim_voltage.
  - rewrite L. eapply Forall2_len; eauto.
  - rewrite (sims_currents _ _ _ S). exact K.
Qed.
Lemma getVall_from_sim tm n : forall l rc l' r, Forall (ok n) l -> getVall_from (ops tm n) l rc = (l', r) -> Forall (ok n) l' /\ Forall2 (sim n) l l'.
Proof.
  intros l rc l' r F E. assert (E' : Forall2 (v_rel (ops tm n)) l l').
  { assert (X : getVall (ops tm n) l rc = (l', rmap fst r) \/ (100 < length l)%nat).
    { unfold getVall. destruct (Nat.ltb NSUs_MAX (length l)) eqn:Eb; [right; now apply Nat.ltb_lt in Eb|]. left. now rewrite E. }
    destruct X as [X|X]; [exact (getVall_rel _ _ _ _ _ X)|].
    clear X. revert rc l' r E. clear F. induction l as [|s l IH]; intros rc l' r E; cbn [getVall_from] in E; [injection E as <- <-; constructor|].
    destruct rc as [|r0 rc]; [injection E as <- <-; apply Forall2_refl; constructor|].
    destruct (getVall_from (ops tm n) l rc) as [l2 r2] eqn:E2. assert (K := IH _ _ _ E2).
    assert (Hs : v_rel (ops tm n) s (fst (o_V (ops tm n) s))) by (apply vr_V; constructor).
    destruct r2 as [[vs ic]| | |]; try (injection E as <- <-; constructor; [constructor|exact K]).
    destruct (o_V (ops tm n) s) as [s1 r1] eqn:E1. destruct r1; injection E as <- <-; constructor; auto. }
  eapply rel_keeps; [exact E'| |exact F]. intros s s' O H. exact (v_rel_keeps tm n (V_keeps tm n) _ _ H O).
Qed.
Lemma getVall_branch tm n l rc l' ws : Forall (ok n) l -> length rc = length l -> getVall (ops tm n) l rc = (l', Ok ws) ->
  Forall (ok n) l' /\ Forall2 (sim n) l l' /\ branch_voltages n l' rc ws.
Proof.
  intros F L. unfold getVall. destruct (Nat.ltb _ _); [discriminate|].
  destruct (getVall_from (ops tm n) l rc) as [l2 r2] eqn:E. intros [= <- E3].
  destruct (getVall_from_sim _ _ _ _ _ _ F E) as [F2 S]. split; [exact F2|]. split; [exact S|].
  destruct (getVall_ladder tm n l rc F L) as (l3 & vs & ws3 & G & V & W & K). rewrite E in G. injection G as <- ->.
  cbn in E3. injection E3 as <-. apply (branch_sim n l); [exact S|]. exists vs. auto.
Qed.
Lemma spread_off v ws : spread v ws = off_by v ws.
Proof. unfold spread, off_by. apply R_nsum. Qed.
Lemma p_balance_off tm n iter tol rc : forall Ia Va l l' Ia', Forall (ok n) l -> length rc = length l -> branch_voltages n l rc Va ->
  p_balance (ops tm n) iter tol rc Ia Va l = (l', Ok (Some Ia')) ->
  exists ws, branch_voltages n l' rc ws /\ off_by (vmean ws) ws < tol.
Proof.
  induction iter as [|it IH]; intros Ia Va l l' Ia' F L Bv H; cbn [p_balance] in H; [discriminate|].
  destruct (nltb (spread (vmean Va) Va) tol) eqn:C.
  - injection H as <- <-. exists Va. split; [exact Bv|]. rewrite <- spread_off. now apply Rltb_true in C.
  - destruct (p_adjust _ _ Ia Va l) as [l1 [Ia1| | |]] eqn:E1; try discriminate. apply p_adjust_curs in E1.
    assert (F1 := curs_preserve _ _ _ _ E1 F). assert (L1 := Forall2_len _ _ _ E1).
    destruct (getVall (ops tm n) l1 rc) as [l2 [Va2| | |]] eqn:E2; try discriminate.
    assert (Lr : length rc = length l1) by congruence.
    destruct (getVall_branch _ _ _ _ _ _ F1 Lr E2) as (F2 & S2 & B2).
    eapply IH; eauto. rewrite L, L1. eapply Forall2_len; eauto.
Qed.
Lemma mean_R ws : ws <> [] -> is_mean ws (vmean ws).
Proof.
  intros H. unfold is_mean, vmean. rewrite R_nsum, R_nnat. cbn. field. apply not_0_INR. destruct ws; cbn; congruence.
Qed.
Lemma balanced_of n l rc tol ws : l <> [] -> branch_voltages n l rc ws -> off_by (vmean ws) ws < tol -> balanced_within n l rc tol.
Proof.
  intros N Bv H. exists ws, (vmean ws). split; [exact Bv|]. split; [|exact H]. apply mean_R. destruct Bv as (vs & _ & L & _).
  destruct ws, l; cbn in L; congruence.
Qed.
Lemma redistribute_balanced tm n rc l l' : Forall (ok n) l -> length rc = length l -> (2 <= length l)%nat ->
  p_redistribute (ops tm n) rc l = (l', Ok Success) -> balanced_within n l' rc (/ 10 ^ 10).
Proof.
  intros F L N. unfold p_redistribute. destruct (Nat.leb (length l) 1) eqn:E0; [apply Nat.leb_le in E0; lia|].
  destruct (Nat.ltb _ _); [discriminate|]. destruct (getVall (ops tm n) l rc) as [l1 [Va| | |]] eqn:E1; try discriminate.
  destruct (getVall_branch _ _ _ _ _ _ F L E1) as (F1 & S1 & B1). assert (L1 := Forall2_len _ _ _ S1).
  destruct (p_balance _ _ _ _ _ _ _) as [l2 [[Ia'|]| | |]] eqn:E2; try discriminate. intros [= <-].
  assert (L2 : length l2 = length l1) by (apply p_balance_curs in E2; symmetry; exact (Forall2_len _ _ _ E2)).
  assert (Lr : length rc = length l1) by congruence.
  destruct (p_balance_off _ _ _ _ _ _ _ _ _ _ F1 Lr B1 E2) as (ws & B2 & O2).
  apply (balanced_of _ _ _ _ ws); [destruct l2; cbn in *; [lia|congruence]|exact B2|]. rewrite R_nlit in O2. lra.
Qed.
Lemma setVoltage_reached tm n v rc l l' : Forall (ok n) l -> length rc = length l ->
  p_setVoltage (ops tm n) v rc l = (l', Ok Success) -> exists ws, branch_voltages n l' rc ws /\ off_by v ws < / 10 ^ 10.
Proof.
  intros F L. unfold p_setVoltage. destruct (Nat.ltb _ _); [discriminate|]. generalize (map (o_I (ops tm n)) l) as Ia. generalize 50%nat as it.
  intros it; revert l F L. induction it as [|it IH]; intros l F L Ia H; cbn [p_vloop] in H; [discriminate|].
  destruct (getVall (ops tm n) l rc) as [l1 [Va| | |]] eqn:E1; try discriminate.
  destruct (getVall_branch _ _ _ _ _ _ F L E1) as (F1 & S1 & B1). assert (L1 := Forall2_len _ _ _ S1).
  destruct (nltb (spread v Va) _) eqn:C.
  - injection H as <-. exists Va. split; [exact B1|]. rewrite <- spread_off. apply Rltb_true in C. rewrite R_nlit in C. lra.
  - destruct (p_vadjust _ _ Ia Va l1) as [l2 [Ia1| | |]] eqn:E2; try discriminate. apply p_vadjust_curs in E2.
    assert (F2 := curs_preserve _ _ _ _ E2 F1). assert (L2 := Forall2_len _ _ _ E2). eapply IH; [exact F2|congruence|exact H].
Qed.
Lemma step_balanced tm n dt k (m m' : module R (tree n)) : ok (S n) (inr m) -> m_series (mm m) = false -> (2 <= length (ms m))%nat ->
  mod_timeStep (ops tm n) tm dt k m = (m', Ok tt) -> balanced_within n (ms m') (m_rc (mm m')) (/ 10 ^ 10).
Proof.
  intros O Hs N. assert (O1 := O). apply ok_module in O. destruct O as (_ & _ & Lr & F).
  unfold mod_timeStep, step_children. match goal with |- context [if ?b then _ else _] => destruct b end; [discriminate|].
  destruct (each _ (ms m)) as [l1 [us| | |]] eqn:E; [|destruct (m_par (mm m)); discriminate|discriminate|discriminate].
  destruct (mod_heat_step (ops tm n) tm dt k (mkM (mm m) l1)) as [[r l2] [[]| | |]] eqn:E2; try discriminate.
  assert (G := mod_heat_step_frame _ _ _ _ _ _ _ E2). cbn [ms mm] in *. destruct G as [G1 G2]. rewrite Hs.
  destruct (each_ok _ _ _ _ E) as (G & L1 & L2).
  assert (F1 : Forall (ok n) l1).
  { clear - G F L1. revert l1 us G L1. induction (ms m) as [|s l IHl]; intros [|a l1] [|x us] G L1; inversion G; subst; try discriminate; constructor.
    - inversion F; subst. cbn in *. destruct x. eapply timeStep_preserves; eauto.
    - inversion F; subst. eapply IHl; eauto. }
  destruct (ths_keep _ _ _ _ G1 F1) as [F2 S2]. assert (L3 := Forall2_len _ _ _ S2).
  destruct G2 as (_ & R2 & _).
  destruct (p_redistribute _ _ l2) as [l3 [st| | |]] eqn:E3; try discriminate.
  destruct (status_eqb st Success) eqn:Es.
  - intros [= <-]. cbn [ms mm inval set_V m_rc] in *. destruct st; try discriminate.
    eapply redistribute_balanced; [exact F2| | |exact E3]; [|lia]. rewrite R2. congruence.
  - destruct (p_redistribute _ _ l3) as [l4 [st4| | |]]; discriminate.
Qed.
(** One branch *)
Transparent setCurrent_iterations.
Lemma iterations_S : setCurrent_iterations = S (Z.to_nat 10549).
Proof. unfold setCurrent_iterations. rewrite <- Z2Nat.inj_succ by lia. reflexivity. Qed.
Opaque setCurrent_iterations.
Lemma one_branch tm n Inew (m m' : module R (tree n)) s : ok (S n) (inr m) -> m_series (mm m) = false -> ms m = [s] ->
  mod_setCurrent (ops tm n) Inew true m = (m', Ok Success) ->
  exists s1 s2 st, o_setCurrent (ops tm n) Inew true s = (s1, Ok st) /\ isStatusOK st = true /\ sim n s1 s2 /\ ms m' = [s2].
Proof.
  intros O Hs Hm. apply ok_module in O. destruct O as (_ & _ & Lr & F). rewrite Hm in *. inversion F; subst.
  unfold mod_setCurrent. rewrite Hs, Hm. destruct (m_rc (mm m)) as [|r [|]] eqn:Er; try discriminate.
  unfold p_setCurrent. cbn [length Nat.ltb Nat.leb NSUs_MAX map].
  destruct (p_first (ops tm n) _ _ _ _) as [l1 r1] eqn:E1. cbn [p_first] in E1.
  match type of E1 with context [o_setCurrent (ops tm n) ?i true s] => replace i with Inew in E1 end.
  2:{ rewrite R_nsum, R_nnat. cbn. field. }
  destruct (o_setCurrent (ops tm n) Inew true s) as [s1 [st| | |]] eqn:E; try (injection E1 as <- <-; discriminate).
  destruct (isStatusOK st) eqn:Es; [|injection E1 as <- <-; rewrite Es; intros [= <- ->]; discriminate].
  injection E1 as <- <-. cbn [rmap rbind]. rewrite Es.
  assert (O1 := setCurrent_preserves _ _ _ _ _ _ _ H1 E).
  destruct (getVall (ops tm n) [s1] [r]) as [l2 [Va| | |]] eqn:E2; try discriminate.
  assert (F1 : Forall (ok n) [s1]) by (constructor; auto).
  destruct (getVall_branch tm n [s1] [r] l2 Va F1 eq_refl E2) as (F2 & S2 & (vs & _ & Lw & _)).
  inversion S2 as [|? s2 ? ? S3 S4]; subst. inversion S4; subst. destruct Va as [|w [|]]; try discriminate.
  assert (X : forall k, p_balance (ops tm n) (S k) (nlit 1 1000000000) [r] [Inew] [w] [s2] = ([s2], Ok (Some [Inew]))).
  { intros k. cbn [p_balance]. replace (spread (vmean [w]) [w]) with 0.
    - replace (nltb 0 (nlit 1 1000000000)) with true; [reflexivity|]. symmetry. apply Rltb_true. rewrite R_nlit. lra.
    - rewrite spread_off. unfold off_by, vmean. rewrite R_nsum, R_nnat. cbn. replace ((w + 0) / 1 - w) with 0 by field. rewrite Rabs_R0. lra. }
  assert (Y : exists k, setCurrent_iterations = S k) by (exists (Z.to_nat 10549); exact iterations_S).
  destruct Y as [k ->]. rewrite X. intros [= <-]. exists s1, s2, st. auto.
Qed.
