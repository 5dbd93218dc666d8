(** * Lemmas about the single-particle cell, any carrier *)
From Verif Require Import Base RFacts StatusModel UtilModel CellModel SpmModel SpmSpec.

Section Any.
Context {A : Type} {NA : Num A}.
Variable F : fns A.
Implicit Types (c : spm A) (s : spm_st A).

(** ** The voltage and its store *)

Lemma spm_V_cases c c' r :
  spm_V F c = (c', r) ->
  (c' = c /\ c_valid c = true /\ r = Ok (s_V (cs c))) \/
  (c' = c /\ c_valid c = false /\ r = fresh_V F c) \/
  (exists v, c' = set_valid (set_st c (st_V (cs c) v)) true /\ c_valid c = false /\ r = Ok v /\ calcV F c = Ok (Some v)).
Proof.
  unfold spm_V, fresh_V, spm_V. change (calcV F (set_valid c false)) with (calcV F c).
  change (c_valid (set_valid c false)) with false. cbv iota.
  destruct (c_valid c) eqn:Ev; intros H.
  - injection H as <- <-. now left.
  - destruct (calcV F c) as [[v|]|n| |] eqn:Ec; injection H as <- <-; right; (now left) || right; eauto.
Qed.

Lemma fresh_V_calc c :
  fresh_V F c = match calcV F c with
                | Ok None => Ok (nZ 0) | Ok (Some v) => Ok v | Throw n => Throw n | UB => UB | Fuel => Fuel end.
Proof.
  unfold fresh_V, spm_V. change (calcV F (set_valid c false)) with (calcV F c). cbn [c_valid set_valid].
  now destruct (calcV F c) as [[v|]|n| |].
Qed.

Lemma read_V_valid c : c_valid c = true -> read_V F c = Ok (s_V (cs c)).
Proof. intros H. unfold read_V, spm_V. now rewrite H. Qed.
Lemma read_V_invalid c : c_valid c = false -> read_V F c = fresh_V F c.
Proof. intros H. unfold read_V, fresh_V, spm_V. rewrite H. change (calcV F (set_valid c false)) with (calcV F c). cbn [c_valid set_valid].
  now destruct (calcV F c) as [[v|]|n| |]. Qed.

(** Reading the voltage does not change what a later read returns. *)
Lemma read_V_stable c : read_V F (fst (spm_V F c)) = read_V F c.
Proof.
  destruct (spm_V F c) as [c' r] eqn:E. cbn. destruct (spm_V_cases _ _ _ E) as [(-> & _)|[(-> & _)|(v & -> & Ev & -> & Ec)]].
  1-2: reflexivity.
  rewrite read_V_valid by reflexivity. rewrite read_V_invalid by exact Ev. rewrite fresh_V_calc, Ec. reflexivity.
Qed.

(** The voltage of the present states does not depend on the stored voltage, charge counter, throughput, stresses,
    thermal accumulators or settings. *)
Lemma fresh_set_valid c b : fresh_V F (set_valid c b) = fresh_V F c.
Proof. reflexivity. Qed.
Lemma fresh_read c : fresh_V F (fst (spm_V F c)) = fresh_V F c.
Proof.
  destruct (spm_V F c) as [c' r] eqn:E. cbn.
  destruct (spm_V_cases _ _ _ E) as [(-> & _)|[(-> & _)|(v & -> & _)]]; try reflexivity.
  rewrite !fresh_V_calc. reflexivity.
Qed.

Definition coherent c : Prop := read_V F c = fresh_V F c.
Lemma coherent_invalid c : c_valid c = false -> coherent c.
Proof. apply read_V_invalid. Qed.
Lemma coherent_read c : coherent c -> coherent (fst (spm_V F c)).
Proof. unfold coherent. intros H. now rewrite read_V_stable, fresh_read. Qed.

Lemma coherent_same c d :
  calcV F d = calcV F c -> s_V (cs d) = s_V (cs c) -> c_valid d = c_valid c -> coherent c -> coherent d.
Proof.
  intros E1 E2 E3 H. destruct (c_valid c) eqn:V; [|now apply coherent_invalid].
  unfold coherent in *. rewrite read_V_valid in * by assumption. rewrite fresh_V_calc in *. now rewrite E1, E2.
Qed.

(** After a read that succeeded the store is either invalid or fresh, from any coherent cell. *)
Lemma read_after c c' r : coherent c -> spm_V F c = (c', r) -> coherent c'.
Proof. intros H E. replace c' with (fst (spm_V F c)) by now rewrite E. now apply coherent_read. Qed.

(** ** Set current *)
Lemma setCurrent_bad c i chk c' st :
  spm_setCurrent F i chk c = (c', Ok st) -> isStatusBad st = true -> c' = c.
Proof.
  unfold spm_setCurrent, spm_checkCurrent, spm_checkVoltage.
  set (c1 := set_valid (set_st c (st_I (cs c) i)) false).
  destruct chk.
  - destruct (spm_V F c1) as [c2 r] eqn:E. intros H B.
    destruct (check_voltage r (q_lim (cp c1)) (s_I (cs c1))) as [[v st']|n| |] eqn:Ec; cbn in H; try discriminate.
    injection H as H1 H2. subst st'. rewrite B in H1. subst c'.
    destruct (spm_V_cases _ _ _ E) as [(-> & _)|[(-> & _)|(w & -> & _)]]; subst c1; destruct c as [p s va t b pa q qt tt te]; destruct s; reflexivity.
  - cbn. intros H B. injection H as H1 H2. subst st. discriminate.
Qed.
Lemma setCurrent_outcome c i chk c' r :
  spm_setCurrent F i chk c = (c', r) -> (exists st, r = Ok st) \/ r = UB \/ r = Fuel.
Proof.
  unfold spm_setCurrent, spm_checkCurrent, spm_checkVoltage. set (c1 := set_valid _ false).
  destruct chk; intros H.
  - destruct (spm_V F c1) as [c2 v].
    destruct (check_voltage v (q_lim (cp c1)) (s_I (cs c1))) as [[x y]|n| |] eqn:K; cbn in H; injection H as <- <-; eauto.
    destruct v; discriminate.
  - injection H as <- <-. eauto.
Qed.

(** ** Set SOC *)
Lemma unchanged_refl c : unchanged F c c.
Proof. unfold unchanged. intuition. Qed.

Lemma st_list_ext s s' :
  st_V s' (s_V s) = s -> forall i, i <> 1%nat -> nth_error (st_list s') i = nth_error (st_list s) i.
Proof.
  intros H i Hi. destruct s, s'. cbn in H. injection H as -> -> -> -> -> -> -> -> -> -> -> -> -> -> -> -> -> -> -> -> -> -> ->.
  destruct i as [|[|i]]; [reflexivity|congruence|reflexivity].
Qed.

Lemma setSOC_bad c x chk c' st :
  spm_setSOC F x chk c = (c', Ok st) -> isStatusBad st = true -> unchanged F c c' /\ (c_valid c = true -> c' = c).
Proof.
  unfold spm_setSOC, spm_checkVoltage. destruct (check_SOC x); cbn.
  2: { intros H _. injection H as <- _. split; [apply unchanged_refl|easy]. }
  set (c1 := set_st c (st_SOC (cs c) x)). destruct chk.
  - destruct (spm_V F c1) as [c2 r] eqn:E.
    change (s_I (cs c1)) with (s_I (cs c)). cbn. intros H B.
    destruct (check_voltage r (q_lim (cp c)) (s_I (cs c))) as [[v st']|n| |] eqn:Ec; cbn in H; try discriminate.
    injection H as H1 H2. subst st'. rewrite B in H1. subst c'.
    assert (Eq : forall y, set_st (set_st c (st_SOC (cs c) y)) (st_SOC (st_SOC (cs c) y) (s_SOC (cs c))) = c).
    { intros y. destruct c as [p s va t b pa q qt tt te]; destruct s; reflexivity. }
    destruct (spm_V_cases _ _ _ E) as [(-> & _)|[(-> & _)|(w & -> & Ev & _ & Ew)]].
    1-2: subst c1; cbn; rewrite Eq; split; [apply unchanged_refl|easy].
    split; [|intros K; subst c1; cbn in Ev; congruence].
    subst c1. unfold unchanged. repeat (split; [reflexivity|]). split.
    + apply st_list_ext. destruct c as [p s va t b pa q qt tt te]; destruct s; reflexivity.
    + rewrite read_V_valid by reflexivity. rewrite read_V_invalid by exact Ev. rewrite fresh_V_calc.
      change (calcV F c) with (calcV F (set_st c (st_SOC (cs c) x))). rewrite Ew. reflexivity.
  - intros H B. injection H as <- <-. discriminate.
Qed.

(** ** Set states *)
Lemma setStates_bad c l chk c' rest st :
  spm_setStates F l chk c = (c', Ok (rest, st)) -> isStatusBad st = true -> c' = c.
Proof.
  unfold spm_setStates, spm_checkVoltage. destruct (spm_read _ _ l) as [[s rs]|n| |]; try discriminate.
  set (c1 := set_valid (set_st c s) false).
  destruct (spm_validStates F c1) as [[]|n| |]; try discriminate.
  - destruct chk.
    + destruct (spm_V F c1) as [c2 r] eqn:E.
      destruct (check_voltage r (q_lim (cp c1)) (s_I (cs c1))) as [[v st']|n| |] eqn:Ec; cbn; intros H B; try discriminate.
      injection H as H1 H2 H3. subst st'. rewrite B in H1. subst c'.
      destruct (spm_V_cases _ _ _ E) as [(-> & _)|[(-> & _)|(w & -> & _)]]; subst c1; destruct c; reflexivity.
    + intros H B. injection H as <- <- <-. discriminate.
  - intros H B. injection H as <- <- <-. subst c1. destruct c; reflexivity.
Qed.

Lemma validStates_throws c n : spm_validStates F c = Throw n -> n = 15%Z /\ (s_LLI (cs c) <? nZ 0)%num = true.
Proof.
  unfold spm_validStates. destruct (getCSurf F c) as [[a b] f].
  destruct (s_LLI (cs c) <? nZ 0)%num; [|discriminate]. intros H. now injection H as <-.
Qed.
Lemma setStates_throws c l chk c' n :
  spm_setStates F l chk c = (c', Throw n) ->
  n = 15%Z /\ exists s rest, spm_read (length (s_zp (cs c))) (length (s_zn (cs c))) l = Ok (s, rest) /\
    (s_LLI s <? nZ 0)%num = true /\ c' = set_valid (set_st c s) false.
Proof.
  unfold spm_setStates, spm_checkVoltage. destruct (spm_read _ _ l) as [[s rs]|m| |] eqn:Er; try discriminate.
  - set (c1 := set_valid (set_st c s) false). destruct (spm_validStates F c1) as [[]|m| |] eqn:Ev; try discriminate.
    + destruct chk; [|discriminate]. destruct (spm_V F c1) as [c2 r].
      destruct r; cbn; discriminate.
    + intros H. injection H as <- <-. apply validStates_throws in Ev. destruct Ev as [-> Ev]. split; [reflexivity|].
      exists s, rs. now repeat split.
  - revert Er. unfold spm_read. repeat (destruct l as [|? l]; [discriminate|]).
    match goal with |- context [match ?x with _ => _ end] => destruct x as [|? [|? [|? [|? [|? [|? [|? ?]]]]]]] end; discriminate.
Qed.
Lemma spm_read_not np nn (l : list A) n : spm_read np nn l <> Throw n /\ spm_read np nn l <> Fuel.
Proof.
  unfold spm_read. repeat (destruct l as [|? l]; [now split|]).
  match goal with |- context [match ?x with _ => _ end] => destruct x as [|? [|? [|? [|? [|? [|? [|? ?]]]]]]] end; now split.
Qed.

(** ** The stored voltage is never stale *)

(** Facts of a call that keep [coherent]. *)
Lemma after_setCurrent c i chk : coherent c -> coherent (fst (spm_setCurrent F i chk c)).
Proof.
  intros H. destruct (spm_setCurrent F i chk c) as [c' r] eqn:E. cbn.
  unfold spm_setCurrent, spm_checkCurrent, spm_checkVoltage in E.
  set (c1 := set_valid (set_st c (st_I (cs c) i)) false) in E.
  assert (H1 : coherent c1) by now apply coherent_invalid.
  destruct (isStatusBad (match r with Ok st => st | _ => Success end)) eqn:B.
  - destruct r as [st|n| |]; try discriminate.
    assert (c' = c) as ->; [|exact H].
    { eapply setCurrent_bad; [|exact B]. unfold spm_setCurrent, spm_checkCurrent, spm_checkVoltage. exact E. }
  - destruct chk.
    + destruct (spm_V F c1) as [c2 v] eqn:Ev. assert (H2 : coherent c2) by exact (read_after _ _ _ H1 Ev).
      destruct (rmap snd (check_voltage v (q_lim (cp c1)) (s_I (cs c1)))) as [st|n| |] eqn:Ec;
        cbn in Ec; rewrite ?Ec in E; cbn in E; try (injection E as <- <-; assumption).
      cbn in E. injection E as E <-. rewrite B in E. now subst c'.
    + injection E as <- <-. exact H1.
Qed.

Lemma after_setSOC c x chk : coherent c -> coherent (fst (spm_setSOC F x chk c)).
Proof.
  intros H. unfold spm_setSOC, spm_checkVoltage. destruct (check_SOC x); [|exact H]. cbn [negb].
  set (c1 := set_st c (st_SOC (cs c) x)).
  assert (Hs : forall d y, coherent d -> coherent (set_st d (st_SOC (cs d) y))).
  { intros d y Hd. now apply (coherent_same d). }
  assert (H1 : coherent c1) by now apply Hs.
  destruct chk; [|exact H1].
  destruct (spm_V F c1) as [c2 v] eqn:Ev. assert (H2 : coherent c2) by exact (read_after _ _ _ H1 Ev).
  destruct (check_voltage v (q_lim (cp c1)) (s_I (cs c1))) as [[w st]|n| |]; try exact H2. cbn.
  destruct (isStatusBad st); [now apply Hs|exact H2].
Qed.

Lemma after_setStates c l chk : coherent c -> coherent (fst (spm_setStates F l chk c)).
Proof.
  intros H. destruct (spm_setStates F l chk c) as [c' r] eqn:E. cbn.
  destruct r as [[rest st]|n| |].
  1: destruct (isStatusBad st) eqn:B; [now rewrite (setStates_bad _ _ _ _ _ _ E B)|].
  all: unfold spm_setStates, spm_checkVoltage in E; destruct (spm_read _ _ l) as [[s rs]|m| |] eqn:Er;
    try (apply pair_equal_spec in E; destruct E as [<- _]; exact H).
  all: set (c1 := set_valid (set_st c s) false) in E; assert (H1 : coherent c1) by now apply coherent_invalid.
  all: destruct (spm_validStates F c1) as [[]|m'| |];
    try (apply pair_equal_spec in E; destruct E as [<- _]; exact H1).
  all: try (apply pair_equal_spec in E; destruct E as [<- _]; apply (coherent_same c); [reflexivity..|exact H]).
  all: destruct chk; try (apply pair_equal_spec in E; destruct E as [<- _]; exact H1).
  all: destruct (spm_V F c1) as [c2 v] eqn:Ev; assert (H2 : coherent c2) by exact (read_after _ _ _ H1 Ev);
    destruct (check_voltage v (q_lim (cp c1)) (s_I (cs c1))) as [[w st']|k| |];
    try (apply pair_equal_spec in E; destruct E as [<- E2]; try discriminate; exact H2).
  apply pair_equal_spec in E. destruct E as [<- E2]. injection E2 as _ ->. now rewrite B.
Qed.

Lemma coherent_cum c t a w : coherent c -> coherent (set_st c (st_cum (cs c) t a w)).
Proof.
  now apply (coherent_same c).
Qed.
(** Changes outside parameters, states and flag do not matter. *)
Lemma coherent_ext c d : cp d = cp c -> cs d = cs c -> c_valid d = c_valid c -> coherent c -> coherent d.
Proof.
  intros E1 E2 E3. destruct c, d. cbn in *. subst. now apply coherent_same.
Qed.

Lemma after_step1 dt c : coherent c -> coherent (fst (spm_step1 F dt c)).
Proof.
  intros _. unfold spm_step1. destruct (calcDiffConstant F c) as [a b]. destruct (calcMolarFlux c) as [[x y] z].
  match goal with |- context [spm_V F ?d] => set (c1 := d) end.
  assert (H1 : coherent c1) by now apply coherent_invalid.
  destruct (spm_V F c1) as [c2 v] eqn:Ev. assert (H2 : coherent c2) by exact (read_after _ _ _ H1 Ev).
  destruct v; try exact H2. now apply coherent_cum.
Qed.
Lemma step1_block dt c : c_block (fst (spm_step1 F dt c)) = c_block c /\ cp (fst (spm_step1 F dt c)) = cp c /\
  c_parent (fst (spm_step1 F dt c)) = c_parent c.
Proof.
  unfold spm_step1. destruct (calcDiffConstant F c) as [a b]. destruct (calcMolarFlux c) as [[x y] z].
  match goal with |- context [spm_V F ?d] => set (c1 := d) end.
  destruct (spm_V F c1) as [c2 v] eqn:Ev.
  destruct (spm_V_cases _ _ _ Ev) as [(-> & _)|[(-> & _)|(w & -> & _)]]; destruct v; repeat split.
Qed.
Lemma steps_S n dt c :
  spm_steps F (S n) dt c = match spm_step1 F dt c with (c', Ok _) => spm_steps F n dt c' | r => r end.
Proof. reflexivity. Qed.
Lemma after_steps n dt : forall c, coherent c -> coherent (fst (spm_steps F n dt c)).
Proof.
  induction n as [|n IH]; intros c H; [exact H|]. rewrite steps_S.
  pose proof (after_step1 dt c H) as H1. destruct (spm_step1 F dt c) as [c' r]. cbn in H1. destruct r; try exact H1. now apply IH.
Qed.
Lemma steps_block n dt : forall c, c_block (fst (spm_steps F n dt c)) = c_block c /\ cp (fst (spm_steps F n dt c)) = cp c /\
  c_parent (fst (spm_steps F n dt c)) = c_parent c.
Proof.
  induction n as [|n IH]; intros c; [easy|]. rewrite steps_S.
  pose proof (step1_block dt c) as (B & C & D). destruct (spm_step1 F dt c) as [c' r]. cbn in B, C, D.
  destruct r; try easy. destruct (IH c') as (B' & C' & D'). now rewrite B', C', D'.
Qed.
Lemma after_step_blocked tm dt n c : c_block c = true -> coherent c -> coherent (fst (spm_timeStep_CC F tm dt n c)).
Proof.
  intros B H. unfold spm_timeStep_CC. destruct (dt <? nZ 0)%num; [exact H|].
  match goal with |- context [spm_steps F _ _ ?d] => set (c1 := d) end.
  assert (H1 : coherent c1) by (apply (coherent_ext c); [reflexivity..|exact H]).
  pose proof (after_steps (Z.to_nat n) dt c1 H1) as H2.
  destruct (steps_block (Z.to_nat n) dt c1) as (B2 & _).
  destruct (spm_steps F (Z.to_nat n) dt c1) as [c2 r]. cbn in H2, B2. destruct r; try exact H2.
  change (c_block c1) with (c_block c) in B2. rewrite B in B2. now rewrite B2.
Qed.

Lemma after_setC fp fn c : coherent c -> coherent (fst (spm_setC fp fn c)).
Proof.
  intros H. unfold spm_setC.
  destruct ((fp <? nZ 0) || (fp >? nZ 1) || ((fn <? nZ 0) || (fn >? nZ 1)))%num; [exact H|].
  destruct (ntrunc _) as [iz|]; [|exact H]. destruct (_ && _); [|exact H]. now apply coherent_invalid.
Qed.
Lemma tame_coherent tm o c : tame c o -> coherent c -> coherent (after F tm o c).
Proof.
  intros T H. destruct o; cbn in T |- *; try contradiction.
  - now apply coherent_read.
  - now apply after_setCurrent.
  - now apply after_setSOC.
  - now apply after_setStates.
  - now apply coherent_invalid.
  - now apply after_setC.
  - unfold spm_setTenv. destruct (_ || _)%num; [exact H|]. apply (coherent_ext c); auto.
  - now apply after_step_blocked.
  - apply (coherent_ext c); auto.
  - apply (coherent_ext c); auto.
  - apply (coherent_ext c); auto.
  - now apply coherent_invalid.
  - unfold spm_setInitialConcentration, spm_setC in *. cbn in *.
    destruct ((fp <? nZ 0) || (fp >? nZ 1) || ((fn <? nZ 0) || (fn >? nZ 1)))%num; [discriminate|].
    destruct (ntrunc _) as [iz|]; [|discriminate]. destruct (_ && _); [|discriminate]. now apply coherent_invalid.
Qed.
Lemma history_coherent tm c l c' : history F tm tame c l c' -> coherent c -> coherent c'.
Proof. induction 1 as [c|c o l c' T _ IH]; intros H; [exact H|]. apply IH. now apply tame_coherent. Qed.

End Any.
