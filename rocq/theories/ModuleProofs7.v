(** * Proofs about modules: the books of the cooling energy *)
From Coq Require Import List Lia.
From Verif Require Import Base RFacts StatusModel StatusProofs CellModel CellSpec CellProofs CoolModel ModuleModel ModuleSpec ModuleProofs ModuleProofs2 ModuleProofs3 ModuleProofs4 ModuleProofs5 ModuleProofs6.
Import ListNotations.
Local Open Scope R_scope.

Definition diff (k : cool R) : R := unreported k - consumed k.
Lemma diff_setT t k k' r : cool_setT t k = (k', r) -> diff k' = diff k.
Proof. unfold cool_setT. match goal with |- context [if ?b then _ else _] => destruct b end; intros [= <- <-]; reflexivity. Qed.
Lemma diff_dstate a b t k k' r : cool_dstate a b t k = (k', r) -> diff k' = diff k.
Proof.
  unfold cool_dstate. destruct (k_kind k) as [| |h] eqn:E.
  - intros [= <- <-]. unfold diff, unreported, consumed. cbn [with_cum k_kind k_cum cum_add u_E u_Eop]. rewrite E. cbn. ring.
  - intros [= <- <-]. unfold diff, unreported, consumed. cbn [with_cum k_kind k_cum cum_add u_E u_Eop]. rewrite E. cbn. ring.
  - match goal with |- context [if ?b then _ else _] => destruct b end; intros [= <- <-]; [reflexivity|].
    unfold diff, unreported, consumed. cbn [with_cum with_kind k_kind k_cum cum_add u_E u_Eop h_Eac]. rewrite E. cbn. ring.
Qed.
Lemma diff_fan a b k : diff (fan_control a b k) = diff k /\ k_kind (fan_control a b k) = k_kind k /\ k_cum (fan_control a b k) = k_cum k.
Proof. unfold fan_control. repeat match goal with |- context [match ?x with _ => _ end] => destruct x end; repeat split. Qed.
Lemma diff_control a b k : diff (cool_control a b k) = diff k.
Proof.
  unfold cool_control. destruct (k_kind k) eqn:E; [apply diff_fan|reflexivity|].
  destruct (diff_fan a b k) as (_ & E1 & E2). unfold diff, unreported, consumed. cbn [with_kind k_kind k_cum h_Eac]. rewrite E2, E. reflexivity.
Qed.

Section Rel.
Context {S : Type} (o : su_ops R S).
Implicit Types m : module R S.
Inductive any_rel : S -> S -> Prop :=
| ar_refl s : any_rel s s
| ar_V s s' : any_rel (fst (o_V o s)) s' -> any_rel s s'
| ar_I i b s s' : any_rel (fst (o_setCurrent o i b s)) s' -> any_rel s s'
| ar_th nb t s s' : any_rel (fst (o_thermal o nb t s)) s' -> any_rel s s'
| ar_T t s s' : any_rel (fst (o_setT o t s)) s' -> any_rel s s'
| ar_ts dt k s s' : any_rel (fst (o_timeStep o dt k s)) s' -> any_rel s s'.
Definition anys := Forall2 any_rel.
Lemma any_trans s1 s2 s3 : any_rel s1 s2 -> any_rel s2 s3 -> any_rel s1 s3.
Proof. induction 1; eauto using any_rel. Qed.
Lemma anys_trans l1 l2 l3 : anys l1 l2 -> anys l2 l3 -> anys l1 l3.
Proof. apply Forall2_trans, any_trans. Qed.
Lemma anys_refl l : anys l l. Proof. apply Forall2_refl, ar_refl. Qed.
Lemma any_of_cur s s' : cur_rel o s s' -> any_rel s s'.
Proof. induction 1; eauto using any_rel. Qed.
Lemma any_of_th s s' : th_rel o s s' -> any_rel s s'.
Proof. induction 1; eauto using any_rel. Qed.
Lemma anys_of_curs l l' : curs o l l' -> anys l l'.
Proof. intros H. eapply Forall2_impl; [|exact H]. exact any_of_cur. Qed.
Lemma anys_of_ths l l' : ths o l l' -> anys l l'.
Proof. intros H. eapply Forall2_impl; [|exact H]. exact any_of_th. Qed.
Definition d m : R := diff (m_cool (mm m)).

Lemma mod_thermal_d tm nb tim m m' r : mod_thermal o tm nb tim m = (m', r) -> d m' = d m.
Proof.
  unfold mod_thermal. destruct (if (tm =? 0)%Z then _ else _) as [m1 rr] eqn:E.
  assert (F : d m1 = d m).
  { destruct (tm =? 0)%Z; [injection E as <- <-; reflexivity|].
    destruct (tm =? 1)%Z; [apply th_cell_frame in E; destruct E as [_ E]; unfold d; now rewrite E|].
    unfold th_coupled in E. revert E.
    match goal with |- context [if ?b then _ else _] => destruct b end; [intros [= <- <-]; reflexivity|].
    match goal with |- context [if ?b then _ else _] => destruct b end; [intros [= <- <-]; reflexivity|].
    match goal with |- context [if ?b then _ else _] => destruct b end; [intros [= <- <-]; reflexivity|].
    destruct (th_children o _ 0 m tim (ms m)) as [l [Tn| | |]]; try (intros [= <- <-]; reflexivity).
    match goal with |- context [cool_dstate ?a ?b ?c ?e] => destruct (cool_dstate a b c e) as [k [Tc| | |]] eqn:Ed end;
      apply diff_dstate in Ed; try (intros [= <- <-]; exact Ed).
    destruct (set_temps o _ l) as [l2 [x| | |]]; try (intros [= <- <-]; exact Ed).
    match goal with |- context [if ?b then _ else _] => destruct b end; intros [= <- <-]; exact Ed. }
  destruct rr; intros [= <- <-]; exact F.
Qed.
Lemma mod_setT_d t m m' r : mod_setT t m = (m', r) -> d m' = d m.
Proof. unfold mod_setT. destruct (cool_setT _ _) as [k rr] eqn:E. intros [= <- <-]. exact (diff_setT _ _ _ _ E). Qed.
Lemma mod_heat_step_d tm dt n m m' r : mod_heat_step o tm dt n m = (m', r) -> d m' = d m.
Proof.
  unfold mod_heat_step. destruct (m_block (mm m)); [intros [= <- <-]; reflexivity|].
  set (q := if m_series (mm m) then _ else _). clearbody q. set (m1 := mkM (set_therm (mm m) q _) (ms m)).
  destruct (if m_top (mm m) then _ else _) as [m2 rr] eqn:E.
  assert (F : d m2 = d m).
  { assert (F1 : d m1 = d m) by reflexivity.
    destruct (m_top (mm m)); [|injection E as <- <-; exact F1].
    destruct (k_kind _); try (injection E as <- <-; exact F1).
    destruct (mod_thermal o tm [] (m_time (mm m1)) m1) as [m3 r3] eqn:E3. apply mod_thermal_d in E3.
    destruct r3; try (injection E as <- <-; congruence). apply mod_setT_d in E. congruence. }
  destruct rr; intros [= <- <-]; try exact F. unfold d. cbn [mm set_cool m_cool]. rewrite diff_control. exact F.
Qed.
Lemma mod_timeStep_any tm dt n m m' r : mod_timeStep o tm dt n m = (m', r) -> anys (ms m) (ms m') /\ d m' = d m.
Proof.
  unfold mod_timeStep, step_children. match goal with |- context [if ?b then _ else _] => destruct b end; [intros [= <- <-]; split; [apply anys_refl|reflexivity]|].
  destruct (each _ (ms m)) as [l1 rr] eqn:E. assert (F : anys (ms m) l1).
  { eapply Forall2_impl; [|exact (each_rel _ _ _ _ E)]. intros s s' [->| ->]; [constructor|]. eapply ar_ts. constructor. }
  destruct rr; try (try destruct (m_par (mm m)); intros [= <- <-]; (split; [exact F|reflexivity])).
  destruct (mod_heat_step o tm dt n (mkM (mm m) l1)) as [m1 r1] eqn:E2.
  assert (G := mod_heat_step_d _ _ _ _ _ _ E2). apply mod_heat_step_frame in E2. destruct E2 as [E2 _]. cbn [ms] in E2.
  apply anys_of_ths in E2. assert (F2 := anys_trans _ _ _ F E2).
  destruct r1; try (intros [= <- <-]; split; [exact F2|exact G]).
  destruct (m_series (mm m)); [intros [= <- <-]; split; [exact F2|exact G]|].
  destruct (p_redistribute o _ (ms (mkM (inval (mm m1)) (ms m1)))) as [l2 r2] eqn:E3. apply p_redistribute_curs, anys_of_curs in E3.
  assert (F3 := anys_trans _ _ _ F2 E3).
  destruct r2; try (intros [= <- <-]; split; [exact F3|exact G]).
  destruct (status_eqb _ _); [intros [= <- <-]; split; [exact F3|exact G]|].
  destruct (p_redistribute o _ l2) as [l3 r3] eqn:E4. apply p_redistribute_curs, anys_of_curs in E4. assert (F4 := anys_trans _ _ _ F3 E4).
  destruct r3; intros [= <- <-]; (split; [exact F4|exact G]).
Qed.
End Rel.

(** ** On trees *)
Definition D (n : nat) (u : tree n) : list R := map diff (coolers n u).
Lemma D_S n (m : module R (tree n)) : D (S n) (inr m) = d m :: flat_map (D n) (ms m).
Proof.
  unfold D, coolers. cbn [over_modules map]. unfold d. f_equal.
  induction (ms m) as [|s l IH]; cbn [flat_map map]; [reflexivity|]. rewrite map_app, IH. reflexivity.
Qed.
Definition keepsD {X} (n : nat) (f : tree n -> tree n * X) : Prop := forall u u' r, f u = (u', r) -> D n u' = D n u.
Lemma rel_D n (rel : tree n -> tree n -> Prop) : (forall s s', rel s s' -> D n s' = D n s) ->
  forall l l', Forall2 rel l l' -> flat_map (D n) l' = flat_map (D n) l.
Proof. intros K. induction 1 as [|a b l l' H _ IH]; cbn; [reflexivity|]. rewrite (K _ _ H), IH. reflexivity. Qed.
Lemma V_D tm n : keepsD n (o_V (ops tm n)).
Proof.
  induction n as [|n IH]; intros u u' r H; [cbn in H; injection H as <- <-; reflexivity|].
  node u c m; cbn [su_ops_at sum_ops o_V both mod_ops] in H; unfold on_l, on_r in H; [cbn in H; injection H as <- <-; reflexivity|].
  destruct (mod_V _ m) as [m' r'] eqn:E. injection H as <- <-. assert (E' := E). apply mod_V_mm in E'. destruct E' as (v & b & E').
  apply mod_V_rel in E. rewrite !D_S. f_equal; [unfold d; now rewrite E'|]. destruct E as [E _]. eapply rel_D; [|exact E].
  intros s s' K. induction K as [s|s s' K IK]; [reflexivity|]. destruct (o_V (ops tm n) s) as [s1 r1] eqn:E1. rewrite IK. exact (IH _ _ _ E1).
Qed.
Lemma setCurrent_D tm n : forall i b, keepsD n (o_setCurrent (ops tm n) i b).
Proof.
  induction n as [|n IH]; intros i b u u' r H; [reflexivity|].
  node u c m; cbn [su_ops_at sum_ops o_setCurrent both mod_ops] in H; unfold on_l, on_r in H.
  - destruct (o_setCurrent ecm_ops i b c) as [c' r']. injection H as <- <-; reflexivity.
  - destruct (mod_setCurrent _ i b m) as [m' r'] eqn:E. injection H as <- <-. apply mod_setCurrent_rel in E. destruct E as [F E].
    rewrite !D_S. f_equal; [unfold d; rewrite E; destruct (m_series (mm m)); reflexivity|]. eapply rel_D; [|exact F].
    intros s s' K. induction K as [s|s s' K IK|j bb s s' K IK]; [reflexivity| |].
    + destruct (o_V (ops tm n) s) as [s1 r1] eqn:E1. rewrite IK. exact (V_D _ _ _ _ _ E1).
    + destruct (o_setCurrent (ops tm n) j bb s) as [s1 r1] eqn:E1. rewrite IK. exact (IH _ _ _ _ _ E1).
Qed.
Lemma setT_D tm n t : keepsD n (o_setT (ops tm n) t).
Proof.
  destruct n as [|n]; intros u u' r H; [reflexivity|].
  node u c m; cbn [su_ops_at sum_ops o_setT both mod_ops] in H; unfold on_l, on_r in H.
  - destruct (o_setT ecm_ops t c) as [c' r']. injection H as <- <-; reflexivity.
  - destruct (mod_setT t m) as [m' r'] eqn:E. injection H as <- <-. rewrite !D_S. assert (E' := E). apply mod_setT_d in E'.
    apply mod_setT_frame in E. destruct E as [-> _]. now rewrite E'.
Qed.
Lemma thermal_D tm n : forall nb t, keepsD n (o_thermal (ops tm n) nb t).
Proof.
  induction n as [|n IH]; intros nb t u u' r H; [reflexivity|].
  node u c m; cbn [su_ops_at sum_ops o_thermal both mod_ops] in H; unfold on_l, on_r in H.
  - destruct (o_thermal ecm_ops nb t c) as [c' r']. injection H as <- <-; reflexivity.
  - destruct (mod_thermal _ tm nb t m) as [m' r'] eqn:E. injection H as <- <-. rewrite !D_S. assert (E' := E). apply mod_thermal_d in E'.
    apply mod_thermal_frame in E. destruct E as [E _]. rewrite E'. f_equal. eapply rel_D; [|exact E].
    intros s s' K. induction K as [s|nb' t' s s' K IK|t' s s' K IK]; [reflexivity| |].
    + destruct (o_thermal (ops tm n) nb' t' s) as [s1 r1] eqn:E1. rewrite IK. exact (IH _ _ _ _ _ E1).
    + destruct (o_setT (ops tm n) t' s) as [s1 r1] eqn:E1. rewrite IK. exact (setT_D _ _ _ _ _ _ E1).
Qed.
Lemma timeStep_D tm n : forall dt k, keepsD n (o_timeStep (ops tm n) dt k).
Proof.
  induction n as [|n IH]; intros dt k u u' r H; [reflexivity|].
  node u c m; cbn [su_ops_at sum_ops o_timeStep both mod_ops] in H; unfold on_l, on_r in H.
  - destruct (o_timeStep ecm_ops dt k c) as [c' r']. injection H as <- <-; reflexivity.
  - destruct (mod_timeStep _ tm dt k m) as [m' r'] eqn:E. injection H as <- <-. rewrite !D_S.
    apply mod_timeStep_any in E. destruct E as [E ->]. f_equal. eapply rel_D; [|exact E].
    intros s s' K. induction K as [s|s s' K IK|i b s s' K IK|nb t s s' K IK|t s s' K IK|dt' k' s s' K IK]; [reflexivity| | | | |].
    + destruct (o_V (ops tm n) s) as [s1 r1] eqn:E1. rewrite IK. exact (V_D _ _ _ _ _ E1).
    + destruct (o_setCurrent (ops tm n) i b s) as [s1 r1] eqn:E1. rewrite IK. exact (setCurrent_D _ _ _ _ _ _ _ E1).
    + destruct (o_thermal (ops tm n) nb t s) as [s1 r1] eqn:E1. rewrite IK. exact (thermal_D _ _ _ _ _ _ _ E1).
    + destruct (o_setT (ops tm n) t s) as [s1 r1] eqn:E1. rewrite IK. exact (setT_D _ _ _ _ _ _ E1).
    + destruct (o_timeStep (ops tm n) dt' k' s) as [s1 r1] eqn:E1. rewrite IK. exact (IH _ _ _ _ _ E1).
Qed.
Lemma checkV_D tm n : keepsD n (o_checkV (ops tm n)).
Proof.
  induction n as [|n IH]; intros u u' r H; [reflexivity|].
  node u c m; cbn [su_ops_at sum_ops o_checkV both mod_ops] in H; unfold on_l, on_r in H; [cbn in H; injection H as <- <-; reflexivity|].
  destruct (mod_checkV _ m) as [m' r'] eqn:E. injection H as <- <-. unfold mod_checkV in E.
  assert (KV := V_D tm (S n) (inr m)). cbn [su_ops_at sum_ops o_V both mod_ops] in KV. unfold on_r in KV.
  destruct (mod_V _ m) as [m1 rv] eqn:EV. specialize (KV _ _ eq_refl). rewrite !D_S in *.
  destruct rv; try (injection E as <- <-; exact KV).
  destruct (each _ (ms m1)) as [l rl] eqn:EL. assert (X : flat_map (D n) l = flat_map (D n) (ms m1)).
  { eapply rel_D; [|exact (each_rel _ _ _ _ EL)]. intros s s' [->| ->]; [reflexivity|].
    destruct (o_checkV (ops tm n) s) as [s1 r1] eqn:E1. exact (IH _ _ _ E1). }
  rewrite <- KV, <- X. destruct rl; injection E as <- <-; reflexivity.
Qed.
Lemma setStates_D tm n : forall s b, keepsD n (o_setStates (ops tm n) s b).
Proof.
  induction n as [|n IH]; intros s b u u' r H; [reflexivity|].
  node u c m; cbn [su_ops_at sum_ops o_setStates both mod_ops] in H; unfold on_l, on_r in H.
  - destruct (o_setStates ecm_ops s b c) as [c' r']. injection H as <- <-; reflexivity.
  - destruct (mod_setStates _ s b m) as [m' r'] eqn:E. injection H as <- <-. rewrite !D_S.
    assert (Dd : d m' = d m).
    { revert E. unfold mod_setStates. destruct (ss_loop _ _ _ _ _ _ _) as [l [[rest st]| | |]]; try (intros [= <- <-]; reflexivity).
      destruct (isStatusBad st); [intros [= <- <-]; reflexivity|]. destruct rest as [|t rest]; [intros [= <- <-]; reflexivity|].
      destruct (cool_setT _ _) as [k [x| | |]] eqn:Ek; apply diff_setT in Ek; intros [= <- <-]; (exact Ek || reflexivity). }
    rewrite Dd. f_equal. apply mod_setStates_rel in E. destruct E as [F _]. eapply rel_D; [|exact F].
    intros x x' K. induction K as [x|l bb x x' K IK]; [reflexivity|].
    destruct (o_setStates (ops tm n) l bb x) as [x1 r1] eqn:E1. rewrite IK. exact (IH _ _ _ _ _ E1).
Qed.

(** The query *)
Lemma total_S f n (m : module R (tree n)) : total f (S n) (inr m) = f (m_cool (mm m)) + Rsum (map (total f n) (ms m)).
Proof.
  unfold total, coolers. cbn [over_modules map Rsum]. f_equal. induction (ms m) as [|s l IH]; cbn [flat_map map Rsum]; [reflexivity|].
  rewrite map_app, Rsum_app, IH. reflexivity.
Qed.
Definition value (q : option R) : R := match q with Some e => e | None => 0 end.
Lemma coolload_total tm n : forall u, exists u' q, o_coolload (ops tm n) u = (u', Ok q) /\ value q = total unreported n u /\
  Forall (fun k => unreported k = 0) (coolers n u') /\ total consumed n u' = total consumed n u /\
  (match n return tree n -> Prop with O => fun _ => q = None | S n' => fun u => match (u : ecmu R + module R (tree n')) with inl _ => q = None | inr _ => q <> None end end) u.
Proof.
  induction n as [|n IH]; intros u.
  - exists u, None. cbn. repeat split; constructor.
  - node u c m; cbn [su_ops_at sum_ops o_coolload both mod_ops]; unfold on_l, on_r; [exists (inl c), None; cbn; repeat split; constructor|].
    unfold mod_coolload.
    assert (X : forall l acc, exists l' , cl_children (ops tm n) acc l = (l', Ok (acc + Rsum (map (total unreported n) l))) /\
      Forall (fun k => unreported k = 0) (flat_map (coolers n) l') /\ Rsum (map (total consumed n) l') = Rsum (map (total consumed n) l)).
    { induction l as [|s l IHl]; intros acc; cbn [cl_children map Rsum flat_map].
      - exists []. repeat split; [|constructor]. do 2 f_equal. lra.
      - destruct (IH s) as (s' & q & E & E1 & E2 & E3 & _). rewrite E. destruct q as [e|]; cbn [value] in E1.
        + destruct (IHl (acc + e)) as (l' & F1 & F2 & F3). exists (s' :: l'). cbn [nadd RNum]. rewrite F1. cbn [flat_map map Rsum].
          repeat split; [rewrite E1; do 2 f_equal; lra|apply Forall_app; auto|lra].
        + destruct (IHl acc) as (l' & F1 & F2 & F3). exists (s' :: l'). rewrite F1. cbn [flat_map map Rsum].
          repeat split; [rewrite <- E1; do 2 f_equal; lra|apply Forall_app; auto|lra]. }
    destruct (X (ms m) (cool_Eop (m_cool (mm m)))) as (l' & F1 & F2 & F3). rewrite F1. cbn [rmap rbind].
    eexists _, _. split; [reflexivity|]. split; [cbn [value]; rewrite total_S; reflexivity|].
    split; [constructor; [cbn; apply R_nZ|exact F2]|]. split; [|discriminate].
    rewrite !total_S. cbn [mm ms set_cool m_cool]. rewrite F3. reflexivity.
Qed.
Lemma D_total n (u u' : tree n) : D n u' = D n u -> total unreported n u' - total consumed n u' = total unreported n u - total consumed n u.
Proof.
  assert (E : forall u : tree n, total unreported n u - total consumed n u = Rsum (D n u)).
  { intros x. unfold total, D, diff. induction (coolers n x) as [|k l IH]; cbn [map Rsum]; [lra|]. rewrite <- IH. lra. }
  intros H. rewrite !E, H. reflexivity.
Qed.
Lemma history_books tm n u q v : cooling_history tm n u q v ->
  q + total unreported n v - total unreported n u = total consumed n v - total consumed n u.
Proof.
  induction 1 as [u|dt k u q v w r H IH E|nb t u q v w r H IH E|t u q v w r H IH E|i b u q v w r H IH E|s b u q v w r H IH E|u q v w r H IH E|u q v w r H IH E|u q v w e H IH E].
  - lra.
  - apply timeStep_D, D_total in E. lra.
  - apply thermal_D, D_total in E. lra.
  - apply setT_D, D_total in E. lra.
  - apply setCurrent_D, D_total in E. lra.
  - apply setStates_D, D_total in E. lra.
  - apply V_D, D_total in E. lra.
  - apply checkV_D, D_total in E. lra.
  - destruct (coolload_total tm n v) as (w' & q' & E1 & E2 & E3 & E4 & _). rewrite E1 in E. injection E as <- ->. cbn [value] in E2.
    assert (Z : total unreported n w' = 0).
    { unfold total. clear - E3. induction E3 as [|k l Hk _ IH]; cbn [map Rsum]; [reflexivity|]. rewrite Hk, IH. lra. }
    lra.
Qed.
