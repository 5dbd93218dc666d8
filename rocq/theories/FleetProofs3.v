(** * Voltage of a chain of cells after a command *)
From Coq Require Import List Lia Reals Lra.
From Verif Require Import Base RFacts StatusModel StatusProofs CellModel CoolModel ModuleModel ModuleSpec ModuleProofs ModuleProofs2 ModuleProofs3
  ModuleProofs4 ModuleProofs5 ModuleProofs6 PackSpec FleetModel FleetSpec FleetProofs.
Import ListNotations.
Local Open Scope R_scope.

Section Volt.
Context {C : Type} (oc : su_ops R C) (acc : C -> account) (L : lawful oc acc).
Notation tree n := (su R C n).
Notation ops tm n := (su_ops_at oc tm n).

(** No module has a stored voltage. *)
Definition unread (n : nat) : tree n -> Prop := every_module (fun _ r _ => m_Vok r = false) n.
Lemma set_unread tm n : forall (u u' : tree n) i chk st, all_series n u ->
  o_setCurrent (ops tm n) i chk u = (u', Ok st) -> isStatusBad st = false -> unread n u'.
Proof.
  induction n as [|n IH]; intros u u' i chk st Hs H B; [exact Logic.I|].
  node u c m; cbn [su_ops_at sum_ops o_setCurrent both mod_ops] in H; unfold on_l, on_r in H.
  - destruct (o_setCurrent oc i chk c) as [c' r] eqn:E. injection H as <- ->. exact Logic.I.
  - destruct (mod_setCurrent _ i chk m) as [m' r] eqn:E. injection H as <- ->.
    destruct Hs as [S1 S2]. cbn in S1, S2. unfold mod_setCurrent in E. rewrite S1 in E.
    destruct (s_setCurrent _ _ _ _ _ _ _) as [l r] eqn:E1. injection E as <- ->.
    destruct (s_setCurrent_ok _ _ _ _ _ _ _ _ _ E1 B) as (_ & K2 & K3). split; [reflexivity|].
    apply Forall_forall. intros s' Hs'. apply In_nth_error in Hs'. destruct Hs' as [j Hj]. cbn in Hj.
    assert (Lj : (j < length l)%nat) by (apply nth_error_Some; congruence).
    destruct (K3 j) as (s & t & stj & T1 & T2 & T3 & T4); [lia|]. assert (t = s') by congruence. subst t.
    eapply IH; [|exact T3|exact T4]. eapply Forall_forall; [exact S2|]. eapply nth_error_In; eauto.
Qed.

Lemma Rsum_app a b : Rsum (a ++ b) = Rsum a + Rsum b.
Proof. induction a as [|x a IH]; cbn; [lra|rewrite IH; lra]. Qed.
(** ** The voltage *)
Notation contacts := (contact_resistance (C := C)).
Lemma V_sum tm n : forall (u u' : tree n) i v, chain n u -> well_formed n u -> unread n u ->
  Forall (fun c => a_I (acc c) = i) (leaves n u) -> o_V (ops tm n) u = (u', Ok v) -> 0 < v ->
  exists vs, Forall2 (fun c w => snd (o_V oc c) = Ok w) (leaves n u) vs /\ v = Rsum vs - i * contacts n u.
Proof.
  assert (LL : forall c c' i v, o_V oc c = (c', Ok v) -> exists vs, Forall2 (fun c w => snd (o_V oc c) = Ok w) [c] vs /\ v = Rsum vs - i * 0).
  { intros c c' i v E. exists [v]. split; [|cbn; lra]. constructor; [|constructor]. now rewrite E. }
  induction n as [|n IH]; intros u u' i v Hc Hw Hn Hi H Hv; [exact (LL _ _ i _ H)|].
  node u c m; cbn [su_ops_at sum_ops o_V both mod_ops] in H; unfold on_l, on_r in H.
  - destruct (o_V oc c) as [c' r] eqn:E. injection H as <- ->. exact (LL _ _ i _ E).
  - destruct (mod_V _ m) as [m' r] eqn:E. injection H as <- ->. pose proof (chain_kids _ _ Hc) as K.
    destruct Hc as [[S1 _] _]. cbn in S1. destruct Hn as [N1 N2]. cbn in N1, N2. destruct Hw as [[W0 W1] W2]. cbn in W0, W1, W2.
    unfold mod_V in E. rewrite S1, N1 in E.
    assert (X : forall (l : list (tree n)) rc a l' a', length rc = length l -> Forall (fun x => chain n x) l -> Forall (well_formed n) l -> Forall (unread n) l ->
      Forall (fun c => a_I (acc c) = i) (flat_map (leaves n) l) -> sV_loop (ops tm n) a l rc = (l', a', Ok true) ->
      exists vs, Forall2 (fun c w => snd (o_V oc c) = Ok w) (flat_map (leaves n) l) vs /\
        a' = a + Rsum vs - i * (Rsum rc + Rsum (concat (flat_map (over_modules (fun _ r _ => m_rc r) n) l)))).
    { clear - IH L. induction l as [|s l IHl]; intros rc a l' a' Hl Q1 Q2 Q3 Q4 E; cbn [sV_loop] in E.
      - injection E as <- <-. destruct rc; [|discriminate]. exists []. cbn. split; [constructor|lra].
      - destruct (o_V (ops tm n) s) as [s' [x| | |]] eqn:EV; try discriminate.
        destruct (nleb x (nZ 0)) eqn:Ex; [discriminate|]. destruct rc as [|r rc]; [discriminate|].
        destruct (sV_loop _ _ l rc) as [[l2 a2] e2] eqn:El. injection E as <- <- ->.
        inversion Q1; inversion Q2; inversion Q3; subst. cbn [flat_map] in Q4. apply Forall_app in Q4. destruct Q4 as [Q4 Q5].
        apply Rleb_false in Ex. rewrite R_nZ in Ex.
        destruct (IH s s' i x) as (vs1 & V1 & V2); auto.
        cbn [length] in Hl. destruct (IHl rc _ l2 a2 ltac:(lia) ltac:(assumption) ltac:(assumption) ltac:(assumption) Q5 El) as (vs2 & V3 & V4).
        pose proof (V_calm _ _ L tm n _ _ _ EV) as Hs.
        rewrite (even_I _ _ L tm n s' i) in V4; [|eapply st_chain; [exact Hs|assumption]|eapply sa_even; [exact Hs|exact Q4]].
        exists (vs1 ++ vs2). split; [cbn [flat_map]; apply Forall2_app; assumption|].
        rewrite V4. cbn [nadd nsub nmul RNum]. unfold contact_resistance in V2. rewrite V2. cbn [flat_map]. rewrite concat_app, !Rsum_app. cbn. ring. }
    destruct (sV_loop _ _ _ _) as [[l a] e] eqn:El. destruct e as [[|]| | |]; try discriminate.
    + injection E as <- <-. destruct (X _ _ _ _ _ W1 K W2 N2 Hi El) as (vs & V1 & V2). exists vs. split; [exact V1|].
      rewrite V2. unfold contact_resistance. cbn [over_modules concat]. rewrite Rsum_app. cbn [nZ RNum]. rewrite ?R_nZ. ring.
    + assert (v = nZ 0) by congruence. subst v. rewrite R_nZ in Hv. lra.
Qed.
End Volt.
