(** * C29: what a rejected restore of states leaves behind, for trees of any cells *)
From Coq Require Import List Lia.
From Verif Require Import Base StatusModel CellModel CoolModel ModuleModel ModuleSpec RejectSpec ModuleExamples P_Module.
Import ListNotations.

Section Behind.
Context {A : Type} {NA : Num A} {S : Type} (o : su_ops A S).
Lemma set_at (pre : list S) c post x : list_set (pre ++ c :: post) (length pre) x = pre ++ x :: post.
Proof. induction pre; cbn; congruence. Qed.
Lemma at_nth (pre : list S) c post : nth_error (pre ++ c :: post) (length pre) = Some c.
Proof. induction pre; cbn; auto. Qed.
Lemma restore_at pre post : forall k c orig l' r, ss_restore_from o k (length pre) orig (pre ++ c :: post) = (l', r) -> exists c', l' = pre ++ c' :: post.
Proof.
  induction k as [|k IH]; intros c orig l' r H; cbn [ss_restore_from] in H; [injection H as <- <-; eauto|].
  unfold child_do in H. rewrite at_nth in H. destruct (o_setStates o orig false c) as [c1 [[q st]| | |]]; rewrite set_at in H; [eauto|injection H as <- <-; eauto..].
Qed.
Lemma loop_bad orig chk : forall post pre s l' rest st, ss_loop o (length post) (length pre) s orig chk (pre ++ post) = (l', Ok (rest, st)) -> isStatusBad st = true ->
  exists took c behind took' c' sj, post = took ++ c :: behind /\ l' = pre ++ took' ++ c' :: behind /\
    taken (fun s => o_setStates o s chk) s took took' sj /\ snd (o_setStates o sj chk c) = Ok (rest, st).
Proof.
  induction post as [|c post IH]; intros pre s l' rest st H B; cbn [ss_loop length] in H; [injection H as <- <- <-; discriminate|].
  unfold child_do in H. rewrite at_nth in H. destruct (o_setStates o s chk c) as [c1 [[q st1]| | |]] eqn:E; rewrite set_at in H; try discriminate.
  destruct (isStatusBad st1) eqn:Eb.
  - destruct (ss_restore_from _ _ _ _ _) as [l2 r2] eqn:Er. destruct (restore_at _ _ _ _ _ _ _ Er) as [c2 ->].
    destruct r2; try discriminate. injection H as <- <- <-. exists [], c, post, [], c2, s. rewrite E. repeat split. constructor.
  - replace (pre ++ c1 :: post) with ((pre ++ [c1]) ++ post) in H by (rewrite <- app_assoc; reflexivity).
    replace (Datatypes.S (length pre)) with (length (pre ++ [c1])) in H by (rewrite app_length; cbn; lia).
    destruct (IH _ _ _ _ _ H B) as (took & d & behind & took' & d' & sj & -> & -> & T & L).
    exists (c :: took), d, behind, (c1 :: took'), d', sj. split; [reflexivity|]. split; [rewrite <- app_assoc; reflexivity|]. split; [econstructor; eauto|exact L].
Qed.
End Behind.

(** Partial: in every tree, over every kind of cell and every carrier, a rejected restore of states has been rejected by one child; those
    in front of it keep the states they took over, and those behind it are untouched. What is missing: the units in front should have
    their old states back (refuted by [C29_refuted]), and so should the rejecting child ([C29_flat_partial] for cells). *)
Theorem C29_tree_partial : forall (A : Type) (NA : Num A) (C : Type) (oc : su_ops A C) tm n (m m' : module A (su A C n)) s chk rest st,
  mod_setStates (su_ops_at oc tm n) s chk m = (m', Ok (rest, st)) -> isStatusBad st = true ->
  exists took c behind took' c' sj, ms m = took ++ c :: behind /\ ms m' = took' ++ c' :: behind /\
    taken (fun s => o_setStates (su_ops_at oc tm n) s chk) s took took' sj /\ snd (o_setStates (su_ops_at oc tm n) sj chk c) = Ok (rest, st).
Proof.
  intros A NA C oc tm n m m' s chk rest st H B. unfold mod_setStates in H.
  destruct (ss_loop _ _ _ _ _ _ _) as [l [[rest1 st1]| | |]] eqn:E; try discriminate. destruct (isStatusBad st1) eqn:Eb.
  - injection H as <- <- <-. exact (loop_bad _ _ _ _ [] _ _ _ _ E Eb).
  - destruct rest1 as [|t rest1]; [discriminate|]. destruct (cool_setT _ _) as [k [x| | |]]; try discriminate. injection H as <- <- <-. discriminate.
Qed.
Print Assumptions C29_tree_partial.

(** The hypotheses are met, with a child in front of the rejecting one and one behind it, and the first child is left with its new state. *)
Example C29_tree_inhabited : exists (m m' : module f64 (Tree f64 0)) s rest st, mod_setStates (Ops f64 0 0) s true m = (m', Ok (rest, st)) /\
  isStatusBad st = true /\ length (ms m) = 3 /\ map (fun c => e_SOC (es (u_ecm c))) (ms m') = [nlit 3 4; half; half].
Proof.
  pose (m := mkM (S := ecmu f64) (ex_rec (A := f64) true [nZ 0; nZ 0; nZ 0] 3) [cell1; cell1; cell1]).
  pose (s := ecm_getStates (u_ecm (ex_cell (A := f64) (nZ 16) (nlit 3 4) (nZ 1))) ++ ecm_getStates (u_ecm (ex_cell (nZ 16) (nZ 2) (nZ 1))) ++ [nZ 288]).
  exists m, (fst (mod_setStates ecm_ops s true m)), s, [nZ 288], Invalid_states.
  split; [vm_compute; reflexivity|]. split; [reflexivity|]. split; [reflexivity|]. vm_compute; reflexivity.
Qed.
