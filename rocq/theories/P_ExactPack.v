(** * C92 for packs: the discretisation error of every cell in a tree of modules *)
From Coq Require Import List Lra Lia.
From Verif Require Import Base RFacts StatusModel UtilModel UtilSpec CellModel CellSpec CellProofs CoolModel ModuleModel ModuleSpec
  ModuleExamples ExactSpec ExactProofs P_Cell P_Exact P_EnergyPack ExactPackSpec ExactPackProofs.
Import ListNotations.
Local Open Scope R_scope.

(** In any tree of modules, used in any way, each cell goes through exactly the states that a cell on its own goes through
    when it is given the logged currents; so every statement about histories of a cell holds inside a pack. *)
Theorem C92_pack_cells : forall tm n u logs v, pack_hist tm n u logs v ->
  length logs = length (leaves n u) /\ length (leaves n v) = length (leaves n u) /\
  forall a c d log, nth_error (leaves n u) a = Some c -> nth_error logs a = Some log -> nth_error (leaves n v) a = Some d ->
  ecm_hist (u_ecm c) log (u_ecm d).
Proof.
  intros tm n u logs v H. apply pack_own in H. assert (L : forall l logs l', own l logs l' -> length logs = length l /\ length l' = length l).
  { induction 1 as [|c l log lg d l' _ _ [I1 I2]]; cbn; auto. }
  destruct (L _ _ _ H) as [L1 L2]. split; [exact L1|]. split; [exact L2|]. exact (own_nth _ _ _ H).
Qed.
Print Assumptions C92_pack_cells.

(** The pairs of every cell stay within [H m] of the exact response to the currents that cell carried. *)
Theorem C92_pack_pairs : forall tm n u logs v a c d log j k x H m, pack_hist tm n u logs v ->
  nth_error (leaves n u) a = Some c -> nth_error logs a = Some log -> nth_error (leaves n v) a = Some d ->
  nth_error (p_itau (ep (u_ecm c))) j = Some k -> nth_error (e_Ir (es (u_ecm c))) j = Some x -> 0 <= k -> 0 <= H <= 1 ->
  Forall (fun '(i, dt, _) => Rabs i <= m /\ dt * k <= H) log -> Rabs x <= m ->
  exists x', nth_error (e_Ir (es (u_ecm d))) j = Some x' /\ Rabs (x' - ideal k x log) <= H * m.
Proof.
  intros tm n u logs v a c d log j k x H m P E1 E2 E3. eapply C92_pairs. eapply C92_pack_cells; eauto.
Qed.
Print Assumptions C92_pack_pairs.

(** And its voltage within the sum of its resistances times that. *)
Theorem C92_pack_voltage : forall tm n u logs v a c d log H m o x, pack_hist tm n u logs v ->
  nth_error (leaves n u) a = Some c -> nth_error logs a = Some log -> nth_error (leaves n v) a = Some d ->
  ecm_wf (u_ecm c) -> let p := ep (u_ecm c) in
  Forall (fun r => 0 <= r) (p_Rp p) -> Forall (fun k => 0 <= k) (p_itau p) -> 0 <= H <= 1 ->
  Forall (fun '(i, dt, _) => Rabs i <= m /\ Forall (fun k => dt * k <= H) (p_itau p)) log ->
  Forall (fun y => Rabs y <= m) (e_Ir (es (u_ecm c))) ->
  ecm_OCV (u_ecm d) = Ok o -> ecm_V (u_ecm d) = Ok x ->
  Rabs (x - (o - p_Rdc p * e_I (es (u_ecm d)) - pol (p_Rp p) (ideal_pairs (p_itau p) (e_Ir (es (u_ecm c))) log))) <= Rsum (p_Rp p) * (H * m).
Proof.
  intros tm n u logs v a c d log H m o x P E1 E2 E3 W p. eapply C92_voltage; eauto. eapply C92_pack_cells; eauto.
Qed.
Print Assumptions C92_pack_voltage.

(** Charge accounting and bounded polarisation of every cell of a pack, over any use of the pack. *)
Theorem C14_pack : forall tm n u logs v a c d log, pack_hist tm n u logs v ->
  nth_error (leaves n u) a = Some c -> nth_error logs a = Some log -> nth_error (leaves n v) a = Some d -> p_cap (ep (u_ecm c)) <> 0 ->
  let s := es (u_ecm c) in let s' := es (u_ecm d) in
  e_SOC s' = e_SOC s - net_charge log / 3600 / p_cap (ep (u_ecm c)) /\ e_Ah s' = e_Ah s + abs_charge log / 3600 /\
  e_time s' = e_time s + total_time log /\ e_time s <= e_time s' /\ e_Ah s <= e_Ah s' /\ e_Wh s <= e_Wh s'.
Proof. intros tm n u logs v a c d log P E1 E2 E3 HC. apply C14_accounting; [|exact HC]. eapply C92_pack_cells; eauto. Qed.
Print Assumptions C14_pack.
Theorem C15_pack : forall tm n u logs v a c d log m, pack_hist tm n u logs v ->
  nth_error (leaves n u) a = Some c -> nth_error logs a = Some log -> nth_error (leaves n v) a = Some d ->
  Forall (fun '(i, dt, _) => Rabs i <= m /\ Forall (fun k => 0 <= dt * k <= 1) (p_itau (ep (u_ecm c)))) log ->
  Forall (fun x => Rabs x <= m) (e_Ir (es (u_ecm c))) -> 0 <= m -> Forall (fun r => 0 <= r) (p_Rp (ep (u_ecm c))) ->
  Forall (fun x => Rabs x <= m) (e_Ir (es (u_ecm d))) /\ Rabs (pol (p_Rp (ep (u_ecm d))) (e_Ir (es (u_ecm d)))) <= Rsum (p_Rp (ep (u_ecm c))) * m.
Proof. intros tm n u logs v a c d log m P E1 E2 E3. apply C15_bounded with (log := log). eapply C92_pack_cells; eauto. Qed.
Print Assumptions C15_pack.
(** All cells log the same times. *)
Theorem C14_pack_times : forall tm n u logs v, pack_hist tm n u logs v -> exists steps, Forall (fun log => map (fun '(_, dt, k) => (dt, k)) log = steps) logs.
Proof.
  induction 1 as [u|u u1 r logs v E _ IH|i chk u u1 r logs v E _ IH|x u u1 r logs v E _ IH
    |nb t u u1 r logs v E _ IH|t u u1 r logs v E _ IH|dt k u u1 logs v E _ [steps IH]]; auto.
  - exists []. induction (leaves n u); constructor; auto.
  - exists ((dt, k) :: steps). unfold step_log. revert logs IH. induction (leaves n u) as [|c l IHl]; intros [|g logs] IH; cbn [combine map]; constructor.
    + cbn [map]. apply Forall_cons_iff in IH. destruct IH as [-> _]. reflexivity.
    + apply IHl. now apply Forall_cons_iff in IH.
Qed.
Print Assumptions C14_pack_times.

(** Two default cells in series, charged and discharged. *)
Example C92_pack_inhabited : exists logs v,
  pack_hist 0 1 (inr (mkM (ex_rec true [0; 0] 2) [mkEu false c0; mkEu false c0])) logs v /\
  logs = [[(-1, 576, 1%nat); (1, 576, 1%nat)]; [(-1, 576, 1%nat); (1, 576, 1%nat)]].
Proof.
  destruct cell_cycle as (c1 & d & E1 & R1 & C1 & E2 & R2 & S2 & W & K).
  set (c2 := mkEcm (ecm_default_par (A := R) 1) (with_I (es c1) 1)) in *.
  destruct (series_step c0 c0 c1 c1 (ex_rec true [0; 0] 2) E1 E1 eq_refl eq_refl eq_refl) as (r1 & T1 & X1 & X2 & X3).
  assert (T2 : exists r2, o_setCurrent (su_ops_at (A := R) ecm_ops 0 1) 1 false (inr (mkM r1 [mkEu false c1; mkEu false c1]))
     = (inr (mkM r2 [mkEu false c2; mkEu false c2]), Ok Success) /\ m_series r2 = true /\ m_top r2 = false /\ m_par r2 = false).
  { exists (inval r1). split; [|auto].
    change (on_r (mod_setCurrent (ecm_ops (A := R)) 1 false) (mkM r1 [mkEu false c1; mkEu false c1]) =
      (@inr (ecmu R) (module R (ecmu R)) (mkM (inval r1) [mkEu false c2; mkEu false c2]), Ok Success)).
    unfold on_r, mod_setCurrent. cbn [mm ms]. rewrite X1. unfold c2. rewrite C1. reflexivity. }
  destruct T2 as (r2 & T2 & Y1 & Y2 & Y3).
  destruct (series_step c2 c2 d d r2 E2 E2 Y1 Y2 Y3) as (r3 & T3 & _).
  eexists _, (inr (mkM r3 [mkEu false d; mkEu false d])). split.
  - eapply (ph_step 0 1 576 1); [exact T1|]. eapply (ph_setCurrent 0 1 1 false); [exact T2|]. eapply (ph_step 0 1 576 1); [exact T3|]. constructor.
  - reflexivity.
Qed.
