(** * C26-C37 and C41: modules of equivalent-circuit cells *)
From Coq Require Import List Lia SpecFloat.
From Verif Require Import Base RFacts StatusModel StatusProofs CellModel CellSpec CellProofs CoolModel CoolSpec DataModel DataSpec DataProofs
  ModuleModel ModuleSpec ModuleProofs ModuleProofs2 ModuleProofs3 ModuleProofs4 ModuleProofs5 ModuleProofs6 ModuleProofs7 ModuleProofs8 ModuleProofs9 ModuleExamples.
Import ListNotations.

(** Trees over any carrier; [settings::T_MODEL] is the argument [tm]. *)
Notation Tree A n := (su A (ecmu A) n).
Notation Ops A tm n := (su_ops_at (A := A) (C := ecmu A) ecm_ops tm n).

Lemma res_lower (r : res f64) v : match r with Ok w => nltb w v | _ => false end = true -> exists w, r = Ok w /\ nltb w v = true.
Proof. destruct r; [eauto|discriminate..]. Qed.
Lemma run_true {X Y : Type} (p : X * res Y) (f : X -> Y -> bool) :
  match p with (x, Ok y) => f x y | _ => false end = true -> exists x y, p = (x, Ok y) /\ f x y = true.
Proof. destruct p as [x [y| | |]]; cbn; intros H; try discriminate. eauto. Qed.
Definition isSuccess (s : Status) : bool := (status_val s =? 0)%Z.
Lemma isSuccess_true s : isSuccess s = true -> s = Success.
Proof. destruct s; cbn; congruence. Qed.
Definition val64 (r : res f64) : f64 := match r with Ok v => v | _ => nZ 0 end.

Local Open Scope R_scope.
Lemma ex_good cap soc i : good_ocv (p_ocv (ep (u_ecm (ex_cell (A := R) cap soc i)))).
Proof. exact (default_ocv_good 1). Qed.
Lemma ex_tree_ok : ok 2 (ex_tree (A := R)) /\ resistive 2 (ex_tree (A := R)) /\ Forall cell_ok (leaves 2 (ex_tree (A := R))).
Proof.
  assert (M : 0 <= mohm (A := R)) by (unfold mohm; rewrite R_nlit; lra).
  assert (D : 0 < p_Rdc (ecm_default_par (A := R) 1)) by (cbn [ecm_default_par p_Rdc]; rewrite R_nlit; lra).
  assert (Hf : 0 <= half (A := R) <= 1) by (unfold half; rewrite R_nlit; lra).
  split; [|split].
  - split; [|split].
    + cbn. repeat split; try discriminate; repeat (apply Forall_cons || apply Forall_nil); cbn; repeat split; try discriminate; repeat constructor.
    + cbn. repeat split; try discriminate; repeat (apply Forall_cons || apply Forall_nil); cbn; repeat split; try discriminate; repeat constructor.
    + repeat (apply Forall_cons || apply Forall_nil); apply ex_good.
  - split; [repeat (apply Forall_cons || apply Forall_nil); exact D|].
    cbn. repeat split; repeat (apply Forall_cons || apply Forall_nil); cbn; repeat split; repeat (apply Forall_cons || apply Forall_nil); auto; exact I.
  - repeat (apply Forall_cons || apply Forall_nil); (split; [apply ex_good|exact Hf]).
Qed.

(** ** C26 *)

(** Capacity: the minimum in series, the sum in parallel. *)
Theorem C26_capacity : forall tm n (u : Tree R n), well_formed n u ->
  combined (fun c x => x = p_cap (ep (u_ecm c))) is_min is_sum n u (o_Cap (Ops R tm n) u).
Proof. exact cap_combined. Qed.
Print Assumptions C26_capacity.

(** Voltage limits: sums in series, the tightest in parallel. *)
Theorem C26_voltage_limits : forall tm n (u : Tree R n), well_formed n u ->
  combined (fun c x => x = l_Vmin (p_lim (ep (u_ecm c)))) is_sum is_max n u (l_Vmin (o_lim (Ops R tm n) u)) /\
  combined (fun c x => x = l_VMIN (p_lim (ep (u_ecm c)))) is_sum is_max n u (l_VMIN (o_lim (Ops R tm n) u)) /\
  combined (fun c x => x = l_Vmax (p_lim (ep (u_ecm c)))) is_sum is_min n u (l_Vmax (o_lim (Ops R tm n) u)) /\
  combined (fun c x => x = l_VMAX (p_lim (ep (u_ecm c)))) is_sum is_min n u (l_VMAX (o_lim (Ops R tm n) u)).
Proof. intros tm n u W. exact (conj (Vmin_combined tm n u W) (conj (VMIN_combined tm n u W) (conj (Vmax_combined tm n u W) (VMAX_combined tm n u W)))). Qed.
Print Assumptions C26_voltage_limits.

(** Current: the sum over parallel branches, the current of the (first) child in series. *)
Theorem C26_current : forall tm n (u : Tree R n), o_I (Ops R tm n) u = current n u.
Proof. exact I_current. Qed.
Print Assumptions C26_current.

(** Open-circuit voltage: the sum in series (the mean of the branches in parallel). *)
Theorem C26_open_circuit_voltage : forall tm n (u : Tree R n), well_formed n u -> Forall cell_ok (leaves n u) ->
  exists x, o_OCV (Ops R tm n) u = Ok x /\ combined (fun c x => ecm_OCV (u_ecm c) = Ok x) is_sum is_mean n u x.
Proof. exact OCV_combined. Qed.
Print Assumptions C26_open_circuit_voltage.

(** Voltage: series sums less the contact drops, parallel the terminal voltage. *)
Theorem C26_voltage : forall tm n (u : Tree R n), ok n u ->
  exists u' v, o_V (Ops R tm n) u = (u', Ok v) /\ voltage n u v /\ forall w, voltage n u w -> w = v.
Proof.
  intros tm n u O. destruct (V_right_all tm n u O) as (u' & v & E & V & _). exists u', v. split; [exact E|]. split; [exact V|].
  intros w W. exact (voltage_unique n u w v W V).
Qed.
Print Assumptions C26_voltage.

(** Resistance: that of the network given by Kirchhoff's laws. *)
Theorem C26_resistance : forall tm n (u : Tree R n), well_formed n u -> resistive n u ->
  exists r, 0 < r /\ o_Rtot (Ops R tm n) u = Ok r /\ forall i v, network n u i v <-> v = r * i.
Proof.
  intros tm n u W P. destruct (Rtot_network tm n u W P) as (r & H1 & H2 & H3). exists r. auto.
Qed.
Print Assumptions C26_resistance.

(** Number of cells: right when the children's numbers are right at the time they are handed to the module. *)
Definition count_right (n : nat) (tm : Z) (u : Tree R n) : Prop := o_N (Ops R tm n) u = length (leaves n u).
Theorem C26_cell_count_partial : forall tm n l (m : module R (Tree R n)), Forall (count_right n tm) l ->
  count_right (S n) tm (inr (mod_setSUs (Ops R tm n) l m)).
Proof.
  intros tm n l m F. unfold count_right. cbn. unfold mod_N. cbn. rewrite fold_plus. cbn.
  induction F as [|s l H _ IH]; cbn; [reflexivity|]. rewrite app_length, <- IH, <- H. reflexivity.
Qed.
Print Assumptions C26_cell_count_partial.

(** Finding: children added to an inner module afterwards are not counted by the outer one. *)
Theorem C26_cell_count_refuted : exists (inner inner' : module f64 (Tree f64 0)) (outer : module f64 (Tree f64 1)),
  ms outer = [inr inner] /\ inner' = mod_setSUs ecm_ops [cell1; cell1] inner /\
  o_N (Ops f64 0 2) (inr (mkM (mm outer) [inr inner'])) <> length (leaves 2 (inr (mkM (mm outer) [inr inner']) : Tree f64 2)).
Proof.
  exists (mkM (ex_rec true [] 0) []), (mod_setSUs ecm_ops [cell1; cell1] (mkM (ex_rec true [] 0) [])),
    (mod_setSUs (Ops f64 0 1) [inr (mkM (ex_rec true [] 0) [])] (mkM (ex_rec true [] 0) [])).
  split; [reflexivity|]. split; [reflexivity|]. vm_compute. discriminate.
Qed.
Print Assumptions C26_cell_count_refuted.

Example C26_inhabited : well_formed 2 (ex_tree (A := R)) /\ Forall cell_ok (leaves 2 (ex_tree (A := R))) /\
  resistive 2 (ex_tree (A := R)) /\ ok 2 (ex_tree (A := R)) /\ current 2 (ex_tree (A := R)) = 2 /\ length (leaves 2 (ex_tree (A := R))) = 3%nat.
Proof.
  destruct ex_tree_ok as (O & P & Q). split; [apply O|]. split; [exact Q|]. split; [exact P|]. split; [exact O|].
  split; [|reflexivity]. cbn [current ex_tree mm ms ex_rec m_series ex_par map Rsum]. unfold cell1, ex_cell. cbn [u_ecm es e_I]. rewrite R_nZ. lra.
Qed.

(** ** C27 *)

(** Acceptance: every cell at any depth gets the current. *)
Theorem C27_accepted : forall (A : Type) (NA : Num A) tm n (u u' : Tree A n) Inew chk st, all_series n u ->
  o_setCurrent (Ops A tm n) Inew chk u = (u', Ok st) -> isStatusBad st = false ->
  Forall (fun c => e_I (es (u_ecm c)) = Inew) (leaves n u').
Proof. intros A NA. exact accepted_everywhere. Qed.
Print Assumptions C27_accepted.

(** Rejection (partial: the full claim is that no cell changes): every cell outside the first child is as it was. The
    first child is left as its own command left it. *)
Theorem C27_rejected_partial : forall (A : Type) (NA : Num A) tm n (m m' : module A (Tree A n)) Inew chk st i,
  serial (S n) (inr m : Tree A (S n)) -> every_module (fun _ _ l => l <> []) (S n) (inr m : Tree A (S n)) ->
  Forall (fun c => e_I (es (u_ecm c)) = i) (leaves (S n) (inr m : Tree A (S n))) ->
  mod_setCurrent (Ops A tm n) Inew chk m = (m', Ok st) -> isStatusBad st = true ->
  map (leaves n) (tl (ms m')) = map (leaves n) (tl (ms m)) /\
  exists s l, ms m = s :: l /\ exists l', ms m' = fst (o_setCurrent (Ops A tm n) Inew chk s) :: l'.
Proof. intros A NA. exact rejected_tail. Qed.
Print Assumptions C27_rejected_partial.

(** Finding: the first child keeps the rejected current (the restoring loop stops before index 0). *)
Theorem C27_rejected_refuted : exists (m m' : module f64 (Tree f64 0)) Inew st,
  serial 1 (inr m : Tree f64 1) /\ mod_setCurrent ecm_ops Inew true m = (m', Ok st) /\ isStatusBad st = true /\
  map (fun c => e_I (es (u_ecm c))) (ms m) = [nZ 0; nZ 0] /\
  map (fun c => e_I (es (u_ecm c))) (ms m') = [Inew; nZ 0] /\ Inew <> nZ 0.
Proof.
  pose (m := mkM (S := ecmu f64) (ex_rec (A := f64) true [nZ 0; nZ 0] 2) [ex_cell (nZ 16) half (nZ 0); ex_cell (nZ 16) (nlit 5 100) (nZ 0)]).
  exists m, (fst (mod_setCurrent ecm_ops (nZ 350) true m)), (nZ 350), VMIN_violation.
  split; [repeat constructor|]. split; [vm_compute; reflexivity|]. split; [reflexivity|].
  split; [reflexivity|]. split; [vm_compute; reflexivity|]. vm_compute. discriminate.
Qed.
Print Assumptions C27_rejected_refuted.

(** Both outcomes occur on a string of three. *)
Example C27_inhabited :
  snd (o_setCurrent (Ops f64 0 1) (nZ 16) true ex_string) = Ok Success /\
  snd (o_setCurrent (Ops f64 0 1) (nZ 800) true ex_string) = Ok VMIN_violation /\ serial 1 (ex_string : Tree f64 1).
Proof. split; [vm_compute; reflexivity|]. split; [vm_compute; reflexivity|]. repeat constructor. Qed.

(** ** C28 *)

(** The states of [d] written into an equally built tree [u] (with anything behind them) reproduce every cell and leave
    exactly what was behind. *)
Theorem C28_roundtrip : forall (A : Type) (NA : Num A) tm n (u d : Tree A n) chk rest,
  same_tree like n u d -> Forall (acceptable_cell chk) (leaves n d) -> temps_allowed n d ->
  exists u' st, o_setStates (Ops A tm n) (o_getStates (Ops A tm n) d ++ rest) chk u = (u', Ok (rest, st)) /\ isStatusBad st = false /\
    same_tree (fun c e => u_ecm c = u_ecm e) n u' d /\ o_getStates (Ops A tm n) u' = o_getStates (Ops A tm n) d.
Proof. intros A NA. exact states_roundtrip_tree. Qed.
Print Assumptions C28_roundtrip.

Example C28_inhabited : exists d : Tree f64 2, same_tree like 2 ex_tree d /\ Forall (acceptable_cell true) (leaves 2 d) /\ temps_allowed 2 d /\
  o_getStates (Ops f64 0 2) d <> o_getStates (Ops f64 0 2) ex_tree.
Proof.
  exists (inr (mkM (ex_rec true [mohm; mohm] 3) [inr (mkM (ex_rec false [mohm; mohm] 2) [ex_cell (nZ 16) (nlit 3 4) (nZ 3); cell1]); inl (ex_cell (nZ 16) half (nZ 4))])).
  split; [repeat (apply conj || apply Forall2_cons || apply Forall2_nil); reflexivity|]. split.
  - repeat (apply Forall_cons || apply Forall_nil); (split; [vm_compute; reflexivity|]); intros _; eexists _, _; (split; [vm_compute; reflexivity|reflexivity]).
  - split; [|vm_compute; discriminate].
    assert (K : forall b x k, T_allowed (k_T (m_cool (ex_rec (A := f64) b x k)))) by (intros; vm_compute; repeat split).
    split; [apply K|]. repeat (apply Forall_cons || apply Forall_nil); [|exact I]. split; [apply K|]. repeat (apply Forall_cons || apply Forall_nil); exact I.
Qed.

(** ** C29 *)

(** Finding: when the second cell rejects its values, the first keeps the new ones. *)
Theorem C29_refuted : exists (m m' : module f64 (Tree f64 0)) s rest st,
  mod_setStates ecm_ops s true m = (m', Ok (rest, st)) /\ isStatusBad st = true /\
  Forall (fun c => ecm_validStates (u_ecm c) = true) (ms m) /\
  map (fun c => e_SOC (es (u_ecm c))) (ms m) = [half; half] /\
  map (fun c => e_SOC (es (u_ecm c))) (ms m') = [nlit 3 4; half].
Proof.
  pose (m := mkM (S := ecmu f64) (ex_rec (A := f64) true [nZ 0; nZ 0] 2) [cell1; cell1]).
  pose (s := ecm_getStates (u_ecm (ex_cell (A := f64) (nZ 16) (nlit 3 4) (nZ 1))) ++ ecm_getStates (u_ecm (ex_cell (nZ 16) (nZ 2) (nZ 1))) ++ [nZ 288]).
  exists m, (fst (mod_setStates ecm_ops s true m)), s, [nZ 288], Invalid_states.
  split; [vm_compute; reflexivity|]. split; [reflexivity|]. split; [repeat constructor|]. split; vm_compute; reflexivity.
Qed.
Print Assumptions C29_refuted.

(** Partial: in a module of valid cells of one kind, the rejecting cell and all behind it are as before; nothing at all
    has changed when the first one rejects. *)
Theorem C29_flat_partial : forall (A : Type) (NA : Num A) (m m' : module A (ecmu A)) s chk rest st,
  Forall (fun c => ecm_validStates (u_ecm c) = true) (ms m) ->
  (forall a b, In a (ms m) -> In b (ms m) -> length (e_Ir (es (u_ecm a))) = length (e_Ir (es (u_ecm b)))) ->
  mod_setStates ecm_ops s chk m = (m', Ok (rest, st)) -> isStatusBad st = true ->
  exists j c chk' sj, nth_error (ms m) j = Some c /\ snd (o_setStates ecm_ops sj chk' c) = Ok (rest, st) /\
    skipn j (ms m') = skipn j (ms m) /\ (j = 0%nat -> sj = s /\ ms m' = ms m).
Proof. intros A NA. exact flat_rejected. Qed.
Print Assumptions C29_flat_partial.

(** ** C30 *)

(** Calls on the root: after any history, the voltage returned is the present one. Partial: calls on the children behind
    the module's back and time steps that throw are excluded (see the findings below). *)
Theorem C30_unit_history_partial : forall tm n (u u' : Tree R n), ok n u -> calls (root_call tm n) u u' ->
  exists u'' v, o_V (Ops R tm n) u' = (u'', Ok v) /\ voltage n u' v /\ ok n u''.
Proof.
  intros tm n u u' O H. assert (O' : ok n u') by (revert O; induction H; auto; intros O; eapply root_call_ok; eauto).
  destruct (V_right_all tm n u' O') as (u'' & v & E & V & O2 & _). eauto.
Qed.
Print Assumptions C30_unit_history_partial.

(** The same for a module, with the calls only modules have. *)
Theorem C30_module_history_partial : forall tm n (m m' : module R (Tree R n)), ok (S n) (inr m) -> calls (module_call tm n) m m' ->
  exists m'' v, mod_V (Ops R tm n) m' = (m'', Ok v) /\ voltage (S n) (inr m') v.
Proof.
  intros tm n m m' O H. assert (O' : ok (S n) (inr m')) by (revert O; induction H; auto; intros O; eapply module_call_ok; eauto).
  destruct (V_right_all tm (S n) (inr m') O') as (u'' & v & E & V & O2 & _). cbn in E. unfold on_r in E.
  destruct (mod_V (Ops R tm n) m') as [m'' r]. injection E as <- ->. exists m'', v. auto.
Qed.
Print Assumptions C30_module_history_partial.

(** Finding: after a command to a child, the module still returns the stored voltage. *)
Theorem C30_child_call_refuted : exists (m m1 m2 : module f64 (Tree f64 0)) v,
  mod_V ecm_ops m = (m1, Ok v) /\
  m2 = mkM (mm m1) (map (fun c => fst (o_setCurrent ecm_ops (nZ 50) true c)) (ms m1)) /\
  snd (mod_V ecm_ops m2) = Ok v /\
  exists w, snd (mod_V ecm_ops (mkM (inval (mm m2)) (ms m2))) = Ok w /\ nltb w v = true.
Proof.
  pose (m := mkM (S := ecmu f64) (ex_rec (A := f64) true [nZ 0; nZ 0] 2) [cell1; cell1]).
  pose (m1 := fst (mod_V ecm_ops m)).
  exists m, m1, (mkM (mm m1) (map (fun c => fst (o_setCurrent ecm_ops (nZ 50) true c)) (ms m1))), (val64 (snd (mod_V ecm_ops m))).
  split; [vm_compute; reflexivity|]. split; [reflexivity|]. split; [vm_compute; reflexivity|].
  apply res_lower. vm_compute. reflexivity.
Qed.
Print Assumptions C30_child_call_refuted.

(** Finding: a time step that throws (a top-level module without an HVAC system, error 14) has stepped the cells but left
    the stored voltage marked valid. *)
Theorem C30_throw_refuted : exists (m m1 m2 : module f64 (Tree f64 0)) v,
  mod_V ecm_ops m = (m1, Ok v) /\ mod_timeStep ecm_ops 0 (nZ 60) 1 m1 = (m2, Throw 14) /\ snd (mod_V ecm_ops m2) = Ok v /\
  exists w, snd (mod_V ecm_ops (mkM (inval (mm m2)) (ms m2))) = Ok w /\ nltb w v = true.
Proof.
  pose (m := mkM (S := ecmu f64) (mkMod (A := f64) true [nZ 0; nZ 0] (cool_make 2 1) (nZ 5) (nZ 1) (nZ 0) (nZ 0) 2 (nZ 0) false false false true) [cell1; cell1]).
  pose (m1 := fst (mod_V ecm_ops m)).
  exists m, m1, (fst (mod_timeStep ecm_ops 0 (nZ 60) 1 m1)), (val64 (snd (mod_V ecm_ops m))).
  split; [vm_compute; reflexivity|]. split; [vm_compute; reflexivity|]. split; [vm_compute; reflexivity|].
  apply res_lower. vm_compute. reflexivity.
Qed.
Print Assumptions C30_throw_refuted.

(** A history with a change of the current between two queries *)
Example C30_inhabited : ok 2 (ex_tree (A := R)) /\ exists u, calls (root_call 0 2) (ex_tree (A := R)) u.
Proof.
  split; [apply ex_tree_ok|]. eexists. eapply more_calls; [eapply more_calls; [apply no_calls|]|].
  - apply (call_V 0 2 _ _ _ (surjective_pairing _)).
  - apply (call_setCurrent 0 2 3 true _ _ _ (surjective_pairing _)).
Qed.

(** ** C31 *)
Theorem C31_ladder : forall tm n (l : list (Tree R n)) rc, (length l <= 100)%nat -> Forall (ok n) l -> length rc = length l ->
  exists l' vs ws, getVall (Ops R tm n) l rc = (l', Ok ws) /\ Forall2 (voltage n) l vs /\ length ws = length l /\
    forall j v w, nth_error vs j = Some v -> nth_error ws j = Some w -> w = v - ladder_drop rc (map (current n) l) j.
Proof.
  intros tm n l rc N F L. destruct (getVall_ladder tm n l rc F L) as (l' & vs & ws & E & V & W & K). exists l', vs, ws.
  unfold getVall. rewrite E. destruct (Nat.ltb_spec NSUs_MAX (length l)) as [H|H]; [unfold NSUs_MAX in H; lia|]. auto.
Qed.
Print Assumptions C31_ladder.

(** The module's voltage is the one at its terminals: that of the first branch as seen from there. *)
Theorem C31_terminal : forall tm n (m : module R (Tree R n)) l' ws, ok (S n) (inr m) -> m_series (mm m) = false ->
  getVall (Ops R tm n) (ms m) (m_rc (mm m)) = (l', Ok ws) ->
  exists m', mod_V (Ops R tm n) m = (m', Ok (nth 0 ws 0)).
Proof.
  intros tm n m l' ws O Hs E. destruct (V_right_all tm (S n) (inr m) O) as (u' & v & Ev & V & _ & _).
  cbn in Ev. unfold on_r in Ev. destruct (mod_V (Ops R tm n) m) as [m' r]. injection Ev as <- ->. exists m'. do 2 f_equal.
  apply ok_module in O. destruct O as (_ & Ne & Lr & F). cbn [voltage] in V. rewrite Hs in V.
  destruct (getVall_ladder tm n (ms m) (m_rc (mm m)) F Lr) as (l2 & vs & ws2 & E2 & V2 & W & K).
  unfold getVall in E. destruct (Nat.ltb _ _); [discriminate|]. rewrite E2 in E. injection E as <- <-.
  destruct (ms m) as [|s l]; [congruence|]. destruct V as (v0 & V0 & ->). inversion V2; subst. destruct ws2 as [|w ws]; [discriminate|].
  rewrite (K 0%nat y w eq_refl eq_refl). cbn [nth]. destruct (m_rc (mm m)) as [|r rc]; [discriminate|]. cbn [map]. rewrite ladder_drop_0.
  cbn [nth map]. rewrite (voltage_unique n s v0 y V0) by assumption. ring.
Qed.
Print Assumptions C31_terminal.

Example C31_inhabited : ok 1 (inr (ex_par (A := R))) /\ m_series (mm (ex_par (A := R))) = false /\
  ladder_drop [1; 10] [2; 3] 1 = 1 * (2 + 3) + 10 * 3.
Proof.
  split; [|split; [reflexivity|unfold ladder_drop, behind; cbn; ring]].
  destruct ex_tree_ok as (O & _). apply ok_module in O. destruct O as (_ & _ & _ & F). now inversion F.
Qed.

(** ** C32 *)

(** Partial: what a reported success does guarantee. Redistribution: the branch voltages deviate from their mean by less
    than 1e-10 V in total. *)
Theorem C32_redistribute_partial : forall tm n rc (l l' : list (Tree R n)), Forall (ok n) l -> length rc = length l -> (2 <= length l)%nat ->
  p_redistribute (Ops R tm n) rc l = (l', Ok Success) -> balanced_within n l' rc (/ 10 ^ 10).
Proof. exact redistribute_balanced. Qed.
Print Assumptions C32_redistribute_partial.

(** So it does after every completed time step of a parallel module. *)
Theorem C32_time_step_partial : forall tm n dt k (m m' : module R (Tree R n)), ok (S n) (inr m) -> m_series (mm m) = false ->
  (2 <= length (ms m))%nat -> mod_timeStep (Ops R tm n) tm dt k m = (m', Ok tt) ->
  balanced_within n (ms m') (m_rc (mm m')) (/ 10 ^ 10).
Proof. exact step_balanced. Qed.
Print Assumptions C32_time_step_partial.

(** Setting the voltage of a parallel module: every branch is at that voltage. *)
Theorem C32_setVoltage_partial : forall tm n v rc (l l' : list (Tree R n)), Forall (ok n) l -> length rc = length l ->
  p_setVoltage (Ops R tm n) v rc l = (l', Ok Success) -> exists ws, branch_voltages n l' rc ws /\ off_by v ws < / 10 ^ 10.
Proof. exact setVoltage_reached. Qed.
Print Assumptions C32_setVoltage_partial.

(** With one branch, the branch is commanded the total. *)
Theorem C32_one_branch_partial : forall tm n Inew (m m' : module R (Tree R n)) s, ok (S n) (inr m) -> m_series (mm m) = false -> ms m = [s] ->
  mod_setCurrent (Ops R tm n) Inew true m = (m', Ok Success) ->
  exists s1 st, o_setCurrent (Ops R tm n) Inew true s = (s1, Ok st) /\ isStatusOK st = true /\ current (S n) (inr m') = current n s1.
Proof.
  intros tm n Inew m m' s O Hs Hm E. destruct (one_branch tm n Inew m m' s O Hs Hm E) as (s1 & s2 & st & H1 & H2 & H3 & H4).
  exists s1, st. split; [exact H1|]. split; [exact H2|]. apply mod_setCurrent_rel in E. destruct E as [_ E]. cbn [current].
  rewrite H4, E, Hs. destruct (m_series (mm m)) eqn:X; [discriminate|]. cbn. rewrite (sim_current _ _ _ H3). lra.
Qed.
Print Assumptions C32_one_branch_partial.

Example C32_inhabited : ok 1 (inr (ex_par (A := R))) /\
  snd (mod_setCurrent ecm_ops (nZ 2) true (ex_par0 (A := f64))) = Ok Success /\
  snd (p_redistribute ecm_ops [nZ 0; nZ 0] (ms (ex_par0 (A := f64)))) = Ok Success.
Proof. split; [apply C31_inhabited|]. split; vm_compute; reflexivity. Qed.

(** Finding: success is reported although the total is not the commanded one. One ampere of discharge is commanded; the
    module ends up charging with more than 15 A. *)
Theorem C32_total_refuted : exists (m m' : module f64 (Tree f64 0)),
  mod_setCurrent ecm_ops (nZ 1) true m = (m', Ok Success) /\ nltb (mod_I ecm_ops m') (nZ (-15)) = true.
Proof.
  pose (m := mkM (S := ecmu f64) (ex_rec (A := f64) false [nZ 0; nZ 0] 2) [ex_cell (nZ 600) half (nZ 0); ex_cell (nZ 450) (nlit 6 10) (nZ 0)]).
  destruct (run_true (mod_setCurrent ecm_ops (nZ 1) true m) (fun m' st => isSuccess st && nltb (mod_I ecm_ops m') (nZ (-15)))) as (m' & st & E & F); [vm_compute; reflexivity|].
  apply andb_prop in F. destruct F as [F1 F2]. apply isSuccess_true in F1. subst st. exists m, m'. auto.
Qed.
Print Assumptions C32_total_refuted.

(** Finding: success is reported although the branch voltages differ by more than 2 V: the cells rejected every correction
    (one full, one empty cell of 16 kAh at rest). *)
Theorem C32_voltages_refuted : exists (m m' : module R (Tree R 0)) a b,
  ok 1 (inr m : Tree R 1) /\ m_series (mm m) = false /\
  mod_setCurrent ecm_ops 0 true m = (m', Ok Success) /\ map (fun c => ecm_V (u_ecm c)) (ms m') = [Ok a; Ok b] /\ 2 < a - b.
Proof.
  exists (mkM (ex_rec false [0; 0] 2) [full; empty]), (mkM (ex_rec false [0; 0] 2) [full; empty]), chi, clo.
  split; [|split; [reflexivity|split; [|split]]].
  - split; [|split]; [cbn; repeat split; try discriminate; repeat (apply Forall_cons || apply Forall_nil); exact I..|].
    repeat (apply Forall_cons || apply Forall_nil); apply ex_good.
  - unfold mod_setCurrent. cbn [mm ms ex_rec m_series m_rc]. rewrite never_balanced_setCurrent. reflexivity.
  - cbn [ms map]. assert (F := end_V true 0). assert (E := end_V false 0). cbv iota in E, F.
    change (with_I1 full 0) with (u_ecm full) in F. change (with_I1 empty 0) with (u_ecm empty) in E. rewrite E, F. repeat f_equal; ring.
  - unfold chi, clo. lra.
Qed.
Print Assumptions C32_voltages_refuted.

(** Finding: a failure is reported but the previous currents are not restored. *)
Theorem C32_restore_refuted : exists (m m' : module f64 (Tree f64 0)) st,
  mod_setCurrent ecm_ops (nZ 700) true m = (m', Ok st) /\ isStatusBad st = true /\
  map (fun c => e_I (es (u_ecm c))) (ms m) = [nZ 0; nZ 0] /\ map (fun c => e_I (es (u_ecm c))) (ms m') = [nZ 350; nZ 0].
Proof.
  pose (m := mkM (S := ecmu f64) (ex_rec (A := f64) false [nZ 0; nZ 0] 2) [ex_cell (nZ 16) half (nZ 0); ex_cell (nZ 16) (nlit 5 100) (nZ 0)]).
  exists m, (fst (mod_setCurrent ecm_ops (nZ 700) true m)), VMIN_violation.
  split; [vm_compute; reflexivity|]. split; [reflexivity|]. split; [reflexivity|]. vm_compute. reflexivity.
Qed.
Print Assumptions C32_restore_refuted.

(** ** C33 *)

(** Doubles included: a completed time step of a tree is a completed time step of every cell in it, with the same [dt]
    and number of steps. *)
Theorem C33_every_cell_steps : forall (A : Type) (NA : Num A) tm n dt k (u u' : Tree A n),
  o_timeStep (Ops A tm n) dt k u = (u', Ok tt) -> same_tree (advanced dt k) n u u'.
Proof. intros A NA. exact advanced_all. Qed.
Print Assumptions C33_every_cell_steps.

(** The clocks of all cells advance by the same time. *)
Theorem C33_same_time : forall tm n dt k (u u' : Tree R n), (0 <= k)%Z ->
  o_timeStep (Ops R tm n) dt k u = (u', Ok tt) ->
  Forall2 (fun c d => e_time (es (u_ecm d)) = e_time (es (u_ecm c)) + IZR k * dt) (leaves n u) (leaves n u').
Proof.
  intros tm n dt k u u' K H. apply advanced_all, same_tree_leaves in H. eapply Forall2_impl; [|exact H]. intros c d J. now apply advanced_time.
Qed.
Print Assumptions C33_same_time.

(** Every schedule of the worker threads: whatever atomic actions [prog j] the step of child [j] consists of, the children
    end up as after stepping them one after the other. *)
Theorem C33_any_schedule : forall (A : Type) (NA : Num A) (S : Type) (o : su_ops A S) dt k l l' us (prog : Z -> list (option S -> option S)) w hc,
  each (o_timeStep o dt k) l = (l', Ok us) ->
  (forall j x, complete (prog j) x = option_map (fun s => fst (o_timeStep o dt k s)) x) ->
  (0 <= w)%Z -> (1 <= hc)%Z -> (Z.of_nat (length l) + hc <= INT_MAX)%Z ->
  exists threads, run_workers w hc (Z.of_nat (length l)) = Ok threads /\
    forall schedule, interleaving (map (actions_of prog) threads) schedule ->
      forall j, (0 <= j < Z.of_nat (length l))%Z ->
        exec schedule (fun i => nth_error l (Z.to_nat i)) j = nth_error l' (Z.to_nat j).
Proof.
  intros A NA S o dt k l l' us prog w hc E P Hw Hh He.
  destruct (run_same_result prog w hc (Z.of_nat (length l)) (fun i => nth_error l (Z.to_nat i)) Hw Hh He) as (ts & H1 & H2).
  exists ts. split; [exact H1|]. intros sched Hs j Hj. rewrite (H2 sched Hs j).
  replace ((0 <=? j)%Z && (j <? Z.of_nat (length l))%Z) with true by lia. rewrite P.
  destruct (each_ok _ _ _ _ E) as (G & L1 & L2). clear - G L1. revert l' us G L1. generalize (Z.to_nat j) as i. clear j.
  induction l as [|s l IH]; intros i [|a l'] [|x us] G L1; inversion G; subst; try discriminate; [destruct i; reflexivity|].
  destruct i as [|i]; cbn; [now rewrite H2|]. eapply IH; eauto.
Qed.
Print Assumptions C33_any_schedule.

Example C33_inhabited : exists u, o_timeStep (Ops f64 0 2) (nZ 1) 5 ex_tree0 = (u, Ok tt) /\
  map (fun c => e_time (es (u_ecm c))) (leaves 2 u) = [nZ 5; nZ 5; nZ 5].
Proof. exists (fst (o_timeStep (Ops f64 0 2) (nZ 1) 5 ex_tree0)). split; vm_compute; reflexivity. Qed.

(** ** C34 *)

(** Series modules below the top, not blocked: over any history the accumulated heat is the sum of r I^2 t over the
    steps. Partial: parallel modules are wrong (below), and a top-level module passes its heat on at once. *)
Theorem C34_series_history_partial : forall tm n (a b : module R (Tree R n)) q, heat_history tm n a q b ->
  m_series (mm a) = true -> m_block (mm a) = false -> m_top (mm a) = false -> m_Qc (mm b) = m_Qc (mm a) + q.
Proof. intros tm n a b q H H1 H2 H3. apply (heat_history_frame tm n a q b H H1 H2 H3). Qed.
Print Assumptions C34_series_history_partial.

(** Finding: in a parallel module of two branches of 1 A each, with two contact resistances of 1 Ohm, one second gives
    (2^2 + 3^2) J instead of (2^2 + 1^2) J: the running current is not reset. *)
Theorem C34_parallel_refuted : forall tm (c1 c2 : Tree R 0) r, current 0 c1 = 1 -> current 0 c2 = 1 ->
  m_series r = false -> m_block r = false -> m_top r = false -> m_rc r = [1; 1] ->
  exists m', mod_heat_step (Ops R tm 0) tm 1 1 (mkM r [c1; c2]) = (m', Ok tt) /\
    m_Qc (mm m') = m_Qc r + (2 * 2 + 3 * 3) /\
    Rsum (map (fun j => nth j [1; 1] 0 * (behind [1; 1] j * behind [1; 1] j) * 1) [0; 1]%nat) = 2 * 2 + 1 * 1.
Proof.
  intros tm c1 c2 r I1 I2 Hs Hb Ht Hr. unfold mod_heat_step. cbn [mm ms]. rewrite Hb, Hs, Ht. eexists. split; [reflexivity|].
  split; [|unfold behind; cbn; lra]. cbn [mm set_cool set_therm m_Qc]. unfold heat_p. cbn [mm ms]. rewrite Hr. cbn [heat_p_loop fold_left].
  change (o_I (Ops R tm 0)) with (current 0). rewrite I1, I2. rewrite !R_nZ. cbn. ring.
Qed.
Print Assumptions C34_parallel_refuted.

Example C34_inhabited : exists b, heat_history 0 0 (mkM (ex_rec (A := R) true [1; 1] 2) [cell1; cell1])
    (0 + contact_heat [1; 1] (current 1 (inr b)) (IZR 3 * 2)) b /\ current 1 (inr b) = 1.
Proof.
  assert (T : forall c : Tree R 0, good_ocv (p_ocv (ep (u_ecm c))) -> exists c', o_timeStep (Ops R 0 0) 2 3 c = (c', Ok tt) /\ e_I (es (u_ecm c')) = e_I (es (u_ecm c))).
  { intros c G. destruct (ecm_steps_total 3 2 (u_ecm c) G) as [e E]. cbn [su_ops_at ecm_ops o_timeStep]. unfold lift_ecm, ecm_timeStep_CC.
    replace (nltb 2 (nZ 0)) with false by (symmetry; rewrite R_nZ; apply Rltb_false; lra). change (Z.to_nat 3) with 3%nat. rewrite E. eexists. split; [reflexivity|]. cbn [u_ecm].
    apply ecm_steps_frame in E. apply E. }
  destruct (T cell1 (ex_good _ _ _)) as (c' & E & Ei).
  destruct (mod_timeStep (Ops R 0 0) 0 2 3 (mkM (ex_rec (A := R) true [1; 1] 2) [cell1; cell1])) as [b r] eqn:Eb.
  exists b. assert (Eb' := Eb). unfold mod_timeStep, step_children in Eb'. cbn [mm ms each ex_rec m_par m_series] in Eb'. rewrite E in Eb'. cbn [rmap rbind] in Eb'.
  replace (nltb 2 (nZ 0)) with false in Eb' by (symmetry; rewrite R_nZ; apply Rltb_false; lra).
  unfold mod_heat_step in Eb'. cbn [mm ms ex_rec m_block m_top m_series set_therm] in Eb'. injection Eb' as Eb1 Eb2. rewrite <- Eb2 in Eb.
  assert (Ci : current 1 (inr b) = 1).
  { rewrite <- Eb1. cbn [current mm ms inval set_V set_cool set_therm m_series ex_rec]. rewrite Ei. unfold cell1, ex_cell. cbn [u_ecm es e_I]. apply R_nZ. }
  split; [|exact Ci]. exact (hh_step 0 0 2 3 _ 0 _ b (hh_nil 0 0 _) Eb).
Qed.

(** ** C35 *)

(** What is returned is the maximum (minimum) of the cell voltages and of the lower (upper) voltage limits of all modules
    in the tree; so it is the extreme cell voltage when no module limit lies beyond it. *)
Theorem C35_extremes_partial : forall tm n (u u' : Tree R n) v,
  (o_Vhigh (Ops R tm n) u = (u', Ok v) ->
     Forall (fun x => exists y, In y (map cell_V (leaves n u)) /\ x <= y) (over_modules (fun k r l => l_Vmin (mod_lim (Ops R tm k) (mkM r l))) n u) ->
     is_max (map cell_V (leaves n u)) v) /\
  (o_Vlow (Ops R tm n) u = (u', Ok v) ->
     Forall (fun x => exists y, In y (map cell_V (leaves n u)) /\ y <= x) (over_modules (fun k r l => l_Vmax (mod_lim (Ops R tm k) (mkM r l))) n u) ->
     is_min (map cell_V (leaves n u)) v).
Proof.
  intros tm n u u' v. split.
  - intros H F. apply Vhigh_max in H. destruct H as [H1 H2]. rewrite Forall_forall in F.
    assert (U : forall y, In y (map cell_V (leaves n u)) -> y <= v) by (intros y Hy; apply H2, highs_In; now left).
    apply highs_In in H1. destruct H1 as [H1|H1]; [split; [exact H1|exact U]|].
    destruct (F v H1) as (y & Hy & L). specialize (U y Hy) as L'. assert (y = v) by lra. subst y. split; [exact Hy|exact U].
  - intros H F. apply Vlow_min in H. destruct H as [H1 H2]. rewrite Forall_forall in F.
    assert (U : forall y, In y (map cell_V (leaves n u)) -> v <= y) by (intros y Hy; apply H2, lows_In; now left).
    apply lows_In in H1. destruct H1 as [H1|H1]; [split; [exact H1|exact U]|].
    destruct (F v H1) as (y & Hy & L). specialize (U y Hy) as L'. assert (y = v) by lra. subst y. split; [exact Hy|exact U].
Qed.
Print Assumptions C35_extremes_partial.

(** Finding: for two cells in series at 3.15 V (limits 2.7 V to 4.2 V) [getVhigh] returns 5.4 V, the module's lower limit. *)
Theorem C35_refuted : exists (m : module f64 (Tree f64 0)),
  snd (mod_Vhigh ecm_ops m) = Ok (l_Vmin (mod_lim ecm_ops m)) /\
  Forall (fun c => match ecm_V (u_ecm c) with Ok v => nltb v (l_Vmin (mod_lim ecm_ops m)) = true | _ => False end) (ms m).
Proof.
  exists (mkM (ex_rec (A := f64) true [nZ 0; nZ 0] 2) [cell1; cell1]). split; [vm_compute; reflexivity|].
  do 2 (apply Forall_cons; [vm_compute; reflexivity|]). apply Forall_nil.
Qed.
Print Assumptions C35_refuted.

(** A parallel pair meets the hypothesis. *)
Example C35_inhabited : snd (mod_Vhigh ecm_ops (ex_par (A := f64))) = ecm_V (u_ecm cell1) /\
  match ecm_V (u_ecm cell1) with Ok v => nltb (l_Vmin (mod_lim ecm_ops (ex_par (A := f64)))) v = true | _ => False end.
Proof. split; vm_compute; reflexivity. Qed.

(** ** C36 *)

(** Blocking through the module: its direct children carry the flag, and a blocked module's own thermal step does
    nothing. Partial: modules two levels down are not reached (below). *)
Theorem C36_direct_children_partial : forall (A : Type) (NA : Num A) tm n b (m : module A (Tree A n)),
  m_block (mm (mod_setBlock (Ops A tm n) b m)) = b /\
  Forall (fun s => match n return Tree A n -> Prop with
                   | O => fun c => u_block c = b
                   | S n' => fun u => match (u : ecmu A + module A (Tree A n')) with inl c => u_block c = b | inr k => m_block (mm k) = b end
                   end s) (ms (mod_setBlock (Ops A tm n) b m)) /\
  (b = true -> forall dt k, mod_heat_step (Ops A tm n) tm dt k (mod_setBlock (Ops A tm n) b m) = (mod_setBlock (Ops A tm n) b m, Ok tt)).
Proof.
  intros A NA tm n b m. split; [reflexivity|]. split.
  - apply Forall_forall. cbn. intros s Hs. apply in_map_iff in Hs. destruct Hs as (x & <- & _).
    destruct n as [|n]; [reflexivity|]. destruct x; reflexivity.
  - intros -> dt k. reflexivity.
Qed.
Print Assumptions C36_direct_children_partial.

(** Finding: a module inside a module inside the blocked module is not blocked. *)
Theorem C36_nested_refuted : exists (m : module f64 (Tree f64 2)) (k : module f64 (Tree f64 1)) (j : module f64 (Tree f64 0)),
  ms (mod_setBlock (Ops f64 0 2) true m) = [inr k] /\ ms k = [inr j] /\ m_block (mm j) = false.
Proof.
  exists (mkM (ex_rec true [nZ 0] 2) [inr (mkM (ex_rec true [nZ 0] 2) [inr ex_par])]). eexists _, _. repeat split.
Qed.
Print Assumptions C36_nested_refuted.

(** ** C37 *)

(** The status is the worst over all cells below: Success exactly when every cell's check is Success. *)
Theorem C37_worst_status : forall (A : Type) (NA : Num A) tm n (u u' : Tree A n) v st,
  o_checkV (Ops A tm n) u = (u', Ok (v, st)) ->
  leaves n u' = leaves n u /\ exists sts, Forall2 cell_status (leaves n u) sts /\ worst_of sts st.
Proof. intros A NA. exact checkV_tree. Qed.
Print Assumptions C37_worst_status.
Theorem C37_success_iff : forall (A : Type) (NA : Num A) tm n (u u' : Tree A n) v st,
  o_checkV (Ops A tm n) u = (u', Ok (v, st)) -> (st = Success <-> Forall (fun c => cell_status c Success) (leaves n u)).
Proof.
  intros A NA tm n u u' v st H. apply checkV_tree in H. destruct H as [_ (sts & F & W & I)]. split.
  - intros ->. clear I. induction F as [|c s l ss Hc _ IH]; constructor.
    + assert (s = Success); [|now subst]. destruct Hc as [x Hx]. apply ecm_status_nonneg in Hx as P. apply status_val_0.
      specialize (W s (or_introl eq_refl)). cbn in W. lia.
    + apply IH. intros t Ht. apply W. now right.
  - intros G. destruct I as [I|[-> ->]]; [|reflexivity]. clear W. induction F as [|c s l ss Hc _ IH]; [destruct I|]. inversion G; subst.
    destruct I as [<-|I]; [|auto]. destruct Hc as [x Hx]. destruct H1 as [y Hy]. congruence.
Qed.
Print Assumptions C37_success_iff.
(** The voltage returned with it is the module's voltage. *)
Theorem C37_voltage : forall tm n (u u' : Tree R n) v st, ok n u -> o_checkV (Ops R tm n) u = (u', Ok (v, st)) -> voltage n u v.
Proof.
  assert (C : forall (c : ecmu R) v st, good_ocv (p_ocv (ep (u_ecm c))) -> ecm_checkVoltage (u_ecm c) = Ok (v, st) -> ecm_V (u_ecm c) = Ok v).
  { intros c v st G H. unfold ecm_checkVoltage, check_voltage in H. destruct (good_ocv_V _ G) as [x E]. rewrite E in *. now injection H as -> _. }
  intros tm [|n] u u' v st O H.
  - assert (G := proj2 (proj2 O)). apply Forall_inv in G. cbn in H |- *. destruct (ecm_checkVoltage (u_ecm u)) as [[x y]| | |] eqn:E; try discriminate. injection H as _ <- <-. exact (C _ _ _ G E).
  - node u c m.
    + assert (G := proj2 (proj2 O)). apply Forall_inv in G. cbn in H |- *. unfold on_l in H. cbn in H. destruct (ecm_checkVoltage (u_ecm c)) as [[x y]| | |] eqn:E; try discriminate. injection H as _ <- <-. exact (C _ _ _ G E).
    + destruct (V_right_all tm (S n) (inr m) O) as (w & x & E & V & _). cbn in E. unfold on_r in E.
      cbn in H. unfold on_r, mod_checkV in H.
      destruct (mod_V _ m) as [m1 r]. injection E as <- ->. destruct (each _ (ms m1)) as [l [rs| | |]]; try discriminate. injection H as _ <- _. exact V.
Qed.
Print Assumptions C37_voltage.

Example C37_inhabited : snd (o_checkV (Ops f64 0 1) (inr (mkM (ex_rec true [nZ 0; nZ 0] 2) [cell1; ex_cell (nZ 16) (nZ 0) (nZ 200)])))
  = rmap (fun v => (v, VMIN_violation)) (snd (o_V (Ops f64 0 1) (inr (mkM (ex_rec true [nZ 0; nZ 0] 2) [cell1; ex_cell (nZ 16) (nZ 0) (nZ 200)])))) /\
  exists v, snd (o_checkV (Ops f64 0 2) ex_tree) = Ok (v, Success).
Proof. split; [vm_compute; reflexivity|]. eexists. vm_compute. reflexivity. Qed.

(** ** C41 *)

(** Over any history of steps, thermal updates, commands and queries on a tree: what the queries returned plus the change
    of what is unreported is what has been consumed meanwhile. *)
Theorem C41_books_balance : forall tm n (u v : Tree R n) q, cooling_history tm n u q v ->
  q + total unreported n v - total unreported n u = total consumed n v - total consumed n u.
Proof. intros tm n u v q. apply history_books. Qed.
Print Assumptions C41_books_balance.

(** A query returns all that is unreported in the tree and resets every counter. *)
Theorem C41_query : forall tm n (m : module R (Tree R n)), exists m',
  mod_coolload (Ops R tm n) m = (m', Ok (total unreported (S n) (inr m))) /\
  Forall (fun k => unreported k = 0) (coolers (S n) (inr m' : Tree R (S n))) /\ total consumed (S n) (inr m') = total consumed (S n) (inr m).
Proof.
  intros tm n m. destruct (coolload_total tm (S n) (inr m)) as (u' & q & E & Eq & F & T & N). cbn in E. unfold on_r in E.
  destruct (mod_coolload (Ops R tm n) m) as [m' r]. destruct r as [x| | |]; try discriminate. cbn in E. injection E as <- <-.
  cbn [value] in Eq. subst x. exists m'. auto.
Qed.
Print Assumptions C41_query.

(** A coupled thermal update of a module with running fans does consume energy. *)
Example C41_inhabited :
  let m := mkM (S := Tree f64 0) (set_therm (ex_rec (A := f64) true [nZ 0; nZ 0] 2) (nZ 0) (nZ 1)) [cell1; cell1] in
  (exists t, snd (mod_thermal ecm_ops 2 [] (nZ 1) m) = Ok t) /\
  nltb (nZ 0) (u_Eop (k_cum (m_cool (mm (fst (mod_thermal ecm_ops 2 [] (nZ 1) m)))))) = true /\
  nltb (nZ 0) (val64 (snd (mod_coolload ecm_ops (fst (mod_thermal ecm_ops 2 [] (nZ 1) m))))) = true.
Proof.
  cbv zeta. split; [eexists; vm_compute; reflexivity|]. split; vm_compute; reflexivity.
Qed.
