(** * C81: a battery of identical cells behaves as one cell, scaled *)
From Coq Require Import List Lia Reals SpecFloat Lra.
From Verif Require Import Base RFacts StatusModel UtilModel CellModel CoolModel ModuleModel ModuleSpec ModuleProofs ModuleProofs3 ModuleExamples CyclerModel CyclerSpec CyclerProofs
  PackModel PackSpec PackToy ScaleSpec ScaleProofs ScaleProofs2.
Import ListNotations.
Local Open Scope R_scope.

(** Whatever the nesting, [k] cells in series and [p] in parallel carry [p] times the current of a cell, and their voltage
    is [k] times that of a cell. Asking for the voltage changes nothing. *)
Theorem C81_terminals : forall tm n (u u' : su R (ecmu R) n) k p c x, replica n u k p c -> o_V (su_ops_at ecm_ops tm n) u = (u', Ok x) ->
  o_I (su_ops_at ecm_ops tm n) u = INR p * e_I (es (u_ecm c)) /\ replica n u' k p c /\
  exists v, ecm_V (u_ecm c) = Ok v /\ (0 < v -> x = INR k * v) /\ (v <= 0 -> x <= 0).
Proof.
  intros tm n u u' k p c x H E. split; [eapply rep_I; exact H|]. destruct (rep_V _ _ _ _ _ _ _ _ H E) as (H' & Hx). split; [exact H'|].
  destruct (Hx _ eq_refl) as (v & Ev & ->). exists v. split; [exact Ev|]. split; intros Hv; [eapply tv_pos; eauto|apply tv_neg; exact Hv].
Qed.
Print Assumptions C81_terminals.

(** The battery's voltage check reports what the cell's reports. *)
Theorem C81_check : forall tm n (u u' : su R (ecmu R) n) k p c x st, replica n u k p c -> o_checkV (su_ops_at ecm_ops tm n) u = (u', Ok (x, st)) ->
  replica n u' k p c /\ exists v, ecm_checkVoltage (u_ecm c) = Ok (v, st) /\ (0 < v -> x = INR k * v).
Proof.
  intros tm n u u' k p c x st H E. destruct (rep_checkV _ _ _ _ _ _ _ _ _ H E) as ((_ & KP) & v & Ev & ->). split; [apply KP; exact H|].
  exists v. split; [exact Ev|]. intros Hv. eapply tv_pos; eauto.
Qed.
Print Assumptions C81_check.

(** Setting [p] times a current a cell accepts sets every cell to that current, evenly over the branches. *)
Theorem C81_set_current : forall tm n (u u' : su R (ecmu R) n) k p c j chk st, replica n u k p c -> accepts c j ->
  o_setCurrent (su_ops_at ecm_ops tm n) (INR p * j) chk u = (u', Ok st) -> st = Success /\ replica n u' k p (at_current c j).
Proof.
  intros tm n u u' k p c j chk st H A E. destruct (rep_set tm n u u' k p c chk j st H) as [K|(_ & N)]; [|exact E|exact K|contradiction].
  intros v s Es. destruct A as (v' & A). rewrite A in Es. injection Es as _ <-. auto.
Qed.
Print Assumptions C81_set_current.

(** A time step takes the battery to the battery of the cell after the same step: the branches stay balanced. *)
Theorem C81_step : forall tm n dt q (u u' : su R (ecmu R) n) k p c, replica n u k p c -> o_timeStep (su_ops_at ecm_ops tm n) dt q u = (u', Ok tt) ->
  exists c', o_timeStep ecm_ops dt q c = (c', Ok tt) /\ replica n u' k p c'.
Proof. exact rep_step. Qed.
Print Assumptions C81_step.

(** Constant current: the battery's run at [i] down or up to [vlim] is the cell's at [i / p] to [vlim / k]. It ends for the
    same reason at the same time, moves [p] times the charge and [k p] times the energy. *)
Theorem C81_constant_current : forall tm n k p store write nmax diag fuel i vlim tlim dt ndt w wc w' st, unobtrusive store -> unobtrusive write ->
  scaled n k p w wc -> 0 < vlim -> accepts (c_su wc) (i / INR p) -> 31 / 10 <= l_Vmax (p_lim (ep (u_ecm (c_su wc)))) ->
  CC (tree_if tm n store write) nmax diag fuel i vlim tlim dt ndt w = (w', Ok st) -> st <> timeStep_CC_failed ->
  exists wc', CC (tree_if tm 0 ignore ignore) nmax diag fuel (i / INR p) (vlim / INR k) tlim dt ndt wc = (wc', Ok st) /\ scaled n k p w' wc'.
Proof.
  intros tm n k p store write nmax diag fuel i vlim tlim dt ndt w wc w' st US UW S Hv A HL E N.
  destruct (rep_pos _ _ _ _ _ (proj1 S)) as (Hk & Hp). pose proof (INR_pos k Hk) as Ik. pose proof (INR_pos p Hp) as Ip.
  replace i with (INR p * (i / INR p)) in E by (field; lra). replace vlim with (INR k * (vlim / INR k)) in E by (field; lra).
  destruct (sim_CC tm n k p nmax diag store write US UW (i / INR p) (vlim / INR k) Hk Hp ltac:(apply Rdiv_lt_0_compat; assumption) fuel tlim dt ndt (c_su wc) A HL
    w wc w' st S eq_refl E N) as (wc' & b & E' & S' & _ & <-). exists wc'. auto.
Qed.
Print Assumptions C81_constant_current.

(** Resting: likewise. *)
Theorem C81_rest : forall tm n k p store write nmax fuel tlim dt ndt w wc w' st, unobtrusive store -> unobtrusive write ->
  scaled n k p w wc -> 0 < tlim ->
  rest (tree_if tm n store write) nmax fuel tlim dt ndt w = (w', Ok st) -> isStatusBad st = false ->
  exists wc', rest (tree_if tm 0 ignore ignore) nmax fuel tlim dt ndt wc = (wc', Ok st) /\ scaled n k p w' wc'.
Proof.
  intros tm n k p store write nmax fuel tlim dt ndt w wc w' st US UW S Ht E N.
  destruct (sim_rest tm n k p nmax store write US UW fuel tlim dt ndt (fun _ => True) Ht w wc w' st S Logic.I E ltac:(congruence)) as (wc' & b & E' & S' & _ & <-). exists wc'. auto.
Qed.
Print Assumptions C81_rest.

(** What is recorded by filling a row with the voltage does not disturb this. *)
Theorem C81_recording : forall tm n, unobtrusive (store_V (A := R) tm n) /\ unobtrusive (write_none (A := R) n).
Proof.
  intros tm n. split; intros u u' k p c H E.
  - unfold store_V in E. destruct (o_V (su_ops_at ecm_ops tm n) u) as (v & r) eqn:EV. injection E as <- _. apply (rep_V _ _ _ _ _ _ _ _ H EV).
  - injection E as <-. exact H.
Qed.
Print Assumptions C81_recording.

Lemma flat_ok soc i t a w j : 0 <= soc <= 1 -> accepts (flat_cell soc i t a w) j.
Proof.
  intros H. exists 4. unfold ecm_checkVoltage. change (u_ecm (at_current (flat_cell soc i t a w) j)) with (u_ecm (flat_cell soc j t a w)).
  rewrite flat_V by exact H. cbn. destruct (Rle_dec 4 (0 / 1)); [lra|]. destruct (Rlt_dec _ 4); [|lra]. destruct (Rlt_dec 4 _); [|lra]. reflexivity.
Qed.
(** Two strings of two cells side by side; and a string of two cells taken through a second of discharge. *)
Definition flat_pair (c : ecmu R) : Tree R 1 := flat_string c c 0 false.
Definition flat_square (c : ecmu R) : Tree R 2 :=
  inr (mkM (mkMod false [0; 0] (cool_make 2 1) 5 1 0 0 4 0 false false true false) [flat_pair c; flat_pair c]).
Lemma pair_replica c : replica 1 (flat_pair c) 2 1 c.
Proof.
  cbn [replica flat_pair flat_string mm ms flat_rec m_series m_rc m_Vok length repeat]. split; [discriminate|]. split; [lia|]. split; [reflexivity|]. split; [discriminate|].
  exists 1%nat. split; [reflexivity|]. repeat constructor; apply like_refl.
Qed.
Example C81_inhabited : let c := flat_cell (1 / 2) 0 0 0 0 in let o := tree_if 0 1 (store_V 0 1) (write_none 1) in
  replica 2 (flat_square c) 2 2 c /\ accepts c 1 /\ 31 / 10 <= l_Vmax (p_lim (ep (u_ecm c))) /\
  exists w w' wc wc', scaled 1 2 1 w wc /\ c_su w = flat_pair c /\
    CC o 10 false 1 1 1 1 1 0 w = (w', Ok ReachedTimeLimit) /\
    CC (tree_if 0 0 ignore ignore) 10 false 1 (1 / INR 1) (1 / INR 2) 1 1 0 wc = (wc', Ok ReachedTimeLimit) /\ scaled 1 2 1 w' wc'.
Proof.
  intros c o. assert (HL : 31 / 10 <= l_Vmax (p_lim (ep (u_ecm c)))) by (cbn; lra).
  assert (A : forall j, accepts c j) by (intros j; apply flat_ok; lra).
  split; [|split; [apply A|split; [exact HL|]]].
  - cbn [replica flat_square mm ms m_series m_rc m_Vok length repeat]. split; [discriminate|]. split; [lia|]. split; [reflexivity|]. split; [discriminate|].
    exists 1%nat. split; [reflexivity|]. split; [repeat constructor; apply pair_replica|]. intros s t [<-|[<-|[]]] [<-|[<-|[]]]; apply shape_refl.
  - pose (w := mkCyc (flat_pair c) 0 th0 : cyc R (Tree R 1)). pose (wc := mkCyc (c : Tree R 0) 0 th0 : cyc R (Tree R 0)).
    assert (P0 : pair_at (1 / 2) 0 (c_su w)). { eexists _, _, _, _, _, _, _, _, _, _. split; [reflexivity|]. repeat split; try lra; discriminate. }
    destruct (tr_CC (store_V 0 1) (write_none 1) (1 / 2) 0 1 1 10 ltac:(lra) ltac:(rewrite Rabs_R1; lra) ltac:(intros; lra) ltac:(intros; lra) w P0) as (w' & b & E & -> & _).
    assert (Sc : scaled 1 2 1 w wc). { split; [apply pair_replica|]. cbn. repeat split; lra. }
    destruct (C81_recording 0 1) as (U1 & U2).
    destruct (C81_constant_current 0 1 2 1 _ _ 10 false 1 1 1 1 1 0 w wc w' _ U1 U2 Sc ltac:(lra) (A _) HL E ltac:(discriminate)) as (wc' & E' & S').
    exists w, w', wc, wc'. split; [exact Sc|]. split; [reflexivity|]. split; [exact E|]. split; [exact E'|exact S'].
Qed.

(** The hypothesis that the cell accepts the current cannot be dropped: modules pass on only failures, not warnings. A single
    cell below its minimum voltage refuses to be discharged, and a string of two such cells is discharged. *)
Theorem C81_warning_refuted : exists (c : ecmu f64) (m : module f64 (Tree f64 0)) (w1 : cyc f64 (Tree f64 0)) (w2 : cyc f64 (Tree f64 1)),
  ms m = [c; c] /\ m_series (mm m) = true /\ m_rc (mm m) = [nZ 0; nZ 0] /\
  CC (tree_if 0 0 (store_V 0 0) (write_none 0)) 10 true 1 (nZ 1) (nZ 1) (nZ 1) (nZ 1) 0 (mkCyc (c : Tree f64 0) 0 th0) = (w1, Ok Vmin_violation) /\ c_su w1 = c /\
  CC (tree_if 0 1 (store_V 0 1) (write_none 1)) 10 true 1 (nZ 1) (nZ 2) (nZ 1) (nZ 1) 0 (mkCyc (inr m) 0 th0) = (w2, Ok Vmin_violation) /\
  Forall (fun d => nltb (e_SOC (es (u_ecm d))) (e_SOC (es (u_ecm c))) = true) (leaves 1 (c_su w2)).
Proof.
  pose (c := ex_cell (nZ 16) (nlit 20 100) (nZ 0) : ecmu f64).
  pose (m := mkM (S := ecmu f64) (ex_rec (A := f64) true [nZ 0; nZ 0] 2) [c; c]).
  exists c, m. eexists _, _. split; [reflexivity|]. split; [reflexivity|]. split; [reflexivity|]. split; [vm_compute; reflexivity|]. split; [vm_compute; reflexivity|].
  split; [vm_compute; reflexivity|]. repeat constructor; vm_compute; reflexivity.
Qed.
Print Assumptions C81_warning_refuted.
