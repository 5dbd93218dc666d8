(** * C80: a cycler on a string of cells counts every coulomb *)
From Coq Require Import List Lia Reals SpecFloat Lra.
From Verif Require Import Base RFacts StatusModel UtilModel CellModel CellProofs CoolModel ModuleModel ModuleSpec ModuleProofs ModuleProofs3 ModuleExamples CyclerModel CyclerSpec CyclerProofs
  PackModel PackSpec PackProofs PackToy.
Import ListNotations.
Local Open Scope R_scope.

Lemma went_zero (l : list (ecmu R)) i : Forall2 (went_through [(i, 0)]) l l.
Proof. induction l as [|c l IH]; constructor; [|exact IH]. unfold went_through; cbn. repeat split; lra. Qed.

(** A rest that ends at its time limit leaves every cell of the string with the charge and throughput it had and a clock
    advanced by the time asked for; the cycler reports the same time and no throughput. *)
Theorem C80_rest : forall tm n store write nmax fuel tlim dt ndt w w', harmless store -> harmless write ->
  string n (c_su w) -> 0 < dt -> 0 <= tlim ->
  rest (tree_if tm n store write) nmax fuel tlim dt ndt w = (w', Ok ReachedTimeLimit) ->
  string n (c_su w') /\ Forall2 (went_through [(0, tlim)]) (leaves n (c_su w)) (leaves n (c_su w')) /\ booked_as [(0, tlim)] (c_th w) (c_th w').
Proof.
  intros tm n store write nmax fuel tlim dt ndt w w' H1 H2 Hs Hd Ht E.
  destruct (sp_rest tm n store write nmax H1 H2 (leaves n (c_su w)) (c_th w) fuel tlim dt ndt Hd Ht w w' ReachedTimeLimit) as (K & Eq); auto.
  - split; [exact Hs|]. split; [apply went_zero|reflexivity].
  - destruct K as (K1 & K2 & _). split; [exact K1|]. split; [exact K2|]. rewrite Eq. unfold booked_as. cbn [th_time th_Ah duration throughput].
    rewrite R_nZ. cbn [nadd RNum]. rewrite Rabs_R0. lra.
Qed.
Print Assumptions C80_rest.

(** A constant current that ends at its time or voltage limit passes through every cell, for the same time [T], which is the
    time asked for when the time limit ended it; the cycler reports that time and |i| T. *)
Theorem C80_constant_current : forall tm n store write nmax diag fuel i vlim tlim dt ndt w w' st, harmless store -> harmless write ->
  string n (c_su w) -> (diag = true -> alive_at i n (c_su w)) -> 0 < dt -> 0 <= tlim ->
  CC (tree_if tm n store write) nmax diag fuel i vlim tlim dt ndt w = (w', Ok st) -> st = ReachedTimeLimit \/ st = ReachedVoltageLimit ->
  exists T, 0 <= T <= tlim /\ (st = ReachedTimeLimit -> T = tlim) /\
    string n (c_su w') /\ Forall2 (went_through [(i, T)]) (leaves n (c_su w)) (leaves n (c_su w')) /\
    Forall (fun c => e_I (es (u_ecm c)) = i) (leaves n (c_su w')) /\ booked_as [(i, T)] (c_th w) (c_th w').
Proof.
  intros tm n store write nmax diag fuel i vlim tlim dt ndt w w' st H1 H2 Hs Ha Hd Ht E Hst.
  destruct (sp_CC tm n store write nmax H1 H2 (leaves n (c_su w)) diag i vlim tlim (c_th w) fuel dt ndt Hd Ht w w' st) as (T & K1 & K2 & K3); auto.
  - split; [exact Hs|]. split; [reflexivity|]. split; [exact Ha|reflexivity].
  - destruct K3 as (L1 & L2 & L3 & _ & L5 & L6). exists T. split; [exact K1|]. split; [exact K2|]. split; [exact L1|]. split; [exact L2|]. split; [exact L3|].
    unfold booked_as. cbn [duration throughput]. rewrite L5, L6. lra.
Qed.
Print Assumptions C80_constant_current.

(** Any sequence of such calls: each cell's charge is its first charge less what was drawn, and the cycler's, each cell's
    and the user's account of the throughput and of the time agree. *)
Theorem C80_history : forall tm n store write nmax diag w l w', harmless store -> harmless write ->
  string n (c_su w) -> cycled tm n store write nmax diag w l w' ->
  string n (c_su w') /\ Forall2 (went_through l) (leaves n (c_su w)) (leaves n (c_su w')) /\ booked_as l (c_th w) (c_th w').
Proof.
  intros tm n store write nmax diag w l w' H1 H2 Hs H.
  induction H as [w|w l w1 w2 fuel tlim dt ndt H IH Hd Ht E|w l w1 w2 fuel i vlim tlim dt ndt st t H IH Hd Ht Ha E Hst ->].
  - split; [exact Hs|]. split; [clear; induction (leaves n (c_su w)) as [|c l IH]; constructor; [apply went_nil|exact IH]|].
    unfold booked_as. cbn. lra.
  - destruct (IH Hs) as (I1 & I2 & I3). destruct (C80_rest tm n store write nmax fuel tlim dt ndt w1 w2 H1 H2 I1 Hd Ht E) as (J1 & J2 & J3).
    split; [exact J1|]. split; [exact (went_all_app _ _ _ _ _ I2 J2)|exact (booked_app _ _ _ _ _ I3 J3)].
  - destruct (IH Hs) as (I1 & I2 & I3).
    destruct (C80_constant_current tm n store write nmax diag fuel i vlim tlim dt ndt w1 w2 st H1 H2 I1 Ha Hd Ht E Hst) as (T & _ & _ & J1 & J2 & _ & J3).
    assert (EQ : th_time (c_th w2) - th_time (c_th w1) = T) by (destruct J3 as (J3 & _); rewrite J3; cbn [duration]; lra).
    rewrite EQ. split; [exact J1|]. split; [exact (went_all_app _ _ _ _ _ I2 J2)|exact (booked_app _ _ _ _ _ I3 J3)].
Qed.
Print Assumptions C80_history.

(** Discharging and then charging at the same current for the same time brings every cell back to its state of charge; the
    books show the charge that went both ways. *)
Theorem C80_round_trip : forall tm n store write nmax diag f1 f2 i v1 v2 tlim dt ndt w w1 w2, harmless store -> harmless write ->
  string n (c_su w) -> (diag = true -> alive_at i n (c_su w) /\ alive_at (- i) n (c_su w1)) -> 0 < dt -> 0 <= tlim ->
  CC (tree_if tm n store write) nmax diag f1 i v1 tlim dt ndt w = (w1, Ok ReachedTimeLimit) ->
  CC (tree_if tm n store write) nmax diag f2 (- i) v2 tlim dt ndt w1 = (w2, Ok ReachedTimeLimit) ->
  Forall2 (fun c d => e_SOC (es (u_ecm d)) = e_SOC (es (u_ecm c)) /\ e_Ah (es (u_ecm d)) = e_Ah (es (u_ecm c)) + 2 * Rabs i * tlim / 3600)
    (leaves n (c_su w)) (leaves n (c_su w2)) /\
  th_Ah (c_th w2) = th_Ah (c_th w) + 2 * Rabs i * tlim / 3600.
Proof.
  intros tm n store write nmax diag f1 f2 i v1 v2 tlim dt ndt w w1 w2 H1 H2 Hs Ha Hd Ht E1 E2.
  destruct (C80_constant_current tm n store write nmax diag f1 i v1 tlim dt ndt w w1 _ H1 H2 Hs (fun e => proj1 (Ha e)) Hd Ht E1 (or_introl eq_refl))
    as (T1 & _ & K1 & J1 & J2 & _ & J3). specialize (K1 eq_refl). subst T1.
  destruct (C80_constant_current tm n store write nmax diag f2 (- i) v2 tlim dt ndt w1 w2 _ H1 H2 J1 (fun e => proj2 (Ha e)) Hd Ht E2 (or_introl eq_refl))
    as (T2 & _ & K2 & L1 & L2 & _ & L3). specialize (K2 eq_refl). subst T2.
  pose proof (went_all_app _ _ _ _ _ J2 L2) as G. destruct (booked_app _ _ _ _ _ J3 L3) as (_ & B). split.
  - eapply Forall2_impl; [|exact G]. intros c d (P1 & P2 & P3 & _). rewrite P2, P3. cbn [charge throughput app]. rewrite Rabs_Ropp. split; [|lra].
    replace (i * tlim + (- i * tlim + 0)) with 0 by lra. unfold Rdiv. rewrite !Rmult_0_l. lra.
  - rewrite B. cbn [throughput app]. rewrite Rabs_Ropp. lra.
Qed.
Print Assumptions C80_round_trip.

(** Not so for a constant voltage: on a string whose second cell is nearly empty the search for the current leaves the two
    cells in series at different currents, and after one second the cycler's throughput and the second cell's differ more
    than thirty-fold while the call reports that it completed. *)
Theorem C80_constant_voltage_refuted : exists (m : module f64 (Tree f64 0)) (w' : cyc f64 (Tree f64 1)) c d,
  serial 1 (inr m : Tree f64 1) /\
  CV (tree_if 0 1 (store_V 0 1) (write_none 1)) 10 (nZ 5) (nZ 1) (nZ 1) (nZ 1) 0 (mkCyc (inr m) 0 th0) = (w', Ok ReachedTimeLimit) /\
  leaves 1 (c_su w') = [c; d] /\
  nltb (nZ 100) (e_I (es (u_ecm c))) = true /\ nltb (e_I (es (u_ecm d))) (nZ 1) = true /\
  nltb (nlit 3 100) (th_Ah (c_th w')) = true /\ nltb (e_Ah (es (u_ecm d))) (nlit 1 1000) = true.
Proof.
  pose (m := mkM (S := ecmu f64) (ex_rec (A := f64) true [nZ 0; nZ 0] 2) [ex_cell (nZ 16) half (nZ 0); ex_cell (nZ 16) (nlit 5 100) (nZ 0)]).
  exists m. eexists _, _, _. split; [repeat constructor|]. split; [vm_compute; reflexivity|]. split; [vm_compute; reflexivity|].
  repeat split; vm_compute; reflexivity.
Qed.
Print Assumptions C80_constant_voltage_refuted.

(** A cell that the cycler holds at a voltage has been checked: a voltage is accepted only with the status that a check of the
    resulting cell gives, alone or as the only part of a tree (any carrier). *)
Theorem C80_checked_voltage : forall (A : Type) (NA : Num A) tm n store write store' write' v (c c' : ecmu A) (t : Tree A (S n)) st,
  (q_setVoltage (tree_if tm 0 store write) v c = (c', Ok st) -> isStatusOK st = true ->
   exists x, ecm_checkVoltage (u_ecm c') = Ok (x, st)) /\
  (q_setVoltage (tree_if tm (S n) store' write') v (inl c : Tree A (S n)) = (t, Ok st) -> isStatusOK st = true ->
   exists d x, t = inl d /\ ecm_checkVoltage (u_ecm d) = Ok (x, st)).
Proof.
  intros A NA tm n store write store' write' v c c' t st. cbn [tree_if q_setVoltage tree_setVoltage]. unfold lift_ecm.
  destruct (ecm_setVoltage v true (u_ecm c)) as [d r] eqn:E. split; intros H O.
  - injection H as <- ->. destruct (setVoltage_spec _ _ _ _ _ E) as [_ K]. destruct (K O) as (o & _ & _ & x & X). exists x. exact X.
  - injection H as <- ->. destruct (setVoltage_spec _ _ _ _ _ E) as [_ K]. destruct (K O) as (o & _ & _ & x & X). eexists _, x. split; [reflexivity|]. exact X.
Qed.
Print Assumptions C80_checked_voltage.

Lemma storing_is_harmless : harmless (store_V (A := R) 0 1) /\ harmless (write_none (A := R) 1).
Proof.
  split; intros u u' E.
  - unfold store_V in E. destruct (o_V (su_ops_at ecm_ops 0 1) u) as (v & r) eqn:EV. injection E as <- _. exact (proj2 (V_leaves 0 1 _ _ _ EV)).
  - injection E as <-. apply eq_refl_tree.
Qed.
(** A string of two half-full cells rests, is discharged and charged again for a second each. *)
Example C80_inhabited : exists w w1 w2 w3, let o := tree_if 0 1 (store_V 0 1) (write_none 1) in
  string 1 (c_su w) /\ alive_at 1 1 (c_su w1) /\ alive_at (-1) 1 (c_su w2) /\ harmless (store_V (A := R) 0 1) /\ harmless (write_none (A := R) 1) /\
  rest o 10 1 1 1 0 w = (w1, Ok ReachedTimeLimit) /\ CC o 10 false 1 1 (-1) 1 1 0 w1 = (w2, Ok ReachedTimeLimit) /\
  CC o 10 false 1 (-1) 10 1 1 0 w2 = (w3, Ok ReachedTimeLimit) /\
  cycled 0 1 (store_V 0 1) (write_none 1) 10 false w [(0, 1); (1, 1); (-1, 1)] w3.
Proof.
  pose (c := flat_cell (1 / 2) 0 0 0 0). pose (w := mkCyc (flat_string c c 0 false) 0 th0 : cyc R (Tree R 1)).
  assert (P0 : pair_at (1 / 2) 0 (c_su w)). { eexists _, _, _, _, _, _, _, _, _, _. split; [reflexivity|]. repeat split; try lra; discriminate. }
  destruct (tr_rest (store_V 0 1) (write_none 1) (1 / 2) 0 10 ltac:(lra) w P0) as (w1 & b & E1 & -> & P1).
  destruct (tr_CC (store_V 0 1) (write_none 1) (1 / 2 - 1 / 3600) 0 1 (-1) 10 ltac:(lra) ltac:(rewrite Rabs_R1; lra) ltac:(intros; lra) ltac:(intros; lra) w1 P1) as (w2 & b & E2 & -> & P2).
  destruct (tr_CC (store_V 0 1) (write_none 1) (1 / 2 - 1 / 3600 - 1 / 3600) 1 (-1) 10 10 ltac:(lra) ltac:(unfold Rabs; destruct (Rcase_abs _); lra) ltac:(intros; lra) ltac:(intros; lra) w2 P2)
    as (w3 & b & E3 & -> & P3).
  destruct storing_is_harmless as (H1 & H2). pose proof (pair_string _ _ _ P0) as S0. pose proof (pair_string _ _ _ P1) as S1. pose proof (pair_string _ _ _ P2) as S2.
  exists w, w1, w2, w3. cbv zeta. split; [exact S0|].
  split; [eapply pair_alive; [|exact P1]; lra|]. split; [eapply pair_alive; [|exact P2]; lra|].
  split; [exact H1|]. split; [exact H2|]. split; [exact E1|]. split; [exact E2|]. split; [exact E3|].
  destruct (C80_constant_current _ _ _ _ _ _ _ _ _ _ _ _ _ _ _ H1 H2 S1 (fun e : false = true => False_ind _ (Bool.diff_false_true e)) Rlt_0_1 Rle_0_1 E2 (or_introl eq_refl))
    as (T2 & _ & K2 & _ & _ & _ & (B2 & _)). specialize (K2 eq_refl). subst T2.
  destruct (C80_constant_current _ _ _ _ _ _ _ _ _ _ _ _ _ _ _ H1 H2 S2 (fun e : false = true => False_ind _ (Bool.diff_false_true e)) Rlt_0_1 Rle_0_1 E3 (or_introl eq_refl))
    as (T3 & _ & K3 & _ & _ & _ & (B3 & _)). specialize (K3 eq_refl). subst T3.
  cbn [duration] in B2, B3.
  refine (cy_CC _ _ _ _ _ _ w [(0, 1); (1, 1)] w2 w3 1 (-1) 10 1 1 0 ReachedTimeLimit 1 _ _ _ _ E3 (or_introl eq_refl) _); try lra; try discriminate.
  refine (cy_CC _ _ _ _ _ _ w [(0, 1)] w1 w2 1 1 (-1) 1 1 0 ReachedTimeLimit 1 _ _ _ _ E2 (or_introl eq_refl) _); try lra; try discriminate.
  refine (cy_rest _ _ _ _ _ _ w [] w w1 1 1 1 0 _ _ _ E1); try lra. constructor.
Qed.
