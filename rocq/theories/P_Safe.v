(** * C75: calls on well-formed units stay inside their arrays *)
From Coq Require Import List Lia SpecFloat Reals Lra.
From Verif Require Import Base RFacts StatusModel UtilModel UtilSpec CellModel CoolModel ModuleModel BattModel BattProofs SpmModel SpmUnitModel SpmWitness
  PhysToy ModuleExamples SafeSpec SafeProofs SafeCells SafeReal SafeBatt.
Import ListNotations.
Local Open Scope R_scope.

(** Any history of calls on a unit of any depth and layout built from equivalent-circuit cells: each call returns or throws
    an exception the caller can catch, and the unit is as well-formed afterwards. Cells are the units of depth 0. *)
Theorem C75_ecm_units : forall tm n (u : su R (ecmu R) n) cs, formed ecm_usable ecm_shape n u ->
  Forall (admissible (shape_of ecm_shape n u)) cs ->
  Forall defined (outcomes (su_ops_at ecm_ops tm n) cs u) /\
  shape_of ecm_shape n (after (su_ops_at ecm_ops tm n) cs u) = shape_of ecm_shape n u.
Proof.
  intros tm n u cs H Ad. apply (formed_leaf _ _ _ ecm_usable_formed) in H.
  destruct (history_safe _ _ _ (tree_safe ecm_ops _ _ tm n ecm_safe) cs u H Ad) as (P & _ & Q). auto.
Qed.
Print Assumptions C75_ecm_units.

(** The same for single-particle cells, whatever the mathematical library computes. *)
Theorem C75_spm_units : forall (F : fns R) tm n (u : su R (spm R) n) cs, formed spm_usable spm_shape n u ->
  Forall (admissible (shape_of spm_shape n u)) cs ->
  Forall defined (outcomes (su_ops_at (spm_ops F tm) tm n) cs u) /\
  shape_of spm_shape n (after (su_ops_at (spm_ops F tm) tm n) cs u) = shape_of spm_shape n u.
Proof.
  intros F tm n u cs H Ad. apply (formed_leaf _ _ _ spm_usable_formed) in H.
  destruct (history_safe _ _ _ (tree_safe (spm_ops F tm) _ _ tm n (spm_safe F tm stress_closed_R)) cs u H Ad) as (P & _ & Q). auto.
Qed.
Print Assumptions C75_spm_units.

(** In particular the voltage of a well-formed unit can always be read and checked. *)
Theorem C75_voltage_returns : forall (F : fns R) tm n (u : su R (spm R) n) (w : su R (ecmu R) n),
  formed spm_usable spm_shape n u -> formed ecm_usable ecm_shape n w ->
  returns (snd (o_V (su_ops_at (spm_ops F tm) tm n) u)) /\ returns (snd (o_checkV (su_ops_at (spm_ops F tm) tm n) u)) /\
  returns (snd (o_V (su_ops_at ecm_ops tm n) w)) /\ returns (snd (o_checkV (su_ops_at ecm_ops tm n) w)).
Proof.
  intros F tm n u w H G. apply (formed_leaf _ _ _ spm_usable_formed) in H. apply (formed_leaf _ _ _ ecm_usable_formed) in G.
  pose proof (tree_safe (spm_ops F tm) _ _ tm n (spm_safe F tm stress_closed_R)) as S1. pose proof (tree_safe (ecm_ops (A := R)) _ _ tm n ecm_safe) as S2.
  repeat split; [apply (sf_V _ _ _ S1), H|apply (sf_checkV _ _ _ S1), H|apply (sf_V _ _ _ S2), G|apply (sf_checkV _ _ _ S2), G].
Qed.
Print Assumptions C75_voltage_returns.

(** Setting the voltage of a parallel module. *)
Theorem C75_parallel_setVoltage : forall (F : fns R) tm n v (m : module R (su R (spm R) n)) (w : module R (su R (ecmu R) n)),
  formed spm_usable spm_shape (S n) (inr m) -> formed ecm_usable ecm_shape (S n) (inr w) ->
  defined (snd (p_setVoltage (su_ops_at (spm_ops F tm) tm n) v (m_rc (mm m)) (ms m))) /\
  defined (snd (p_setVoltage (su_ops_at ecm_ops tm n) v (m_rc (mm w)) (ms w))).
Proof.
  intros F tm n v m w H G. apply (formed_leaf _ _ _ spm_usable_formed) in H. apply (formed_leaf _ _ _ ecm_usable_formed) in G.
  destruct H as (H1 & H2 & _ & H3), G as (G1 & G2 & _ & G3). split.
  - apply (p_setVoltage_post _ _ _ (tree_safe (spm_ops F tm) _ _ tm n (spm_safe F tm stress_closed_R))); auto.
  - apply (p_setVoltage_post _ _ _ (tree_safe (ecm_ops (A := R)) _ _ tm n ecm_safe)); auto.
Qed.
Print Assumptions C75_parallel_setVoltage.

(** Batteries with a module. *)
Theorem C75_batteries : forall (F : fns R) tm n (b : batt R (su R (spm R) n)) (e : batt R (su R (ecmu R) n)) cs ds,
  bformed spm_usable spm_shape n b -> bformed ecm_usable ecm_shape n e ->
  Forall (badmissible (bshape spm_shape n b)) cs -> Forall (badmissible (bshape ecm_shape n e)) ds ->
  Forall defined (boutcomes (su_ops_at (spm_ops F tm) tm n) tm cs b) /\ Forall defined (boutcomes (su_ops_at ecm_ops tm n) tm ds e).
Proof.
  intros F tm n b e cs ds ((m & k & Eb & Hb) & Db) ((x & y & Ee & He) & De) A1 A2.
  apply (formed_leaf _ _ _ spm_usable_formed) in Hb. apply (formed_leaf _ _ _ ecm_usable_formed) in He.
  destruct (bformed_wf (spm_ops F tm) _ _ n b (spm_safe F tm stress_closed_R) (conj (ex_intro _ m (ex_intro _ k (conj Eb Hb))) Db)) as [W1 S1].
  destruct (bformed_wf (ecm_ops (A := R)) _ _ n e ecm_safe (conj (ex_intro _ x (ex_intro _ y (conj Ee He))) De)) as [W2 S2].
  split.
  - apply (bhistory_safe _ tm _ _ (tree_safe (spm_ops F tm) _ _ tm n (spm_safe F tm stress_closed_R))); [exact W1|now rewrite S1].
  - apply (bhistory_safe _ tm _ _ (tree_safe (ecm_ops (A := R)) _ _ tm n ecm_safe)); [exact W2|now rewrite S2].
Qed.
Print Assumptions C75_batteries.

(** ** Concrete cases *)
Lemma cell_usable cap soc i : ecm_usable (ex_cell (A := R) cap soc i).
Proof.
  split; [split; reflexivity|]. destruct (ocv_y cap soc i) as (y & Hy). unfold usable_table. rewrite ocv_x, Hy. cbn [length].
  assert (U : uniform [0; / 2; 1] 0 (/ 2)).
  { intros k a Ha. do 3 (destruct k as [|k]; [injection Ha as <-; simpl; lra|]). now destruct k. }
  repeat split; try lia; [|eauto with real].
  - apply (UtilProofs.uniform_increasing _ 0 (/ 2)); [lra|exact U].
  - intros _. exists 0, (/ 2). split; [lra|exact U].
Qed.
Definition line (a b : R) : XYdata R := mkXY [0; 1] [a; b] false.
Lemma line_usable a b : usable_table (line a b) /\ spans_unit (line a b).
Proof.
  split.
  - repeat split; cbn; try lia; try discriminate. intros i j x y Hij Hx Hy.
    destruct i as [|[|i]], j as [|[|j]]; cbn in Hx, Hy; try lia; try discriminate; try (destruct i; discriminate); try (destruct j; discriminate).
    injection Hx as <-; injection Hy as <-; lra.
  - exists 0, 1. repeat split; lra.
Qed.
(** A cell with Dai's and Laresgoiti's stress models, all degradation models and tables over the whole range. *)
Definition covered : spm R :=
  let p := toy_par (mkDeg [1; 2; 3]%Z 1 [1; 2; 3; 4; 5]%Z 2 [1; 2; 3; 4]%Z 1) in
  mkSpm (mkSpar (q_cap p) (q_lim p) (q_Tmin p) (q_Tmax p) (q_Cmaxp p) (q_Cmaxn p) (q_Celec p) (q_n p) (q_kp p) (q_kpT p) (q_kn p) (q_knT p) (q_DpT p) (q_DnT p)
           (q_Tref p) (q_Qch p) (q_rho p) (q_Cheat p) (q_L p) (q_Acell p) (q_surf p) (q_Rp p) (q_Rn p) (q_str p)
           (q_rsei p) (q_nsei p) (q_asei p) (q_OCVsei p) (q_rhosei p) (q_celec0 p) (q_Vmain p) (q_Vsei p) (q_sei p) (q_cs p)
           (q_OCVnmc p) (q_lam p) (q_npl p) (q_apl p) (q_OCVpl p) (q_rhopl p) (q_pl p)
           (q_M p) (line 4 3) (line 1 0) (line 0 0) (line (1 / 1000) 0) (q_deg p) true true (q_var p))
        (cs (toy plain 1 false)) false str0 false false 0 0 0 300.
Lemma covered_usable : spm_usable covered.
Proof. repeat split; apply line_usable. Qed.
Example C75_inhabited :
  formed ecm_usable ecm_shape 2 (ex_tree (A := R)) /\ evenly (shape_of ecm_shape 1 (ex_string (A := R))) /\
  formed spm_usable spm_shape 1 (inr (mkM (ex_rec false [1; 1] 2) [covered; covered]) : su R (spm R) 1) /\
  bformed ecm_usable ecm_shape 0 (mkBatt (Some (mkM (ex_rec true [1] 1) [cell1], hvac_make 1 1 1)) conv_make 1 1 0 0 false).
Proof.
  split; [|split; [|split]].
  - split; [cbn; unfold NSUs_MAX; lia|]. split; [reflexivity|]. split; [discriminate|].
    constructor; [|constructor; [|constructor]]; [|apply cell_usable].
    split; [cbn; unfold NSUs_MAX; lia|]. split; [reflexivity|]. split; [discriminate|].
    constructor; [|constructor; [|constructor]]; apply cell_usable.
  - cbn. split; [exists 7%nat; repeat constructor|auto].
  - split; [cbn; unfold NSUs_MAX; lia|]. split; [reflexivity|]. split; [discriminate|].
    constructor; [|constructor; [|constructor]]; apply covered_usable.
  - split.
    + do 2 eexists. split; [reflexivity|]. split; [cbn; unfold NSUs_MAX; lia|]. split; [reflexivity|]. split; [discriminate|].
      constructor; [|constructor]. apply cell_usable.
    + cbn [bt_conv conv_make v_pnom]. rewrite !R_nZ. cbn [ndiv nmul RNum].
      replace (200000 / (200 * 1000)) with (200000 / 200000) by lra.
      destruct (inverters 200000) as (z & -> & _); [lra|lra|exact Logic.I].
Qed.

(** ** Findings: units that are not well formed, and vectors and numbers that the interface accepts *)

(** A state of charge that is not a number passes the check of [setSOC]; the voltage check then reads outside the table. *)
Theorem C75_nan_refuted : exists c : ecm f64, c = u_ecm cell1 /\ snd (ecm_setSOC S754_nan true c) = UB.
Proof. eexists. split; [reflexivity|]. vm_compute. reflexivity. Qed.
Print Assumptions C75_nan_refuted.

(** Rejected states of a module of cells with zero and two RC elements are restored from a vector that is too short, although
    the caller has passed as many values as the module has states. *)
Definition cell_nrc (nrc : nat) (soc : f64) : ecmu f64 :=
  mkEu false (mkEcm (ecm_default_par nrc) (mkEst (nZ 288) soc (nZ 0) (repeat (nZ 0) nrc) (nZ 0) (nZ 0) (nZ 0))).
Theorem C75_restore_refuted : exists (m : module f64 (ecmu f64)) s,
  Forall (fun c => ecm_wf (u_ecm c)) (ms m) /\ length s = length (mod_getStates ecm_ops m) /\
  snd (mod_setStates ecm_ops s true m) = UB.
Proof.
  exists (mkM (ex_rec true [nZ 0; nZ 0] 2) [cell_nrc 0 half; cell_nrc 2 half]),
    (ecm_getStates (u_ecm (cell_nrc 0 half)) ++ ecm_getStates (u_ecm (cell_nrc 2 (nZ 2))) ++ [nZ 288]).
  split; [repeat constructor|]. split; vm_compute; reflexivity.
Qed.
Print Assumptions C75_restore_refuted.

(** [setRcontact] accepts fewer resistances than there are children; reading the voltage then leaves the array. *)
Theorem C75_contact_refuted : exists (m : module f64 (ecmu f64)),
  formed (fun c => ecm_wf (u_ecm c)) ecm_shape 1 (inr m : su f64 (ecmu f64) 1) /\
  snd (o_V (mod_ops ecm_ops 0) (mod_setRcontact [mohm] m)) = UB.
Proof.
  exists (mkM (ex_rec true [mohm; mohm] 2) [cell1; cell1]). split; [|vm_compute; reflexivity].
  split; [cbn; unfold NSUs_MAX; lia|]. split; [reflexivity|]. split; [discriminate|]. repeat constructor.
Qed.
Print Assumptions C75_contact_refuted.

(** With worker threads, the exception of a cell (here an unknown degradation model) terminates the program; with one
    thread it reaches the caller. *)
Definition unknown_model : spm f64 := Eval vm_compute in
  spm_setT (nZ 298) (w_or (spm_make w_m w_p w_n w_0 w_0 (mkDeg [9%Z] 1 [] 0 [] 0) (nZ 1) (nZ 1) (nZ 1) (nZ 1)) w_dummy).
Definition threaded (par : bool) : module f64 (spm f64) :=
  mkM (mkMod true [nZ 0; nZ 0] (cool_make 2 1) (nZ 5) (nZ 1) (nZ 0) (nZ 0) 2 (nZ 0) false par false false) [unknown_model; unknown_model].
Theorem C75_threads_refuted : exists F : fns f64,
  snd (mod_timeStep (spm_ops F 0) 0 (nZ 1) 1 (threaded false)) = Throw 106 /\
  snd (mod_timeStep (spm_ops F 0) 0 (nZ 1) 1 (threaded true)) = UB.
Proof. exists (w_fns (fun x => x) (fun x => x) (fun x _ => x)). split; vm_compute; reflexivity. Qed.
Print Assumptions C75_threads_refuted.

(** A module accepts more children than the fixed-size buffers of its algorithms hold: a parallel module then writes outside them
    when its current or voltage is set, and so does the series module whose cells accept the current. *)
Theorem C75_many_refuted : (forall (A : Type) (NA : Num A) (S : Type) (o : su_ops A S) (m : module A S) i v chk, (NSUs_MAX < length (ms m))%nat ->
    m_series (mm m) = false ->
    snd (mod_setCurrent o i chk m) = UB /\ snd (p_setVoltage o v (m_rc (mm m)) (ms m)) = UB) /\
  exists m : module f64 (ecmu f64), m = mkM (ex_rec true (repeat mohm 101) 101) (repeat cell1 101) /\
    snd (mod_setCurrent ecm_ops (nZ 1) false m) = UB.
Proof.
  split.
  - intros A NA S o m i v chk H E. apply Nat.ltb_lt in H. unfold mod_setCurrent, p_setCurrent, p_setVoltage. rewrite E, H. now split.
  - eexists. split; [reflexivity|]. vm_compute. reflexivity.
Qed.
Print Assumptions C75_many_refuted.

(** A battery without a module dereferences a null pointer in every call but those of its losses: queries, commands, steps and the
    capacity, limits, number of cells and hottest temperature. *)
Theorem C75_no_module_refuted : forall (A : Type) (NA : Num A) (S : Type) (o : su_ops A S) tm (b : batt A S), bt_body b = None ->
  (forall c : bcall A, snd (do_bcall o tm c b) = UB) /\
  batt_Cap o tm b = UB /\ batt_lim o tm b = UB /\ batt_N o tm b = UB /\ batt_Thot o tm b = UB.
Proof.
  intros A NA S o tm b H. split.
  - intros c. destruct c; cbn [do_bcall]; unfold forget, batt_V, batt_Vhigh, batt_Vlow, scaled, batt_checkV, batt_OCV, batt_Rtot, batt_I, batt_T,
      batt_getStates, batt_setCurrent, batt_setStates, batt_timeStep, batt_thermal, batt_setT, batt_setBlock, batt_coolload, on_cells, read_cells;
      rewrite H; reflexivity.
  - unfold batt_Cap, batt_lim, batt_N, batt_Thot, read_cells. rewrite H. repeat split.
Qed.
(** For the new battery in particular; taking its losses is defined. *)
Example C75_no_module_inhabited : bt_body (batt_make : batt R (ecmu R)) = None /\ snd (batt_takeLosses (batt_make : batt R (ecmu R))) = nZ 0.
Proof. split; reflexivity. Qed.
Print Assumptions C75_no_module_refuted.
