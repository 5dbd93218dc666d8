(** * C72, C73: polarisation, heat and temperature of the single-particle cell *)
From Coq Require Import Reals Lra Rpower.
From Verif Require Import Base RFacts StatusModel UtilModel ModuleModel CellModel CellSpec SpmModel SpmUnitModel SpmSpec SpmProofs SpmReal SpmAge
  PhysSpec PhysProofs PhysToy.
Local Open Scope R_scope.

(** ** C72: the voltage *)

(** The terminal voltage is below the open circuit voltage on discharge, above it on charge, and equal to it at rest. *)
Theorem C72_polarisation : forall (F : fns R) c v, physical_functions F -> physical_cell c -> in_range F c -> fresh_V F c = Ok v ->
  exists o, spm_OCV F c = Ok o /\
    (0 < s_I (cs c) -> v < o) /\ (s_I (cs c) < 0 -> o < v) /\ (s_I (cs c) = 0 -> v = o).
Proof.
  intros F c v HF HC HR HV. destruct (V_split F c v HR HV) as (o & d & Ho & _ & ->). exists o. split; [exact Ho|].
  destruct (eta_sign F c HF HC HR) as (E1 & E2 & E3). rewrite rdc_ohms. pose proof (ohms_nonneg c HC) as HO. split; [|split]; intros HI.
  - specialize (E1 HI). nra.
  - specialize (E3 HI). nra.
  - rewrite (E2 HI), HI. ring.
Qed.
Print Assumptions C72_polarisation.

(** [getRtot] is the series connection of the film on the anode, the two electrodes and the collectors; a change of resistances or of
    the film moves the voltage by exactly minus the current times the change. *)
Theorem C72_resistance : forall (F : fns R) tm c d v w, but_resistance c d -> in_range F c ->
  fresh_V F c = Ok v -> fresh_V F d = Ok w ->
  o_Rtot (spm_ops F tm) c = Ok (ohms c) /\ w = v - s_I (cs c) * (ohms d - ohms c).
Proof.
  intros F tm c d v w B R V W. split; [cbn [o_Rtot spm_ops]; now rewrite rdc_ohms|].
  destruct (eta_but_resistance F c d B) as (_ & E & O & RR).
  destruct (V_split F c v R V) as (o & x & Ho & _ & ->). destruct (V_split F d w (proj2 RR R) W) as (o' & y & Ho' & _ & ->).
  assert (o' = o) as -> by congruence. destruct B as (_ & I1 & _). rewrite E, I1, !rdc_ohms. ring.
Qed.
Print Assumptions C72_resistance.

(** An electrode whose surface is empty or full has no voltage: [V()] returns 0, and a current that leads there is refused. *)
Theorem C72_range : forall (F : fns R) tm c i, let c1 := after F tm (OpCurrent i false) c in
  ~ in_range F c1 -> read_V F c1 = Ok 0 /\ spm_setCurrent F i true c = (c, Ok V_not_calculated).
Proof.
  intros F tm c i c1 H.
  assert (E1 : c1 = set_valid (set_st c (st_I (cs c) i)) false).
  { unfold c1, after, spm_setCurrent, spm_checkCurrent. reflexivity. }
  clearbody c1. subst c1. split; [rewrite read_V_invalid by reflexivity; now apply V_out|].
  unfold spm_setCurrent, spm_checkCurrent, spm_checkVoltage.
  pose proof (V_out F _ H) as V. rewrite <- (fresh_set_valid F _ false) in V.
  set (c1 := set_valid (set_st c (st_I (cs c) i)) false) in *.
  assert (EV : spm_V F c1 = (c1, Ok 0)).
  { assert (E : calcV F c1 = Ok None).
    { unfold calcV. assert (E : snd (getCSurf F c1) = false).
      { destruct (snd (getCSurf F c1)) eqn:E; [|reflexivity]. destruct H. now apply range_flag. }
      destruct (getCSurf F c1) as [[p n] b]. cbn [snd] in E. subst b. reflexivity. }
    unfold spm_V. change (c_valid c1) with false. rewrite E. now rewrite R_nZ. }
  rewrite EV. cbn [check_voltage]. rewrite R_nZ. assert (nleb 0 0 = true) as -> by (apply Rleb_true; lra). cbn [rmap rbind snd].
  change (isStatusBad V_not_calculated) with true. cbv iota. f_equal. destruct c as [p s ? ? ? ? ? ? ? ?]. destruct s. reflexivity.
Qed.
Print Assumptions C72_range.

(** Setting uniform concentrations: with matrices that represent a uniform profile exactly, the current is 0, the surface
    concentrations are the requested fractions, and the open circuit voltage is the difference of the electrode potentials there. *)
Theorem C72_uniform : forall (F : fns R) c fp fn i,
  0 <= fp <= 1 -> 0 <= fn <= 1 -> q_Cmaxp (cp c) <> 0 -> q_Cmaxn (cp c) <> 0 ->
  nth 3 (m_input (q_M (cp c))) 0 = INR i -> (i < length (m_xch (q_M (cp c))))%nat ->
  let m := q_M (cp c) in
  uniform_mode (m_Cp m) (m_Vp m) (m_xch m) (q_Rp (cp c)) i -> uniform_mode (m_Cn m) (m_Vn m) (m_xch m) (q_Rn (cp c)) i ->
  exists c', spm_setC fp fn c = (c', Ok tt) /\ s_I (cs c') = 0 /\
  surface F c' = (fp * q_Cmaxp (cp c), fn * q_Cmaxn (cp c)) /\
  forall op on d, XYdata_interp (q_OCVp (cp c)) fp true = Ok op -> XYdata_interp (q_OCVn (cp c)) fn true = Ok on ->
    XYdata_interp (q_dOCVtot (cp c)) fp true = Ok d ->
    spm_OCV F c' = Ok (op - on + (s_T (cs c) - q_Tref (cp c)) * d).
Proof.
  intros F c fp fn i Hp Hn Cp Cn Hi Hl m Up Un.
  destruct (setC_surface F fp fn c i Hp Hn Hi Hl Up Un) as (c' & E & Ec & EI & _ & ET & ES).
  exists c'. split; [exact E|]. split; [exact EI|]. split; [exact ES|]. intros op on d H1 H2 H3.
  unfold spm_OCV. destruct (surface_getC F c') as [b G]. rewrite G, ES, Ec, ET. cbn [fst snd].
  change (ndiv (fp * q_Cmaxp (cp c)) (q_Cmaxp (cp c))) with (fp * q_Cmaxp (cp c) / q_Cmaxp (cp c)).
  change (ndiv (fn * q_Cmaxn (cp c)) (q_Cmaxn (cp c))) with (fn * q_Cmaxn (cp c) / q_Cmaxn (cp c)).
  replace (fp * q_Cmaxp (cp c) / q_Cmaxp (cp c)) with fp by (field; exact Cp).
  replace (fn * q_Cmaxn (cp c) / q_Cmaxn (cp c)) with fn by (field; exact Cn).
  rewrite H3, H2, H1. reflexivity.
Qed.
Print Assumptions C72_uniform.

(** The first node reported by [getC] is the surface used for the voltage. *)
Theorem C72_surface_node : forall (F : fns R) c, let m := q_M (cp c) in
  m_Cp m <> [] -> m_Cn m <> [] -> m_Dp m <> [] -> m_Dn m <> [] ->
  (nth 0 (fst (getC F c)) 0, nth 0 (snd (getC F c)) 0) = surface F c.
Proof.
  intros F c m H1 H2 H3 H4. rewrite <- surface_csc. unfold getC, calcSurfaceConcentration. fold m.
  destruct (calcDiffConstant F c) as [dp dn]. destruct (calcMolarFlux c) as [[i jp] jn]. cbn [fst snd].
  destruct (m_Cp m) as [|rp ?]; [easy|]. destruct (m_Cn m) as [|rn ?]; [easy|].
  destruct (m_Dp m) as [|ep ?]; [easy|]. destruct (m_Dn m) as [|en ?]; [easy|]. reflexivity.
Qed.
Print Assumptions C72_surface_node.

(** The hypotheses of C72 hold for the small cell; the matrices represent uniform profiles. *)
Example C72_inhabited : let c := toy plain 1 true in
  physical_functions libm /\ physical_cell c /\ in_range libm c /\ (exists v, fresh_V libm c = Ok v) /\ 0 < s_I (cs c) /\
  but_resistance c (set_st c (mkSst 1 0 310 2 0 1 1 1 1 3 3 (1 / 2) 1 1 0 [1; 0] [1; 0] 1 1 1 (1 / 2) 0 0 0)) /\
  uniform_mode (m_Cp toy_m) (m_Vp toy_m) (m_xch toy_m) 1 0 /\ uniform_mode (m_Cn toy_m) (m_Vn toy_m) (m_xch toy_m) 1 0 /\
  ~ in_range libm (after libm 0 (OpCurrent 1 false) (set_st c (st_z (cs c) [2; 0] [1; 0]))).
Proof.
  split; [apply libm_physical|]. split; [apply toy_physical|]. split; [eapply toy_range, toy_toy|]. split; [eapply toy_V, toy_toy|].
  split; [cbn; lra|]. split; [repeat split|]. split; [unfold uniform_mode; cbn; lra|]. split; [unfold uniform_mode; cbn; lra|].
  intros H. unfold in_range in H. rewrite <- surface_csc in H.
  unfold calcSurfaceConcentration in H. cbn [after] in H. unfold spm_setCurrent, spm_checkCurrent in H.
  change (isStatusBad Success) with false in H. cbn [fst snd set_valid set_st cs cp st_I st_z s_zp s_zn toy toy_par q_M toy_m m_Cp m_Cn m_Dp m_Dn nth dot q_Cmaxp q_Cmaxn] in H.
  rewrite R_nZ in H. cbn [nadd nmul ndiv RNum] in H. unfold Rdiv in H. rewrite !Rmult_0_l in H. lra.
Qed.

(** ** C73: heat and temperature *)

(** The heat of one call: over the whole duration, the current times the difference between the open circuit and the terminal voltage,
    minus the entropic heat, all taken at the end of the diffusion part of the call. *)
Theorem C73_generated : forall (F : fns R) tm dt n c c', c_block c = false -> spm_timeStep_CC F tm dt n c = (c', Ok tt) ->
  let c2 := fst (spm_timeStep_CC F tm dt n (after F tm (OpBlock true) c)) in
  in_range F c2 /\ forall v, fresh_V F c2 = Ok v -> exists o d, spm_OCV F c2 = Ok o /\ entropic F c2 = Ok d /\
    total_heat c' = total_heat c + (s_I (cs c2) * (o - v) - s_I (cs c2) * s_T (cs c2) * d) * (dt * IZR n) /\
    (physical_functions F -> physical_cell c2 -> 0 <= s_I (cs c2) * (o - v)).
Proof.
  intros F tm dt n c c' NB H. destruct (timeStep_blk F tm dt n c c' H NB) as (c2 & E & HA & P1 & P2 & P3 & P4 & P5 & P6).
  change (after F tm (OpBlock true) c) with (blk true c). rewrite E. cbn [fst].
  destruct (heat_age_therm F tm dt n c2 c' HA) as (q & Eq & T). cbv zeta in T.
  destruct (thermal_eta F c2 q Eq) as (Rg & d & Ed & Hq).
  split; [exact Rg|]. intros v V. assert (fresh_V F (blk true c2) = fresh_V F c2) as BV by (rewrite !fresh_V_calc; reflexivity). rewrite BV in V.
  destruct (V_split F c2 v Rg V) as (o & d' & Ho & Ed' & Hv). exists o, d'. assert (d' = d) as -> by congruence.
  split; [exact Ho|]. split; [exact Ed|]. change (cs (blk true c2)) with (cs c2).
  assert (Hh : s_I (cs c2) * (o - v) - s_I (cs c2) * s_T (cs c2) * d = q) by (rewrite Hq, Hv; ring).
  split.
  - rewrite Hh. unfold total_heat. rewrite P3, P5 in T. destruct T as [T1 T2]. destruct (c_parent c2).
    + destruct (T1 eq_refl) as (-> & _ & -> & _). rewrite P4. ring.
    + destruct (T2 eq_refl) as (-> & _ & -> & _). rewrite P4. ring.
  - intros HF HC0. assert (HC : physical_cell c2) by (destruct HC0; now split).
    destruct (eta_sign F c2 HF HC Rg) as (E1 & E2 & E3). pose proof (ohms_nonneg c2 HC) as HO.
    rewrite Hv, rdc_ohms. destruct (Rtotal_order (s_I (cs c2)) 0) as [L|[L|L]].
    + specialize (E3 L). nra.
    + rewrite L. lra.
    + specialize (E1 L). nra.
Qed.
Print Assumptions C73_generated.

(** No other call of the interface creates or destroys heat, whatever its outcome: the thermal model only moves what is pending to
    what is booked, also when it throws. *)
Theorem C73_only_steps : forall (F : fns R) tm o c, (forall dt n, o <> OpStep dt n) -> total_heat (after F tm o c) = total_heat c.
Proof.
  intros F tm o c H.
  assert (V : forall d : spm R, total_heat (fst (spm_V F d)) = total_heat d).
  { intros d. destruct (spm_V F d) as [d' r] eqn:E. apply V_same in E. destruct E as (_ & _ & _ & _ & _ & E1 & E2 & _).
    unfold total_heat. cbn [fst]. congruence. }
  assert (CV : forall d : spm R, total_heat (fst (spm_checkVoltage F d)) = total_heat d).
  { intros d. unfold spm_checkVoltage. specialize (V d). destruct (spm_V F d). exact V. }
  destruct o; cbn [after].
  - apply V.
  - unfold spm_setCurrent, spm_checkCurrent. set (d := set_valid _ _). assert (D : total_heat d = total_heat c) by reflexivity.
    destruct chk.
    + specialize (CV d). destruct (spm_checkVoltage F d) as [c2 [[x st]|e| |]]; cbn [rmap rbind fst snd] in *; [destruct (isStatusBad st)|..];
        cbn [fst]; rewrite <- D, <- CV; reflexivity.
    + cbn [isStatusBad]. exact D.
  - unfold spm_setSOC. destruct (negb _); [reflexivity|]. destruct chk; [|reflexivity].
    set (d := set_st _ _). assert (D : total_heat d = total_heat c) by reflexivity. specialize (CV d).
    destruct (spm_checkVoltage F d) as [c2 [[y st]|e| |]]; cbn [fst] in *; [destruct (isStatusBad st)|..]; rewrite <- D, <- CV; reflexivity.
  - unfold spm_setStates. destruct (spm_read _ _ l) as [[s rest]|e| |]; try reflexivity.
    set (d := set_valid _ _). assert (D : total_heat d = total_heat c) by reflexivity. specialize (CV d).
    destruct (spm_validStates F d) as [[]|e| |]; try reflexivity. destruct chk; [|reflexivity].
    destruct (spm_checkVoltage F d) as [c2 [[y st]|e| |]]; cbn [fst] in *; [destruct (isStatusBad st)|..]; rewrite <- D, <- CV; reflexivity.
  - reflexivity.
  - unfold spm_setC. destruct (_ || _); [reflexivity|]. destruct (ntrunc _); [|reflexivity]. destruct (_ && _); reflexivity.
  - unfold spm_setTenv. destruct (_ || _); reflexivity.
  - reflexivity.
  - now destruct (H dt n).
  - unfold spm_thermal, total_heat. cbn [fst set_therm c_Q c_Qtot]. rewrite R_nZ. cbn [nadd RNum]. lra.
  - reflexivity.
  - reflexivity.
  - reflexivity.
  - unfold spm_setInitialConcentration, spm_setC. destruct (_ || _); [reflexivity|]. destruct (ntrunc _); [|reflexivity].
    destruct (_ && _); reflexivity.
  - reflexivity.
  - reflexivity.
Qed.
Print Assumptions C73_only_steps.

(** The temperature the thermal model returns. Model 1: the pending heat plus what the environment gave warms the cell. Model 2: the
    same with all neighbours. The temperature is within the cell's limits, and the pending heat and time are cleared. *)
Theorem C73_balance : forall nb tim c c' t, heat_capacity c <> 0 ->
  (spm_thermal 1 nb tim c = (c', Ok t) ->
     heat_capacity c * (t - s_T (cs c)) = c_Q c + received c [(c_Tenv c, q_Qch (cp c), q_Acell (cp c))]) /\
  (spm_thermal 2 nb tim c = (c', Ok t) ->
     heat_capacity c * (t - s_T (cs c)) = c_Q c + received c nb /\ Rabs (c_tth c - tim) <= 1) /\
  (forall tm, (tm = 1 \/ tm = 2)%Z -> spm_thermal tm nb tim c = (c', Ok t) ->
     q_Tmin (cp c) <= t <= q_Tmax (cp c) /\ c_Q c' = 0 /\ c_tth c' = 0 /\ cs c' = cs c).
Proof.
  intros nb tim c c' t HC. unfold spm_thermal.
  assert (E1 : tnew_check c (nadd (c_Q c) (nmul (nmul (nmul (q_Qch (cp c)) (q_Acell (cp c))) (nsub (c_Tenv c) (s_T (cs c)))) (c_tth c)))
             = tnew_check c (c_Q c + received c [(c_Tenv c, q_Qch (cp c), q_Acell (cp c))])).
  { f_equal. unfold received. cbn [map Rsum nadd nsub nmul RNum]. rewrite Rmin_left by lra. lra. }
  split; [|split].
  - intros H. apply pair_equal_spec in H. destruct H as [_ H]. rewrite E1 in H. apply tnew_spec in H. destruct H as [-> _]. field. exact HC.
  - intros H. apply pair_equal_spec in H. destruct H as [_ H]. cbv iota beta in H.
    destruct (nltb (nZ 1) (nabs (nsub (c_tth c) tim))) eqn:L; [discriminate|]. rewrite R_nZ in L. apply Rltb_false in L.
    rewrite neigh_received in H. apply tnew_spec in H. destruct H as [-> _]. split; [field; exact HC|exact L].
  - intros tm Htm H. apply pair_equal_spec in H. destruct H as [<- H]. cbn [set_therm c_Q c_tth cs]. rewrite R_nZ.
    split; [|repeat split]. destruct Htm as [-> | ->].
    + apply tnew_spec in H. tauto.
    + cbv iota beta in H. destruct (nltb _ _); [discriminate|]. apply tnew_spec in H. tauto.
Qed.
Print Assumptions C73_balance.

(** Without pending heat, and when the exchange coefficients are small enough for the elapsed time, the new temperature lies between
    the coldest and the hottest of the cell and its neighbours. *)
Theorem C73_between : forall nb tim c c' t lo hi, 0 < heat_capacity c -> c_Q c = 0 -> 0 <= c_tth c -> 0 <= q_Acell (cp c) ->
  lo <= s_T (cs c) <= hi -> Forall (fun '(t, k, a) => lo <= t <= hi /\ 0 <= k /\ 0 <= a) nb ->
  Rsum (map (fun '(_, k, a) => k * Rmin a (q_Acell (cp c)) * c_tth c) nb) <= heat_capacity c ->
  spm_thermal 2 nb tim c = (c', Ok t) -> lo <= t <= hi.
Proof.
  intros nb tim c c' t lo hi HC HQ Ht HA HT HF Hw H.
  destruct (C73_balance nb tim c c' t) as (_ & B & _); [lra|]. destruct (B H) as [B1 _]. rewrite HQ in B1.
  destruct (received_between c nb lo hi _ HT Ht HF HA eq_refl) as ((R1 & R2) & R3).
  set (w := Rsum _) in *. set (hc := heat_capacity c) in *. set (T := s_T (cs c)) in *. split.
  - assert (hc * (lo - T) <= hc * (t - T)) by nra. apply Rmult_le_reg_l in H0; lra.
  - assert (hc * (t - T) <= hc * (hi - T)) by nra. apply Rmult_le_reg_l in H0; lra.
Qed.
Print Assumptions C73_between.

(** Between two cells that have waited equally long, what one receives from the other the other loses. *)
Theorem C73_pairwise : forall (c d : spm R) k, c_tth d = c_tth c ->
  received c [(s_T (cs d), k, q_Acell (cp d))] = - received d [(s_T (cs c), k, q_Acell (cp c))].
Proof.
  intros c d k H. unfold received. cbn [map Rsum]. rewrite H, (Rmin_comm (q_Acell (cp d))). ring.
Qed.
Print Assumptions C73_pairwise.

(** A cell of its own (no parent), thermal model 1, after a call: heat generated during the call, pending heat and the exchange with
    the environment over the pending time and the call together give the new temperature; nothing is left pending. *)
Theorem C73_single : forall (F : fns R) dt n c c', c_block c = false -> c_parent c = false -> heat_capacity c <> 0 ->
  spm_timeStep_CC F 1 dt n c = (c', Ok tt) ->
  let c2 := fst (spm_timeStep_CC F 1 dt n (after F 1 (OpBlock true) c)) in
  heat_capacity c * (s_T (cs c') - s_T (cs c2)) =
    (total_heat c' - c_Qtot c) + q_Qch (cp c) * q_Acell (cp c) * (c_Tenv c - s_T (cs c2)) * (c_tth c + dt * IZR n) /\
  c_Q c' = 0 /\ c_tth c' = 0 /\ q_Tmin (cp c) <= s_T (cs c') <= q_Tmax (cp c).
Proof.
  intros F dt n c c' NB NP HC H. destruct (timeStep_blk F 1 dt n c c' H NB) as (c2 & E & HA & P1 & P2 & P3 & P4 & P5 & P6).
  change (after F 1 (OpBlock true) c) with (blk true c). rewrite E. cbn [fst]. change (cs (blk true c2)) with (cs c2).
  destruct (heat_age_therm F 1 dt n c2 c' HA) as (q & Eq & _ & T2). cbv zeta in T2. rewrite P2 in T2. specialize (T2 NP).
  destruct T2 as (Q1 & Q2 & Q3 & Q4). set (Q := c_Q c2 + q * dt * IZR n) in *. set (t := c_tth c2 + dt * IZR n) in *.
  set (d := set_therm c2 Q (c_Qtot c2) t) in *.
  assert (HD : heat_capacity d = heat_capacity c) by (unfold heat_capacity; change (cp d) with (cp c2); now rewrite P1).
  destruct (spm_thermal 1 _ t d) as [d' r] eqn:ED. cbn [snd] in Q4. subst r.
  destruct (C73_balance [(c_Tenv c2, q_Qch (cp c2), q_Acell (cp c2))] t d d' (s_T (cs c'))) as (B1 & _ & B3); [congruence|].
  specialize (B1 ED). destruct (B3 1%Z (or_introl eq_refl) ED) as (B4 & _).
  rewrite HD in B1. change (s_T (cs d)) with (s_T (cs c2)) in B1. change (c_Q d) with Q in B1. change (cp d) with (cp c2) in B1, B4.
  unfold received in B1. cbn [map Rsum] in B1. change (cp d) with (cp c2) in B1. change (c_Tenv d) with (c_Tenv c2) in B1.
  change (s_T (cs d)) with (s_T (cs c2)) in B1. change (c_tth d) with t in B1. rewrite Rmin_left in B1 by lra.
  rewrite P1, P6 in B1. rewrite P1 in B4. unfold t in B1. rewrite P5 in B1.
  split; [|split; [exact Q1|split; [exact Q2|exact B4]]].
  unfold total_heat. rewrite Q1, Q3, P4, B1. ring.
Qed.
Print Assumptions C73_single.

(** Finding: when the new temperature is outside the limits the model throws 9, but the pending heat and time are cleared all the
    same; the temperature stays as it was. A caller that catches the exception and goes on has lost that heat from the balance. *)
Theorem C73_lost_refuted : forall nb tim c, heat_capacity c <> 0 ->
  (let e := c_Q c + received c [(c_Tenv c, q_Qch (cp c), q_Acell (cp c))] in
   ~ (q_Tmin (cp c) <= s_T (cs c) + e / heat_capacity c <= q_Tmax (cp c))) ->
  exists c', spm_thermal 1 nb tim c = (c', Throw 9) /\ cs c' = cs c /\ c_Q c' = 0 /\ c_tth c' = 0.
Proof.
  intros nb tim c HC He. cbv zeta in He. unfold spm_thermal. set (e := c_Q c + _) in He.
  assert (E1 : nadd (c_Q c) (nmul (nmul (nmul (q_Qch (cp c)) (q_Acell (cp c))) (nsub (c_Tenv c) (s_T (cs c)))) (c_tth c)) = e).
  { unfold e, received. cbn [map Rsum nadd nsub nmul RNum]. rewrite Rmin_left by lra. lra. }
  rewrite E1, (tnew_throws c e He). eexists. split; [reflexivity|]. cbn [set_therm cs c_Q c_tth]. rewrite R_nZ. repeat split.
Qed.
Print Assumptions C73_lost_refuted.

(** The thermal model is switched off in this build (settings::T_MODEL is 0): the temperature never moves. *)
Theorem C73_off : forall (F : fns R) dt n c c', spm_timeStep_CC F 0 dt n c = (c', Ok tt) -> s_T (cs c') = s_T (cs c).
Proof.
  intros F dt n c c' H. destruct (timeStep_inv F 0 dt n c c' H) as (_ & c2 & E & C).
  assert (T2 : s_T (cs c2) = s_T (cs c)).
  { match type of E with spm_steps _ _ _ ?x = _ => change (s_T (cs c)) with (s_T (cs x)); generalize x, E end. clear.
    induction (Z.to_nat n) as [|k IH]; intros x H; [now injection H as <-|]. rewrite steps_S in H.
    pose proof (step1_passed F dt x) as P. destruct (spm_step1 F dt x) as [y r]. cbn [fst] in P.
    destruct r as [[]|e| |]; try discriminate. rewrite (IH _ H). apply P. }
  destruct C as [[_ ->]|[_ C]]; [exact T2|].
  destruct (heat_age_therm F 0 dt n c2 c' C) as (q & _ & T). cbv zeta in T. destruct T as [A B]. destruct (c_parent c2).
  - destruct (A eq_refl) as (_ & _ & _ & ->). exact T2.
  - destruct (B eq_refl) as (_ & _ & _ & K). cbn [spm_thermal snd] in K. injection K as K. rewrite <- K. exact T2.
Qed.
Print Assumptions C73_off.

(** A cell with pending heat and time, a warmer and a colder neighbour: the hypotheses of the thermal theorems. *)
Example C73_inhabited :
  (forall tm d i, d = plain \/ d = rich -> exists c', spm_timeStep_CC libm tm 1 1 (toy d i true) = (c', Ok tt)) /\
  (exists c', spm_timeStep_CC libm 1 1 1 (toy rich 0 false) = (c', Ok tt)) /\
  let c := set_therm (toy plain 1 true) 0 5 (1 / 4) in
  let nb := [(320, 1, 1); (300, 1, 2)] in
  0 < heat_capacity c /\ c_Q c = 0 /\ 300 <= s_T (cs c) <= 320 /\
  Rsum (map (fun '(_, k, a) => k * Rmin a (q_Acell (cp c)) * c_tth c) nb) <= heat_capacity c /\
  (exists c' t, spm_thermal 2 nb (1 / 4) c = (c', Ok t)) /\
  (let d := set_therm c 1000 0 1 in
   ~ (q_Tmin (cp d) <= s_T (cs d) + (c_Q d + received d [(c_Tenv d, q_Qch (cp d), q_Acell (cp d))]) / heat_capacity d <= q_Tmax (cp d))).
Proof.
  split; [intros; apply toy_run; tauto|]. split; [apply toy_run; tauto|].
  cbv zeta. unfold heat_capacity. cbn [toy set_therm cp cs toy_par q_rho q_Cheat q_L q_surf c_Q s_T q_Acell c_tth map Rsum q_Tmin q_Tmax c_Tenv q_Qch].
  split; [lra|]. split; [reflexivity|]. split; [lra|].
  split; [rewrite (Rmin_left 1 1), (Rmin_right 2 1) by lra; lra|]. split.
  - unfold spm_thermal. eexists _, _. f_equal.
    cbv iota beta. match goal with |- context [nltb (nZ 1) ?b] => assert (nltb (nZ 1) b = false) as -> end.
    { apply Rltb_false. rewrite R_nZ. cbn [nabs nsub RNum c_tth set_therm toy]. rewrite Rminus_diag_eq, Rabs_R0 by reflexivity. lra. }
    rewrite neigh_received. apply tnew_spec. split; [reflexivity|]. unfold received, heat_capacity.
    cbn [c_Q map Rsum cp q_Acell cs s_T toy c_tth toy_par q_rho q_Cheat q_L q_surf q_Tmin q_Tmax set_therm].
    rewrite (Rmin_left 1 1), (Rmin_right 2 1) by lra. lra.
  - unfold received. cbn [map Rsum toy set_therm cp cs toy_par q_Acell s_T c_tth c_Tenv q_Qch]. rewrite Rmin_left by lra. lra.
Qed.
