(** * C76: how a single-particle cell depends on temperature *)
From Coq Require Import Reals Lra Lia.
From Verif Require Import Base RFacts StatusModel UtilModel CellModel CellSpec SpmModel SpmUnitModel SpmSpec SpmProofs SpmReal SpmAge SpmDiff
  PhysSpec PhysProofs PhysToy DegSpec DegProofs TempSpec TempProofs.
Local Open Scope R_scope.

(** Relaxation at rest: what happens at [T2] in [n] steps of [dt] happens at [T1] in [n] steps of [K dt], [K] being the Arrhenius factor of
    the activation energy of diffusion, in each electrode its own; the factor is above one if [T2] is hotter. *)
Theorem C76_time_temperature : forall (F : fns R) tm dt n c T1 T2 K c1 c2,
  exponential F -> diffusion_only tm c -> s_I (cs c) = 0 ->
  spm_timeStep_CC F tm (K * dt) (Z.of_nat n) (spm_setT T1 c) = (c1, Ok tt) ->
  spm_timeStep_CC F tm dt (Z.of_nat n) (spm_setT T2 c) = (c2, Ok tt) ->
  (K = arrhenius (q_DpT (cp c)) T1 T2 -> s_zp (cs c2) = s_zp (cs c1)) /\
  (K = arrhenius (q_DnT (cp c)) T1 T2 -> s_zn (cs c2) = s_zn (cs c1)) /\
  (forall E, 0 < E -> 0 < T1 < T2 -> 1 < arrhenius E T1 T2).
Proof.
  intros F tm dt n c T1 T2 K c1 c2 E O HI H1 H2. destruct (time_temperature F tm dt n c T1 T2 K c1 c2 E O HI H1 H2) as [A B].
  split; [exact A|]. split; [exact B|]. intros E' HE [P1 P2]. now apply arrhenius_more.
Qed.
Print Assumptions C76_time_temperature.

(** At rest the voltage depends on the temperature through the entropic coefficient only. *)
Theorem C76_rest_voltage : forall (F : fns R) c T1 T2 v1 v2, f_asinh F 0 = 0 -> s_I (cs c) = 0 -> in_range F c ->
  fresh_V F (spm_setT T1 c) = Ok v1 -> fresh_V F (spm_setT T2 c) = Ok v2 ->
  exists e, entropic F c = Ok e /\ v2 - v1 = (T2 - T1) * e.
Proof.
  intros F c T1 T2 v1 v2 Z HI Rg H1 H2.
  assert (Q : forall T v, fresh_V F (spm_setT T c) = Ok v -> exists op on e,
    XYdata_interp (q_OCVp (cp c)) (fst (surface F c) / q_Cmaxp (cp c)) true = Ok op /\
    XYdata_interp (q_OCVn (cp c)) (snd (surface F c) / q_Cmaxn (cp c)) true = Ok on /\ entropic F c = Ok e /\
    v = op - on + (T - q_Tref (cp c)) * e).
  { intros T v H. pose proof (surface_rest F c T HI) as S.
    assert (Rg' : in_range F (spm_setT T c)) by (unfold in_range in *; rewrite S; exact Rg).
    destruct (V_parts F _ _ Rg' H) as (op & on & e & A & B & C & _ & ->). rewrite S in A, B. unfold entropic in C |- *. rewrite S in C.
    exists op, on, e. split; [exact A|]. split; [exact B|]. split; [exact C|].
    change (s_T (cs (spm_setT T c))) with T. change (cp (spm_setT T c)) with (cp c). change (s_I (cs (spm_setT T c))) with (s_I (cs c)).
    rewrite eta_reduced. unfold reduced. change (s_I (cs (spm_setT T c))) with (s_I (cs c)). rewrite HI. unfold Rdiv.
    rewrite !Rmult_0_l, !Rmult_0_r, !Rmult_0_l, Z. ring. }
  destruct (Q T1 v1 H1) as (op & on & e & A & B & C & ->). destruct (Q T2 v2 H2) as (op' & on' & e' & A' & B' & C' & ->).
  exists e. split; [exact C|]. assert (op' = op) by congruence. assert (on' = on) by congruence. assert (e' = e) by congruence. subst. ring.
Qed.
Print Assumptions C76_rest_voltage.

(** Reaction kinetics: at the same current and surface concentrations the kinetic part of the voltage loss, measured in thermal voltages, is
    strictly smaller in magnitude in the hotter cell, on discharge and on charge. *)
Theorem C76_kinetics : forall (F : fns R) c d oc od vc vd, physical_functions F -> exponential F ->
  physical_cell c -> but_temperature F c d -> in_range F c -> 0 < q_kpT (cp c) -> 0 < q_knT (cp c) -> s_T (cs c) < s_T (cs d) ->
  spm_OCV F c = Ok oc -> spm_OCV F d = Ok od -> fresh_V F c = Ok vc -> fresh_V F d = Ok vd ->
  (0 < s_I (cs c) -> kinetic_loss od vd d / s_T (cs d) < kinetic_loss oc vc c / s_T (cs c)) /\
  (s_I (cs c) < 0 -> kinetic_loss oc vc c / s_T (cs c) < kinetic_loss od vd d / s_T (cs d)).
Proof.
  intros F c d oc od vc vd PF E PC BT Rg Ep En HT Oc Od Vc Vd.
  assert (Rg' : in_range F d). { destruct BT as (P & _ & _ & S). unfold in_range in *. rewrite S, P. exact Rg. }
  pose proof (pc_T _ PC) as HT0.
  assert (Q : forall x o v, in_range F x -> s_T (cs x) <> 0 -> (but_temperature F c x) -> spm_OCV F x = Ok o -> fresh_V F x = Ok v ->
    kinetic_loss o v x / s_T (cs x) = reduced F c (f_exp F (q_kpT (cp c) * arrh x)) (f_exp F (q_knT (cp c) * arrh x))).
  { intros x o v G N B O V. destruct (V_parts F x v G V) as (op & on & e & _ & _ & _ & O' & ->). rewrite O in O'. injection O' as ->.
    unfold kinetic_loss. destruct B as (P & B). rewrite eta_reduced, <- P, (reduced_same F c x) by (split; assumption).
    replace (getRdc x) with (ohms x) by (symmetry; apply rdc_ohms). field. exact N. }
  assert (BC : but_temperature F c c) by (repeat split).
  rewrite (Q c oc vc Rg) by (try assumption; lra). rewrite (Q d od vd Rg') by (try assumption; lra).
  assert (A : arrh c < arrh d).
  { rewrite !arrh_eq. destruct BT as (-> & _). unfold Rdiv. apply Rmult_lt_compat_r; [unfold gas; apply Rinv_0_lt_compat; lra|].
    rewrite !Rmult_1_l. assert (/ s_T (cs d) < / s_T (cs c)) by (apply Rinv_lt_contravar; nra). lra. }
  assert (Lp : f_exp F (q_kpT (cp c) * arrh c) < f_exp F (q_kpT (cp c) * arrh d)) by (apply PF; nra).
  assert (Ln : f_exp F (q_knT (cp c) * arrh c) < f_exp F (q_knT (cp c) * arrh d)) by (apply PF; nra).
  split; intros HI; [apply reduced_less|apply reduced_more]; try assumption; apply PF.
Qed.
Print Assumptions C76_kinetics.

(** Film growth of kinetic type (model 1), of a cell at rest in a module: the thickness grows at the rate of Tafel's law at the potential of
    the anode, with the temperature of the cell. *)
Theorem C76_film : forall (F : fns R) tm dt n c d c' u, exponential F -> f_asinh F 0 = 0 ->
  c_block c = false -> c_parent c = true -> s_I (cs c) = 0 -> d_SEI d = [1%Z] -> q_nsei (cp c) <> 0 -> q_rhosei (cp c) <> 0 ->
  spm_timeStep_CC F tm dt n (models d c) = (c', Ok tt) ->
  anode_potential F (fst (spm_timeStep_CC F tm dt n (models d (after F tm (OpBlock true) c)))) u ->
  s_delta (cs c') - s_delta (cs c) =
    tafel (sei1k (q_sei (cp c))) (sei1kT (q_sei (cp c))) (q_nsei (cp c)) (q_asei (cp c)) (q_Tref (cp c)) (s_T (cs c)) (u - q_OCVsei (cp c)) /
    q_rhosei (cp c) * (IZR n * dt).
Proof.
  intros F tm dt n c d c' u E Z NB Pa HI Hd N0 N1 H U.
  destruct (rest_run F tm dt n c d c' u Z NB Pa HI H U) as (c3 & isei & den & ism & dcs & dDn & la & ipl & Ks & _ & P & T & I3 & AG & ->).
  rewrite Hd in Ks. cbn [sei_all] in Ks. destruct (sei_one F c3 u 0 1) as [i| | |] eqn:Ei; try discriminate. apply Ok_inj in Ks. subst isei.
  unfold sei_one, eta_sei in Ei. rewrite arrh_eq, !E, gas_eq, faraday_eq, P, T, I3 in Ei. apply Ok_inj in Ei.
  assert (AD : s_delta (cs c3) = s_delta (cs c)) by (unfold ageing in AG; injection AG; intros; assumption).
  cbn [set_st cs age s_delta rates dd_delta]. rewrite R_nZ, AD, P, <- Ei, faraday_eq. cbn [nadd nsub nmul ndiv nopp RNum].
  unfold tafel. rewrite (rate_ratio _ _ (q_Tref (cp c))).
  replace (sei1kT (q_sei (cp c)) * ((1 / q_Tref (cp c) - 1 / q_Tref (cp c)) / gas)) with 0 by (unfold Rdiv; ring). rewrite exp_0.
  match goal with |- context [_ * (sei1k _ * (_ * 1)) * exp ?p] =>
    replace p with (- (q_nsei (cp c) * faraday * q_asei (cp c) * (u - q_OCVsei (cp c))) / (gas * s_T (cs c))) by (unfold Rdiv; ring) end.
  set (x := exp _). set (y := arrhenius _ _ _). clearbody x y. assert (faraday <> 0) by (unfold faraday; lra). field. repeat split; assumption.
Qed.
Print Assumptions C76_film.

(** Lithium plating of a cell at rest in a module: the same law, with the parameters of plating. *)
Theorem C76_plating : forall (F : fns R) tm dt n c d c' u, exponential F -> f_asinh F 0 = 0 ->
  c_block c = false -> c_parent c = true -> s_I (cs c) = 0 -> d_pl d = 1%Z -> q_npl (cp c) <> 0 -> q_rhopl (cp c) <> 0 ->
  spm_timeStep_CC F tm dt n (models d c) = (c', Ok tt) ->
  anode_potential F (fst (spm_timeStep_CC F tm dt n (models d (after F tm (OpBlock true) c)))) u ->
  s_dpl (cs c') - s_dpl (cs c) =
    tafel (pl1k (q_pl (cp c))) (pl1kT (q_pl (cp c))) (q_n (cp c)) (q_apl (cp c)) (q_Tref (cp c)) (s_T (cs c)) (u - q_OCVpl (cp c)) /
    q_rhopl (cp c) * (IZR n * dt).
Proof.
  intros F tm dt n c d c' u E Z NB Pa HI Hd N0 N1 H U.
  destruct (rest_run F tm dt n c d c' u Z NB Pa HI H U) as (c3 & isei & den & ism & dcs & dDn & la & ipl & _ & Ei & P & T & I3 & AG & ->).
  rewrite Hd in Ei. unfold plating_of, LiPlating in Ei. cbn [models cp cs with_models q_deg d_pl q_pl q_npl q_OCVpl q_rsei q_n q_apl] in Ei.
  change (arrh (models _ c3)) with (arrh c3) in Ei. rewrite arrh_eq, !E, gas_eq, faraday_eq, P, T, I3 in Ei. apply Ok_inj in Ei.
  assert (AD : s_dpl (cs c3) = s_dpl (cs c) /\ s_delta (cs c3) = s_delta (cs c)) by (unfold ageing in AG; injection AG; intros; now split).
  destruct AD as [AD AE].
  cbn [set_st cs age s_dpl rates dd_dpl]. rewrite R_nZ, AD, P, <- Ei, faraday_eq. cbn [nadd nsub nmul ndiv nopp RNum].
  unfold tafel. rewrite (rate_ratio _ _ (q_Tref (cp c))).
  replace (pl1kT (q_pl (cp c)) * ((1 / q_Tref (cp c) - 1 / q_Tref (cp c)) / gas)) with 0 by (unfold Rdiv; ring). rewrite exp_0.
  match goal with |- context [_ * (pl1k _ * (_ * 1)) * exp ?p] =>
    replace p with (- (q_n (cp c) * faraday * q_apl (cp c) * (u - q_OCVpl (cp c))) / (gas * s_T (cs c))) by (unfold Rdiv; ring) end.
  set (x := exp _). set (y := arrhenius _ _ _). clearbody x y. assert (faraday <> 0) by (unfold faraday; lra). field. repeat split; assumption.
Qed.
Print Assumptions C76_plating.

(** Loss of active material by the current (model 2), of a cell in a module: proportional to the Arrhenius factor of its activation energy,
    at any current. *)
Theorem C76_LAM : forall (F : fns R) tm dt n c d c', exponential F -> c_block c = false -> c_parent c = true ->
  d_LAM d = [2%Z] -> d_por d = 0%Z -> spm_timeStep_CC F tm dt n (models d c) = (c', Ok tt) ->
  let k := q_lam (cp c) in let a := arrhenius (lam2t k) (q_Tref (cp c)) (s_T (cs c)) in
  let jp := Rabs (cathode_flux c (s_I (cs c))) in let jn := Rabs (anode_flux c (s_I (cs c))) in
  s_ep (cs c') - s_ep (cs c) = a * (lam2ap k * jp + lam2bp k * sqrt jp) * (IZR n * dt) /\
  s_en (cs c') - s_en (cs c) = a * (lam2an k * jn + lam2bn k * sqrt jn) * (IZR n * dt).
Proof.
  intros F tm dt n c d c' E NB Pa Hl Hp H k a jp jn.
  destruct (proj1 (run_models _ _ _ _ _ _ _ NB) H) as (c3 & r & B & D & ->).
  destruct (before_parent F tm dt n c c3 NB Pa B) as (c2 & R2 & P2 & P & S3 & A2 & I2 & T2 & _).
  apply degr_parts in D. destruct D as (x & isei & den & ism & dcs & dDn & la & ipl & Kc & _ & Kp & _ & _ & Kl & _ & ->).
  rewrite Hp in Kp. cbn [por_of] in Kp. apply Ok_inj in Kp. subst den.
  rewrite Hl in Kl. cbn [lam_all] in Kl. destruct (lam_one F c3 _ _ 2 lam0) as [l| | |] eqn:Ei; try discriminate. apply Ok_inj in Kl. subst la.
  unfold lam_one, calcMolarFlux in Ei. rewrite arrh_eq, !E, P in Ei. apply Ok_inj in Ei. subst l.
  assert (AG : ageing c3 = ageing c) by (unfold ageing in *; rewrite S3; exact A2). unfold ageing in AG. injection AG. intros.
  assert (EI : s_I (cs c3) = s_I (cs c)) by now rewrite S3. assert (ET : s_T (cs c3) = s_T (cs c)) by now rewrite S3.
  cbn [set_st cs age s_ep s_en rates dd_ep dd_en a_ep a_en lam0]. rewrite !R_nZ.
  repeat match goal with X : ?f (cs c3) = ?f (cs c) |- _ => rewrite X; clear X end.
  rewrite (rate_ratio _ _ (q_Tref (cp c))).
  replace (lam2t (q_lam (cp c)) * ((1 / q_Tref (cp c) - 1 / q_Tref (cp c)) / gas)) with 0 by (unfold Rdiv; ring). rewrite exp_0.
  subst jp jn k. cbn [nadd nsub nmul ndiv nopp nabs nsqrt RNum]. fold a. unfold cathode_flux, anode_flux. split.
  - ring.
  - ring.
Qed.
Print Assumptions C76_LAM.

(** The hypotheses are met: the small cell of the other examples, in a module, at 300 and 310 K, with film growth, plating and loss of active
    material selected. *)
Definition hot : deg_id := mkDeg [1%Z] 0 [] 0 [2%Z] 1.
Lemma hot_degr F c : toy_like hot c -> exists q, dState_degradation F c = Ok q.
Proof.
  intros H. unfold dState_degradation.
  pose proof (toy_surface F hot c H) as S. rewrite <- surface_csc in S. pose proof (toy_range F hot c H) as G.
  destruct (calcDiffConstant F c) as [dp dn]. destruct (calcMolarFlux c) as [[i jp] jn] eqn:EM. cbn [fst snd] in S. rewrite S.
  assert (conc_bad c 1 1 = false) as ->.
  { destruct (conc_bad c 1 1) eqn:E; [|reflexivity]. exfalso. unfold in_range in G. rewrite (toy_surface F hot c H) in G.
    apply Bool.not_false_iff_true in E. apply E. apply conc_bad_spec. exact G. }
  destruct (calcOverPotential F c 1 1 i) as [ep en]. destruct H as [P _].
  rewrite P. cbn [toy_par q_OCVn q_dOCVn q_Cmaxp q_Cmaxn].
  change (ndiv 1 2 : R) with (1 / 2). rewrite !toy_interp. cbn [rbind].
  unfold SEI, CSm, LAM, LiPlating. rewrite P. cbn [toy_par q_deg].
  cbn [hot d_SEI d_por d_CS d_csdiff d_LAM d_pl sei_all sei_one cs_all cs_one lam_all lam_one rbind].
  rewrite EM. cbn [rbind]. eauto.
Qed.
Lemma hot_run F tm d dt c : d = plain \/ d = hot -> toy_like d c -> c_parent c = true -> 0 <= dt ->
  exists c', spm_timeStep_CC F tm dt 1 c = (c', Ok tt) /\ (c_block c = true -> toy_like d c').
Proof.
  intros D L0 Pa Hdt. unfold spm_timeStep_CC. rewrite R_nZ. assert (nltb dt 0 = false) as -> by (apply Rltb_false; lra).
  match goal with |- context [spm_steps F _ dt ?e] => set (c1 := e) end.
  assert (L1 : toy_like d c1) by exact L0.
  change (Z.to_nat 1) with 1%nat. cbn [spm_steps]. destruct (toy_step1 F d dt c1 L1) as (c2 & E & L2).
  pose proof (step1_passed F dt c1) as PS. rewrite E in *. cbn [fst] in PS.
  assert (c_block c2 = c_block c) as -> by (rewrite (ps_block _ _ _ _ PS); reflexivity). destruct (c_block c); [exists c2; now split|].
  unfold spm_heat_age, mbind. destruct (toy_thermal F d c2 L2) as [q Q]. rewrite Q.
  match goal with |- context [set_therm c2 ?x ?y ?z] => set (c3 := set_therm c2 x y z) end.
  assert (L3 : toy_like d c3) by exact L2.
  assert (c_parent c3 = true) as ->. { change (c_parent c3) with (c_parent c2). rewrite (ps_parent _ _ _ _ PS). exact Pa. }
  rewrite (proj1 L3). cbn [toy_par q_sdai q_slares]. rewrite (proj1 L3). cbn [toy_par q_sdai q_slares].
  assert (exists r, dState_degradation F c3 = Ok r) as [r Er].
  { destruct D as [-> | ->]; [apply (toy_degr F plain); [now left|exact L3]|now apply hot_degr]. }
  rewrite Er. eexists. split; [reflexivity|discriminate].
Qed.
Example C76_inhabited :
  exponential libm /\ physical_functions libm /\
  (let c := toy plain 0 true in diffusion_only 1 c /\ s_I (cs c) = 0 /\ in_range libm c /\
     (exists c1, spm_timeStep_CC libm 1 (arrhenius (q_DpT (cp c)) 300 310 * 1) (Z.of_nat 1) (spm_setT 300 c) = (c1, Ok tt)) /\
     (exists c2, spm_timeStep_CC libm 1 1 (Z.of_nat 1) (spm_setT 310 c) = (c2, Ok tt)) /\
     (exists v1, fresh_V libm (spm_setT 300 c) = Ok v1) /\ (exists v2, fresh_V libm (spm_setT 310 c) = Ok v2)) /\
  (let c := spm_setT 300 (toy plain 1 true) in let d := toy plain 1 true in
     physical_cell c /\ but_temperature libm c d /\ in_range libm c /\ 0 < q_kpT (cp c) /\ 0 < q_knT (cp c) /\ s_T (cs c) < s_T (cs d) /\
     0 < s_I (cs c) /\ exists oc od vc vd,
     spm_OCV libm c = Ok oc /\ spm_OCV libm d = Ok od /\ fresh_V libm c = Ok vc /\ fresh_V libm d = Ok vd) /\
  (let c := toy plain 0 true in c_block c = false /\ c_parent c = true /\ d_SEI hot = [1%Z] /\ d_pl hot = 1%Z /\ d_LAM hot = [2%Z] /\
     (exists c', spm_timeStep_CC libm 1 1 1 (models hot c) = (c', Ok tt)) /\
     anode_potential libm (fst (spm_timeStep_CC libm 1 1 1 (models hot (after libm 1 (OpBlock true) c)))) 1).
Proof.
  assert (L : forall d i T, toy_like d (spm_setT T (toy d i true))) by (intros; split; [reflexivity|]; exists 0, 0; now split).
  assert (LV : forall d i T, exists v o, fresh_V libm (spm_setT T (toy d i true)) = Ok v /\ spm_OCV libm (spm_setT T (toy d i true)) = Ok o).
  { intros d i T. destruct (toy_V libm d _ (L d i T)) as [v V].
    destruct (V_parts libm _ v (toy_range libm d _ (L d i T)) V) as (op & on & e & _ & _ & _ & O & _). eauto. }
  split; [intros x; reflexivity|]. split; [apply libm_physical|]. split; [|split].
  - cbv zeta. split; [right; split; [repeat split; constructor|now right]|]. split; [reflexivity|]. split; [apply (toy_range libm plain), toy_toy|].
    split; [|split; [|split]].
    + destruct (hot_run libm 1 plain (arrhenius (q_DpT (cp (toy plain 0 true))) 300 310 * 1) _ (or_introl eq_refl) (L plain 0 300) eq_refl) as (x & X & _); [|now exists x].
      rewrite Rmult_1_r. left. apply exp_pos.
    + destruct (hot_run libm 1 plain 1 _ (or_introl eq_refl) (L plain 0 310) eq_refl) as (x & X & _); [lra|now exists x].
    + destruct (LV plain 0 300) as (v & _ & V & _). now exists v.
    + destruct (LV plain 0 310) as (v & _ & V & _). now exists v.
  - cbv zeta. split; [split; cbn; lra|]. split.
    { repeat (split; [reflexivity|]). rewrite (toy_surface libm plain _ (L plain 1 300)). apply (toy_surface libm plain), toy_toy. }
    split; [apply (toy_range libm plain), L|]. split; [cbn; lra|]. split; [cbn; lra|]. split; [cbn; lra|]. split; [cbn; lra|].
    destruct (LV plain 1 300) as (vc & oc & A & B). destruct (LV plain 1 310) as (vd & od & A' & B').
    exists oc, od, vc, vd. repeat split; assumption.
  - cbv zeta. repeat (split; [reflexivity|]). split.
    + destruct (hot_run libm 1 hot 1 (models hot (toy plain 0 true)) (or_intror eq_refl) (toy_toy hot 0 true) eq_refl) as (x & X & _); [lra|now exists x].
    + destruct (hot_run libm 1 hot 1 (models hot (after libm 1 (OpBlock true) (toy plain 0 true))) (or_intror eq_refl) (toy_toy hot 0 true) eq_refl)
        as (x & X & L'); [lra|]. rewrite X. cbn [fst]. specialize (L' eq_refl). exists 1, 0.
      rewrite (toy_surface libm hot x L'). destruct L' as [-> _]. cbn [toy_par q_OCVn q_dOCVn q_Cmaxp q_Cmaxn fst snd].
      rewrite !toy_interp. split; [reflexivity|]. split; [reflexivity|]. ring.
Qed.
