(** * A small concrete cell over the reals, for the examples of C72, C73 and C74 *)
From Coq Require Import Reals Lra Rpower.
From Verif Require Import Base RFacts StatusModel UtilModel CellModel CellSpec SpmModel SpmUnitModel SpmSpec SpmProofs SpmReal SpmAge
  PhysSpec PhysProofs.
Local Open Scope R_scope.

(** The mathematical functions, and a small cell with two nodes per electrode, discharging at 1 A. *)
Definition libm : fns R := mkFns exp arcsinh Rpower.
Definition toy_curve (a b : R) : XYdata R := mkXY [1 / 2; 1] [a; b] false.
Definition toy_m : spm_mat R :=
  mkMat [2; 1; 1; 0] [1; 1 / 2] [0; -1] [0; -2] [0; 1] [0; 1] [[1; 0]; [1; 1 / 2]] [[1; 0]; [1; 1 / 2]] [1; 1] [0; 0] [0; 0]
        [[1; 0]; [0; 1]] [[1; 0]; [0; 1]] [].
Definition toy_par (d : deg_id) : spm_par R :=
  mkSpar 1 (mkLim 1 5 (1 / 2) 6) 200 400 2 2 1 1  1 1 1 1 1 1  300 1 1 1  1 1 1 1 1 (mkStrP 1 1 1 1 0 0)
    1 1 1 0 1 1 1 1 (mkSei 1 1 1 1 1 1 1 1 1 1 1 1 1 1 1) (mkCs 1 1 1 1 1 1 1 2)
    1 (mkLam 1 1 1 1 1 1 1 1 1 1 1)  1 1 0 1 (mkPl 1 1)
    toy_m (toy_curve 4 3) (toy_curve 1 0) (toy_curve 0 0) (toy_curve (1 / 1000) 0) d false false (1, 1, 1, 1).
Definition toy (d : deg_id) (i : R) (par : bool) : spm R :=
  mkSpm (toy_par d) (mkSst i 0 310 1 0 1 1 1 1 3 3 (1 / 2) 1 1 0 [1; 0] [1; 0] 1 1 1 (1 / 2) 0 0 0)
        false str0 false par 0 0 0 300.
Definition plain : deg_id := mkDeg [] 0 [] 0 [] 0.
Definition rich : deg_id := mkDeg [1; 2]%Z 1 [4]%Z 1 [2; 4]%Z 1.
(** The cell at other concentrations of the second mode. *)
Definition toy_like (d : deg_id) (c : spm R) : Prop :=
  cp c = toy_par d /\ exists x y, s_zp (cs c) = [1; x] /\ s_zn (cs c) = [1; y].
Lemma libm_physical : physical_functions libm.
Proof. split; cbn; [apply exp_pos|apply exp_increasing|apply arcsinh_0|intros; now apply arcsinh_lt]. Qed.
Lemma toy_physical d i par : physical_cell (toy d i par).
Proof. split; cbn; lra. Qed.
Lemma toy_toy d i par : toy_like d (toy d i par).
Proof. split; [reflexivity|]. exists 0, 0. now split. Qed.
Lemma toy_surface F d c : toy_like d c -> surface F c = (1, 1).
Proof.
  intros (P & x & y & Zp & Zn). rewrite <- surface_csc. unfold calcSurfaceConcentration.
  rewrite P, Zp, Zn. cbn [toy_par q_M toy_m m_Cp m_Cn m_Dp m_Dn nth dot].
  rewrite R_nZ. cbn [nadd nmul ndiv RNum]. unfold Rdiv. f_equal; ring.
Qed.
Lemma toy_range F d c : toy_like d c -> in_range F c.
Proof. intros H. unfold in_range. rewrite (toy_surface F d c H). destruct H as [-> _]. cbn. lra. Qed.
Lemma toy_interp a b : XYdata_interp (toy_curve a b) (1 / 2) true = Ok a.
Proof.
  unfold XYdata_interp, linInt, linInt_noexcept, toy_curve. cbn [xy_x xy_y xy_fixed length].
  change (vget [1 / 2; 1] 0) with (Ok (1 / 2)). change (vget [1 / 2; 1] (Z.of_nat 2 - 1)) with (Ok 1). cbn [rbind andb].
  assert (nltb (1 / 2) (1 / 2) = false) as -> by (apply Rltb_false; lra).
  assert (nltb 1 (1 / 2) = false) as -> by (apply Rltb_false; lra).
  assert (nleb (1 / 2) (1 / 2) = true) as -> by (apply Rleb_true; lra). reflexivity.
Qed.
Lemma toy_calc F d c : toy_like d c -> exists v, calcV F c = Ok (Some v).
Proof.
  intros H. unfold calcV. destruct (surface_getC F c) as [b E].
  assert (b = true) as -> by (pose proof (proj2 (range_flag F c) (toy_range F d c H)) as G; now rewrite E in G).
  rewrite E, (toy_surface F d c H). cbn [negb fst snd]. destruct H as [-> _]. cbn [toy_par q_OCVp q_OCVn q_dOCVtot q_Cmaxp q_Cmaxn].
  change (ndiv 1 2 : R) with (1 / 2). rewrite !toy_interp. cbn [rbind].
  destruct (calcOverPotential _ _ _ _) as [ep en]. eauto.
Qed.
Lemma toy_V F d c : toy_like d c -> exists v, fresh_V F c = Ok v.
Proof. intros H. rewrite fresh_V_calc. destruct (toy_calc F d c H) as [v ->]. eauto. Qed.

Lemma toy_step1 F d dt c : toy_like d c -> exists c', spm_step1 F dt c = (c', Ok tt) /\ toy_like d c'.
Proof.
  intros H. unfold spm_step1. destruct H as (P & x & y & Zp & Zn). rewrite P, Zp, Zn. cbn [toy_par q_M toy_m m_Ap m_An m_Bp m_Bn].
  destruct (calcDiffConstant F c) as [dp dn]. destruct (calcMolarFlux c) as [[i jp] jn].
  cbn [dz_diff z_step].
  match goal with |- context [spm_V F ?e] => set (c1 := e) end.
  assert (L : toy_like d c1).
  { split; [exact P|]. subst c1. cbn [set_str set_valid set_st cs st_cum st_SOC st_z s_zp s_zn nadd nmul RNum].
    eexists _, _. split; f_equal; ring. }
  assert (cp c1 = cp c) as Pc by reflexivity. clearbody c1.
  destruct (spm_V F c1) as [c2 r] eqn:E.
  assert (r = Ok (snd (c2, match r with Ok v => v | _ => 0 end))) as Er.
  { unfold spm_V in E. destruct (c_valid c1); [now injection E as <- <-|]. destruct (toy_calc F d c1 L) as [v V]. rewrite V in E.
    now injection E as <- <-. }
  destruct (V_same F _ _ _ E) as (V1 & (w & V2) & _).
  destruct r as [v|e| |]; try discriminate Er. eexists. split; [reflexivity|].
  destruct L as (_ & x' & y' & Zp' & Zn'). split; [cbn [set_st cp]; congruence|]. exists x', y'. cbn [set_st cs st_cum s_zp s_zn]. rewrite V2. cbn [st_V s_zp s_zn]. now split.
Qed.
Lemma toy_thermal F d c : toy_like d c -> exists q, dState_thermal F c = Ok q.
Proof.
  intros H. destruct (toy_calc F d c H) as [v V]. unfold dState_thermal.
  pose proof (toy_surface F d c H) as S. rewrite <- surface_csc in S. pose proof (toy_range F d c H) as G.
  destruct (calcDiffConstant F c) as [dp dn]. destruct (calcMolarFlux c) as [[i jp] jn]. cbn [fst snd] in S. rewrite S.
  assert (conc_bad c 1 1 = false) as ->.
  { destruct (conc_bad c 1 1) eqn:E; [|reflexivity]. exfalso. unfold in_range in G. rewrite (toy_surface F d c H) in G.
    apply Bool.not_false_iff_true in E. apply E. apply conc_bad_spec. exact G. }
  destruct (calcOverPotential F c 1 1 i) as [ep en]. destruct H as [-> _]. cbn [toy_par q_dOCVtot q_Cmaxp].
  change (ndiv 1 2 : R) with (1 / 2). rewrite toy_interp. cbn [rbind]. eauto.
Qed.
Lemma toy_degr F d c : d = plain \/ d = rich -> toy_like d c -> exists q, dState_degradation F c = Ok q.
Proof.
  intros D H. unfold dState_degradation.
  pose proof (toy_surface F d c H) as S. rewrite <- surface_csc in S. pose proof (toy_range F d c H) as G.
  destruct (calcDiffConstant F c) as [dp dn]. destruct (calcMolarFlux c) as [[i jp] jn] eqn:EM. cbn [fst snd] in S. rewrite S.
  assert (conc_bad c 1 1 = false) as ->.
  { destruct (conc_bad c 1 1) eqn:E; [|reflexivity]. exfalso. unfold in_range in G. rewrite (toy_surface F d c H) in G.
    apply Bool.not_false_iff_true in E. apply E. apply conc_bad_spec. exact G. }
  destruct (calcOverPotential F c 1 1 i) as [ep en]. destruct H as [P _].
  rewrite P. cbn [toy_par q_OCVn q_dOCVn q_Cmaxp q_Cmaxn].
  change (ndiv 1 2 : R) with (1 / 2). rewrite !toy_interp. cbn [rbind].
  unfold SEI, CSm, LAM, LiPlating. rewrite P. cbn [toy_par q_deg]. destruct D as [-> | ->].
  - cbn [plain d_SEI d_por d_CS d_csdiff d_LAM d_pl sei_all cs_all lam_all rbind]. eauto.
  - cbn [rich d_SEI d_por d_CS d_csdiff d_LAM d_pl sei_all sei_one cs_all cs_one lam_all lam_one rbind].
    rewrite EM. cbn [rbind]. eauto.
Qed.
(** A call on a cell inside a module succeeds, whatever the current; so does one on a cell at rest of its own. *)
Lemma toy_run F tm d i par : d = plain \/ d = rich ->
  (par = true \/ (tm = 1%Z /\ i = 0)) -> exists c', spm_timeStep_CC F tm 1 1 (toy d i par) = (c', Ok tt).
Proof.
  intros D HP. unfold spm_timeStep_CC. rewrite R_nZ. assert (nltb 1 0 = false) as -> by (apply Rltb_false; lra).
  match goal with |- context [spm_steps F _ 1 ?e] => set (c1 := e) end.
  assert (L1 : toy_like d c1) by (split; [reflexivity|]; exists 0, 0; now split).
  change (Z.to_nat 1) with 1%nat. cbn [spm_steps]. destruct (toy_step1 F d 1 c1 L1) as (c2 & E & L2).
  pose proof (step1_passed F 1 c1) as PS. pose proof (step1_therm F 1 c1) as PT. rewrite E in *. cbn [fst] in PS, PT.
  assert (c_block c2 = false) as -> by (rewrite (ps_block _ _ _ _ PS); reflexivity).
  unfold spm_heat_age, mbind. destruct (toy_thermal F d c2 L2) as [q Q]. rewrite Q.
  match goal with |- context [set_therm c2 ?x ?y ?z] => set (c3 := set_therm c2 x y z) end.
  assert (T : exists c4, (if c_parent c3 then (c3, Ok tt)
     else match spm_thermal tm [(c_Tenv c3, q_Qch (cp c3), q_Acell (cp c3))] (c_tth c3) c3 with
          | (c', Ok t) => (spm_setT t c', Ok tt) | (c', Throw n) => (c', Throw n) | (c', UB) => (c', UB) | (c', Fuel) => (c', Fuel)
          end) = (c4, Ok tt) /\ toy_like d c4).
  { change (c_parent c3) with (c_parent c2). rewrite (ps_parent _ _ _ _ PS). change (c_parent c1) with par. destruct par.
    - exists c3. split; [reflexivity|]. exact L2.
    - destruct HP as [HP|[-> ->]]; [discriminate|].
      destruct (thermal_eta F c2 q Q) as (_ & e & _ & Hq). rewrite (ps_I _ _ _ _ PS) in Hq. change (s_I (cs c1)) with 0 in Hq.
      assert (q = 0) as -> by (rewrite Hq; ring). destruct PT as (PT1 & PT2 & PT3 & PT4).
      unfold spm_thermal.
      assert (K : forall z, 200 <= 310 + z <= 400 -> tnew_check c3 z = Ok (310 + z)).
      { intros z Hz. apply tnew_spec. unfold heat_capacity. change (cp c3) with (cp c2). change (cs c3) with (cs c2).
        rewrite (ps_T _ _ _ _ PS). destruct L2 as [-> _]. cbn [toy_par q_rho q_Cheat q_L q_surf q_Tmin q_Tmax].
        change (s_T (cs c1)) with 310. split; lra. }
      rewrite K.
      + eexists. split; [reflexivity|]. exact L2.
      + change (cp c3) with (cp c2). change (cs c3) with (cs c2). rewrite (ps_T _ _ _ _ PS). destruct L2 as [-> _].
        unfold c3. cbn [set_therm c_Q c_tth c_Tenv toy_par q_Qch q_Acell]. rewrite PT1, PT3, PT4. rewrite !R_nZ.
        change (s_T (cs c1)) with 310. change (c_Q c1) with 0. change (c_tth c1) with 0. change (c_Tenv c1) with 300.
        cbn [nadd nmul nsub RNum]. lra. }
  destruct T as (c4 & E4 & L4). rewrite E4. rewrite (proj1 L4). cbn [toy_par q_sdai q_slares].
  rewrite (proj1 L4). cbn [toy_par q_sdai q_slares].
  destruct (toy_degr F d c4 D L4) as [r Er]. rewrite Er. eauto.
Qed.
