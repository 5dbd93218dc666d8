(** * The small cell of PhysToy.v with stresses computed, for the example of C78 *)
From Coq Require Import Reals Lra.
From Verif Require Import Base RFacts StatusModel UtilModel CellModel CellSpec SpmModel SpmUnitModel SpmSpec SpmProofs SpmReal SpmAge
  PhysSpec PhysProofs PhysToy DegSpec DegProofs LawSpec LawProofs.
Local Open Scope R_scope.

(** The same cell, computing the stress after Dai at the end of every call. *)
Definition strain (c : spm R) : spm R :=
  let p := cp c in
  set_par c (mkSpar (q_cap p) (q_lim p) (q_Tmin p) (q_Tmax p) (q_Cmaxp p) (q_Cmaxn p) (q_Celec p) (q_n p)
    (q_kp p) (q_kpT p) (q_kn p) (q_knT p) (q_DpT p) (q_DnT p) (q_Tref p) (q_Qch p) (q_rho p) (q_Cheat p)
    (q_L p) (q_Acell p) (q_surf p) (q_Rp p) (q_Rn p) (q_str p)
    (q_rsei p) (q_nsei p) (q_asei p) (q_OCVsei p) (q_rhosei p) (q_celec0 p) (q_Vmain p) (q_Vsei p) (q_sei p) (q_cs p)
    (q_OCVnmc p) (q_lam p) (q_npl p) (q_apl p) (q_OCVpl p) (q_rhopl p) (q_pl p) (q_M p)
    (q_OCVp p) (q_OCVn p) (q_dOCVn p) (q_dOCVtot p) (q_deg p) true (q_slares p) (q_var p)).
Section Toy.
Context (F : fns R).
Lemma V_strain c : spm_V F (strain c) = (strain (fst (spm_V F c)), snd (spm_V F c)).
Proof.
  unfold spm_V. change (c_valid (strain c)) with (c_valid c). change (calcV F (strain c)) with (calcV F c).
  destruct (c_valid c); [reflexivity|]. destruct (calcV F c) as [[v|]|e| |]; reflexivity.
Qed.
Lemma step1_strain dt c : spm_step1 F dt (strain c) = (strain (fst (spm_step1 F dt c)), snd (spm_step1 F dt c)).
Proof.
  unfold spm_step1. change (calcDiffConstant F (strain c)) with (calcDiffConstant F c). change (calcMolarFlux (strain c)) with (calcMolarFlux c).
  change (cs (strain c)) with (cs c). change (q_M (cp (strain c))) with (q_M (cp c)). change (q_cap (cp (strain c))) with (q_cap (cp c)).
  change (c_str (strain c)) with (c_str c).
  destruct (calcDiffConstant F c) as [dp dn]. destruct (calcMolarFlux c) as [[i jp] jn].
  match goal with |- context [spm_V F (set_str (set_valid (set_st (strain c) ?a) false) ?s)] =>
    change (set_str (set_valid (set_st (strain c) a) false) s) with (strain (set_str (set_valid (set_st c a) false) s));
    set (x := set_str (set_valid (set_st c a) false) s) end.
  rewrite V_strain. destruct (spm_V F x) as [e [v|y| |]]; reflexivity.
Qed.

(** Stress models, alone and repeated, with dissolution, kinetic cracks and slower diffusion. *)
Definition strained : deg_id := mkDeg [] 0 [2; 3; 4; 5; 2]%Z 1 [1; 3; 1]%Z 1.
Lemma strained_run i : exists c', spm_timeStep_CC F 0 1 1 (models strained (strain (toy plain i true))) = (c', Ok tt).
Proof.
  assert (L3 : exists c3 c2, before F 0 1 1 (strain (toy plain i true)) = Ok c3 /\ toy_like plain c2 /\ cp c3 = cp (strain c2) /\ cs c3 = cs c2 /\ t_dai_up (c_str c3) = true).
  { unfold before. rewrite R_nZ. assert (nltb 1 0 = false) as -> by (apply Rltb_false; lra).
    match goal with |- context [spm_steps F _ 1 (set_str (strain ?x) ?t)] => change (set_str (strain x) t) with (strain (set_str x t)); set (c1 := set_str x t) end.
    assert (L1 : toy_like plain c1) by (split; [reflexivity|]; exists 0, 0; now split).
    change (Z.to_nat 1) with 1%nat. cbn [spm_steps]. rewrite step1_strain. destruct (toy_step1 F plain 1 c1 L1) as (c2 & E & L2).
    pose proof (step1_passed F 1 c1) as PS. rewrite E in *. cbn [fst snd] in *.
    unfold pre. change (dState_thermal F (strain c2)) with (dState_thermal F c2). destruct (toy_thermal F plain c2 L2) as [q ->].
    unfold warm. match goal with |- context [if c_parent ?x then _ else _] => set (c4 := x); assert (c_parent c4 = true) as -> by exact (ps_parent _ _ _ _ PS) end.
    assert (P4 : cp c4 = cp (strain c2)) by reflexivity. assert (S4 : cs c4 = cs c2) by reflexivity. clearbody c4. cbv iota.
    unfold dai. rewrite P4. change (q_sdai (cp (strain c2))) with true. cbv iota. unfold updateDaiStress. destruct (getC F c4) as [u v].
    unfold lares. cbn [set_str cp]. rewrite P4. change (q_slares (cp (strain c2))) with (q_slares (cp c2)). rewrite (proj1 L2). cbn [toy_par q_slares].
    eexists _, c2. split; [reflexivity|]. split; [exact L2|]. cbn [set_str cp cs c_str t_dai_up]. now split. }
  destruct L3 as (c3 & c2 & B & L2 & P3 & S3 & U).
    assert (D : exists r, dState_degradation F (models strained c3) = Ok r).
    { unfold dState_degradation. pose proof (toy_surface F plain c2 L2) as S. rewrite <- surface_csc in S. pose proof (toy_range F plain c2 L2) as G.
      change (calcDiffConstant F (models strained c3)) with (calcDiffConstant F c3). change (calcMolarFlux (models strained c3)) with (calcMolarFlux c3).
      assert (calcDiffConstant F c3 = calcDiffConstant F c2) as -> by (unfold calcDiffConstant, arrh; now rewrite P3, S3).
      assert (EM : calcMolarFlux c3 = calcMolarFlux c2) by (unfold calcMolarFlux; now rewrite P3, S3). rewrite EM.
      destruct (calcDiffConstant F c2) as [dp dn]. destruct (calcMolarFlux c2) as [[i0 jp] jn]. cbn [fst snd] in S.
      assert (calcSurfaceConcentration (models strained c3) jp jn dp dn = (1, 1)) as ->.
      { rewrite <- S. unfold calcSurfaceConcentration. cbn [models cp cs with_models q_M]. now rewrite P3, S3. }
      assert (conc_bad (models strained c3) 1 1 = false) as ->.
      { apply conc_bad_spec. cbn [models cp with_models q_Cmaxp q_Cmaxn]. rewrite P3. unfold strain. cbn [set_par cp q_Cmaxp q_Cmaxn]. rewrite (proj1 L2). cbn. lra. }
      destruct (calcOverPotential F (models strained c3) 1 1 i0) as [ep en].
      cbn [models cp cs with_models q_OCVn q_dOCVn q_Cmaxp q_Cmaxn]. rewrite P3. unfold strain. cbn [set_par cp q_Cmaxp q_Cmaxn q_dOCVn q_OCVn]. rewrite (proj1 L2).
      cbn [toy_par q_OCVn q_dOCVn q_Cmaxp q_Cmaxn]. change (ndiv 1 2 : R) with (1 / 2). rewrite !toy_interp. cbn [rbind].
      unfold SEI, CSm, LAM, LiPlating. cbn [models cp cs with_models q_deg strained d_SEI d_por d_CS d_csdiff d_LAM d_pl sei_all rbind].
      cbn [cs_all cs_one]. change (c_str (models strained c3)) with (c_str c3). rewrite U. cbn [negb rbind].
      destruct (getC F (models strained c3)) as [gp gn]. destruct (getCSurf F (models strained c3)) as [[gs gt] gb]. cbn [rbind].
      cbn [lam_all lam_one]. change (c_str (models strained c3)) with (c_str c3). rewrite U. cbn [negb rbind].
      cbn [models cp with_models q_OCVp]. rewrite P3. unfold strain. cbn [set_par cp q_OCVp]. rewrite (proj1 L2). cbn [toy_par q_OCVp].
      rewrite toy_interp. cbn [rbind]. eauto. }
    destruct D as [r Dr]. eexists. apply run_models; [reflexivity|]. exists c3, r. split; [exact B|]. split; [exact Dr|reflexivity].
Qed.
End Toy.
