(** * A small cell over the reals for the examples of the drive cycles and pulse tests *)
From Coq Require Import Reals Lra Lia.
From Verif Require Import Base RFacts StatusModel StatusProofs UtilModel CellModel ModuleModel SpmModel SpmUnitModel SpmSpec SpmProofs SpmReal SpmAge SpmDiff
  PhysSpec PhysProofs PhysToy DriveModel DriveSpec DriveProofs DriveGitt.
Local Open Scope R_scope.

(** Functions without overpotentials; the second element of each electrode counts charge and is not seen at the surface. *)
Definition plainF : fns R := mkFns (fun _ => 1) (fun _ => 0) (fun _ _ => 1).
Definition roll_m : spm_mat R :=
  mkMat [2; 1; 1; 0] [1; 1 / 2] [0; 0] [0; 0] [0; 1] [0; 1] [[1; 0]; [1; 1 / 2]] [[1; 0]; [1; 1 / 2]] [0; 0] [0; 0] [0; 0]
        [[1; 0]; [0; 1]] [[1; 0]; [0; 1]] [].
Definition roll_par : spm_par R :=
  mkSpar 1 (mkLim 1 5 (1 / 2) 6) 200 400 2 2 1 1  1 1 1 1 1 1  300 1 1 1  1 1 1 1 1 (mkStrP 1 1 1 1 0 0)
    1 1 1 0 1 1 1 1 (mkSei 1 1 1 1 1 1 1 1 1 1 1 1 1 1 1) (mkCs 1 1 1 1 1 1 1 2)
    1 (mkLam 1 1 1 1 1 1 1 1 1 1 1)  1 1 0 1 (mkPl 1 1)
    roll_m (toy_curve 4 3) (toy_curve 1 0) (toy_curve 0 0) (toy_curve (1 / 1000) 0) plain false false (1, 1, 1, 1).
Definition roller : spm R :=
  mkSpm roll_par (mkSst 0 0 310 1 0 1 1 1 1 3 3 (1 / 2) 1 1 0 [1; 0] [1; 0] 1 1 1 (1 / 2) 0 0 0) false str0 true true 0 0 0 300.
Definition rolls (c : spm R) : Prop := kin roller c /\ exists x y, s_zp (cs c) = [1; x] /\ s_zn (cs c) = [1; y].
Lemma roller_rolls : rolls roller.
Proof. split; [repeat split|]. exists 0, 0. now split. Qed.

Lemma matter_ex2 c : kin roller c -> cs c = st_cum (st_SOC (st_V (st_z (st_I (cs roller) (s_I (cs c))) (s_zp (cs c)) (s_zn (cs c))) (s_V (cs c))) (s_SOC (cs c)))
  (s_time (cs c)) (s_Ah (cs c)) (s_Wh (cs c)).
Proof. intros (_ & _ & M). destruct (cs c). unfold matter in M. cbn in M. injection M. intros. subst. reflexivity. Qed.

Lemma roll_calc c : rolls c -> calcV plainF c = Ok (Some (301 / 100 - 2 * s_I (cs c))).
Proof.
  intros (K & x & y & Zp & Zn). pose proof (matter_ex2 c K) as S. destruct K as (P & _).
  assert (G : getCSurf plainF c = (1, 1, true)).
  { unfold getCSurf. destruct (calcDiffConstant plainF c) as [a b]. destruct (calcMolarFlux c) as [[i jp] jn]. unfold calcSurfaceConcentration.
    rewrite P, Zp, Zn. cbn [roller cp roll_par q_M roll_m m_Cp m_Cn m_Dp m_Dn nth dot]. rewrite R_nZ. cbn [nadd nmul ndiv RNum].
    unfold conc_bad. rewrite P. cbn [roller cp roll_par q_Cmaxp q_Cmaxn].
    replace (0 + 1 * 1 + 0 * x + 0 * jp / a) with 1 by (unfold Rdiv; ring). replace (0 + 1 * 1 + 0 * y + 0 * jn / b) with 1 by (unfold Rdiv; ring).
    do 1 f_equal. rewrite !R_nZ. repeat rewrite (proj2 (Rleb_false _ _)) by lra. reflexivity. }
  unfold calcV. rewrite G. cbn [negb]. rewrite P. cbn [roller cp roll_par q_OCVp q_OCVn q_dOCVtot q_Cmaxp q_Cmaxn].
  change (ndiv 1 2 : R) with (1 / 2). rewrite !toy_interp. cbn [rbind]. unfold calcOverPotential, getRdc. rewrite P.
  cbn [plainF f_asinh]. do 2 f_equal. rewrite S. cbn. unfold Rdiv. lra.
Qed.

Lemma rolls_V c c' r : spm_V plainF c = (c', r) -> rolls c -> rolls c'.
Proof.
  intros E (K & x & y & Zp & Zn). split; [exact (kin_trans _ _ _ K (kin_V _ _ _ _ E))|].
  exists x, y. destruct (spm_V_cases _ _ _ _ E) as [(-> & _)|[(-> & _)|(w & -> & _)]]; now split.
Qed.
Lemma roll_V c : rolls c -> exists c' v, spm_V plainF c = (c', Ok v) /\ rolls c' /\ s_I (cs c') = s_I (cs c).
Proof.
  intros H. destruct (spm_V plainF c) as [c' r] eqn:E. pose proof (rolls_V _ _ _ E H) as H'. pose proof E as E0. unfold spm_V in E.
  destruct (c_valid c); [injection E as <- <-; eauto|]. rewrite (roll_calc _ H) in E. injection E as <- <-. eauto.
Qed.
Lemma roll_set c i : rolls c -> Rabs i <= 1 / 2 -> exists c', spm_setCurrent plainF i true c = (c', Ok Success) /\ rolls c' /\ s_I (cs c') = i.
Proof.
  intros H Hi. assert (Hj : -1 / 2 <= i <= 1 / 2) by (revert Hi; unfold Rabs; destruct (Rcase_abs i); lra).
  unfold spm_setCurrent. set (c1 := set_valid (set_st c (st_I (cs c) i)) false).
  assert (H1 : rolls c1) by exact H. unfold spm_checkCurrent, spm_checkVoltage.
  destruct (spm_V plainF c1) as [c2 r] eqn:E. pose proof (rolls_V _ _ _ E H1) as H2. unfold spm_V in E. cbn [c_valid c1 set_valid] in E.
  rewrite (roll_calc _ H1) in E. injection E as <- <-. unfold check_voltage.
  replace (q_lim (cp c1)) with (q_lim roll_par) by (destruct H1 as ((P & _) & _); now rewrite P).
  cbn [c1 cs set_valid set_st st_I s_I roll_par q_lim l_Vmin l_Vmax]. unfold V_ABSTOL. cbn [nlit].
  rewrite (proj2 (Rleb_false _ _)) by (rewrite R_nZ; lra).
  replace (nltb _ (301 / 100 - 2 * i)) with true by (symmetry; apply Rltb_true; cbn; lra).
  replace (nltb (301 / 100 - 2 * i) _) with true by (symmetry; apply Rltb_true; cbn; lra).
  cbn [andb rmap snd]. change (isStatusBad Success) with false. cbv iota. eexists. split; [reflexivity|]. split; [exact H2|reflexivity].
Qed.
Lemma roll_step_any tm d c : 0 <= d -> rolls c -> exists c', spm_timeStep_CC plainF tm d 1 c = (c', Ok tt) /\ rolls c' /\ s_I (cs c') = s_I (cs c).
Proof.
  intros Hd H. assert (B : c_block c = true) by (destruct H as ((_ & -> & _) & _); reflexivity).
  pose proof (kin_timeStep plainF tm d 1 c B) as K.
  unfold spm_timeStep_CC in *. replace (nltb d (nZ 0)) with false in * by (symmetry; apply Rltb_false; rewrite R_nZ; lra).
  match goal with |- context [spm_steps plainF _ d ?e] => set (c1 := e) in * end. change (Z.to_nat 1) with 1%nat in *. cbn [spm_steps] in *.
  assert (H1 : rolls c1) by exact H. assert (I1 : s_I (cs c1) = s_I (cs c)) by reflexivity.
  pose proof (kin_step1 plainF d c1) as KS.
  unfold spm_step1 in *. destruct (calcDiffConstant plainF c1) as [dp dn]. destruct (calcMolarFlux c1) as [[j jp] jn].
  match goal with |- context [spm_V plainF ?e] => set (c2 := e) in * end.
  assert (H2 : rolls c2).
  { destruct H1 as (K1 & x & y & Zp & Zn). split; [exact (kin_trans _ _ _ K1 (conj eq_refl (conj eq_refl eq_refl)))|].
    subst c2. destruct K1 as (P & _). rewrite P, Zp, Zn. cbn [roller cp roll_par q_M roll_m m_Ap m_An m_Bp m_Bn dz_diff z_step].
    cbn [set_str set_valid set_st cs st_cum st_SOC st_z s_zp s_zn nadd nmul RNum]. eexists _, _. split; f_equal; ring. }
  destruct (roll_V _ H2) as (c3 & v & E & H3 & I3). rewrite E in *. cbn [fst] in K, KS. destruct KS as (_ & B3 & _). cbn [c_block set_st] in *.
  rewrite B3. change (c_block c1) with (c_block c). rewrite B. eexists. split; [reflexivity|].
  split; [|cbn [set_st cs st_cum s_I]; rewrite I3; exact I1].
  destruct H3 as (K3 & x & y & Zp & Zn). split; [exact K3|]. exists x, y. now split.
Qed.
Lemma roll_step tm c : rolls c -> exists c', spm_timeStep_CC plainF tm 1 1 c = (c', Ok tt) /\ rolls c' /\ s_I (cs c') = s_I (cs c).
Proof. apply roll_step_any. lra. Qed.

Lemma roll_drive tm k z0 z10 stop cap : forall rates c, rolls c -> Forall (fun r => Rabs (r * cap) <= 1 / 2) rates ->
  exists c' es, drive plainF tm k z0 z10 stop cap rates c = (c', Ok es) /\ rolls c' /\
    forall i e, nth_error es i = Some e -> exists r, nth_error rates i = Some r /\ e_I e = r * cap.
Proof.
  induction rates as [|r rates IH]; intros c H HF.
  - exists c, []. split; [reflexivity|]. split; [exact H|]. intros [|i] e; discriminate.
  - inversion HF as [|? ? Hr HF']; subst. destruct (roll_set c (r * cap) H Hr) as (c1 & E1 & H1 & I1). destruct (roll_V c1 H1) as (c2 & v & E2 & H2 & I2).
    destruct (roll_step tm c2 H2) as (c3 & E3 & H3 & _). destruct (IH c3 H3 HF') as (c4 & es & E4 & H4 & IE).
    cbn [drive]. unfold mbind at 1. cbn [nmul RNum]. rewrite E1. unfold mbind at 1. rewrite E2. unfold mbind at 1. rewrite R_nZ, E3.
    destruct (nltb _ stop).
    + eexists c3, _. split; [reflexivity|]. split; [exact H3|]. intros [|i] e; [|destruct i; discriminate]. intros [= <-]. exists r. split; [reflexivity|].
      unfold e_I. cbn [e_st]. now rewrite I2.
    + unfold mbind. rewrite E4. eexists c4, _. split; [reflexivity|]. split; [exact H4|]. intros [|i] e; cbn [nth_error]; [|apply IE].
      intros [= <-]. exists r. split; [reflexivity|]. unfold e_I. cbn [e_st]. now rewrite I2.
Qed.

Section Gitt.
Variable tm : Z.
Notation O := (spm_ops plainF tm).
Lemma roll_held n : forall c, rolls c -> exists l c', held O n c l c' /\ rolls c'.
Proof.
  induction n as [|n IH]; intros c H; [exists [], c; split; [constructor|exact H]|].
  destruct (roll_V c H) as (c1 & v & E1 & H1 & _). destruct (roll_step tm c1 H1) as (c2 & E2 & H2 & _). destruct (IH c2 H2) as (l & c3 & E3 & H3).
  eexists _, c3. split; [|exact H3]. eapply held_S; cbn [o_V o_timeStep spm_ops]; [exact E1| |exact E3]. rewrite R_nZ. exact E2.
Qed.
Lemma roll_seconds n : forall t c d, rolls c -> rolls d -> exists c' d' t' l, seconds O n t (c, d) = ((c', d'), Ok (t', l)) /\ rolls c' /\ rolls d'.
Proof.
  induction n as [|n IH]; intros t c d Hc Hd; [exists c, d, t, []; auto|].
  destruct (roll_V c Hc) as (c1 & v & E1 & H1 & _). destruct (roll_step tm c1 H1) as (c2 & E2 & H2 & _).
  destruct (roll_V d Hd) as (d1 & w & G1 & J1 & _). destruct (roll_step tm d1 J1) as (d2 & G2 & J2 & _).
  destruct (IH (nadd t (nZ 1)) c2 d2 H2 J2) as (c3 & d3 & t3 & l & E3 & H3 & J3).
  cbn [seconds]. unfold mbind at 1. unfold line. cbn [o_V spm_ops]. rewrite E1, G1. unfold mbind at 1. unfold both. cbn [o_timeStep spm_ops]. rewrite R_nZ in *. rewrite E2, G2.
  unfold mbind. rewrite E3. eexists c3, d3, t3, _. split; [reflexivity|auto].
Qed.
Lemma roll_pulses np nr i : Rabs i <= 1 / 2 -> forall n t c d, rolls c -> rolls d ->
  exists c' d' l, pulses O n np nr i t (c, d) = ((c', d'), Ok l) /\ rolls c' /\ rolls d'.
Proof.
  intros Hi. assert (Hm : Rabs (- i) <= 1 / 2) by now rewrite Rabs_Ropp. assert (H0 : Rabs 0 <= 1 / 2) by (rewrite Rabs_R0; lra).
  induction n as [|n IH]; intros t c d Hc Hd; [exists c, d, []; auto|].
  destruct (roll_set c (- i) Hc Hm) as (c1 & E1 & H1 & _). destruct (roll_set d i Hd Hi) as (d1 & G1 & J1 & _).
  destruct (roll_seconds np t c1 d1 H1 J1) as (c2 & d2 & t2 & l2 & E2 & H2 & J2).
  destruct (roll_set c2 0 H2 H0) as (c3 & E3 & H3 & _). destruct (roll_set d2 0 J2 H0) as (d3 & G3 & J3 & _).
  destruct (roll_seconds nr t2 c3 d3 H3 J3) as (c4 & d4 & t4 & l4 & E4 & H4 & J4).
  destruct (IH t4 c4 d4 H4 J4) as (c5 & d5 & l5 & E5 & H5 & J5).
  cbn [pulses]. unfold mbind at 1. unfold both at 1. cbn [o_setCurrent spm_ops nopp RNum]. rewrite E1, G1. unfold mbind at 1. rewrite E2.
  unfold mbind at 1. unfold both at 1. cbn [o_setCurrent spm_ops]. rewrite R_nZ, E3, G3. unfold mbind at 1. rewrite E4. unfold mbind. rewrite E5.
  eexists c5, d5, _. split; [reflexivity|auto].
Qed.
Lemma roll_planned ps : Forall (fun p => Rabs (fst p) <= 1 / 2) ps -> forall c ls c', rolls c -> runs O ps c ls c' -> as_planned ps ls.
Proof.
  induction 1 as [|[i n] ps Hi HF IH]; intros c ls c' H R; inversion R as [|? ? ? ? u1 st l u2 ls' ? E1 E2 E3]; subst; [constructor|].
  cbn [o_setCurrent spm_ops fst] in *. destruct (roll_set c i H Hi) as (c1 & E & H1 & I1). rewrite E in E1. injection E1 as <- <-.
  destruct (held_spm plainF tm _ _ _ _ E2) as (L & K & _). rewrite I1 in K.
  constructor; [now split|]. apply (IH u2 ls' c'); [|exact E3].
  clear - H1 E2. revert H1. induction E2 as [|m u v1 v u2 l u' A1 A2 _ IHh]; [auto|]. intros H. apply IHh.
  cbn [o_V o_timeStep spm_ops] in *. pose proof (rolls_V _ _ _ A1 H) as H2. rewrite R_nZ in A2. destruct (roll_step tm v1 H2) as (x & X & H3 & _). rewrite X in A2.
  injection A2 as <-. exact H3.
Qed.
End Gitt.
