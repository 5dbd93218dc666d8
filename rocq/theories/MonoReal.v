(** * A physics-based cell with the true exponential and inverse hyperbolic sine whose voltage falls with the current *)
From Coq Require Import Reals List Lra Lia.
From Verif Require Import Base RFacts StatusModel CellModel ModuleModel SpmModel SpmUnitModel SpmSpec SpmReal ConvProofs MonoSpec PhysToy DriveToy.
Import ListNotations.
Local Open Scope R_scope.

Definition realF : fns R := mkFns exp arcsinh Rpower.
Lemma exp_le x y : x <= y -> exp x <= exp y.
Proof. intros [H|<-]; [left; apply exp_increasing, H|right; reflexivity]. Qed.
Lemma arcsinh_slope x y : x <= y -> 0 <= arcsinh y - arcsinh x <= y - x.
Proof.
  intros [H|<-]; [|lra].
  destruct (MVT_cor2 arcsinh (fun c => / sqrt (c ^ 2 + 1)) x y H (fun c _ => derivable_pt_lim_arcsinh c)) as (c & E & _). rewrite E.
  assert (S : 1 <= sqrt (c ^ 2 + 1)). { rewrite <- sqrt_1 at 1. apply sqrt_le_1_alt. assert (0 <= c ^ 2) by (apply pow2_ge_0). lra. }
  assert (0 < / sqrt (c ^ 2 + 1) <= 1). { split; [apply Rinv_0_lt_compat; lra|]. apply Rle_trans with (/ 1); [apply Rinv_le_contravar; lra|rewrite Rinv_1; lra]. }
  split; [apply Rmult_le_pos; lra|]. rewrite <- (Rmult_1_l (y - x)) at 2. apply Rmult_le_compat_r; lra.
Qed.

(** A quarter of an ampere hour, resistance 2 and small rate constants, so that the overpotentials are visible. *)
Definition tiny_par : spm_par R :=
  mkSpar (1 / 4) (mkLim 1 5 (1 / 2) 6) 200 400 2 2 1 1  (1 / 100000) 1 (1 / 100000) 1 1 1  300 1 1 1  1 1 1 1 1 (mkStrP 1 1 1 1 0 0)
    1 1 1 0 1 1 1 1 (mkSei 1 1 1 1 1 1 1 1 1 1 1 1 1 1 1) (mkCs 1 1 1 1 1 1 1 2)
    1 (mkLam 1 1 1 1 1 1 1 1 1 1 1)  1 1 0 1 (mkPl 1 1)
    roll_m (toy_curve 4 3) (toy_curve 1 0) (toy_curve 0 0) (toy_curve (1 / 1000) 0) plain false false (1, 1, 1, 1).
Definition tiny (i : R) : spm R := mkSpm tiny_par (st_I (cs roller) i) false str0 true true 0 0 0 300.
Lemma tiny_surf i j : getCSurf realF (spm_at j (tiny i)) = (1, 1, true).
Proof.
  unfold getCSurf. destruct (calcDiffConstant realF (spm_at j (tiny i))) as [a b]. destruct (calcMolarFlux (spm_at j (tiny i))) as [[x jp] jn].
  unfold calcSurfaceConcentration.
  cbn [spm_at set_valid set_st tiny roller cp cs st_I s_zp s_zn tiny_par q_M roll_m m_Cp m_Cn m_Dp m_Dn nth dot]. rewrite R_nZ. cbn [nadd nmul ndiv RNum].
  unfold conc_bad. cbn [spm_at set_valid set_st tiny cp tiny_par q_Cmaxp q_Cmaxn].
  replace (0 + 1 * 1 + 0 * 0 + 0 * jp / a) with 1 by (unfold Rdiv; ring). replace (0 + 1 * 1 + 0 * 0 + 0 * jn / b) with 1 by (unfold Rdiv; ring).
  do 1 f_equal. rewrite !R_nZ. repeat rewrite (proj2 (Rleb_false _ _)) by lra. reflexivity.
Qed.
(** Per volt of thermal voltage and ampere: the voltage is an affine function of the current less two overpotentials. *)
Lemma tiny_calc : exists g w, 0 < g <= 1 /\ 0 < w <= 1 / 4 /\
  forall i j, calcV realF (spm_at j (tiny i)) = Ok (Some (301 / 100 + g * (arcsinh (- w * j) - arcsinh (w * j)) - 2 * j)).
Proof.
  set (E := exp (1 * ((1 / 300 - 1 / 310) / (8314 / 1000)))).
  assert (HE : 1 <= E). { unfold E. rewrite <- exp_0 at 1. apply exp_le. lra. }
  set (i0 := 1 / 100000 * E * 96487).
  assert (H0 : 9 / 10 <= i0) by (unfold i0; lra).
  exists (2 * (8314 / 1000) * 310 / 96487), (/ (6 * i0)). split; [lra|]. split.
  { split; [apply Rinv_0_lt_compat; lra|]. replace (1 / 4) with (/ 4) by field. apply Rinv_le_contravar; lra. }
  intros i j. unfold calcV. rewrite tiny_surf. cbn [negb spm_at set_valid set_st tiny cp tiny_par q_OCVp q_OCVn q_dOCVtot q_Cmaxp q_Cmaxn].
  change (ndiv 1 2 : R) with (1 / 2). rewrite !toy_interp. cbn [rbind]. unfold calcOverPotential, getRdc, arrh, RGAS, FARADAY. rewrite !R_nlit, !R_nZ.
  cbn [spm_at set_valid set_st cs cp st_I s_I s_T s_ap s_an s_thickp s_thickn s_delta s_rp s_rn s_rcc roller tiny tiny_par q_kp q_kn q_kpT q_knT q_n q_Celec
    q_Cmaxp q_Cmaxn q_Tref q_surf q_rsei f_exp f_asinh realF nadd nsub nmul ndiv nsqrt RNum].
  replace (1 * 1 * (2 - 1)) with 1 by ring. rewrite sqrt_1. change (exp (1 * ((1 / 300 - 1 / 310) / (8314 / 1000)))) with E.
  replace (1 / 100000 * E * 1 * 96487 * 1) with i0 by (unfold i0; ring).
  replace (-1 / 2 * (j / 1) / (3 * 1) / i0) with (- / (6 * i0) * j) by (field; lra).
  replace (1 / 2 * (j / 1) / (3 * 1) / i0) with (/ (6 * i0) * j) by (field; lra).
  do 2 f_equal. generalize (arcsinh (- / (6 * i0) * j)) (arcsinh (/ (6 * i0) * j)). intros u v. lra.
Qed.

Lemma tiny_slopes : exists f, f 0 = 301 / 100 /\ slopes 2 (5 / 2) f (-7 / 10) (7 / 10) /\
  forall i, -7 / 10 <= i <= 7 / 10 -> spm_window realF (1 / 2) 2 4 (tiny i) f (-7 / 10) (7 / 10).
Proof.
  destruct tiny_calc as (g & w & Hg & Hw & E). exists (fun j => 301 / 100 + g * (arcsinh (- w * j) - arcsinh (w * j)) - 2 * j).
  set (f := fun j : R => _).
  assert (F0 : f 0 = 301 / 100) by (unfold f; rewrite !Rmult_0_r, arcsinh_0; lra).
  assert (FS : slopes 2 (5 / 2) f (-7 / 10) (7 / 10)).
  { intros i j Hi Hij Hj.
    assert (W : w * i <= w * j) by (apply Rmult_le_compat_l; lra).
    assert (A := arcsinh_slope (w * i) (w * j) W). assert (B := arcsinh_slope (- w * j) (- w * i) ltac:(lra)).
    replace (f i - f j) with (2 * (j - i) + g * ((arcsinh (w * j) - arcsinh (w * i)) + (arcsinh (- w * i) - arcsinh (- w * j)))) by (unfold f; ring).
    set (x := arcsinh (w * j) - arcsinh (w * i)) in *. set (y := arcsinh (- w * i) - arcsinh (- w * j)) in *.
    assert (WJ : w * (j - i) <= 1 / 4 * (j - i)) by (apply Rmult_le_compat_r; lra).
    assert (X : 0 <= x + y <= 1 / 2 * (j - i)) by lra.
    assert (0 <= g * (x + y)) by (apply Rmult_le_pos; lra).
    assert (g * (x + y) <= 1 * (1 / 2 * (j - i))) by (apply Rmult_le_compat; lra). lra. }
  assert (FF : falls (1 / 2) (1 / 4) f (-7 / 10) (7 / 10)) by (intros i j Hi Hij Hj; destruct (FS i j Hi Hij Hj); lra).
  assert (P : forall j, -7 / 10 <= j <= 7 / 10 -> 0 < f j).
  { intros j Hj. destruct (Rle_dec j 0); [destruct (FF j 0) as [X _]|destruct (FF 0 j) as [_ X]]; try lra; rewrite F0 in X; lra. }
  split; [exact F0|]. split; [exact FS|]. intros i Hi. split.
  { intros j Hj. split; [apply P; lra|]. unfold spm_V. cbn [spm_at set_valid c_valid]. fold (spm_at j (tiny i)). rewrite E. eexists; reflexivity. }
  cbn [tiny cp tiny_par q_cap q_lim l_VMIN l_VMAX cs roller st_I s_I c_valid].
  assert (X1 := FF (-7 / 10) 0 ltac:(lra) ltac:(lra) ltac:(lra)). assert (X2 := FF 0 (7 / 10) ltac:(lra) ltac:(lra) ltac:(lra)). rewrite F0 in X1, X2.
  split; [lra|]. split; [exact FF|]. split; [lra|]. split; [lra|]. split; [lra|]. split; [discriminate|]. lra.
Qed.
Lemma tiny_window : exists f, f 0 = 301 / 100 /\ falls (1 / 2) (1 / 4) f (-7 / 10) (7 / 10) /\
  forall i, -7 / 10 <= i <= 7 / 10 -> spm_window realF (1 / 2) 2 4 (tiny i) f (-7 / 10) (7 / 10).
Proof.
  destruct tiny_slopes as (f & F0 & FS & H). exists f. split; [exact F0|]. split; [|exact H].
  intros i j Hi Hij Hj. destruct (FS i j Hi Hij Hj). lra.
Qed.
