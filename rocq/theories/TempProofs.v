(** * Proofs for C76 *)
From Coq Require Import Reals Lra Lia.
From Verif Require Import Base RFacts StatusModel UtilModel CellModel CellSpec SpmModel SpmUnitModel SpmSpec SpmProofs SpmReal SpmAge SpmDiff
  PhysSpec PhysProofs DegSpec DegProofs TempSpec.
Local Open Scope R_scope.

Lemma arrhenius_more E T1 T2 : 0 < T1 -> T1 < T2 -> 0 < E -> 1 < arrhenius E T1 T2.
Proof.
  intros H1 H2 HE. unfold arrhenius.
  assert (H : 0 < E / gas * (1 / T1 - 1 / T2)); [|pose proof (exp_increasing _ _ H) as X; rewrite exp_0 in X; exact X].
  apply Rmult_lt_0_compat; [unfold gas; lra|]. unfold Rdiv. rewrite !Rmult_1_l. assert (/ T2 < / T1) by (apply Rinv_lt_contravar; nra). lra.
Qed.
Lemma gas_eq : (RGAS : R) = gas.
Proof. unfold RGAS, gas. now rewrite R_nlit. Qed.
Lemma faraday_eq : (FARADAY : R) = faraday.
Proof. unfold FARADAY, faraday. now rewrite R_nZ. Qed.
Lemma arrh_eq (c : spm R) : arrh c = (1 / q_Tref (cp c) - 1 / s_T (cs c)) / gas.
Proof. unfold arrh. rewrite gas_eq, R_nZ. reflexivity. Qed.
(** Rates at two temperatures *)
Lemma rate_ratio E t T1 T2 : exp (E * ((1 / t - 1 / T2) / gas)) = arrhenius E T1 T2 * exp (E * ((1 / t - 1 / T1) / gas)).
Proof. unfold arrhenius. rewrite <- exp_plus. f_equal. unfold Rdiv. ring. Qed.

Definition pf_zero (F : fns R) : Prop := f_asinh F 0 = 0.
Section Temp.
Variable F : fns R.
Implicit Types c : spm R.

Lemma pass_iter_scale n dt k D a b : forall z, pass_iter n dt (k * D) 0 a b z = pass_iter n (k * dt) D 0 a b z.
Proof.
  induction n as [|n IH]; intros z; [reflexivity|]. cbn [pass_iter]. rewrite <- IH. f_equal. clear IH.
  revert a b. induction z as [|u z IH]; intros [|x a] [|y b]; try reflexivity. cbn [z_step dz_diff]. f_equal; [|apply IH].
  cbn [nadd nmul RNum]. ring.
Qed.
Lemma rest_flux c : s_I (cs c) = 0 -> jp_of c = 0 /\ jn_of c = 0.
Proof. intros HI. unfold jp_of, jn_of, calcMolarFlux. cbn [fst snd]. rewrite HI. cbn [ndiv nmul nopp RNum]. unfold Rdiv. split; ring. Qed.
Lemma D_ratio c T1 T2 : exponential F ->
  Dp_of F (spm_setT T2 c) = arrhenius (q_DpT (cp c)) T1 T2 * Dp_of F (spm_setT T1 c) /\
  Dn_of F (spm_setT T2 c) = arrhenius (q_DnT (cp c)) T1 T2 * Dn_of F (spm_setT T1 c).
Proof.
  intros E. unfold Dp_of, Dn_of, calcDiffConstant. cbn [fst snd]. rewrite !arrh_eq, !E.
  change (cp (spm_setT T2 c)) with (cp c). change (cp (spm_setT T1 c)) with (cp c).
  change (s_T (cs (spm_setT T2 c))) with T2. change (s_T (cs (spm_setT T1 c))) with T1.
  change (s_Dp (cs (spm_setT T2 c))) with (s_Dp (cs c)). change (s_Dp (cs (spm_setT T1 c))) with (s_Dp (cs c)).
  change (s_Dn (cs (spm_setT T2 c))) with (s_Dn (cs c)). change (s_Dn (cs (spm_setT T1 c))) with (s_Dn (cs c)).
  cbn [nmul RNum]. split; rewrite (rate_ratio _ _ T1 T2); ring.
Qed.
Lemma diff_setT tm T c : diffusion_only tm c -> diffusion_only tm (spm_setT T c).
Proof. intros H. exact H. Qed.
Lemma time_temperature tm dt n c T1 T2 kp c1 c2 : exponential F -> diffusion_only tm c -> s_I (cs c) = 0 ->
  spm_timeStep_CC F tm (kp * dt) (Z.of_nat n) (spm_setT T1 c) = (c1, Ok tt) ->
  spm_timeStep_CC F tm dt (Z.of_nat n) (spm_setT T2 c) = (c2, Ok tt) ->
  (kp = arrhenius (q_DpT (cp c)) T1 T2 -> s_zp (cs c2) = s_zp (cs c1)) /\
  (kp = arrhenius (q_DnT (cp c)) T1 T2 -> s_zn (cs c2) = s_zn (cs c1)).
Proof.
  intros E O HI H1 H2. destruct (D_ratio c T1 T2 E) as [R1 R2].
  destruct (timeStep_z F _ _ _ _ _ (diff_setT tm T1 c O) H1) as (_ & _ & _ & _ & X1 & Y1).
  destruct (timeStep_z F _ _ _ _ _ (diff_setT tm T2 c O) H2) as (_ & _ & _ & _ & X2 & Y2).
  destruct (rest_flux c HI) as [J1 J2].
  change (jp_of (spm_setT T1 c)) with (jp_of c) in X1. change (jp_of (spm_setT T2 c)) with (jp_of c) in X2.
  change (jn_of (spm_setT T1 c)) with (jn_of c) in Y1. change (jn_of (spm_setT T2 c)) with (jn_of c) in Y2.
  rewrite J1 in X1, X2. rewrite J2 in Y1, Y2. rewrite X1, X2, Y1, Y2, R1, R2.
  change (cp (spm_setT T1 c)) with (cp c). change (cp (spm_setT T2 c)) with (cp c).
  change (s_zp (cs (spm_setT T1 c))) with (s_zp (cs c)). change (s_zp (cs (spm_setT T2 c))) with (s_zp (cs c)).
  change (s_zn (cs (spm_setT T1 c))) with (s_zn (cs c)). change (s_zn (cs (spm_setT T2 c))) with (s_zn (cs c)).
  split; intros ->; apply pass_iter_scale.
Qed.

(** ** The voltage *)
Lemma surface_rest c T : s_I (cs c) = 0 -> surface F (spm_setT T c) = surface F c.
Proof.
  intros HI. rewrite <- !surface_csc. unfold calcSurfaceConcentration.
  pose proof (rest_flux c HI) as [J1 J2]. unfold jp_of, jn_of in J1, J2.
  change (calcMolarFlux (spm_setT T c)) with (calcMolarFlux c). rewrite J1, J2.
  change (cp (spm_setT T c)) with (cp c). change (s_zp (cs (spm_setT T c))) with (s_zp (cs c)). change (s_zn (cs (spm_setT T c))) with (s_zn (cs c)).
  cbn [nmul ndiv nadd RNum]. f_equal; unfold Rdiv; ring.
Qed.
Lemma V_parts c v : in_range F c -> fresh_V F c = Ok v -> exists op on d,
  XYdata_interp (q_OCVp (cp c)) (fst (surface F c) / q_Cmaxp (cp c)) true = Ok op /\
  XYdata_interp (q_OCVn (cp c)) (snd (surface F c) / q_Cmaxn (cp c)) true = Ok on /\ entropic F c = Ok d /\
  spm_OCV F c = Ok (op - on + (s_T (cs c) - q_Tref (cp c)) * d) /\
  v = op - on + (s_T (cs c) - q_Tref (cp c)) * d - eta F c - getRdc c * s_I (cs c).
Proof.
  intros Rg. apply range_flag in Rg. rewrite fresh_V_calc. unfold calcV, spm_OCV, entropic, eta.
  destruct (surface_getC F c) as [b E]. rewrite E in Rg |- *. cbn [snd] in Rg. subst b. cbn [negb].
  change (ndiv (fst (surface F c)) (q_Cmaxp (cp c))) with (fst (surface F c) / q_Cmaxp (cp c)).
  change (ndiv (snd (surface F c)) (q_Cmaxn (cp c))) with (snd (surface F c) / q_Cmaxn (cp c)).
  destruct (XYdata_interp (q_dOCVtot (cp c)) _ true) as [d|?| |]; [|discriminate..]. cbn [rbind].
  destruct (XYdata_interp (q_OCVn (cp c)) _ true) as [on|?| |]; [|discriminate..]. cbn [rbind].
  destruct (XYdata_interp (q_OCVp (cp c)) _ true) as [op|?| |]; [|discriminate..]. cbn [rbind].
  change (ndiv (s_I (cs c)) (q_surf (cp c))) with (s_I (cs c) / q_surf (cp c)).
  destruct (calcOverPotential F c _ _ _) as [ep en]. intros H. injection H as <-.
  exists op, on, d. repeat (split; [reflexivity|]). unfold getRdc. cbn [nadd nsub nmul ndiv RNum]. unfold Rdiv. ring.
Qed.

(** The overpotential over the temperature, as a function of the two Arrhenius factors *)
Definition reduced c (kp kn : R) : R :=
  let i0p := q_kp (cp c) * kp * q_n (cp c) * FARADAY * sqrt (q_Celec (cp c) * fst (surface F c) * (q_Cmaxp (cp c) - fst (surface F c))) in
  let i0n := q_kn (cp c) * kn * q_n (cp c) * FARADAY * sqrt (q_Celec (cp c) * snd (surface F c) * (q_Cmaxn (cp c) - snd (surface F c))) in
  2 * RGAS / (q_n (cp c) * FARADAY) *
  (f_asinh F (1 / 2 * (s_I (cs c) / q_surf (cp c)) / (s_an (cs c) * s_thickn (cs c)) / i0n) -
   f_asinh F (-1 / 2 * (s_I (cs c) / q_surf (cp c)) / (s_ap (cs c) * s_thickp (cs c)) / i0p)).
Lemma eta_reduced c : eta F c = s_T (cs c) * reduced c (f_exp F (q_kpT (cp c) * arrh c)) (f_exp F (q_knT (cp c) * arrh c)).
Proof.
  unfold eta, reduced, calcOverPotential. cbn [nadd nsub nmul ndiv nsqrt RNum]. rewrite !R_nlit, !R_nZ. unfold Rdiv. ring.
Qed.
Lemma reduced_less c kp kn kp' kn' : physical_functions F -> physical_cell c -> in_range F c ->
  0 < kp -> kp < kp' -> 0 < kn -> kn < kn' -> 0 < s_I (cs c) -> reduced c kp' kn' < reduced c kp kn.
Proof.
  intros [Ep Ei A0 Ai] [] Rn H1 H2 H3 H4 HI. unfold in_range in Rn. unfold reduced.
  destruct (surface F c) as [cps cns]. cbn [fst snd]. destruct Rn as [[P1 P2] [N1 N2]].
  pose proof F_pos as HF. pose proof RGAS_pos as HG. set (Fa := FARADAY) in *. set (Rg := RGAS) in *. clearbody Fa Rg.
  set (sp := sqrt (q_Celec (cp c) * cps * (q_Cmaxp (cp c) - cps))). set (sn := sqrt (q_Celec (cp c) * cns * (q_Cmaxn (cp c) - cns))).
  assert (S1 : 0 < sp) by (apply sqrt_lt_R0; repeat apply Rmult_lt_0_compat; try assumption; lra).
  assert (S2 : 0 < sn) by (apply sqrt_lt_R0; repeat apply Rmult_lt_0_compat; try assumption; lra).
  clearbody sp sn.
  assert (G : forall a b x y k k', 0 < a -> 0 < b -> 0 < x -> 0 < y -> 0 < k -> k < k' ->
    / (a * k' * b * x * y) < / (a * k * b * x * y)).
  { intros a b x y k k' Ha Hb Hx Hy Hk Hk'. assert (0 < a * b * x * y) by (repeat apply Rmult_lt_0_compat; assumption).
    apply Rinv_lt_contravar; [|nra]. apply Rmult_lt_0_compat; nra. }
  assert (Q : 0 < s_I (cs c) / q_surf (cp c)) by now apply Rdiv_lt_0_compat.
  assert (U : 0 < / (s_an (cs c) * s_thickn (cs c))) by (apply Rinv_0_lt_compat, Rmult_lt_0_compat; assumption).
  assert (U' : 0 < / (s_ap (cs c) * s_thickp (cs c))) by (apply Rinv_0_lt_compat, Rmult_lt_0_compat; assumption).
  set (i := s_I (cs c) / q_surf (cp c)) in *. clearbody i.
  apply Rmult_lt_compat_l. { apply Rdiv_lt_0_compat; repeat apply Rmult_lt_0_compat; try assumption; lra. }
  pose proof (G _ _ _ _ _ _ pc_kp pc_n HF S1 H1 H2) as Gp. pose proof (G _ _ _ _ _ _ pc_kn pc_n HF S2 H3 H4) as Gn.
  unfold Rdiv in *. 
  match goal with |- f_asinh F ?a - f_asinh F ?b < f_asinh F ?a' - f_asinh F ?b' =>
    assert (L1 : a < a'); [|assert (L2 : b' < b); [|pose proof (Ai _ _ L1); pose proof (Ai _ _ L2); lra]] end.
  - apply Rmult_lt_compat_l; [|exact Gn]. apply Rmult_lt_0_compat; [|exact U]. nra.
  - set (x := / (q_kp (cp c) * kp' * _ * _ * _)) in *. set (y := / (q_kp (cp c) * kp * _ * _ * _)) in *. clearbody x y.
    assert (0 < i * / (s_ap (cs c) * s_thickp (cs c))) by (apply Rmult_lt_0_compat; assumption). nra.
Qed.
Lemma reduced_more c kp kn kp' kn' : physical_functions F -> physical_cell c -> in_range F c ->
  0 < kp -> kp < kp' -> 0 < kn -> kn < kn' -> s_I (cs c) < 0 -> reduced c kp kn < reduced c kp' kn'.
Proof.
  intros [Ep Ei A0 Ai] [] Rn H1 H2 H3 H4 HI. unfold in_range in Rn. unfold reduced.
  destruct (surface F c) as [cps cns]. cbn [fst snd]. destruct Rn as [[P1 P2] [N1 N2]].
  pose proof F_pos as HF. pose proof RGAS_pos as HG. set (Fa := FARADAY) in *. set (Rg := RGAS) in *. clearbody Fa Rg.
  set (sp := sqrt (q_Celec (cp c) * cps * (q_Cmaxp (cp c) - cps))). set (sn := sqrt (q_Celec (cp c) * cns * (q_Cmaxn (cp c) - cns))).
  assert (S1 : 0 < sp) by (apply sqrt_lt_R0; repeat apply Rmult_lt_0_compat; try assumption; lra).
  assert (S2 : 0 < sn) by (apply sqrt_lt_R0; repeat apply Rmult_lt_0_compat; try assumption; lra).
  clearbody sp sn.
  assert (G : forall a b x y k k', 0 < a -> 0 < b -> 0 < x -> 0 < y -> 0 < k -> k < k' ->
    / (a * k' * b * x * y) < / (a * k * b * x * y)).
  { intros a b x y k k' Ha Hb Hx Hy Hk Hk'. assert (0 < a * b * x * y) by (repeat apply Rmult_lt_0_compat; assumption).
    apply Rinv_lt_contravar; [|nra]. apply Rmult_lt_0_compat; nra. }
  assert (Q : s_I (cs c) / q_surf (cp c) < 0) by (assert (0 < / q_surf (cp c)) by (now apply Rinv_0_lt_compat); unfold Rdiv; nra).
  assert (U : 0 < / (s_an (cs c) * s_thickn (cs c))) by (apply Rinv_0_lt_compat, Rmult_lt_0_compat; assumption).
  assert (U' : 0 < / (s_ap (cs c) * s_thickp (cs c))) by (apply Rinv_0_lt_compat, Rmult_lt_0_compat; assumption).
  set (i := s_I (cs c) / q_surf (cp c)) in *. clearbody i.
  apply Rmult_lt_compat_l. { apply Rdiv_lt_0_compat; repeat apply Rmult_lt_0_compat; try assumption; lra. }
  pose proof (G _ _ _ _ _ _ pc_kp pc_n HF S1 H1 H2) as Gp. pose proof (G _ _ _ _ _ _ pc_kn pc_n HF S2 H3 H4) as Gn.
  unfold Rdiv in *. 
  match goal with |- f_asinh F ?a - f_asinh F ?b < f_asinh F ?a' - f_asinh F ?b' =>
    assert (L1 : a < a'); [|assert (L2 : b' < b); [|pose proof (Ai _ _ L1); pose proof (Ai _ _ L2); lra]] end.
  - set (x := / (q_kn (cp c) * kn' * _ * _ * _)) in *. set (y := / (q_kn (cp c) * kn * _ * _ * _)) in *. clearbody x y.
    assert (i * / (s_an (cs c) * s_thickn (cs c)) < 0) by nra. nra.
  - set (x := / (q_kp (cp c) * kp' * _ * _ * _)) in *. set (y := / (q_kp (cp c) * kp * _ * _ * _)) in *. clearbody x y.
    assert (i * / (s_ap (cs c) * s_thickp (cs c)) < 0) by nra. nra.
Qed.
Lemma reduced_same c d kp kn : but_temperature F c d -> reduced d kp kn = reduced c kp kn.
Proof.
  intros (P & I1 & G & S). unfold reduced. rewrite P, I1, S. unfold ageing in G. injection G; intros.
  repeat match goal with H : ?x (cs d) = ?x (cs c) |- _ => rewrite H; clear H end. reflexivity.
Qed.
Lemma ohms_same c d : but_temperature F c d -> ohms d = ohms c.
Proof.
  intros (P & I1 & G & S). unfold ohms. rewrite P. unfold ageing in G. injection G; intros.
  repeat match goal with H : ?x (cs d) = ?x (cs c) |- _ => rewrite H; clear H end. reflexivity.
Qed.

(** ** Side reactions *)
Lemma steps_T n dt : forall c, s_T (cs (fst (spm_steps F n dt c))) = s_T (cs c) /\ c_parent (fst (spm_steps F n dt c)) = c_parent c.
Proof.
  induction n as [|n IH]; intros c; [now split|]. rewrite steps_S. pose proof (step1_passed F dt c) as P.
  destruct (spm_step1 F dt c) as [c1 r]. cbn [fst] in P. destruct r as [[]|e| |]; cbn [fst];
    [destruct (IH c1) as [-> ->]; split; apply P|split; apply P..].
Qed.
Lemma pre_parent tm dt n c c3 : c_parent c = true -> pre F tm dt n c = Ok c3 -> cp c3 = cp c /\ cs c3 = cs c.
Proof.
  intros Pa. unfold pre. destruct (dState_thermal F c) as [dq|e| |]; try discriminate.
  unfold warm. match goal with |- context [c_parent ?x] => change (c_parent x) with (c_parent c) end. rewrite Pa.
  match goal with |- context [lares F (dai F ?x)] => set (c0 := x); assert (K : cp c0 = cp c /\ cs c0 = cs c) by (split; reflexivity); clearbody c0 end.
  assert (D : cp (dai F c0) = cp c /\ cs (dai F c0) = cs c).
  { unfold dai. destruct (q_sdai (cp c0)); [|exact K]. unfold updateDaiStress. destruct (getC F c0). exact K. }
  destruct (lares F (dai F c0)) as [c2 r] eqn:E. assert (L : cp c2 = cp c /\ cs c2 = cs c).
  { revert E. unfold lares. destruct (q_slares _); [|intros E; injection E as <- _; exact D].
    unfold updateLaresgoitiStress. destruct (laresgoiti F (dai F c0)); intros E; injection E as <- _; exact D. }
  destruct r; try discriminate. intros X. injection X as <-. exact L.
Qed.
Lemma before_parent tm dt n c c3 : c_block c = false -> c_parent c = true -> before F tm dt n c = Ok c3 ->
  exists c2, spm_timeStep_CC F tm dt n (after F tm (OpBlock true) c) = (blk true c2, Ok tt) /\ cp c2 = cp c /\ cp c3 = cp c /\
    cs c3 = cs c2 /\ ageing c2 = ageing c /\ s_I (cs c2) = s_I (cs c) /\ s_T (cs c2) = s_T (cs c) /\ 0 <= dt.
Proof.
  intros NB Pa H. destruct (before_blk F tm dt n c c3 NB H) as (c2 & R & Q1 & Q2 & (t & Q3) & Q4 & Q5 & Q6).
  exists c2. repeat (split; [assumption|]).
  revert R H. unfold spm_timeStep_CC, before. destruct (nltb dt (nZ 0)); [discriminate|].
  match goal with |- context [spm_steps F _ _ (set_str c ?t)] => set (s := t) end.
  change (set_str (after F tm (OpBlock true) c) _) with (blk true (set_str c s)). rewrite steps_blk.
  destruct (steps_T (Z.to_nat n) dt (set_str c s)) as [X1 X2].
  destruct (spm_steps F (Z.to_nat n) dt (set_str c s)) as [c4 [[]|e| |]]; try discriminate. cbn [fst snd] in *.
  cbn [blk c_block]. intros R H.
  assert (E : cs c4 = cs c2) by (injection R; intros; assumption).
  change (c_parent (set_str c s)) with (c_parent c) in X2. rewrite Pa in X2. destruct (pre_parent _ _ _ _ _ X2 H) as [_ Z].
  split; [congruence|]. split; [exact Q4|]. split; [exact Q5|]. split; [|exact Q6]. rewrite <- E. exact X1.
Qed.
Lemma over_rest c a b : pf_zero F -> calcOverPotential F c a b 0 = (0, 0).
Proof.
  intros Z. unfold calcOverPotential. cbn [nadd nsub nmul ndiv nsqrt RNum]. unfold Rdiv.
  rewrite !Rmult_0_r, !Rmult_0_l, Z, !Rmult_0_r. reflexivity.
Qed.
(** What the side reactions see of a cell at rest *)
Lemma context_rest c k : pf_zero F -> s_I (cs c) = 0 -> context_of F c = Ok k -> x_en k = 0 /\ anode_potential F c (x_ocv k).
Proof.
  intros Z HI. unfold context_of, anode_potential. rewrite <- surface_csc.
  destruct (calcDiffConstant F c) as [dp dn]. destruct (calcMolarFlux c) as [[i jp] jn] eqn:EM.
  assert (i = 0) as ->. { unfold calcMolarFlux in EM. injection EM as <- _ _. rewrite HI. cbn [ndiv RNum]. unfold Rdiv. ring. }
  cbn [fst snd]. destruct (calcSurfaceConcentration c jp jn dp dn) as [cps cns]. cbn [fst snd].
  destruct (conc_bad c cps cns); [discriminate|]. rewrite over_rest by exact Z.
  change (ndiv cps (q_Cmaxp (cp c))) with (cps / q_Cmaxp (cp c)). change (ndiv cns (q_Cmaxn (cp c))) with (cns / q_Cmaxn (cp c)).
  destruct (XYdata_interp (q_dOCVn (cp c)) _ true) as [e|?| |]; [|discriminate..]. cbn [rbind].
  destruct (XYdata_interp (q_OCVn (cp c)) _ true) as [o|?| |]; [|discriminate..]. cbn [rbind].
  intros H. injection H as <-. cbn [x_en x_ocv]. split; [reflexivity|]. exists o, e. now split.
Qed.
Lemma potential_unique c d u v : cp d = cp c -> cs d = cs c -> anode_potential F c u -> anode_potential F d v -> v = u.
Proof.
  intros P S (o & e & A & B & ->) (o' & e' & A' & B' & ->).
  assert (surface F d = surface F c) as X. { rewrite <- !surface_csc. unfold calcSurfaceConcentration, calcMolarFlux, calcDiffConstant, arrh. now rewrite P, S. }
  rewrite X, P in *. rewrite S. assert (o' = o) by congruence. assert (e' = e) by congruence. now subst.
Qed.
(** A run at rest in a module, split into its parts. *)
Lemma rest_run tm dt n c d c' u : pf_zero F -> c_block c = false -> c_parent c = true -> s_I (cs c) = 0 ->
  spm_timeStep_CC F tm dt n (models d c) = (c', Ok tt) ->
  anode_potential F (fst (spm_timeStep_CC F tm dt n (models d (after F tm (OpBlock true) c)))) u ->
  exists c3 isei den ism dcs dDn la ipl, sei_all F c3 u 0 (d_SEI d) 0 = Ok isei /\ plating_of F (d_pl d) c3 u 0 = Ok ipl /\
    cp c3 = cp c /\ s_T (cs c3) = s_T (cs c) /\ s_I (cs c3) = 0 /\ ageing c3 = ageing c /\
    c' = set_st (models d c3) (age (cs c3) (rates c3 isei den ism dcs dDn la ipl) dt (nZ n)).
Proof.
  intros Z NB Pa HI H U.
  destruct (proj1 (run_models _ _ _ _ _ _ _ NB) H) as (c3 & r & B & D & ->).
  destruct (before_parent tm dt n c c3 NB Pa B) as (c2 & R2 & P2 & P3 & S3 & A2 & I2 & T2 & _).
  apply degr_parts in D. destruct D as (k & isei & den & ism & dcs & dDn & la & ipl & Kc & Ks & _ & _ & _ & _ & Kp & ->).
  assert (I3 : s_I (cs c3) = 0) by (rewrite S3, I2; exact HI). destruct (context_rest c3 k Z I3 Kc) as [En Un].
  change (models d (after F tm (OpBlock true) c)) with (after F tm (OpBlock true) (models d c)) in U.
  assert (Ud : x_ocv k = u).
  { pose proof (before_models F tm dt n d c) as BM. rewrite B in BM. cbn [rmap rbind] in BM.
    destruct (before_parent tm dt n (models d c) _ NB Pa BM) as (c4 & R4 & P4 & _ & S4 & _).
    rewrite R4 in U. cbn [fst] in U. apply (potential_unique (blk true c4) (models d c3) u (x_ocv k)); [|exact S4|exact U|exact Un].
    cbn [blk cp models]. rewrite P4, P3. reflexivity. }
  rewrite En, Ud in *. exists c3, isei, den, ism, dcs, dDn, la, ipl. repeat (split; [first [assumption|congruence|idtac]|]); [|reflexivity].
  unfold ageing in *. rewrite S3. exact A2.
Qed.
End Temp.
