(** * Lemmas: polarisation, heat and temperature of the single-particle cell *)
From Coq Require Import Reals Lra.
From Verif Require Import Base RFacts StatusModel UtilModel CellModel CellSpec SpmModel SpmSpec SpmProofs SpmReal SpmAge PhysSpec.
Local Open Scope R_scope.

Section Phys.
Variable F : fns R.
Implicit Type c : spm R.

Lemma surface_getC c : exists b, getCSurf F c = (fst (surface F c), snd (surface F c), b).
Proof. unfold surface. destruct (getCSurf F c) as [[p n] b]. now exists b. Qed.

Lemma conc_bad_spec c p n : conc_bad c p n = false <-> (0 < p < q_Cmaxp (cp c) /\ 0 < n < q_Cmaxn (cp c)).
Proof.
  unfold conc_bad. rewrite !orb_false_iff, !Rleb_false, R_nZ. split.
  - intros (((?&?)&?)&?). repeat split; assumption.
  - intros ((?&?)&?&?). repeat split; assumption.
Qed.
Lemma range_flag c : snd (getCSurf F c) = true <-> in_range F c.
Proof.
  unfold in_range, surface, getCSurf.
  destruct (calcDiffConstant F c) as [dp dn]. destruct (calcMolarFlux c) as [[i jp] jn].
  destruct (calcSurfaceConcentration c jp jn dp dn) as [p n]. cbn [snd].
  rewrite negb_true_iff. apply conc_bad_spec.
Qed.
Lemma surface_csc c : calcSurfaceConcentration c (snd (fst (calcMolarFlux c))) (snd (calcMolarFlux c))
    (fst (calcDiffConstant F c)) (snd (calcDiffConstant F c)) = surface F c.
Proof.
  unfold surface, getCSurf. destruct (calcDiffConstant F c) as [dp dn]. destruct (calcMolarFlux c) as [[i jp] jn]. cbn [fst snd].
  destruct (calcSurfaceConcentration c jp jn dp dn) as [p n]. reflexivity.
Qed.

(** The overpotential, [etan - etap]. *)
Definition eta c : R :=
  let '(ep, en) := calcOverPotential F c (fst (surface F c)) (snd (surface F c)) (s_I (cs c) / q_surf (cp c)) in en - ep.

Lemma V_split c v : in_range F c -> fresh_V F c = Ok v ->
  exists o d, spm_OCV F c = Ok o /\ entropic F c = Ok d /\ v = o - eta c - getRdc c * s_I (cs c).
Proof.
  intros Rg. apply range_flag in Rg. rewrite fresh_V_calc. unfold calcV, spm_OCV, entropic, eta.
  destruct (surface_getC c) as [b E]. rewrite E in Rg |- *. cbn [snd] in Rg. subst b. cbn [negb].
  destruct (XYdata_interp (q_dOCVtot (cp c)) _ true) as [d|?| |]; [|discriminate..]. cbn [rbind].
  destruct (XYdata_interp (q_OCVn (cp c)) _ true) as [on|?| |]; [|discriminate..]. cbn [rbind].
  destruct (XYdata_interp (q_OCVp (cp c)) _ true) as [op|?| |]; [|discriminate..]. cbn [rbind].
  change (ndiv (s_I (cs c)) (q_surf (cp c))) with (s_I (cs c) / q_surf (cp c)).
  destruct (calcOverPotential F c _ _ _) as [ep en]. intros H. injection H as <-.
  eexists _, _. split; [reflexivity|]. split; [reflexivity|]. unfold getRdc. cbn [nadd nsub nmul ndiv RNum]. unfold Rdiv. ring.
Qed.

Lemma V_out c : ~ in_range F c -> fresh_V F c = Ok 0.
Proof.
  intros Rg. rewrite fresh_V_calc. unfold calcV.
  assert (E : snd (getCSurf F c) = false).
  { destruct (snd (getCSurf F c)) eqn:E; [|reflexivity]. destruct Rg. now apply range_flag. }
  destruct (getCSurf F c) as [[p n] b]. cbn [snd] in E. subst b. cbn [negb]. now rewrite R_nZ.
Qed.

Lemma rdc_ohms c : getRdc c = ohms c.
Proof.
  unfold getRdc, ohms. cbn [nadd nmul ndiv RNum].
  replace (s_an (cs c) * q_surf (cp c) * s_thickn (cs c)) with (s_an (cs c) * s_thickn (cs c) * q_surf (cp c)) by ring.
  replace (s_ap (cs c) * q_surf (cp c) * s_thickp (cs c)) with (s_ap (cs c) * s_thickp (cs c) * q_surf (cp c)) by ring.
  reflexivity.
Qed.
Lemma ohms_nonneg c : physical_cell c -> 0 <= ohms c.
Proof.
  intros []. unfold ohms.
  assert (P : forall x y, 0 <= x -> 0 < y -> 0 <= x / y).
  { intros. apply Rmult_le_pos; [assumption|]. left. now apply Rinv_0_lt_compat. }
  repeat apply Rplus_le_le_0_compat; apply P; try assumption; try (repeat apply Rmult_lt_0_compat; assumption).
  now apply Rmult_le_pos.
Qed.

Lemma RGAS_pos : (0 : R) < RGAS.
Proof. unfold RGAS. rewrite R_nlit. lra. Qed.

Lemma eta_sign c : physical_functions F -> physical_cell c -> in_range F c ->
  (0 < s_I (cs c) -> 0 < eta c) /\ (s_I (cs c) = 0 -> eta c = 0) /\ (s_I (cs c) < 0 -> eta c < 0).
Proof.
  intros [Ep Ei A0 Ai] [] Rn. unfold in_range in Rn. unfold eta, calcOverPotential.
  destruct (surface F c) as [cps cns]. cbn [fst snd]. destruct Rn as [[P1 P2] [N1 N2]].
  cbn [nadd nsub nmul ndiv nsqrt RNum]. rewrite !R_nlit, !R_nZ.
  pose proof F_pos as HF. pose proof RGAS_pos as HG.
  set (Fa := FARADAY) in *. set (Rg := RGAS) in *. clearbody Fa Rg.
  match goal with |- context [q_kp (cp c) * f_exp F ?x * q_n (cp c) * Fa * ?y] =>
    pose proof (Ep x) as E1; set (ap := f_exp F x) in *; set (i0p := q_kp (cp c) * ap * q_n (cp c) * Fa * y) end.
  match goal with |- context [q_kn (cp c) * f_exp F ?x * q_n (cp c) * Fa * ?y] =>
    pose proof (Ep x) as E2; set (an := f_exp F x) in *; set (i0n := q_kn (cp c) * an * q_n (cp c) * Fa * y) end.
  assert (J1 : 0 < i0p).
  { unfold i0p. repeat apply Rmult_lt_0_compat; try assumption. apply sqrt_lt_R0. repeat apply Rmult_lt_0_compat; try assumption. lra. }
  assert (J2 : 0 < i0n).
  { unfold i0n. repeat apply Rmult_lt_0_compat; try assumption. apply sqrt_lt_R0. repeat apply Rmult_lt_0_compat; try assumption. lra. }
  clearbody i0p i0n.
  set (k := 2 * Rg * s_T (cs c) / (q_n (cp c) * Fa)).
  assert (K : 0 < k).
  { unfold k. apply Rdiv_lt_0_compat; repeat apply Rmult_lt_0_compat; try assumption. lra. }
  clearbody k.
  set (a := / (s_ap (cs c) * s_thickp (cs c)) * / i0p). set (b := / (s_an (cs c) * s_thickn (cs c)) * / i0n).
  assert (A : 0 < a). { unfold a. apply Rmult_lt_0_compat; apply Rinv_0_lt_compat; [apply Rmult_lt_0_compat|]; assumption. }
  assert (B : 0 < b). { unfold b. apply Rmult_lt_0_compat; apply Rinv_0_lt_compat; [apply Rmult_lt_0_compat|]; assumption. }
  set (i := s_I (cs c) / q_surf (cp c)).
  match goal with |- context [f_asinh F ?x] => match goal with |- context [f_asinh F ?y] =>
    tryif constr_eq x y then fail else (set (xn := x); set (xp := y)) end end.
  assert (SI : (0 < s_I (cs c) -> 0 < i) /\ (s_I (cs c) = 0 -> i = 0) /\ (s_I (cs c) < 0 -> i < 0)).
  { assert (0 < / q_surf (cp c)) by now apply Rinv_0_lt_compat. unfold i, Rdiv. split; [|split]; intros.
    - now apply Rmult_lt_0_compat.
    - rewrite H0. ring.
    - nra. }
  clearbody i.
  assert (X1 : xn = i * b / 2 /\ xp = - (i * a / 2)).
  { unfold xn, xp, a, b, Rdiv. split; ring. }
  clearbody xn xp.
  destruct X1 as [-> ->].
  destruct SI as (S1 & S2 & S3); split; [|split]; intros H.
  1: specialize (S1 H); assert (U : 0 < f_asinh F (i * b / 2)) by (rewrite <- A0; apply Ai; assert (0 < i * b) by (now apply Rmult_lt_0_compat); lra);
       assert (W : f_asinh F (- (i * a / 2)) < 0) by (rewrite <- A0; apply Ai; assert (0 < i * a) by (now apply Rmult_lt_0_compat); lra);
       rewrite <- Rmult_minus_distr_l; apply Rmult_lt_0_compat; [exact K|lra].
  1: specialize (S2 H); subst i; replace (0 * b / 2) with 0 by lra; replace (- (0 * a / 2)) with 0 by lra; rewrite A0; ring.
  1: specialize (S3 H); assert (U : f_asinh F (i * b / 2) < 0) by (rewrite <- A0; apply Ai; assert (0 < - i * b) by (apply Rmult_lt_0_compat; lra); lra);
       assert (W : 0 < f_asinh F (- (i * a / 2))) by (rewrite <- A0; apply Ai; assert (0 < - i * a) by (apply Rmult_lt_0_compat; lra); lra);
       rewrite <- Rmult_minus_distr_l; match goal with |- ?x * ?y < 0 => assert (0 < x * - y) by (apply Rmult_lt_0_compat; [exact K|lra]); lra end.
Qed.

Lemma thermal_eta c q : dState_thermal F c = Ok q ->
  in_range F c /\ exists d, entropic F c = Ok d /\
  q = - s_I (cs c) * s_T (cs c) * d + s_I (cs c) * eta c + s_I (cs c) * s_I (cs c) * getRdc c.
Proof.
  unfold dState_thermal.
  pose proof (surface_csc c) as E. pose proof (range_flag c) as RF. unfold getCSurf in RF.
  assert (I1 : fst (fst (calcMolarFlux c)) = s_I (cs c) / q_surf (cp c)) by reflexivity.
  destruct (calcDiffConstant F c) as [dp dn]. destruct (calcMolarFlux c) as [[i jp] jn]. cbn [fst snd] in E, I1. subst i.
  unfold entropic, eta. rewrite E in RF |- *. destruct (surface F c) as [p n]. cbn [fst snd] in RF |- *.
  destruct (conc_bad c p n) eqn:B; [discriminate|].
  destruct (calcOverPotential F c p n _) as [ep en].
  change (ndiv p (q_Cmaxp (cp c))) with (p / q_Cmaxp (cp c)).
  destruct (XYdata_interp (q_dOCVtot (cp c)) _ true) as [d|?| |]; [|discriminate..].
  cbn [rbind]. intros H. injection H as <-.
  split; [apply RF; reflexivity|]. exists d. split; reflexivity.
Qed.

Lemma eta_but_resistance c d : but_resistance c d -> surface F d = surface F c /\ eta d = eta c /\ spm_OCV F d = spm_OCV F c /\
  (in_range F d <-> in_range F c).
Proof.
  intros (C & I1 & T & tp & tn & ap & an & Dp & Dn & zp & zn).
  assert (G : getCSurf F d = getCSurf F c).
  { unfold getCSurf, calcDiffConstant, calcMolarFlux, calcSurfaceConcentration, conc_bad, arrh.
    rewrite C, I1, T, tp, tn, ap, an, Dp, Dn, zp, zn. reflexivity. }
  assert (S : surface F d = surface F c) by (unfold surface; now rewrite G).
  split; [exact S|]. split; [|split].
  - unfold eta, calcOverPotential, arrh. rewrite S, C, I1, T, tp, tn, ap, an. reflexivity.
  - unfold spm_OCV. rewrite G, C, T. reflexivity.
  - unfold in_range. rewrite S, C. reflexivity.
Qed.

(** ** The time step *)

(** One diffusion step leaves the temperature and the thermal accumulators alone. *)
Lemma step1_therm dt c : let c' := fst (spm_step1 F dt c) in
  c_Q c' = c_Q c /\ c_Qtot c' = c_Qtot c /\ c_tth c' = c_tth c /\ c_Tenv c' = c_Tenv c.
Proof.
  unfold spm_step1. destruct (calcDiffConstant F c) as [dp dn]. destruct (calcMolarFlux c) as [[i jp] jn].
  match goal with |- context [spm_V F ?x] => set (c1 := x); destruct (spm_V F c1) as [c2 r] eqn:E end.
  apply V_same in E. destruct E as (_ & _ & _ & _ & _ & EQ & ET & Et & Ee). unfold c1 in *. clear c1.
  cbn [set_str set_valid set_st c_Q c_Qtot c_tth c_Tenv] in EQ, ET, Et, Ee.
  destruct r as [v|e| |]; cbn [fst set_st c_Q c_Qtot c_tth c_Tenv]; repeat split; assumption.
Qed.
Lemma steps_therm n dt : forall c, let c' := fst (spm_steps F n dt c) in
  c_Q c' = c_Q c /\ c_Qtot c' = c_Qtot c /\ c_tth c' = c_tth c /\ c_Tenv c' = c_Tenv c.
Proof.
  induction n as [|n IH]; intros c; [repeat split|]. cbv zeta. rewrite steps_S. pose proof (step1_therm dt c) as P. cbv zeta in P.
  destruct (spm_step1 F dt c) as [c1 r]. cbn [fst] in P. destruct P as (P1 & P2 & P3 & P4).
  destruct r as [[]|e| |]; cbn [fst]; [|repeat split; assumption..].
  destruct (IH c1) as (Q1 & Q2 & Q3 & Q4). rewrite Q1, Q2, Q3, Q4. repeat split; assumption.
Qed.
Definition blk (b : bool) (d : spm R) : spm R :=
  mkSpm (cp d) (cs d) (c_valid d) (c_str d) b (c_parent d) (c_Q d) (c_Qtot d) (c_tth d) (c_Tenv d).
Lemma V_blk b d : spm_V F (blk b d) = (blk b (fst (spm_V F d)), snd (spm_V F d)).
Proof.
  unfold spm_V. change (c_valid (blk b d)) with (c_valid d). change (calcV F (blk b d)) with (calcV F d).
  destruct (c_valid d); [reflexivity|]. destruct (calcV F d) as [[v|]|e| |]; reflexivity.
Qed.
Lemma step1_blk b dt c : spm_step1 F dt (blk b c) = (blk b (fst (spm_step1 F dt c)), snd (spm_step1 F dt c)).
Proof.
  unfold spm_step1. change (calcDiffConstant F (blk b c)) with (calcDiffConstant F c). change (calcMolarFlux (blk b c)) with (calcMolarFlux c).
  change (cs (blk b c)) with (cs c). change (cp (blk b c)) with (cp c).
  destruct (calcDiffConstant F c) as [dp dn]. destruct (calcMolarFlux c) as [[i jp] jn].
  match goal with |- context [spm_V F (set_str (set_valid (set_st (blk b c) ?a) false) ?s)] =>
    change (set_str (set_valid (set_st (blk b c) a) false) s) with (blk b (set_str (set_valid (set_st c a) false) (str_flags (c_str c) false false)));
    set (d := set_str (set_valid (set_st c a) false) (str_flags (c_str c) false false)) end.
  rewrite V_blk. destruct (spm_V F d) as [e [v|x| |]]; reflexivity.
Qed.
Lemma steps_blk b n dt : forall c, spm_steps F n dt (blk b c) = (blk b (fst (spm_steps F n dt c)), snd (spm_steps F n dt c)).
Proof.
  induction n as [|n IH]; intros c; [reflexivity|]. rewrite !steps_S, step1_blk.
  destruct (spm_step1 F dt c) as [c1 r]. cbn [fst snd]. destruct r as [[]|e| |]; [apply IH|reflexivity..].
Qed.
(** The cell after the diffusion part of a call: the result of the call with ageing and heating blocked. *)
Lemma timeStep_blk tm dt n c c' : spm_timeStep_CC F tm dt n c = (c', Ok tt) -> c_block c = false ->
  exists c2, spm_timeStep_CC F tm dt n (blk true c) = (blk true c2, Ok tt) /\ spm_heat_age F tm dt n c2 = (c', Ok tt) /\
    cp c2 = cp c /\ c_parent c2 = c_parent c /\ c_Q c2 = c_Q c /\ c_Qtot c2 = c_Qtot c /\ c_tth c2 = c_tth c /\ c_Tenv c2 = c_Tenv c.
Proof.
  unfold spm_timeStep_CC. destruct (nltb dt (nZ 0)); [discriminate|].
  match goal with |- context [spm_steps F _ _ (set_str c ?t)] => set (s := t) end.
  change (set_str (blk true c) _) with (blk true (set_str c s)). rewrite steps_blk.
  pose proof (steps_therm (Z.to_nat n) dt (set_str c s)) as T. pose proof (steps_block F (Z.to_nat n) dt (set_str c s)) as B. cbv zeta in T.
  destruct (spm_steps F (Z.to_nat n) dt (set_str c s)) as [c2 r]. cbn [fst snd] in *. intros H NB.
  destruct r as [[]|e| |]; [|discriminate..].
  destruct B as (B1 & B2 & B3). destruct T as (T1 & T2 & T3 & T4).
  rewrite B1 in H. cbn [c_block set_str] in H. rewrite NB in H.
  exists c2. cbn [c_block blk]. split; [reflexivity|]. split; [exact H|]. repeat split; assumption.
Qed.

(** Heat and temperature at the end of a call that is not blocked. *)
Lemma heat_age_therm tm dt n c c' : spm_heat_age F tm dt n c = (c', Ok tt) ->
  exists q, dState_thermal F c = Ok q /\
  let Q := c_Q c + q * dt * IZR n in let t := c_tth c + dt * IZR n in
  (c_parent c = true -> c_Q c' = Q /\ c_tth c' = t /\ c_Qtot c' = c_Qtot c /\ s_T (cs c') = s_T (cs c)) /\
  (c_parent c = false ->
     c_Q c' = 0 /\ c_tth c' = 0 /\ c_Qtot c' = c_Qtot c + Q /\
     snd (spm_thermal tm [(c_Tenv c, q_Qch (cp c), q_Acell (cp c))] t (set_therm c Q (c_Qtot c) t)) = Ok (s_T (cs c'))).
Proof.
  unfold spm_heat_age, mbind.
  destruct (dState_thermal F c) as [dq|e| |]; [|discriminate..]. intros H. exists dq. split; [reflexivity|]. revert H.
  rewrite !R_nZ. cbv zeta. set (Q := c_Q c + dq * dt * IZR n). set (t := c_tth c + dt * IZR n).
  match goal with |- context [set_therm c ?x ?y ?z] => change x with Q; change z with t end.
  set (c0 := set_therm c Q (c_Qtot c) t).
  change (c_parent c0) with (c_parent c). change (c_Tenv c0) with (c_Tenv c). change (c_tth c0) with t. change (cp c0) with (cp c).
  match goal with |- context [if c_parent c then ?x else ?y] => destruct (if c_parent c then x else y) as [c1 r1] eqn:E1 end.
  destruct r1 as [[]|e| |]; [|discriminate..].
  set (c2 := if q_sdai (cp c1) then updateDaiStress F c1 else c1).
  assert (R2 : cs c2 = cs c1 /\ c_Q c2 = c_Q c1 /\ c_Qtot c2 = c_Qtot c1 /\ c_tth c2 = c_tth c1).
  { subst c2. destruct (q_sdai (cp c1)); [|repeat split]. unfold updateDaiStress. destruct (getC F c1). repeat split. }
  clearbody c2.
  assert (L : forall c3 r3, (if q_slares (cp c2) then updateLaresgoitiStress F c2 else (c2, Ok tt)) = (c3, r3) ->
               cs c3 = cs c2 /\ c_Q c3 = c_Q c2 /\ c_Qtot c3 = c_Qtot c2 /\ c_tth c3 = c_tth c2).
  { intros c3 r3. destruct (q_slares (cp c2)); intros H.
    - unfold updateLaresgoitiStress in H. destruct (laresgoiti F c2); apply pair_equal_spec in H; destruct H as [<- _]; repeat split.
    - apply pair_equal_spec in H; destruct H as [<- _]; repeat split. }
  destruct (if q_slares (cp c2) then updateLaresgoitiStress F c2 else (c2, Ok tt)) as [c3 r3].
  destruct (L _ _ eq_refl) as (L1 & L2 & L3 & L4). clear L. destruct R2 as (R1 & R2 & R3 & R4).
  destruct r3 as [[]|e| |]; [|discriminate..].
  destruct (dState_degradation F c3) as [d|e| |]; [|discriminate..].
  intros H. apply pair_equal_spec in H. destruct H as [<- _]. cbn [set_st cs c_Q c_Qtot c_tth].
  destruct (age_counters (cs c3) d dt (IZR n)) as (_ & _ & ->). rewrite L1, L2, L3, L4, R1, R2, R3, R4. clear - E1.
  split; intros P; rewrite P in E1.
  - injection E1 as <-. repeat split.
  - destruct (spm_thermal tm _ t c0) as [c3 r3] eqn:ET.
    assert (E3 : c3 = set_therm c0 (nZ 0) (nadd (c_Qtot c0) (c_Q c0)) (nZ 0)).
    { unfold spm_thermal in ET. injection ET as <- _. reflexivity. }
    destruct r3 as [t'|e| |]; [|discriminate..]. injection E1 as <-. subst c3. cbn [spm_setT set_str set_st set_therm c_Q c_Qtot c_tth cs st_T s_T snd].
    rewrite R_nZ. repeat split.
Qed.


(** ** Temperature *)
Lemma nmin_Rmin (a b : R) : nmin a b = Rmin a b.
Proof. unfold nmin, Rmin. destruct (nltb b a) eqn:E; destruct (Rle_dec a b); try reflexivity; [apply Rltb_true in E|apply Rltb_false in E]; lra. Qed.
Lemma neigh_received c nb : therm_neigh c nb = c_Q c + received c nb.
Proof.
  unfold therm_neigh, received. generalize (c_Q c). induction nb as [|[[t k] a] nb IH]; intros q; cbn [fold_left map Rsum]; [lra|].
  rewrite IH, nmin_Rmin. cbn [nadd nsub nmul RNum]. lra.
Qed.
Lemma tnew_spec c e t : tnew_check c e = Ok t <-> t = s_T (cs c) + e / heat_capacity c /\ q_Tmin (cp c) <= t <= q_Tmax (cp c).
Proof.
  unfold tnew_check, heat_capacity. cbn [nadd nmul ndiv nnan RNum].
  replace (q_rho (cp c) * q_Cheat (cp c) * q_L (cp c) * q_surf (cp c)) with (q_rho (cp c) * q_Cheat (cp c) * (q_L (cp c) * q_surf (cp c))) by ring.
  set (tn := s_T (cs c) + _). rewrite orb_false_r.
  destruct (nltb (q_Tmax (cp c)) tn) eqn:E1; destruct (nltb tn (q_Tmin (cp c))) eqn:E2; cbn [orb];
    rewrite ?Rltb_true, ?Rltb_false in *.
  1-3: split; [discriminate|intros [-> ?]; lra].
  split; [intros H; injection H as <-; split; [reflexivity|lra]|intros [-> _]; reflexivity].
Qed.
Lemma tnew_throws c e : ~ (q_Tmin (cp c) <= s_T (cs c) + e / heat_capacity c <= q_Tmax (cp c)) -> tnew_check c e = Throw 9.
Proof.
  intros H. destruct (tnew_check c e) as [t|n| |] eqn:E.
  - apply tnew_spec in E. destruct E as [-> E]. contradiction.
  - unfold tnew_check in E. destruct (_ || _); congruence.
  - unfold tnew_check in E. destruct (_ || _); congruence.
  - unfold tnew_check in E. destruct (_ || _); congruence.
Qed.
Lemma received_between c nb lo hi w : lo <= s_T (cs c) <= hi -> 0 <= c_tth c ->
  Forall (fun '(t, k, a) => lo <= t <= hi /\ 0 <= k /\ 0 <= a) nb -> 0 <= q_Acell (cp c) ->
  w = Rsum (map (fun '(_, k, a) => k * Rmin a (q_Acell (cp c)) * c_tth c) nb) ->
  w * (lo - s_T (cs c)) <= received c nb <= w * (hi - s_T (cs c)) /\ 0 <= w.
Proof.
  intros HT Ht HF HA ->. unfold received. induction HF as [|[[t k] a] nb (A & B & C) _ IH]; cbn [map Rsum]; [lra|].
  set (r := Rsum (map (fun '(t, k, a) => k * Rmin a (q_Acell (cp c)) * (t - s_T (cs c)) * c_tth c) nb)) in *.
  set (w := Rsum _) in *. assert (M : 0 <= Rmin a (q_Acell (cp c))) by now apply Rmin_glb.
  set (m := k * Rmin a (q_Acell (cp c)) * c_tth c).
  assert (0 <= m) by (unfold m; repeat apply Rmult_le_pos; assumption).
  replace (k * Rmin a (q_Acell (cp c)) * (t - s_T (cs c)) * c_tth c) with (m * (t - s_T (cs c))) by (unfold m; ring).
  assert (m * (lo - s_T (cs c)) <= m * (t - s_T (cs c)) <= m * (hi - s_T (cs c))).
  { split; apply Rmult_le_compat_l; lra. }
  lra.
Qed.

(** ** Setting a uniform concentration *)
Lemma dot_sum row : forall acc z, dot acc row z = acc + Rsum (map (fun '(a, b) => a * b) (combine row z)).
Proof.
  induction row as [|r row IH]; intros acc [|x z]; cbn [dot combine map Rsum]; try lra.
  rewrite IH. cbn [nadd nmul RNum]. lra.
Qed.
Lemma dot_unit row z i v : (forall k, k <> i -> nth k z 0 = 0) -> nth i z 0 = v ->
  Rsum (map (fun '(a, b) => a * b) (combine row z)) = nth i (firstn (length z) row) 0 * v.
Proof.
  revert z i v. induction row as [|r row IH]; intros z i v H V.
  - rewrite firstn_nil. destruct i; cbn; lra.
  - destruct z as [|x z]; [cbn in *; destruct i; lra|]. cbn [combine map Rsum length firstn].
    destruct i as [|i].
    + cbn [nth] in *. rewrite V. rewrite (IH z (length z) 0).
      * rewrite nth_overflow with (n := length z). lra. rewrite firstn_length. lia.
      * intros k _. apply (H (S k)). lia.
      * apply nth_overflow. lia.
    + cbn [nth]. rewrite (IH z i v); [|intros k Hk; apply (H (S k)); lia|exact V].
      specialize (H 0%nat ltac:(lia)). cbn in H. rewrite H. lra.
Qed.
Lemma list_set_nth (l : list R) i v k d : nth k (list_set l i v) d = if Nat.eqb k i && Nat.ltb i (length l) then v else nth k l d.
Proof.
  revert i k. induction l as [|x l IH]; intros i k.
  - replace (list_set [] i v) with (@nil R) by (destruct i; reflexivity). cbn [length]. rewrite andb_false_r. reflexivity.
  - destruct i as [|i], k as [|k]; cbn [list_set nth length]; [reflexivity|reflexivity|reflexivity|].
    rewrite IH. reflexivity.
Qed.
Lemma zeros_nth (x : list R) k : nth k (map (fun _ => nZ 0) x) 0 = 0.
Proof. revert k. induction x as [|y x IH]; intros [|k]; cbn [map nth]; auto. now rewrite R_nZ. Qed.
Lemma list_set_length (l : list R) i v : length (list_set l i v) = length l.
Proof. revert i. induction l as [|x l IH]; intros [|i]; cbn; auto. Qed.

Lemma setC_surface fp fn c i :
  0 <= fp <= 1 -> 0 <= fn <= 1 -> nth 3 (m_input (q_M (cp c))) 0 = INR i -> (i < length (m_xch (q_M (cp c))))%nat ->
  let m := q_M (cp c) in
  uniform_mode (m_Cp m) (m_Vp m) (m_xch m) (q_Rp (cp c)) i -> uniform_mode (m_Cn m) (m_Vn m) (m_xch m) (q_Rn (cp c)) i ->
  exists c', spm_setC fp fn c = (c', Ok tt) /\ cp c' = cp c /\ s_I (cs c') = 0 /\ c_valid c' = false /\ s_T (cs c') = s_T (cs c) /\
  surface F c' = (fp * q_Cmaxp (cp c), fn * q_Cmaxn (cp c)).
Proof.
  intros Hp Hn Hi Hl m Up Un. unfold spm_setC. rewrite !R_nZ.
  match goal with |- context [if ?q then _ else _] => destruct q eqn:Q end.
  { exfalso. rewrite !orb_true_iff, !Rltb_true in Q. lra. }
  rewrite Hi, INR_IZR_INZ. assert (ntrunc (IZR (Z.of_nat i)) = Some (Z.of_nat i)) as ->.
  { cbn [ntrunc RNum]. f_equal. assert (0 <= IZR (Z.of_nat i)) by (apply IZR_le; lia). apply Rtrunc_spec; lra. }
  assert (((0 <=? Z.of_nat i)%Z && (Z.of_nat i <? Z.of_nat (length (m_xch (q_M (cp c)))))%Z)%bool = true) as -> by lia.
  rewrite Nat2Z.id. fold m. eexists. split; [reflexivity|]. split; [reflexivity|]. split; [reflexivity|]. split; [reflexivity|].
  split; [reflexivity|].
  rewrite <- surface_csc. unfold calcSurfaceConcentration, calcMolarFlux.
  cbn [fst snd set_str set_valid set_st cp cs st_I st_z s_I s_zp s_zn s_ap s_an s_thickp s_thickn]. fold m.
  assert (G : forall C V r cm fr, uniform_mode C V (m_xch m) r i ->
    dot 0 (nth 0 C []) (list_set (map (fun _ => 0) (m_xch m)) i (dot 0 (nth i V []) (map (fun x => cm * x * r) (m_xch m)))) = cm + fr - fr).
  { intros C V r cm fr U. unfold uniform_mode in U. rewrite !dot_sum.
    assert (Z0 : forall k, nth k (map (fun _ : R => 0) (m_xch m)) 0 = 0).
    { intros k. generalize (m_xch m). clear. intros l. revert k. induction l; intros [|k]; cbn; auto. }
    rewrite (dot_unit _ _ i (0 + Rsum (map (fun '(a, b) => a * b) (combine (nth i V []) (map (fun x => cm * x * r) (m_xch m)))))).
    - rewrite list_set_length, map_length.
      assert (E : nth i (firstn (length (m_xch m)) (nth 0 C [])) 0 = nth i (nth 0 C []) 0).
      { destruct (Nat.lt_ge_cases i (length (nth 0 C []))) as [L|L].
        - rewrite <- (firstn_skipn (length (m_xch m)) (nth 0 C [])) at 2. rewrite app_nth1; [reflexivity|]. rewrite firstn_length. unfold m in *. lia.
        - rewrite !nth_overflow; [reflexivity|exact L|]. rewrite firstn_length. lia. }
      rewrite E.
      assert (E2 : Rsum (map (fun '(a, b) => a * b) (combine (nth i V []) (map (fun x => cm * x * r) (m_xch m)))) =
                   cm * Rsum (map (fun '(v, y) => v * (y * r)) (combine (nth i V []) (m_xch m)))).
      { generalize (nth i V []) (m_xch m). clear. intros v x. revert x. induction v as [|a v IH]; intros [|y x]; cbn [combine map Rsum]; try lra.
        rewrite IH. lra. }
      rewrite E2. set (S := Rsum _) in *. set (a := nth i (nth 0 C []) 0) in *.
      replace (0 + a * (0 + cm * S)) with (cm * (a * S)) by ring. rewrite U. ring.
    - intros k Hk. rewrite list_set_nth. apply Nat.eqb_neq in Hk. rewrite Hk. cbn [andb]. apply Z0.
    - rewrite list_set_nth, Nat.eqb_refl, map_length. apply Nat.ltb_lt in Hl. fold m in Hl. rewrite Hl. reflexivity. }
  rewrite !R_nZ. f_equal.
  - pose proof (G _ _ _ (fp * q_Cmaxp (cp c)) 0 Up) as G1. cbn [nadd nmul ndiv nopp RNum] in *. rewrite G1. unfold Rdiv. ring.
  - pose proof (G _ _ _ (fn * q_Cmaxn (cp c)) 0 Un) as G1. cbn [nadd nmul ndiv nopp RNum] in *. rewrite G1. unfold Rdiv. ring.
Qed.
End Phys.
