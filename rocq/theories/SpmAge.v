(** * Lemmas about the single-particle cell: degradation *)
From Coq Require Import Lra.
From Verif Require Import Base RFacts StatusModel UtilModel CellModel CellSpec SpmModel SpmSpec SpmProofs SpmReal.

Section Age.
Variable F : fns R.
Hypothesis exp_nonneg : forall x, (0 <= f_exp F x)%R.
Implicit Types (c : spm R) (s : spm_st R).
Local Open Scope R_scope.

Lemma inv_nonneg x : 0 <= x -> 0 <= / x.
Proof. intros [H|<-]; [left; now apply Rinv_0_lt_compat|]. rewrite Rinv_0. lra. Qed.
Lemma div_nonneg x y : 0 <= x -> 0 <= y -> 0 <= x / y.
Proof. intros. apply Rmult_le_pos; [assumption|now apply inv_nonneg]. Qed.
Lemma F_pos : (0 : R) < FARADAY.
Proof. unfold FARADAY. rewrite R_nZ. lra. Qed.

Ltac rn := cbn [nadd nsub nmul ndiv nopp nabs nsqrt RNum] in *.
Section Rates.
Variable c : spm R.
Hypothesis P : sane_rates (cp c).
Hypothesis Hd : 0 <= s_delta (cs c).
Hypothesis Hcs : 0 <= s_CS (cs c).
Hypothesis Ht : 0 <= s_thickn (cs c).
Hypothesis Ha : 0 <= s_an (cs c).
Hypothesis Hdt : 0 <= t_dt (c_str c).

Lemma sei_one_nonneg o e id x : sei_one F c o e id = Ok x -> 0 <= x.
Proof.
  destruct P as [p1 p2 p3 p4 p5 _ _ _ _ _].
  inversion p5 as [|? ? a1 q1]; subst. inversion q1 as [|? ? a2 q2]; subst. inversion q2 as [|? ? a3 q3]; subst.
  inversion q3 as [|? ? a4 q4]; subst. inversion q4 as [|? ? a5 q5]; subst. inversion q5 as [|? ? a6 q6]; subst.
  inversion q6 as [|? ? a7 q7]; subst.
  assert (L : 0 <= (nlit 134461 1000000 : R)) by (rewrite R_nlit; lra).
  assert (One : (nZ 1 : R) = 1) by apply R_nZ.
  unfold sei_one. cbv zeta. pose proof F_pos.
  destruct id as [|[[q|q|]|[q|q|]|]|q]; try discriminate; try (destruct q; discriminate).
  all: try (destruct q; try discriminate).
  all: intros E; injection E as <-; rewrite ?One, ?R_nZ; rn; try lra.
  all: try (repeat first [assumption | apply exp_nonneg | lra | apply inv_nonneg | apply Rmult_le_pos | apply div_nonneg | apply Rplus_le_le_0_compat]).
Qed.
Lemma sei_all_nonneg o e ids : forall acc x, 0 <= acc -> sei_all F c o e ids acc = Ok x -> 0 <= x.
Proof.
  induction ids as [|id ids IH]; intros acc x H E; cbn [sei_all] in E; [now injection E as <-|].
  destruct (sei_one F c o e id) as [y|n| |] eqn:E1; try discriminate. cbn [rbind] in E.
  apply sei_one_nonneg in E1. eapply IH; [|exact E]. rn. lra.
Qed.

Lemma surf_nonneg : 0 <= anode_surface c.
Proof. unfold anode_surface. rn. destruct P. repeat apply Rmult_le_pos; assumption. Qed.

Lemma nmax_ge (a b : R) : b <= nmax a b.
Proof. unfold nmax. destruct (nltb a b) eqn:E; [lra|]. now apply Rltb_false in E. Qed.

Lemma cs_one_nonneg o e id x b : cs_one F c o e id = Ok (x, b) -> 0 <= x.
Proof.
  destruct P as [p1 p2 p3 p4 _ p5 _ _ _ _].
  inversion p5 as [|? ? a1 q1]; subst. inversion q1 as [|? ? a2 q2]; subst. inversion q2 as [|? ? a3 q3]; subst.
  inversion q3 as [|? ? a4 q4]; subst. inversion q4 as [|? ? a5 q5]; subst. pose proof F_pos.
  unfold cs_one. cbv zeta.
  destruct id as [|[[q|[q|q|]|]|[q|[q|q|]|]|]|q]; try discriminate.
  - intros E. injection E as <- _. rewrite ?R_nZ. lra.
  - (* 5 *)
    destruct (getCSurf F c) as [[u cns] fl]. intros E. injection E as <- _. rn.
    apply Rmult_le_pos; [|apply exp_nonneg]. apply Rmult_le_pos; [apply Rmult_le_pos; lra|].
    repeat match goal with |- context [if ?b then _ else _] => destruct b end; rewrite ?R_nZ; try lra.
    + apply Rmult_le_pos; [lra|apply exp_nonneg].
    + apply Rmult_le_pos; [lra|apply exp_nonneg].
  - (* 3 *)
    destruct (getC F c) as [u v]. intros E. injection E as <- _. rn.
    apply Rmult_le_pos; [lra|]. apply Rle_0_sqr.
  - (* 4 *)
    intros E. injection E as <- _. rn. pose proof (nmax_ge (cs4Amax (q_cs (cp c))) (s_CS (cs c))).
    apply Rmult_le_pos; [apply Rmult_le_pos; lra|apply Rabs_pos].
  - (* 2 *)
    destruct (t_dai_up (c_str c)); [|discriminate]. cbn [negb]. intros E. injection E as <- _. rn.
    apply Rmult_le_pos; [lra|apply sqrt_pos].
  - (* 1 *)
    destruct (t_lares_up (c_str c)); [|discriminate]. cbn [negb]. intros E. injection E as <- _. rn.
    apply Rmult_le_pos; [lra|apply sqrt_pos].
Qed.
Lemma cs_all_nonneg o e ids : forall i d x y, 0 <= i -> 0 <= d -> cs_all F c o e ids i d = Ok (x, y) -> 0 <= x /\ 0 <= y.
Proof.
  induction ids as [|id ids IH]; intros i d x y Hi Hd' E; cbn [cs_all] in E; [now injection E as <- <-|].
  destruct (cs_one F c o e id) as [[z b]|n| |] eqn:E1; try discriminate. cbn [rbind] in E.
  apply cs_one_nonneg in E1. eapply IH; [| |exact E].
  - destruct b; [|exact Hi]. rn. apply Rplus_le_le_0_compat; [exact Hi|]. apply div_nonneg; [exact Hcs|exact surf_nonneg].
  - destruct b; [|exact Hd']. rn. lra.
Qed.

Lemma lam_one_thick z e id r r' : lam_one F c z e id r = Ok r' -> a_tp r' <= a_tp r /\ a_tn r' <= a_tn r.
Proof.
  destruct P as [p1 p2 p3 p4 _ _ p5 _ _ _].
  inversion p5 as [|? ? a1 q1]; subst. inversion q1 as [|? ? a2 q2]; subst.
  unfold lam_one. cbv zeta.
  destruct id as [|[[q|q|]|[q|[q|q|]|]|]|q]; try discriminate.
  - intros E. injection E as <-. lra.
  - (* 3 *) destruct (XYdata_interp (q_OCVp (cp c)) z true) as [y|n| |]; try discriminate. cbn [rbind].
    intros E. injection E as <-. cbn [a_tp a_tn]. lra.
  - (* 4 *) intros E. injection E as <-. cbn [a_tp a_tn]. lra.
  - (* 2 *) destruct (calcMolarFlux c) as [[? ?] ?]. intros E. injection E as <-. cbn [a_tp a_tn]. lra.
  - (* 1 *) destruct (t_dai_up (c_str c)); [|discriminate]. cbn [negb]. intros E. injection E as <-. cbn [a_tp a_tn]. rn.
    assert (K : forall k u, 0 <= k -> - k * Rabs u / t_dt (c_str c) <= 0).
    { intros k u Hk. replace (- k * Rabs u / t_dt (c_str c)) with (- (k * Rabs u / t_dt (c_str c))) by (unfold Rdiv; ring).
      pose proof (div_nonneg (k * Rabs u) (t_dt (c_str c)) (Rmult_le_pos _ _ Hk (Rabs_pos u)) Hdt). lra. }
    pose proof (K _ (t_dai_p (c_str c) - t_dai_p_prev (c_str c)) a1).
    pose proof (K _ (t_dai_n (c_str c) - t_dai_n_prev (c_str c)) a2). lra.
Qed.
Lemma lam_all_thick z e ids : forall r r', lam_all F c z e ids r = Ok r' -> a_tp r' <= a_tp r /\ a_tn r' <= a_tn r.
Proof.
  induction ids as [|id ids IH]; intros r r' E; cbn [lam_all] in E; [injection E as <-; lra|].
  destruct (lam_one F c z e id r) as [r1|n| |] eqn:E1; try discriminate. cbn [rbind] in E.
  apply lam_one_thick in E1. apply IH in E. lra.
Qed.

Lemma pl_nonneg o e x : LiPlating F c o e = Ok x -> 0 <= x.
Proof.
  destruct P. pose proof F_pos. unfold LiPlating. cbv zeta. destruct (d_pl (q_deg (cp c))) as [|[q|q|]|q]; try discriminate.
  - intros E. injection E as <-. rewrite ?R_nZ. lra.
  - intros E. injection E as <-. rn. repeat first [assumption | apply exp_nonneg | lra | apply Rmult_le_pos].
Qed.

(** Signs of the derivatives. *)
Lemma rates_sign d : dState_degradation F c = Ok d ->
  0 <= dd_delta d /\ 0 <= dd_LLI d /\ 0 <= dd_CS d /\ 0 <= dd_dpl d /\ dd_tp d <= 0 /\ dd_tn d <= 0.
Proof.
  unfold dState_degradation.
  destruct (calcDiffConstant F c) as [dpt dnt]. destruct (calcMolarFlux c) as [[ia jp] jn].
  destruct (calcSurfaceConcentration c jp jn dpt dnt) as [cps cns]. destruct (conc_bad c cps cns); [discriminate|].
  destruct (calcOverPotential F c cps cns ia) as [etap etan].
  destruct (XYdata_interp (q_dOCVn (cp c)) _ true) as [dOCVn|e| |]; try discriminate.
  destruct (XYdata_interp (q_OCVn (cp c)) _ true) as [ocvn|e| |]; try discriminate. cbn [rbind].
  set (o := nadd ocvn _).
  destruct (SEI F c o etan) as [[isei den]|e| |] eqn:E1; try discriminate. cbn [rbind].
  destruct (CSm F c o etan) as [[[ism dcs] dDn]|e| |] eqn:E2; try discriminate. cbn [rbind].
  destruct (LAM F c _ etap) as [r|e| |] eqn:E3; try discriminate. cbn [rbind].
  destruct (LiPlating F c o etan) as [ipl|e| |] eqn:E4; try discriminate. cbn [rbind].
  intros E. injection E as <-. cbn [dd_delta dd_LLI dd_CS dd_dpl dd_tp dd_tn].
  assert (Z : (nZ 0 : R) = 0) by apply R_nZ.
  assert (S1 : 0 <= isei).
  { unfold SEI in E1. destruct (sei_all F c o etan _ (nZ 0)) as [y|n| |] eqn:Es; try discriminate. cbn [rbind] in E1.
    apply sei_all_nonneg in Es; [|lra]. destruct (d_por (q_deg (cp c))) as [|[q|q|]|q]; try discriminate; injection E1 as <- _; exact Es. }
  assert (S2 : 0 <= ism /\ 0 <= dcs).
  { unfold CSm in E2. destruct (cs_all F c o etan _ (nZ 0) (nZ 0)) as [[y w]|n| |] eqn:Es; try discriminate. cbn [rbind] in E2.
    apply cs_all_nonneg in Es; [|lra|lra]. destruct (d_csdiff (q_deg (cp c))) as [|[q|q|]|q]; try discriminate; injection E2 as <- <- _; exact Es. }
  assert (S3 : a_tp r <= 0 /\ a_tn r <= 0).
  { unfold LAM in E3. apply lam_all_thick in E3. cbn [a_tp a_tn] in E3. lra. }
  apply pl_nonneg in E4. destruct S2 as [S2 S2']. destruct S3 as [S3 S3'].
  destruct P as [p1 p2 p3 p4 _ _ _ p6 p7 _]. pose proof F_pos. rn.
  repeat split; try assumption.
  - apply div_nonneg; [assumption|]. repeat apply Rmult_le_pos; lra.
  - repeat apply Rmult_le_pos; try assumption. repeat apply Rplus_le_le_0_compat; try assumption. now apply Rmult_le_pos.
  - apply div_nonneg; [assumption|]. repeat apply Rmult_le_pos; lra.
Qed.
End Rates.

Lemma up_le x dx dt n : 0 <= dx -> 0 <= dt -> 0 <= n -> x <= nadd x (nmul (nmul dx dt) n).
Proof. intros. rn. assert (0 <= dx * dt * n) by (repeat apply Rmult_le_pos; assumption). lra. Qed.
Lemma up_ge x dx dt n : dx <= 0 -> 0 <= dt -> 0 <= n -> nadd x (nmul (nmul dx dt) n) <= x.
Proof. intros. rn. assert (0 <= - dx * dt * n) by (repeat apply Rmult_le_pos; lra). lra. Qed.

Lemma aged_refl c : aged c c.
Proof. unfold aged. lra. Qed.
Lemma aged_trans c1 c2 c3 : aged c1 c2 -> aged c2 c3 -> aged c1 c3.
Proof. unfold aged. lra. Qed.
Lemma aged_eq c c' : ageing c' = ageing c -> aged c c'.
Proof. unfold ageing, aged. intros E. injection E. intros. repeat match goal with H : ?x (cs c') = _ |- _ => rewrite H; clear H end. lra. Qed.

Lemma step1_dt dt c : t_dt (c_str (fst (spm_step1 F dt c))) = t_dt (c_str c).
Proof.
  unfold spm_step1. destruct (calcDiffConstant F c) as [a b]. destruct (calcMolarFlux c) as [[x y] z].
  match goal with |- context [spm_V F ?d] => set (c1 := d) end.
  destruct (spm_V F c1) as [c2 v] eqn:Ev. destruct (V_same _ _ _ _ Ev) as (_ & _ & E & _).
  destruct v; cbn [fst]; first [rewrite E; reflexivity | cbn [set_st c_str]; rewrite E; reflexivity].
Qed.
Lemma steps_dt n dt : forall c, t_dt (c_str (fst (spm_steps F n dt c))) = t_dt (c_str c).
Proof.
  induction n as [|n IH]; intros c; [reflexivity|]. rewrite steps_S. pose proof (step1_dt dt c) as E.
  destruct (spm_step1 F dt c) as [c1 r]. cbn [fst] in E. destruct r; try exact E. now rewrite IH.
Qed.

Lemma step_aged tm dt n c : sane_rates (cp c) -> 0 <= s_delta (cs c) -> 0 <= s_CS (cs c) ->
  0 <= s_thickn (cs c) -> 0 <= s_an (cs c) -> (0 <= n)%Z ->
  aged c (fst (spm_timeStep_CC F tm dt n c)) /\ cp (fst (spm_timeStep_CC F tm dt n c)) = cp c.
Proof.
  intros Hp Hd Hcs Ht Ha Hn. unfold spm_timeStep_CC. destruct (nltb dt (nZ 0)) eqn:L; [split; [apply aged_refl|reflexivity]|].
  rewrite R_nZ in L. apply Rltb_false in L.
  match goal with |- context [spm_steps F _ _ ?d] => set (c1 := d) end.
  pose proof (steps_mono F (Z.to_nat n) dt L c1) as M. cbn zeta in M. pose proof (steps_dt (Z.to_nat n) dt c1) as Et.
  destruct (spm_steps F (Z.to_nat n) dt c1) as [c2 r]. cbn [fst] in M, Et. destruct M as (M1 & M2 & M3 & _).
  assert (A2 : aged c c2 /\ cp c2 = cp c) by (split; [apply aged_eq; exact M3|exact M1]).
  destruct r as [[]|e| |]; try exact A2. destruct (c_block c2); [exact A2|].
  destruct (spm_heat_age F tm dt n c2) as [c' r'] eqn:E.
  destruct (heat_age_spec _ _ _ _ _ _ _ E) as ([Ra _ _ _] & t & _ & C). cbn [fst].
  split; [|rewrite Ra; apply (proj2 A2)]. apply (aged_trans _ _ _ (proj1 A2)).
  destruct C as [[C _]|(d & c4 & K1 & K2 & K3 & K4 & K5 & K6 & K7 & _)].
  { apply aged_eq. unfold ageing. now rewrite C. }
  change (ageing c1) with (ageing c) in M3. unfold ageing in M3. injection M3. intros.
  assert (Hn' : 0 <= nZ n) by (rewrite R_nZ; now apply (IZR_le 0)).
  assert (S : 0 <= dd_delta d /\ 0 <= dd_LLI d /\ 0 <= dd_CS d /\ 0 <= dd_dpl d /\ dd_tp d <= 0 /\ dd_tn d <= 0).
  { apply (rates_sign c4); try exact K6; rewrite ?K1, ?K2, ?M1; cbn [st_T s_delta s_CS s_thickn s_an]; try exact Hp; try lra.
    - rewrite K5, Et. cbn [c_str c1 set_str t_dt]. apply Rmult_le_pos; assumption. }
  destruct S as (S1 & S2 & S3 & S4 & S5 & S6).
  unfold aged. rewrite K7. unfold age. cbn [s_LLI s_delta s_CS s_dpl s_thickp s_thickn st_T].
  repeat split; first [apply up_le; assumption | apply up_ge; assumption].
Qed.

Lemma history_aged tm c l c' : history F tm alive c l c' -> sane_rates (cp c) -> 0 <= s_delta (cs c) -> 0 <= s_CS (cs c) ->
  aged c c' /\ cp c' = cp c.
Proof.
  induction 1 as [c|c o l c' (O & Ht & Ha & Hn) _ IH]; intros Hp Hd Hcs; [split; [apply aged_refl|reflexivity]|].
  assert (K : aged c (after F tm o c) /\ cp (after F tm o c) = cp c).
  { assert (D : (exists dt n, o = OpStep dt n) \/ (forall dt n, o <> OpStep dt n)).
    { destruct o; try (right; discriminate). left; eauto. }
    destruct D as [(dt & n & ->)|N].
    - cbn [after]. now apply step_aged.
    - destruct (cmd_keeps F tm o c O N) as (K1 & _ & K3). split; [now apply aged_eq|exact K1]. }
  destruct K as (K1 & K2). destruct IH as (I1 & I2); [now rewrite K2| | |].
  - unfold aged in K1. lra.
  - unfold aged in K1. lra.
  - split; [exact (aged_trans _ _ _ K1 I1)|congruence].
Qed.
End Age.

(** ** No model, or blocked *)
Section NoModel.
Variable F : fns R.
Implicit Types (c : spm R).
Local Open Scope R_scope.

Lemma op_nodeg_ageing tm o c : operating o -> no_degradation c ->
  ageing (after F tm o c) = ageing c /\ cp (after F tm o c) = cp c.
Proof.
  intros O N. assert (D : (exists dt n, o = OpStep dt n) \/ (forall dt n, o <> OpStep dt n)).
  { destruct o; try (right; discriminate). left; eauto. }
  destruct D as [(dt & n & ->)|Ns].
  - cbn [after]. unfold spm_timeStep_CC. destruct (nltb dt (nZ 0)) eqn:L; [split; reflexivity|].
    rewrite R_nZ in L. apply Rltb_false in L.
    match goal with |- context [spm_steps F _ _ ?d] => set (c1 := d) end.
    pose proof (steps_mono F (Z.to_nat n) dt L c1) as M. cbn zeta in M.
    destruct (spm_steps F (Z.to_nat n) dt c1) as [c2 r]. cbn [fst] in M. destruct M as (M1 & M2 & M3 & _).
    assert (A2 : ageing c2 = ageing c /\ cp c2 = cp c) by (split; assumption).
    destruct r as [[]|e| |]; try exact A2. destruct (c_block c2); [exact A2|].
    destruct (spm_heat_age F tm dt n c2) as [c' r'] eqn:E.
    destruct (heat_age_spec _ _ _ _ _ _ _ E) as ([Ra _ _ _] & t & _ & C). cbn [fst].
    split; [|rewrite Ra; apply A2]. rewrite <- (proj1 A2).
    destruct C as [[C _]|(d & c4 & K1 & K2 & K3 & K4 & K5 & K6 & K7 & _)].
    + unfold ageing. now rewrite C.
    + rewrite (age_none F c4) in K7; [unfold ageing; now rewrite K7| |exact K6].
      apply (nodeg_cp c); [|exact N]. rewrite K1. apply A2.
  - destruct (cmd_keeps F tm o c O Ns) as (K1 & _ & K3). now split.
Qed.
Lemma history_nodeg_ageing tm c l c' : history F tm (fun _ => operating) c l c' -> no_degradation c -> ageing c' = ageing c.
Proof.
  induction 1 as [c|c o l c' O _ IH]; intros N; [reflexivity|].
  destruct (op_nodeg_ageing tm o c O N) as (K1 & K2). rewrite IH; [exact K1|]. now apply (nodeg_cp c).
Qed.
End NoModel.
