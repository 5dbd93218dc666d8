(** * Proofs about the law of each ageing model *)
From Coq Require Import Reals Lra Psatz.
From Verif Require Import Base RFacts StatusModel UtilModel CellModel CellSpec SpmModel SpmUnitModel SpmSpec SpmProofs SpmReal SpmAge
  PhysSpec PhysProofs DegSpec DegProofs TempSpec TempProofs LawSpec.
Local Open Scope R_scope.

Lemma nmax_max (a b : R) : nmax a b = Rmax a b.
Proof.
  unfold nmax. destruct (nltb a b) eqn:E; [apply Rltb_true in E; symmetry; apply Rmax_right; lra|apply Rltb_false in E; symmetry; apply Rmax_left; lra].
Qed.

Section Laws.
Context (F : fns R).

(** ** Stored stresses during a call *)
Definition same_str (t u : stress R) : Prop :=
  t_dai_p u = t_dai_p t /\ t_dai_n u = t_dai_n t /\ t_lares_n u = t_lares_n t /\
  t_dai_p_prev u = t_dai_p_prev t /\ t_dai_n_prev u = t_dai_n_prev t /\ t_lares_n_prev u = t_lares_n_prev t /\ t_dt u = t_dt t.
Lemma step1_str dt c : same_str (c_str c) (c_str (fst (spm_step1 F dt c))).
Proof.
  unfold spm_step1. destruct (calcDiffConstant F c) as [dp dn]. destruct (calcMolarFlux c) as [[i jp] jn].
  match goal with |- context [spm_V F ?x] => set (c1 := x); destruct (spm_V F c1) as [c2 r] eqn:E end.
  destruct (V_same _ _ _ _ E) as (_ & _ & K & _). destruct r; cbn [fst set_st c_str]; rewrite K; repeat split.
Qed.
Lemma steps_str n dt : forall c, same_str (c_str c) (c_str (fst (spm_steps F n dt c))).
Proof.
  induction n as [|n IH]; intros c; [repeat split|]. rewrite steps_S. pose proof (step1_str dt c) as S1.
  destruct (spm_step1 F dt c) as [c1 [[]|e| |]]; cbn [fst] in *; try exact S1.
  specialize (IH c1). unfold same_str in *. decompose [and] S1. decompose [and] IH. repeat split; congruence.
Qed.
Lemma before_prev tm dt n c c3 : before F tm dt n c = Ok c3 ->
  t_dai_p_prev (c_str c3) = t_dai_p (c_str c) /\ t_dai_n_prev (c_str c3) = t_dai_n (c_str c) /\
  t_lares_n_prev (c_str c3) = t_lares_n (c_str c) /\ t_dt (c_str c3) = IZR n * dt.
Proof.
  unfold before. destruct (nltb dt (nZ 0)); [discriminate|].
  match goal with |- context [spm_steps F _ _ (set_str c ?t)] => set (s := t) end.
  pose proof (steps_str (Z.to_nat n) dt (set_str c s)) as ST.
  destruct (spm_steps F (Z.to_nat n) dt (set_str c s)) as [c2 [[]|e| |]]; try discriminate. cbn [fst set_str c_str] in ST.
  assert (E : t_dai_p_prev (c_str c2) = t_dai_p (c_str c) /\ t_dai_n_prev (c_str c2) = t_dai_n (c_str c) /\
              t_lares_n_prev (c_str c2) = t_lares_n (c_str c) /\ t_dt (c_str c2) = IZR n * dt).
  { destruct ST as (_ & _ & _ & -> & -> & -> & ->). repeat split. cbn [s t_dt]. now rewrite R_nZ. }
  clear ST. unfold pre. destruct (dState_thermal F c2) as [dq|e| |]; try discriminate.
  match goal with |- context [warm tm ?x] => set (c0 := x) end.
  change (c_str c2) with (c_str c0) in E. clearbody c0.
  assert (W : t_dai_p_prev (c_str (fst (warm tm c0))) = t_dai_p (c_str c) /\ t_dai_n_prev (c_str (fst (warm tm c0))) = t_dai_n (c_str c) /\
              t_lares_n_prev (c_str (fst (warm tm c0))) = t_lares_n (c_str c) /\ t_dt (c_str (fst (warm tm c0))) = IZR n * dt).
  { unfold warm. destruct (c_parent c0); [exact E|]. unfold spm_thermal.
    match goal with |- context [match ?x with Ok t => _ | Throw n => _ | UB => _ | Fuel => _ end] => destruct x end; exact E. }
  destruct (warm tm c0) as [c1 [[]|e| |]]; try discriminate. cbn [fst] in W. clear E. unfold lares, dai.
  assert (D : forall x, t_dai_p_prev (c_str x) = t_dai_p (c_str c) /\ t_dai_n_prev (c_str x) = t_dai_n (c_str c) /\
              t_lares_n_prev (c_str x) = t_lares_n (c_str c) /\ t_dt (c_str x) = IZR n * dt ->
              match (if q_slares (cp x) then updateLaresgoitiStress F x else (x, Ok tt)) with (c4, Ok _) => Ok c4 | _ => Throw 0 end = Ok c3 ->
              t_dai_p_prev (c_str c3) = t_dai_p (c_str c) /\ t_dai_n_prev (c_str c3) = t_dai_n (c_str c) /\
              t_lares_n_prev (c_str c3) = t_lares_n (c_str c) /\ t_dt (c_str c3) = IZR n * dt).
  { intros x Hx. destruct (q_slares (cp x)).
    - unfold updateLaresgoitiStress. destruct (laresgoiti F x); try discriminate. intros G. injection G as <-. exact Hx.
    - intros G. injection G as <-. exact Hx. }
  apply D. destruct (q_sdai (cp c1)); [|exact W]. unfold updateDaiStress. destruct (getC F c1). exact W.
Qed.

(** ** The models, selected any number of times *)
Lemma times_cons i j l : times i (j :: l) = (if Z.eqb j i then 1 else 0) + times i l.
Proof.
  unfold times. cbn [count_occ]. destruct (Z.eq_dec j i) as [->|N].
  - rewrite Z.eqb_refl, S_INR. ring.
  - rewrite (proj2 (Z.eqb_neq j i) N). ring.
Qed.

(** Dissolution of the cathode, per second. *)
Definition diss (c : spm R) (z e : R) : R :=
  match XYdata_interp (q_OCVp (cp c)) z true with
  | Ok ocvp => Rmax (-5 / 1000000) (- (lam3k (q_lam (cp c)) * f_exp F (lam3kT (q_lam (cp c)) * arrh c)) *
      f_exp F (q_n (cp c) * FARADAY / RGAS / s_T (cs c) * (ocvp + e - q_OCVnmc (cp c))) / (q_n (cp c) * FARADAY))
  | _ => 0
  end.
Definition lam_law (c : spm R) (z e : R) (l : list Z) : lam_acc R :=
  let k := q_lam (cp c) in let t := c_str c in
  let a := f_exp F (lam2t k * arrh c) in let jp := Rabs (snd (fst (calcMolarFlux c))) in let jn := Rabs (snd (calcMolarFlux c)) in
  mkLA (times 1 l * (- lam1p k * Rabs (t_dai_p t - t_dai_p_prev t) / t_dt t))
       (times 1 l * (- lam1n k * Rabs (t_dai_n t - t_dai_n_prev t) / t_dt t))
       (times 4 l * (- lam4p k * s_ap (cs c))) (times 4 l * (- lam4n k * s_an (cs c)))
       (times 2 l * (lam2ap k * a * jp + lam2bp k * a * sqrt jp) + times 3 l * diss c z e)
       (times 2 l * (lam2an k * a * jn + lam2bn k * a * sqrt jn)).
Lemma lam_all_law c z e l : forall r x, lam_all F c z e l r = Ok x -> x = la_add r (lam_law c z e l).
Proof.
  induction l as [|i l IH]; intros r x H.
  { cbn [lam_all] in H. injection H as <-. unfold lam_law, times, la_add. cbn. apply la_ext; cbn; ring. }
  cbn [lam_all] in H. destruct (lam_one F c z e i r) as [r1|?| |] eqn:E; try discriminate. cbn [rbind] in H. rewrite (IH _ _ H). clear H IH.
  unfold lam_one in E. unfold lam_law, la_add. destruct (calcMolarFlux c) as [[i0 jp] jn] eqn:EM. cbn [fst snd].
  rewrite !times_cons.
  destruct i as [|[[?|[?|?|]|]|[?|[?|?|]|]|]|?]; try discriminate E.
  - injection E as <-. apply la_ext; cbn; ring.
  - unfold diss. destruct (XYdata_interp (q_OCVp (cp c)) z true) as [o|?| |]; try discriminate E. cbn [rbind] in E. apply Ok_inj in E. subst r1.
    rewrite nmax_max, R_nlit. apply la_ext; cbn [a_tp a_tn a_ap a_an a_ep a_en Z.eqb Pos.eqb nadd nsub nmul ndiv nopp RNum]; ring.
  - apply Ok_inj in E. subst r1. apply la_ext; cbn [a_tp a_tn a_ap a_an a_ep a_en Z.eqb Pos.eqb nadd nsub nmul ndiv nopp RNum]; ring.
  - apply Ok_inj in E. subst r1. apply la_ext; cbn [a_tp a_tn a_ap a_an a_ep a_en Z.eqb Pos.eqb nadd nsub nmul ndiv nopp nabs nsqrt RNum]; ring.
  - destruct (negb _); [discriminate E|]. apply Ok_inj in E. subst r1.
    apply la_ext; cbn [a_tp a_tn a_ap a_an a_ep a_en Z.eqb Pos.eqb nadd nsub nmul ndiv nopp nabs nsqrt RNum]; unfold Rdiv; ring.
Qed.

(** Crack growth per second; [kin] is the speed of the fifth model. *)
Definition kin (c : spm R) (o e : R) : R :=
  q_nsei (cp c) * FARADAY * (cs5k (q_cs (cp c)) * f_exp F (cs5kT (q_cs (cp c)) / RGAS * (1 / q_Tref (cp c) - 1 / s_T (cs c)))) *
  f_exp F (- q_asei (cp c) * q_nsei (cp c) * FARADAY / (RGAS * s_T (cs c)) * eta_sei c o e).
Definition cs_law (c : spm R) (o e : R) (l : list Z) : R :=
  let k := q_cs (cp c) in let t := c_str c in
  times 1 l * (cs1a k * sqrt (Rabs (t_lares_n t - t_lares_n_prev t) / t_dt t)) +
  times 2 l * (cs2a k * sqrt (Rabs (t_dai_n t - t_dai_n_prev t) / t_dt t)) +
  times 3 l * (cs3a k * Rsqr (anode_spread F c)) +
  times 4 l * (cs4a k * (Rmax (cs4Amax k) (s_CS (cs c)) - s_CS (cs c)) * Rabs (s_I (cs c))) +
  times 5 l * (stage (s_I (cs c)) (anode_filling F c) * kin c o e).
Lemma kcr_stage i z a b : (if isDischargingI i then nZ 0 else if nltb z (nlit 3 10) then nmul (nmul (nZ 2) a) b
  else if nltb z (nlit 7 10) then nZ 0 else nmul a b) = stage i z * (a * b).
Proof.
  unfold stage, isDischargingI. rewrite !R_nZ, !R_nlit.
  destruct (Rlt_dec 0 i) as [L|L]; [rewrite (proj2 (Rltb_true _ _) L); ring|]. rewrite (proj2 (Rltb_false _ _) (Rnot_lt_le _ _ L)).
  destruct (Rlt_dec z (3 / 10)) as [K|K]; [rewrite (proj2 (Rltb_true _ _) K); cbn [nmul RNum]; ring|].
  rewrite (proj2 (Rltb_false _ _) (Rnot_lt_le _ _ K)).
  destruct (Rlt_dec z (7 / 10)) as [J|J]; [rewrite (proj2 (Rltb_true _ _) J)|rewrite (proj2 (Rltb_false _ _) (Rnot_lt_le _ _ J)); cbn [nmul RNum]]; ring.
Qed.
Lemma cs_all_law c o e l : forall a b x y, cs_all F c o e l a b = Ok (x, y) -> y = b + cs_law c o e l.
Proof.
  induction l as [|i l IH]; intros a b x y H.
  { cbn [cs_all] in H. injection H as <- <-. unfold cs_law, times. cbn. ring. }
  cbn [cs_all] in H. destruct (cs_one F c o e i) as [[d f]|?| |] eqn:E; try discriminate. cbn [rbind] in H. rewrite (IH _ _ _ _ H). clear H IH.
  unfold cs_one in E. unfold cs_law. rewrite !times_cons.
  destruct i as [|[[?|[?|?|]|]|[?|[?|?|]|]|]|?]; try discriminate E.
  - injection E as <- <-. cbn [Z.eqb]. ring.
  - unfold anode_filling. destruct (surface_getC F c) as [q Eq]. rewrite Eq in E. apply Ok_inj in E.
    assert (E1 : f = true) by congruence. apply (f_equal fst) in E. cbn [fst] in E. subst f d.
    rewrite R_nZ. cbn [Z.eqb Pos.eqb nadd RNum]. unfold kin.
    cbn [ndiv nmul nopp nsub RNum]. rewrite !R_nZ.
    match goal with |- context [if isDischargingI ?u then ?v else ?w] =>
      pose proof (kcr_stage u (snd (surface F c) / q_Cmaxn (cp c)) (cs5k (q_cs (cp c)))
        (f_exp F (cs5kT (q_cs (cp c)) / RGAS * (1 / q_Tref (cp c) - 1 / s_T (cs c))))) as KS end.
    cbn [nmul RNum] in KS. rewrite !R_nZ in KS. rewrite KS. ring.
  - unfold anode_spread. destruct (getC F c) as [p q]. apply Ok_inj in E. assert (E1 : f = true) by congruence; apply (f_equal fst) in E; cbn [fst] in E; subst f d. rewrite R_nZ.
    cbn [Z.eqb Pos.eqb nadd nmul nsub ndiv RNum snd]. unfold Rsqr. ring.
  - apply Ok_inj in E. assert (E1 : f = true) by congruence; apply (f_equal fst) in E; cbn [fst] in E; subst f d. rewrite nmax_max. cbn [Z.eqb Pos.eqb nadd nmul nsub ndiv nabs RNum]. ring.
  - destruct (negb _); [discriminate E|]. apply Ok_inj in E. assert (E1 : f = true) by congruence; apply (f_equal fst) in E; cbn [fst] in E; subst f d. cbn [Z.eqb Pos.eqb nadd nmul nsub ndiv nabs nsqrt RNum]. ring.
  - destruct (negb _); [discriminate E|]. apply Ok_inj in E. assert (E1 : f = true) by congruence; apply (f_equal fst) in E; cbn [fst] in E; subst f d. cbn [Z.eqb Pos.eqb nadd nmul nsub ndiv nabs nsqrt RNum]. ring.
Qed.
End Laws.
