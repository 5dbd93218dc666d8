(** * Proofs about the combination of degradation models *)
From Coq Require Import Reals Lra Permutation Psatz.
From Verif Require Import Base RFacts StatusModel UtilModel CellModel CellSpec SpmModel SpmUnitModel SpmSpec SpmProofs SpmReal SpmAge
  PhysSpec PhysProofs DegSpec.
Local Open Scope R_scope.

Section Deg.
Variable F : fns R.

(** ** The call up to the degradation derivatives does not depend on the selected models *)

Lemma V_models d c : spm_V F (models d c) = (models d (fst (spm_V F c)), snd (spm_V F c)).
Proof.
  unfold spm_V. change (c_valid (models d c)) with (c_valid c). change (calcV F (models d c)) with (calcV F c).
  destruct (c_valid c); [reflexivity|]. destruct (calcV F c) as [[v|]|e| |]; reflexivity.
Qed.
Lemma step1_models d dt c : spm_step1 F dt (models d c) = (models d (fst (spm_step1 F dt c)), snd (spm_step1 F dt c)).
Proof.
  unfold spm_step1. change (calcDiffConstant F (models d c)) with (calcDiffConstant F c). change (calcMolarFlux (models d c)) with (calcMolarFlux c).
  change (cs (models d c)) with (cs c). change (q_M (cp (models d c))) with (q_M (cp c)). change (q_cap (cp (models d c))) with (q_cap (cp c)).
  change (c_str (models d c)) with (c_str c).
  destruct (calcDiffConstant F c) as [dp dn]. destruct (calcMolarFlux c) as [[i jp] jn].
  match goal with |- context [spm_V F (set_str (set_valid (set_st (models d c) ?a) false) ?s)] =>
    change (set_str (set_valid (set_st (models d c) a) false) s) with (models d (set_str (set_valid (set_st c a) false) s));
    set (x := set_str (set_valid (set_st c a) false) s) end.
  rewrite V_models. destruct (spm_V F x) as [e [v|y| |]]; reflexivity.
Qed.
Lemma steps_models d n dt : forall c, spm_steps F n dt (models d c) = (models d (fst (spm_steps F n dt c)), snd (spm_steps F n dt c)).
Proof.
  induction n as [|n IH]; intros c; [reflexivity|]. rewrite !steps_S, step1_models.
  destruct (spm_step1 F dt c) as [c1 r]. cbn [fst snd]. destruct r as [[]|e| |]; [apply IH|reflexivity..].
Qed.

(** Heating and stresses. *)
Definition warm (tm : Z) (c : spm R) : spm R * res unit :=
  if c_parent c then (c, Ok tt)
  else match spm_thermal tm [(c_Tenv c, q_Qch (cp c), q_Acell (cp c))] (c_tth c) c with
       | (c', Ok t) => (spm_setT t c', Ok tt)
       | (c', Throw n) => (c', Throw n) | (c', UB) => (c', UB) | (c', Fuel) => (c', Fuel)
       end.
Definition dai (c : spm R) : spm R := if q_sdai (cp c) then updateDaiStress F c else c.
Definition lares (c : spm R) : spm R * res unit := if q_slares (cp c) then updateLaresgoitiStress F c else (c, Ok tt).
Definition pre (tm : Z) (dt : R) (n : Z) (c : spm R) : res (spm R) :=
  match dState_thermal F c with
  | Ok dq =>
      match warm tm (set_therm c (nadd (c_Q c) (nmul (nmul dq dt) (nZ n))) (c_Qtot c) (nadd (c_tth c) (nmul dt (nZ n)))) with
      | (c1, Ok _) => match lares (dai c1) with (c2, Ok _) => Ok c2 | _ => Throw 0 end
      | _ => Throw 0
      end
  | _ => Throw 0
  end.
Lemma heat_age_pre tm dt n c c' : spm_heat_age F tm dt n c = (c', Ok tt) <->
  exists c3 r, pre tm dt n c = Ok c3 /\ dState_degradation F c3 = Ok r /\ c' = set_st c3 (age (cs c3) r dt (nZ n)).
Proof.
  unfold spm_heat_age, mbind, pre, warm, lares, dai. destruct (dState_thermal F c) as [dq|e| |].
  2-4: split; [discriminate|intros (? & ? & H & _); discriminate].
  set (c0 := set_therm c _ _ _).
  match goal with |- context [if c_parent c0 then ?x else ?y] => destruct (if c_parent c0 then x else y) as [c1 r1] end.
  destruct r1 as [[]|e| |].
  2-4: split; [discriminate|intros (? & ? & H & _); discriminate].
  destruct (if q_slares _ then _ else _) as [c2 r2].
  destruct r2 as [[]|e| |].
  2-4: split; [discriminate|intros (? & ? & H & _); discriminate].
  destruct (dState_degradation F c2) as [d|e| |] eqn:E.
  2-4: split; [discriminate|intros (? & ? & H & H1 & _); injection H as <-; congruence].
  split.
  - intros H. injection H as <-. exists c2, d. now split.
  - intros (c3 & r & H1 & H2 & ->). injection H1 as <-. rewrite E in H2. injection H2 as <-. reflexivity.
Qed.
Lemma thermal_models d tm nb tim c : spm_thermal tm nb tim (models d c) =
  (models d (fst (spm_thermal tm nb tim c)), snd (spm_thermal tm nb tim c)).
Proof. reflexivity. Qed.
Lemma pre_models d tm dt n c : pre tm dt n (models d c) = rmap (models d) (pre tm dt n c).
Proof.
  unfold pre. change (dState_thermal F (models d c)) with (dState_thermal F c). destruct (dState_thermal F c) as [dq|e| |]; [|reflexivity..].
  match goal with |- context [warm tm (set_therm (models d c) ?x ?y ?z)] =>
    change (set_therm (models d c) x y z) with (models d (set_therm c x y z)); set (c0 := set_therm c x y z);
    change (set_therm c x y z) with c0 end.
  match goal with |- context [warm tm (set_therm c ?x ?y ?z)] => change (set_therm c x y z) with c0 end.
  assert (W : warm tm (models d c0) = (models d (fst (warm tm c0)), snd (warm tm c0))).
  { unfold warm. change (c_parent (models d c0)) with (c_parent c0). destruct (c_parent c0); [reflexivity|].
    change (c_Tenv (models d c0)) with (c_Tenv c0). change (q_Qch (cp (models d c0))) with (q_Qch (cp c0)).
    change (q_Acell (cp (models d c0))) with (q_Acell (cp c0)). change (c_tth (models d c0)) with (c_tth c0).
    rewrite thermal_models. destruct (spm_thermal tm _ _ c0) as [c1 [t|e| |]]; reflexivity. }
  rewrite W. destruct (warm tm c0) as [c1 r1]. cbn [fst snd]. destruct r1 as [[]|e| |]; [|reflexivity..].
  assert (D : dai (models d c1) = models d (dai c1)).
  { unfold dai. change (q_sdai (cp (models d c1))) with (q_sdai (cp c1)). destruct (q_sdai (cp c1)); [|reflexivity].
    unfold updateDaiStress. change (getC F (models d c1)) with (getC F c1). destruct (getC F c1). reflexivity. }
  rewrite D. set (c2 := dai c1). clearbody c2.
  assert (L : lares (models d c2) = (models d (fst (lares c2)), snd (lares c2))).
  { unfold lares. change (q_slares (cp (models d c2))) with (q_slares (cp c2)). destruct (q_slares (cp c2)); [|reflexivity].
    unfold updateLaresgoitiStress. change (laresgoiti F (models d c2)) with (laresgoiti F c2). destruct (laresgoiti F c2); reflexivity. }
  rewrite L. destruct (lares c2) as [c3 [[]|e| |]]; reflexivity.
Qed.

(** The cell before its degradation is added, for a call that is not blocked. *)
Definition before (tm : Z) (dt : R) (n : Z) (c : spm R) : res (spm R) :=
  if nltb dt (nZ 0) then Throw 0
  else
    let t := c_str c in
    match spm_steps F (Z.to_nat n) dt
            (set_str c (mkStr (t_dai_up t) (t_lares_up t) (t_dai_p t) (t_dai_n t) (t_lares_n t)
                              (t_dai_p t) (t_dai_n t) (t_lares_n t) (nmul (nZ n) dt))) with
    | (c2, Ok _) => pre tm dt n c2
    | _ => Throw 0
    end.
Lemma timeStep_before tm dt n c c' : c_block c = false ->
  spm_timeStep_CC F tm dt n c = (c', Ok tt) <->
  exists c3 r, before tm dt n c = Ok c3 /\ dState_degradation F c3 = Ok r /\ c' = set_st c3 (age (cs c3) r dt (nZ n)).
Proof.
  intros NB. unfold spm_timeStep_CC, before. destruct (nltb dt (nZ 0)).
  { split; [discriminate|intros (? & ? & H & _); discriminate]. }
  match goal with |- context [spm_steps F _ _ (set_str c ?t)] => set (s := t) end.
  destruct (steps_block F (Z.to_nat n) dt (set_str c s)) as (B & _). change (c_block (set_str c s)) with (c_block c) in B.
  destruct (spm_steps F (Z.to_nat n) dt (set_str c s)) as [c2 [[]|e| |]].
  2-4: split; [discriminate|intros (? & ? & H & _); discriminate].
  cbn [fst] in B. rewrite B, NB. apply heat_age_pre.
Qed.
Lemma before_models tm dt n d c : before tm dt n (models d c) = rmap (models d) (before tm dt n c).
Proof.
  unfold before. destruct (nltb dt (nZ 0)); [reflexivity|].
  match goal with |- context [spm_steps F _ _ (set_str (models d c) ?t)] =>
    change (set_str (models d c) t) with (models d (set_str c t)); change t with
      (mkStr (t_dai_up (c_str c)) (t_lares_up (c_str c)) (t_dai_p (c_str c)) (t_dai_n (c_str c)) (t_lares_n (c_str c))
             (t_dai_p (c_str c)) (t_dai_n (c_str c)) (t_lares_n (c_str c)) (nmul (nZ n) dt)) end.
  rewrite steps_models. destruct (spm_steps F _ dt (set_str c _)) as [c2 [[]|e| |]]; cbn [fst snd]; [apply pre_models|reflexivity..].
Qed.

(** A call with models [d], and its result. *)
Lemma run_models tm dt n c d c' : c_block c = false ->
  spm_timeStep_CC F tm dt n (models d c) = (c', Ok tt) <->
  exists c3 r, before tm dt n c = Ok c3 /\ dState_degradation F (models d c3) = Ok r /\ c' = set_st (models d c3) (age (cs c3) r dt (nZ n)).
Proof.
  intros NB. rewrite timeStep_before by exact NB. rewrite before_models. split.
  - intros (c3 & r & H1 & H2 & ->). destruct (before tm dt n c) as [c4|e| |]; try discriminate. injection H1 as <-. exists c4, r. now split.
  - intros (c3 & r & -> & H2 & ->). exists (models d c3), r. now split.
Qed.
(** What [before] keeps of the cell, and how it relates to the blocked call. *)
Lemma pre_st tm dt n c c3 : pre tm dt n c = Ok c3 -> cp c3 = cp c /\ exists t, cs c3 = st_T (cs c) t.
Proof.
  unfold pre. destruct (dState_thermal F c) as [dq|e| |]; try discriminate.
  match goal with |- context [warm tm ?x] => set (c0 := x) end.
  assert (W : cp (fst (warm tm c0)) = cp c0 /\ exists t, cs (fst (warm tm c0)) = st_T (cs c0) t).
  { unfold warm. destruct (c_parent c0); [split; [reflexivity|exists (s_T (cs c0)); symmetry; apply st_T_id]|].
    unfold spm_thermal. match goal with |- context [match ?x with Ok t => _ | Throw n => _ | UB => _ | Fuel => _ end] => destruct x end;
      cbn [fst spm_setT set_str set_st set_therm cp cs]; (split; [reflexivity|]); eexists; first [reflexivity|symmetry; apply st_T_id]. }
  destruct (warm tm c0) as [c1 [[]|e| |]]; try discriminate. cbn [fst] in W.
  assert (D : cp (dai c1) = cp c1 /\ cs (dai c1) = cs c1).
  { unfold dai. destruct (q_sdai (cp c1)); [|now split]. unfold updateDaiStress. destruct (getC F c1). now split. }
  assert (L : cp (fst (lares (dai c1))) = cp (dai c1) /\ cs (fst (lares (dai c1))) = cs (dai c1)).
  { unfold lares. destruct (q_slares (cp (dai c1))); [|now split]. unfold updateLaresgoitiStress. destruct (laresgoiti F (dai c1)); now split. }
  destruct (lares (dai c1)) as [c2 [[]|e| |]]; try discriminate. cbn [fst] in L. intros H. injection H as <-.
  destruct W as (W1 & t & W2), D as [D1 D2], L as [L1 L2]. change (cp c0) with (cp c) in W1. change (cs c0) with (cs c) in W2.
  split; [congruence|]. exists t. congruence.
Qed.
Lemma before_blk tm dt n c c3 : c_block c = false -> before tm dt n c = Ok c3 ->
  exists c2, spm_timeStep_CC F tm dt n (after F tm (OpBlock true) c) = (blk true c2, Ok tt) /\ cp c2 = cp c /\ cp c3 = cp c /\
    (exists t, cs c3 = st_T (cs c2) t) /\ ageing c2 = ageing c /\ s_I (cs c2) = s_I (cs c) /\ 0 <= dt.
Proof.
  intros NB. unfold before, spm_timeStep_CC. destruct (nltb dt (nZ 0)) eqn:Hd; [discriminate|].
  rewrite R_nZ in Hd. apply Rltb_false in Hd.
  match goal with |- context [spm_steps F _ _ (set_str c ?t)] => set (s := t) end.
  change (set_str (after F tm (OpBlock true) c) _) with (blk true (set_str c s)). rewrite steps_blk.
  destruct (steps_block F (Z.to_nat n) dt (set_str c s)) as (B1 & B2 & B3).
  assert (AG : ageing (fst (spm_steps F (Z.to_nat n) dt (set_str c s))) = ageing c /\ s_I (cs (fst (spm_steps F (Z.to_nat n) dt (set_str c s)))) = s_I (cs c)).
  { change (ageing c) with (ageing (set_str c s)). change (s_I (cs c)) with (s_I (cs (set_str c s))). generalize (set_str c s). clear.
    induction (Z.to_nat n) as [|k IH]; intros x; [now split|]. rewrite steps_S. pose proof (step1_passed F dt x) as P.
    destruct (spm_step1 F dt x) as [y r]. cbn [fst] in P. destruct r as [[]|e| |]; cbn [fst];
      [destruct (IH y) as [-> ->]; split; apply P|split; apply P..]. }
  destruct (spm_steps F (Z.to_nat n) dt (set_str c s)) as [c2 [[]|e| |]]; try discriminate. cbn [fst snd] in *. intros H.
  exists c2. split; [reflexivity|]. destruct (pre_st _ _ _ _ _ H) as [P1 P2]. split; [exact B2|]. split; [rewrite P1; exact B2|].
  split; [exact P2|]. split; [apply AG|]. split; [apply AG|exact Hd].
Qed.
Lemma before_same tm dt n c c3 : c_block c = false -> before tm dt n c = Ok c3 -> cp c3 = cp c /\ ageing c3 = ageing c /\ s_I (cs c3) = s_I (cs c) /\ 0 <= dt.
Proof.
  intros NB H. destruct (before_blk tm dt n c c3 NB H) as (c2 & _ & P2 & P3 & (t & E) & A & I1 & D).
  split; [exact P3|]. split; [unfold ageing in *; rewrite E; exact A|]. split; [rewrite E; exact I1|exact D].
Qed.

(** Stresses are those of the end of the call: the flags are set only by the models in use. *)
Lemma steps_flags n dt : forall c, (n <> 0)%nat -> snd (spm_steps F n dt c) = Ok tt ->
  t_dai_up (c_str (fst (spm_steps F n dt c))) = false /\ t_lares_up (c_str (fst (spm_steps F n dt c))) = false.
Proof.
  assert (S1 : forall c, t_dai_up (c_str (fst (spm_step1 F dt c))) = false /\ t_lares_up (c_str (fst (spm_step1 F dt c))) = false).
  { intros c. unfold spm_step1. destruct (calcDiffConstant F c) as [dp dn]. destruct (calcMolarFlux c) as [[i jp] jn].
    match goal with |- context [spm_V F ?x] => set (c1 := x); destruct (spm_V F c1) as [c2 r] eqn:E end.
    destruct (V_same _ _ _ _ E) as (_ & _ & K & _). destruct r; cbn [fst set_st c_str]; rewrite K; now split. }
  induction n as [|n IH]; intros c Hn; [easy|]. rewrite steps_S. specialize (S1 c). destruct (spm_step1 F dt c) as [c1 [[]|e| |]]; [|discriminate..].
  destruct n as [|n]; [intros _; exact S1|]. intros H. apply IH; [easy|exact H].
Qed.
Lemma before_flags tm dt n c c3 : (0 < n)%Z -> before tm dt n c = Ok c3 ->
  (t_dai_up (c_str c3) = true -> q_sdai (cp c3) = true) /\ (t_lares_up (c_str c3) = true -> q_slares (cp c3) = true).
Proof.
  intros Hn. unfold before. destruct (nltb dt (nZ 0)); [discriminate|].
  match goal with |- context [spm_steps F _ _ (set_str c ?t)] => set (s := t) end.
  pose proof (steps_flags (Z.to_nat n) dt (set_str c s) ltac:(lia)) as SF.
  destruct (spm_steps F (Z.to_nat n) dt (set_str c s)) as [c2 [[]|e| |]]; try discriminate. specialize (SF eq_refl). cbn [fst] in SF.
  unfold pre. destruct (dState_thermal F c2) as [dq|e| |]; try discriminate.
  match goal with |- context [warm tm ?x] => set (c0 := x) end.
  assert (W : t_dai_up (c_str (fst (warm tm c0))) = false /\ t_lares_up (c_str (fst (warm tm c0))) = false).
  { unfold warm. destruct (c_parent c0); [exact SF|]. unfold spm_thermal.
    match goal with |- context [match ?x with Ok t => _ | Throw n => _ | UB => _ | Fuel => _ end] => destruct x end; [now split|exact SF..]. }
  destruct (warm tm c0) as [c1 [[]|e| |]]; try discriminate. cbn [fst] in W. destruct W as [W1 W2]. unfold lares, dai.
  destruct (q_sdai (cp c1)) eqn:Q1.
  - unfold updateDaiStress. destruct (getC F c1) as [x y]. match goal with |- context [set_str c1 ?u] => set (c4 := set_str c1 u) end.
    assert (t_lares_up (c_str c4) = false) by exact W2. change (cp c4) with (cp c1). destruct (q_slares (cp c1)) eqn:Q2.
    + unfold updateLaresgoitiStress. destruct (laresgoiti F c4); try discriminate. intros E. injection E as <-. cbn [set_str cp]. change (cp c4) with (cp c1). now rewrite Q1, Q2.
    + intros E. injection E as <-. change (cp c4) with (cp c1). rewrite Q1. split; congruence.
  - destruct (q_slares (cp c1)) eqn:Q2.
    + unfold updateLaresgoitiStress. destruct (laresgoiti F c1); try discriminate. intros E. injection E as <-. cbn [set_str cp c_str t_dai_up]. rewrite Q2. split; congruence.
    + intros E. injection E as <-. split; congruence.
Qed.

(** ** The derivatives as a function of the models *)

(** What is common to all models. *)
Record ctx := mkCtx { x_ocv : R; x_en : R; x_zp : R; x_ep : R }.
Definition context_of (c : spm R) : res ctx :=
  let '(dpt, dnt) := calcDiffConstant F c in
  let '(i_app, jp, jn) := calcMolarFlux c in
  let '(cps, cns) := calcSurfaceConcentration c jp jn dpt dnt in
  if conc_bad c cps cns then Throw 101
  else
    let '(etap, etan) := calcOverPotential F c cps cns i_app in
    rbind (XYdata_interp (q_dOCVn (cp c)) (ndiv cps (q_Cmaxp (cp c))) true) (fun dOCVn =>
    rbind (XYdata_interp (q_OCVn (cp c)) (ndiv cns (q_Cmaxn (cp c))) true) (fun ocvn =>
    Ok (mkCtx (nadd ocvn (nmul (nsub (s_T (cs c)) (q_Tref (cp c))) dOCVn)) etan (ndiv cps (q_Cmaxp (cp c))) etap))).
Definition por_of (p : Z) (c : spm R) (isei : R) : res R :=
  match p with
  | 0%Z => Ok (nZ 0)
  | 1%Z =>
      let jn := ndiv (ndiv (s_I (cs c)) (q_surf (cp c))) (nmul (nmul (nmul (s_an (cs c)) (q_n (cp c))) FARADAY) (s_thickn (cs c))) in
      Ok (nmul (nopp (sei_por (q_sei (cp c)))) (nadd (nmul jn (q_Vmain (cp c))) (nmul isei (q_Vsei (cp c)))))
  | _ => Throw 106
  end.
Definition diff_of (p : Z) (c : spm R) (dcs : R) : res R :=
  let s := cs c in let k := q_cs (cp c) in
  match p with
  | 0%Z => Ok (nZ 0)
  | 1%Z =>
      let amax := nmax (cs4Amax k) (s_CS s) in
      let dnmax := nmin (nlit 2 10000000)
                        (nmul (ndiv (nmul (cs_diff k) (f_pow F (nsub (nZ 1) (ndiv (s_CS s) amax)) (nsub (cs_diff k) (nZ 1)))) amax) dcs) in
      Ok (nmul (nopp dnmax) (s_Dn s))
  | _ => Throw 106
  end.
Definition lam0 : lam_acc R := mkLA (nZ 0) (nZ 0) (nZ 0) (nZ 0) (nZ 0) (nZ 0).
Definition rates (c : spm R) (isei den ism dcs dDn : R) (r : lam_acc R) (ipl : R) : ddeg R :=
  let s := cs c in let p := cp c in
  mkDD (isei / (q_nsei p * FARADAY * q_rhosei p))
       ((isei + isei * ism + ipl) * q_surf p * s_thickn s * s_an s)
       (a_tp r) (a_tn r) (a_ep r) (a_en r + den)
       (a_ap r + 3 / q_Rp p * a_ep r) (a_an r + 3 / q_Rn p * (a_en r + den))
       dcs dDn (ipl / (q_npl p * FARADAY * q_rhopl p))
       (map (fun b => 0 + (b * isei / (q_nsei p * FARADAY) + b * (isei * ism) / (q_nsei p * FARADAY) + b * ipl / (q_npl p * FARADAY))) (m_Bn (q_M p))).
Lemma sei_all_models d c o e ids : forall a, sei_all F (models d c) o e ids a = sei_all F c o e ids a.
Proof.
  induction ids as [|i ids IH]; intros a; [reflexivity|]. cbn [sei_all]. change (sei_one F (models d c) o e i) with (sei_one F c o e i).
  destruct (sei_one F c o e i); [apply IH|reflexivity..].
Qed.
Lemma cs_all_models d c o e ids : forall a b, cs_all F (models d c) o e ids a b = cs_all F c o e ids a b.
Proof.
  induction ids as [|i ids IH]; intros a b; [reflexivity|]. cbn [cs_all]. change (cs_one F (models d c) o e i) with (cs_one F c o e i).
  destruct (cs_one F c o e i) as [[x y]|n| |]; [apply IH|reflexivity..].
Qed.
Lemma lam_all_models d c o e ids : forall r, lam_all F (models d c) o e ids r = lam_all F c o e ids r.
Proof.
  induction ids as [|i ids IH]; intros r; [reflexivity|]. cbn [lam_all]. change (lam_one F (models d c) o e i r) with (lam_one F c o e i r).
  destruct (lam_one F c o e i r); [apply IH|reflexivity..].
Qed.
Definition plating_of (p : Z) (c : spm R) (o e : R) : res R := LiPlating F (models (mkDeg [] 0 [] 0 [] p) c) o e.
Lemma SEI_parts d c o e : SEI F (models d c) o e =
  rbind (sei_all F c o e (d_SEI d) 0) (fun i => rbind (por_of (d_por d) c i) (fun p => Ok (i, p))).
Proof.
  unfold SEI. change (q_deg (cp (models d c))) with d. rewrite sei_all_models, R_nZ.
  destruct (sei_all F c o e (d_SEI d) 0) as [i|n| |]; [|reflexivity..]. cbn [rbind]. unfold por_of.
  destruct (d_por d) as [|[q|q|]|q]; try reflexivity. cbn [rbind]. now rewrite R_nZ.
Qed.
Lemma CS_parts d c o e : CSm F (models d c) o e =
  rbind (cs_all F c o e (d_CS d) 0 0) (fun '(i, x) => rbind (diff_of (d_csdiff d) c x) (fun y => Ok (i, x, y))).
Proof.
  unfold CSm. change (q_deg (cp (models d c))) with d. rewrite cs_all_models, R_nZ.
  destruct (cs_all F c o e (d_CS d) 0 0) as [[i x]|n| |]; [|reflexivity..]. cbn [rbind]. unfold diff_of.
  destruct (d_csdiff d) as [|[q|q|]|q]; try reflexivity. cbn [rbind]. now rewrite R_nZ.
Qed.
Lemma degr_eq c d : dState_degradation F (models d c) =
  rbind (context_of c) (fun k =>
  rbind (sei_all F c (x_ocv k) (x_en k) (d_SEI d) 0) (fun isei =>
  rbind (por_of (d_por d) c isei) (fun den =>
  rbind (cs_all F c (x_ocv k) (x_en k) (d_CS d) 0 0) (fun '(ism, dcs) =>
  rbind (diff_of (d_csdiff d) c dcs) (fun dDn =>
  rbind (lam_all F c (x_zp k) (x_ep k) (d_LAM d) lam0) (fun r =>
  rbind (plating_of (d_pl d) c (x_ocv k) (x_en k)) (fun ipl =>
  Ok (rates c isei den ism dcs dDn r ipl)))))))).
Proof.
  unfold dState_degradation, context_of.
  change (calcDiffConstant F (models d c)) with (calcDiffConstant F c). change (calcMolarFlux (models d c)) with (calcMolarFlux c).
  destruct (calcDiffConstant F c) as [dpt dnt]. destruct (calcMolarFlux c) as [[ia jp] jn].
  change (calcSurfaceConcentration (models d c) jp jn dpt dnt) with (calcSurfaceConcentration c jp jn dpt dnt).
  destruct (calcSurfaceConcentration c jp jn dpt dnt) as [cps cns].
  change (conc_bad (models d c) cps cns) with (conc_bad c cps cns). destruct (conc_bad c cps cns); [reflexivity|].
  change (calcOverPotential F (models d c) cps cns ia) with (calcOverPotential F c cps cns ia).
  destruct (calcOverPotential F c cps cns ia) as [etap etan].
  change (q_dOCVn (cp (models d c))) with (q_dOCVn (cp c)). change (q_OCVn (cp (models d c))) with (q_OCVn (cp c)).
  change (q_Cmaxp (cp (models d c))) with (q_Cmaxp (cp c)). change (q_Cmaxn (cp (models d c))) with (q_Cmaxn (cp c)).
  destruct (XYdata_interp (q_dOCVn (cp c)) _ true) as [dOCVn|e| |]; [|reflexivity..].
  destruct (XYdata_interp (q_OCVn (cp c)) _ true) as [ocvn|e| |]; [|reflexivity..]. cbn [rbind x_ocv x_en x_zp x_ep].
  change (s_T (cs (models d c))) with (s_T (cs c)). change (q_Tref (cp (models d c))) with (q_Tref (cp c)).
  set (o := nadd ocvn _). rewrite SEI_parts.
  destruct (sei_all F c o etan (d_SEI d) 0) as [isei|e| |]; [|reflexivity..]. cbn [rbind].
  destruct (por_of (d_por d) c isei) as [den|e| |]; [|reflexivity..]. cbn [rbind]. rewrite CS_parts.
  destruct (cs_all F c o etan (d_CS d) 0 0) as [[ism dcs]|e| |]; [|reflexivity..]. cbn [rbind].
  destruct (diff_of (d_csdiff d) c dcs) as [dDn|e| |]; [|reflexivity..]. cbn [rbind].
  unfold LAM. change (q_deg (cp (models d c))) with d. rewrite lam_all_models. fold lam0.
  destruct (lam_all F c _ etap (d_LAM d) lam0) as [r|e| |]; [|reflexivity..]. cbn [rbind].
  change (LiPlating F (models d c) o etan) with (plating_of (d_pl d) c o etan).
  destruct (plating_of (d_pl d) c o etan) as [ipl|e| |]; [|reflexivity..]. cbn [rbind].
  unfold rates. rewrite !R_nZ. reflexivity.
Qed.
Lemma degr_parts c d x : dState_degradation F (models d c) = Ok x <->
  exists k isei den ism dcs dDn r ipl,
    context_of c = Ok k /\ sei_all F c (x_ocv k) (x_en k) (d_SEI d) 0 = Ok isei /\ por_of (d_por d) c isei = Ok den /\
    cs_all F c (x_ocv k) (x_en k) (d_CS d) 0 0 = Ok (ism, dcs) /\ diff_of (d_csdiff d) c dcs = Ok dDn /\
    lam_all F c (x_zp k) (x_ep k) (d_LAM d) lam0 = Ok r /\
    plating_of (d_pl d) c (x_ocv k) (x_en k) = Ok ipl /\
    x = rates c isei den ism dcs dDn r ipl.
Proof.
  rewrite degr_eq. split.
  - destruct (context_of c) as [k|e| |]; [|discriminate..]. cbn [rbind].
    destruct (sei_all F c _ _ (d_SEI d) 0) as [isei|e| |] eqn:E1; [|discriminate..]. cbn [rbind].
    destruct (por_of (d_por d) c isei) as [den|e| |] eqn:E2; [|discriminate..]. cbn [rbind].
    destruct (cs_all F c _ _ (d_CS d) 0 0) as [[ism dcs]|e| |] eqn:E3; [|discriminate..]. cbn [rbind].
    destruct (diff_of (d_csdiff d) c dcs) as [dDn|e| |] eqn:E4; [|discriminate..]. cbn [rbind].
    destruct (lam_all F c _ _ (d_LAM d) lam0) as [r|e| |] eqn:E5; [|discriminate..]. cbn [rbind].
    destruct (plating_of (d_pl d) c _ _) as [ipl|e| |] eqn:E6; [|discriminate..]. cbn [rbind].
    intros H. exists k, isei, den, ism, dcs, dDn, r, ipl. repeat split; try assumption. congruence.
  - intros (k & isei & den & ism & dcs & dDn & r & ipl & E0 & E1 & E2 & E3 & E4 & E5 & E6 & ->).
    rewrite E0. cbn [rbind]. rewrite E1. cbn [rbind]. rewrite E2. cbn [rbind]. rewrite E3. cbn [rbind]. rewrite E4. cbn [rbind].
    rewrite E5. cbn [rbind]. rewrite E6. reflexivity.
Qed.

(** ** Lists of models *)

Lemma sei_app c o e l2 l1 : forall a, sei_all F c o e (l1 ++ l2) a = rbind (sei_all F c o e l1 a) (sei_all F c o e l2).
Proof. induction l1 as [|i l1 IH]; intros a; [reflexivity|]. cbn [app sei_all]. destruct (sei_one F c o e i); [apply IH|reflexivity..]. Qed.
Lemma sei_shift c o e l : forall a b x, sei_all F c o e l a = Ok x -> sei_all F c o e l b = Ok (x - a + b).
Proof.
  induction l as [|i l IH]; intros a b x; cbn [sei_all].
  - intros H. injection H as <-. f_equal. ring.
  - destruct (sei_one F c o e i) as [y|n| |]; try discriminate. cbn [rbind]. intros H. rewrite (IH _ (nadd b y) _ H).
    f_equal. cbn [nadd RNum]. ring.
Qed.
Lemma sei_sum c o e l1 l2 x y z : sei_all F c o e l1 0 = Ok x -> sei_all F c o e l2 0 = Ok y -> sei_all F c o e (l1 ++ l2) 0 = Ok z -> z = x + y.
Proof. intros H1 H2 H3. rewrite sei_app, H1 in H3. cbn [rbind] in H3. rewrite (sei_shift c o e l2 0 x y H2) in H3. injection H3 as <-. ring. Qed.
Lemma sei_perm c o e l l' : Permutation l l' -> forall a x, sei_all F c o e l a = Ok x -> sei_all F c o e l' a = Ok x.
Proof.
  induction 1 as [|i l l' P IH|i j l|l1 l2 l3 P1 IH1 P2 IH2]; intros a x; cbn [sei_all].
  - easy.
  - destruct (sei_one F c o e i); try discriminate. apply IH.
  - destruct (sei_one F c o e j) as [u|n| |]; try discriminate. cbn [rbind]. destruct (sei_one F c o e i) as [v|n| |]; try discriminate. cbn [rbind].
    intros H. rewrite <- H. f_equal. cbn [nadd RNum]. ring.
  - intros H. now apply IH2, IH1.
Qed.
Lemma cs_app c o e l2 l1 : forall a b, cs_all F c o e (l1 ++ l2) a b = rbind (cs_all F c o e l1 a b) (fun '(x, y) => cs_all F c o e l2 x y).
Proof. induction l1 as [|i l1 IH]; intros a b; [reflexivity|]. cbn [app cs_all]. destruct (cs_one F c o e i) as [[x y]|n| |]; [apply IH|reflexivity..]. Qed.
Lemma cs_shift c o e l : forall a b a' b' x y, cs_all F c o e l a b = Ok (x, y) -> cs_all F c o e l a' b' = Ok (x - a + a', y - b + b').
Proof.
  induction l as [|i l IH]; intros a b a' b' x y; cbn [cs_all].
  - intros H. injection H as <- <-. do 2 f_equal; ring.
  - destruct (cs_one F c o e i) as [[u v]|n| |]; try discriminate. cbn [rbind]. intros H.
    rewrite (IH _ _ (if v then nadd a' (ndiv (s_CS (cs c)) (anode_surface c)) else a') (if v then nadd b' u else b') _ _ H).
    do 2 f_equal; destruct v; cbn [nadd RNum]; ring.
Qed.
Lemma cs_sum c o e l1 l2 x y z x' y' z' : cs_all F c o e l1 0 0 = Ok (x, x') -> cs_all F c o e l2 0 0 = Ok (y, y') ->
  cs_all F c o e (l1 ++ l2) 0 0 = Ok (z, z') -> z = x + y /\ z' = x' + y'.
Proof.
  intros H1 H2 H3. rewrite cs_app, H1 in H3. cbn [rbind] in H3. rewrite (cs_shift c o e l2 0 0 x x' y y' H2) in H3.
  injection H3 as <- <-. split; ring.
Qed.
Lemma cs_perm c o e l l' : Permutation l l' -> forall a b x, cs_all F c o e l a b = Ok x -> cs_all F c o e l' a b = Ok x.
Proof.
  induction 1 as [|i l l' P IH|i j l|l1 l2 l3 P1 IH1 P2 IH2]; intros a b x; cbn [cs_all].
  - easy.
  - destruct (cs_one F c o e i) as [[u v]|n| |]; try discriminate. apply IH.
  - destruct (cs_one F c o e j) as [[u v]|n| |]; try discriminate. cbn [rbind]. destruct (cs_one F c o e i) as [[u' v']|n| |]; try discriminate. cbn [rbind].
    intros H. rewrite <- H. f_equal; destruct v, v'; cbn [nadd RNum]; ring.
  - intros H. now apply IH2, IH1.
Qed.
(** Effects on the electrodes as vectors. *)
Definition la_add (r s : lam_acc R) : lam_acc R :=
  mkLA (a_tp r + a_tp s) (a_tn r + a_tn s) (a_ap r + a_ap s) (a_an r + a_an s) (a_ep r + a_ep s) (a_en r + a_en s).
Definition la_sub (r s : lam_acc R) : lam_acc R :=
  mkLA (a_tp r - a_tp s) (a_tn r - a_tn s) (a_ap r - a_ap s) (a_an r - a_an s) (a_ep r - a_ep s) (a_en r - a_en s).
Lemma la_ext (r s : lam_acc R) : a_tp r = a_tp s -> a_tn r = a_tn s -> a_ap r = a_ap s -> a_an r = a_an s -> a_ep r = a_ep s -> a_en r = a_en s -> r = s.
Proof. destruct r, s; cbn; congruence. Qed.
Lemma Ok_inj {B : Type} (x y : B) : Ok x = Ok y -> x = y.
Proof. congruence. Qed.
Lemma lam_one_shift c z e i r s x : lam_one F c z e i r = Ok x -> lam_one F c z e i s = Ok (la_add (la_sub x r) s).
Proof.
  unfold lam_one. cbv zeta. destruct i as [|[[q|q|]|[q|[q|q|]|]|]|q]; try discriminate.
  - intros H. apply Ok_inj in H. subst x. f_equal. apply la_ext; cbn [la_add la_sub a_tp a_tn a_ap a_an a_ep a_en]; ring.
  - destruct (XYdata_interp (q_OCVp (cp c)) z true) as [y|n| |]; try discriminate. cbn [rbind]. intros H. apply Ok_inj in H. subst x. f_equal.
    apply la_ext; cbn [la_add la_sub a_tp a_tn a_ap a_an a_ep a_en]; cbn [nadd RNum]; ring.
  - intros H. apply Ok_inj in H. subst x. f_equal. apply la_ext; cbn [la_add la_sub a_tp a_tn a_ap a_an a_ep a_en nadd RNum]; ring.
  - destruct (calcMolarFlux c) as [[? ?] ?]. intros H. apply Ok_inj in H. subst x. f_equal.
    apply la_ext; cbn [la_add la_sub a_tp a_tn a_ap a_an a_ep a_en nadd RNum]; ring.
  - destruct (negb (t_dai_up (c_str c))); [discriminate|]. intros H. apply Ok_inj in H. subst x. f_equal.
    apply la_ext; cbn [la_add la_sub a_tp a_tn a_ap a_an a_ep a_en nadd RNum]; ring.
Qed.
Lemma lam_app c z e l2 l1 : forall r, lam_all F c z e (l1 ++ l2) r = rbind (lam_all F c z e l1 r) (lam_all F c z e l2).
Proof. induction l1 as [|i l1 IH]; intros r; [reflexivity|]. cbn [app lam_all]. destruct (lam_one F c z e i r); [apply IH|reflexivity..]. Qed.
Lemma lam_shift c z e l : forall r s x, lam_all F c z e l r = Ok x -> lam_all F c z e l s = Ok (la_add (la_sub x r) s).
Proof.
  induction l as [|i l IH]; intros r s x; cbn [lam_all].
  - intros H. injection H as <-. f_equal. apply la_ext; cbn [la_add la_sub a_tp a_tn a_ap a_an a_ep a_en]; ring.
  - destruct (lam_one F c z e i r) as [y|n| |] eqn:E; try discriminate. cbn [rbind]. intros H.
    rewrite (lam_one_shift _ _ _ _ _ s _ E). cbn [rbind]. rewrite (IH _ (la_add (la_sub y r) s) _ H). f_equal.
    apply la_ext; cbn [la_add la_sub a_tp a_tn a_ap a_an a_ep a_en]; ring.
Qed.
Lemma lam_sum c z e l1 l2 x y w : lam_all F c z e l1 lam0 = Ok x -> lam_all F c z e l2 lam0 = Ok y ->
  lam_all F c z e (l1 ++ l2) lam0 = Ok w -> w = la_add x y.
Proof.
  intros H1 H2 H3. rewrite lam_app, H1 in H3. cbn [rbind] in H3. rewrite (lam_shift c z e l2 lam0 x y H2) in H3.
  injection H3 as <-. apply la_ext; cbn [lam0 la_add la_sub a_tp a_tn a_ap a_an a_ep a_en]; rewrite R_nZ; ring.
Qed.
Lemma lam_perm c z e l l' : Permutation l l' -> forall r x, lam_all F c z e l r = Ok x -> lam_all F c z e l' r = Ok x.
Proof.
  induction 1 as [|i l l' P IH|i j l|l1 l2 l3 P1 IH1 P2 IH2]; intros r x; cbn [lam_all].
  - easy.
  - destruct (lam_one F c z e i r); try discriminate. apply IH.
  - destruct (lam_one F c z e j r) as [u|n| |] eqn:Ej; try discriminate. cbn [rbind]. destruct (lam_one F c z e i u) as [v|n| |] eqn:Ei; try discriminate. cbn [rbind].
    intros H. rewrite (lam_one_shift _ _ _ _ _ r _ Ei). cbn [rbind]. rewrite (lam_one_shift _ _ _ _ _ (la_add (la_sub v u) r) _ Ej). cbn [rbind].
    rewrite <- H. f_equal. apply la_ext; cbn [la_add la_sub a_tp a_tn a_ap a_an a_ep a_en]; ring.
  - intros H. now apply IH2, IH1.
Qed.
Lemma por_affine p c x y z px py pz p0 : z = x + y -> por_of p c x = Ok px -> por_of p c y = Ok py -> por_of p c z = Ok pz ->
  por_of p c 0 = Ok p0 -> pz - p0 = (px - p0) + (py - p0).
Proof.
  intros ->. unfold por_of. cbv zeta. destruct p as [|[q|q|]|q]; try discriminate; intros A B C D; apply Ok_inj in A, B, C, D; subst px py pz p0; cbn [nadd nmul nopp RNum]; ring.
Qed.

(** ** States after ageing *)
Lemma age_nth (dt n : R) (z dz : list R) j : nth j (age_z dt n z dz) 0 =
  nth j z 0 + (if (Nat.ltb j (length z)) then nth j dz 0 else 0) * dt * n.
Proof.
  revert dz j. induction z as [|x z IH]; intros dz j; [destruct j; cbn; ring|].
  destruct dz as [|y dz]; [destruct j; cbn -[Nat.ltb]; destruct (Nat.ltb _ _); ring|].
  destruct j as [|j]; cbn [age_z nth length]; [reflexivity|]. rewrite IH.
  change (Nat.ltb (S j) (S (length z))) with (Nat.ltb j (length z)). reflexivity.
Qed.
Lemma age_mode j (s : spm_st R) (d : ddeg R) dt n : anode_mode j (age s d dt n) =
  anode_mode j s + (if (Nat.ltb j (length (s_zn s))) then nth j (dd_zn d) 0 else 0) * dt * n.
Proof. unfold anode_mode. cbn [age s_zn]. apply age_nth. Qed.
Lemma zn_nth c isei den ism dcs dDn r ipl j :
  nth j (dd_zn (rates c isei den ism dcs dDn r ipl)) 0 =
  nth j (m_Bn (q_M (cp c))) 0 * (isei / (q_nsei (cp c) * FARADAY) + isei * ism / (q_nsei (cp c) * FARADAY) + ipl / (q_npl (cp c) * FARADAY)).
Proof.
  unfold rates. cbn [dd_zn]. generalize (m_Bn (q_M (cp c))) as B. intros B. revert j.
  induction B as [|b B IH]; intros j; destruct j; cbn [map nth]; try (unfold Rdiv; ring). apply IH.
Qed.

(** ** Accepted identifiers *)
Lemma sei_known c o e l : forall a x, sei_all F c o e l a = Ok x -> Forall (fun i => 0 <= i <= 4)%Z l.
Proof.
  induction l as [|i l IH]; intros a x; cbn [sei_all]; [constructor|].
  destruct (sei_one F c o e i) as [y|n| |] eqn:E; try discriminate. cbn [rbind]. intros H. constructor; [|eapply IH, H].
  revert E. unfold sei_one. cbv zeta. destruct i as [|[[q|q|]|[q|[q|q|]|]|]|q]; try discriminate; intros _; lia.
Qed.
Lemma cs_known c o e l : forall a b x, cs_all F c o e l a b = Ok x -> Forall (fun i => 0 <= i <= 5)%Z l /\
  (In 1%Z l -> t_lares_up (c_str c) = true) /\ (In 2%Z l -> t_dai_up (c_str c) = true).
Proof.
  induction l as [|i l IH]; intros a b x; cbn [cs_all]; [now repeat constructor|].
  destruct (cs_one F c o e i) as [[y v]|n| |] eqn:E; try discriminate. cbn [rbind]. intros H.
  assert (K : (0 <= i <= 5)%Z /\ (i = 1%Z -> t_lares_up (c_str c) = true) /\ (i = 2%Z -> t_dai_up (c_str c) = true)).
  { revert E. clear. unfold cs_one. cbv zeta. destruct i as [|[[q|[q|q|]|]|[q|[q|q|]|]|]|q]; try discriminate; intros E; (split; [lia|]); split; intros; try discriminate.
    - destruct (t_dai_up (c_str c)); [reflexivity|discriminate].
    - destruct (t_lares_up (c_str c)); [reflexivity|discriminate]. }
  destruct (IH _ _ _ H) as (I1 & I2 & I3). destruct K as (K1 & K2 & K3). split; [now constructor|]. split; (intros [J|J]; [auto|auto]).
Qed.
Lemma lam_known c z e l : forall a x, lam_all F c z e l a = Ok x -> Forall (fun i => 0 <= i <= 4)%Z l /\ (In 1%Z l -> t_dai_up (c_str c) = true).
Proof.
  induction l as [|i l IH]; intros a x; cbn [lam_all]; [now repeat constructor|].
  destruct (lam_one F c z e i a) as [y|n| |] eqn:E; try discriminate. cbn [rbind]. intros H.
  assert (K : (0 <= i <= 4)%Z /\ (i = 1%Z -> t_dai_up (c_str c) = true)).
  { revert E. clear. unfold lam_one. cbv zeta. destruct i as [|[[q|q|]|[q|[q|q|]|]|]|q]; try discriminate; intros E; (split; [lia|]); intros; try discriminate.
    destruct (t_dai_up (c_str c)); [reflexivity|discriminate]. }
  destruct (IH _ _ H) as (I1 & I2). destruct K as (K1 & K2). split; [now constructor|]. intros [J|J]; auto.
Qed.
End Deg.
