(** * Lemmas about the single-particle cell: state vectors, construction *)
From Coq Require Import Lra.
From Verif Require Import Base RFacts StatusModel UtilModel CellModel CellSpec SpmModel SpmSpec SpmProofs SpmReal SpmDiff SpmAge.

Section Any.
Context {A : Type} {NA : Num A}.
Variable F : fns A.
Implicit Types (c d : spm A) (s : spm_st A).

Lemma read_list np nn s rest : length (s_zp s) = np -> length (s_zn s) = nn ->
  spm_read np nn (st_list s ++ rest) = Ok (s, rest).
Proof.
  intros H1 H2. unfold spm_read, st_list. cbn [app].
  rewrite <- !app_assoc. rewrite firstn_app, skipn_app, <- H1, firstn_all, skipn_all, Nat.sub_diag. cbn [firstn skipn app].
  rewrite app_nil_r, firstn_app, skipn_app, <- H2, firstn_all, skipn_all, Nat.sub_diag. cbn [firstn skipn app].
  rewrite app_nil_r. now destruct s.
Qed.

Lemma getStates_layout k c : length (s_zp (cs c)) = k -> length (s_zn (cs c)) = k -> layout k (cs c) (spm_getStates c).
Proof.
  intros H1 H2. unfold layout, spm_getStates, st_list.
  set (hd := [s_I (cs c); _; _; _; _; _; _; _; _; _; _; _; _; _; _]).
  set (tl := [s_rp (cs c); _; _; _; _; _; _]).
  assert (T : forall j, nth_error (hd ++ s_zp (cs c) ++ s_zn (cs c) ++ tl) (15 + 2 * k + j) = nth_error tl j).
  { intros j. rewrite nth_error_app2 by (cbn [length hd]; lia). rewrite nth_error_app2 by (cbn [length hd]; lia).
    rewrite nth_error_app2 by (cbn [length hd]; lia). f_equal. cbn [length hd]. lia. }
  split. { rewrite !app_length, H1, H2. cbn [length hd tl]. lia. }
  do 15 (split; [reflexivity|]).
  split. { intros j Hj. rewrite nth_error_app2 by (cbn [length hd]; lia). rewrite nth_error_app1 by (cbn [length hd]; lia).
    f_equal. cbn [length hd]. lia. }
  split. { intros j Hj. rewrite nth_error_app2 by (cbn [length hd]; lia). rewrite nth_error_app2 by (cbn [length hd]; lia).
    rewrite nth_error_app1 by (cbn [length hd]; lia). f_equal. cbn [length hd]. lia. }
  repeat split.
  - replace (15 + 2 * k)%nat with (15 + 2 * k + 0)%nat by lia. now rewrite T.
  - replace (16 + 2 * k)%nat with (15 + 2 * k + 1)%nat by lia. now rewrite T.
  - replace (17 + 2 * k)%nat with (15 + 2 * k + 2)%nat by lia. now rewrite T.
  - replace (18 + 2 * k)%nat with (15 + 2 * k + 3)%nat by lia. now rewrite T.
  - replace (19 + 2 * k)%nat with (15 + 2 * k + 4)%nat by lia. now rewrite T.
  - replace (20 + 2 * k)%nat with (15 + 2 * k + 5)%nat by lia. now rewrite T.
  - replace (21 + 2 * k)%nat with (15 + 2 * k + 6)%nat by lia. now rewrite T.
Qed.

Lemma validStates_ext c d : cp d = cp c -> cs d = cs c -> spm_validStates F d = spm_validStates F c.
Proof. intros E1 E2. destruct c, d. cbn in E1, E2. subst. reflexivity. Qed.

(** Without the voltage check. *)
Lemma round_nocheck c d rest : same_configuration c d -> spm_validStates F c = Ok true ->
  exists d', spm_setStates F (spm_getStates c ++ rest) false d = (d', Ok (rest, Success)) /\
    cs d' = cs c /\ cp d' = cp d /\ c_valid d' = false.
Proof.
  intros (P & L1 & L2) V. unfold spm_setStates. unfold spm_getStates. rewrite read_list by congruence.
  rewrite (validStates_ext c) by (auto; exact P). rewrite V. eexists. split; [reflexivity|]. repeat split.
Qed.

Lemma calcV_ext c d : cp d = cp c -> cs d = cs c -> calcV F d = calcV F c.
Proof. intros E1 E2. destruct c, d. cbn in E1, E2. subst. reflexivity. Qed.

(** With the voltage check, from a cell whose stored voltage is the fresh one. *)
Lemma round_check c d rest v : same_configuration c d -> spm_validStates F c = Ok true ->
  c_valid c = true -> coherent F c -> s_V (cs c) = v -> calcV F c = Ok (Some v) ->
  isStatusBad (match check_voltage (Ok v) (q_lim (cp c)) (s_I (cs c)) with Ok (_, st) => st | _ => Success end) = false ->
  exists d' st, spm_setStates F (spm_getStates c ++ rest) true d = (d', Ok (rest, st)) /\ isStatusBad st = false /\
    cs d' = cs c /\ cp d' = cp d /\ c_valid d' = true.
Proof.
  intros (P & L1 & L2) V Vl Co Hv Hc B. unfold spm_setStates. unfold spm_getStates. rewrite read_list by congruence.
  rewrite (validStates_ext c) by (auto; exact P). rewrite V. unfold spm_checkVoltage, spm_V.
  match goal with |- context [calcV F ?x] => rewrite (calcV_ext c x) by (auto; exact P) end. rewrite Hc.
  cbn [c_valid set_valid cp set_st cs]. rewrite P.
  destruct (check_voltage (Ok v) (q_lim (cp c)) (s_I (cs c))) as [[w st]|n| |] eqn:E; try discriminate.
  rewrite B. eexists. exists st. split; [reflexivity|]. split; [exact B|]. cbn [cs cp c_valid set_valid set_st].
  split; [|split; [now rewrite ?P|reflexivity]]. rewrite <- Hv. now destruct (cs c).
Qed.
End Any.

Section Real.
Variable F : fns R.
Implicit Types (c d : spm R) (s : spm_st R).
Local Open Scope R_scope.

Lemma rel_zero x y tol : 0 <= tol -> x = y -> negb (nltb tol (ndiv (nabs (nsub x y)) x)) = true.
Proof.
  intros Ht ->. apply negb_true_iff. apply Rltb_false. cbn [nabs nsub ndiv RNum].
  replace (y - y) with 0 by ring. rewrite Rabs_R0. unfold Rdiv. lra.
Qed.

Lemma acceptable_valid c : consistent_surfaces c -> acceptable F c -> spm_validStates F c = Ok true.
Proof.
  intros (S1 & S2) (A1 & A2 & A3 & A4 & A5 & A6 & A7 & A8 & A9 & A10).
  unfold spm_validStates. destruct (getCSurf F c) as [[a b] fl]. cbn [snd] in A3. subst fl.
  assert (Z0 : (nZ 0 : R) = 0) by apply R_nZ. rewrite !Z0.
  assert (nltb (s_LLI (cs c)) 0 = false) as -> by now apply Rltb_false.
  rewrite !rel_zero.
  - unfold check_SOC. rewrite !R_nZ.
    assert (E1 : forall x y, x <= y -> nltb y x = false) by (intros; now apply Rltb_false).
    assert (E2 : nleb (s_delta (cs c)) 0 = false) by now apply Rleb_false.
    rewrite !E1 by lra. rewrite E2. cbn [negb orb andb].
    repeat match goal with |- context [nleb ?x ?y] => replace (nleb x y) with true by (symmetry; apply Rleb_true; lra) end.
    reflexivity.
  - rewrite R_nlit. lra.
  - rewrite S2, R_nZ. reflexivity.
  - rewrite R_nlit. lra.
  - rewrite S1, R_nZ. reflexivity.
Qed.

(** Ageing keeps the surfaces consistent unless LAM model 4 is selected. *)
Lemma lam_all_surf c z e ids : Forall (fun i => i <> 4%Z) ids ->
  forall r r', lam_all F c z e ids r = Ok r' -> a_ap r' = a_ap r /\ a_an r' = a_an r.
Proof.
  intros H. induction H as [|id ids Hid H IH]; intros r r' E; cbn [lam_all] in E; [injection E as <-; now split|].
  destruct (lam_one F c z e id r) as [r1|n| |] eqn:E1; try discriminate. cbn [rbind] in E.
  assert (K : a_ap r1 = a_ap r /\ a_an r1 = a_an r).
  { revert E1. unfold lam_one. cbv zeta. destruct id as [|[[q|q|]|[q|[q|q|]|]|]|q]; try discriminate; try congruence.
    - intros E1. injection E1 as <-. now split.
    - destruct (XYdata_interp (q_OCVp (cp c)) z true) as [y|n| |]; try discriminate. cbn [rbind].
      intros E1. injection E1 as <-. now split.
    - destruct (calcMolarFlux c) as [[? ?] ?]. intros E1. injection E1 as <-. now split.
    - destruct (t_dai_up (c_str c)); [|discriminate]. cbn [negb]. intros E1. injection E1 as <-. now split. }
  destruct (IH _ _ E) as (-> & ->). exact K.
Qed.
Lemma rates_surf c (d : ddeg R) : Forall (fun i => i <> 4%Z) (d_LAM (q_deg (cp c))) -> dState_degradation F c = Ok d ->
  dd_ap d = 3 / q_Rp (cp c) * dd_ep d /\ dd_an d = 3 / q_Rn (cp c) * dd_en d.
Proof.
  intros HL. unfold dState_degradation.
  destruct (calcDiffConstant F c) as [dpt dnt]. destruct (calcMolarFlux c) as [[ia jp] jn].
  destruct (calcSurfaceConcentration c jp jn dpt dnt) as [cps cns]. destruct (conc_bad c cps cns); [discriminate|].
  destruct (calcOverPotential F c cps cns ia) as [etap etan].
  destruct (XYdata_interp (q_dOCVn (cp c)) _ true) as [dOCVn|e| |]; try discriminate.
  destruct (XYdata_interp (q_OCVn (cp c)) _ true) as [ocvn|e| |]; try discriminate. cbn [rbind].
  set (o := nadd ocvn _).
  destruct (SEI F c o etan) as [[isei den]|e| |] eqn:E1; try discriminate. cbn [rbind].
  destruct (CSm F c o etan) as [[[ism dcs] dDn]|e| |] eqn:E2; try discriminate. cbn [rbind].
  destruct (LAM F c _ etap) as [r|e| |] eqn:E3; try discriminate. cbn [rbind].
  destruct (LiPlating F c o etan) as [ipl|e| |] eqn:E4; try discriminate. cbn [rbind].
  intros E. injection E as <-. cbn [dd_ap dd_an dd_ep dd_en].
  apply lam_all_surf in E3; [|exact HL]. cbn [a_ap a_an] in E3. destruct E3 as (-> & ->).
  unfold nZ. cbn [nlit nadd nmul ndiv RNum]. split; unfold Rdiv; rewrite ?Rinv_1; ring.
Qed.

Definition steady c c' : Prop :=
  cp c' = cp c /\ s_rp (cs c') = s_rp (cs c) /\ s_rn (cs c') = s_rn (cs c) /\ s_rcc (cs c') = s_rcc (cs c) /\
  (consistent_surfaces c -> consistent_surfaces c').
Lemma steady_trans c1 c2 c3 : steady c1 c2 -> steady c2 c3 -> steady c1 c3.
Proof. intros (H1 & H2 & H3 & H4 & H5) (K1 & K2 & K3 & K4 & K5). repeat split; try congruence; apply K5, H5; assumption. Qed.
Lemma steady_eq c c' : cp c' = cp c -> ageing c' = ageing c -> steady c c'.
Proof.
  intros H E. unfold ageing in E. injection E. intros. unfold steady, consistent_surfaces.
  split; [exact H|]. do 3 (split; [assumption|]). intros (U1 & U2). rewrite H. split; congruence.
Qed.
Lemma op_steady tm o c : operating o -> Forall (fun i => i <> 4%Z) (d_LAM (q_deg (cp c))) -> steady c (after F tm o c).
Proof.
  intros O HL. assert (D : (exists dt n, o = OpStep dt n) \/ (forall dt n, o <> OpStep dt n)).
  { destruct o; try (right; discriminate). left; eauto. }
  destruct D as [(dt & n & ->)|Ns].
  2: { destruct (cmd_keeps F tm o c O Ns) as (K1 & _ & K3). now apply steady_eq. }
  cbn [after]. unfold spm_timeStep_CC. destruct (nltb dt (nZ 0)) eqn:L; [now apply steady_eq|].
  rewrite R_nZ in L. apply Rltb_false in L.
  match goal with |- context [spm_steps F _ _ ?d] => set (c1 := d) end.
  pose proof (steps_mono F (Z.to_nat n) dt L c1) as M. cbn zeta in M.
  destruct (spm_steps F (Z.to_nat n) dt c1) as [c2 r]. cbn [fst] in M. destruct M as (M1 & M2 & M3 & _).
  assert (A2 : steady c c2) by (apply steady_eq; assumption).
  destruct r as [[]|e| |]; try exact A2. destruct (c_block c2); [exact A2|].
  destruct (spm_heat_age F tm dt n c2) as [c' r'] eqn:E.
  destruct (heat_age_spec _ _ _ _ _ _ _ E) as ([Ra _ _ _] & t & _ & C). cbn [fst].
  apply (steady_trans _ _ _ A2).
  destruct C as [[C _]|(d & c4 & K1 & K2 & K3 & K4 & K5 & K6 & K7 & _)].
  { apply steady_eq; [exact Ra|]. unfold ageing. now rewrite C. }
  apply rates_surf in K6.
  2: { rewrite K1, M1. exact HL. }
  destruct K6 as (R1 & R2). unfold steady, consistent_surfaces. rewrite K7, Ra. unfold age.
  cbn [s_rp s_rn s_rcc s_ap s_an s_ep s_en st_T]. rewrite !up_zero, R1, R2, K1.
  do 4 (split; [reflexivity|]). intros (U1 & U2). split.
  - rewrite U1. cbn [nadd nmul RNum]. unfold Rdiv. ring.
  - rewrite U2. cbn [nadd nmul RNum]. unfold Rdiv. ring.
Qed.
Lemma history_steady tm c l c' : history F tm alive c l c' -> Forall (fun i => i <> 4%Z) (d_LAM (q_deg (cp c))) -> steady c c'.
Proof.
  induction 1 as [c|c o l c' (O & _) _ IH]; intros HL; [now apply steady_eq|].
  pose proof (op_steady tm o c O HL) as K. apply (steady_trans _ _ _ K). apply IH. destruct K as (-> & _). exact HL.
Qed.
End Real.
