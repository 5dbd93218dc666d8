(** * C79: which state vectors a single-particle cell accepts *)
From Coq Require Import Reals SpecFloat Lra.
From Verif Require Import Base RFacts StatusModel UtilModel CellModel CellSpec SpmModel SpmUnitModel SpmSpec SpmProofs SpmReal SpmAge SpmRound SpmWitness
  PhysSpec PhysProofs PhysToy DegSpec LawSpec.
Local Open Scope R_scope.

Lemma valid_sound F c : 0 <= s_LLI (cs c) ->
  exists b, spm_validStates F c = Ok b /\ (b = true <-> sound_states F c).
Proof.
  intros HL. unfold spm_validStates. pose proof (range_flag F c) as RF. unfold in_range in RF.
  destruct (surface F c) as [p n] eqn:ES. destruct (getCSurf F c) as [[p' n'] r3]. cbn [snd] in RF.
  assert (nltb (s_LLI (cs c)) (nZ 0) = false) as -> by (rewrite R_nZ; now apply Rltb_false).
  eexists. split; [reflexivity|]. unfold check_SOC.
  rewrite !Bool.andb_true_iff, !Bool.negb_true_iff, !Bool.orb_false_iff, !Rltb_false, !Rleb_false, !R_nZ, !R_nlit, RF.
  split.
  - intros H. decompose [and] H. clear H. split; rewrite ?ES; cbn [fst snd]; try (split; assumption); try assumption; try tauto.
    all: match goal with H : (if _ then false else true) = true |- _ => revert H end.
    destruct (nltb (s_SOC (cs c)) 0) eqn:E1; [discriminate|]. destruct (nltb 1 (s_SOC (cs c))) eqn:E2; [discriminate|].
    apply Rltb_false in E1, E2. intros _. lra.
  - intros [X1 X2 X3 X4 X5 X6 X7 X8 X9]. rewrite ES in X3. cbn [fst snd] in X3. repeat split; try (apply X2 || apply X3 || apply X8); try assumption.
    rewrite (proj2 (Rltb_false _ _) (proj1 X1)), (proj2 (Rltb_false _ _) (proj2 X1)). reflexivity.
Qed.

(** A state vector is stored exactly if state of charge, temperature, surface concentrations, film, cracks, resistances, plated lithium and the
    geometry of both electrodes are sound; one with negative lost lithium is answered by an exception, every other one is refused and
    the cell keeps its states. *)
Theorem C79_accepted : forall (F : fns R) (c : spm R) (s : spm_st R) rest,
  length (s_zp s) = length (s_zp (cs c)) -> length (s_zn s) = length (s_zn (cs c)) ->
  let new := spm_setStateObj s c in
  (0 <= s_LLI s -> sound_states F new -> spm_setStates F (st_list s ++ rest) false c = (new, Ok (rest, Success))) /\
  (0 <= s_LLI s -> ~ sound_states F new -> spm_setStates F (st_list s ++ rest) false c = (c, Ok (rest, Invalid_states))) /\
  (s_LLI s < 0 -> snd (spm_setStates F (st_list s ++ rest) false c) = Throw 15).
Proof.
  intros F c s rest H1 H2 new. unfold spm_setStates. rewrite read_list by assumption. change (set_valid (set_st c s) false) with new.
  split; [|split].
  - intros HL S. destruct (valid_sound F new HL) as ([|] & -> & E); [reflexivity|]. apply E in S. discriminate.
  - intros HL S. destruct (valid_sound F new HL) as ([|] & -> & E); [exfalso; apply S, E; reflexivity|].
    destruct c as [p st v t b pa q qt tt0 te]. reflexivity.
  - intros HL. unfold spm_validStates. destruct (getCSurf F new) as [[a b] f].
    change (s_LLI (cs new)) with (s_LLI s). assert (nltb (s_LLI s) (nZ 0) = true) as -> by (rewrite R_nZ; now apply Rltb_true). reflexivity.
Qed.
Print Assumptions C79_accepted.

(** With the voltage checked as well, a stored state vector is sound, and its voltage was computed and is not outside the limits. *)
Theorem C79_checked : forall (F : fns R) (c c' : spm R) (s : spm_st R) rest st,
  length (s_zp s) = length (s_zp (cs c)) -> length (s_zn s) = length (s_zn (cs c)) ->
  spm_setStates F (st_list s ++ rest) true c = (c', Ok (rest, st)) -> isStatusBad st = false ->
  0 <= s_LLI s /\ sound_states F (spm_setStateObj s c) /\ 
  exists v w, fresh_V F (spm_setStateObj s c) = Ok v /\ check_voltage (Ok v) (q_lim (cp c)) (s_I s) = Ok (w, st).
Proof.
  intros F c c' s rest st H1 H2 H B. revert H. unfold spm_setStates. rewrite read_list by assumption. change (set_valid (set_st c s) false) with (spm_setStateObj s c).
  set (new := spm_setStateObj s c).
  destruct (Rlt_le_dec (s_LLI s) 0) as [HL|HL].
  { unfold spm_validStates. destruct (getCSurf F new) as [[a b] f].
    change (s_LLI (cs new)) with (s_LLI s). assert (nltb (s_LLI s) (nZ 0) = true) as -> by (rewrite R_nZ; now apply Rltb_true). discriminate. }
  destruct (valid_sound F new HL) as ([|] & -> & E).
  - intros H. split; [exact HL|]. split; [now apply E|]. revert H. unfold spm_checkVoltage, spm_V, fresh_V.
    change (c_valid new) with false. cbv iota. unfold spm_V. cbn [set_valid c_valid].
    change (calcV F (set_valid new false)) with (calcV F new). change (q_lim (cp new)) with (q_lim (cp c)). change (s_I (cs new)) with (s_I s).
    destruct (calcV F new) as [[v|]|e| |]; cbn [snd].
    1,2: match goal with |- context [check_voltage (Ok ?x) ?y ?z] => destruct (check_voltage (Ok x) y z) as [[w st']|?| |] eqn:EC end; try discriminate;
      intros H; injection H as _ <-; eexists _, w; split; [reflexivity|exact EC].
    all: cbn [check_voltage]; try discriminate. intros H. injection H as _ <-. discriminate B.
  - intros H. injection H as <- <-. discriminate B.
Qed.
Print Assumptions C79_checked.

(** Finding: thicknesses, diffusion constants, clock and throughput are stored unseen, also when negative. *)
Theorem C79_unchecked_refuted : forall (F : fns R) (c : spm R), s_I (cs c) = 0 -> sound_states F c -> 0 <= s_LLI (cs c) ->
  forall tp tn dp dn t ah wh, let s := cs c in
  let s' := mkSst (s_I s) (s_V s) (s_T s) (s_delta s) (s_LLI s) tp tn (s_ep s) (s_en s) (s_ap s) (s_an s) (s_CS s) dp dn (s_dpl s)
                  (s_zp s) (s_zn s) (s_rp s) (s_rn s) (s_rcc s) (s_SOC s) t ah wh in
  spm_setStates F (st_list s') false c = (spm_setStateObj s' c, Ok ([], Success)).
Proof.
  intros F c HI [X1 X2 X3 X4 X5 X6 X7 X8 X9] HL tp tn dp dn t ah wh s s'.
  pose proof (C79_accepted F c s' [] eq_refl eq_refl) as (A & _). rewrite app_nil_r in A. apply A; [exact HL|].
  assert (E : surface F (spm_setStateObj s' c) = surface F c).
  { unfold surface, getCSurf, calcDiffConstant, calcMolarFlux, calcSurfaceConcentration, arrh. cbn [spm_setStateObj set_valid set_st cp cs s' s_I s_zp s_zn s_an s_ap s_thickp s_thickn s_T s_Dp s_Dn].
    fold s. change (s_I s) with (s_I (cs c)). rewrite HI. cbn [nmul ndiv nopp RNum].
    unfold Rdiv. repeat first [rewrite Ropp_0|rewrite Rmult_0_l|rewrite Rmult_0_r]. reflexivity. }
  split; try assumption. rewrite E. exact X3.
Qed.
Print Assumptions C79_unchecked_refuted.

(** Finding: in doubles a state vector of nothing but not-a-number is accepted. *)
Theorem C79_nan_refuted : forall g h p,
  match spm_setStates (w_fns g h p) (repeat S754_nan (length (spm_getStates w_ref))) false w_ref with
  | (c', Ok (rest, st)) => rest = [] /\ st = Success /\ spm_getStates c' = repeat S754_nan (length (spm_getStates w_ref))
  | _ => False
  end.
Proof. intros g h p. vm_compute. repeat split. Qed.
Print Assumptions C79_nan_refuted.

(** The small cell is sound, so its own states are accepted; with a negative resistance they are refused. *)
Example C79_inhabited : let c := toy plain 0 true in
  sound_states libm c /\ 0 <= s_LLI (cs c) /\ s_I (cs c) = 0.
Proof.
  cbv zeta. split; [|cbn; lra]. split; rewrite ?(toy_surface libm plain (toy plain 0 true) (toy_toy _ _ _)); cbn [toy cp cs toy_par s_SOC s_T q_Tmin q_Tmax fst snd q_Cmaxp q_Cmaxn
    s_delta s_ap s_an s_ep s_en q_Rp q_Rn s_CS s_rp s_rn s_rcc s_dpl]; try lra.
  all: replace (3 - 3 * 1 / 1) with 0 by lra; rewrite Rabs_R0; lra.
Qed.
