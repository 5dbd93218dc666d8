(** * C78: each ageing model follows its own law, each electrode its own parameters *)
From Coq Require Import Reals Lra Psatz.
From Verif Require Import Base RFacts StatusModel UtilModel CellModel CellSpec SpmModel SpmUnitModel SpmSpec SpmProofs SpmReal SpmAge
  PhysSpec PhysProofs PhysToy DegSpec DegProofs TempSpec TempProofs LawSpec LawProofs LawToy.
Local Open Scope R_scope.

(** The parts of a call. *)
Lemma law_run F tm dt n c d c' : c_block c = false -> spm_timeStep_CC F tm dt n (models d c) = (c', Ok tt) ->
  exists c3 k isei den dDn ipl ism, c' = set_st (models d c3) (age (cs c3) (rates c3 isei den ism (cs_law F c3 (x_ocv k) (x_en k) (d_CS d)) dDn
      (lam_law F c3 (x_zp k) (x_ep k) (d_LAM d)) ipl) dt (nZ n)) /\
    por_of (d_por d) c3 isei = Ok den /\
    cp c3 = cp c /\ ageing c3 = ageing c /\ s_I (cs c3) = s_I (cs c) /\ cs c3 = cs (unaged F tm dt n c c') /\ cp c3 = cp (unaged F tm dt n c c') /\
    t_dai_p_prev (c_str c3) = t_dai_p (c_str c) /\ t_dai_n_prev (c_str c3) = t_dai_n (c_str c) /\
    t_lares_n_prev (c_str c3) = t_lares_n (c_str c) /\ t_dt (c_str c3) = IZR n * dt /\ 0 <= dt /\ c_block c3 = c_block c /\ s_T (cs c') = s_T (cs c3).
Proof.
  intros NB H. destruct (proj1 (run_models _ _ _ _ _ _ _ NB) H) as (c3 & r & B & D & ->).
  apply degr_parts in D. destruct D as (k & isei & den & ism & dcs & dDn & la & ipl & _ & _ & Kp & Kc & _ & Kl & _ & ->).
  apply cs_all_law in Kc. apply lam_all_law in Kl. rewrite Rplus_0_l in Kc. subst dcs.
  assert (la = lam_law F c3 (x_zp k) (x_ep k) (d_LAM d)) as ->.
  { rewrite Kl. apply la_ext; cbn [la_add lam0 a_tp a_tn a_ap a_an a_ep a_en]; rewrite R_nZ; ring. }
  destruct (before_same F tm dt n c c3 NB B) as (Q1 & Q2 & Q3 & Hd). destruct (before_prev F tm dt n c c3 B) as (P1 & P2 & P3 & P4).
  destruct (before_blk F tm dt n c c3 NB B) as (c2 & E & E1 & _ & (t & Et) & _).
  assert (BK : c_block c3 = c_block c).
  { clear - B. revert B. unfold before. destruct (nltb dt (nZ 0)); [discriminate|].
    match goal with |- context [spm_steps F _ _ (set_str c ?t)] => set (s := t) end.
    destruct (steps_block F (Z.to_nat n) dt (set_str c s)) as (B & _). change (c_block (set_str c s)) with (c_block c) in B.
    destruct (spm_steps F (Z.to_nat n) dt (set_str c s)) as [c2 [[]|e| |]]; try discriminate. cbn [fst] in B. rewrite <- B. clear.
    unfold pre. destruct (dState_thermal F c2) as [dq|e| |]; try discriminate. match goal with |- context [warm tm ?x] => set (c0 := x) end.
    change (c_block c2) with (c_block c0). clearbody c0.
    assert (W : c_block (fst (warm tm c0)) = c_block c0).
    { unfold warm. destruct (c_parent c0); [reflexivity|]. unfold spm_thermal.
      match goal with |- context [match ?x with Ok t => _ | Throw n => _ | UB => _ | Fuel => _ end] => destruct x end; reflexivity. }
    destruct (warm tm c0) as [c1 [[]|e| |]]; try discriminate. cbn [fst] in W. rewrite <- W. unfold lares.
    assert (D : c_block (dai F c1) = c_block c1) by (unfold dai; destruct (q_sdai (cp c1)); [unfold updateDaiStress; destruct (getC F c1)|]; reflexivity).
    rewrite <- D. destruct (q_slares (cp (dai F c1))); [|intros G; injection G as <-; reflexivity].
    unfold updateLaresgoitiStress. destruct (laresgoiti F (dai F c1)); try discriminate. intros G. injection G as <-. reflexivity. }
  eexists c3, k, isei, den, dDn, ipl, ism. split; [reflexivity|]. split; [exact Kp|]. split; [exact Q1|]. split; [exact Q2|]. split; [exact Q3|].
  assert (ET : s_T (cs (set_st (models d c3) (age (cs c3) (rates c3 isei den ism (cs_law F c3 (x_ocv k) (x_en k) (d_CS d)) dDn
      (lam_law F c3 (x_zp k) (x_ep k) (d_LAM d)) ipl) dt (nZ n)))) = s_T (cs c3)).
  { cbn [set_st cs age s_T]. rewrite !R_nZ. cbn [nadd nmul RNum]. ring. }
  split; [|split; [|split; [exact P1|split; [exact P2|split; [exact P3|split; [exact P4|split; [exact Hd|split; [exact BK|exact ET]]]]]]]].
  - unfold unaged. rewrite ET, E. cbn [fst]. change (cs (spm_setT _ (blk true c2))) with (st_T (cs c2) (s_T (cs c3))). rewrite Et. reflexivity.
  - unfold unaged. rewrite E. cbn [fst]. change (cp (spm_setT _ (blk true c2))) with (cp c2). congruence.
Qed.
Ltac geometry Q2 := unfold ageing in Q2; repeat match goal with Q : _ :: _ = _ :: _ |- _ => injection Q as ? Q end.

(** Each electrode gets thinner in proportion to the change of the stress in itself, with its own coefficient (model 1). *)
Theorem C78_thickness : forall (F : fns R) tm dt n c d c', c_block c = false -> 0 < dt -> (0 < n)%Z ->
  spm_timeStep_CC F tm dt n (models d c) = (c', Ok tt) ->
  s_thickp (cs c') = s_thickp (cs c) - times 1 (d_LAM d) * lam1p (q_lam (cp c)) * stress_change (@t_dai_p R) c c' /\
  s_thickn (cs c') = s_thickn (cs c) - times 1 (d_LAM d) * lam1n (q_lam (cp c)) * stress_change (@t_dai_n R) c c'.
Proof.
  intros F tm dt n c d c' NB Hd Hn H.
  destruct (law_run _ _ _ _ _ _ _ NB H) as (c3 & k & isei & den & dDn & ipl & ism & -> & _ & Q1 & Q2 & Q3 & _ & _ & P1 & P2 & P3 & P4 & _).
  geometry Q2. apply IZR_lt in Hn. unfold stress_change. cbn [set_st models c_str cs age rates s_thickp s_thickn dd_tp dd_tn lam_law a_tp a_tn].
  rewrite P1, P2, P4, Q1, R_nZ. cbn [nadd nmul RNum]. split; (etransitivity; [|apply Rplus_comm]); rewrite Rplus_comm; (apply f_equal2; [|assumption]); field; lra.
Qed.
Print Assumptions C78_thickness.

(** Each electrode loses specific surface at its own rate (model 4), and with the volume fraction of active material: [a = 3 eps / R]. *)
Theorem C78_surface : forall (F : fns R) tm dt n c d c', c_block c = false -> spm_timeStep_CC F tm dt n (models d c) = (c', Ok tt) ->
  s_ap (cs c') = s_ap (cs c) * (1 - times 4 (d_LAM d) * lam4p (q_lam (cp c)) * (IZR n * dt)) + 3 / q_Rp (cp c) * (s_ep (cs c') - s_ep (cs c)) /\
  s_an (cs c') = s_an (cs c) * (1 - times 4 (d_LAM d) * lam4n (q_lam (cp c)) * (IZR n * dt)) + 3 / q_Rn (cp c) * (s_en (cs c') - s_en (cs c)).
Proof.
  intros F tm dt n c d c' NB H.
  destruct (law_run _ _ _ _ _ _ _ NB H) as (c3 & k & isei & den & dDn & ipl & ism & -> & _ & Q1 & Q2 & Q3 & _).
  geometry Q2. cbn [set_st models c_str cs age rates s_ap s_an s_ep s_en dd_ap dd_an dd_ep dd_en]. rewrite Q1.
  assert (E1 : s_ap (cs c3) = s_ap (cs c)) by assumption. assert (E2 : s_an (cs c3) = s_an (cs c)) by assumption.
  assert (E3 : s_ep (cs c3) = s_ep (cs c)) by assumption. assert (E4 : s_en (cs c3) = s_en (cs c)) by assumption.
  rewrite E3, E4. set (x := a_ep _). set (y := a_en _). unfold lam_law. cbn [a_ap a_an]. rewrite E1, E2, Q1, R_nZ. cbn [nadd nmul RNum].
  split; unfold Rdiv; ring.
Qed.
Print Assumptions C78_surface.

(** The anode loses active material with its own flux and coefficients (model 2); so does the cathode, which also dissolves (model 3), by at
    most 5e-6 per second. *)
Theorem C78_volume : forall (F : fns R) tm dt n c d c', c_block c = false -> exponential F -> d_por d = 0%Z ->
  0 <= lam3k (q_lam (cp c)) -> 0 < q_n (cp c) -> spm_timeStep_CC F tm dt n (models d c) = (c', Ok tt) ->
  let k := q_lam (cp c) in let a := arrhenius (lam2t k) (q_Tref (cp c)) (s_T (cs c')) in
  let jp := Rabs (cathode_flux c (s_I (cs c))) in let jn := Rabs (anode_flux c (s_I (cs c))) in
  s_en (cs c') = s_en (cs c) + times 2 (d_LAM d) * (a * (lam2an k * jn + lam2bn k * sqrt jn)) * (IZR n * dt) /\
  exists loss, 0 <= loss <= 5 / 1000000 /\
  s_ep (cs c') = s_ep (cs c) + (times 2 (d_LAM d) * (a * (lam2ap k * jp + lam2bp k * sqrt jp)) - times 3 (d_LAM d) * loss) * (IZR n * dt).
Proof.
  intros F tm dt n c d c' NB EF Hp Hk Hq H k a jp jn.
  destruct (law_run _ _ _ _ _ _ _ NB H) as (c3 & x & isei & den & dDn & ipl & ism & -> & Kp & Q1 & Q2 & Q3 & _ & _ & _ & _ & _ & _ & _ & _ & HT).
  rewrite Hp in Kp. cbn [por_of] in Kp. apply Ok_inj in Kp. rewrite R_nZ in Kp. subst den. geometry Q2.
  assert (EA : a = f_exp F (lam2t (q_lam (cp c3)) * arrh c3)).
  { unfold a. rewrite HT, EF, arrh_eq, Q1. unfold arrhenius. f_equal. fold k. unfold Rdiv. ring. }
  assert (EJ : jp = Rabs (snd (fst (calcMolarFlux c3))) /\ jn = Rabs (snd (calcMolarFlux c3))).
  { unfold jp, jn, cathode_flux, anode_flux, calcMolarFlux. cbn [fst snd]. rewrite Q1, Q3.
    repeat match goal with Q : _ (cs c3) = _ |- _ => rewrite Q; clear Q end. cbn [nopp nmul ndiv RNum]. now split. }
  destruct EJ as [EJp EJn]. clearbody a jp jn. cbn [set_st models c_str cs age rates s_ep s_en dd_ep dd_en lam_law a_ep a_en].
  rewrite <- EA, <- EJp, <- EJn, Q1. fold k. rewrite R_nZ. cbn [nadd nmul RNum]. split.
  - match goal with |- ?y + _ = ?z + _ => replace y with z by (symmetry; assumption) end. ring.
  - exists (- diss F c3 (x_zp x) (x_ep x)). split.
    + unfold diss. destruct (XYdata_interp _ _ _) as [o|?| |]; [|lra..]. rewrite Q1. fold k. fold k in Hk.
      match goal with |- 0 <= - Rmax ?u ?v <= _ => pose proof (Rmax_l u v); assert (v <= 0); [|destruct (Rmax_spec_lt u v) || idtac; pose proof (Rmax_lub u v 0)] end.
      { assert (0 < (FARADAY : R)) by (rewrite faraday_eq; unfold faraday; lra). set (Fa := FARADAY : R) in *. clearbody Fa.
        match goal with |- - (_ * f_exp F ?p) * f_exp F ?q / _ <= 0 => rewrite (EF p), (EF q); set (e1 := exp p); set (e2 := exp q);
          assert (0 < e1) by apply exp_pos; assert (0 < e2) by apply exp_pos end.
        assert (0 < q_n (cp c) * Fa) by nra. unfold Rdiv.
        assert (0 < / (q_n (cp c) * Fa)) by now apply Rinv_0_lt_compat.
        assert (0 <= lam3k k * e1) by nra. assert (0 <= lam3k k * e1 * e2) by nra. nra. }
      lra.
    + match goal with |- ?y + _ = ?z + _ => replace y with z by (symmetry; assumption) end. ring.
Qed.
Print Assumptions C78_volume.

(** Cracks of the anode grow with the change of the stress in the anode (models 1 and 2), the spread of concentrations in the anode
    (model 3), the current (model 4) and the film reaction while charging (model 5), each with its own coefficient. *)
Theorem C78_cracks : forall (F : fns R) tm dt n c d c', c_block c = false -> 0 < dt -> (0 < n)%Z -> exponential F ->
  0 <= q_nsei (cp c) * cs5k (q_cs (cp c)) -> spm_timeStep_CC F tm dt n (models d c) = (c', Ok tt) ->
  let k := q_cs (cp c) in let m := d_CS d in let t := IZR n * dt in let e := unaged F tm dt n c c' in
  exists r, 0 <= r /\
  s_CS (cs c') = s_CS (cs c) +
    (times 1 m * cs1a k * sqrt (t * stress_change (@t_lares_n R) c c') + times 2 m * cs2a k * sqrt (t * stress_change (@t_dai_n R) c c') +
     times 3 m * cs3a k * Rsqr (anode_spread F e) * t +
     times 4 m * cs4a k * (Rmax (cs4Amax k) (s_CS (cs c)) - s_CS (cs c)) * Rabs (s_I (cs c)) * t +
     times 5 m * stage (s_I (cs c)) (anode_filling F e) * r * t).
Proof.
  intros F tm dt n c d c' NB Hd Hn EF Hk H k m t e.
  destruct (law_run _ _ _ _ _ _ _ NB H) as (c3 & x & isei & den & dDn & ipl & ism & E & _ & Q1 & Q2 & Q3 & S3 & P3 & _ & P2 & PL & P4 & _).
  fold e in S3, P3. clearbody e.
  assert (E1 : anode_spread F e = anode_spread F c3).
  { unfold anode_spread, getC, calcDiffConstant, calcMolarFlux, arrh. now rewrite S3, P3. }
  assert (E2 : anode_filling F e = anode_filling F c3).
  { unfold anode_filling, surface, getCSurf, calcDiffConstant, calcMolarFlux, calcSurfaceConcentration, arrh. now rewrite S3, P3. }
  rewrite E1, E2. clear E1 E2 S3 P3. geometry Q2. assert (EC : s_CS (cs c3) = s_CS (cs c)) by assumption.
  subst c'. unfold stress_change. cbn [set_st models c_str cs age rates s_CS dd_CS]. unfold cs_law. rewrite EC, Q1, Q3, P2, PL, P4, R_nZ.
  fold k m t. exists (kin F c3 (x_ocv x) (x_en x)). split.
  - unfold kin. rewrite Q1, !EF. fold k. assert (0 < (FARADAY : R)) by (rewrite faraday_eq; unfold faraday; lra). set (Fa := FARADAY : R) in *. clearbody Fa.
    match goal with |- 0 <= _ * (_ * exp ?p) * exp ?q => set (e1 := exp p); set (e2 := exp q);
      assert (0 < e1) by apply exp_pos; assert (0 < e2) by apply exp_pos end.
    fold k in Hk. replace (_ * _ * (_ * _) * _) with ((q_nsei (cp c) * cs5k k) * (Fa * e1 * e2)) by ring.
    apply Rmult_le_pos; [exact Hk|]. assert (0 < Fa * e1) by nra. nra.
  - assert (Ht : 0 < t) by (unfold t; apply IZR_lt in Hn; nra).
    assert (SQ : forall u, sqrt (Rabs u / t) * t = sqrt (t * Rabs u)).
    { intros u. replace (t * Rabs u) with (Rabs u / t * (t * t)) by (field; lra).
      rewrite sqrt_mult_alt by (apply Rmult_le_pos; [apply Rabs_pos|left; now apply Rinv_0_lt_compat]). now rewrite sqrt_square by lra. }
    rewrite <- !SQ. cbn [nadd nmul RNum]. replace (dt * IZR n) with t by (unfold t; ring).
    match goal with |- _ + ?u * dt * IZR n = _ => replace (u * dt * IZR n) with (u * t) by (unfold t; ring) end. ring.
Qed.
Print Assumptions C78_cracks.

(** Without film growth into the pores and with model 4 only, what is left of the surface of each electrode after any sequence of calls is
    the product of what each call leaves: exponential decay, each electrode at its own rate. *)
Theorem C78_decay : forall (F : fns R) tm l c c', calls F tm c l c' -> c_block c = false ->
  let d := q_deg (cp c) in d_por d = 0%Z -> Forall (fun i => i = 0 \/ i = 4)%Z (d_LAM d) ->
  s_ap (cs c') = s_ap (cs c) * left_over (times 4 (d_LAM d) * lam4p (q_lam (cp c))) l /\
  s_an (cs c') = s_an (cs c) * left_over (times 4 (d_LAM d) * lam4n (q_lam (cp c))) l.
Proof.
  intros F tm l c c' H. induction H as [c|c dt n c1 l c' H1 _ IH]; intros NB d Hp Hl.
  { cbn [left_over]. split; ring. }
  remember (q_deg (cp c)) as d0 eqn:ED. subst d. rename d0 into d.
  assert (EM : models d c = c) by (rewrite ED; destruct c as [[] ? ? ? ? ? ? ? ? ?]; reflexivity).
  rewrite <- EM in H1. pose proof (C78_surface F tm dt n c d c1 NB H1) as [S1 S2].
  destruct (law_run _ _ _ _ _ _ _ NB H1) as (c3 & x & isei & den & dDn & ipl & ism & -> & Kp & Q1 & Q2 & Q3 & _ & _ & _ & _ & _ & _ & _ & BK & _).
  rewrite Hp in Kp. cbn [por_of] in Kp. apply Ok_inj in Kp. rewrite R_nZ in Kp. subst den. geometry Q2.
  assert (E3 : s_ep (cs c3) = s_ep (cs c)) by assumption. assert (E4 : s_en (cs c3) = s_en (cs c)) by assumption.
  assert (T23 : times 2 (d_LAM d) = 0 /\ times 3 (d_LAM d) = 0).
  { clear - Hl. induction Hl as [|i t [-> | ->] _ [I1 I2]]; [split; reflexivity|..]; rewrite !times_cons, I1, I2; cbn [Z.eqb Pos.eqb]; split; ring. }
  destruct T23 as [T2 T3].
  match type of S1 with s_ap (cs ?y) = _ => set (c2 := y) in * end.
  assert (Z1 : s_ep (cs c2) - s_ep (cs c) = 0).
  { unfold c2. cbn [set_st cs age rates s_ep dd_ep lam_law a_ep]. rewrite T2, T3, R_nZ, E3. cbn [nadd nmul RNum]. ring. }
  assert (Z2 : s_en (cs c2) - s_en (cs c) = 0).
  { unfold c2. cbn [set_st cs age rates s_en dd_en lam_law a_en]. rewrite T2, R_nZ, E4. cbn [nadd nmul RNum]. ring. }
  rewrite Z1, Rmult_0_r, Rplus_0_r in S1. rewrite Z2, Rmult_0_r, Rplus_0_r in S2.
  assert (EP : cp c2 = cp c). { change (cp c2) with (with_models (cp c3) d). rewrite Q1, ED. destruct (cp c). reflexivity. }
  assert (NB2 : c_block c2 = false) by (change (c_block c2) with (c_block c3); congruence). clearbody c2.
  rewrite EP, <- ED in IH. destruct (IH NB2 Hp Hl) as [I1 I2]. rewrite I1, I2, S1, S2. cbn [left_over]. split; ring.
Qed.
Print Assumptions C78_decay.

(** A small cell with the stress models selected, repeated, with dissolution and three further crack models; and a sequence of calls with
    models of every kind. *)
Example C78_inhabited : forall i, let c := strain (toy plain i true) in
  c_block c = false /\ exponential libm /\ 0 <= lam3k (q_lam (cp c)) /\ 0 < q_n (cp c) /\ 0 <= q_nsei (cp c) * cs5k (q_cs (cp c)) /\
  (exists c', spm_timeStep_CC libm 0 1 1 (models strained c) = (c', Ok tt)) /\ times 1 (d_LAM strained) = 2 /\ times 2 (d_CS strained) = 2 /\
  times 5 (d_CS strained) = 1 /\ (exists c', calls libm 0 (toy rich i true) [(1, 1%Z)] c') /\ times 4 (d_LAM rich) = 1.
Proof.
  intros i c. split; [reflexivity|]. split; [intros x; reflexivity|].
  cbn [c strain set_par toy cp toy_par q_lam lam3k q_n q_nsei q_cs cs5k]. split; [lra|]. split; [lra|]. split; [lra|].
  split; [apply strained_run|]. unfold times. split; [cbn; ring|]. split; [cbn; ring|]. split; [cbn; ring|]. split; [|cbn; ring].
  destruct (toy_run libm 0 rich i true) as [c' H]; [tauto..|]. exists c'. econstructor; [exact H|constructor].
Qed.
