(** * C90: side reactions follow their rate laws, at any current *)
From Coq Require Import Reals Lra Psatz.
From Verif Require Import Base RFacts StatusModel UtilModel CellModel CellSpec SpmModel SpmUnitModel SpmSpec SpmProofs SpmReal SpmAge
  PhysSpec PhysProofs PhysToy DegSpec DegProofs TempSpec TempProofs LawSpec LawProofs LawToy KinSpec KinProofs.
Local Open Scope R_scope.
Ltac geometry Q2 := unfold ageing in Q2; repeat match goal with Q : _ :: _ = _ :: _ |- _ => injection Q as ? Q end.

(** Nothing the laws read depends on anything but parameters and states. *)
Lemma same_cell F (c e : spm R) : cs c = cs e -> cp c = cp e ->
  surface F c = surface F e /\ anode_spread F c = anode_spread F e /\ anode_filling F c = anode_filling F e /\
  anode_eta F c = anode_eta F e /\ cathode_eta F c = cathode_eta F e /\ (forall u, anode_potential F c u -> anode_potential F e u) /\
  (forall u x l, film_currents c u x l = film_currents e u x l) /\ (forall u x i, plating_current c u x i = plating_current e u x i) /\
  (forall l, crack_share c l = crack_share e l) /\ (forall u x, dissolution c u x = dissolution e u x) /\ (forall u x, charging_cracks c u x = charging_cracks e u x).
Proof.
  intros E P.
  assert (S : surface F c = surface F e).
  { unfold surface, getCSurf, calcDiffConstant, calcMolarFlux, calcSurfaceConcentration, arrh. now rewrite E, P. }
  split; [exact S|]. split; [unfold anode_spread, getC, calcDiffConstant, calcMolarFlux, arrh; now rewrite E, P|].
  split; [unfold anode_filling; now rewrite S, P|]. split; [unfold anode_eta, overpotential, exchange; now rewrite S, E, P|].
  split; [unfold cathode_eta, overpotential, exchange; now rewrite S, E, P|]. split; [intros u; unfold anode_potential; now rewrite S, E, P|].
  split; [intros u x l; unfold film_currents; f_equal; apply map_ext; intros i; unfold film_current, film_drop; now rewrite E, P|].
  split; [intros; unfold plating_current, film_drop; now rewrite E, P|]. split; [intros; unfold crack_share; now rewrite E, P|].
  split; intros; unfold dissolution, charging_cracks, film_drop; now rewrite E, P.
Qed.

(** In any successful call, with any selection of models and at any current: the film grows with the sum of the currents of the selected
    film models, plated lithium with the plating current, the lithium lost is the charge of both over the surface of the anode (the film
    also grows in the cracks), and the film fills the pores of the anode; all at the potentials the anode has at the end of the call. *)
Theorem C90_film : forall (F : fns R) tm dt n c d c', exponential F -> c_block c = false -> spm_timeStep_CC F tm dt n (models d c) = (c', Ok tt) ->
  let e := unaged F tm dt n c c' in let p := cp c in let t := IZR n * dt in
  exists u, anode_potential F e u /\
  let isei := film_currents e u (anode_eta F e) (d_SEI d) in let ipl := plating_current e u (anode_eta F e) (d_pl d) in
  s_delta (cs c') = s_delta (cs c) + isei / (q_nsei p * faraday * q_rhosei p) * t /\
  s_dpl (cs c') = s_dpl (cs c) + ipl / (q_npl p * faraday * q_rhopl p) * t /\
  s_LLI (cs c') = s_LLI (cs c) + (isei * (1 + crack_share c (d_CS d)) + ipl) * (q_surf p * s_thickn (cs c) * s_an (cs c)) * t /\
  let k := q_lam p in let a := arrhenius (lam2t k) (q_Tref p) (s_T (cs c')) in let jn := anode_flux c (s_I (cs c)) in
  s_en (cs c') = s_en (cs c) + times 2 (d_LAM d) * (a * (lam2an k * Rabs jn + lam2bn k * sqrt (Rabs jn))) * t -
    (if (d_por d =? 1)%Z then sei_por (q_sei p) * (jn * q_Vmain p + isei * q_Vsei p) else 0) * t.
Proof.
  intros F tm dt n c d c' EF NB H e p t.
  destruct (kin_run F tm dt n c d c' NB H) as (c3 & x & isei & den & ism & dcs & dDn & la & ipl & Ec & K0 & K1 & K2 & K3 & K5 & K6 & Q2 & S3 & P3 & Q1 & Q3 & HT & _).
  fold e in S3, P3. destruct (same_cell F c3 e S3 P3) as (_ & _ & _ & Ea & _ & Eu & Ef & Ep & _). destruct (context_facts F EF c3 x K0) as (U & X2 & _ & _).
  exists (x_ocv x). split; [now apply Eu|]. rewrite <- Ea, <- X2, <- Ef, <- Ep.
  apply (sei_all_law F EF) in K1. rewrite Rplus_0_l in K1. apply (plating_law F EF) in K6. apply (share_law F) in K3. rewrite Rplus_0_l in K3. apply lam_all_law in K5.
  rewrite <- K1, <- K6. intros i2 ip2. subst i2 ip2.
  assert (K7 : ism = crack_share c (d_CS d)).
  { rewrite K3. unfold crack_share. rewrite Q1. geometry Q2. repeat match goal with Q : _ (cs c3) = _ |- _ => rewrite Q; clear Q end. reflexivity. }
  clear K0 K1 K3 K6 Ef Ep Eu Ea U S3 P3. clearbody e.
  cbv zeta. set (k := q_lam p). set (a := arrhenius (lam2t k) (q_Tref p) (s_T (cs c'))). set (jn := anode_flux c (s_I (cs c))).
  assert (EA : a = f_exp F (lam2t (q_lam (cp c3)) * arrh c3)).
  { unfold a. rewrite HT, EF, arrh_eq, Q1. unfold arrhenius. f_equal. unfold k, p, Rdiv. ring. }
  assert (EJ : jn = snd (calcMolarFlux c3)).
  { unfold jn, anode_flux, calcMolarFlux. cbn [fst snd]. rewrite Q1, Q3. geometry Q2.
    repeat match goal with Q : _ (cs c3) = _ |- _ => rewrite Q; clear Q end. reflexivity. }
  assert (EP : den = - (if (d_por d =? 1)%Z then sei_por (q_sei p) * (jn * q_Vmain p + isei * q_Vsei p) else 0)).
  { unfold por_of in K2. rewrite Q1, Q3 in K2. fold p in K2. geometry Q2. unfold jn, anode_flux. fold p.
    destruct (d_por d) as [|[?|?|]|?]; try discriminate K2; apply Ok_inj in K2; subst den; cbn [Z.eqb Pos.eqb]; [rewrite R_nZ; ring|].
    repeat match goal with Q : _ (cs c3) = _ |- _ => rewrite Q; clear Q end. cbn [nopp nadd nmul ndiv RNum]. unfold Rdiv. ring. }
  clear K2. clearbody a jn. subst c'. cbn [set_st models cs age rates s_delta s_dpl s_LLI s_en dd_delta dd_dpl dd_LLI dd_en].
  assert (EL : a_en la = times 2 (d_LAM d) * (a * (lam2an k * Rabs jn + lam2bn k * sqrt (Rabs jn)))).
  { rewrite K5. cbn [la_add a_en lam0 lam_law]. rewrite <- EA, <- EJ, R_nZ, Q1. fold p k. ring. }
  rewrite EL, EP, K7, Q1, faraday_eq, !R_nZ. fold p. geometry Q2. repeat match goal with Q : _ (cs c3) = _ |- _ => rewrite Q; clear Q end.
  cbn [nadd nmul RNum]. unfold t. repeat split; unfold Rdiv; ring.
Qed.
Print Assumptions C90_film.

(** The cathode dissolves (third loss model) at the speed its potential gives, capped; the potential is always available when the model is
    selected. *)
Theorem C90_cathode : forall (F : fns R) tm dt n c d c', exponential F -> c_block c = false -> spm_timeStep_CC F tm dt n (models d c) = (c', Ok tt) ->
  let e := unaged F tm dt n c c' in let t := IZR n * dt in let k := q_lam (cp c) in
  let a := arrhenius (lam2t k) (q_Tref (cp c)) (s_T (cs c')) in let jp := Rabs (cathode_flux c (s_I (cs c))) in
  let potential u := XYdata_interp (q_OCVp (cp c)) (fst (surface F e) / q_Cmaxp (cp c)) true = Ok u in
  (In 3%Z (d_LAM d) -> exists u, potential u) /\
  forall u, potential u ->
    s_ep (cs c') = s_ep (cs c) + (times 2 (d_LAM d) * (a * (lam2ap k * jp + lam2bp k * sqrt jp)) - times 3 (d_LAM d) * dissolution e u (cathode_eta F e)) * t.
Proof.
  intros F tm dt n c d c' EF NB H e t k a jp.
  destruct (kin_run F tm dt n c d c' NB H) as (c3 & x & isei & den & ism & dcs & dDn & la & ipl & Ec & K0 & K1 & K2 & K3 & K5 & K6 & Q2 & S3 & P3 & Q1 & Q3 & HT & _).
  fold e in S3, P3. destruct (same_cell F c3 e S3 P3) as (Es & _ & _ & _ & Ea & _ & _ & _ & _ & Ed & _). destruct (context_facts F EF c3 x K0) as (_ & _ & X3 & X4).
  cbv zeta. rewrite <- Es. rewrite Q1 in X3. rewrite <- X3. split.
  - intros HI. destruct (lam_used F c3 _ _ _ _ _ K5 HI) as [u Hu]. exists u. now rewrite Q1 in Hu.
  - intros u Hu. apply lam_all_law in K5. rewrite <- Q1 in Hu. pose proof (diss_law F EF c3 _ (x_ep x) u Hu) as DL. rewrite X4 in DL. rewrite X4 in K5.
    rewrite Ed, Ea in DL. rewrite Ea in K5.
    assert (EA : a = f_exp F (lam2t (q_lam (cp c3)) * arrh c3)).
    { unfold a. rewrite HT, EF, arrh_eq, Q1. unfold arrhenius. f_equal. unfold k, Rdiv. ring. }
    assert (EJ : jp = Rabs (snd (fst (calcMolarFlux c3)))).
    { unfold jp, cathode_flux, calcMolarFlux. cbn [fst snd]. rewrite Q1, Q3. geometry Q2.
      repeat match goal with Q : _ (cs c3) = _ |- _ => rewrite Q; clear Q end. reflexivity. }
    clearbody a jp. subst c'. cbn [set_st models cs age rates s_ep dd_ep].
    assert (EL : a_ep la = times 2 (d_LAM d) * (a * (lam2ap k * jp + lam2bp k * sqrt jp)) - times 3 (d_LAM d) * dissolution e u (cathode_eta F e)).
    { rewrite K5. cbn [la_add a_ep lam0 lam_law]. rewrite DL, <- EA, <- EJ, R_nZ, Q1. fold k. ring. }
    rewrite EL, R_nZ. geometry Q2. repeat match goal with Q : _ (cs c3) = _ |- _ => rewrite Q; clear Q end. cbn [nadd nmul RNum]. unfold t. ring.
Qed.
Print Assumptions C90_cathode.

(** Cracks, with the speed of the fifth model: the film reaction at the potential of the anode. *)
Theorem C90_cracks : forall (F : fns R) tm dt n c d c', exponential F -> c_block c = false -> 0 < dt -> (0 < n)%Z ->
  spm_timeStep_CC F tm dt n (models d c) = (c', Ok tt) ->
  let k := q_cs (cp c) in let m := d_CS d in let t := IZR n * dt in let e := unaged F tm dt n c c' in
  exists u, anode_potential F e u /\
  s_CS (cs c') = s_CS (cs c) +
    (times 1 m * cs1a k * sqrt (t * stress_change (@t_lares_n R) c c') + times 2 m * cs2a k * sqrt (t * stress_change (@t_dai_n R) c c') +
     times 3 m * cs3a k * Rsqr (anode_spread F e) * t +
     times 4 m * cs4a k * (Rmax (cs4Amax k) (s_CS (cs c)) - s_CS (cs c)) * Rabs (s_I (cs c)) * t +
     times 5 m * stage (s_I (cs c)) (anode_filling F e) * charging_cracks e u (anode_eta F e) * t).
Proof.
  intros F tm dt n c d c' EF NB Hd Hn H k m t e.
  destruct (kin_run F tm dt n c d c' NB H) as (c3 & x & isei & den & ism & dcs & dDn & la & ipl & Ec & K0 & K1 & K2 & K3 & K5 & K6 & Q2 & S3 & P3 & Q1 & Q3 & HT & Z1 & Z2 & Z3).
  fold e in S3, P3. destruct (same_cell F c3 e S3 P3) as (_ & E1 & E2 & Ea & _ & Eu & _ & _ & _ & _ & Ek). destruct (context_facts F EF c3 x K0) as (U & X2 & _ & _).
  exists (x_ocv x). split; [now apply Eu|]. apply cs_all_law in K3. rewrite Rplus_0_l in K3. unfold cs_law in K3. rewrite kin_law, X2 in K3 by exact EF.
  rewrite <- E1, <- E2, <- Ek, <- Ea. clear E1 E2 Ek Ea Eu U S3 P3. clearbody e. geometry Q2. assert (EC : s_CS (cs c3) = s_CS (cs c)) by assumption.
  subst c'. unfold stress_change. cbn [set_st models c_str cs age rates s_CS dd_CS]. rewrite K3, EC, Q1, Q3, Z1, Z2, Z3, R_nZ. fold k m t.
  assert (Ht : 0 < t) by (unfold t; apply IZR_lt in Hn; nra).
  assert (SQ : forall u, sqrt (Rabs u / t) * t = sqrt (t * Rabs u)).
  { intros u. replace (t * Rabs u) with (Rabs u / t * (t * t)) by (field; lra).
    rewrite sqrt_mult_alt by (apply Rmult_le_pos; [apply Rabs_pos|left; now apply Rinv_0_lt_compat]). now rewrite sqrt_square by lra. }
  rewrite <- !SQ. cbn [nadd nmul RNum].
  match goal with |- _ + ?u * dt * IZR n = _ => replace (u * dt * IZR n) with (u * t) by (unfold t; ring) end. ring.
Qed.
Print Assumptions C90_cracks.

(** The film current of the models with diffusion is positive and below both what the kinetics alone and what the diffusion alone would
    give, so a film that grows protects itself. *)
Theorem C90_protects : forall (c : spm R) u e,
  let p := cp c in let k := q_sei p in let T := s_T (cs c) in let nF := q_nsei p * faraday in
  0 < q_nsei p -> 0 < s_delta (cs c) -> 0 < q_celec0 p ->
  let limited v := (0 < sei2k k -> 0 < sei2D k -> v = 2%Z -> exists kin dif, kin = q_celec0 p * (nF * tafel (sei2k k) (sei2kT k) (q_nsei p) (q_asei p) (q_Tref p) T (u + e - q_OCVsei p + film_drop c)) /\
      dif = q_celec0 p * (nF * (sei2D k * arrhenius (sei2DT k) (q_Tref p) T)) / s_delta (cs c) /\ 0 < film_current c u e v < Rmin kin dif) /\
    (0 < sei3k k -> 0 < sei3D k -> v = 3%Z -> exists out kin dif, out = 134461 / 1000000 * exp (- (nF * (e + film_drop c)) / (gas * T)) /\
      kin = out * (nF * tafel (sei3k k) (sei3kT k) (q_nsei p) (q_asei p) (q_Tref p) T (u - q_OCVsei p)) /\
      dif = out * (nF * (sei3D k * arrhenius (sei3DT k) (q_Tref p) T)) / s_delta (cs c) /\ 0 < film_current c u e v < Rmin kin dif) /\
    (0 < sei4k k -> 0 < sei4D k -> v = 4%Z -> exists out kin dif, out = 134461 / 1000000 * exp (- (nF * e) / (gas * T)) /\
      kin = out * (nF * tafel (sei4k k) (sei4kT k) (q_nsei p) (q_asei p) (q_Tref p) T (u - q_OCVsei p)) /\
      dif = out * (nF * (sei4D k * arrhenius (sei4DT k) (q_Tref p) T)) / s_delta (cs c) /\ 0 < film_current c u e v < Rmin kin dif) in
  forall v, limited v.
Proof.
  intros c u e p k T nF Hn Hd Hc.
  assert (HF : 0 < nF) by (unfold nF, faraday; lra).
  assert (TP : forall k0 E z al t0 t v, 0 < k0 -> 0 < tafel k0 E z al t0 t v).
  { intros. unfold tafel, arrhenius. repeat apply Rmult_lt_0_compat; try assumption; apply exp_pos. }
  assert (L : forall out a D, 0 < out -> 0 < a -> 0 < D -> 0 < out * (1 / (1 / a + s_delta (cs c) / (nF * D))) < Rmin (out * a) (out * (nF * D) / s_delta (cs c))).
  { intros out a D Ho Ha HD. set (b := s_delta (cs c) / (nF * D)). assert (Hb : 0 < b) by (unfold b; apply Rdiv_lt_0_compat; [assumption|now apply Rmult_lt_0_compat]).
    assert (Hi : 0 < 1 / a) by (apply Rdiv_lt_0_compat; lra). set (i := 1 / a) in *.
    replace (out * a) with (out * (1 / i)) by (unfold i; field; lra).
    replace (out * (nF * D) / s_delta (cs c)) with (out * (1 / b)) by (unfold b; field; lra). clearbody i b.
    assert (M : forall x, 0 < x < i + b -> out * (1 / (i + b)) < out * (1 / x)).
    { intros x Hx. apply Rmult_lt_compat_l; [assumption|]. unfold Rdiv. rewrite !Rmult_1_l. apply Rinv_lt_contravar; [apply Rmult_lt_0_compat; lra|lra]. }
    split; [apply Rmult_lt_0_compat; [assumption|apply Rdiv_lt_0_compat; lra]|]. apply Rmin_glb_lt; apply M; lra. }
  assert (AP : forall D E, 0 < D -> 0 < D * arrhenius E (q_Tref p) T) by (intros; apply Rmult_lt_0_compat; [assumption|apply exp_pos]).
  assert (OP : forall x, 0 < 134461 / 1000000 * exp x) by (intros; apply Rmult_lt_0_compat; [lra|apply exp_pos]).
  intros v. split; [|split]; intros Hk HD ->; [do 2 eexists|do 3 eexists; split; [reflexivity|]..]; (split; [reflexivity|]); (split; [reflexivity|]);
    unfold film_current; fold p k T nF; apply L; auto; apply Rmult_lt_0_compat; auto.
Qed.
Print Assumptions C90_protects.

(** The small cells of C74 and C78: calls with film growth by two models into the pores and plating, and with dissolution and cracks by five
    models. *)
Example C90_inhabited : forall i, exponential libm /\ c_block (toy plain i true) = false /\
  (exists c', spm_timeStep_CC libm 0 1 1 (models rich (toy plain i true)) = (c', Ok tt)) /\ d_SEI rich = [1; 2]%Z /\ d_por rich = 1%Z /\ d_pl rich = 1%Z /\
  (exists c', spm_timeStep_CC libm 0 1 1 (models strained (strain (toy plain i true))) = (c', Ok tt)) /\ In 3%Z (d_LAM strained) /\ In 5%Z (d_CS strained) /\
  (forall u e, film_current (toy plain i true) u e 2 <> 0 /\ film_current (toy plain i true) u e 1 <> 0).
Proof.
  intros i. split; [intros x; reflexivity|]. split; [reflexivity|]. split.
  { destruct (toy_run libm 0 rich i true) as [c' H]; [tauto..|]. exists c'. exact H. }
  do 3 (split; [reflexivity|]). split; [apply strained_run|]. split; [right; now left|]. split; [do 3 right; now left|]. intros u e. split.
  - destruct (C90_protects (toy plain i true) u e) with (v := 2%Z) as [P _]; cbn; try lra. destruct (P ltac:(cbn; lra) ltac:(cbn; lra) eq_refl) as (? & ? & _ & _ & P1).
    cbn in P1 |- *. lra.
  - unfold film_current, tafel, faraday. cbn [toy cp toy_par q_nsei q_sei sei1k]. apply Rmult_integral_contrapositive_currified; [lra|].
    apply Rmult_integral_contrapositive_currified; [|apply Rgt_not_eq, exp_pos]. apply Rmult_integral_contrapositive_currified; [lra|]. apply Rgt_not_eq, exp_pos.
Qed.
