(** * Proofs: the rate laws of the side reactions *)
From Coq Require Import Reals Lra Psatz.
From Verif Require Import Base RFacts StatusModel UtilModel CellModel CellSpec SpmModel SpmUnitModel SpmSpec SpmProofs SpmReal SpmAge
  PhysSpec PhysProofs DegSpec DegProofs TempSpec TempProofs LawSpec LawProofs KinSpec.
Local Open Scope R_scope.

Section Kin.
Context (F : fns R) (EF : exponential F).

Lemma exp_arrh (c : spm R) E : f_exp F (E * arrh c) = arrhenius E (q_Tref (cp c)) (s_T (cs c)).
Proof. rewrite EF, arrh_eq. unfold arrhenius. f_equal. unfold Rdiv. ring. Qed.
Lemma tafel_eq (c : spm R) k E z al v : k * f_exp F (E * arrh c) * f_exp F (- z * FARADAY / (RGAS * s_T (cs c)) * al * v) =
  tafel k E z al (q_Tref (cp c)) (s_T (cs c)) v.
Proof. rewrite exp_arrh, EF, gas_eq, faraday_eq. unfold tafel. do 2 f_equal. unfold Rdiv. ring. Qed.

(** The potentials the models are given. *)
Lemma context_facts (c : spm R) k : context_of F c = Ok k ->
  anode_potential F c (x_ocv k) /\ x_en k = anode_eta F c /\ x_zp k = fst (surface F c) / q_Cmaxp (cp c) /\ x_ep k = cathode_eta F c.
Proof.
  unfold context_of, anode_potential, anode_eta, cathode_eta, surface, getCSurf.
  destruct (calcDiffConstant F c) as [dpt dnt]. destruct (calcMolarFlux c) as [[ia jp] jn] eqn:EM.
  destruct (calcSurfaceConcentration c jp jn dpt dnt) as [cps cns]. cbn [fst snd].
  destruct (conc_bad c cps cns); [discriminate|].
  destruct (calcOverPotential F c cps cns ia) as [ep en] eqn:EO.
  destruct (XYdata_interp (q_dOCVn (cp c)) _ true) as [e|?| |] eqn:E1; [|discriminate..]. cbn [rbind].
  destruct (XYdata_interp (q_OCVn (cp c)) _ true) as [o|?| |] eqn:E2; [|discriminate..]. cbn [rbind].
  intros H. apply Ok_inj in H. subst k. cbn [x_ocv x_en x_zp x_ep].
  assert (EI : ia = s_I (cs c) / q_surf (cp c)) by (unfold calcMolarFlux in EM; cbn [ndiv RNum] in EM; congruence).
  unfold calcOverPotential in EO. rewrite !exp_arrh, gas_eq, faraday_eq, !R_nlit, R_nZ in EO. apply pair_equal_spec in EO. destruct EO as [<- <-].
  subst ia. split; [|split; [|split]].
  - exists o, e. repeat split; first [exact E2|exact E1|reflexivity].
  - unfold overpotential, exchange. cbn [nmul ndiv nsub nsqrt nopp RNum]. do 2 f_equal. unfold Rdiv. rewrite !Rinv_mult. ring.
  - reflexivity.
  - unfold overpotential, exchange. cbn [nmul ndiv nsub nsqrt nopp RNum]. do 2 f_equal. unfold Rdiv. rewrite !Rinv_mult. ring.
Qed.

Lemma sei_one_law (c : spm R) o e i x : sei_one F c o e i = Ok x -> x = film_current c o e i.
Proof.
  unfold sei_one, film_current, eta_sei, film_drop. cbn [nopp nadd nsub nmul ndiv RNum]. rewrite !R_nZ, !R_nlit.
  assert (T : forall k E v, q_nsei (cp c) * FARADAY * (k * f_exp F (E * arrh c)) * f_exp F (- q_nsei (cp c) * FARADAY / (RGAS * s_T (cs c)) * q_asei (cp c) * v) =
    q_nsei (cp c) * faraday * tafel k E (q_nsei (cp c)) (q_asei (cp c)) (q_Tref (cp c)) (s_T (cs c)) v).
  { intros k E v. rewrite <- tafel_eq, faraday_eq. ring. }
  assert (X : forall v, f_exp F (- q_nsei (cp c) * FARADAY * v / (RGAS * s_T (cs c))) = exp (- (q_nsei (cp c) * faraday * v) / (gas * s_T (cs c)))).
  { intros v. rewrite EF, gas_eq, faraday_eq. f_equal. unfold Rdiv. ring. }
  destruct i as [|[[?|[?|?|]|]|[?|[?|?|]|]|]|?]; try discriminate; intros H; apply Ok_inj in H; subst x.
  - reflexivity.
  - rewrite X, T, exp_arrh, faraday_eq. unfold Rdiv. ring.
  - rewrite X, T, exp_arrh, faraday_eq. unfold Rdiv. ring.
  - rewrite T, exp_arrh, faraday_eq. unfold Rdiv. ring.
  - apply T.
Qed.
Lemma sei_all_law (c : spm R) o e l : forall a x, sei_all F c o e l a = Ok x -> x = a + film_currents c o e l.
Proof.
  unfold film_currents. induction l as [|i l IH]; intros a x H; cbn [sei_all map Rsum] in *.
  - apply Ok_inj in H. subst x. ring.
  - destruct (sei_one F c o e i) as [y|?| |] eqn:E; try discriminate. cbn [rbind] in H. rewrite (IH _ _ H), (sei_one_law _ _ _ _ _ E).
    cbn [nadd RNum]. ring.
Qed.
Lemma plating_law (c : spm R) o e i x : plating_of F i c o e = Ok x -> x = plating_current c o e i.
Proof.
  unfold plating_of, plating_current, film_drop. cbn [nopp nadd nsub nmul ndiv RNum]. rewrite ?R_nZ.
  destruct i as [|[?|?|]|?]; try discriminate; intros H; apply Ok_inj in H; subst x; [apply R_nZ|]. cbn [Z.eqb Pos.eqb].
  match goal with |- ?x = _ => change x with (q_npl (cp c) * FARADAY * (pl1k (q_pl (cp c)) * f_exp F (pl1kT (q_pl (cp c)) * arrh c)) *
    f_exp F (- q_n (cp c) * FARADAY / (RGAS * s_T (cs c)) * q_apl (cp c) * (o + e - q_OCVpl (cp c) + q_rsei (cp c) * s_delta (cs c) * s_I (cs c)))) end.
  rewrite <- tafel_eq, faraday_eq. ring.
Qed.
Lemma share_law (c : spm R) o e l : forall a b x y, cs_all F c o e l a b = Ok (x, y) -> x = a + crack_share c l.
Proof.
  unfold crack_share. induction l as [|i l IH]; intros a b x y H.
  { cbn [cs_all] in H. apply Ok_inj in H. injection H as <- <-. cbn. ring. }
  cbn [cs_all] in H. destruct (cs_one F c o e i) as [[d f]|?| |] eqn:E; try discriminate. cbn [rbind] in H. rewrite (IH _ _ _ _ H). clear H IH.
  assert (Ef : f = negb (i =? 0)%Z).
  { unfold cs_one in E. destruct (getCSurf F c) as [[? ?] ?]. destruct (getC F c) as [? ?].
    destruct i as [|[[?|[?|?|]|]|[?|[?|?|]|]|]|?]; try discriminate E; try (destruct (negb _); [discriminate E|]); apply Ok_inj in E; injection E as _ <-; reflexivity. }
  subst f. cbn [filter]. unfold anode_surface. destruct (i =? 0)%Z; cbn [negb nadd nmul ndiv RNum]; [reflexivity|]. cbn [length]. rewrite S_INR. ring.
Qed.
Lemma diss_law (c : spm R) z e u : XYdata_interp (q_OCVp (cp c)) z true = Ok u -> diss F c z e = - dissolution c u e.
Proof.
  intros E. unfold diss, dissolution. rewrite E, exp_arrh, EF, gas_eq, faraday_eq.
  replace (q_n (cp c) * faraday / gas / s_T (cs c) * (u + e - q_OCVnmc (cp c))) with (q_n (cp c) * faraday * (u + e - q_OCVnmc (cp c)) / (gas * s_T (cs c)))
    by (unfold Rdiv; rewrite Rinv_mult; ring).
  match goal with |- Rmax ?a ?b = - Rmin ?p ?q => replace a with (- p) by lra; replace b with (- q) by (unfold Rdiv; ring) end.
  unfold Rmax, Rmin. destruct (Rle_dec _ _), (Rle_dec _ _); lra.
Qed.
Lemma kin_law (c : spm R) o e : kin F c o e = charging_cracks c o e.
Proof.
  unfold kin, charging_cracks, tafel, eta_sei, film_drop, arrhenius. cbn [nopp nadd nsub nmul ndiv RNum]. rewrite !EF, gas_eq, faraday_eq.
  match goal with |- _ * (_ * exp ?a) * exp ?b = _ * (_ * exp ?c * exp ?d) => replace d with b; [ring|] end.
  unfold Rdiv. ring.
Qed.
Lemma lam_used (c : spm R) z e l : forall r x, lam_all F c z e l r = Ok x -> In 3%Z l -> exists u, XYdata_interp (q_OCVp (cp c)) z true = Ok u.
Proof.
  induction l as [|i l IH]; intros r x H HI; [destruct HI|]. cbn [lam_all] in H. destruct (lam_one F c z e i r) as [r1|?| |] eqn:E; try discriminate. cbn [rbind] in H.
  destruct HI as [->|HI]; [|exact (IH _ _ H HI)]. unfold lam_one in E. destruct (XYdata_interp _ z true) as [u|?| |]; try discriminate. now exists u.
Qed.

(** The parts of a call, at the cell as it is before ageing. *)
Lemma kin_run tm dt n c d c' : c_block c = false -> spm_timeStep_CC F tm dt n (models d c) = (c', Ok tt) ->
  exists c3 k isei den ism dcs dDn la ipl,
    c' = set_st (models d c3) (age (cs c3) (rates c3 isei den ism dcs dDn la ipl) dt (nZ n)) /\
    context_of F c3 = Ok k /\ sei_all F c3 (x_ocv k) (x_en k) (d_SEI d) 0 = Ok isei /\ por_of (d_por d) c3 isei = Ok den /\
    cs_all F c3 (x_ocv k) (x_en k) (d_CS d) 0 0 = Ok (ism, dcs) /\ lam_all F c3 (x_zp k) (x_ep k) (d_LAM d) lam0 = Ok la /\
    plating_of F (d_pl d) c3 (x_ocv k) (x_en k) = Ok ipl /\
    ageing c3 = ageing c /\ cs c3 = cs (unaged F tm dt n c c') /\ cp c3 = cp (unaged F tm dt n c c') /\ cp c3 = cp c /\ s_I (cs c3) = s_I (cs c) /\ s_T (cs c') = s_T (cs c3) /\
    t_dai_n_prev (c_str c3) = t_dai_n (c_str c) /\ t_lares_n_prev (c_str c3) = t_lares_n (c_str c) /\ t_dt (c_str c3) = IZR n * dt.
Proof.
  intros NB H. destruct (proj1 (run_models _ _ _ _ _ _ _ NB) H) as (c3 & r & B & D & ->).
  apply degr_parts in D. destruct D as (k & isei & den & ism & dcs & dDn & la & ipl & K0 & K1 & K2 & K3 & K4 & K5 & K6 & ->).
  destruct (before_same F tm dt n c c3 NB B) as (Q1 & Q2 & Q3 & Hd). destruct (before_blk F tm dt n c c3 NB B) as (c2 & E & E1 & _ & (t & Et) & _).
  destruct (before_prev F tm dt n c c3 B) as (_ & P2 & P3 & P4).
  assert (ET : s_T (cs (set_st (models d c3) (age (cs c3) (rates c3 isei den ism dcs dDn la ipl) dt (nZ n)))) = s_T (cs c3)).
  { cbn [set_st cs age s_T]. rewrite !R_nZ. cbn [nadd nmul RNum]. ring. }
  exists c3, k, isei, den, ism, dcs, dDn, la, ipl. split; [reflexivity|]. do 6 (split; [assumption|]). split; [exact Q2|].
  split; [|split; [|split; [exact Q1|split; [exact Q3|split; [exact ET|split; [exact P2|split; [exact P3|exact P4]]]]]]].
  - unfold unaged. rewrite ET, E. cbn [fst]. change (cs (spm_setT _ (blk true c2))) with (st_T (cs c2) (s_T (cs c3))). rewrite Et. reflexivity.
  - unfold unaged. rewrite E. cbn [fst]. change (cp (spm_setT _ (blk true c2))) with (cp c2). congruence.
Qed.
End Kin.
