(** * C74: how the degradation models of a single-particle cell combine *)
From Coq Require Import Reals Lra Permutation Psatz.
From Verif Require Import Base RFacts StatusModel UtilModel CellModel CellSpec SpmModel SpmUnitModel SpmSpec SpmProofs SpmReal SpmAge
  PhysSpec PhysProofs PhysToy DegSpec DegProofs.
Local Open Scope R_scope.

(** Splits a call with models into its parts, all four from the same cell. *)
Ltac parts H c3 := let c' := fresh "c'" in let r := fresh "r" in let B := fresh "B" in let D := fresh "D" in
  destruct (proj1 (run_models _ _ _ _ _ _ _ ltac:(eassumption)) H) as (c' & r & B & D & ->);
  let k := fresh "k" in let i := fresh "isei" in let den := fresh "den" in let ism := fresh "ism" in let dcs := fresh "dcs" in
  let dDn := fresh "dDn" in let la := fresh "la" in let ipl := fresh "ipl" in let K := fresh "K" in
  let S := fresh "Ks" in let P := fresh "Kp" in let C := fresh "Kc" in let Df := fresh "Kd" in let L := fresh "Kl" in let Pl := fresh "Kpl" in
  apply degr_parts in D; destruct D as (k & i & den & ism & dcs & dDn & la & ipl & K & S & P & C & Df & L & Pl & ->);
  cbn [d_SEI d_por d_CS d_csdiff d_LAM d_pl] in S, P, C, Df, L, Pl.
Ltac same_cell := repeat match goal with
  | A : before _ _ _ _ ?c = Ok ?x, B : before _ _ _ _ ?c = Ok ?y |- _ => first [constr_eq x y; fail 1 | assert (y = x) by congruence; subst y]
  | A : context_of _ ?c = Ok ?x, B : context_of _ ?c = Ok ?y |- _ => first [constr_eq x y; fail 1 | assert (y = x) by congruence; subst y]
  | A : ?t = Ok ?x, B : ?t = Ok ?y |- _ => first [constr_eq x y; fail 1 | assert (y = x) by congruence; subst y]
  | A : ?t = Ok (?x, ?x'), B : ?t = Ok (?y, ?y') |- _ =>
      first [constr_eq x y; fail 1 | assert (y = x) by congruence; assert (y' = x') by congruence; subst y y']
  end.

(** Film growth: with the models of [l1 ++ l2] selected, a call does what it does without, plus the effect of [l1] plus the effect of
    [l2], on every quantity. *)
Theorem C74_sum_SEI : forall (F : fns R) tm dt n c l1 l2 por cr cd lm pl c0 c1 c2 c12, c_block c = false ->
  let run l c' := spm_timeStep_CC F tm dt n (models (mkDeg l por cr cd lm pl) c) = (c', Ok tt) in
  run [] c0 -> run l1 c1 -> run l2 c2 -> run (l1 ++ l2) c12 ->
  forall f, degrading f \/ f = s_Dn -> effects_add f c0 c1 c2 c12.
Proof.
  intros F tm dt n c l1 l2 por cr cd lm pl c0 c1 c2 c12 NB run H0 H1 H2 H3. subst run. cbv beta in *.
  parts H0 x0. parts H1 x1. parts H2 x2. parts H3 x3. same_cell.
  cbn [sei_all] in Ks. injection Ks as <-.
  pose proof (sei_sum _ _ _ _ _ _ _ _ _ Ks0 Ks1 Ks2) as E.
  pose proof (por_affine _ _ _ _ _ _ _ _ _ E Kp0 Kp1 Kp2 Kp) as EP. rewrite E. clear - EP.
  assert (EP' : den2 = den0 + den1 - den) by lra. rewrite EP'. clear.
  intros f Hf. unfold effects_add. destruct Hf as [[Hf|[j ->]]| ->].
  - cbn [In] in Hf. repeat destruct Hf as [<-|Hf]; try easy;
      cbn [set_st cs models age rates s_delta s_LLI s_thickp s_thickn s_ep s_en s_ap s_an s_CS s_dpl dd_delta dd_LLI dd_tp dd_tn dd_ep dd_en dd_ap
           dd_an dd_CS dd_dpl nadd nmul RNum]; unfold Rdiv; ring.
  - cbn [set_st cs]. rewrite !age_mode, !zn_nth. destruct (Nat.ltb j _); unfold Rdiv; ring.
  - cbn [set_st cs age rates s_Dn dd_Dn nadd nmul RNum]. ring.
Qed.
Print Assumptions C74_sum_SEI.

(** Crack growth: the same, but for the diffusion constant of the anode. *)
Theorem C74_sum_CS : forall (F : fns R) tm dt n c l1 l2 sei por cd lm pl c0 c1 c2 c12, c_block c = false ->
  let run l c' := spm_timeStep_CC F tm dt n (models (mkDeg sei por l cd lm pl) c) = (c', Ok tt) in
  run [] c0 -> run l1 c1 -> run l2 c2 -> run (l1 ++ l2) c12 ->
  forall f, degrading f -> effects_add f c0 c1 c2 c12.
Proof.
  intros F tm dt n c l1 l2 sei por cd lm pl c0 c1 c2 c12 NB run H0 H1 H2 H3. subst run. cbv beta in *.
  parts H0 x0. parts H1 x1. parts H2 x2. parts H3 x3. same_cell.
  cbn [cs_all] in Kc. injection Kc as <- <-.
  destruct (cs_sum _ _ _ _ _ _ _ _ _ _ _ _ Kc0 Kc1 Kc2) as [E E']. rewrite E, E'. clear.
  intros f Hf. unfold effects_add. destruct Hf as [Hf|[j ->]].
  - cbn [In] in Hf. repeat destruct Hf as [<-|Hf]; try easy;
      cbn [set_st cs models age rates s_delta s_LLI s_thickp s_thickn s_ep s_en s_ap s_an s_CS s_dpl dd_delta dd_LLI dd_tp dd_tn dd_ep dd_en dd_ap
           dd_an dd_CS dd_dpl nadd nmul RNum]; unfold Rdiv; ring.
  - cbn [set_st cs]. rewrite !age_mode, !zn_nth. destruct (Nat.ltb j _); unfold Rdiv; ring.
Qed.
Print Assumptions C74_sum_CS.

(** Loss of active material. *)
Theorem C74_sum_LAM : forall (F : fns R) tm dt n c l1 l2 sei por cr cd pl c0 c1 c2 c12, c_block c = false ->
  let run l c' := spm_timeStep_CC F tm dt n (models (mkDeg sei por cr cd l pl) c) = (c', Ok tt) in
  run [] c0 -> run l1 c1 -> run l2 c2 -> run (l1 ++ l2) c12 ->
  forall f, degrading f \/ f = s_Dn -> effects_add f c0 c1 c2 c12.
Proof.
  intros F tm dt n c l1 l2 sei por cr cd pl c0 c1 c2 c12 NB run H0 H1 H2 H3. subst run. cbv beta in *.
  parts H0 x0. parts H1 x1. parts H2 x2. parts H3 x3. same_cell.
  cbn [lam_all] in Kl. apply Ok_inj in Kl. subst la.
  pose proof (lam_sum _ _ _ _ _ _ _ _ _ Kl0 Kl1 Kl2) as E. rewrite E. clear.
  assert (Z : (nZ 0 : R) = 0) by apply R_nZ.
  intros f Hf. unfold effects_add. destruct Hf as [[Hf|[j ->]]| ->].
  - cbn [In] in Hf. repeat destruct Hf as [<-|Hf]; try easy;
      cbn [set_st cs models age rates s_delta s_LLI s_thickp s_thickn s_ep s_en s_ap s_an s_CS s_dpl dd_delta dd_LLI dd_tp dd_tn dd_ep dd_en dd_ap
           dd_an dd_CS dd_dpl lam0 la_add a_tp a_tn a_ap a_an a_ep a_en]; rewrite ?Z; cbn [nadd nmul RNum]; unfold Rdiv; ring.
  - cbn [set_st cs]. rewrite !age_mode, !zn_nth. destruct (Nat.ltb j _); unfold Rdiv; ring.
  - cbn [set_st cs age rates s_Dn dd_Dn nadd nmul RNum]. ring.
Qed.
Print Assumptions C74_sum_LAM.

(** The order in which models were selected does not matter. *)
Theorem C74_order : forall (F : fns R) tm dt n c d d' c', c_block c = false -> reordered d d' ->
  spm_timeStep_CC F tm dt n (models d c) = (c', Ok tt) -> spm_timeStep_CC F tm dt n (models d' c) = (models d' c', Ok tt).
Proof.
  intros F tm dt n c d d' c' NB (P1 & P2 & P3 & E1 & E2 & E3) H.
  parts H x. rewrite run_models by exact NB. exists c'0, (rates c'0 isei den ism dcs dDn la ipl). split; [exact B|]. split; [|reflexivity].
  apply degr_parts. exists k, isei, den, ism, dcs, dDn, la, ipl. rewrite E1, E2, E3.
  repeat split; try assumption; [eapply sei_perm|eapply cs_perm|eapply lam_perm]; eassumption.
Qed.
Print Assumptions C74_order.

(** Lithium: what the inventory loses the anode loses. With all reactions exchanging as many electrons as the main one, the change of
    every mode of the anode is the one a further discharge of that charge would have caused; the cathode is not touched. *)
Theorem C74_lithium : forall (F : fns R) tm dt n c d c', c_block c = false -> q_nsei (cp c) = q_n (cp c) -> q_npl (cp c) = q_n (cp c) ->
  q_surf (cp c) <> 0 -> s_an (cs c) <> 0 -> s_thickn (cs c) <> 0 -> q_n (cp c) <> 0 ->
  spm_timeStep_CC F tm dt n (models d c) = (c', Ok tt) ->
  let c2 := fst (spm_timeStep_CC F tm dt n (models d (after F tm (OpBlock true) c))) in
  let lost := s_LLI (cs c') - s_LLI (cs c) in
  s_zp (cs c') = s_zp (cs c2) /\ length (s_zn (cs c')) = length (s_zn (cs c2)) /\
  forall j, (j < length (s_zn (cs c2)))%nat ->
    anode_mode j (cs c') = anode_mode j (cs c2) + nth j (m_Bn (q_M (cp c))) 0 * anode_flux c lost.
Proof.
  intros F tm dt n c d c' NB N1 N2 Z1 Z2 Z3 Z4 H.
  assert (NB' : c_block (models d c) = false) by exact NB.
  destruct (proj1 (timeStep_before F tm dt n (models d c) c' NB') H) as (c3 & r & B & D & ->).
  destruct (before_blk F tm dt n _ c3 NB' B) as (c2 & E & P2 & P3 & (t & Et) & AG & _ & _).
  change (after F tm (OpBlock true) (models d c)) with (models d (after F tm (OpBlock true) c)) in E. rewrite E. cbn [fst].
  rewrite before_models in B. destruct (before F tm dt n c) as [c4|e| |] eqn:EB; try discriminate. cbn [rmap rbind] in B. apply Ok_inj in B. subst c3.
  apply degr_parts in D. destruct D as (k & isei & den & ism & dcs & dDn & la & ipl & K & Ks & Kp & Kc & Kd & Kl & Kpl & ->).
  destruct (before_same F tm dt n c c4 NB EB) as (Q1 & Q2 & _ & _).
  change (cs (models d c4)) with (cs c4) in *. change (cs (blk true c2)) with (cs c2). cbn [set_st cs].
  assert (EZ : s_zn (cs c4) = s_zn (cs c2) /\ s_zp (cs c4) = s_zp (cs c2)) by (rewrite Et; now split). destruct EZ as [EZ EY].
  split; [cbn [age s_zp]; rewrite EY; rewrite R_nZ; rewrite <- (map_id (s_zp (cs c2))) at 2; apply map_ext; intros x; cbn [nadd nmul RNum]; ring|].
  split.
  { cbn [age s_zn]. rewrite <- EZ. generalize (dd_zn (rates c4 isei den ism dcs dDn la ipl)) (s_zn (cs c4)). clear.
    intros l z. revert l. induction z as [|x z IH]; intros [|y l]; cbn [age_z length]; auto. }
  intros j Hj. rewrite age_mode, zn_nth, EZ. apply Nat.ltb_lt in Hj. rewrite Hj.
  cbn [age s_LLI rates dd_LLI]. unfold anode_mode, anode_flux. rewrite EZ, Q1, N1, N2, R_nZ. cbn [nadd nmul RNum].
  assert (AN : s_LLI (cs c4) = s_LLI (cs c) /\ s_an (cs c4) = s_an (cs c) /\ s_thickn (cs c4) = s_thickn (cs c)).
  { unfold ageing in Q2. repeat match goal with Q : _ :: _ = _ :: _ |- _ => injection Q as ? Q end. repeat split; assumption. }
  destruct AN as (-> & -> & ->). assert (0 < FARADAY) by apply F_pos. set (Fa := FARADAY) in *. clearbody Fa.
  field. repeat split; lra.
Qed.
Print Assumptions C74_lithium.

(** Every mechanism acts on its own quantities only, and no mechanism changes the cathode's diffusion constant, specific resistances,
    current, charge counter or throughput. *)
Theorem C74_frame : forall (F : fns R) tm dt n c d c', c_block c = false ->
  spm_timeStep_CC F tm dt n (models d c) = (c', Ok tt) ->
  s_Dp (cs c') = s_Dp (cs c) /\ s_rp (cs c') = s_rp (cs c) /\ s_rn (cs c') = s_rn (cs c) /\ s_rcc (cs c') = s_rcc (cs c) /\
  s_I (cs c') = s_I (cs c) /\
  (d_SEI d = [] -> s_delta (cs c') = s_delta (cs c)) /\
  (d_CS d = [] -> s_CS (cs c') = s_CS (cs c)) /\
  (d_csdiff d = 0%Z -> s_Dn (cs c') = s_Dn (cs c)) /\
  (d_pl d = 0%Z -> s_dpl (cs c') = s_dpl (cs c)) /\
  (d_SEI d = [] -> d_pl d = 0%Z -> s_LLI (cs c') = s_LLI (cs c)) /\
  (d_LAM d = [] -> s_thickp (cs c') = s_thickp (cs c) /\ s_thickn (cs c') = s_thickn (cs c) /\ s_ep (cs c') = s_ep (cs c) /\ s_ap (cs c') = s_ap (cs c)) /\
  (d_LAM d = [] -> d_por d = 0%Z -> s_en (cs c') = s_en (cs c) /\ s_an (cs c') = s_an (cs c)).
Proof.
  intros F tm dt n c d c' NB H. parts H x.
  destruct (before_same F tm dt n c c'0 NB B) as (Q1 & Q2 & Q3 & _).
  unfold ageing in Q2. repeat match goal with Q : _ :: _ = _ :: _ |- _ => injection Q as ? Q end.
  assert (Z : (nZ 0 : R) = 0) by apply R_nZ.
  assert (S0 : d_SEI d = [] -> isei = 0) by (intros E; rewrite E in Ks; cbn [sei_all] in Ks; congruence).
  assert (C0 : d_CS d = [] -> dcs = 0) by (intros E; rewrite E in Kc; cbn [cs_all] in Kc; congruence).
  assert (D0 : d_csdiff d = 0%Z -> dDn = 0) by (intros E; rewrite E in Kd; unfold diff_of in Kd; congruence).
  assert (P0 : d_pl d = 0%Z -> ipl = 0) by (intros E; rewrite E in Kpl; cbn [plating_of] in Kpl; unfold plating_of, LiPlating in Kpl; cbn [models with_models cp q_deg d_pl] in Kpl; congruence).
  assert (O0 : d_por d = 0%Z -> den = 0) by (intros E; rewrite E in Kp; unfold por_of in Kp; congruence).
  assert (L0 : d_LAM d = [] -> la = lam0) by (intros E; rewrite E in Kl; cbn [lam_all] in Kl; congruence).
  cbn [set_st cs age rates s_Dp s_rp s_rn s_rcc s_I s_delta s_CS s_Dn s_dpl s_LLI s_thickp s_thickn s_ep s_ap s_en s_an
       dd_delta dd_LLI dd_tp dd_tn dd_ep dd_en dd_ap dd_an dd_CS dd_dpl dd_Dn].
  rewrite !Z. cbn [nadd nmul RNum].
  repeat match goal with |- _ /\ _ => split end; intros;
    repeat match goal with E : d_SEI d = [] |- _ => rewrite (S0 E); clear E | E : d_CS d = [] |- _ => rewrite (C0 E); clear E
      | E : d_csdiff d = 0%Z |- _ => rewrite (D0 E); clear E | E : d_pl d = 0%Z |- _ => rewrite (P0 E); clear E
      | E : d_por d = 0%Z |- _ => rewrite (O0 E); clear E | E : d_LAM d = [] |- _ => rewrite (L0 E); clear E end;
    cbn [lam0 a_tp a_tn a_ap a_an a_ep a_en]; rewrite ?Z;
    repeat match goal with |- _ /\ _ => split end; unfold Rdiv;
    match goal with |- ?a = ?b => match goal with E : _ = b |- _ => rewrite <- E end end; ring.
Qed.
Print Assumptions C74_frame.

(** A call succeeds only with documented identifiers, and a stress model is only used when its stress is computed in the same call. *)
Theorem C74_known : forall (F : fns R) tm dt n c d c', c_block c = false -> spm_timeStep_CC F tm dt n (models d c) = (c', Ok tt) ->
  documented d /\
  ((0 < n)%Z -> (In 1%Z (d_CS d) -> q_slares (cp c) = true) /\ (In 2%Z (d_CS d) \/ In 1%Z (d_LAM d) -> q_sdai (cp c) = true)).
Proof.
  intros F tm dt n c d c' NB H. parts H x. destruct (before_same F tm dt n c c'0 NB B) as (Q1 & _).
  destruct (cs_known _ _ _ _ _ _ _ _ Kc) as (C1 & C2 & C3). destruct (lam_known _ _ _ _ _ _ _ Kl) as (L1 & L2). split.
  - split; [eapply sei_known, Ks|]. split; [exact C1|]. split; [exact L1|]. split; [|split].
    + revert Kp. unfold por_of. destruct (d_por d) as [|[q|q|]|q]; try discriminate; intros _; lia.
    + revert Kd. unfold diff_of. destruct (d_csdiff d) as [|[q|q|]|q]; try discriminate; intros _; lia.
    + revert Kpl. unfold plating_of, LiPlating. cbn [models with_models cp q_deg d_pl].
      destruct (d_pl d) as [|[q|q|]|q]; try discriminate; intros _; lia.
  - intros Hn. destruct (before_flags F tm dt n c c'0 Hn B) as [B1 B2]. rewrite Q1 in B1, B2. split; [auto|]. intros [J|J]; auto.
Qed.
Print Assumptions C74_known.

Lemma nmax_Rmax (a b : R) : nmax a b = Rmax a b.
Proof.
  unfold nmax. destruct (nltb a b) eqn:E; [apply Rltb_true in E; symmetry; apply Rmax_right; lra|apply Rltb_false in E; symmetry; apply Rmax_left; lra].
Qed.
Lemma nmin_Rmin' (a b : R) : nmin a b = Rmin a b.
Proof.
  unfold nmin. destruct (nltb b a) eqn:E; [apply Rltb_true in E; symmetry; apply Rmin_right; lra|apply Rltb_false in E; symmetry; apply Rmin_left; lra].
Qed.
Lemma cs4_sum F c o e l : Forall (fun i => i = 0 \/ i = 4)%Z l -> forall a b x y, cs_all F c o e l a b = Ok (x, y) ->
  y = b + INR (count_occ Z.eq_dec l 4%Z) * (cs4a (q_cs (cp c)) * (Rmax (cs4Amax (q_cs (cp c))) (s_CS (cs c)) - s_CS (cs c)) * Rabs (s_I (cs c))).
Proof.
  induction 1 as [|i l [-> | ->] HF IH]; intros a b x y.
  - cbn [cs_all count_occ]. intros H. injection H as <- <-. cbn [INR]. ring.
  - cbn [cs_all cs_one rbind]. intros H. apply IH in H. rewrite H. rewrite count_occ_cons_neq by discriminate. reflexivity.
  - cbn [cs_all cs_one rbind]. intros H. apply IH in H. rewrite H. rewrite count_occ_cons_eq by reflexivity. rewrite S_INR, nmax_Rmax.
    cbn [nadd nmul nsub nabs RNum]. ring.
Qed.

(** With the fourth crack model (alone or repeated) the crack surface grows towards its maximum and never beyond. *)
Theorem C74_crack : forall (F : fns R) tm dt n c d c', c_block c = false -> (0 <= n)%Z -> Forall (fun i => i = 0 \/ i = 4)%Z (d_CS d) ->
  let a := cs4a (q_cs (cp c)) in let top := Rmax (cs4Amax (q_cs (cp c))) (s_CS (cs c)) in
  0 <= a -> INR (count_occ Z.eq_dec (d_CS d) 4%Z) * a * Rabs (s_I (cs c)) * (dt * IZR n) <= 1 ->
  spm_timeStep_CC F tm dt n (models d c) = (c', Ok tt) ->
  s_CS (cs c) <= s_CS (cs c') <= top /\
  top - s_CS (cs c') = (1 - INR (count_occ Z.eq_dec (d_CS d) 4%Z) * a * Rabs (s_I (cs c)) * (dt * IZR n)) * (top - s_CS (cs c)).
Proof.
  intros F tm dt n c d c' NB Hn HF a top Ha Hs H. parts H x. destruct (before_same F tm dt n c c'0 NB B) as (Q1 & Q2 & Q3 & Hd).
  apply (cs4_sum _ _ _ _ _ HF) in Kc. rewrite Q1, Q3 in Kc. fold a in Kc.
  assert (EC : s_CS (cs c'0) = s_CS (cs c)).
  { unfold ageing in Q2. repeat match goal with Q : _ :: _ = _ :: _ |- _ => injection Q as ? Q end. assumption. }
  rewrite EC in Kc. fold top in Kc. set (kk := INR _) in *. assert (0 <= kk) by apply pos_INR.
  cbn [set_st cs age rates s_CS dd_CS]. rewrite R_nZ, EC. cbn [nadd nmul RNum].
  assert (HT : s_CS (cs c) <= top) by apply Rmax_r. assert (0 <= IZR n) by (apply IZR_le in Hn; exact Hn).
  rewrite Kc. set (ii := Rabs (s_I (cs c))) in *. assert (0 <= ii) by apply Rabs_pos.
  set (w := kk * a * ii * (dt * IZR n)) in *.
  assert (W0 : 0 <= w) by (unfold w; repeat apply Rmult_le_pos; assumption).
  replace ((0 + kk * (a * (top - s_CS (cs c)) * ii)) * dt * IZR n) with (w * (top - s_CS (cs c))) by (unfold w; ring).
  clearbody w. clear - W0 Hs HT. assert (0 <= w * (top - s_CS (cs c))) by (apply Rmult_le_pos; lra). assert (0 <= (1 - w) * (top - s_CS (cs c))) by (apply Rmult_le_pos; lra).
  split; [|ring]. lra.
Qed.
Print Assumptions C74_crack.

(** Crack growth slows diffusion in the anode, by at most 2e-7 of the constant per second. *)
Theorem C74_diffusion : forall (F : fns R) tm dt n c d c', c_block c = false -> (0 <= n)%Z ->
  (forall x y, 0 <= f_pow F x y) -> 0 <= cs_diff (q_cs (cp c)) -> 0 <= s_CS (cs c) -> 0 <= s_Dn (cs c) ->
  spm_timeStep_CC F tm dt n (models d c) = (c', Ok tt) -> s_CS (cs c) <= s_CS (cs c') ->
  s_Dn (cs c) * (1 - 2 / 10000000 * (dt * IZR n)) <= s_Dn (cs c') <= s_Dn (cs c).
Proof.
  intros F tm dt n c d c' NB Hn Hpow Hc HCS HD H. parts H x. destruct (before_same F tm dt n c c'0 NB B) as (Q1 & Q2 & Q3 & Hd).
  unfold ageing in Q2. repeat match goal with Q : _ :: _ = _ :: _ |- _ => injection Q as ? Q end.
  cbn [set_st cs age rates s_CS dd_CS s_Dn dd_Dn]. rewrite R_nZ. cbn [nadd nmul RNum].
  assert (HN : 0 <= IZR n) by (apply IZR_le in Hn; exact Hn).
  assert (EC : s_CS (cs c'0) = s_CS (cs c)) by assumption. assert (ED : s_Dn (cs c'0) = s_Dn (cs c)) by assumption.
  rewrite EC, ED. intros HG. set (T := dt * IZR n). assert (HT : 0 <= T) by (now apply Rmult_le_pos).
  assert (KG : exists g, dDn = - g * s_Dn (cs c) /\ g <= 2 / 10000000 /\ (0 <= dcs -> 0 <= g)).
  { revert Kd. unfold diff_of. cbv zeta. rewrite nmin_Rmin', nmax_Rmax, R_nlit, Q1, EC, ED. destruct (d_csdiff d) as [|[q|q|]|q]; try discriminate; intros E.
    - exists 0. apply Ok_inj in E. rewrite <- E, R_nZ. split; [ring|]. split; [lra|]. intros; lra.
    - apply Ok_inj in E. rewrite <- E. eexists. split; [cbn [nmul nopp RNum]; reflexivity|]. split; [apply Rmin_l|]. intros P.
      apply Rmin_glb; [lra|]. cbn [nmul ndiv RNum]. apply Rmult_le_pos; [|exact P]. apply div_nonneg.
      + apply Rmult_le_pos; [exact Hc|apply Hpow].
      + eapply Rle_trans; [exact HCS|apply Rmax_r]. }
  destruct KG as (g & -> & G1 & G2).
  replace (- g * s_Dn (cs c) * dt * IZR n) with (- (g * (T * s_Dn (cs c)))) by (unfold T; ring).
  assert (HP : 0 <= T * s_Dn (cs c)) by (now apply Rmult_le_pos).
  destruct (Rle_lt_or_eq_dec 0 T HT) as [TP|TP].
  - assert (DP : 0 <= dcs). { assert (0 <= dcs * T) by (unfold T; lra). destruct (Rle_dec 0 dcs); [assumption|]. assert (dcs * T < 0) by (apply Ropp_lt_cancel; rewrite Ropp_0, <- Ropp_mult_distr_l_reverse; apply Rmult_lt_0_compat; lra). lra. }
    specialize (G2 DP). assert (0 <= g * (T * s_Dn (cs c))) by (now apply Rmult_le_pos).
    assert (g * (T * s_Dn (cs c)) <= 2 / 10000000 * (T * s_Dn (cs c))) by (now apply Rmult_le_compat_r). split; lra.
  - rewrite <- TP. split; lra.
Qed.
Print Assumptions C74_diffusion.

(** Calls with several models of every kind selected, in either order, and without: all succeed. The hypotheses of the lithium balance
    hold for the small cell. *)
Example C74_inhabited : forall i, let c := toy plain i true in
  (exists c', spm_timeStep_CC libm 0 1 1 (models rich c) = (c', Ok tt)) /\
  (exists c', spm_timeStep_CC libm 0 1 1 (models plain c) = (c', Ok tt)) /\
  reordered rich (mkDeg [2; 1]%Z 1 [4]%Z 1 [4; 2]%Z 1) /\ documented rich /\
  q_nsei (cp c) = q_n (cp c) /\ q_npl (cp c) = q_n (cp c) /\ q_n (cp c) <> 0 /\ s_an (cs c) <> 0.
Proof.
  intros i c. split; [change (models rich c) with (toy rich i true); apply toy_run; tauto|].
  split; [change (models plain c) with (toy plain i true); apply toy_run; tauto|].
  split; [repeat split; cbn; try apply Permutation_refl; apply perm_swap|].
  split; [unfold documented; cbn; repeat constructor; lia|]. cbn. repeat split; lra.
Qed.
