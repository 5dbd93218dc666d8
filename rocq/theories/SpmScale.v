(** * Lemmas about the single-particle cell: capacity factor *)
From Coq Require Import Lra.
From Verif Require Import Base RFacts StatusModel UtilModel CellModel CellSpec SpmModel SpmSpec SpmProofs SpmReal SpmDiff.

Section Scale.
Variable F : fns R.
Implicit Types (c d : spm R) (s : spm_st R).
Local Open Scope R_scope.

(** [d] is [c] with [k] times the capacity and the electrode surface, at the same internal state. *)
Definition scaled (k : R) c d : Prop :=
  cp d = par_var (cp c) (k * q_cap (cp c)) (k * q_surf (cp c)) (q_sei (cp c)) (q_cs (cp c)) (q_lam (cp c)) (q_pl (cp c))
                 (q_deg (cp c)) (q_sdai (cp c)) (q_slares (cp c)) /\
  s_T (cs d) = s_T (cs c) /\ ageing d = ageing c /\ s_zp (cs d) = s_zp (cs c) /\ s_zn (cs d) = s_zn (cs c) /\
  s_SOC (cs d) = s_SOC (cs c).

Lemma scaled_D k c d : scaled k c d -> Dp_of F d = Dp_of F c /\ Dn_of F d = Dn_of F c.
Proof.
  intros (P & T & G & _). unfold Dp_of, Dn_of, calcDiffConstant, arrh. rewrite P, T.
  unfold ageing in G. injection G. intros. cbn [fst snd par_var q_DpT q_DnT q_Tref]. split; congruence.
Qed.
Lemma scaled_j k c d : k <> 0 -> scaled k c d -> s_I (cs d) = k * s_I (cs c) -> jp_of d = jp_of c /\ jn_of d = jn_of c.
Proof.
  intros K (P & T & G & _) HI. unfold jp_of, jn_of, calcMolarFlux. rewrite P, HI.
  unfold ageing in G. injection G. intros. cbn [fst snd par_var q_surf q_n].
  repeat match goal with H : ?x (cs d) = ?x (cs c) |- _ => rewrite H; clear H end.
  assert (E : ndiv (k * s_I (cs c)) (k * q_surf (cp c)) = ndiv (s_I (cs c)) (q_surf (cp c))).
  { cbn [ndiv RNum]. unfold Rdiv. rewrite Rinv_mult. replace (k * s_I (cs c) * (/ k * / q_surf (cp c)))
      with ((k * / k) * (s_I (cs c) * / q_surf (cp c))) by ring. rewrite Rinv_r by exact K. ring. }
  rewrite E. now split.
Qed.

Lemma driven_scaled tm k c l c' : k <> 0 -> driven F tm c l c' -> forall d d',
  scaled k c d -> diffusion_only tm c -> diffusion_only tm d ->
  driven F tm d (map (fun '(i, dt, n) => (k * i, dt, n)) l) d' -> scaled k c' d'.
Proof.
  intros K. induction 1 as [c|c i dt n c1 l c' T R IH]; intros d d' S O1 O2 H.
  - cbn in H. inversion H; subst. exact S.
  - cbn [map] in H. inversion H as [|x1 x2 x3 x4 e1 x5 x6 T' R']; subst. clear H.
    destruct (setI_build F c i) as (S1 & I1 & P1 & N1 & Q1). destruct (setI_build F d (k * i)) as (S2 & I2 & P2 & N2 & Q2).
    assert (C1 : s_SOC (cs (fst (spm_setCurrent F i false c))) = s_SOC (cs c)) by reflexivity.
    assert (C2 : s_SOC (cs (fst (spm_setCurrent F (k * i) false d))) = s_SOC (cs d)) by reflexivity.
    remember (fst (spm_setCurrent F i false c)) as a1. remember (fst (spm_setCurrent F (k * i) false d)) as a2.
    clear Heqa1 Heqa2.
    assert (U1 : diffusion_only tm a1) by exact (build_diffusion tm c a1 S1 Q1 O1).
    assert (U2 : diffusion_only tm a2) by exact (build_diffusion tm d a2 S2 Q2 O2).
    assert (SA : scaled k a1 a2).
    { destruct S as (E1 & E2 & E3 & E4 & E5 & E6). destruct S1 as (A1 & A2 & A3 & _). destruct S2 as (B1 & B2 & B3 & _).
      unfold scaled. rewrite A1, B1. repeat split; congruence. }
    destruct (timeStep_z F _ _ _ _ _ U1 T) as (G1 & J1 & V1 & _ & X1 & Y1).
    destruct (timeStep_z F _ _ _ _ _ U2 T') as (G2 & J2 & V2 & _ & X2 & Y2).
    destruct (timeStep_counters F _ _ _ _ _ T) as (_ & _ & _ & Z1 & _).
    destruct (timeStep_counters F _ _ _ _ _ T') as (_ & _ & _ & Z2 & _).
    destruct (scaled_D _ _ _ SA) as (Da & Db). destruct (scaled_j _ _ _ K SA) as (Ja & Jb); [congruence|].
    destruct SA as (E1 & E2 & E3 & E4 & E5 & E6). destruct G1 as (A1 & A2 & A3 & A4). destruct G2 as (B1 & B2 & B3 & B4).
    apply (IH e1).
    + unfold scaled. rewrite A1, B1. split; [congruence|]. do 2 (split; [congruence|]). split; [|split].
      * rewrite X1, X2, Da, Ja, E1, E4. reflexivity.
      * rewrite Y1, Y2, Db, Jb, E1, E5. reflexivity.
      * rewrite Z1, Z2, E1, E6, I1, I2. cbn [q_cap par_var]. f_equal. unfold Rdiv. rewrite !Rinv_mult.
        replace (k * i * (INR n * dt) * (/ k * / q_cap (cp a1) * / 3600))
          with ((k * / k) * (i * (INR n * dt) * (/ q_cap (cp a1) * / 3600))) by ring.
        rewrite Rinv_r by exact K. ring.
    + exact (build_diffusion tm a1 c1 (conj A1 (conj A2 (conj A3 A4))) V1 U1).
    + exact (build_diffusion tm a2 e1 (conj B1 (conj B2 (conj B3 B4))) V2 U2).
    + exact R'.
Qed.

(** Same internal state, [k] times the current: same voltage. *)
Lemma scaled_V k c d : k <> 0 -> scaled k c d -> s_I (cs d) = k * s_I (cs c) -> fresh_V F d = fresh_V F c.
Proof.
  intros K S HI. rewrite !fresh_V_calc.
  assert (calcV F d = calcV F c) as ->; [|reflexivity].
  destruct (scaled_D _ _ _ S) as (Da & Db). destruct (scaled_j _ _ _ K S HI) as (Ja & Jb).
  unfold Dp_of, Dn_of, jp_of, jn_of in *.
  destruct S as (P & T & G & Z1 & Z2 & _). unfold ageing in G. injection G. intros.
  assert (Ei : ndiv (s_I (cs d)) (q_surf (cp d)) = ndiv (s_I (cs c)) (q_surf (cp c))).
  { rewrite HI, P. cbn [q_surf par_var ndiv RNum]. unfold Rdiv. rewrite Rinv_mult.
    replace (k * s_I (cs c) * (/ k * / q_surf (cp c))) with ((k * / k) * (s_I (cs c) * / q_surf (cp c))) by ring.
    rewrite Rinv_r by exact K. ring. }
  assert (Er : nmul (getRdc d) (s_I (cs d)) = nmul (getRdc c) (s_I (cs c))).
  { unfold getRdc. rewrite HI, P. cbn [q_surf q_rsei par_var].
    repeat match goal with H : ?x (cs d) = ?x (cs c) |- _ => rewrite H; clear H end.
    cbn [nadd nmul ndiv RNum]. unfold Rdiv. rewrite !Rinv_mult.
    match goal with |- ?l = ?r => replace l with ((k * / k) * r) by ring end. rewrite Rinv_r by exact K. ring. }
  unfold calcV, getCSurf.
  destruct (calcDiffConstant F c) as [dp dn]. destruct (calcDiffConstant F d) as [dp' dn']. cbn [fst snd] in Da, Db. subst dp' dn'.
  destruct (calcMolarFlux c) as [[ia jp] jn]. destruct (calcMolarFlux d) as [[ia' jp'] jn']. cbn [fst snd] in Ja, Jb. subst jp' jn'.
  assert (Es : calcSurfaceConcentration d jp jn dp dn = calcSurfaceConcentration c jp jn dp dn).
  { unfold calcSurfaceConcentration. rewrite P, Z1, Z2. reflexivity. }
  rewrite Es. destruct (calcSurfaceConcentration c jp jn dp dn) as [cps cns].
  assert (Eb : conc_bad d cps cns = conc_bad c cps cns) by (unfold conc_bad; rewrite P; reflexivity).
  rewrite Eb. destruct (negb (negb (conc_bad c cps cns))); [reflexivity|].
  rewrite Ei, Er.
  assert (Eo : calcOverPotential F d cps cns (ndiv (s_I (cs c)) (q_surf (cp c))) =
               calcOverPotential F c cps cns (ndiv (s_I (cs c)) (q_surf (cp c)))).
  { unfold calcOverPotential, arrh. rewrite P, T.
    repeat match goal with H : ?x (cs d) = ?x (cs c) |- _ => rewrite H; clear H end. reflexivity. }
  rewrite Eo, T, P. cbn [q_dOCVtot q_OCVn q_OCVp q_Cmaxp q_Cmaxn q_Tref par_var]. reflexivity.
Qed.

(** Two constructions that differ in the capacity factor. *)
Lemma make_scaled m p n dn dt deg k r sf lf sg lg c d :
  spm_make m p n dn dt deg 1 r sf lf = Ok c -> spm_make m p n dn dt deg k r sg lg = Ok d -> scaled k c d.
Proof.
  unfold spm_make. destruct (spm_default m p n dn dt) as [b|e| |]; try discriminate. cbn [rbind].
  destruct (q_var (cp b)) as [[[v1 v2] v3] v4]. intros H1 H2. injection H1 as <-. injection H2 as <-.
  unfold scaled. cbn [cp cs set_st set_par]. split; [|repeat split].
  unfold par_var. cbn.
  replace (k * (q_cap (cp b) * 1)) with (q_cap (cp b) * k) by ring.
  replace (k * (q_surf (cp b) * 1)) with (q_surf (cp b) * k) by ring. reflexivity.
Qed.
End Scale.
