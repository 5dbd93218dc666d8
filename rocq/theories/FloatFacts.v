(** * Facts about binary64, through Flocq *)
From Coq Require Import Reals Lra Lia SpecFloat ZArith.
From Flocq Require Import Core BinarySingleNaN Relative Plus_error Sterbenz.
From Verif Require Import Base FloatSpec.
Local Open Scope R_scope.

(** Rounding to the nearest double (ties to even), without overflow. *)
Definition rnd (x : R) : R := round radix2 (FLT_exp (-1074) 53) ZnearestE x.
(** The largest power of two: below it no operation overflows. *)
Definition huge : R := bpow radix2 1023.
#[local] Instance Hprec : FLX.Prec_gt_0 prec64 := eq_refl _.
#[local] Instance Hmax : Prec_lt_emax prec64 emax64 := eq_refl _.
#[local] Instance Hprec' : FLX.Prec_gt_0 53 := eq_refl _.
Lemma eps_bpow : eps = bpow radix2 (-53).
Proof. unfold eps. reflexivity. Qed.
Lemma eps_pos : 0 < eps.
Proof. unfold eps. lra. Qed.
Lemma huge_pos : 0 < huge.
Proof. apply bpow_gt_0. Qed.
Lemma fexp_eq : forall e, SpecFloat.fexp prec64 emax64 e = FLT_exp (-1074) 53 e.
Proof. intros e. reflexivity. Qed.
Lemma rnd_eq x : round radix2 (SpecFloat.fexp prec64 emax64) (round_mode mode_NE) x = rnd x.
Proof. reflexivity. Qed.

Definition bf (x : f64) (H : fin x) : binary_float prec64 emax64 := SF2B x (proj1 H).
Lemma bf_sf x H : B2SF (bf x H) = x.
Proof. apply B2SF_SF2B. Qed.
Lemma bf_val x H : B2R (bf x H) = fval x.
Proof. apply B2R_SF2B. Qed.
Lemma bf_fin x H : is_finite (bf x H) = true.
Proof. unfold bf. rewrite is_finite_SF2B. apply H. Qed.
Lemma fin_b (b : binary_float prec64 emax64) : is_finite b = true -> fin (B2SF b).
Proof. intros H. split; [apply valid_binary_B2SF|]. now rewrite is_finite_SF_B2SF. Qed.
Lemma val_b (b : binary_float prec64 emax64) : fval (B2SF b) = B2R b.
Proof. apply SF2R_B2SF. Qed.

(** ** The operations of the standard library are those of Flocq *)
Lemma rne_equiv s m l : round_nearest_even m l = choice_mode mode_NE s m l.
Proof. case l; [reflexivity|intros c]. case c; [|reflexivity..]. now simpl; unfold Round.cond_incr; case Z.even. Qed.
Lemma round_aux_equiv sx mx ex lx : SpecFloat.binary_round_aux prec64 emax64 sx mx ex lx = binary_round_aux prec64 emax64 mode_NE sx mx ex lx.
Proof.
  unfold SpecFloat.binary_round_aux, binary_round_aux. set (m := shr_fexp _ _ _). case m. intros m' e'. simpl. now rewrite (rne_equiv sx).
Qed.
Lemma round_equiv s m e : SpecFloat.binary_round prec64 emax64 s m e = binary_round prec64 emax64 mode_NE s m e.
Proof. unfold SpecFloat.binary_round, binary_round, shl_align_fexp. set (z := shl_align _ _ _). case z. intros mz ez. apply round_aux_equiv. Qed.
Lemma normalize_equiv m e z : SpecFloat.binary_normalize prec64 emax64 m e z = B2SF (binary_normalize prec64 emax64 Hprec Hmax mode_NE m e z).
Proof. case m as [|p|p]; [reflexivity|..]; simpl; rewrite B2SF_SF2B; apply round_equiv. Qed.
Lemma add_equiv (x y : binary_float prec64 emax64) : SFadd prec64 emax64 (B2SF x) (B2SF y) = B2SF (Bplus mode_NE x y).
Proof.
  case x as [sx|sx| |sx mx ex Bx]; case y as [sy|sy| |sy my ey By]; [now (trivial || simpl; case Bool.eqb).. |]. apply normalize_equiv.
Qed.
Lemma sub_equiv (x y : binary_float prec64 emax64) : SFsub prec64 emax64 (B2SF x) (B2SF y) = B2SF (Bminus mode_NE x y).
Proof.
  case x as [sx|sx| |sx mx ex Bx]; case y as [sy|sy| |sy my ey By]; [now (trivial || simpl; case Bool.eqb).. |].
  simpl. unfold Zminus. rewrite <- cond_Zopp_negb. apply normalize_equiv.
Qed.
Lemma mul_equiv (x y : binary_float prec64 emax64) : SFmul prec64 emax64 (B2SF x) (B2SF y) = B2SF (Bmult mode_NE x y).
Proof.
  case x as [sx|sx| |sx mx ex Bx]; case y as [sy|sy| |sy my ey By]; [now trivial.. |]. simpl. rewrite B2SF_SF2B. apply round_aux_equiv.
Qed.
Lemma div_equiv (x y : binary_float prec64 emax64) : SFdiv prec64 emax64 (B2SF x) (B2SF y) = B2SF (Bdiv mode_NE x y).
Proof.
  case x as [sx|sx| |sx mx ex Bx]; case y as [sy|sy| |sy my ey By]; [now (trivial || simpl; case Bool.eqb).. |].
  simpl. rewrite B2SF_SF2B. set (z := SFdiv_core_binary _ _ _ _ _ _). case z as [[mz ez] lz]. apply round_aux_equiv.
Qed.

(** ** Rounding *)
Lemma rnd_le x y : x <= y -> rnd x <= rnd y.
Proof. apply round_le; auto with typeclass_instances. Qed.
Lemma rnd_0 : rnd 0 = 0.
Proof. apply round_0; auto with typeclass_instances. Qed.
Definition fmt (x : R) : Prop := generic_format radix2 (FLT_exp (-1074) 53) x.
Lemma rnd_id x : fmt x -> rnd x = x.
Proof. intros H. apply round_generic; auto with typeclass_instances. Qed.
Lemma rnd_fmt x : fmt (rnd x).
Proof. apply generic_format_round; auto with typeclass_instances. Qed.
Lemma fmt_val x : fin x -> fmt (fval x).
Proof. intros H. rewrite <- (bf_val x H). exact (generic_format_B2R _ _ (bf x H)). Qed.
Lemma fmt_huge : fmt huge.
Proof. apply generic_format_bpow. vm_compute. discriminate. Qed.
Lemma fmt_opp x : fmt x -> fmt (- x).
Proof. apply generic_format_opp. Qed.
Lemma rnd_huge x : Rabs x <= huge -> Rabs (rnd x) <= huge.
Proof.
  intros H. apply Rabs_le_inv in H. apply Rabs_le. rewrite <- (rnd_id huge fmt_huge) at 2.
  rewrite <- (rnd_id (- huge) (fmt_opp _ fmt_huge)) at 1. split; now apply rnd_le.
Qed.
Lemma huge_lt : huge < bpow radix2 emax64.
Proof. now apply bpow_lt. Qed.
Lemma no_overflow x : Rabs x <= huge -> Rlt_bool (Rabs (rnd x)) (bpow radix2 emax64) = true.
Proof. intros H. apply Rlt_bool_true. apply Rle_lt_trans with (2 := huge_lt). now apply rnd_huge. Qed.

Theorem fadd x y : fin x -> fin y -> Rabs (fval x + fval y) <= huge -> fin (SFadd prec64 emax64 x y) /\ fval (SFadd prec64 emax64 x y) = rnd (fval x + fval y).
Proof.
  intros Hx Hy H. rewrite <- (bf_sf x Hx), <- (bf_sf y Hy) at 1 2. rewrite add_equiv.
  generalize (Bplus_correct prec64 emax64 Hprec Hmax mode_NE (bf x Hx) (bf y Hy) (bf_fin x Hx) (bf_fin y Hy)).
  rewrite !bf_val, rnd_eq, no_overflow by exact H. intros (A & B & _). split; [now apply fin_b|]. now rewrite val_b.
Qed.
Theorem fsub x y : fin x -> fin y -> Rabs (fval x - fval y) <= huge -> fin (SFsub prec64 emax64 x y) /\ fval (SFsub prec64 emax64 x y) = rnd (fval x - fval y).
Proof.
  intros Hx Hy H. rewrite <- (bf_sf x Hx), <- (bf_sf y Hy) at 1 2. rewrite sub_equiv.
  generalize (Bminus_correct prec64 emax64 Hprec Hmax mode_NE (bf x Hx) (bf y Hy) (bf_fin x Hx) (bf_fin y Hy)).
  rewrite !bf_val, rnd_eq, no_overflow by exact H. intros (A & B & _). split; [now apply fin_b|]. now rewrite val_b.
Qed.
Theorem fmul x y : fin x -> fin y -> Rabs (fval x * fval y) <= huge -> fin (SFmul prec64 emax64 x y) /\ fval (SFmul prec64 emax64 x y) = rnd (fval x * fval y).
Proof.
  intros Hx Hy H. rewrite <- (bf_sf x Hx), <- (bf_sf y Hy) at 1 2. rewrite mul_equiv.
  generalize (Bmult_correct prec64 emax64 Hprec Hmax mode_NE (bf x Hx) (bf y Hy)).
  rewrite !bf_val, rnd_eq, no_overflow by exact H. rewrite !bf_fin. intros (A & B & _). split; [now apply fin_b|]. now rewrite val_b.
Qed.
Theorem fdiv x y : fin x -> fin y -> fval y <> 0 -> Rabs (fval x / fval y) <= huge ->
  fin (SFdiv prec64 emax64 x y) /\ fval (SFdiv prec64 emax64 x y) = rnd (fval x / fval y).
Proof.
  intros Hx Hy H0 H. rewrite <- (bf_sf x Hx), <- (bf_sf y Hy) at 1 2. rewrite div_equiv. rewrite <- (bf_val y Hy) in H0.
  generalize (Bdiv_correct prec64 emax64 Hprec Hmax mode_NE (bf x Hx) (bf y Hy) H0).
  rewrite !bf_val, rnd_eq, no_overflow by exact H. rewrite !bf_fin. intros (A & B & _). split; [now apply fin_b|]. now rewrite val_b.
Qed.
Theorem fabs x : fin x -> fin (SFabs x) /\ fval (SFabs x) = Rabs (fval x).
Proof.
  intros Hx. assert (E : SFabs x = B2SF (Babs (bf x Hx))).
  { rewrite <- (bf_sf x Hx) at 1. now case (bf x Hx). }
  rewrite E, val_b, B2R_Babs, bf_val. split; [|reflexivity]. apply fin_b. rewrite is_finite_Babs. apply bf_fin.
Qed.
Theorem fopp x : fin x -> fin (SFopp x) /\ fval (SFopp x) = - fval x.
Proof.
  intros Hx. assert (E : SFopp x = B2SF (Bopp (bf x Hx))).
  { rewrite <- (bf_sf x Hx) at 1. now case (bf x Hx). }
  rewrite E, val_b, B2R_Bopp, bf_val. split; [|reflexivity]. apply fin_b. rewrite is_finite_Bopp. apply bf_fin.
Qed.
Theorem fltb x y : fin x -> fin y -> (SFltb x y = true <-> fval x < fval y).
Proof.
  intros Hx Hy. rewrite <- (bf_sf x Hx), <- (bf_sf y Hy) at 1. change (SFltb (B2SF ?a) (B2SF ?b)) with (Bltb a b).
  generalize (Bltb_correct prec64 emax64 (bf x Hx) (bf y Hy) (bf_fin x Hx) (bf_fin y Hy)). unfold Bltb. intros ->. rewrite !bf_val.
  case Rlt_bool_spec; intros L; split; intros; try easy; lra.
Qed.
Theorem fleb x y : fin x -> fin y -> (SFleb x y = true <-> fval x <= fval y).
Proof.
  intros Hx Hy. rewrite <- (bf_sf x Hx), <- (bf_sf y Hy) at 1.
  generalize (Bleb_correct prec64 emax64 (bf x Hx) (bf y Hy) (bf_fin x Hx) (bf_fin y Hy)). unfold Bleb. intros ->. rewrite !bf_val.
  case Rle_bool_spec; intros L; split; intros; try easy; lra.
Qed.
Lemma fltb_false x y : fin x -> fin y -> (SFltb x y = false <-> fval y <= fval x).
Proof.
  intros Hx Hy. pose proof (fltb x y Hx Hy) as H. destruct (SFltb x y); split; intros; try easy.
  - exfalso. assert (fval x < fval y) by now apply H. lra.
  - apply Rnot_lt_le. intros L. apply H in L. discriminate.
Qed.

(** Integers *)
Lemma fmt_int z : (Z.abs z <= 2 ^ 53)%Z -> fmt (IZR z).
Proof.
  intros H. destruct (Z.eq_dec (Z.abs z) (2 ^ 53)) as [E|E].
  - assert (fmt (IZR (2 ^ 53))) as G. { replace (IZR (2 ^ 53)) with (bpow radix2 53) by reflexivity. now apply generic_format_bpow. }
    destruct (Z.abs_eq_or_opp z) as [K|K]; rewrite K in E; [now rewrite E|]. replace z with (- (2 ^ 53))%Z by lia. rewrite opp_IZR. now apply fmt_opp.
  - apply generic_format_FLT. exists (Float radix2 z 0); cbn; [unfold F2R; cbn; lra| |lia].
    assert (Z.abs z < 2 ^ 53)%Z by lia. exact H0.
Qed.
Lemma fint z : (Z.abs z <= 2 ^ 53)%Z -> fin (sf_of_Z z) /\ fval (sf_of_Z z) = IZR z.
Proof.
  intros H. unfold sf_of_Z. rewrite normalize_equiv.
  generalize (binary_normalize_correct prec64 emax64 Hprec Hmax mode_NE z 0 false). cbv zeta.
  assert (F2R (Float radix2 z 0) = IZR z) as -> by (unfold F2R; cbn; lra). rewrite rnd_eq.
  assert (rnd (IZR z) = IZR z) as E by (apply rnd_id; now apply fmt_int).
  rewrite no_overflow.
  - intros (A & B & _). split; [now apply fin_b|]. now rewrite val_b, A.
  - rewrite <- abs_IZR. apply Rle_trans with (IZR (2 ^ 53)); [now apply IZR_le|]. replace (IZR (2 ^ 53)) with (bpow radix2 53) by reflexivity.
    now apply bpow_le.
Qed.

(** ** Errors *)
Lemma add_err x y : fmt x -> fmt y -> Rabs (rnd (x + y) - (x + y)) <= eps * Rabs (x + y).
Proof.
  intros Hx Hy. destruct (FLT_plus_error_N_ex radix2 (-1074) 53 (fun n => negb (Z.even n)) x y Hx Hy) as (d & Hd & E).
  unfold rnd. rewrite E. replace ((x + y) * (1 + d) - (x + y)) with (d * (x + y)) by ring. rewrite Rabs_mult.
  apply Rmult_le_compat_r; [apply Rabs_pos|]. apply Rle_trans with (1 := Hd).
  assert (U : u_ro radix2 53 = eps) by (unfold u_ro; rewrite eps_bpow; cbn; lra). rewrite U.
  pose proof eps_pos. apply Rmult_le_reg_r with (1 + eps); [lra|]. unfold Rdiv. rewrite Rmult_assoc, Rinv_l by lra. nra.
Qed.
Lemma sub_err x y : fmt x -> fmt y -> Rabs (rnd (x - y) - (x - y)) <= eps * Rabs (x - y).
Proof. intros Hx Hy. apply (add_err x (- y)); [exact Hx|now apply fmt_opp]. Qed.
(** The smallest normal double. *)
Definition tiny : R := bpow radix2 (-1022).
Lemma rnd_err x : tiny <= Rabs x -> Rabs (rnd x - x) <= eps * Rabs x.
Proof.
  intros H. pose proof (relative_error_N_FLT radix2 (-1074) 53 eq_refl (fun n => negb (Z.even n)) x H) as E.
  replace (/ 2 * bpow radix2 (Z.opp 53 + 1)) with eps in E by (rewrite eps_bpow; cbn; lra). exact E.
Qed.
Lemma sub_exact x y : fmt x -> fmt y -> y / 2 <= x <= 2 * y -> rnd (x - y) = x - y.
Proof. intros Hx Hy H. apply rnd_id. apply sterbenz; auto with typeclass_instances. Qed.
