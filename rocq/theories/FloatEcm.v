(** * Proofs for C77: the equivalent-circuit cell in double arithmetic *)
From Coq Require Import Reals Lra Lia SpecFloat ZArith List Bool.
Import ListNotations.
From Flocq Require Import Core BinarySingleNaN.
From Verif Require Import Base RFacts StatusModel UtilModel CellModel CellSpec CellProofs FloatSpec FloatFacts.
Local Open Scope R_scope.
#[local] Existing Instance Hprec.
#[local] Existing Instance Hmax.

(** ** Doubles stay doubles *)
Definition db (x : f64) (H : double x) : binary_float prec64 emax64 := SF2B x H.
Lemma db_sf x H : B2SF (db x H) = x.
Proof. apply B2SF_SF2B. Qed.
Lemma double_b (b : binary_float prec64 emax64) : double (B2SF b).
Proof. apply valid_binary_B2SF. Qed.
Lemma dadd x y : double x -> double y -> double (nadd x y).
Proof. intros Hx Hy. rewrite <- (db_sf x Hx), <- (db_sf y Hy). cbn [nadd SFNum]. rewrite add_equiv. apply double_b. Qed.
Lemma dsub x y : double x -> double y -> double (nsub x y).
Proof. intros Hx Hy. rewrite <- (db_sf x Hx), <- (db_sf y Hy). cbn [nsub SFNum]. rewrite sub_equiv. apply double_b. Qed.
Lemma dmul x y : double x -> double y -> double (nmul x y).
Proof. intros Hx Hy. rewrite <- (db_sf x Hx), <- (db_sf y Hy). cbn [nmul SFNum]. rewrite mul_equiv. apply double_b. Qed.
Lemma ddiv x y : double x -> double y -> double (ndiv x y).
Proof. intros Hx Hy. rewrite <- (db_sf x Hx), <- (db_sf y Hy). cbn [ndiv SFNum]. rewrite div_equiv. apply double_b. Qed.
Lemma dabs x : double x -> double (nabs x).
Proof. destruct x; intros H; exact H. Qed.
Lemma dint z : double (sf_of_Z z).
Proof. unfold sf_of_Z. rewrite normalize_equiv. apply double_b. Qed.
Lemma dnZ z : double (nZ z).
Proof. unfold nZ. cbn [nlit SFNum]. apply ddiv; apply dint. Qed.

(** ** Order *)
Lemma leb_refl x : nnan x = false -> SFleb x x = true.
Proof. destruct x as [[]|[]| |[] m e]; try discriminate; intros _; cbv [SFleb SFcompare]; rewrite ?Z.compare_refl, ?Pos.compare_refl, ?Pos.compare_cont_refl; reflexivity. Qed.
Lemma leb_trans x y z : double x -> double y -> double z -> nleb x y = true -> nleb y z = true -> nleb (A := f64) x z = true.
Proof.
  intros Hx Hy Hz. cbn [nleb SFNum].
  destruct (is_finite_SF x) eqn:Fx, (is_finite_SF y) eqn:Fy, (is_finite_SF z) eqn:Fz.
  1: { intros A B. apply fleb in A; [|split; assumption..]. apply fleb in B; [|split; assumption..]. apply fleb; [split; assumption..|]. lra. }
  all: destruct x as [[]|[]| |[] mx ex], y as [[]|[]| |[] my ey], z as [[]|[]| |[] mz ez]; try discriminate; intros; try discriminate; reflexivity.
Qed.

(** ** Sums of doubles *)
Lemma add_cases x y : fin x -> fin y ->
  (fin (SFadd prec64 emax64 x y) /\ fval (SFadd prec64 emax64 x y) = rnd (fval x + fval y)) \/
  (SFadd prec64 emax64 x y = S754_infinity false /\ 0 < fval x /\ 0 < fval y) \/
  (SFadd prec64 emax64 x y = S754_infinity true /\ fval x < 0 /\ fval y < 0).
Proof.
  intros FX FY. assert (E : SFadd prec64 emax64 x y = B2SF (Bplus mode_NE (bf x FX) (bf y FY))) by (rewrite <- (bf_sf x FX), <- (bf_sf y FY) at 1; apply add_equiv).
  generalize (Bplus_correct prec64 emax64 Hprec Hmax mode_NE (bf x FX) (bf y FY) (bf_fin x FX) (bf_fin y FY)). rewrite !bf_val, rnd_eq.
  destruct (Rle_or_lt (bpow radix2 emax64) (Rabs (rnd (fval x + fval y)))) as [O|O].
  - rewrite Rlt_bool_false by exact O. rewrite <- E. intros [-> Sg]. right. unfold bf in *. rewrite !Bsign_SF2B in *.
    pose proof (abs_B2R_lt_emax prec64 emax64 (bf x FX)) as BX. rewrite bf_val in BX.
    pose proof (abs_B2R_lt_emax prec64 emax64 (bf y FY)) as BY. rewrite bf_val in BY.
    assert (NX : fval x <> 0). { intros Q. rewrite Q, Rplus_0_l in O. rewrite rnd_id in O by now apply fmt_val. lra. }
    assert (NY : fval y <> 0). { intros Q. rewrite Q, Rplus_0_r in O. rewrite rnd_id in O by now apply fmt_val. lra. }
    clear - Sg NX NY FX FY. destruct FX as [_ FX], FY as [_ FY]. unfold fval, SF2R in *.
    destruct x as [s|s| |s m e]; try discriminate FX; [now destruct NX|]. destruct y as [s'|s'| |s' m' e']; try discriminate FY; [now destruct NY|].
    cbn [sign_SF] in Sg. subst s'. destruct s; [right|left]; (split; [reflexivity|]).
    + split; now apply F2R_lt_0.
    + split; now apply F2R_gt_0.
  - rewrite Rlt_bool_true by exact O. intros (A & B & _). left. rewrite E. split; [now apply fin_b|]. now rewrite val_b, A.
Qed.
Lemma sub_add x y : SFsub prec64 emax64 x y = SFadd prec64 emax64 x (SFopp y).
Proof.
  destruct x as [sx|sx| |sx mx ex], y as [sy|sy| |sy my ey]; cbn [SFsub SFadd SFopp]; try reflexivity; try (destruct sx, sy; reflexivity).
Qed.
Definition zf : f64 := S754_zero false.
Lemma fin_zf : fin zf /\ fval zf = 0.
Proof. repeat split. Qed.
(** Adding something not negative never goes down, adding something not positive never goes up. *)
Lemma add_up x y : double x -> double y -> SFltb y zf = false -> nnan (nadd x y) = false -> nleb x (nadd x y) = true.
Proof.
  intros Hx Hy Hp HN. cbn [nadd nleb SFNum nnan] in *.
  destruct (is_finite_SF x) eqn:Fx, (is_finite_SF y) eqn:Fy.
  1: { assert (FX : fin x) by (split; assumption). assert (FY : fin y) by (split; assumption).
       pose proof (proj1 (fltb_false y zf FY (proj1 fin_zf)) Hp) as P. rewrite (proj2 fin_zf) in P.
       destruct (add_cases x y FX FY) as [(A & B)|[(-> & _)|(_ & _ & A)]]; [..|lra].
       - apply fleb; [assumption..|]. rewrite B, <- (rnd_id (fval x) (fmt_val x FX)) at 1. apply rnd_le. lra.
       - destruct x as [[]|[]| |[] m e]; try discriminate; reflexivity. }
  all: destruct x as [[]|[]| |[] m e], y as [[]|[]| |[] m' e']; try discriminate; reflexivity.
Qed.
Lemma add_dn x y : double x -> double y -> SFltb zf y = false -> nnan (nadd x y) = false -> nleb (nadd x y) x = true.
Proof.
  intros Hx Hy Hp HN. cbn [nadd nleb SFNum nnan] in *.
  destruct (is_finite_SF x) eqn:Fx, (is_finite_SF y) eqn:Fy.
  1: { assert (FX : fin x) by (split; assumption). assert (FY : fin y) by (split; assumption).
       pose proof (proj1 (fltb_false zf y (proj1 fin_zf) FY) Hp) as P. rewrite (proj2 fin_zf) in P.
       destruct (add_cases x y FX FY) as [(A & B)|[(_ & _ & A)|(-> & _)]]; [|lra|].
       - apply fleb; [assumption..|]. rewrite B. apply Rle_trans with (rnd (fval x)); [apply rnd_le; lra|]. rewrite rnd_id; [lra|now apply fmt_val].
       - destruct x as [[]|[]| |[] m e]; try discriminate; reflexivity. }
  all: destruct x as [[]|[]| |[] m e], y as [[]|[]| |[] m' e']; try discriminate; reflexivity.
Qed.
Lemma abs_not_neg y : SFltb (SFabs y) zf = false.
Proof. now destruct y. Qed.
Lemma nan_add_l x y : nnan (nadd x y) = false -> nnan (A := f64) x = false.
Proof. destruct x; [reflexivity..| |reflexivity]. cbn. discriminate. Qed.
Lemma fnZ z : (Z.abs z <= 2 ^ 53)%Z -> fin (nZ (A := f64) z) /\ fval (nZ (A := f64) z) = IZR z.
Proof.
  intros H. unfold nZ. cbn [nlit SFNum]. destruct (fint z H) as [F V]. destruct (fint 1) as [F1 V1]; [easy|].
  assert (Q : fval (sf_of_Z z) / fval (sf_of_Z 1) = IZR z) by (rewrite V, V1; field).
  assert (B : Rabs (IZR z) <= huge). { rewrite <- abs_IZR. apply Rle_trans with (bpow radix2 53); [exact (IZR_le _ (2 ^ 53) H)|now apply bpow_le]. }
  destruct (fdiv _ _ F F1) as [A E]; [rewrite V1; lra|now rewrite Q|]. split; [exact A|]. rewrite E, Q. apply rnd_id. now apply fmt_int.
Qed.

(** ** The cell keeps holding doubles *)
Lemma vget_double l i x : Forall double l -> vget l i = Ok x -> double x.
Proof.
  unfold vget. intros F. destruct (i <? 0)%Z; [discriminate|]. destruct (nth_error l _) eqn:E; [|discriminate]. intros H. injection H as <-.
  apply nth_error_In in E. rewrite Forall_forall in F. now apply F.
Qed.
Lemma linInt_double bound xs ys n x fx y : Forall double xs -> Forall double ys -> double x -> linInt bound xs ys n x fx = Ok y -> double (y : f64).
Proof.
  intros Fx Fy Hx. unfold linInt. destruct (linInt_noexcept bound xs ys n x fx) as [[yy st]| | |] eqn:E; cbn [rbind]; try discriminate.
  destruct (st =? 0)%Z; [|discriminate]. intros H. injection H as <-. revert E. unfold linInt_noexcept.
  destruct (vget xs 0) as [x0| | |] eqn:E0; cbn [rbind]; try discriminate.
  destruct (vget xs (n - 1)) as [xn| | |] eqn:En; cbn [rbind]; try discriminate.
  destruct (bound && (x <? x0)%num); [intros H; injection H as <- <-; reflexivity|].
  destruct (bound && (x >? xn)%num); [intros H; injection H as <- <-; reflexivity|].
  destruct (x <=? x0)%num. { destruct (vget ys 0) eqn:K; try discriminate. intros H. injection H as <- <-. now apply vget_double in K. }
  destruct (x >=? xn)%num. { destruct (vget ys (n - 1)) eqn:K; try discriminate. intros H. injection H as <- <-. now apply vget_double in K. }
  match goal with |- rbind ?r _ = _ -> _ => destruct r as [i| | |]; cbn [rbind]; try discriminate end.
  destruct (vget xs i) eqn:A1; cbn [rbind]; try discriminate. destruct (vget ys i) eqn:A2; cbn [rbind]; try discriminate.
  destruct (vget xs (i - 1)) eqn:A3; cbn [rbind]; try discriminate. destruct (vget ys (i - 1)) eqn:A4; cbn [rbind]; try discriminate.
  intros H. injection H as <- <-. apply vget_double in A1, A2, A3, A4; [|assumption..]. unfold chord. 
  apply dadd; [assumption|]. apply ddiv; [apply dmul; apply dsub; assumption|apply dsub; assumption].
Qed.
Lemma drops_double : forall rp v ir, double v -> Forall double rp -> Forall double ir -> double (sub_drops (A := f64) v rp ir).
Proof.
  induction rp as [|r rp IH]; intros v ir Hv Fr Fi; [exact Hv|]. destruct ir as [|i ir]; [exact Hv|]. inversion Fr; inversion Fi; subst. cbn [sub_drops].
  apply IH; try assumption. apply dsub; [assumption|now apply dmul].
Qed.
Lemma V_double (c : ecm f64) v : double_cell c -> ecm_V c = Ok v -> double v.
Proof.
  intros (F & Fi & Fr & Ft & Fx & Fy). repeat match goal with H : Forall _ (_ :: _) |- _ => inversion H; clear H; subst end.
  unfold ecm_V, ecm_OCV, XYdata_interp. destruct (linInt _ _ _ _ _ _) as [o| | |] eqn:E; try discriminate; intros H; injection H as <-.
  - apply linInt_double in E; [|assumption..]. apply drops_double; try assumption. apply dsub; [assumption|now apply dmul].
  - reflexivity.
Qed.
Lemma Ir_double dt i : double dt -> double i -> forall ks xs, Forall double ks -> Forall double xs -> Forall double (step_Ir (A := f64) dt i ks xs).
Proof.
  intros Hd Hi. induction ks as [|k ks IH]; intros xs Fk Fx; [exact Fx|]. destruct xs as [|x xs]; [exact Fx|]. inversion Fk; inversion Fx; subst. cbn [step_Ir].
  constructor; [|now apply IH]. apply dadd; [assumption|]. apply dmul; [now apply dmul|now apply dsub].
Qed.
Definition never_down (c d : ecm f64) : Prop :=
  (nnan (e_time (es d)) = false -> nleb (e_time (es c)) (e_time (es d)) = true) /\
  (nnan (e_Ah (es d)) = false -> nleb (e_Ah (es c)) (e_Ah (es d)) = true) /\
  (nnan (e_Wh (es d)) = false -> nleb (e_Wh (es c)) (e_Wh (es d)) = true).
Lemma step1_mono dt (c c1 : ecm f64) : double dt -> SFltb dt zf = false -> double_cell c -> ecm_step1 dt c = (c1, Ok tt) ->
  double_cell c1 /\ never_down c c1 /\ (nnan (e_time (es c1)) = false -> nnan (e_time (es c)) = false) /\
  (nnan (e_Ah (es c1)) = false -> nnan (e_Ah (es c)) = false) /\ (nnan (e_Wh (es c1)) = false -> nnan (e_Wh (es c)) = false).
Proof.
  intros Hd Hp (F & Fi & Fr & Ft & Fx & Fy). repeat match goal with H : Forall _ (_ :: _) |- _ => inversion H; clear H; subst end.
  unfold ecm_step1. cbn zeta. destruct (ecm_V _) as [v| | |] eqn:E; try discriminate. intros H. injection H as <-. cbn [es ep e_SOC e_I e_time e_Ah e_Wh e_Ir e_T].
  assert (DQ : double (nmul (e_I (es c)) (ndiv dt (nZ 3600)))) by (apply dmul; [assumption|apply ddiv; [assumption|apply dnZ]]).
  assert (DC : double_cell (mkEcm (ep c) (mkEst (e_T (es c)) (nsub (e_SOC (es c)) (ndiv (nmul (e_I (es c)) (ndiv dt (nZ 3600))) (p_cap (ep c)))) (e_I (es c)) (step_Ir dt (e_I (es c)) (p_itau (ep c)) (e_Ir (es c))) (nadd (e_time (es c)) dt) (nadd (e_Ah (es c)) (nabs (nmul (e_I (es c)) (ndiv dt (nZ 3600))))) (e_Wh (es c))))).
  { repeat split; cbn; repeat constructor; try assumption; [apply dsub; [assumption|now apply ddiv]|now apply dadd|apply dadd; [assumption|now apply dabs]|now apply Ir_double]. }
  apply V_double in E; [|exact DC]. assert (DW : double (nmul (nmul (e_I (es c)) (ndiv dt (nZ 3600))) v)) by now apply dmul.
  assert (DW' := dabs _ DW). assert (DQ' := dabs _ DQ).
  split; [|split; [|split; [|split]]].
  - destruct DC as (D1 & D2 & D3 & D4 & D5 & D6). cbn in *. repeat match goal with H : Forall _ (_ :: _) |- _ => inversion H; clear H; subst end.
    repeat split; cbn; repeat constructor; try assumption. now apply dadd.
  - unfold never_down; cbn [es ep e_SOC e_I e_time e_Ah e_Wh e_Ir e_T]. split; [|split]; intros N; apply add_up; try assumption; apply abs_not_neg.
  - cbn [es e_time]. apply nan_add_l.
  - cbn [es e_Ah]. apply nan_add_l.
  - cbn [es e_Wh]. apply nan_add_l.
Qed.
Lemma never_down_refl c : never_down c c.
Proof. repeat split; apply leb_refl. Qed.
Lemma steps_mono dt : double dt -> SFltb dt zf = false -> forall n (c c1 : ecm f64), double_cell c -> ecm_steps n dt c = (c1, Ok tt) ->
  double_cell c1 /\ never_down c c1 /\ (nnan (e_time (es c1)) = false -> nnan (e_time (es c)) = false) /\
  (nnan (e_Ah (es c1)) = false -> nnan (e_Ah (es c)) = false) /\ (nnan (e_Wh (es c1)) = false -> nnan (e_Wh (es c)) = false).
Proof.
  intros Hd Hp. induction n as [|n IH]; intros c c1 D; cbn [ecm_steps].
  - intros H. injection H as <-. repeat split; auto; apply D || apply leb_refl.
  - destruct (ecm_step1 dt c) as [c' [[]| | |]] eqn:E; try discriminate. intros H.
    destruct (step1_mono dt c c' Hd Hp D E) as (D' & (M1 & M2 & M3) & N1 & N2 & N3).
    destruct (IH c' c1 D' H) as (D1 & (K1 & K2 & K3) & L1 & L2 & L3). split; [exact D1|].
    destruct D as (F & _), D' as (F' & _), D1 as (F1 & _). repeat match goal with H : Forall _ (_ :: _) |- _ => inversion H; clear H; subst end.
    split; [|split; [|split]]; auto. split; [|split]; intros N.
    + apply leb_trans with (e_time (es c')); auto.
    + apply leb_trans with (e_Ah (es c')); auto.
    + apply leb_trans with (e_Wh (es c')); auto.
Qed.
Theorem timeStep_mono dt n (c c1 : ecm f64) : double dt -> double_cell c -> ecm_timeStep_CC dt n c = (c1, Ok tt) -> double_cell c1 /\ never_down c c1.
Proof.
  intros Hd D. unfold ecm_timeStep_CC. destruct (nltb dt (nZ 0)) eqn:L; [discriminate|]. intros H.
  assert (nZ (A := f64) 0 = zf) as Z0 by reflexivity. rewrite Z0 in L.
  destruct (steps_mono dt Hd L _ c c1 D H) as (A & B & _). auto.
Qed.

(** ** Rounding errors of one step *)
Lemma eps_small : eps <= / 1000000.
Proof. unfold eps. apply Rinv_le_contravar; lra. Qed.
Lemma rnd_rel x : tiny <= Rabs x -> exists d, Rabs d <= eps /\ rnd x = x * (1 + d).
Proof.
  intros H. assert (T : 0 < tiny) by apply bpow_gt_0. assert (N : x <> 0) by (intros ->; rewrite Rabs_R0 in H; lra).
  pose proof (rnd_err x H) as E. exists ((rnd x - x) / x). split; [|field; exact N].
  unfold Rdiv. rewrite Rabs_mult, Rabs_inv. apply Rmult_le_reg_r with (Rabs x); [now apply Rabs_pos_lt|].
  rewrite Rmult_assoc, Rinv_l, Rmult_1_r; [exact E|]. now apply Rabs_no_R0.
Qed.
(** [x] stands for [v], which is zero or between two powers of two, up to [k] rounding units. *)
Definition apx (k : R) (lo hi : Z) (x : f64) (v : R) : Prop :=
  fin x /\ (v = 0 \/ bpow radix2 lo <= Rabs v <= bpow radix2 hi) /\ exists d, Rabs d <= k * eps /\ fval x = v * (1 + d).
Lemma apx_range k lo hi x v : 0 <= k <= 8 -> apx k lo hi x v -> v <> 0 -> bpow radix2 (lo - 1) <= Rabs (fval x) <= bpow radix2 (hi + 1).
Proof.
  intros K (_ & [Z|V] & d & Hd & E) N; [now destruct N|]. rewrite E, Rabs_mult. pose proof eps_small. pose proof eps_pos.
  assert (/ 2 <= Rabs (1 + d) <= 2). { assert (Rabs d <= / 1000) by nra. apply Rabs_le_inv in H1. rewrite Rabs_pos_eq; lra. }
  unfold Zminus. rewrite !bpow_plus. change (bpow radix2 (- (1))) with (/ 2). change (bpow radix2 1) with 2.
  pose proof (bpow_gt_0 radix2 lo). split; apply Rmult_le_compat; lra || apply Rabs_pos.
Qed.
Lemma err_sum k d2 d3 : 0 <= k <= 8 -> Rabs d2 <= k * eps -> Rabs d3 <= eps -> Rabs (d2 + d3 + d2 * d3) <= (k + 1.1) * eps.
Proof.
  intros K A B. pose proof eps_small. pose proof eps_pos. pose proof (Rabs_pos d2). pose proof (Rabs_pos d3).
  eapply Rle_trans; [apply Rabs_triang|]. rewrite Rabs_mult. pose proof (Rabs_triang d2 d3).
  assert (Rabs d2 * Rabs d3 <= (k * eps) * eps) by (apply Rmult_le_compat; assumption). assert (k * eps * eps <= 0.1 * eps) by nra. lra.
Qed.
Lemma apx_mul k lo1 hi1 lo2 hi2 x y w : fin x -> (fval x = 0 \/ bpow radix2 lo1 <= Rabs (fval x) <= bpow radix2 hi1) -> 0 <= k <= 8 ->
  apx k lo2 hi2 y w -> (-1021 <= lo1 + lo2)%Z -> (hi1 + hi2 <= 1022)%Z -> apx (k + 1.1) (lo1 + lo2) (hi1 + hi2) (nmul x y) (fval x * w).
Proof.
  intros Fx Rx K Y L H. cbn [nmul SFNum]. pose proof eps_pos as EP.
  destruct (Req_dec (fval x * w) 0) as [Z|Z].
  - assert (fval x * fval y = 0) as P. { destruct Y as (_ & _ & d & _ & ->). rewrite <- Rmult_assoc, Z. ring. }
    destruct (fmul x y Fx (proj1 Y)) as [A B]; [rewrite P, Rabs_R0; apply Rlt_le, huge_pos|]. split; [exact A|]. split; [now left|].
    exists 0. rewrite Rabs_R0, B, P, rnd_0, Z. split; [nra|ring].
  - assert (fval x <> 0 /\ w <> 0) as [N1 N2] by (split; intros Q; rewrite Q in Z; destruct Z; ring).
    destruct Rx as [Q|Rx]; [now destruct N1|]. pose proof (apx_range _ _ _ _ _ K Y N2) as RY.
    destruct Y as (Fy & [Q|Rw] & d & Hd & E); [now destruct N2|].
    assert (RM : bpow radix2 (lo1 + lo2 - 1) <= Rabs (fval x * fval y) <= bpow radix2 (hi1 + hi2 + 1)).
    { rewrite Rabs_mult. replace (lo1 + lo2 - 1)%Z with (lo1 + (lo2 - 1))%Z by lia. replace (hi1 + hi2 + 1)%Z with (hi1 + (hi2 + 1))%Z by lia. rewrite (bpow_plus _ lo1), (bpow_plus _ hi1).
      split; apply Rmult_le_compat; try apply Rabs_pos; try apply Rlt_le, bpow_gt_0; tauto. }
    destruct (fmul x y Fx Fy) as [A B]; [apply Rle_trans with (1 := proj2 RM); apply bpow_le; lia|]. split; [exact A|]. split.
    + right. rewrite Rabs_mult, !bpow_plus. split; apply Rmult_le_compat; try apply Rabs_pos; try apply Rlt_le, bpow_gt_0; tauto.
    + destruct (rnd_rel (fval x * fval y)) as (d3 & H3 & E3); [apply Rle_trans with (2 := proj1 RM); apply bpow_le; lia|].
      exists (d + d3 + d * d3). split; [now apply err_sum|]. rewrite B, E3, E. ring.
Qed.
Lemma apx_div k lo1 hi1 lo2 hi2 x y v : fin y -> bpow radix2 lo2 <= Rabs (fval y) <= bpow radix2 hi2 -> 0 <= k <= 8 ->
  apx k lo1 hi1 x v -> (-1021 <= lo1 - hi2)%Z -> (hi1 - lo2 <= 1022)%Z -> apx (k + 1.1) (lo1 - hi2) (hi1 - lo2) (ndiv x y) (v / fval y).
Proof.
  intros Fy Ry K X L H. cbn [ndiv SFNum]. pose proof eps_pos as EP. pose proof (bpow_gt_0 radix2 lo2) as PL.
  assert (N2 : fval y <> 0) by (intros Q; rewrite Q, Rabs_R0 in Ry; lra).
  assert (RI : bpow radix2 (- hi2) <= Rabs (/ fval y) <= bpow radix2 (- lo2)).
  { rewrite Rabs_inv, !bpow_opp. split; apply Rinv_le_contravar; tauto || lra. }
  destruct (Req_dec v 0) as [Z|Z].
  - assert (fval x / fval y = 0) as P. { destruct X as (_ & _ & d & _ & ->). rewrite Z. unfold Rdiv. ring. }
    destruct (fdiv x y (proj1 X) Fy N2) as [A B]; [rewrite P, Rabs_R0; apply Rlt_le, huge_pos|]. split; [exact A|]. split; [left; rewrite Z; unfold Rdiv; ring|].
    exists 0. rewrite Rabs_R0, B, P, rnd_0, Z. split; [nra|unfold Rdiv; ring].
  - pose proof (apx_range _ _ _ _ _ K X Z) as RX. destruct X as (Fx & [Q|Rv] & d & Hd & E); [now destruct Z|].
    assert (RM : bpow radix2 (lo1 - hi2 - 1) <= Rabs (fval x / fval y) <= bpow radix2 (hi1 - lo2 + 1)).
    { unfold Rdiv. rewrite Rabs_mult. replace (lo1 - hi2 - 1)%Z with (lo1 - 1 + - hi2)%Z by lia. replace (hi1 - lo2 + 1)%Z with (hi1 + 1 + - lo2)%Z by lia.
      rewrite (bpow_plus _ (lo1 - 1)), (bpow_plus _ (hi1 + 1)). split; apply Rmult_le_compat; try apply Rabs_pos; try apply Rlt_le, bpow_gt_0; tauto. }
    destruct (fdiv x y Fx Fy N2) as [A B]; [apply Rle_trans with (1 := proj2 RM); apply bpow_le; lia|]. split; [exact A|]. split.
    + right. unfold Rdiv. rewrite Rabs_mult. unfold Zminus. rewrite !bpow_plus. split; apply Rmult_le_compat; try apply Rabs_pos; try apply Rlt_le, bpow_gt_0; tauto.
    + destruct (rnd_rel (fval x / fval y)) as (d3 & H3 & E3); [apply Rle_trans with (2 := proj1 RM); apply bpow_le; lia|].
      exists (d + d3 + d * d3). split; [now apply err_sum|]. rewrite B, E3, E. field. exact N2.
Qed.
Lemma apx_le k lo hi x v : 0 <= k <= 8 -> apx k lo hi x v -> Rabs (fval x - v) <= k * eps * Rabs v /\ Rabs (fval x) <= bpow radix2 (hi + 1).
Proof.
  intros K A. split.
  - destruct A as (_ & _ & d & Hd & ->). replace (v * (1 + d) - v) with (d * v) by ring. rewrite Rabs_mult. apply Rmult_le_compat_r; [apply Rabs_pos|exact Hd].
  - destruct (Req_dec v 0) as [Z|Z]; [|now apply (apx_range k lo hi x v)]. destruct A as (_ & _ & d & _ & ->). rewrite Z, Rmult_0_l, Rabs_R0. apply Rlt_le, bpow_gt_0.
Qed.
(** Charge moved in one step: the current times a number of hours, and that divided by the capacity. *)
Lemma charge_err i dt cap : moderate i -> moderate dt -> moderate cap -> fval cap <> 0 ->
  let dAh := nmul i (ndiv dt (nZ 3600)) in let q := ndiv dAh cap in
  let a := fval i * (fval dt / 3600) in let b := a / fval cap in
  fin dAh /\ Rabs (fval dAh - a) <= 3 * eps * Rabs a /\ Rabs (fval dAh) <= bpow radix2 602 /\
  fin q /\ Rabs (fval q - b) <= 4 * eps * Rabs b /\ Rabs (fval q) <= bpow radix2 902.
Proof.
  intros (Fi & Mi) (Fd & Md) (Fc & Mc) Pc. cbv zeta. destruct (fnZ 3600) as [F36 V36]; [easy|].
  destruct Mc as [Mc|Mc]; [now destruct Pc|].
  assert (A1 : apx 0 (-300) 300 dt (fval dt)).
  { split; [exact Fd|]. split; [exact Md|]. exists 0. rewrite Rabs_R0. split; [lra|ring]. }
  apply (apx_div 0 (-300) 300 0 12 dt (nZ 3600)) in A1; [|exact F36| |lra|lia|lia].
  2: { rewrite V36, Rabs_pos_eq by lra. cbn. lra. }
  rewrite V36 in A1.
  assert (A2 := apx_mul (0 + 1.1) (-300) 300 (-300 - 12) (300 - 0) i _ _ Fi Mi ltac:(lra) A1 ltac:(lia) ltac:(lia)).
  assert (A3 := apx_div (0 + 1.1 + 1.1) (-300 + (-300 - 12)) (300 + (300 - 0)) (-300) 300 _ cap _ Fc Mc ltac:(lra) A2 ltac:(lia) ltac:(lia)).
  assert (K2 : 0 <= 0 + 1.1 + 1.1 <= 8) by lra. assert (K3 : 0 <= 0 + 1.1 + 1.1 + 1.1 <= 8) by lra.
  destruct (apx_le _ _ _ _ _ K2 A2) as [B1 B2]. destruct (apx_le _ _ _ _ _ K3 A3) as [C1 C2].
  pose proof eps_pos as EP. split; [exact (proj1 A2)|]. split.
  { apply Rle_trans with (1 := B1). apply Rmult_le_compat_r; [apply Rabs_pos|]. apply Rmult_le_compat_r; lra. }
  split; [apply Rle_trans with (1 := B2); apply bpow_le; lia|]. split; [exact (proj1 A3)|]. split.
  { apply Rle_trans with (1 := C1). apply Rmult_le_compat_r; [apply Rabs_pos|]. apply Rmult_le_compat_r; lra. }
  apply Rle_trans with (1 := C2). apply bpow_le. lia.
Qed.

(** ** One step and one call *)
Lemma step1_eq dt (c c1 : ecm f64) : ecm_step1 dt c = (c1, Ok tt) ->
  e_SOC (es c1) = nsub (e_SOC (es c)) (ndiv (nmul (e_I (es c)) (ndiv dt (nZ 3600))) (p_cap (ep c))) /\
  e_time (es c1) = nadd (e_time (es c)) dt /\ e_Ah (es c1) = nadd (e_Ah (es c)) (nabs (nmul (e_I (es c)) (ndiv dt (nZ 3600)))) /\
  e_I (es c1) = e_I (es c) /\ ep c1 = ep c.
Proof. unfold ecm_step1. cbn zeta. destruct (ecm_V _) as [v| | |]; try discriminate. intros H. injection H as <-. repeat split. Qed.
(** Repeated addition of the same double. *)
Fixpoint adds (n : nat) (x y : f64) : f64 := match n with O => x | Datatypes.S m => adds m (SFadd prec64 emax64 x y) y end.
Lemma steps_adds dt n : forall c c1 : ecm f64, ecm_steps n dt c = (c1, Ok tt) ->
  e_SOC (es c1) = adds n (e_SOC (es c)) (SFopp (ndiv (nmul (e_I (es c)) (ndiv dt (nZ 3600))) (p_cap (ep c)))) /\
  e_time (es c1) = adds n (e_time (es c)) dt /\ e_Ah (es c1) = adds n (e_Ah (es c)) (nabs (nmul (e_I (es c)) (ndiv dt (nZ 3600)))) /\
  e_I (es c1) = e_I (es c) /\ ep c1 = ep c.
Proof.
  induction n as [|n IH]; intros c c1; cbn [ecm_steps adds].
  - intros H. injection H as <-. repeat split.
  - destruct (ecm_step1 dt c) as [c' [[]| | |]] eqn:E; try discriminate. intros H. destruct (step1_eq dt c c' E) as (S1 & S2 & S3 & S4 & S5).
    destruct (IH c' c1 H) as (T1 & T2 & T3 & T4 & T5). rewrite S1, S2, S3, S4, S5 in *. cbn [nsub nadd SFNum] in *. rewrite sub_add in T1. repeat split; congruence.
Qed.
Lemma adds_double n y : double y -> forall x, double x -> double (adds n x y).
Proof. intros Hy. induction n as [|n IH]; intros x Hx; cbn [adds]; [exact Hx|]. apply IH. now apply dadd. Qed.
Lemma adds_nan n y : forall x, nnan (adds n x y) = false -> nnan (A := f64) x = false.
Proof. induction n as [|n IH]; intros x H; cbn [adds] in H; [exact H|]. apply IH in H. now apply nan_add_l in H. Qed.
Lemma adds_up n y : double y -> SFltb y zf = false -> forall x, double x -> nnan (adds n x y) = false -> SFleb x (adds n x y) = true.
Proof.
  intros Hy P. induction n as [|n IH]; intros x Hx N; cbn [adds] in *; [now apply leb_refl|]. assert (D := dadd x y Hx Hy).
  apply leb_trans with (nadd x y); [exact Hx|exact D|now apply adds_double| |now apply IH]. apply add_up; try assumption. now apply adds_nan in N.
Qed.
Lemma adds_dn n y : double y -> SFltb zf y = false -> forall x, double x -> nnan (adds n x y) = false -> SFleb (adds n x y) x = true.
Proof.
  intros Hy P. induction n as [|n IH]; intros x Hx N; cbn [adds] in *; [now apply leb_refl|]. assert (D := dadd x y Hx Hy).
  apply leb_trans with (nadd x y); [now apply adds_double|exact D|exact Hx|now apply IH|]. apply add_dn; try assumption. now apply adds_nan in N.
Qed.
Lemma fin_nan x : fin x -> nnan (A := f64) x = false.
Proof. intros [_ H]. destruct x; easy. Qed.
(** A bounded chain of sums: every sum rounds by at most [eps] of its size. *)
Lemma adds_err B n y : fin y -> Rabs (fval y) <= bpow radix2 1001 -> 0 <= B <= bpow radix2 1001 -> forall x, fin x -> Rabs (fval x) <= B ->
  fin (adds n x y) -> Rabs (fval (adds n x y)) <= B -> Rabs (fval (adds n x y) - (fval x + INR n * fval y)) <= INR n * (2 * eps * B).
Proof.
  intros Fy By BB. induction n as [|n IH]; intros x Fx Bx Fr Br; cbn [adds] in *.
  - cbn. replace (fval x - (fval x + 0 * fval y)) with 0 by ring. rewrite Rabs_R0. lra.
  - assert (HH : Rabs (fval x + fval y) <= huge).
    { eapply Rle_trans; [apply Rabs_triang|]. apply Rle_trans with (bpow radix2 1001 + bpow radix2 1001); [lra|].
      apply Rle_trans with (bpow radix2 1002); [|now apply bpow_le]. change 1002%Z with (1001 + 1)%Z. rewrite bpow_plus. change (bpow radix2 1) with 2. lra. }
    destruct (fadd x y Fx Fy HH) as [Fs Es]. assert (Ds : double (SFadd prec64 emax64 x y)) by apply Fs.
    assert (Bs : Rabs (fval (SFadd prec64 emax64 x y)) <= B).
    { assert (Nr := fin_nan _ Fr). assert (ID := rnd_id (fval x) (fmt_val x Fx)). destruct (Rle_or_lt 0 (fval y)) as [P|P].
      - assert (Q : SFltb y zf = false) by (apply fltb_false; [exact Fy|apply fin_zf|rewrite (proj2 fin_zf); exact P]).
        pose proof (adds_up n y (proj1 Fy) Q _ Ds Nr) as U. apply fleb in U; [|assumption..].
        assert (fval x <= fval (SFadd prec64 emax64 x y)) by (rewrite Es, <- ID at 1; apply rnd_le; lra).
        apply Rabs_le_inv in Bx, Br. apply Rabs_le. lra.
      - assert (Q : SFltb zf y = false) by (apply fltb_false; [apply fin_zf|exact Fy|rewrite (proj2 fin_zf); lra]).
        pose proof (adds_dn n y (proj1 Fy) Q _ Ds Nr) as U. apply fleb in U; [|assumption..].
        assert (fval (SFadd prec64 emax64 x y) <= fval x) by (rewrite Es; apply Rle_trans with (rnd (fval x)); [apply rnd_le; lra|lra]).
        apply Rabs_le_inv in Bx, Br. apply Rabs_le. lra. }
    specialize (IH _ Fs Bs Fr Br). pose proof (add_err _ _ (fmt_val x Fx) (fmt_val y Fy)) as AE. rewrite <- Es in AE.
    assert (AE' : Rabs (fval (SFadd prec64 emax64 x y) - (fval x + fval y)) <= 2 * eps * B).
    { apply Rle_trans with (1 := AE). pose proof eps_small. pose proof eps_pos. pose proof (Rabs_pos (fval x + fval y)).
      pose proof (Rabs_triang_inv (fval x + fval y) (fval (SFadd prec64 emax64 x y))) as T. rewrite Rabs_minus_sym in T.
      assert (eps * Rabs (fval x + fval y) <= / 1000000 * Rabs (fval x + fval y)) by (apply Rmult_le_compat_r; assumption).
      assert (Rabs (fval x + fval y) <= 2 * B) by lra. replace (2 * eps * B) with (eps * (2 * B)) by ring. apply Rmult_le_compat_l; lra. }
    rewrite S_INR. set (r := fval (adds n _ y)) in *. set (s1 := fval (SFadd prec64 emax64 x y)) in *.
    replace (r - (fval x + (INR n + 1) * fval y)) with ((r - (s1 + INR n * fval y)) + (s1 - (fval x + fval y))) by ring.
    eapply Rle_trans; [apply Rabs_triang|]. lra.
Qed.

(** ** Histories *)
Definition same_books (c d : ecm f64) : Prop :=
  ep d = ep c /\ e_SOC (es d) = e_SOC (es c) /\ e_time (es d) = e_time (es c) /\ e_Ah (es d) = e_Ah (es c).
Lemma setCurrent_books i chk (c c1 : ecm f64) st : ecm_setCurrent i chk c = (c1, Ok st) -> same_books c c1.
Proof.
  intros H. apply setCurrent_spec in H. destruct H as [H1 H2]. rewrite bad_ok in H1.
  destruct (isStatusOK st) eqn:O; [destruct (H2 eq_refl) as [-> _]; repeat split|rewrite H1; auto; repeat split].
Qed.
Lemma setVoltage_books i chk (c c1 : ecm f64) st : ecm_setVoltage i chk c = (c1, Ok st) -> same_books c c1.
Proof.
  intros H. apply setVoltage_spec in H. destruct H as [H1 H2]. rewrite bad_ok in H1.
  destruct (isStatusOK st) eqn:O; [destruct (H2 eq_refl) as (o & _ & -> & _); repeat split|rewrite H1; auto; repeat split].
Qed.
Lemma Rabs_add_le x y z a b : Rabs (x - y) <= a -> Rabs (y - z) <= b -> Rabs (x - z) <= a + b.
Proof. intros A B. replace (x - z) with ((x - y) + (y - z)) by ring. eapply Rle_trans; [apply Rabs_triang|]. lra. Qed.
(** One call. *)
Lemma call_err dt n (c c1 : ecm f64) : sound_books c -> moderate (e_I (es c)) -> moderate dt -> moderate (p_cap (ep c)) -> fval (p_cap (ep c)) <> 0 ->
  ecm_timeStep_CC dt (Z.of_nat n) c = (c1, Ok tt) -> sound_books c1 ->
  let a := Rabs (fval (e_I (es c))) * (INR n * fval dt) / 3600 in
  ep c1 = ep c /\ 0 <= fval dt /\ fval (e_time (es c)) <= fval (e_time (es c1)) /\ fval (e_Ah (es c)) <= fval (e_Ah (es c1)) /\
  Rabs (fval (e_time (es c1)) - (fval (e_time (es c)) + INR n * fval dt)) <= INR n * (2 * eps * fval (e_time (es c1))) /\
  Rabs (fval (e_Ah (es c1)) - (fval (e_Ah (es c)) + a)) <= INR n * (2 * eps * fval (e_Ah (es c1))) + 3 * eps * a /\
  Rabs (fval (e_SOC (es c1)) - (fval (e_SOC (es c)) - fval (e_I (es c)) * (INR n * fval dt) / 3600 / fval (p_cap (ep c)))) <=
    INR n * (4 * eps) + 4 * eps * (a / Rabs (fval (p_cap (ep c)))).
Proof.
  intros (S1 & S2 & S3 & S4 & S5 & S6) Mi Md Mc Nc H (T1 & T2 & T3 & T4 & T5 & T6). cbv zeta.
  unfold ecm_timeStep_CC in H. destruct (nltb dt (nZ 0)) eqn:L; [discriminate|]. rewrite Nat2Z.id in H.
  assert (nZ (A := f64) 0 = zf) as Z0 by reflexivity. rewrite Z0 in L. assert (Fd := proj1 Md).
  assert (Pd : 0 <= fval dt) by (pose proof (proj1 (fltb_false dt zf Fd (proj1 fin_zf)) L) as P; now rewrite (proj2 fin_zf) in P).
  destruct (charge_err _ _ _ Mi Md Mc Nc) as (Fa & Ea & Ba & Fq & Eq & Bq). cbv zeta in *.
  destruct (steps_adds dt n c c1 H) as (E1 & E2 & E3 & _ & E5).
  set (dAh := nmul (e_I (es c)) (ndiv dt (nZ 3600))) in *. set (q := ndiv dAh (p_cap (ep c))) in *.
  destruct (fabs dAh Fa) as [Fab Eab]. destruct (fopp q Fq) as [Foq Eoq]. change (nabs dAh) with (SFabs dAh) in E3.
  assert (Nab : SFltb (SFabs dAh) zf = false) by apply abs_not_neg. assert (IN := pos_INR n). assert (EP := eps_pos).
  assert (P1 : bpow radix2 1000 <= bpow radix2 1001) by now apply bpow_le. assert (P2 : 2 <= bpow radix2 1001) by (apply Rle_trans with (bpow radix2 1); [cbn; lra|now apply bpow_le]).
  assert (P3 : bpow radix2 300 <= bpow radix2 1001) by now apply bpow_le. assert (P4 : bpow radix2 602 <= bpow radix2 1001) by now apply bpow_le.
  assert (P5 : bpow radix2 902 <= bpow radix2 1001) by now apply bpow_le.
  assert (MT : fval (e_time (es c)) <= fval (e_time (es c1))).
  { rewrite E2 in *. apply fleb; [assumption..|]. apply adds_up; [apply Fd|exact L|apply S3|now apply fin_nan]. }
  assert (MA : fval (e_Ah (es c)) <= fval (e_Ah (es c1))).
  { rewrite E3 in *. apply fleb; [assumption..|]. apply adds_up; [apply Fab|exact Nab|apply S5|now apply fin_nan]. }
  split; [exact E5|]. split; [exact Pd|]. split; [exact MT|]. split; [exact MA|].
  assert (BT : Rabs (fval dt) <= bpow radix2 1001) by (destruct Md as [_ [->|Md]]; [rewrite Rabs_R0; lra|lra]).
  split; [|split].
  - rewrite E2 in *. apply adds_err; try assumption; rewrite ?(Rabs_pos_eq (fval (e_time (es c)))), ?(Rabs_pos_eq (fval (adds n (e_time (es c)) dt))) by lra; lra.
  - set (i := fval (e_I (es c))) in *. replace (Rabs i * (INR n * fval dt) / 3600) with (INR n * Rabs (i * (fval dt / 3600))).
    2: { rewrite Rabs_mult, (Rabs_pos_eq (fval dt / 3600)) by lra. field. }
    apply Rabs_add_le with (fval (e_Ah (es c)) + INR n * Rabs (fval dAh)).
    + rewrite <- Eab. rewrite E3 in *. apply adds_err; try assumption; rewrite ?Eab, ?Rabs_Rabsolu, ?(Rabs_pos_eq (fval (e_Ah (es c)))), ?(Rabs_pos_eq (fval (adds n (e_Ah (es c)) (SFabs dAh)))) by lra; lra.
    + match goal with |- Rabs ?x <= _ => replace x with (INR n * (Rabs (fval dAh) - Rabs (i * (fval dt / 3600)))) by ring end.
      rewrite Rabs_mult, (Rabs_pos_eq (INR n)) by exact IN. replace (3 * eps * (INR n * Rabs (i * (fval dt / 3600)))) with (INR n * (3 * eps * Rabs (i * (fval dt / 3600)))) by ring.
      apply Rmult_le_compat_l; [exact IN|]. eapply Rle_trans; [apply Rabs_triang_inv2|exact Ea].
  - set (i := fval (e_I (es c))) in *. set (cap := fval (p_cap (ep c))) in *.
    replace (i * (INR n * fval dt) / 3600 / cap) with (INR n * (i * (fval dt / 3600) / cap)) by (field; exact Nc).
    replace (Rabs i * (INR n * fval dt) / 3600 / Rabs cap) with (INR n * Rabs (i * (fval dt / 3600) / cap)).
    2: { unfold Rdiv at 1. rewrite !Rabs_mult, Rabs_inv, (Rabs_pos_eq (fval dt / 3600)) by lra. unfold Rdiv. ring. }
    apply Rabs_add_le with (fval (e_SOC (es c)) + INR n * - fval q).
    + rewrite <- Eoq. replace (4 * eps) with (2 * eps * 2) by ring. rewrite E1 in *. apply adds_err; try assumption; rewrite ?Eoq, ?Rabs_Ropp; lra.
    + match goal with |- Rabs ?x <= _ => replace x with (INR n * - (fval q - i * (fval dt / 3600) / cap)) by ring end.
      rewrite Rabs_mult, Rabs_Ropp, (Rabs_pos_eq (INR n)) by exact IN. replace (4 * eps * (INR n * Rabs (i * (fval dt / 3600) / cap))) with (INR n * (4 * eps * Rabs (i * (fval dt / 3600) / cap))) by ring.
      apply Rmult_le_compat_l; [exact IN|exact Eq].
Qed.
Theorem hist_err c log d : double_hist sound_books c log d -> moderate (p_cap (ep c)) -> fval (p_cap (ep c)) <> 0 ->
  ep d = ep c /\ fval (e_time (es c)) <= fval (e_time (es d)) /\ fval (e_Ah (es c)) <= fval (e_Ah (es d)) /\ 0 <= abs_charge (log_val log) /\
  Rabs (fval (e_time (es d)) - (fval (e_time (es c)) + total_time (log_val log))) <= log_steps log * (2 * eps * fval (e_time (es d))) /\
  Rabs (fval (e_Ah (es d)) - (fval (e_Ah (es c)) + abs_charge (log_val log) / 3600)) <= log_steps log * (2 * eps * fval (e_Ah (es d))) + 3 * eps * (abs_charge (log_val log) / 3600) /\
  Rabs (fval (e_SOC (es d)) - (fval (e_SOC (es c)) - net_charge (log_val log) / 3600 / fval (p_cap (ep c)))) <=
    log_steps log * (4 * eps) + 4 * eps * (abs_charge (log_val log) / 3600 / Rabs (fval (p_cap (ep c)))).
Proof.
  unfold total_time, abs_charge, net_charge, log_steps.
  induction 1 as [c|c i chk c1 st log c2 H _ IH|c v chk c1 st log c2 H _ IH|c t log c2 _ IH|c dt n c1 log c2 S1 Mi Md H S2 _ IH]; intros Mc Nc.
  - cbn. unfold Rdiv. repeat split; try lra; match goal with |- Rabs ?x <= _ => replace x with 0 by ring end; rewrite Rabs_R0; lra.
  - apply setCurrent_books in H. destruct H as (B1 & B2 & B3 & B4). rewrite B1, B2, B3, B4 in IH. exact (IH Mc Nc).
  - apply setVoltage_books in H. destruct H as (B1 & B2 & B3 & B4). rewrite B1, B2, B3, B4 in IH. exact (IH Mc Nc).
  - exact (IH Mc Nc).
  - destruct (call_err dt n c c1 S1 Mi Md Mc Nc H S2) as (C1 & C2 & C3 & C4 & C5 & C6 & C7). cbv zeta in *. rewrite C1 in IH. destruct (IH Mc Nc) as (I1 & I2 & I3 & I4 & I5 & I6 & I7).
    unfold log_val in *. cbn [map Rsum snd list_sum fold_right]. change (fold_right Nat.add 0%nat (map snd log)) with (list_sum (map snd log)). rewrite plus_INR.
    assert (EP := eps_pos). assert (IN := pos_INR n). set (N := INR (list_sum (map snd log))) in *. set (r := INR n) in *. clearbody r N.
    set (TT := Rsum _) in I5 |- *. set (QA := Rsum _) in I4, I6, I7 |- *. set (QN := Rsum _) in I7 |- *.
    assert (PA : 0 <= Rabs (fval (e_I (es c))) * (r * fval dt)) by (apply Rmult_le_pos; [apply Rabs_pos|now apply Rmult_le_pos]).
    split; [exact I1|]. split; [lra|]. split; [lra|]. split; [lra|]. split; [|split].
    + replace (fval (e_time (es c)) + (r * fval dt + TT)) with ((fval (e_time (es c)) + r * fval dt) + TT) by ring.
      replace ((r + N) * (2 * eps * fval (e_time (es c2)))) with (N * (2 * eps * fval (e_time (es c2))) + r * (2 * eps * fval (e_time (es c2)))) by ring.
      apply Rabs_add_le with (fval (e_time (es c1)) + TT); [exact I5|].
      match goal with |- Rabs ?x <= _ => replace x with (fval (e_time (es c1)) - (fval (e_time (es c)) + r * fval dt)) by ring end.
      apply Rle_trans with (1 := C5). apply Rmult_le_compat_l; [exact IN|]. apply Rmult_le_compat_l; lra.
    + set (a := Rabs (fval (e_I (es c))) * (r * fval dt)) in *.
      replace ((r + N) * (2 * eps * fval (e_Ah (es c2))) + 3 * eps * ((a + QA) / 3600)) with
        ((N * (2 * eps * fval (e_Ah (es c2))) + 3 * eps * (QA / 3600)) + (r * (2 * eps * fval (e_Ah (es c2))) + 3 * eps * (a / 3600))) by field.
      apply Rabs_add_le with (fval (e_Ah (es c1)) + QA / 3600); [exact I6|].
      match goal with |- Rabs ?x <= _ => replace x with (fval (e_Ah (es c1)) - (fval (e_Ah (es c)) + a / 3600)) by field end.
      apply Rle_trans with (1 := C6). apply Rplus_le_compat_r. apply Rmult_le_compat_l; [exact IN|]. apply Rmult_le_compat_l; lra.
    + set (a := Rabs (fval (e_I (es c))) * (r * fval dt)) in *. set (ca := fval (p_cap (ep c))) in *. assert (NA : Rabs ca <> 0) by now apply Rabs_no_R0.
      replace ((r + N) * (4 * eps) + 4 * eps * ((a + QA) / 3600 / Rabs ca)) with
        ((N * (4 * eps) + 4 * eps * (QA / 3600 / Rabs ca)) + (r * (4 * eps) + 4 * eps * (a / 3600 / Rabs ca))) by (field; exact NA).
      apply Rabs_add_le with (fval (e_SOC (es c1)) - QN / 3600 / ca); [exact I7|].
      match goal with |- Rabs ?x <= _ => replace x with (fval (e_SOC (es c1)) - (fval (e_SOC (es c)) - fval (e_I (es c)) * (r * fval dt) / 3600 / ca)) by (field; exact Nc) end.
      exact C7.
Qed.
