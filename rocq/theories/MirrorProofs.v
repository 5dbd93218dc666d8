(** * Contact resistances that mirror the deviations in every iteration *)
From Coq Require Import List Lra Lia.
From Verif Require Import Base RFacts StatusModel StatusProofs CellModel ModuleModel ConvSpec ConvProofs LadderSpec LadderProofs MirrorSpec.
Import ListNotations.
Local Open Scope R_scope.

Definition neg (xs : list R) : list R := map Ropp xs.
Definition times (a : R) (xs : list R) : list R := map (fun x => a * x) xs.
Lemma neg_lin xs : lin (-2) xs xs = neg xs.
Proof. unfold lin, neg. induction xs as [|x xs IH]; [reflexivity|]. cbn [combine map]. f_equal; [ring|exact IH]. Qed.
Lemma shift_shift a b xs : shift a (shift b xs) = shift (a + b) xs.
Proof. unfold shift. rewrite map_map. apply map_ext. intros; ring. Qed.
Lemma shift_0 xs : shift 0 xs = xs.
Proof. unfold shift. induction xs as [|x xs IH]; [reflexivity|]. cbn [map]. f_equal; [ring|exact IH]. Qed.
Lemma mean_shift v ds : ds <> [] -> Rsum ds = 0 -> vmean (shift v ds) = v.
Proof. intros NE H. rewrite vmean_R, shift_len, Rsum_shift, H. field. apply not_0_INR. destruct ds; [easy|cbn; lia]. Qed.
Lemma spread_shift v ds : spread v (shift v ds) = Rsum (map Rabs ds).
Proof. rewrite spread_R. unfold shift. rewrite map_map. f_equal. apply map_ext. intros x. rewrite <- Rabs_Ropp. f_equal. ring. Qed.
Lemma abs_neg ds : Rsum (map Rabs (neg ds)) = Rsum (map Rabs ds).
Proof. unfold neg. rewrite map_map. f_equal. apply map_ext. intros x. apply Rabs_Ropp. Qed.
Lemma sum_neg ds : Rsum (neg ds) = - Rsum ds.
Proof. unfold neg. induction ds as [|d ds IH]; cbn [map Rsum]; [ring|rewrite IH; ring]. Qed.
Lemma neg_neg ds : neg (neg ds) = ds.
Proof. unfold neg. rewrite map_map. induction ds as [|d ds IH]; [reflexivity|]. cbn [map]. f_equal; [ring|exact IH]. Qed.
Lemma there_back c : forall is ds, length ds = length is -> lin c (lin c is ds) (neg ds) = is.
Proof. unfold lin, neg. induction is as [|i is IH]; intros [|d ds] L; try discriminate; [reflexivity|]. cbn [combine map]. f_equal; [ring|apply IH; auto]. Qed.
Lemma mirrored c a v ds : c <> 0 -> lin (- c) (shift v ds) (shift a (times (2 / c) ds)) = shift (v - c * a) (neg ds).
Proof.
  intros H. unfold lin, shift, times, neg. rewrite !map_map. induction ds as [|d ds IH]; [reflexivity|]. cbn [combine map]. f_equal; [field; auto|exact IH].
Qed.

Section Branches.
Context {Tag : Type}.
Notation branch := (branch Tag).
Lemma imp_neg a q rc (bs : list branch) ds : length rc = length bs -> length ds = length bs ->
  imp rc bs ds = shift a (times q ds) -> imp rc bs (neg ds) = shift (- a) (times q (neg ds)).
Proof.
  intros L1 L2 E. rewrite <- neg_lin at 1. rewrite imp_lin by auto. rewrite E, neg_lin. unfold neg, shift, times. rewrite !map_map. apply map_ext. intros; ring.
Qed.
(** Contacts that turn deviations into a multiple of themselves. *)
Fixpoint steps (e p : R) (rc ds : list R) : Prop :=
  match rc, ds with r :: rc', d :: ds' => r * Rsum ds = e * (d - p) /\ steps e d rc' ds' | [], [] => True | _, _ => False end.
Lemma imp_steps q R0 : forall (bs : list branch) rc ds p, length rc = length bs -> length ds = length bs -> Forall (fun b => b_r b = R0) bs ->
  steps (q - R0) p rc ds -> imp rc bs ds = shift (- (q - R0) * p) (times q ds).
Proof.
  induction bs as [|b bs IH]; intros [|r rc] [|d ds] p L1 L2 HB S; try discriminate; [reflexivity|].
  apply Forall_cons_iff in HB. destruct HB as [B1 HB]. cbn [steps] in S. destruct S as [S1 S].
  cbn [imp]. rewrite (IH rc ds d ltac:(auto) ltac:(auto) HB S), Rmult_comm, S1, B1. unfold shift, times. cbn [map]. f_equal; [ring|].
  rewrite !map_map. apply map_ext. intros; ring.
Qed.

Section Loop.
Context {U : Type} (o : su_ops R U) (br : U -> branch -> R -> Prop) (lo hi : R).
Context (HV : forall s b i, br s b i -> exists s', o_V o s = (s', Ok (bvolt b i)) /\ br s' b i).
Context (HI : forall s b i, br s b i -> o_I o s = i).
Context (HC : forall s b i, br s b i -> o_Cap o s = b_c b).
Context (HS : forall s b i j, br s b i -> lo <= bvolt b j <= hi ->
  exists s' st, o_setCurrent o j true s = (s', Ok st) /\ isStatusOK st = true /\ br s' b j).

Lemma balance_mirror c tol rc bs : 0 < c -> Forall (fun b => b_c b = c) bs -> length rc = length bs -> (1 <= length bs <= 100)%nat ->
  forall it l is v a ds, brs br l bs is -> length ds = length bs -> Rsum ds = 0 -> imp rc bs ds = shift a (times (2 / c) ds) -> tol <= Rsum (map Rabs ds) ->
  seen rc bs is = shift v ds -> Forall (within lo hi) (volts bs is) -> Forall (within lo hi) (volts bs (lin c is ds)) ->
  exists l', p_balance o it tol rc is (seen rc bs is) l = (l', Ok None).
Proof.
  intros Hc HB Lr N. induction it as [|it IH]; intros l is v a ds B LD Z M T E W1 W2; [exists l; reflexivity|].
  destruct (brs_len br _ _ _ B) as [L1 L2]. assert (NE : ds <> []) by (intros ->; cbn in LD; lia).
  cbn [p_balance]. rewrite E, mean_shift by auto. rewrite spread_shift.
  replace (nltb (Rsum (map Rabs ds)) tol) with false by (symmetry; apply Rltb_false; exact T).
  assert (S1 : shift (- v) (shift v ds) = ds) by (rewrite shift_shift; replace (- v + v) with 0 by ring; apply shift_0).
  destruct (adjust_seen o br lo hi HC HS c v l bs is B HB (shift v ds)) as (l1 & E1 & B1); [rewrite shift_len; auto|rewrite S1; exact W2|].
  rewrite S1 in E1, B1. rewrite E1. destruct (brs_len br _ _ _ B1) as [L3 L4].
  destruct (seen_all o br HV HI l1 bs _ rc B1) as (l2 & E2 & B2); [lia|lia|]. rewrite E2.
  apply (IH l2 (lin c is ds) (v - c * a) (- a) (neg ds) B2).
  - unfold neg. rewrite map_length. exact LD.
  - rewrite sum_neg, Z. ring.
  - apply imp_neg; auto.
  - rewrite abs_neg. exact T.
  - rewrite seen_lin by auto. rewrite E, M. apply mirrored. lra.
  - exact W2.
  - rewrite there_back by lia. exact W1.
Qed.
Lemma redistribute_mirror c rc bs l is v a ds : 0 < c -> Forall (fun b => b_c b = c) bs -> length rc = length l -> (2 <= length l <= 100)%nat ->
  brs br l bs is -> length ds = length bs -> Rsum ds = 0 -> imp rc bs ds = shift a (times (2 / c) ds) -> / 10 ^ 10 <= Rsum (map Rabs ds) ->
  seen rc bs is = shift v ds -> Forall (within lo hi) (volts bs is) -> Forall (within lo hi) (volts bs (lin c is ds)) ->
  exists l', p_redistribute o rc l = (l', Ok RedistributeCurrent_failed).
Proof.
  intros Hc HB Lr N B LD Z M T E W1 W2. destruct (brs_len br _ _ _ B) as [L1 L2].
  destruct (seen_all o br HV HI l bs is rc B Lr) as (l1 & E1 & B1); [lia|].
  unfold p_redistribute. replace (Nat.leb (length l) 1) with false by (symmetry; apply Nat.leb_gt; lia).
  replace (Nat.ltb NSUs_MAX (length l)) with false by (symmetry; apply Nat.ltb_ge; apply N). rewrite E1, (brs_I o br HI _ _ _ B1).
  assert (TL : nlit (A := R) 1 10000000000 = / 10 ^ 10) by (rewrite R_nlit; field). rewrite TL.
  destruct (balance_mirror c (/ 10 ^ 10) rc bs Hc HB ltac:(lia) ltac:(lia) redistribute_iterations l1 is v a ds B1 LD Z M T E W1 W2) as (l2 & E2).
  rewrite E2. exists l2. reflexivity.
Qed.

Lemma vloop_mirror v rc bs : length rc = length bs -> (length bs <= 100)%nat ->
  forall it l is ds, brs br l bs is -> length ds = length bs -> imp rc bs ds = times (2 / 200) ds -> / 10 ^ 10 <= Rsum (map Rabs ds) ->
  seen rc bs is = shift v ds -> Forall (within lo hi) (volts bs is) -> Forall (within lo hi) (volts bs (lin 200 is ds)) ->
  exists l', p_vloop o it v rc is l = (l', Ok RedistributeCurrent_failed).
Proof.
  intros Lr N. assert (TL : nlit (A := R) 1 10000000000 = / 10 ^ 10) by (rewrite R_nlit; field).
  induction it as [|it IH]; intros l is ds B LD M T E W1 W2; [exists l; reflexivity|].
  destruct (brs_len br _ _ _ B) as [L1 L2].
  destruct (seen_all o br HV HI l bs is rc B) as (l0 & E0 & B0); [lia|lia|]. rewrite (vloop_S o), E0, TL, E, spread_shift.
  replace (nltb (Rsum (map Rabs ds)) (/ 10 ^ 10)) with false by (symmetry; apply Rltb_false; exact T).
  assert (S1 : shift (- v) (shift v ds) = ds) by (rewrite shift_shift; replace (- v + v) with 0 by ring; apply shift_0).
  destruct (vadjust_seen o br lo hi HS v l0 bs is B0 (shift v ds)) as (l1 & E1 & B1); [rewrite shift_len; auto|rewrite S1; exact W2|].
  rewrite S1 in E1, B1. rewrite E1.
  apply (IH l1 (lin 200 is ds) (neg ds) B1).
  - unfold neg. rewrite map_length. exact LD.
  - rewrite (imp_neg 0 (2 / 200)) by (auto; rewrite shift_0; exact M). replace (- 0) with 0 by ring. apply shift_0.
  - rewrite abs_neg. exact T.
  - rewrite seen_lin by auto. rewrite E, M. rewrite <- (shift_0 (times (2 / 200) ds)), mirrored by lra. f_equal. ring.
  - exact W2.
  - rewrite there_back by lia. exact W1.
Qed.
Lemma set_voltage_mirror v rc bs l is ds : length rc = length l -> (length l <= 100)%nat ->
  brs br l bs is -> length ds = length bs -> imp rc bs ds = times (2 / 200) ds -> / 10 ^ 10 <= Rsum (map Rabs ds) ->
  seen rc bs is = shift v ds -> Forall (within lo hi) (volts bs is) -> Forall (within lo hi) (volts bs (lin 200 is ds)) ->
  exists l', p_setVoltage o v rc l = (l', Ok RedistributeCurrent_failed).
Proof.
  intros Lr N B LD M T E W1 W2. destruct (brs_len br _ _ _ B) as [L1 L2].
  unfold p_setVoltage. replace (Nat.ltb NSUs_MAX (length l)) with false by (symmetry; apply Nat.ltb_ge; apply N).
  rewrite (brs_I o br HI _ _ _ B). apply (vloop_mirror v rc bs ltac:(lia) ltac:(lia) 50 l is ds B LD M T E W1 W2).
Qed.
End Loop.
End Branches.

(** ** The two families of contacts *)
Lemma sum_line g h : forall m j, Rsum (map (fun i => g * (INR i + h)) (seq j m)) = g * (INR m * (INR j + h) + INR m * (INR m - 1) / 2).
Proof.
  induction m as [|m IH]; intros j; [cbn; field|]. cbn [seq map Rsum]. rewrite IH, !S_INR. field.
Qed.
Lemma steps_mean n e g : forall m j, (1 <= j)%nat -> (j + m = n)%nat ->
  steps e (g * (INR (j - 1) + - ((INR n - 1) / 2))) (map (fun j => 2 * e / (INR j * (INR n - INR j))) (seq j m))
    (map (fun j => g * (INR j + - ((INR n - 1) / 2))) (seq j m)).
Proof.
  induction m as [|m IH]; intros j Hj Hn; [exact I|]. cbn [seq map steps]. split.
  - change (g * (INR j + - ((INR n - 1) / 2)) :: map (fun j => g * (INR j + - ((INR n - 1) / 2))) (seq (S j) m)) with
      (map (fun j => g * (INR j + - ((INR n - 1) / 2))) (seq j (S m))). rewrite sum_line.
    assert (P1 : 0 < INR j) by (apply lt_0_INR; lia). assert (P2 : 0 < INR m + 1) by (assert (0 <= INR m) by apply pos_INR; lra).
    rewrite minus_INR by lia. subst n. rewrite plus_INR, !S_INR. change (INR 1) with 1.
    change (INR 0) with 0. field. replace (INR j + (INR m + 1) - INR j) with (INR m + 1) by ring. lra.
  - replace (INR j) with (INR (S j - 1)) at 1 by (f_equal; lia). apply IH; lia.
Qed.
Lemma steps_target n e g : forall m j p, p = g * INR j -> (j + m = n)%nat ->
  steps e p (map (fun j => 2 * e / (INR n * (INR n + 1) - INR j * (INR j + 1))) (seq j m)) (map (fun j => g * (INR j + 1)) (seq j m)).
Proof.
  induction m as [|m IH]; intros j p -> Hn; [exact I|]. cbn [seq map steps]. split.
  - change (g * (INR j + 1) :: map (fun j => g * (INR j + 1)) (seq (S j) m)) with (map (fun j => g * (INR j + 1)) (seq j (S m))). rewrite sum_line.
    subst n. rewrite plus_INR, !S_INR. assert (P1 : 0 <= INR j) by apply pos_INR. assert (P2 : 0 <= INR m) by apply pos_INR.
    field. assert (0 <= INR m * INR m) by (apply Rmult_le_pos; auto). assert (0 <= INR j * INR m) by (apply Rmult_le_pos; auto).
    apply Rgt_not_eq. ring_simplify. lra.
  - apply IH; [rewrite S_INR; reflexivity|lia].
Qed.
