(** * The balancing loop of parallel modules with contact resistances *)
From Coq Require Import List Lra Lia.
From Verif Require Import Base RFacts StatusModel StatusProofs CellModel ModuleModel ConvSpec ConvProofs LadderSpec.
Import ListNotations.
Local Open Scope R_scope.

(** ** Vectors *)
Definition lin (a : R) (xs ys : list R) : list R := map (fun '(x, y) => x + a * y) (combine xs ys).
Definition ip (xs ys : list R) : R := Rsum (map (fun '(x, y) => x * y) (combine xs ys)).
Definition sq (xs : list R) : R := Rsum (map (fun x => x * x) xs).
Definition shift (a : R) (xs : list R) : list R := map (fun x => x + a) xs.

Lemma lin_len a xs ys : length ys = length xs -> length (lin a xs ys) = length xs.
Proof. intros. unfold lin. rewrite map_length, combine_length. lia. Qed.
Lemma shift_len a xs : length (shift a xs) = length xs. Proof. apply map_length. Qed.
Lemma sq_nonneg xs : 0 <= sq xs.
Proof. apply Rsum_nonneg, Forall_map, Forall_forall. intros x _. apply Rle_0_sqr. Qed.
Lemma sq_lin a : forall xs ys, length ys = length xs -> sq (lin a xs ys) = sq xs + 2 * a * ip xs ys + a * a * sq ys.
Proof.
  induction xs as [|x xs IH]; intros [|y ys] L; try discriminate; [unfold sq, ip; cbn; ring|].
  unfold sq, ip, lin in *. cbn [combine map Rsum]. rewrite IH by auto. ring.
Qed.
Lemma Rsum_lin a : forall xs ys, length ys = length xs -> Rsum (lin a xs ys) = Rsum xs + a * Rsum ys.
Proof.
  induction xs as [|x xs IH]; intros [|y ys] L; try discriminate; [cbn; ring|]. unfold lin in *. cbn [combine map Rsum]. rewrite IH by auto. ring.
Qed.
Lemma Rsum_shift a xs : Rsum (shift a xs) = Rsum xs + INR (length xs) * a.
Proof. induction xs as [|x xs IH]; [cbn; ring|]. unfold shift in *. cbn [map Rsum length]. rewrite S_INR, IH. ring. Qed.
Lemma sq_shift a xs : sq (shift a xs) = sq xs + 2 * a * Rsum xs + INR (length xs) * (a * a).
Proof. induction xs as [|x xs IH]; [cbn; ring|]. unfold sq, shift in *. cbn [map Rsum length]. rewrite S_INR, IH. ring. Qed.
Lemma ip_shift a : forall xs ys, length ys = length xs -> ip xs (shift a ys) = ip xs ys + a * Rsum xs.
Proof.
  induction xs as [|x xs IH]; intros [|y ys] L; try discriminate; [cbn; ring|]. unfold ip, shift in *. cbn [map combine Rsum]. rewrite IH by auto. ring.
Qed.
Lemma sum_sq xs : Rsum xs * Rsum xs <= INR (length xs) * sq xs.
Proof.
  destruct xs as [|x0 xs0]; [cbn; lra|]. set (xs := x0 :: xs0).
  assert (P : 0 < INR (length xs)) by (apply lt_0_INR; cbn; lia).
  assert (X := sq_nonneg (shift (- (Rsum xs / INR (length xs))) xs)). rewrite sq_shift in X.
  apply (Rmult_le_compat_l (INR (length xs))) in X; [|lra]. rewrite Rmult_0_r in X.
  replace (INR (length xs) * (sq xs + 2 * - (Rsum xs / INR (length xs)) * Rsum xs + INR (length xs) * (- (Rsum xs / INR (length xs)) * - (Rsum xs / INR (length xs)))))
    with (INR (length xs) * sq xs - Rsum xs * Rsum xs) in X by (field; lra). lra.
Qed.
(** The mean minimises the squared deviations. *)
Lemma sq_mean m xs : xs <> [] -> sq (shift (- vmean xs) xs) <= sq (shift (- m) xs).
Proof.
  intros NE. assert (P : 0 < INR (length xs)) by (apply lt_0_INR; destruct xs; [easy|cbn; lia]).
  rewrite !sq_shift, vmean_R. set (n := INR (length xs)) in *. set (t := Rsum xs).
  assert (X : 0 <= n * ((m - t / n) * (m - t / n))) by (apply Rmult_le_pos; [lra|apply Rle_0_sqr]).
  replace (n * ((m - t / n) * (m - t / n))) with (n * (m * m) - 2 * m * t + t * t / n) in X by (field; lra).
  replace (n * (- (t / n) * - (t / n))) with (t * t / n) by (field; lra).
  replace (2 * - (t / n) * t) with (- 2 * (t * t / n)) by (field; lra). lra.
Qed.
Lemma abs_sq xs : Rsum (map Rabs xs) * Rsum (map Rabs xs) <= INR (length xs) * sq xs.
Proof.
  assert (X := sum_sq (map Rabs xs)). rewrite map_length in X. replace (sq (map Rabs xs)) with (sq xs) in X; [exact X|].
  unfold sq. rewrite map_map. f_equal. apply map_ext. intros x. rewrite <- Rabs_mult. symmetry. apply Rabs_pos_eq, Rle_0_sqr.
Qed.
Lemma each_sq xs x : In x xs -> x * x <= sq xs.
Proof.
  unfold sq. induction xs as [|y xs IH]; [easy|]. intros [->|H]; cbn [map Rsum].
  - assert (X := sq_nonneg xs). unfold sq in X. lra.
  - specialize (IH H). assert (0 <= y * y) by apply Rle_0_sqr. lra.
Qed.

Section Branches.
Context {Tag : Type}.
Notation branch := (branch Tag).
(** What the terminals see of each branch, from the last branch to the first. *)
Fixpoint seen (rc : list R) (bs : list branch) (is : list R) : list R :=
  match rc, bs, is with
  | r :: rc', b :: bs', i :: is' => shift (- (Rsum (i :: is') * r)) (bvolt b i :: seen rc' bs' is')
  | _, _, _ => []
  end.
(** The change it sees for a change of the currents. *)
Fixpoint imp (rc : list R) (bs : list branch) (zs : list R) : list R :=
  match rc, bs, zs with
  | r :: rc', b :: bs', z :: zs' => shift (Rsum (z :: zs') * r) (b_r b * z :: imp rc' bs' zs')
  | _, _, _ => []
  end.
Lemma seen_len : forall bs rc is, length rc = length bs -> length is = length bs -> length (seen rc bs is) = length bs.
Proof. induction bs as [|b bs IH]; intros [|r rc] [|i is] L1 L2; try discriminate; [reflexivity|]. cbn [seen]. rewrite shift_len. cbn. auto. Qed.
Lemma imp_len : forall bs rc is, length rc = length bs -> length is = length bs -> length (imp rc bs is) = length bs.
Proof. induction bs as [|b bs IH]; intros [|r rc] [|i is] L1 L2; try discriminate; [reflexivity|]. cbn [imp]. rewrite shift_len. cbn. auto. Qed.
Lemma seen_lin c : forall bs rc is ds, length rc = length bs -> length is = length bs -> length ds = length bs ->
  seen rc bs (lin c is ds) = lin (- c) (seen rc bs is) (imp rc bs ds).
Proof.
  induction bs as [|b bs IH]; intros [|r rc] [|i is] [|d ds] L1 L2 L3; try discriminate; [reflexivity|].
  assert (E := IH rc is ds ltac:(auto) ltac:(auto) ltac:(auto)). assert (ES := Rsum_lin c is ds ltac:(cbn in *; lia)).
  unfold lin in *. cbn [combine map seen imp Rsum]. rewrite E, ES. unfold shift. cbn [map combine].
  f_equal; [unfold bvolt; ring|]. clear.
  generalize (seen rc bs is) (imp rc bs ds). induction l as [|x l IHl]; intros [|y l0]; try reflexivity. cbn [combine map]. f_equal; [ring|apply IHl].
Qed.
Lemma shift_lin a c xs ys : shift a (lin c xs ys) = lin c (shift a xs) ys.
Proof. unfold shift, lin. revert ys. induction xs as [|x xs IH]; intros [|y ys]; try reflexivity. cbn [combine map]. f_equal; [ring|apply IH]. Qed.

(** The largest resistance of the branches plus the trace of the contact matrix bounds the impedance. *)
Lemma ladder_nonneg rc : Forall (fun r => 0 <= r) rc -> 0 <= ladder rc.
Proof. induction 1 as [|r rc H _ IH]; [cbn; lra|]. cbn [ladder]. assert (0 <= r * INR (length (r :: rc))) by (apply Rmult_le_pos; [auto|apply pos_INR]). lra. Qed.
Lemma ip_imp r0 : forall bs rc zs, length rc = length bs -> length zs = length bs -> 0 <= r0 -> Forall (fun b => r0 <= b_r b) bs -> Forall (fun r => 0 <= r) rc ->
  r0 * sq zs <= ip zs (imp rc bs zs).
Proof.
  induction bs as [|b bs IH]; intros [|r rc] [|z zs] L1 L2 P HB HR; try discriminate; [unfold sq, ip; cbn; lra|].
  apply Forall_cons_iff in HB, HR. destruct HB as [B1 HB], HR as [R1 HR]. specialize (IH rc zs ltac:(auto) ltac:(auto) P HB HR).
  cbn [imp]. rewrite ip_shift by (cbn; rewrite imp_len by auto; auto).
  unfold ip, sq in *. cbn [combine map Rsum] in *. set (t := z + Rsum zs).
  assert (0 <= t * r * t). { replace (t * r * t) with (r * (t * t)) by ring. apply Rmult_le_pos; [auto|apply Rle_0_sqr]. }
  assert (r0 * (z * z) <= b_r b * (z * z)) by (apply Rmult_le_compat_r; [apply Rle_0_sqr|auto]). lra.
Qed.
Lemma sq_imp R0 : 0 < R0 -> forall bs rc zs, length rc = length bs -> length zs = length bs -> Forall (fun b => 0 <= b_r b <= R0) bs -> Forall (fun r => 0 <= r) rc ->
  sq (imp rc bs zs) <= (R0 + ladder rc) * ip zs (imp rc bs zs).
Proof.
  intros P. induction bs as [|b bs IH]; intros [|r rc] [|z zs] L1 L2 HB HR; try discriminate; [unfold sq, ip; cbn; lra|].
  assert (I0 := ip_imp 0 bs rc zs ltac:(auto) ltac:(auto) (Rle_refl 0)).
  apply Forall_cons_iff in HB, HR. destruct HB as [[B1 B2] HB], HR as [R1 HR]. specialize (IH rc zs ltac:(auto) ltac:(auto) HB HR).
  specialize (I0 ltac:(eapply Forall_impl; [|exact HB]; cbn; intros; lra) HR). rewrite Rmult_0_l in I0.
  assert (LN := ladder_nonneg rc HR). cbn [imp ladder].
  set (w := imp rc bs zs) in *. assert (LW : length w = length zs) by (unfold w; rewrite imp_len; cbn in *; lia).
  set (x := b_r b * z :: w). rewrite sq_shift, ip_shift by (cbn; lia).
  assert (EX : sq x = b_r b * z * (b_r b * z) + sq w) by reflexivity.
  assert (EI : ip (z :: zs) x = z * (b_r b * z) + ip zs w) by reflexivity.
  replace (length (r :: rc)) with (length x) by (unfold x; cbn in *; lia).
  set (n := INR (length x)). assert (N0 : 0 <= n) by apply pos_INR. set (t := Rsum (z :: zs)). set (a := R0 + ladder rc).
  set (X := ip (z :: zs) x) in *. assert (A0 : 0 < a) by (unfold a; lra). fold a in IH.
  assert (Q1 : sq x <= a * X).
  { rewrite EX, EI. assert (b_r b * z * (b_r b * z) <= a * (z * (b_r b * z))).
    { replace (b_r b * z * (b_r b * z)) with (b_r b * (b_r b * (z * z))) by ring. replace (a * (z * (b_r b * z))) with (a * (b_r b * (z * z))) by ring.
      apply Rmult_le_compat_r; [apply Rmult_le_pos; [auto|apply Rle_0_sqr]|unfold a; lra]. }
    lra. }
  assert (X0 : 0 <= X).
  { rewrite EI. assert (0 <= z * (b_r b * z)) by (replace (z * (b_r b * z)) with (b_r b * (z * z)) by ring; apply Rmult_le_pos; [auto|apply Rle_0_sqr]). lra. }
  set (s := Rsum x). assert (Q2 : s * s <= n * sq x) by apply sum_sq.
  assert (Q3 : s * s <= n * (a * X)) by (eapply Rle_trans; [exact Q2|apply Rmult_le_compat_l; auto]).
  assert (Q4 : 2 * t * s <= a * (t * t) + n * X).
  { apply (Rmult_le_reg_l a); [exact A0|]. assert (Y := Rle_0_sqr (a * t - s)). unfold Rsqr in Y. lra. }
  assert (Q5 : 0 <= r * (a * (t * t) + n * X - 2 * t * s)) by (apply Rmult_le_pos; lra).
  replace (R0 + (ladder rc + r * n)) with (a + r * n) by (unfold a; ring). lra.
Qed.
Lemma ip_comm : forall xs ys, ip xs ys = ip ys xs.
Proof. unfold ip. induction xs as [|x xs IH]; intros [|y ys]; try reflexivity. cbn [combine map Rsum]. rewrite IH. ring. Qed.
Lemma ip_lin a : forall xs ys zs, length ys = length xs -> length zs = length xs -> ip (lin a xs ys) zs = ip xs zs + a * ip ys zs.
Proof.
  induction xs as [|x xs IH]; intros [|y ys] [|z zs] L1 L2; try discriminate; [unfold ip; cbn; ring|].
  specialize (IH ys zs ltac:(auto) ltac:(auto)). unfold ip, lin in *. cbn [combine map Rsum]. rewrite IH. ring.
Qed.
Lemma ip_self xs : ip xs xs = sq xs.
Proof. unfold ip, sq. induction xs as [|x xs IH]; [reflexivity|]. cbn [combine map Rsum]. rewrite IH. reflexivity. Qed.
Lemma imp_lin a : forall bs rc xs ys, length rc = length bs -> length xs = length bs -> length ys = length bs ->
  imp rc bs (lin a xs ys) = lin a (imp rc bs xs) (imp rc bs ys).
Proof.
  induction bs as [|b bs IH]; intros [|r rc] [|x xs] [|y ys] L1 L2 L3; try discriminate; [reflexivity|].
  assert (E := IH rc xs ys ltac:(auto) ltac:(auto) ltac:(auto)). assert (ES := Rsum_lin a xs ys ltac:(cbn in *; lia)).
  unfold lin in *. cbn [combine map imp Rsum]. rewrite E, ES. unfold shift. cbn [map combine].
  f_equal; [ring|]. clear.
  generalize (imp rc bs xs) (imp rc bs ys). induction l as [|u l IHl]; intros [|w l0]; try reflexivity. cbn [combine map]. f_equal; [ring|apply IHl].
Qed.
Lemma imp_sym : forall bs rc xs ys, length rc = length bs -> length xs = length bs -> length ys = length bs ->
  ip xs (imp rc bs ys) = ip ys (imp rc bs xs).
Proof.
  induction bs as [|b bs IH]; intros [|r rc] [|x xs] [|y ys] L1 L2 L3; try discriminate; [reflexivity|].
  specialize (IH rc xs ys ltac:(auto) ltac:(auto) ltac:(auto)). cbn [imp].
  rewrite !ip_shift by (cbn; rewrite imp_len by auto; cbn in *; lia).
  unfold ip in *. cbn [combine map Rsum]. rewrite IH. ring.
Qed.
(** One correction contracts the deviations by [1 - k]: the impedance is symmetric. *)
Lemma contract c k R0 bs rc ds : 0 < R0 -> 0 <= k <= 1 -> 0 < c -> length rc = length bs -> length ds = length bs -> Forall (fun b => k <= c * b_r b /\ b_r b <= R0) bs ->
  Forall (fun r => 0 <= r) rc -> c * (R0 + ladder rc) <= 1 -> sq (lin (- c) ds (imp rc bs ds)) <= (1 - k) * (1 - k) * sq ds.
Proof.
  intros P Hk Hc L1 L2 HB HR HL.
  assert (HB2 : Forall (fun b => k / c <= b_r b) bs).
  { eapply Forall_impl; [|exact HB]. cbn. intros b [B1 B2]. apply (Rmult_le_reg_l c); [lra|]. field_simplify; lra. }
  assert (D : 0 <= k / c) by (apply Rmult_le_pos; [lra|left; apply Rinv_0_lt_compat; auto]).
  assert (Low : forall zs, length zs = length bs -> sq zs - c * ip zs (imp rc bs zs) <= (1 - k) * sq zs).
  { intros zs L. assert (I := ip_imp (k / c) bs rc zs L1 L D HB2 HR). apply (Rmult_le_compat_l c) in I; [|lra].
    replace (c * (k / c * sq zs)) with (k * sq zs) in I by (field; lra). lra. }
  assert (Pos : forall zs, length zs = length bs -> sq (lin (- c) zs (imp rc bs zs)) <= sq zs - c * ip zs (imp rc bs zs)).
  { intros zs L. rewrite sq_lin by (rewrite imp_len; auto).
    assert (HB' : Forall (fun b => 0 <= b_r b <= R0) bs).
    { eapply Forall_impl; [|exact HB]. cbn. intros b [B1 B2]. split; [|exact B2]. apply (Rmult_le_reg_l c); lra. }
    assert (I := ip_imp 0 bs rc zs L1 L (Rle_refl 0) ltac:(eapply Forall_impl; [|exact HB']; cbn; intros; lra) HR). rewrite Rmult_0_l in I.
    assert (S := sq_imp R0 P bs rc zs L1 L HB' HR). set (X := ip zs (imp rc bs zs)) in *. set (Y := sq (imp rc bs zs)) in *.
    assert (S' : c * c * Y <= c * X).
    { apply Rle_trans with (c * c * ((R0 + ladder rc) * X)); [apply Rmult_le_compat_l; [apply Rmult_le_pos; lra|exact S]|].
      replace (c * c * ((R0 + ladder rc) * X)) with ((c * (R0 + ladder rc)) * (c * X)) by ring. rewrite <- (Rmult_1_l (c * X)) at 2.
      apply Rmult_le_compat_r; [apply Rmult_le_pos; lra|exact HL]. }
    lra. }
  assert (LM := imp_len bs rc ds L1 L2). set (p := lin (- c) ds (imp rc bs ds)) in *.
  assert (LP : length p = length bs) by (unfold p; rewrite lin_len; lia).
  assert (Q1 := Low ds L2). assert (Q2 := Low p LP). assert (Q3 := Pos ds L2). fold p in Q3. assert (P0 := sq_nonneg p).
  destruct (Rle_lt_or_eq_dec k 1 (proj2 Hk)) as [K| ->]; [|lra].
  assert (Q : forall a, 0 <= sq (lin a ds p) - c * ip (lin a ds p) (imp rc bs (lin a ds p))).
  { intros a. eapply Rle_trans; [apply sq_nonneg|apply Pos]. rewrite lin_len; lia. }
  specialize (Q (- / (1 - k))). set (a := - / (1 - k)) in *. assert (LQ := imp_len bs rc p L1 LP).
  assert (EX : ip (lin a ds p) (imp rc bs (lin a ds p)) = ip ds (imp rc bs ds) + 2 * a * ip p (imp rc bs ds) + a * a * ip p (imp rc bs p)).
  { rewrite imp_lin by auto. rewrite ip_lin by (rewrite ?lin_len; lia).
    rewrite (ip_comm ds (lin _ _ _)), (ip_comm p (lin _ _ _)). rewrite !ip_lin by lia.
    rewrite (ip_comm (imp rc bs p) ds), (imp_sym bs rc ds p) by auto.
    rewrite (ip_comm (imp rc bs ds) ds), (ip_comm (imp rc bs ds) p), (ip_comm (imp rc bs p) p). ring. }
  rewrite EX, sq_lin in Q by lia.
  assert (E : ip p ds - c * ip p (imp rc bs ds) = sq p).
  { rewrite <- ip_self. unfold p at 3. rewrite ip_lin, (ip_comm ds), (ip_comm (imp rc bs ds)) by lia. ring. }
  assert (A : (1 - k) * a = -1) by (unfold a; field; lra).
  assert (F : (1 - k) * sq p <= (1 - k) * ((1 - k) * (sq ds - c * ip ds (imp rc bs ds)))).
  { assert (G : a * a * (sq p - c * ip p (imp rc bs p)) <= a * a * ((1 - k) * sq p)) by (apply Rmult_le_compat_l; [apply Rle_0_sqr|exact Q2]).
    assert (H : 0 <= (sq ds - c * ip ds (imp rc bs ds)) + 2 * a * sq p + a * a * ((1 - k) * sq p)).
    { rewrite <- E at 1. rewrite (ip_comm ds p) in Q. lra. }
    apply (Rmult_le_compat_l ((1 - k) * (1 - k))) in H; [|apply Rmult_le_pos; lra]. rewrite Rmult_0_r in H.
    replace ((1 - k) * (1 - k) * (sq ds - c * ip ds (imp rc bs ds) + 2 * a * sq p + a * a * ((1 - k) * sq p)))
      with ((1 - k) * ((1 - k) * (sq ds - c * ip ds (imp rc bs ds))) + 2 * (1 - k) * ((1 - k) * a) * sq p + ((1 - k) * a) * ((1 - k) * a) * ((1 - k) * sq p)) in H by ring.
    rewrite A in H. lra. }
  apply Rmult_le_reg_l in F; [|lra]. eapply Rle_trans; [exact F|]. rewrite Rmult_assoc. apply Rmult_le_compat_l; lra.
Qed.

Section Loop.
Context {U : Type} (o : su_ops R U) (br : U -> branch -> R -> Prop) (lo hi : R).
Context (HV : forall s b i, br s b i -> exists s', o_V o s = (s', Ok (bvolt b i)) /\ br s' b i).
Context (HI : forall s b i, br s b i -> o_I o s = i).
Context (HC : forall s b i, br s b i -> o_Cap o s = b_c b).
Context (HS : forall s b i j, br s b i -> lo <= bvolt b j <= hi ->
  exists s' st, o_setCurrent o j true s = (s', Ok st) /\ isStatusOK st = true /\ br s' b j).

Lemma seen_from l bs is : brs br l bs is -> forall rc, length rc = length l ->
  exists l', getVall_from o l rc = (l', Ok (seen rc bs is, Rsum is)) /\ brs br l' bs is.
Proof.
  induction 1 as [|s l b bs i is H _ IH]; intros rc L.
  - destruct rc; [|discriminate]. exists []. split; [cbn [getVall_from seen Rsum]; rewrite R_nZ; reflexivity|constructor].
  - destruct rc as [|r rc]; [discriminate|]. injection L as L. destruct (IH rc L) as (l' & E & B). destruct (HV _ _ _ H) as (s' & E1 & B1).
    cbn [getVall_from]. rewrite E, E1, (HI _ _ _ B1). exists (s' :: l'). split; [|constructor; auto].
    cbn [seen Rsum]. do 3 f_equal; [|cbn; ring]. unfold shift. apply map_ext. intros x. cbn. ring.
Qed.
Lemma seen_all l bs is rc : brs br l bs is -> length rc = length l -> (length l <= 100)%nat ->
  exists l', getVall o l rc = (l', Ok (seen rc bs is)) /\ brs br l' bs is.
Proof.
  intros H L N. destruct (seen_from l bs is H rc L) as (l' & E & B). exists l'. split; [|exact B].
  unfold getVall. replace (Nat.ltb NSUs_MAX (length l)) with false by (symmetry; apply Nat.ltb_ge; exact N). rewrite E. reflexivity.
Qed.
Lemma adjust_seen c vm : forall l bs is, brs br l bs is -> Forall (fun b => b_c b = c) bs -> forall vs, length vs = length bs ->
  Forall (within lo hi) (volts bs (lin c is (shift (- vm) vs))) ->
  exists l', p_adjust o vm is vs l = (l', Ok (lin c is (shift (- vm) vs))) /\ brs br l' bs (lin c is (shift (- vm) vs)).
Proof.
  induction 1 as [|s l b bs i is H _ IH]; intros C [|v vs] L W; try discriminate; [exists []; split; [reflexivity|constructor]|].
  apply Forall_cons_iff in C. destruct C as [C1 C].
  unfold volts, lin, shift in *. cbn [combine map p_adjust] in *. apply Forall_cons_iff in W. destruct W as [W1 W].
  destruct (IH C vs ltac:(auto) W) as (l' & E & B). destruct (HS s b i _ H W1) as (s' & st & E1 & _ & B1).
  rewrite (HC _ _ _ H), C1.
  match goal with |- context [o_setCurrent o ?j true s] => replace j with (i + c * (v + - vm)) by (cbn; ring) end.
  rewrite E1, E. exists (s' :: l'). split; [reflexivity|]. constructor; auto.
Qed.
(** The voltages of the branches move by at most [G] when the squared deviations are at most [G * G]. *)
Lemma volts_move c a G m M ds : forall (bs : list branch) is, length is = length bs -> length ds = length bs -> Forall (fun b => 0 <= c * b_r b <= 1) bs ->
  Forall (fun d => Rabs d <= G) ds -> a = G -> Forall (within m M) (volts bs is) -> Forall (within (m - a) (M + a)) (volts bs (lin c is ds)).
Proof.
  intros bs is L1 L2 HB HD -> W. revert W. revert is ds L1 L2 HD. induction HB as [|b bs HB _ IH]; intros [|i is] [|d ds] L1 L2 HD W; try discriminate; [constructor|].
  unfold volts, lin in *. cbn [combine map] in *. apply Forall_cons_iff in W, HD. destruct W as [[W1 W2] W], HD as [D1 D].
  constructor; [|apply IH; auto]. unfold within, bvolt in *. replace (b_e b - b_r b * (i + c * d)) with (b_e b - b_r b * i - c * b_r b * d) by ring.
  assert (X : Rabs (c * b_r b * d) <= G).
  { rewrite Rabs_mult, (Rabs_pos_eq (c * b_r b)) by lra. apply Rle_trans with (1 * Rabs d); [apply Rmult_le_compat_r; [apply Rabs_pos|lra]|lra]. }
  assert (X1 := Rle_abs (c * b_r b * d)). assert (X2 := Rle_abs (- (c * b_r b * d))). rewrite Rabs_Ropp in X2. lra.
Qed.
Lemma spread_sq G (vs : list R) : vs <> [] -> 0 <= G -> sq (shift (- vmean vs) vs) <= G * G ->
  spread (vmean vs) vs * spread (vmean vs) vs <= INR (length vs) * (G * G).
Proof.
  intros NE HG H. assert (X := abs_sq (shift (- vmean vs) vs)). rewrite shift_len in X.
  assert (E : Rsum (map Rabs (shift (- vmean vs) vs)) = spread (vmean vs) vs).
  { rewrite spread_R. unfold shift. rewrite map_map. f_equal. apply map_ext. intros v. rewrite <- Rabs_Ropp. f_equal. ring. }
  rewrite E in X. eapply Rle_trans; [exact X|]. apply Rmult_le_compat_l; [apply pos_INR|exact H].
Qed.

Lemma balance_seen c k R0 tol rc bs : 0 < k <= 1 -> 0 < R0 -> 0 < c -> Forall (fun b => b_c b = c /\ k <= c * b_r b /\ b_r b <= R0) bs ->
  Forall (fun r => 0 <= r) rc -> c * (R0 + ladder rc) <= 1 -> length rc = length bs -> (1 <= length bs <= 100)%nat -> 0 < tol ->
  forall it G l is, brs br l bs is -> 0 <= G -> sq (shift (- vmean (seen rc bs is)) (seen rc bs is)) <= G * G ->
  Forall (within (lo + G / k) (hi - G / k)) (volts bs is) -> INR (length bs) * (G * (1 - k) ^ it * (G * (1 - k) ^ it)) < tol * tol ->
  exists l' is', p_balance o (Datatypes.S it) tol rc is (seen rc bs is) l = (l', Ok (Some is')) /\ brs br l' bs is' /\
    Forall (within lo hi) (volts bs is') /\ spread (vmean (seen rc bs is')) (seen rc bs is') < tol /\ Rsum is' = Rsum is.
Proof.
  intros Hk HR0 Hc HB HR HL Lr N Ht.
  assert (B1 : Forall (fun b => b_c b = c) bs) by (eapply Forall_impl; [|exact HB]; cbn; tauto).
  assert (B2 : Forall (fun b => k <= c * b_r b /\ b_r b <= R0) bs) by (eapply Forall_impl; [|exact HB]; cbn; tauto).
  assert (LN := ladder_nonneg rc HR).
  assert (B3 : Forall (fun b => 0 <= c * b_r b <= 1) bs).
  { eapply Forall_impl; [|exact B2]. cbn. intros b [X1 X2]. split; [lra|]. apply Rle_trans with (c * (R0 + ladder rc)); [|exact HL]. apply Rmult_le_compat_l; lra. }
  induction it as [|it IH]; intros G l is B HG Q W T; destruct (brs_len br _ _ _ B) as [L1 L2];
    assert (LS := seen_len bs rc is Lr L2);
    assert (NE : seen rc bs is <> []) by (intros X; rewrite X in LS; cbn in LS; lia);
    assert (SP := spread_sq G _ NE HG Q); rewrite LS in SP;
    assert (GK : 0 <= G / k) by (apply Rmult_le_pos; [auto|left; apply Rinv_0_lt_compat; lra]);
    assert (W0 : Forall (within lo hi) (volts bs is)) by (eapply Forall_impl; [|exact W]; unfold within; cbn; intros; lra);
    cbn [p_balance]; set (vm := vmean (seen rc bs is)) in *; destruct (nltb (spread vm (seen rc bs is)) tol) eqn:Es.
  - exists l, is. apply Rltb_true in Es. fold vm. repeat split; auto.
  - exfalso. apply Rltb_false in Es. cbn [pow] in T. assert (tol * tol <= spread vm (seen rc bs is) * spread vm (seen rc bs is)) by (apply Rmult_le_compat; lra). lra.
  - exists l, is. apply Rltb_true in Es. fold vm. repeat split; auto.
  - set (ds := shift (- vm) (seen rc bs is)) in *. assert (LD : length ds = length bs) by (unfold ds; rewrite shift_len; auto).
    assert (DG : Forall (fun d => Rabs d <= G) ds).
    { apply Forall_forall. intros d Hd. assert (X := each_sq ds d Hd). rewrite <- (Rabs_pos_eq G HG). apply Rsqr_le_abs_0. unfold Rsqr. lra. }
    assert (W1 := volts_move c G G _ _ ds bs is L2 LD B3 DG eq_refl W).
    assert (GS : G * (1 - k) / k = G / k - G) by (field; lra).
    assert (W2 : Forall (within (lo + G * (1 - k) / k) (hi - G * (1 - k) / k)) (volts bs (lin c is ds))).
    { eapply Forall_impl; [|exact W1]. unfold within. intros x X. lra. }
    assert (GS0 : 0 <= G * (1 - k)) by (apply Rmult_le_pos; lra).
    assert (GK' : 0 <= G * (1 - k) / k) by (apply Rmult_le_pos; [auto|left; apply Rinv_0_lt_compat; lra]).
    destruct (adjust_seen c vm l bs is B B1 (seen rc bs is) LS) as (l1 & E1 & BB1).
    { fold ds. eapply Forall_impl; [|exact W2]. unfold within. intros x X. lra. }
    fold ds in E1, BB1. rewrite E1. destruct (brs_len br _ _ _ BB1) as [L3 L4].
    destruct (seen_all l1 bs _ rc BB1) as (l2 & E2 & BB2); [lia|lia|]. rewrite E2.
    assert (Q' : sq (shift (- vmean (seen rc bs (lin c is ds))) (seen rc bs (lin c is ds))) <= G * (1 - k) * (G * (1 - k))).
    { eapply Rle_trans; [apply (sq_mean vm)|].
      - intros X. apply (f_equal (@length R)) in X. rewrite seen_len in X; cbn in X; lia.
      - rewrite seen_lin by auto. rewrite shift_lin. fold ds.
        eapply Rle_trans; [apply (contract c k R0); auto; lra|]. replace (G * (1 - k) * (G * (1 - k))) with ((1 - k) * (1 - k) * (G * G)) by ring. apply Rmult_le_compat_l; [apply Rle_0_sqr|lra]. }
    destruct (IH (G * (1 - k)) l2 _ BB2 GS0 Q' W2) as (l' & is' & E3 & B3' & W3 & S3 & T3).
    { replace (G * (1 - k) * (1 - k) ^ it) with (G * (1 - k) ^ Datatypes.S it) by (cbn [pow]; ring). exact T. }
    cbn [p_balance] in E3. exists l', is'. split; [exact E3|]. split; [exact B3'|]. split; [exact W3|]. split; [exact S3|].
    rewrite T3, Rsum_lin by (rewrite LD; auto). unfold ds. rewrite Rsum_shift. unfold vm. rewrite vmean_R. field.
    apply not_0_INR. destruct (seen rc bs is); [easy|cbn; lia].
Qed.

Lemma mean_squares y ts : ts <> [] -> sq (shift (- vmean ts) ts) <= squares y ts.
Proof.
  intros NE. eapply Rle_trans; [apply (sq_mean y), NE|]. right. unfold sq, squares, shift. rewrite map_map. f_equal.
Qed.

Lemma redistribute_seen c k R0 rc l bs is G y : 0 < k <= 1 -> 0 < R0 -> 0 < c -> Forall (fun b => b_c b = c /\ k <= c * b_r b /\ b_r b <= R0) bs ->
  Forall (fun r => 0 <= r) rc -> c * (R0 + ladder rc) <= 1 -> length rc = length l -> (2 <= length l <= 100)%nat -> brs br l bs is ->
  0 <= G -> squares y (seen rc bs is) <= G * G -> Forall (within (lo + G / k) (hi - G / k)) (volts bs is) ->
  INR (length l) * (G * (1 - k) ^ 2499 * (G * (1 - k) ^ 2499)) < / 10 ^ 20 ->
  exists l' is', p_redistribute o rc l = (l', Ok Success) /\ brs br l' bs is' /\
    Forall (within lo hi) (volts bs is') /\ spread (vmean (seen rc bs is')) (seen rc bs is') < / 10 ^ 10 /\ Rsum is' = Rsum is.
Proof.
  intros Hk HR0 Hc HB HR HL Lr N B HG Q W T. destruct (brs_len br _ _ _ B) as [L1 L2].
  destruct (seen_all l bs is rc B Lr) as (l1 & E1 & B1); [lia|].
  unfold p_redistribute. replace (Nat.leb (length l) 1) with false by (symmetry; apply Nat.leb_gt; lia).
  replace (Nat.ltb NSUs_MAX (length l)) with false by (symmetry; apply Nat.ltb_ge; apply N). rewrite E1, (brs_I o br HI _ _ _ B1).
  assert (TL : nlit (A := R) 1 10000000000 = / 10 ^ 10) by (rewrite R_nlit; field).
  rewrite TL. replace redistribute_iterations with (Datatypes.S 2499) by (vm_compute; reflexivity).
  assert (NE : seen rc bs is <> []) by (intros X; apply (f_equal (@length R)) in X; rewrite seen_len in X; cbn in X; lia).
  assert (T' : INR (length bs) * (G * (1 - k) ^ 2499 * (G * (1 - k) ^ 2499)) < / 10 ^ 10 * / 10 ^ 10).
  { rewrite <- L1. eapply Rlt_le_trans; [exact T|]. right. rewrite <- Rinv_mult. f_equal. clear. ring. }
  destruct (balance_seen c k R0 (/ 10 ^ 10) rc bs Hk HR0 Hc HB HR HL ltac:(lia) ltac:(lia)
    ltac:(clear; lra) 2499 G l1 is B1 HG (Rle_trans _ _ _ (mean_squares y _ NE) Q) W T') as (l' & is' & E & Q').
  rewrite E. exists l', is'. split; [reflexivity|exact Q'].
Qed.
Lemma set_current_seen c k R0 rc l bs is G y Inew : 0 < k <= 1 -> 0 < R0 -> 0 < c -> Forall (fun b => b_c b = c /\ k <= c * b_r b /\ b_r b <= R0) bs ->
  Forall (fun r => 0 <= r) rc -> c * (R0 + ladder rc) <= 1 -> length rc = length l -> (1 <= length l <= 100)%nat -> brs br l bs is ->
  let is1 := map (fun i => i + (Inew - Rsum is) / INR (length l)) is in
  0 <= G -> squares y (seen rc bs is1) <= G * G -> Forall (within (lo + G / k) (hi - G / k)) (volts bs is1) ->
  INR (length l) * (G * (1 - k) ^ 10549 * (G * (1 - k) ^ 10549)) < / 10 ^ 18 ->
  exists l' is', p_setCurrent o Inew rc l = (l', Ok Success) /\ brs br l' bs is' /\
    Forall (within lo hi) (volts bs is') /\ spread (vmean (seen rc bs is')) (seen rc bs is') < / 10 ^ 9 /\ Rsum is' = Inew.
Proof.
  intros Hk HR0 Hc HB HR HL Lr N B is1 HG Q W T. destruct (brs_len br _ _ _ B) as [L1 L2].
  unfold p_setCurrent. replace (Nat.ltb NSUs_MAX (length l)) with false by (symmetry; apply Nat.ltb_ge; apply N).
  rewrite (brs_I o br HI _ _ _ B), R_nsum, R_nnat. set (dI := (Inew - Rsum is) / INR (length l)) in *.
  match goal with |- context [p_first o ?x is Success l] => replace x with dI by reflexivity end.
  assert (GK : 0 <= G / k) by (clear T; apply Rmult_le_pos; [auto|left; apply Rinv_0_lt_compat; lra]).
  destruct (first_share o br lo hi HS dI Success l bs is B) as (l1 & st & E1 & S1 & B1); [|reflexivity|].
  { eapply Forall_impl; [|exact W]. clear T. intros x [X1 X2]. split; lra. }
  rewrite E1, S1. fold is1 in B1. fold is1. destruct (brs_len br _ _ _ B1) as [L3 L4].
  destruct (seen_all l1 bs _ rc B1) as (l2 & E2 & B2); [lia|lia|]. rewrite E2.
  assert (TL : nlit (A := R) 1 1000000000 = / 10 ^ 9) by (rewrite R_nlit; field).
  rewrite TL. replace setCurrent_iterations with (Datatypes.S (Z.to_nat 10549)) by (vm_compute; reflexivity).
  assert (NE : seen rc bs is1 <> []) by (intros X; apply (f_equal (@length R)) in X; rewrite seen_len in X; cbn in X; lia).
  assert (T' : INR (length bs) * (G * (1 - k) ^ (Z.to_nat 10549) * (G * (1 - k) ^ (Z.to_nat 10549))) < / 10 ^ 9 * / 10 ^ 9).
  { rewrite <- L1. replace (Z.to_nat 10549) with 10549%nat by (vm_compute; reflexivity). eapply Rlt_le_trans; [exact T|]. right. rewrite <- Rinv_mult. f_equal. clear. ring. }
  clear T.
  destruct (balance_seen c k R0 (/ 10 ^ 9) rc bs Hk HR0 Hc HB HR HL ltac:(lia) ltac:(lia)
    ltac:(clear; lra) (Z.to_nat 10549) G l2 is1 B2 HG (Rle_trans _ _ _ (mean_squares y _ NE) Q) W T') as (l' & is' & E & Q1 & Q2 & Q3 & Q4).
  rewrite E. exists l', is'. split; [reflexivity|]. split; [exact Q1|]. split; [exact Q2|]. split; [exact Q3|].
  rewrite Q4. unfold is1. clear T'. assert (P : 0 < INR (length l)) by (apply lt_0_INR; lia).
  change (map (fun i => i + dI) is) with (shift dI is). rewrite Rsum_shift, L2, <- L1. unfold dI. field. lra.
Qed.

(** Voltage commands: the same with 200 in place of the capacity and the target in place of the mean. *)
Lemma vadjust_seen v : forall l bs is, brs br l bs is -> forall vs, length vs = length bs ->
  Forall (within lo hi) (volts bs (lin 200 is (shift (- v) vs))) ->
  exists l', p_vadjust o v is vs l = (l', Ok (lin 200 is (shift (- v) vs))) /\ brs br l' bs (lin 200 is (shift (- v) vs)).
Proof.
  induction 1 as [|s l b bs i is H _ IH]; intros [|x vs] L W; try discriminate; [exists []; split; [reflexivity|constructor]|].
  unfold volts, lin, shift in *. cbn [combine map p_vadjust] in *. apply Forall_cons_iff in W. destruct W as [W1 W].
  destruct (IH vs ltac:(auto) W) as (l' & E & B). destruct (HS s b i _ H W1) as (s' & st & E1 & _ & B1).
  match goal with |- context [o_setCurrent o ?j true s] => replace j with (i + 200 * (x + - v)) end.
  2:{ rewrite !R_nlit. cbn [nadd nmul ndiv nsub RNum]. field. }
  rewrite E1, E. exists (s' :: l'). split; [reflexivity|]. constructor; auto.
Qed.
Lemma vloop_S it v rc Ia l : p_vloop o (Datatypes.S it) v rc Ia l =
  match getVall o l rc with
  | (l1, Ok Va) =>
      if (spread v Va <? nlit 1 10000000000)%num then (l1, Ok Success)
      else match p_vadjust o v Ia Va l1 with
           | (l2, Ok Ia') => p_vloop o it v rc Ia' l2
           | (l2, e) => (l2, cast e)
           end
  | (l1, e) => (l1, cast e)
  end.
Proof. reflexivity. Qed.
Lemma target_sq v G (vs : list R) : 0 <= G -> sq (shift (- v) vs) <= G * G -> spread v vs * spread v vs <= INR (length vs) * (G * G).
Proof.
  intros HG H. assert (X := abs_sq (shift (- v) vs)). rewrite shift_len in X.
  assert (E : Rsum (map Rabs (shift (- v) vs)) = spread v vs).
  { rewrite spread_R. unfold shift. rewrite map_map. f_equal. apply map_ext. intros x. rewrite <- Rabs_Ropp. f_equal. ring. }
  rewrite E in X. eapply Rle_trans; [exact X|]. apply Rmult_le_compat_l; [apply pos_INR|exact H].
Qed.
Lemma vloop_seen k R0 v rc bs : 0 < k <= 1 -> 0 < R0 -> Forall (fun b => k <= 200 * b_r b /\ b_r b <= R0) bs ->
  Forall (fun r => 0 <= r) rc -> 200 * (R0 + ladder rc) <= 1 -> length rc = length bs -> (length bs <= 100)%nat ->
  forall it G l is, brs br l bs is -> 0 <= G -> sq (shift (- v) (seen rc bs is)) <= G * G ->
  Forall (within (lo + G / k) (hi - G / k)) (volts bs is) -> INR (length bs) * (G * (1 - k) ^ it * (G * (1 - k) ^ it)) < / 10 ^ 10 * / 10 ^ 10 ->
  exists l' is', p_vloop o (Datatypes.S it) v rc is l = (l', Ok Success) /\ brs br l' bs is' /\
    Forall (within lo hi) (volts bs is') /\ spread v (seen rc bs is') < / 10 ^ 10.
Proof.
  intros Hk HR0 B2 HR HL Lr N.
  assert (TL : nlit (A := R) 1 10000000000 = / 10 ^ 10) by (rewrite R_nlit; field).
  assert (Ht : 0 < / 10 ^ 10) by lra. revert TL Ht. generalize (/ 10 ^ 10) as tol. intros tol TL Ht.
  assert (LN := ladder_nonneg rc HR).
  assert (B3 : Forall (fun b => 0 <= 200 * b_r b <= 1) bs).
  { eapply Forall_impl; [|exact B2]. cbn. intros b [X1 X2]. split; lra. }
  induction it as [|it IH]; intros G l is B HG Q W T; destruct (brs_len br _ _ _ B) as [L1 L2];
    assert (LS := seen_len bs rc is Lr L2);
    assert (SP := target_sq v G _ HG Q); rewrite LS in SP;
    assert (GK : 0 <= G / k) by (apply Rmult_le_pos; [auto|left; apply Rinv_0_lt_compat; lra]);
    assert (W0 : Forall (within lo hi) (volts bs is)) by (eapply Forall_impl; [|exact W]; unfold within; cbn; intros; lra);
    (destruct (seen_all l bs is rc B) as (l0 & E0 & B0); [lia|lia|]);
    rewrite vloop_S, E0, TL; destruct (nltb (spread v (seen rc bs is)) tol) eqn:Es.
  - exists l0, is. apply Rltb_true in Es. repeat split; auto.
  - exfalso. apply Rltb_false in Es. cbn [pow] in T. assert (tol * tol <= spread v (seen rc bs is) * spread v (seen rc bs is)) by (apply Rmult_le_compat; lra). lra.
  - exists l0, is. apply Rltb_true in Es. repeat split; auto.
  - set (ds := shift (- v) (seen rc bs is)) in *. assert (LD : length ds = length bs) by (unfold ds; rewrite shift_len; auto).
    assert (DG : Forall (fun d => Rabs d <= G) ds).
    { apply Forall_forall. intros d Hd. assert (X := each_sq ds d Hd). rewrite <- (Rabs_pos_eq G HG). apply Rsqr_le_abs_0. unfold Rsqr. lra. }
    assert (W1 := volts_move 200 G G _ _ ds bs is L2 LD B3 DG eq_refl W).
    assert (GS : G * (1 - k) / k = G / k - G) by (field; lra).
    assert (W2 : Forall (within (lo + G * (1 - k) / k) (hi - G * (1 - k) / k)) (volts bs (lin 200 is ds))).
    { eapply Forall_impl; [|exact W1]. unfold within. intros x X. lra. }
    assert (GS0 : 0 <= G * (1 - k)) by (apply Rmult_le_pos; lra).
    assert (GK' : 0 <= G * (1 - k) / k) by (apply Rmult_le_pos; [auto|left; apply Rinv_0_lt_compat; lra]).
    destruct (vadjust_seen v l0 bs is B0 (seen rc bs is) LS) as (l1 & E1 & BB1).
    { fold ds. eapply Forall_impl; [|exact W2]. unfold within. intros x X. lra. }
    fold ds in E1, BB1. rewrite E1.
    assert (Q' : sq (shift (- v) (seen rc bs (lin 200 is ds))) <= G * (1 - k) * (G * (1 - k))).
    { rewrite seen_lin by auto. rewrite shift_lin. fold ds.
      eapply Rle_trans; [apply (contract 200 k R0); auto; lra|]. replace (G * (1 - k) * (G * (1 - k))) with ((1 - k) * (1 - k) * (G * G)) by ring. apply Rmult_le_compat_l; [apply Rle_0_sqr|lra]. }
    destruct (IH (G * (1 - k)) l1 _ BB1 GS0 Q' W2) as (l' & is' & E3 & B3' & W3 & S3).
    { replace (G * (1 - k) * (1 - k) ^ it) with (G * (1 - k) ^ Datatypes.S it) by (cbn [pow]; ring). exact T. }
    exists l', is'. repeat split; auto.
Qed.
Lemma set_voltage_seen k R0 v rc l bs is G : 0 < k <= 1 -> 0 < R0 -> Forall (fun b => k <= 200 * b_r b /\ b_r b <= R0) bs ->
  Forall (fun r => 0 <= r) rc -> 200 * (R0 + ladder rc) <= 1 -> length rc = length l -> (length l <= 100)%nat -> brs br l bs is ->
  0 <= G -> squares v (seen rc bs is) <= G * G -> Forall (within (lo + G / k) (hi - G / k)) (volts bs is) ->
  INR (length l) * (G * (1 - k) ^ 49 * (G * (1 - k) ^ 49)) < / 10 ^ 20 ->
  exists l' is', p_setVoltage o v rc l = (l', Ok Success) /\ brs br l' bs is' /\
    Forall (within lo hi) (volts bs is') /\ spread v (seen rc bs is') < / 10 ^ 10.
Proof.
  intros Hk HR0 HB HR HL Lr N B HG Q W T. destruct (brs_len br _ _ _ B) as [L1 L2].
  unfold p_setVoltage. replace (Nat.ltb NSUs_MAX (length l)) with false by (symmetry; apply Nat.ltb_ge; apply N).
  rewrite (brs_I o br HI _ _ _ B).
  assert (T' : INR (length bs) * (G * (1 - k) ^ 49 * (G * (1 - k) ^ 49)) < / 10 ^ 10 * / 10 ^ 10).
  { rewrite <- L1. eapply Rlt_le_trans; [exact T|]. right. rewrite <- Rinv_mult. f_equal. clear. ring. }
  assert (Q' : sq (shift (- v) (seen rc bs is)) <= G * G).
  { eapply Rle_trans; [|exact Q]. right. unfold sq, squares, shift. rewrite map_map. reflexivity. }
  exact (vloop_seen k R0 v rc bs Hk HR0 HB HR HL ltac:(lia) ltac:(lia)
    49 G l is B HG Q' W T').
Qed.
End Loop.
End Branches.
