(** * The balancing loop of parallel modules converges: any branch whose voltage falls with its current *)
From Coq Require Import List Lra Lia.
From Verif Require Import Base RFacts StatusModel StatusProofs CellModel ModuleModel ConvProofs MonoSpec.
Import ListNotations.
Local Open Scope R_scope.

(** A branch: what it is, its voltage as a function of its current, its capacity, and the currents it may carry. *)
Record rbranch (T : Type) := mkRb { n_t : T; n_f : R -> R; n_c : R; n_a : R; n_b : R }.
Arguments mkRb {T}. Arguments n_t {T}. Arguments n_f {T}. Arguments n_c {T}. Arguments n_a {T}. Arguments n_b {T}.
Section Mono.
Context {Tag : Type}.
Notation rbranch := (rbranch Tag).
Definition nvolts (bs : list rbranch) (is : list R) : list R := map (fun '(b, i) => n_f b i) (combine bs is).
Lemma nvolts_len bs : forall is, length is = length bs -> length (nvolts bs is) = length bs.
Proof. intros. unfold nvolts. rewrite map_length, combine_length. lia. Qed.

Definition ncorr (vm : R) (bs : list rbranch) (is : list R) : list R :=
  map (fun '(b, i) => i - (vm - n_f b i) * n_c b) (combine bs is).
Definition nsettling (k m M : R) (b : rbranch) : Prop :=
  0 < n_c b /\ falls k (n_c b) (n_f b) (n_a b) (n_b b) /\ M <= n_f b (n_a b) /\ n_f b (n_b b) <= m.
Definition ncarry (b : rbranch) (i : R) : Prop := n_a b <= i <= n_b b.

Lemma ncorr_one k m M vm b i : 0 <= k <= 1 -> within m M vm -> nsettling k m M b -> ncarry b i -> within m M (n_f b i) ->
  ncarry b (i - (vm - n_f b i) * n_c b) /\
  within (m + k * (vm - m)) (M - k * (M - vm)) (n_f b (i - (vm - n_f b i) * n_c b)).
Proof.
  intros Hk [V1 V2] (C & HF & HA & HB) [I1 I2] [W1 W2]. unfold falls in HF.
  set (v := n_f b i) in *. set (j := i - (vm - v) * n_c b).
  destruct (Rle_dec vm v) as [D|D].
  - assert (J : i <= j) by (unfold j; nra).
    assert (JB : j <= n_b b).
    { destruct (HF i (n_b b)) as [_ X]; try lra. fold v in X. assert (n_c b * (v - vm) <= n_c b * (v - n_f b (n_b b))) by (apply Rmult_le_compat_l; lra).
      unfold j. lra. }
    split; [split; lra|]. destruct (HF i j) as [X1 X2]; try lra. fold v in X1, X2.
    assert (E : j - i = n_c b * (v - vm)) by (unfold j; ring). rewrite E in X1, X2.
    assert (Y1 : k * (v - vm) <= v - n_f b j) by (apply Rmult_le_reg_l with (n_c b); [exact C|]; lra).
    assert (Y2 : v - n_f b j <= v - vm) by (apply Rmult_le_reg_l with (n_c b); [exact C|]; lra).
    split; nra.
  - assert (J : j <= i) by (unfold j; nra).
    assert (JB : n_a b <= j).
    { destruct (HF (n_a b) i) as [_ X]; try lra. fold v in X. assert (n_c b * (vm - v) <= n_c b * (n_f b (n_a b) - v)) by (apply Rmult_le_compat_l; lra).
      unfold j. lra. }
    split; [split; lra|]. destruct (HF j i) as [X1 X2]; try lra. fold v in X1, X2.
    assert (E : i - j = n_c b * (vm - v)) by (unfold j; ring). rewrite E in X1, X2.
    assert (Y1 : k * (vm - v) <= n_f b j - v) by (apply Rmult_le_reg_l with (n_c b); [exact C|]; lra).
    assert (Y2 : n_f b j - v <= vm - v) by (apply Rmult_le_reg_l with (n_c b); [exact C|]; lra).
    split; nra.
Qed.
Lemma ncorr_within k m M vm bs : 0 <= k <= 1 -> within m M vm -> Forall (nsettling k m M) bs -> forall is,
  Forall2 ncarry bs is -> Forall (within m M) (nvolts bs is) ->
  Forall2 ncarry bs (ncorr vm bs is) /\
  Forall (within (m + k * (vm - m)) (M - k * (M - vm))) (nvolts bs (ncorr vm bs is)).
Proof.
  intros Hk V HF is HI. revert HF. induction HI as [|b i bs is H _ IH]; intros HF W; [split; constructor|].
  unfold nvolts, ncorr in *. cbn [combine map] in *. apply Forall_cons_iff in HF, W. destruct HF as [HF1 HF], W as [W1 W].
  destruct (IH HF W) as [A B]. destruct (ncorr_one k m M vm b i Hk V HF1 H W1) as [A1 B1]. split; constructor; auto.
Qed.
Lemma nsettling_less k m M m' M' b : m <= m' -> M' <= M -> nsettling k m M b -> nsettling k m' M' b.
Proof. intros H1 H2 (A & B & C & D). repeat split; auto; try lra; apply B; auto. Qed.
Lemma ncorr_sum c vm bs : Forall (fun b => n_c b = c) bs -> forall is, length is = length bs ->
  Rsum (ncorr vm bs is) = Rsum is - c * Rsum (map (fun v => vm - v) (nvolts bs is)).
Proof.
  induction 1 as [|b bs E _ IH]; intros [|i is] L; try discriminate; [cbn; ring|].
  unfold ncorr, nvolts in *. cbn [combine map Rsum]. rewrite IH by auto. rewrite E. ring.
Qed.

(** Currents with voltages close to one another are close to the currents of the same total with one voltage. *)
Definition nstrict (k c : R) (b : rbranch) : Prop := falls k c (n_f b) (n_a b) (n_b b).
Lemma nlow k c v bs : 0 <= k -> 0 < c -> Forall (nstrict k c) bs -> forall is js, Forall2 ncarry bs is -> Forall2 ncarry bs js ->
  Forall (fun x => x = v) (nvolts bs js) ->
  (Forall (fun x => v < x) (nvolts bs is) -> Rsum is <= Rsum js /\ (bs <> [] -> Rsum is < Rsum js)) /\
  (Forall (fun x => x < v) (nvolts bs is) -> Rsum js <= Rsum is /\ (bs <> [] -> Rsum js < Rsum is)).
Proof.
  intros Hk Hc. induction 1 as [|b bs H _ IH]; intros is js K1 K2 E; inversion K1 as [|? i ? is' I1 K1']; inversion K2 as [|? j ? js' J1 K2']; subst.
  - split; intros _; (split; [cbn; lra|intros X; contradiction]).
  - unfold nvolts in *. cbn [combine map Rsum] in *. apply Forall_cons_iff in E. destruct E as [E1 E]. destruct (IH is' js' K1' K2' E) as [A B].
    destruct I1 as [I1 I2], J1 as [J1 J2]. unfold nstrict, falls in H. split; intros W; apply Forall_cons_iff in W; destruct W as [W1 W].
    + assert (i < j). { destruct (Rlt_dec i j); [auto|exfalso]. destruct (H j i) as [X _]; try lra.
        assert (0 <= k * (i - j)) by (apply Rmult_le_pos; lra). assert (0 < c * (n_f b i - n_f b j)) by (apply Rmult_lt_0_compat; lra). lra. }
      destruct (A W) as [A1 _]. split; intros; lra.
    + assert (j < i). { destruct (Rlt_dec j i); [auto|exfalso]. destruct (H i j) as [X _]; try lra.
        assert (0 <= k * (j - i)) by (apply Rmult_le_pos; lra). assert (0 < c * (n_f b j - n_f b i)) by (apply Rmult_lt_0_compat; lra). lra. }
      destruct (B W) as [A1 _]. split; intros; lra.
Qed.
Lemma nexact k c v vm tol bs is js : 0 <= k -> 0 < c -> bs <> [] -> Forall (nstrict k c) bs -> Forall2 ncarry bs is -> Forall2 ncarry bs js ->
  Forall (fun x => x = v) (nvolts bs js) -> Rsum is = Rsum js -> spread vm (nvolts bs is) < tol ->
  Forall2 (fun i j => k * Rabs (i - j) <= 2 * c * tol) is js.
Proof.
  intros Hk Hc NE H K1 K2 E T S. destruct (nlow k c v bs Hk Hc H is js K1 K2 E) as [A B].
  assert (P : forall x, In x (nvolts bs is) -> vm - tol < x < vm + tol).
  { intros x Hx. assert (Q := spread_each vm _ x Hx). revert Q. unfold Rabs. destruct (Rcase_abs (vm - x)); lra. }
  assert (V : vm - tol < v < vm + tol).
  { split.
    - destruct (Forall_Exists_dec (fun x => x < v) (fun x => Rlt_dec x v) (nvolts bs is)) as [X|X]; [destruct (B X) as [_ Y]; specialize (Y NE); lra|].
      destruct (Forall_Exists_dec (fun x => v < x) (fun x => Rlt_dec v x) (nvolts bs is)) as [X2|X2]; [destruct (A X2) as [_ Y]; specialize (Y NE); lra|].
      apply Exists_exists in X2. destruct X2 as (y & Hy & Y). specialize (P y Hy). lra.
    - destruct (Forall_Exists_dec (fun x => x < v) (fun x => Rlt_dec x v) (nvolts bs is)) as [X|X]; [destruct (B X) as [_ Y]; specialize (Y NE); lra|].
      apply Exists_exists in X. destruct X as (y & Hy & Y). specialize (P y Hy). lra. }
  assert (PF : Forall (fun x => Rabs (x - v) <= 2 * tol) (nvolts bs is)).
  { apply Forall_forall. intros x Hx. specialize (P x Hx). apply Rabs_le. lra. }
  clear -Hk Hc H K1 K2 E PF. revert js K2 E PF H.
  induction K1 as [|b i bs is [I1 I2] _ IH]; intros js K2 E PF H; inversion K2 as [|? j ? js' [J1 J2] K2']; subst; [constructor|].
  unfold nvolts in *. cbn [combine map] in *. apply Forall_cons_iff in E, PF, H. destruct E as [E1 E], PF as [P1 P2], H as [H1 H2].
  constructor; [|apply IH; auto]. rewrite <- E1 in P1. unfold nstrict, falls in H1.
  assert (Q : c * Rabs (n_f b i - n_f b j) <= c * (2 * tol)) by (apply Rmult_le_compat_l; lra). revert Q.
  destruct (Rle_dec i j) as [D|D].
  - destruct (H1 i j) as [X _]; try lra. assert (c * (n_f b i - n_f b j) <= c * Rabs (n_f b i - n_f b j)) by (apply Rmult_le_compat_l; [lra|apply Rle_abs]).
    rewrite (Rabs_minus_sym i j), (Rabs_pos_eq (j - i)) by lra. lra.
  - destruct (H1 j i) as [X _]; try lra. rewrite (Rabs_minus_sym (n_f b i)).
    assert (c * (n_f b j - n_f b i) <= c * Rabs (n_f b j - n_f b i)) by (apply Rmult_le_compat_l; [lra|apply Rle_abs]).
    rewrite (Rabs_pos_eq (i - j)) by lra. lra.
Qed.

Section Loop.
Context {U : Type} (o : su_ops R U) (br : U -> rbranch -> R -> Prop) (lo hi : R).
Context (HV : forall s b i, br s b i -> exists s', o_V o s = (s', Ok (n_f b i)) /\ br s' b i).
Context (HI : forall s b i, br s b i -> o_I o s = i).
Context (HC : forall s b i, br s b i -> o_Cap o s = n_c b).
Context (HS : forall s b i j, br s b i -> ncarry b j -> lo <= n_f b j <= hi ->
  exists s' st, o_setCurrent o j true s = (s', Ok st) /\ isStatusOK st = true /\ br s' b j).

Inductive nbrs : list U -> list rbranch -> list R -> Prop :=
| nbrs_nil : nbrs [] [] []
| nbrs_cons s l b bs i is : br s b i -> nbrs l bs is -> nbrs (s :: l) (b :: bs) (i :: is).
Lemma nbrs_len l bs is : nbrs l bs is -> length l = length bs /\ length is = length bs.
Proof. induction 1; cbn; lia. Qed.
Lemma nbrs_I l bs is : nbrs l bs is -> map (o_I o) l = is.
Proof. induction 1 as [|s l b bs i is H _ IH]; cbn; [reflexivity|]. rewrite (HI _ _ _ H), IH. reflexivity. Qed.

Lemma nVall_from l bs is : nbrs l bs is -> forall rc, length rc = length l -> Forall (fun r => r = 0) rc ->
  exists l' ic, getVall_from o l rc = (l', Ok (nvolts bs is, ic)) /\ nbrs l' bs is.
Proof.
  induction 1 as [|s l b bs i is H _ IH]; intros rc L Z; [exists [], (nZ 0); split; [reflexivity|constructor]|].
  destruct rc as [|r rc]; [discriminate|]. apply Forall_cons_iff in Z. destruct Z as [-> Z]. injection L as L.
  destruct (IH rc L Z) as (l' & ic & E & B). destruct (HV _ _ _ H) as (s' & E1 & B1).
  cbn [getVall_from]. rewrite E, E1. eexists _, _. split; [|constructor; eauto].
  assert (K : forall x ks, map (fun v : R => nsub v (nmul x 0)) ks = ks).
  { intros x ks. rewrite <- (map_id ks) at 2. apply map_ext. intros a. cbn. ring. }
  rewrite K. reflexivity.
Qed.
Lemma nVall l bs is rc : nbrs l bs is -> length rc = length l -> Forall (fun r => r = 0) rc -> (length l <= 100)%nat ->
  exists l', getVall o l rc = (l', Ok (nvolts bs is)) /\ nbrs l' bs is.
Proof.
  intros H L Z N. destruct (nVall_from l bs is H rc L Z) as (l' & ic & E & B). exists l'. split; [|exact B].
  unfold getVall. replace (Nat.ltb NSUs_MAX (length l)) with false by (symmetry; apply Nat.ltb_ge; exact N). rewrite E. reflexivity.
Qed.
Lemma nadjust vm l bs is : nbrs l bs is -> Forall2 ncarry bs (ncorr vm bs is) -> Forall (within lo hi) (nvolts bs (ncorr vm bs is)) ->
  exists l', p_adjust o vm is (nvolts bs is) l = (l', Ok (ncorr vm bs is)) /\ nbrs l' bs (ncorr vm bs is).
Proof.
  induction 1 as [|s l b bs i is H _ IH]; intros K W; [exists []; split; [reflexivity|constructor]|].
  unfold nvolts, ncorr in *. cbn [combine map p_adjust] in *. apply Forall_cons_iff in W. destruct W as [W1 W].
  inversion K as [|? ? ? ? K1 K2]; subst.
  destruct (IH K2 W) as (l' & E & B). destruct (HS s b i _ H K1 W1) as (s' & st & E1 & _ & B1).
  rewrite (HC _ _ _ H).
  match goal with |- context [o_setCurrent o ?j true s] => replace j with (i - (vm - n_f b i) * n_c b) by reflexivity end.
  rewrite E1, E. exists (s' :: l'). split; [reflexivity|]. constructor; auto.
Qed.
Lemma nfirst dI st0 l bs is : nbrs l bs is -> Forall2 ncarry bs (map (fun i => i + dI) is) ->
  Forall (within lo hi) (nvolts bs (map (fun i => i + dI) is)) -> isStatusOK st0 = true ->
  exists l' st, p_first o dI is st0 l = (l', Ok (map (fun i => i + dI) is, st)) /\ isStatusOK st = true /\
    nbrs l' bs (map (fun i => i + dI) is).
Proof.
  intros H. revert st0. induction H as [|s l b bs i is H _ IH]; intros st0 K W S0.
  - exists [], st0. repeat split; auto. constructor.
  - unfold nvolts in *. cbn [combine map p_first] in *. apply Forall_cons_iff in W. destruct W as [W1 W].
    inversion K as [|? ? ? ? K1 K2]; subst.
    destruct (HS s b i _ H K1 W1) as (s' & st & E1 & S1 & B1).
    destruct (IH st K2 W S1) as (l' & st' & E & S2 & B).
    match goal with |- context [o_setCurrent o ?j true s] => replace j with (i + dI) by reflexivity end.
    rewrite E1, S1, E. exists (s' :: l'), st'. repeat split; auto. constructor; auto.
Qed.

Lemma nbalance k tol rc bs : 0 <= k <= 1 -> length rc = length bs -> Forall (fun r => r = 0) rc ->
  (1 <= length bs <= 100)%nat ->
  forall it m M l is, Forall (nsettling k m M) bs -> nbrs l bs is -> lo <= m -> M <= hi -> Forall2 ncarry bs is -> Forall (within m M) (nvolts bs is) ->
  INR (length bs) * (M - m) * (1 - k) ^ it < tol ->
  exists l' is', p_balance o (Datatypes.S it) tol rc is (nvolts bs is) l = (l', Ok (Some is')) /\ nbrs l' bs is' /\
    Forall2 ncarry bs is' /\
    Forall (within m M) (nvolts bs is') /\ spread (vmean (nvolts bs is')) (nvolts bs is') < tol /\
    (forall c, Forall (fun b => n_c b = c) bs -> Rsum is' = Rsum is).
Proof.
  intros Hk Lr Z N. induction it as [|it IH]; intros m M l is HF B Hlo Hhi K W T; destruct (nbrs_len _ _ _ B) as [L1 L2];
    assert (NE : nvolts bs is <> []) by (intros Q; apply (f_equal (@length R)) in Q; rewrite nvolts_len in Q by auto; cbn in Q; lia);
    cbn [p_balance]; destruct (nltb (spread (vmean (nvolts bs is)) (nvolts bs is)) tol) eqn:Es.
  - exists l, is. apply Rltb_true in Es. repeat split; auto.
  - exfalso. apply Rltb_false in Es. assert (X := spread_le m M _ NE W). rewrite nvolts_len in X by auto. cbn in T. lra.
  - exists l, is. apply Rltb_true in Es. repeat split; auto.
  - assert (V := vmean_within m M _ NE W). set (vm := vmean (nvolts bs is)) in *.
    destruct (ncorr_within k m M vm bs Hk V HF is K W) as [K' W']. destruct V as [V1 V2].
    assert (D1 : 0 <= k * (vm - m)) by (apply Rmult_le_pos; lra). assert (D2 : 0 <= k * (M - vm)) by (apply Rmult_le_pos; lra).
    destruct (nadjust vm l bs is B K') as (l1 & E1 & B1).
    { eapply Forall_impl; [|exact W']. intros x [X1 X2]. split; lra. }
    rewrite E1. destruct (nbrs_len _ _ _ B1) as [L3 L4].
    destruct (nVall l1 bs _ rc B1) as (l2 & E2 & B2); [lia|auto|lia|]. rewrite E2.
    destruct (IH (m + k * (vm - m)) (M - k * (M - vm)) l2 (ncorr vm bs is)) as (l' & is' & E3 & B3 & K3 & W3 & S3 & T3); try lra; auto.
    { eapply Forall_impl; [|exact HF]. intros b. apply nsettling_less; lra. }
    { replace (INR (length bs) * (M - k * (M - vm) - (m + k * (vm - m))) * (1 - k) ^ it)
        with (INR (length bs) * (M - m) * (1 - k) ^ Datatypes.S it) by (cbn [pow]; ring). exact T. }
    cbn [p_balance] in E3. exists l', is'. split; [exact E3|]. split; [exact B3|]. split; [exact K3|]. split.
    { eapply Forall_impl; [|exact W3]. intros x [X1 X2]. split; lra. }
    split; [exact S3|]. intros c Hc. rewrite (T3 c Hc), (ncorr_sum c) by auto.
    unfold vm. rewrite (mean_dev _ NE). ring.
Qed.

Lemma nredistribute k rc l bs is m M : 0 <= k <= 1 -> Forall (nsettling k m M) bs -> nbrs l bs is -> length rc = length l ->
  Forall (fun r => r = 0) rc -> (2 <= length l <= 100)%nat -> lo <= m -> M <= hi -> Forall2 ncarry bs is -> Forall (within m M) (nvolts bs is) ->
  INR (length l) * (M - m) * (1 - k) ^ 2499 < / 10 ^ 10 ->
  exists l' is', p_redistribute o rc l = (l', Ok Success) /\ nbrs l' bs is' /\ Forall2 ncarry bs is' /\ Forall (within m M) (nvolts bs is') /\
    spread (vmean (nvolts bs is')) (nvolts bs is') < / 10 ^ 10 /\
    (forall c, Forall (fun b => n_c b = c) bs -> Rsum is' = Rsum is).
Proof.
  intros Hk HF B Lr Z N Hlo Hhi K W T. destruct (nbrs_len _ _ _ B) as [L1 L2].
  destruct (nVall l bs is rc B Lr Z) as (l1 & E1 & B1); [lia|]. destruct (nbrs_len _ _ _ B1) as [L3 L4].
  unfold p_redistribute. replace (Nat.leb (length l) 1) with false by (symmetry; apply Nat.leb_gt; lia).
  replace (Nat.ltb NSUs_MAX (length l)) with false by (symmetry; apply Nat.ltb_ge; apply N). rewrite E1, (nbrs_I _ _ _ B1).
  assert (TL : nlit (A := R) 1 10000000000 = / 10 ^ 10) by (rewrite R_nlit; field).
  rewrite TL. replace redistribute_iterations with (Datatypes.S 2499) by (vm_compute; reflexivity).
  destruct (nbalance k (/ 10 ^ 10) rc bs Hk ltac:(lia) Z ltac:(lia) 2499 m M l1 is HF B1 Hlo Hhi K W) as (l' & is' & E & Q).
  { rewrite <- L1. exact T. }
  rewrite E. exists l', is'. split; [reflexivity|exact Q].
Qed.

Lemma nset_current k rc l bs is m M Inew : 0 <= k <= 1 -> Forall (nsettling k m M) bs -> nbrs l bs is -> length rc = length l ->
  Forall (fun r => r = 0) rc -> (1 <= length l <= 100)%nat -> lo <= m -> M <= hi ->
  Forall2 ncarry bs (map (fun i => i + (Inew - Rsum is) / INR (length l)) is) ->
  Forall (within m M) (nvolts bs (map (fun i => i + (Inew - Rsum is) / INR (length l)) is)) ->
  INR (length l) * (M - m) * (1 - k) ^ 10549 < / 10 ^ 9 ->
  exists l' is', p_setCurrent o Inew rc l = (l', Ok Success) /\ nbrs l' bs is' /\ Forall2 ncarry bs is' /\ Forall (within m M) (nvolts bs is') /\
    spread (vmean (nvolts bs is')) (nvolts bs is') < / 10 ^ 9 /\
    (forall c, Forall (fun b => n_c b = c) bs -> Rsum is' = Inew).
Proof.
  intros Hk HF B Lr Z N Hlo Hhi K W T. destruct (nbrs_len _ _ _ B) as [L1 L2].
  unfold p_setCurrent. replace (Nat.ltb NSUs_MAX (length l)) with false by (symmetry; apply Nat.ltb_ge; apply N).
  rewrite (nbrs_I _ _ _ B), R_nsum, R_nnat.
  set (dI := (Inew - Rsum is) / INR (length l)) in *.
  match goal with |- context [p_first o ?x is Success l] => replace x with dI by reflexivity end.
  destruct (nfirst dI Success l bs is B K) as (l1 & st & E1 & S1 & B1); [|reflexivity|].
  { eapply Forall_impl; [|exact W]. intros x [X1 X2]. split; lra. }
  rewrite E1, S1. destruct (nbrs_len _ _ _ B1) as [L3 L4].
  destruct (nVall l1 bs _ rc B1) as (l2 & E2 & B2); [lia|auto|lia|]. rewrite E2.
  assert (TL : nlit (A := R) 1 1000000000 = / 10 ^ 9) by (rewrite R_nlit; field).
  rewrite TL. replace setCurrent_iterations with (Datatypes.S (Z.to_nat 10549)) by (vm_compute; reflexivity).
  destruct (nbalance k (/ 10 ^ 9) rc bs Hk ltac:(lia) Z ltac:(lia) (Z.to_nat 10549) m M l2 _ HF B2 Hlo Hhi K W) as (l' & is' & E & Q1 & QK & Q2 & Q3 & Q4).
  { rewrite <- L1. replace (Z.to_nat 10549) with 10549%nat by (vm_compute; reflexivity). exact T. }
  rewrite E. exists l', is'. split; [reflexivity|]. split; [exact Q1|]. split; [exact QK|]. split; [exact Q2|]. split; [exact Q3|].
  intros c Hc. rewrite (Q4 c Hc).
  assert (P : 0 < INR (length l)) by (apply lt_0_INR; lia).
  assert (X : forall a ks, Rsum (map (fun i => i + a) ks) = Rsum ks + INR (length ks) * a).
  { intros a. induction ks as [|x ks IHk]; [cbn; ring|]. cbn [map Rsum length]. rewrite S_INR, IHk. ring. }
  rewrite X, L2, <- L1. unfold dI. field. lra.
Qed.
End Loop.
End Mono.
