(** * The balancing loop of parallel modules converges: linear branches *)
From Coq Require Import List Lra Lia.
From Verif Require Import Base RFacts StatusModel StatusProofs CellModel ModuleModel.
Import ListNotations.
Local Open Scope R_scope.

(** A branch at fixed state of charge: what it is, source voltage, resistance, capacity. *)
Record branch (T : Type) := mkBr { b_t : T; b_e : R; b_r : R; b_c : R }.
Arguments mkBr {T}. Arguments b_t {T}. Arguments b_e {T}. Arguments b_r {T}. Arguments b_c {T}.
Section Branches.
Context {Tag : Type}.
Notation branch := (branch Tag).
Definition bvolt (b : branch) (i : R) : R := b_e b - b_r b * i.
Definition volts (bs : list branch) (is : list R) : list R := map (fun '(b, i) => bvolt b i) (combine bs is).

Lemma volts_len bs : forall is, length is = length bs -> length (volts bs is) = length bs.
Proof. intros. unfold volts. rewrite map_length, combine_length. lia. Qed.

Definition within (m M x : R) : Prop := m <= x <= M.

Lemma Rsum_bounds m M l : Forall (within m M) l -> INR (length l) * m <= Rsum l <= INR (length l) * M.
Proof.
  induction 1 as [|x l [H1 H2] _ IH]; [cbn; lra|].
  cbn [length Rsum]. rewrite S_INR. lra.
Qed.
Lemma vmean_R (l : list R) : vmean l = Rsum l / INR (length l).
Proof. unfold vmean. rewrite R_nsum, R_nnat. reflexivity. Qed.
Lemma vmean_within m M l : l <> [] -> Forall (within m M) l -> within m M (vmean l).
Proof.
  intros Hl H. rewrite vmean_R. destruct (Rsum_bounds _ _ _ H) as [A B].
  assert (0 < INR (length l)) by (apply lt_0_INR; destruct l; [easy|cbn; lia]).
  split; [apply Rmult_le_reg_r with (INR (length l))|apply Rmult_le_reg_r with (INR (length l))]; auto; field_simplify; lra.
Qed.
Lemma spread_R vm (l : list R) : spread vm l = Rsum (map (fun v => Rabs (vm - v)) l).
Proof. unfold spread. rewrite R_nsum. reflexivity. Qed.
Lemma spread_le m M l : l <> [] -> Forall (within m M) l -> spread (vmean l) l <= INR (length l) * (M - m).
Proof.
  intros Hl H. assert (V := vmean_within m M l Hl H). rewrite spread_R. revert V. generalize (vmean l) as vm. intros vm [V1 V2].
  rewrite <- (map_length (fun v => Rabs (vm - v)) l).
  apply (Rsum_bounds 0 (M - m)). apply Forall_map. eapply Forall_impl; [|exact H]. intros x [X1 X2].
  split; [apply Rabs_pos|apply Rabs_le; lra].
Qed.
Lemma spread_each vm (l : list R) x : In x l -> Rabs (vm - x) <= spread vm l.
Proof.
  rewrite spread_R. induction l as [|y l IH]; [easy|]. intros [->|H]; cbn [map Rsum].
  - assert (0 <= Rsum (map (fun v => Rabs (vm - v)) l)) by (apply Rsum_nonneg, Forall_map, Forall_forall; intros; apply Rabs_pos). lra.
  - assert (0 <= Rabs (vm - y)) by apply Rabs_pos. specialize (IH H). lra.
Qed.
Lemma mean_dev (l : list R) : l <> [] -> Rsum (map (fun v => vmean l - v) l) = 0.
Proof.
  intros Hl. assert (0 < INR (length l)) by (apply lt_0_INR; destruct l; [easy|cbn; lia]).
  assert (E : forall a k, Rsum (map (fun v => a - v) k) = INR (length k) * a - Rsum k).
  { intros a. induction k as [|x k IH]; [cbn; ring|]. cbn [map Rsum length]. rewrite S_INR, IH. ring. }
  rewrite E, vmean_R. field. lra.
Qed.

(** Currents after one correction. *)
Definition corrected (vm : R) (bs : list branch) (is : list R) : list R :=
  map (fun '(b, i) => i - (vm - bvolt b i) * b_c b) (combine bs is).
Lemma corrected_len vm bs is : length is = length bs -> length (corrected vm bs is) = length bs.
Proof. intros. unfold corrected. rewrite map_length, combine_length. lia. Qed.

Definition settling (k : R) (b : branch) : Prop := k <= b_r b * b_c b <= 1.

Lemma corrected_within k m M vm bs : 0 <= k -> within m M vm -> Forall (settling k) bs -> forall is, length is = length bs ->
  Forall (within m M) (volts bs is) ->
  Forall (within (m + k * (vm - m)) (M - k * (M - vm))) (volts bs (corrected vm bs is)).
Proof.
  intros Hk [V1 V2]. induction 1 as [|b bs [S1 S2] _ IH]; intros [|i is] L H; try discriminate; [constructor|].
  unfold volts, corrected in *. cbn [combine map] in *. apply Forall_cons_iff in H. destruct H as [[H1 H2] H].
  constructor; [|apply IH; auto].
  replace (bvolt b (i - (vm - bvolt b i) * b_c b)) with (bvolt b i + b_r b * b_c b * (vm - bvolt b i)) by (unfold bvolt; ring).
  set (v := bvolt b i) in *. set (q := b_r b * b_c b) in *. split; nra.
Qed.
Lemma corrected_sum c vm bs : Forall (fun b => b_c b = c) bs -> forall is, length is = length bs ->
  Rsum (corrected vm bs is) = Rsum is - c * Rsum (map (fun v => vm - v) (volts bs is)).
Proof.
  induction 1 as [|b bs E _ IH]; intros [|i is] L; try discriminate; [cbn; ring|].
  unfold corrected, volts in *. cbn [combine map Rsum]. rewrite IH by auto. rewrite E. ring.
Qed.

Section Lin.
Context {U : Type} (o : su_ops R U) (br : U -> branch -> R -> Prop) (lo hi : R).
Context (HV : forall s b i, br s b i -> exists s', o_V o s = (s', Ok (bvolt b i)) /\ br s' b i).
Context (HI : forall s b i, br s b i -> o_I o s = i).
Context (HC : forall s b i, br s b i -> o_Cap o s = b_c b).
Context (HS : forall s b i j, br s b i -> lo <= bvolt b j <= hi ->
  exists s' st, o_setCurrent o j true s = (s', Ok st) /\ isStatusOK st = true /\ br s' b j).

Inductive brs : list U -> list branch -> list R -> Prop :=
| brs_nil : brs [] [] []
| brs_cons s l b bs i is : br s b i -> brs l bs is -> brs (s :: l) (b :: bs) (i :: is).
Lemma brs_len l bs is : brs l bs is -> length l = length bs /\ length is = length bs.
Proof. induction 1; cbn; lia. Qed.
Lemma brs_I l bs is : brs l bs is -> map (o_I o) l = is.
Proof. induction 1 as [|s l b bs i is H _ IH]; cbn; [reflexivity|]. rewrite (HI _ _ _ H), IH. reflexivity. Qed.

Lemma Vall_from l bs is : brs l bs is -> forall rc, length rc = length l -> Forall (fun r => r = 0) rc ->
  exists l' ic, getVall_from o l rc = (l', Ok (volts bs is, ic)) /\ brs l' bs is.
Proof.
  induction 1 as [|s l b bs i is H _ IH]; intros rc L Z; [exists [], (nZ 0); split; [reflexivity|constructor]|].
  destruct rc as [|r rc]; [discriminate|]. apply Forall_cons_iff in Z. destruct Z as [-> Z]. injection L as L.
  destruct (IH rc L Z) as (l' & ic & E & B). destruct (HV _ _ _ H) as (s' & E1 & B1).
  cbn [getVall_from]. rewrite E, E1. eexists _, _. split; [|constructor; eauto].
  assert (K : forall x ks, map (fun v : R => nsub v (nmul x 0)) ks = ks).
  { intros x ks. rewrite <- (map_id ks) at 2. apply map_ext. intros a. cbn. ring. }
  rewrite K. reflexivity.
Qed.
Lemma Vall l bs is rc : brs l bs is -> length rc = length l -> Forall (fun r => r = 0) rc -> (length l <= 100)%nat ->
  exists l', getVall o l rc = (l', Ok (volts bs is)) /\ brs l' bs is.
Proof.
  intros H L Z N. destruct (Vall_from l bs is H rc L Z) as (l' & ic & E & B). exists l'. split; [|exact B].
  unfold getVall. replace (Nat.ltb NSUs_MAX (length l)) with false by (symmetry; apply Nat.ltb_ge; exact N). rewrite E. reflexivity.
Qed.
Lemma adjust vm l bs is : brs l bs is -> Forall (within lo hi) (volts bs (corrected vm bs is)) ->
  exists l', p_adjust o vm is (volts bs is) l = (l', Ok (corrected vm bs is)) /\ brs l' bs (corrected vm bs is).
Proof.
  induction 1 as [|s l b bs i is H _ IH]; intros W; [exists []; split; [reflexivity|constructor]|].
  unfold volts, corrected in *. cbn [combine map p_adjust] in *. apply Forall_cons_iff in W. destruct W as [W1 W].
  destruct (IH W) as (l' & E & B). destruct (HS s b i _ H W1) as (s' & st & E1 & _ & B1).
  rewrite (HC _ _ _ H).
  match goal with |- context [o_setCurrent o ?j true s] => replace j with (i - (vm - bvolt b i) * b_c b) by reflexivity end.
  rewrite E1, E. exists (s' :: l'). split; [reflexivity|]. constructor; auto.
Qed.
Lemma first_share dI st0 l bs is : brs l bs is -> Forall (within lo hi) (volts bs (map (fun i => i + dI) is)) -> isStatusOK st0 = true ->
  exists l' st, p_first o dI is st0 l = (l', Ok (map (fun i => i + dI) is, st)) /\ isStatusOK st = true /\
    brs l' bs (map (fun i => i + dI) is).
Proof.
  intros H. revert st0. induction H as [|s l b bs i is H _ IH]; intros st0 W S0.
  - exists [], st0. repeat split; auto. constructor.
  - unfold volts in *. cbn [combine map p_first] in *. apply Forall_cons_iff in W. destruct W as [W1 W].
    destruct (HS s b i _ H W1) as (s' & st & E1 & S1 & B1).
    destruct (IH st W S1) as (l' & st' & E & S2 & B).
    match goal with |- context [o_setCurrent o ?j true s] => replace j with (i + dI) by reflexivity end.
    rewrite E1, S1, E. exists (s' :: l'), st'. repeat split; auto. constructor; auto.
Qed.

Lemma balance k tol rc bs : 0 <= k <= 1 -> Forall (settling k) bs -> length rc = length bs -> Forall (fun r => r = 0) rc ->
  (1 <= length bs <= 100)%nat ->
  forall it m M l is, brs l bs is -> lo <= m -> M <= hi -> Forall (within m M) (volts bs is) ->
  INR (length bs) * (M - m) * (1 - k) ^ it < tol ->
  exists l' is', p_balance o (Datatypes.S it) tol rc is (volts bs is) l = (l', Ok (Some is')) /\ brs l' bs is' /\
    Forall (within m M) (volts bs is') /\ spread (vmean (volts bs is')) (volts bs is') < tol /\
    (forall c, Forall (fun b => b_c b = c) bs -> Rsum is' = Rsum is).
Proof.
  intros Hk HF Lr Z N. induction it as [|it IH]; intros m M l is B Hlo Hhi W T; destruct (brs_len _ _ _ B) as [L1 L2];
    assert (NE : volts bs is <> []) by (intros Q; apply (f_equal (@length R)) in Q; rewrite volts_len in Q by auto; cbn in Q; lia);
    cbn [p_balance]; destruct (nltb (spread (vmean (volts bs is)) (volts bs is)) tol) eqn:Es.
  - exists l, is. apply Rltb_true in Es. repeat split; auto.
  - exfalso. apply Rltb_false in Es. assert (X := spread_le m M _ NE W). rewrite volts_len in X by auto. cbn in T. lra.
  - exists l, is. apply Rltb_true in Es. repeat split; auto.
  - assert (V := vmean_within m M _ NE W). set (vm := vmean (volts bs is)) in *.
    assert (W' := corrected_within k m M vm bs (proj1 Hk) V HF is L2 W). destruct V as [V1 V2].
    assert (D1 : 0 <= k * (vm - m)) by (apply Rmult_le_pos; lra). assert (D2 : 0 <= k * (M - vm)) by (apply Rmult_le_pos; lra).
    destruct (adjust vm l bs is B) as (l1 & E1 & B1).
    { eapply Forall_impl; [|exact W']. intros x [X1 X2]. split; lra. }
    rewrite E1. destruct (brs_len _ _ _ B1) as [L3 L4].
    destruct (Vall l1 bs _ rc B1) as (l2 & E2 & B2); [lia|auto|lia|]. rewrite E2.
    destruct (IH (m + k * (vm - m)) (M - k * (M - vm)) l2 _ B2) as (l' & is' & E3 & B3 & W3 & S3 & T3); try lra; auto.
    { replace (INR (length bs) * (M - k * (M - vm) - (m + k * (vm - m))) * (1 - k) ^ it)
        with (INR (length bs) * (M - m) * (1 - k) ^ Datatypes.S it) by (cbn [pow]; ring). exact T. }
    cbn [p_balance] in E3. exists l', is'. split; [exact E3|]. split; [exact B3|]. split.
    { eapply Forall_impl; [|exact W3]. intros x [X1 X2]. split; lra. }
    split; [exact S3|]. intros c Hc. rewrite (T3 c Hc), (corrected_sum c) by auto.
    unfold vm. rewrite (mean_dev _ NE). ring.
Qed.

(** Redistribution of the present current. *)
Lemma redistribute k rc l bs is m M : 0 <= k <= 1 -> Forall (settling k) bs -> brs l bs is -> length rc = length l ->
  Forall (fun r => r = 0) rc -> (2 <= length l <= 100)%nat -> lo <= m -> M <= hi -> Forall (within m M) (volts bs is) ->
  INR (length l) * (M - m) * (1 - k) ^ 2499 < / 10 ^ 10 ->
  exists l' is', p_redistribute o rc l = (l', Ok Success) /\ brs l' bs is' /\ Forall (within m M) (volts bs is') /\
    spread (vmean (volts bs is')) (volts bs is') < / 10 ^ 10 /\
    (forall c, Forall (fun b => b_c b = c) bs -> Rsum is' = Rsum is).
Proof.
  intros Hk HF B Lr Z N Hlo Hhi W T. destruct (brs_len _ _ _ B) as [L1 L2].
  destruct (Vall l bs is rc B Lr Z) as (l1 & E1 & B1); [lia|]. destruct (brs_len _ _ _ B1) as [L3 L4].
  unfold p_redistribute. replace (Nat.leb (length l) 1) with false by (symmetry; apply Nat.leb_gt; lia).
  replace (Nat.ltb NSUs_MAX (length l)) with false by (symmetry; apply Nat.ltb_ge; apply N). rewrite E1, (brs_I _ _ _ B1).
  assert (TL : nlit (A := R) 1 10000000000 = / 10 ^ 10) by (rewrite R_nlit; field).
  rewrite TL. replace redistribute_iterations with (Datatypes.S 2499) by (vm_compute; reflexivity).
  destruct (balance k (/ 10 ^ 10) rc bs Hk HF ltac:(lia) Z ltac:(lia) 2499 m M l1 is B1 Hlo Hhi W) as (l' & is' & E & Q).
  { rewrite <- L1. exact T. }
  rewrite E. exists l', is'. split; [reflexivity|exact Q].
Qed.

(** Setting the current. *)
Lemma set_current k rc l bs is m M Inew : 0 <= k <= 1 -> Forall (settling k) bs -> brs l bs is -> length rc = length l ->
  Forall (fun r => r = 0) rc -> (1 <= length l <= 100)%nat -> lo <= m -> M <= hi ->
  Forall (within m M) (volts bs (map (fun i => i + (Inew - Rsum is) / INR (length l)) is)) ->
  INR (length l) * (M - m) * (1 - k) ^ 10549 < / 10 ^ 9 ->
  exists l' is', p_setCurrent o Inew rc l = (l', Ok Success) /\ brs l' bs is' /\ Forall (within m M) (volts bs is') /\
    spread (vmean (volts bs is')) (volts bs is') < / 10 ^ 9 /\
    (forall c, Forall (fun b => b_c b = c) bs -> Rsum is' = Inew).
Proof.
  intros Hk HF B Lr Z N Hlo Hhi W T. destruct (brs_len _ _ _ B) as [L1 L2].
  unfold p_setCurrent. replace (Nat.ltb NSUs_MAX (length l)) with false by (symmetry; apply Nat.ltb_ge; apply N).
  rewrite (brs_I _ _ _ B), R_nsum, R_nnat.
  set (dI := (Inew - Rsum is) / INR (length l)) in *.
  match goal with |- context [p_first o ?x is Success l] => replace x with dI by reflexivity end.
  destruct (first_share dI Success l bs is B) as (l1 & st & E1 & S1 & B1); [|reflexivity|].
  { eapply Forall_impl; [|exact W]. intros x [X1 X2]. split; lra. }
  rewrite E1, S1. destruct (brs_len _ _ _ B1) as [L3 L4].
  destruct (Vall l1 bs _ rc B1) as (l2 & E2 & B2); [lia|auto|lia|]. rewrite E2.
  assert (TL : nlit (A := R) 1 1000000000 = / 10 ^ 9) by (rewrite R_nlit; field).
  rewrite TL. replace setCurrent_iterations with (Datatypes.S (Z.to_nat 10549)) by (vm_compute; reflexivity).
  destruct (balance k (/ 10 ^ 9) rc bs Hk HF ltac:(lia) Z ltac:(lia) (Z.to_nat 10549) m M l2 _ B2 Hlo Hhi W) as (l' & is' & E & Q1 & Q2 & Q3 & Q4).
  { rewrite <- L1. replace (Z.to_nat 10549) with 10549%nat by (vm_compute; reflexivity). exact T. }
  rewrite E. exists l', is'. split; [reflexivity|]. split; [exact Q1|]. split; [exact Q2|]. split; [exact Q3|].
  intros c Hc. rewrite (Q4 c Hc).
  assert (P : 0 < INR (length l)) by (apply lt_0_INR; lia).
  assert (X : forall a ks, Rsum (map (fun i => i + a) ks) = Rsum ks + INR (length ks) * a).
  { intros a. induction ks as [|x ks IHk]; [cbn; ring|]. cbn [map Rsum length]. rewrite S_INR, IHk. ring. }
  rewrite X, L2, <- L1. unfold dI. field. lra.
Qed.

(** Two branches whose capacity times resistance is 2: every correction swaps the two voltages. *)
Lemma oscillate tol b1 b2 : b_r b1 * b_c b1 = 2 -> b_r b2 * b_c b2 = 2 -> forall it l i1 i2, brs l [b1; b2] [i1; i2] ->
  within lo hi (bvolt b1 i1) -> within lo hi (bvolt b2 i2) -> tol <= Rabs (bvolt b1 i1 - bvolt b2 i2) ->
  exists l', p_balance o it tol [0; 0] [i1; i2] (volts [b1; b2] [i1; i2]) l = (l', Ok None).
Proof.
  intros K1 K2. induction it as [|it IH]; intros l i1 i2 B W1 W2 D; [exists l; reflexivity|].
  set (v1 := bvolt b1 i1) in *. set (v2 := bvolt b2 i2) in *.
  assert (EV : volts [b1; b2] [i1; i2] = [v1; v2]) by reflexivity.
  assert (EM : vmean [v1; v2] = (v1 + v2) / 2) by (rewrite vmean_R; cbn; field).
  cbn [p_balance]. rewrite EV.
  replace (nltb (spread (vmean [v1; v2]) [v1; v2]) tol) with false.
  2:{ symmetry. apply Rltb_false. rewrite spread_R, EM. cbn [map Rsum]. unfold Rabs in *.
      destruct (Rcase_abs (v1 - v2)), (Rcase_abs ((v1 + v2) / 2 - v1)), (Rcase_abs ((v1 + v2) / 2 - v2)); lra. }
  rewrite EM. set (vm := (v1 + v2) / 2).
  assert (C1 : bvolt b1 (i1 - (vm - v1) * b_c b1) = v2).
  { transitivity (v1 + b_r b1 * b_c b1 * (vm - v1)); [unfold v1, bvolt; ring|]. rewrite K1. unfold vm. field. }
  assert (C2 : bvolt b2 (i2 - (vm - v2) * b_c b2) = v1).
  { transitivity (v2 + b_r b2 * b_c b2 * (vm - v2)); [unfold v2, bvolt; ring|]. rewrite K2. unfold vm. field. }
  destruct (adjust vm l _ _ B) as (l1 & E1 & B1).
  { unfold corrected, volts. cbn [combine map]. fold v1 v2. rewrite C1, C2. exact (Forall_cons _ W2 (Forall_cons _ W1 (Forall_nil _))). }
  rewrite EV in E1. rewrite E1. unfold corrected in *. cbn [combine map] in B1 |- *. fold v1 v2 in B1. fold v1 v2.
  destruct (brs_len _ _ _ B1) as [L1 _]. cbn in L1.
  destruct (Vall l1 _ _ [0; 0] B1) as (l2 & E2 & B2); [rewrite L1; reflexivity|repeat constructor|rewrite L1; lia|].
  rewrite E2. apply (IH l2 _ _ B2); rewrite ?C1, ?C2; auto. rewrite Rabs_minus_sym. exact D.
Qed.
Lemma oscillates_forever b1 b2 l i1 i2 : b_r b1 * b_c b1 = 2 -> b_r b2 * b_c b2 = 2 -> brs l [b1; b2] [i1; i2] ->
  within lo hi (bvolt b1 i1) -> within lo hi (bvolt b2 i2) -> / 10 ^ 10 <= Rabs (bvolt b1 i1 - bvolt b2 i2) ->
  exists l', p_redistribute o [0; 0] l = (l', Ok RedistributeCurrent_failed).
Proof.
  intros K1 K2 B W1 W2 D. destruct (brs_len _ _ _ B) as [L1 _]. cbn in L1.
  destruct (Vall l _ _ [0; 0] B) as (l1 & E1 & B1); [rewrite L1; reflexivity|repeat constructor|rewrite L1; lia|].
  unfold p_redistribute. replace (Nat.leb (length l) 1) with false by (rewrite L1; reflexivity).
  replace (Nat.ltb NSUs_MAX (length l)) with false by (rewrite L1; reflexivity). rewrite E1, (brs_I _ _ _ B1).
  assert (TL : nlit (A := R) 1 10000000000 = / 10 ^ 10) by (rewrite R_nlit; field). rewrite TL.
  destruct (oscillate (/ 10 ^ 10) b1 b2 K1 K2 redistribute_iterations l1 i1 i2 B1 W1 W2 D) as (l' & E). rewrite E.
  exists l'. reflexivity.
Qed.
End Lin.

(** Branches whose voltages lie within [tol] of their mean carry the currents of the circuit laws, up to [tol] over
    the resistance. *)
Lemma split_dev bs : Forall (fun b => 0 < b_r b) bs -> forall is js v, length is = length bs -> length js = length bs ->
  Forall (fun x => x = v) (volts bs js) ->
  Rsum is - Rsum js = - Rsum (map (fun '(b, i) => (bvolt b i - v) / b_r b) (combine bs is)).
Proof.
  induction 1 as [|b bs Hb _ IH]; intros [|i is] [|j js] v L1 L2 H; try discriminate; [cbn; ring|].
  unfold volts in *. cbn [combine map Rsum] in *. apply Forall_cons_iff in H. destruct H as [E H].
  assert (X := IH is js v ltac:(auto) ltac:(auto) H).
  replace ((bvolt b i - v) / b_r b) with (j - i) by (rewrite <- E; unfold bvolt; field; lra). lra.
Qed.
Lemma exact_split bs is js v vm tol : bs <> [] -> Forall (fun b => 0 < b_r b) bs -> length is = length bs -> length js = length bs ->
  Forall (fun x => x = v) (volts bs js) -> Rsum is = Rsum js -> spread vm (volts bs is) < tol ->
  Forall (fun x => Rabs (x - v) <= 2 * tol) (volts bs is).
Proof.
  intros NE HP L1 L2 HV HI HS. assert (D := split_dev bs HP is js v L1 L2 HV). rewrite HI in D.
  assert (D0 : Rsum (map (fun '(b, i) => (bvolt b i - v) / b_r b) (combine bs is)) = 0) by lra. clear D.
  assert (NI : combine bs is <> []) by (destruct bs, is; easy).
  apply Forall_forall. intros x Hx. assert (Ex := spread_each vm _ x Hx).
  assert (P : forall y, In y (volts bs is) -> Rabs (vm - y) < tol) by (intros y Hy; assert (Q := spread_each vm _ y Hy); lra).
  apply Rabs_le. assert (Px := P x Hx).
  assert (SG : forall s, (s = 1 \/ s = -1) -> (forall y, In y (volts bs is) -> 0 < s * (y - v)) -> False).
  { intros s Hs K. assert (0 < s * Rsum (map (fun '(b, i) => (bvolt b i - v) / b_r b) (combine bs is))).
    { clear -NI HP K. revert NI HP K. unfold volts. generalize is. clear is. induction bs as [|b bs IH]; intros [|i is] NI HP K; try easy.
      apply Forall_cons_iff in HP. destruct HP as [Hb HP]. cbn [combine map Rsum] in *.
      assert (0 < s * ((bvolt b i - v) / b_r b)).
      { unfold Rdiv. rewrite <- Rmult_assoc. apply Rmult_lt_0_compat; [apply K; left; reflexivity|apply Rinv_0_lt_compat; lra]. }
      destruct (combine bs is) as [|p q] eqn:Ec; [cbn; lra|].
      assert (Y : 0 < s * Rsum (map (fun '(b, i) => (bvolt b i - v) / b_r b) (combine bs is))).
      { apply IH; [rewrite Ec; easy|auto|]. intros y Hy. apply K. right. rewrite <- Ec. exact Hy. }
      rewrite Ec in Y. lra. }
    rewrite D0 in H. lra. }
  split.
  - destruct (Rle_dec (- (2 * tol)) (x - v)); [auto|exfalso]. apply (SG (-1)); [auto|]. intros y Hy.
    assert (Py := P y Hy). unfold Rabs in *. destruct (Rcase_abs (vm - x)), (Rcase_abs (vm - y)); lra.
  - destruct (Rle_dec (x - v) (2 * tol)); [auto|exfalso]. apply (SG 1); [auto|]. intros y Hy.
    assert (Py := P y Hy). unfold Rabs in *. destruct (Rcase_abs (vm - x)), (Rcase_abs (vm - y)); lra.
Qed.
End Branches.
