(** * Voltage commands to parallel modules converge: any branch whose voltage falls with its current *)
From Coq Require Import List Lra Lia.
From Verif Require Import Base RFacts StatusModel StatusProofs CellModel ModuleModel ConvProofs VoltProofs MonoSpec MonoProofs.
Import ListNotations.
Local Open Scope R_scope.

Section Volt.
Context {Tag : Type}.
Notation rbranch := (rbranch Tag).
Context {U : Type} (o : su_ops R U) (br : U -> rbranch -> R -> Prop) (lo hi : R).
Context (HV : forall s b i, br s b i -> exists s', o_V o s = (s', Ok (n_f b i)) /\ br s' b i).
Context (HI : forall s b i, br s b i -> o_I o s = i).
Context (HS : forall s b i j, br s b i -> ncarry b j -> lo <= n_f b j <= hi ->
  exists s' st, o_setCurrent o j true s = (s', Ok st) /\ isStatusOK st = true /\ br s' b j).

Definition nsteered (v : R) (bs : list rbranch) (is : list R) : list R := map (fun '(b, i) => i - 200 * (v - n_f b i)) (combine bs is).
Definition nsteers (k v D : R) (b : rbranch) : Prop := drops k (n_f b) (n_a b) (n_b b) /\ v + D <= n_f b (n_a b) /\ n_f b (n_b b) <= v - D.

Lemma nsteered_one k v D b i : 0 <= k <= 1 -> nsteers k v D b -> ncarry b i -> near v D (n_f b i) ->
  ncarry b (i - 200 * (v - n_f b i)) /\ near v ((1 - k) * D) (n_f b (i - 200 * (v - n_f b i))).
Proof.
  intros Hk (HF & HA & HB) [I1 I2] W. unfold drops in HF. unfold near in *.
  set (x := n_f b i) in *. set (j := i - 200 * (v - x)).
  assert (Wx : - D <= v - x <= D) by (revert W; unfold Rabs; destruct (Rcase_abs (v - x)); lra). clear W.
  destruct (Rle_dec v x) as [Q|Q].
  - assert (JB : j <= n_b b).
    { destruct (HF i (n_b b)) as [_ X]; try lra. fold x in X. apply Rnot_lt_le. intros C. unfold j in C.
      assert ((2 - k) * (n_b b - i) <= (2 - k) * (200 * (x - v))) by (apply Rmult_le_compat_l; lra). nra. }
    assert (J : i <= j) by (unfold j; lra). split; [split; lra|].
    destruct (HF i j) as [X1 X2]; try lra. fold x in X1, X2. replace (j - i) with (200 * (x - v)) in X1, X2 by (unfold j; ring).
    assert (E : (1 - k) * (x - v) <= (1 - k) * D) by (apply Rmult_le_compat_l; lra). apply Rabs_le. lra.
  - assert (JB : n_a b <= j).
    { destruct (HF (n_a b) i) as [_ X]; try lra. fold x in X. apply Rnot_lt_le. intros C. unfold j in C.
      assert ((2 - k) * (i - n_a b) <= (2 - k) * (200 * (v - x))) by (apply Rmult_le_compat_l; lra). nra. }
    assert (J : j <= i) by (unfold j; lra). split; [split; lra|].
    destruct (HF j i) as [X1 X2]; try lra. fold x in X1, X2. replace (i - j) with (200 * (v - x)) in X1, X2 by (unfold j; ring).
    assert (E : (1 - k) * (v - x) <= (1 - k) * D) by (apply Rmult_le_compat_l; lra). apply Rabs_le. lra.
Qed.
Lemma nsteered_near k v D bs : 0 <= k <= 1 -> Forall (nsteers k v D) bs -> forall is, Forall2 ncarry bs is ->
  Forall (near v D) (nvolts bs is) ->
  Forall2 ncarry bs (nsteered v bs is) /\ Forall (near v ((1 - k) * D)) (nvolts bs (nsteered v bs is)).
Proof.
  intros Hk HF is K. revert HF. induction K as [|b i bs is H _ IH]; intros HF W; [split; constructor|].
  unfold nvolts, nsteered in *. cbn [combine map] in *. apply Forall_cons_iff in HF, W. destruct HF as [HF1 HF], W as [W1 W].
  destruct (IH HF W) as [A B]. destruct (nsteered_one k v D b i Hk HF1 H W1) as [A1 B1]. split; constructor; auto.
Qed.
Lemma nvadjust v l bs is : nbrs br l bs is -> Forall2 ncarry bs (nsteered v bs is) -> Forall (within lo hi) (nvolts bs (nsteered v bs is)) ->
  exists l', p_vadjust o v is (nvolts bs is) l = (l', Ok (nsteered v bs is)) /\ nbrs br l' bs (nsteered v bs is).
Proof.
  induction 1 as [|s l b bs i is H _ IH]; intros K W; [exists []; split; [reflexivity|constructor]|].
  unfold nvolts, nsteered in *. cbn [combine map p_vadjust] in *. apply Forall_cons_iff in W. destruct W as [W1 W].
  inversion K as [|? ? ? ? K1 K2]; subst.
  destruct (IH K2 W) as (l' & E & B). destruct (HS s b i _ H K1 W1) as (s' & st & E1 & _ & B1).
  match goal with |- context [o_setCurrent o ?j true s] => replace j with (i - 200 * (v - n_f b i)) end.
  2:{ rewrite !R_nlit. cbn [nadd nmul ndiv nsub RNum]. field. }
  rewrite E1, E. exists (s' :: l'). split; [reflexivity|]. constructor; auto.
Qed.
Lemma near_in v D x : lo <= v - D -> v + D <= hi -> near v D x -> within lo hi x.
Proof. intros H1 H2 H. unfold near in H. revert H. unfold Rabs, within. destruct (Rcase_abs (v - x)); lra. Qed.

Lemma nvloop k v rc bs : 0 <= k <= 1 -> length rc = length bs -> Forall (fun r => r = 0) rc -> (length bs <= 100)%nat ->
  forall it D l is, Forall (nsteers k v D) bs -> nbrs br l bs is -> 0 <= D -> lo <= v - D -> v + D <= hi -> Forall2 ncarry bs is ->
  Forall (near v D) (nvolts bs is) -> INR (length bs) * D * (1 - k) ^ it < / 10 ^ 10 ->
  exists l' is', p_vloop o (Datatypes.S it) v rc is l = (l', Ok Success) /\ nbrs br l' bs is' /\ spread v (nvolts bs is') < / 10 ^ 10.
Proof.
  intros Hk Lr Z N.
  assert (TL : nlit (A := R) 1 10000000000 = / 10 ^ 10) by (rewrite R_nlit; field).
  induction it as [|it IH]; intros D l is HF B HD Hlo Hhi K W T; destruct (nbrs_len _ _ _ _ B) as [L1 L2];
    (destruct (nVall o br HV l bs is rc B) as (l1 & E1 & B1); [lia|auto|lia|]); rewrite vloop_S, E1, TL;
    destruct (nltb (spread v (nvolts bs is)) (/ 10 ^ 10)) eqn:Es.
  - exists l1, is. apply Rltb_true in Es. repeat split; auto.
  - exfalso. apply Rltb_false in Es. assert (X := near_spread v D _ W). rewrite nvolts_len in X by auto. cbn [pow] in T. lra.
  - exists l1, is. apply Rltb_true in Es. repeat split; auto.
  - destruct (nsteered_near k v D bs Hk HF is K W) as [K' W'].
    assert (D1 : (1 - k) * D <= D). { rewrite <- (Rmult_1_l D) at 2. apply Rmult_le_compat_r; lra. }
    assert (D0 : 0 <= (1 - k) * D) by (apply Rmult_le_pos; lra).
    destruct (nvadjust v l1 bs is B1 K') as (l2 & E2 & B2).
    { eapply Forall_impl; [|exact W']. intros x. apply near_in; lra. }
    rewrite E2.
    destruct (IH ((1 - k) * D) l2 (nsteered v bs is)) as (l' & is' & E3 & B3 & S3); try lra; auto.
    { eapply Forall_impl; [|exact HF]. intros b (A1 & A2 & A3). split; [exact A1|]. lra. }
    { replace (INR (length bs) * ((1 - k) * D) * (1 - k) ^ it) with (INR (length bs) * D * (1 - k) ^ Datatypes.S it) by (cbn [pow]; ring). exact T. }
    exists l', is'. auto.
Qed.
Lemma nset_voltage k v D rc l bs is : 0 <= k <= 1 -> Forall (nsteers k v D) bs -> nbrs br l bs is -> length rc = length l ->
  Forall (fun r => r = 0) rc -> (length l <= 100)%nat -> 0 <= D -> lo <= v - D -> v + D <= hi -> Forall2 ncarry bs is ->
  Forall (near v D) (nvolts bs is) -> INR (length l) * D * (1 - k) ^ 49 < / 10 ^ 10 ->
  exists l' is', p_setVoltage o v rc l = (l', Ok Success) /\ nbrs br l' bs is' /\ spread v (nvolts bs is') < / 10 ^ 10.
Proof.
  intros Hk HF B Lr Z N HD Hlo Hhi K W T. destruct (nbrs_len _ _ _ _ B) as [L1 L2].
  unfold p_setVoltage. replace (Nat.ltb NSUs_MAX (length l)) with false by (symmetry; apply Nat.ltb_ge; apply N).
  rewrite (nbrs_I o br HI _ _ _ B). apply (nvloop k v rc bs Hk ltac:(lia) Z ltac:(lia) 49 D l is HF B HD Hlo Hhi K W). rewrite <- L1. exact T.
Qed.
End Volt.
