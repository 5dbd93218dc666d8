(** * C93 and C94 for parallel modules that hold both kinds of cells *)
From Coq Require Import List Lra Lia.
From Verif Require Import Base RFacts StatusModel StatusProofs CellModel ModuleModel SpmModel SpmUnitModel FleetModel ConvProofs ConvSpec P_Conv
  VoltProofs MonoSpec MonoProofs MonoVolt P_Mono MixSpec ModuleExamples DriveToy MonoReal.
From Verif Require P_ConvStr.
Import ListNotations.
Local Open Scope R_scope.
Notation mcell := (ecmu R + spm R)%type.

Section Mixed.
Variables (F : fns R) (tm : Z) (m M : R).
Hypothesis Hm : 0 < m.
Notation ops := (cell_ops F tm).
Definition e_ok (b : rbranch mcell) (e : ecmu R) : Prop :=
  n_t b = inl e /\ in_limits m M e /\ n_c b = p_cap (ep (u_ecm e)) /\ (forall j, n_f b j = bvolt (as_branch e) j).
Definition s_like (b : rbranch mcell) (s : spm R) : rbranch (spm R) := mkRb s (n_f b) (n_c b) (n_a b) (n_b b).
Definition mix_br (x : mcell) (b : rbranch mcell) (i : R) : Prop :=
  match x with
  | inl e => exists e0, e_ok b e0 /\ e = carrying i e0
  | inr s => exists s0, n_t b = inr s0 /\ spm_br F m M s (s_like b s0) i
  end.

Lemma mix_V x b i : mix_br x b i -> exists x', o_V ops x = (x', Ok (n_f b i)) /\ mix_br x' b i.
Proof.
  destruct x as [e|s].
  - intros (e0 & (T & L & C & Hf) & ->). destruct (cell_V m M (carrying i e0) (as_branch e0) i) as (e' & E & (_ & -> & _)).
    { split; [reflexivity|]. split; [reflexivity|exact L]. }
    exists (inl (carrying i e0)). split.
    + cbn [cell_ops sum_ops o_V both]. unfold on_l. rewrite E, Hf. reflexivity.
    + exists e0. split; [split; [exact T|]; split; [exact L|]; split; [exact C|exact Hf]|reflexivity].
  - intros (s0 & T & H). destruct (spm_br_V F tm m M s (s_like b s0) i H) as (s' & E & H').
    exists (inr s'). split; [|exists s0; auto]. cbn [cell_ops sum_ops o_V both]. unfold on_r. rewrite E. reflexivity.
Qed.
Lemma mix_I_of x b i : mix_br x b i -> o_I ops x = i.
Proof.
  destruct x as [e|s].
  - intros (e0 & _ & ->). reflexivity.
  - intros (s0 & _ & (_ & _ & _ & _ & _ & v & fl & -> & _)). reflexivity.
Qed.
Lemma mix_C_of x b i : mix_br x b i -> o_Cap ops x = n_c b.
Proof.
  destruct x as [e|s].
  - intros (e0 & (_ & _ & C & _) & ->). rewrite C. reflexivity.
  - intros (s0 & _ & (C & _ & _ & _ & _ & v & fl & -> & _)). cbn [s_like n_c n_t] in C. rewrite C. reflexivity.
Qed.
Lemma mix_set x b i j : mix_br x b i -> ncarry b j -> m <= n_f b j <= M ->
  exists x' st, o_setCurrent ops j true x = (x', Ok st) /\ isStatusOK st = true /\ mix_br x' b j.
Proof.
  destruct x as [e|s].
  - intros (e0 & (T & L & C & Hf) & ->) _ W. rewrite Hf in W.
    destruct (cell_set m M Hm (carrying i e0) (as_branch e0) i j) as (e' & st & E & S & (_ & -> & _)).
    { split; [reflexivity|]. split; [reflexivity|exact L]. } { exact W. }
    exists (inl (carrying j e0)), st. split; [|split; [exact S|exists e0; split; [split; [exact T|]; split; [exact L|]; split; [exact C|exact Hf]|reflexivity]]].
    cbn [cell_ops sum_ops o_setCurrent both]. unfold on_l. rewrite E. reflexivity.
  - intros (s0 & T & H) K W. destruct (spm_br_set F tm m M Hm s (s_like b s0) i j H K W) as (s' & st & E & S & H').
    exists (inr s'), st. split; [|split; [exact S|exists s0; auto]]. cbn [cell_ops sum_ops o_setCurrent both]. unfold on_r. rewrite E. reflexivity.
Qed.

Lemma ecm_window k e : 0 < k -> 0 < p_cap (ep (u_ecm e)) -> balances k m M e -> exists a b,
  falls k (p_cap (ep (u_ecm e))) (bvolt (as_branch e)) a b /\ M <= bvolt (as_branch e) a /\ bvolt (as_branch e) b <= m /\
  forall i, m <= bvolt (as_branch e) i <= M -> a <= i <= b.
Proof.
  intros Hk Hc (_ & HR). set (r := p_Rdc (ep (u_ecm e))) in *. set (c := p_cap (ep (u_ecm e))) in *. set (v := emf (u_ecm e)).
  assert (Hr : 0 < r). { apply Rnot_le_lt. intros X. assert (c * r <= c * 0) by (apply Rmult_le_compat_l; lra). lra. }
  assert (EB : forall x, bvolt (as_branch e) x = v - r * x) by reflexivity.
  exists ((v - M) / r), ((v - m) / r). split; [|split; [|split]].
  - intros i j _ H _. rewrite !EB. replace (c * (v - r * i - (v - r * j))) with (c * r * (j - i)) by ring.
    split; [apply Rmult_le_compat_r; lra|]. rewrite <- (Rmult_1_l (j - i)) at 2. apply Rmult_le_compat_r; lra.
  - rewrite EB. right. field. lra.
  - rewrite EB. right. field. lra.
  - intros i H. rewrite EB in H. split; apply Rmult_le_reg_r with r; try lra; unfold Rdiv; rewrite Rmult_assoc, Rinv_l by lra; lra.
Qed.

(** The branches of a list of cells. *)
Lemma mix_branches k l : 0 < k -> Forall (mix_balances F k m M) l -> Forall (mix_between F m M) l -> exists bs,
  map n_t bs = l /\ Forall (nsettling k m M) bs /\ map n_c bs = map mix_cap l /\
  nbrs mix_br l bs (map mix_I l) /\ Forall2 ncarry bs (map mix_I l) /\ Forall (within m M) (nvolts bs (map mix_I l)).
Proof.
  intros Hk. induction 1 as [|c l H _ IH]; intros W; [exists []; repeat split; constructor|].
  apply Forall_cons_iff in W. destruct W as [W1 W]. destruct (IH W) as (bs & A1 & A2 & A3 & A4 & A5 & A6).
  destruct c as [e|s].
  - destruct H as [Hc H]. destruct (ecm_window k e Hk Hc H) as (a & b & B1 & B2 & B3 & B4). destruct W1 as (v & E & W1).
    assert (EV := V_carrying e (e_I (es (u_ecm e))) (proj1 (proj1 H))). rewrite carrying_self, E in EV. injection EV as EV.
    exists (mkRb (inl e) (bvolt (as_branch e)) (p_cap (ep (u_ecm e))) a b :: bs). cbn [map n_t n_c mix_cap mix_I]. rewrite A1, A3.
    split; [reflexivity|]. split; [constructor; [split; [exact Hc|]; split; [exact B1|]; split; assumption|exact A2]|]. split; [reflexivity|].
    split; [|split; [constructor; [apply B4; lra|exact A5]|unfold nvolts in *; cbn [combine map n_f]; constructor; [unfold within; lra|exact A6]]].
    constructor; [|exact A4]. exists e. split; [|symmetry; apply carrying_self].
    split; [reflexivity|]. split; [apply H|]. split; reflexivity.
  - assert (X := balances_now F m M k s H W1). destruct X as (f & a & b & (H1 & H2 & H3 & H4 & H5 & H6 & H7 & H8 & H9) & G1 & G2).
    exists (mkRb (inr s) f (q_cap (cp s)) a b :: bs). cbn [map n_t n_c mix_cap mix_I]. rewrite A1, A3.
    split; [reflexivity|]. split; [constructor; [split; [exact H2|]; split; [exact H3|]; split; assumption|exact A2]|]. split; [reflexivity|].
    split; [|split; [constructor; auto|unfold nvolts in *; cbn [combine map n_f]; constructor; auto]].
    constructor; [|exact A4]. exists s. split; [reflexivity|].
    split; [reflexivity|]. split; [exact H1|]. split; [exact H8|]. split; [exact H9|]. split; [exact H6|].
    exists (s_V (cs s)), (c_valid s). split; [|exact H7]. destruct s as [p t ? ? ? ? ? ? ? ?]. destruct t. reflexivity.
Qed.
Lemma mix_branches_at k l (h : mcell -> R) : 0 < k -> Forall (fun c => mix_balances_at F k m M c (h c)) l -> exists bs,
  map n_t bs = l /\ Forall (nsettling k m M) bs /\ map n_c bs = map mix_cap l /\
  nbrs mix_br l bs (map mix_I l) /\ Forall2 ncarry bs (map h l) /\ Forall (within m M) (nvolts bs (map h l)).
Proof.
  intros Hk. induction 1 as [|c l H _ (bs & A1 & A2 & A3 & A4 & A5 & A6)]; [exists []; repeat split; constructor|].
  destruct c as [e|s].
  - destruct H as (Hc & H & (v & E & W1)). destruct (ecm_window k e Hk Hc H) as (a & b & B1 & B2 & B3 & B4).
    assert (EV := V_carrying e (h (inl e)) (proj1 (proj1 H))). rewrite E in EV. injection EV as EV.
    exists (mkRb (inl e) (bvolt (as_branch e)) (p_cap (ep (u_ecm e))) a b :: bs). cbn [map n_t n_c mix_cap mix_I]. rewrite A1, A3.
    split; [reflexivity|]. split; [constructor; [split; [exact Hc|]; split; [exact B1|]; split; assumption|exact A2]|]. split; [reflexivity|].
    split; [|split; [constructor; [apply B4; lra|exact A5]|unfold nvolts in *; cbn [combine map n_f]; constructor; [unfold within; lra|exact A6]]].
    constructor; [|exact A4]. exists e. split; [|symmetry; apply carrying_self].
    split; [reflexivity|]. split; [apply H|]. split; reflexivity.
  - destruct H as (f & a & b & (H1 & H2 & H3 & H4 & H5 & H6 & H7 & H8 & H9) & G1 & G2).
    exists (mkRb (inr s) f (q_cap (cp s)) a b :: bs). cbn [map n_t n_c mix_cap mix_I]. rewrite A1, A3.
    split; [reflexivity|]. split; [constructor; [split; [exact H2|]; split; [exact H3|]; split; assumption|exact A2]|]. split; [reflexivity|].
    split; [|split; [constructor; auto|unfold nvolts in *; cbn [combine map n_f]; constructor; auto]].
    constructor; [|exact A4]. exists s. split; [reflexivity|].
    split; [reflexivity|]. split; [exact H1|]. split; [exact H8|]. split; [exact H9|]. split; [exact H6|].
    exists (s_V (cs s)), (c_valid s). split; [|exact H7]. destruct s as [p t ? ? ? ? ? ? ? ?]. destruct t. reflexivity.
Qed.
Lemma mix_out l bs is : nbrs mix_br l bs is -> Forall2 mix_same (map n_t bs) l /\ map mix_I l = is /\ Forall2 (mix_reads F) l (nvolts bs is).
Proof.
  induction 1 as [|x l b bs i is H _ (IH1 & IH2 & IH3)]; [repeat split; constructor|].
  assert (V := mix_V x b i H). unfold nvolts in *. cbn [map combine]. rewrite IH2.
  destruct x as [e|s].
  - destruct H as (e0 & (T & L & C & Hf) & ->). split; [|split].
    + constructor; [|exact IH1]. rewrite T. reflexivity.
    + reflexivity.
    + constructor; [|exact IH3]. cbn [mix_reads]. rewrite Hf. apply V_carrying, L.
  - destruct H as (s0 & T & H). destruct (spm_br_V F tm m M s (s_like b s0) i H) as (s' & E & _).
    destruct H as (_ & _ & _ & _ & _ & v & fl & -> & _). split; [|split].
    + constructor; [|exact IH1]. rewrite T. exists i, v, fl. reflexivity.
    + reflexivity.
    + constructor; [|exact IH3]. exists s'. exact E.
Qed.
End Mixed.

(** Parallel cells of both kinds without contact resistance: the redistribution of the present current succeeds, leaves the
    voltages in agreement and, with equal capacities, keeps the total. *)
Theorem C93_mixed : forall F tm k m M rc l, 0 < k <= 1 -> 0 < m -> (2 <= length l <= 100)%nat ->
  length rc = length l -> Forall (fun r => r = 0) rc -> Forall (mix_balances F k m M) l -> Forall (mix_between F m M) l ->
  INR (length l) * (M - m) * (1 - k) ^ 2499 < / 10 ^ 10 ->
  exists l', p_redistribute (cell_ops F tm) rc l = (l', Ok Success) /\ mix_balanced F m M (/ 10 ^ 10) (Rsum (map mix_I l)) l l'.
Proof.
  intros F tm k m M rc l Hk Hm N Lr Z HF W. assert (Hk' : 0 <= k <= 1) by lra. intros T.
  destruct (mix_branches F m M k l (proj1 Hk) HF W) as (bs & A1 & A2 & A3 & A4 & A5 & A6).
  destruct (nredistribute (cell_ops F tm) (mix_br F m M) m M (mix_V F tm m M) (mix_I_of F tm m M) (mix_C_of F tm m M) (mix_set F tm m M Hm)
     k rc l bs _ m M Hk' A2 A4 Lr Z N (Rle_refl m) (Rle_refl M) A5 A6 T) as (l' & is' & E & B & K & W' & S & Q).
  exists l'. split; [exact E|]. destruct (mix_out F tm m M l' bs is' B) as (O1 & O2 & O3). rewrite A1 in O1. split; [exact O1|]. split; [|split].
  - clear -O3 W'. revert W'. induction O3 as [|x v l vs H _ IH]; intros W; constructor; apply Forall_cons_iff in W; [|apply IH, W].
    destruct W as [W _]. destruct x as [e|s]; [exists v; auto|]. destruct H as [d H]. exists d, v. auto.
  - eexists _, _. split; [exact O3|]. rewrite spread_R in S. exact S.
  - intros c Hc. rewrite O2. apply (Q c). clear -A1 A3 Hc. subst l. rewrite Forall_map in Hc.
    revert A3. induction Hc as [|b bs X _ IH]; intros Y; constructor; injection Y as Y1 Y2; [congruence|auto].
Qed.
Print Assumptions C93_mixed.

(** Commanding a current to parallel cells of both kinds, if equal shares of the change keep every cell between the bounds. *)
Theorem C93_mixed_setCurrent : forall F tm k m M rc l Inew, 0 < k <= 1 -> 0 < m -> (1 <= length l <= 100)%nat ->
  length rc = length l -> Forall (fun r => r = 0) rc ->
  Forall (fun c => mix_balances_at F k m M c (mix_I c + (Inew - Rsum (map mix_I l)) / INR (length l))) l ->
  INR (length l) * (M - m) * (1 - k) ^ 10549 < / 10 ^ 9 ->
  exists l', p_setCurrent (cell_ops F tm) Inew rc l = (l', Ok Success) /\ mix_balanced F m M (/ 10 ^ 9) Inew l l'.
Proof.
  intros F tm k m M rc l Inew Hk Hm N Lr Z HF. assert (Hk' : 0 <= k <= 1) by lra. intros T.
  destruct (mix_branches_at F m M k l _ (proj1 Hk) HF) as (bs & A1 & A2 & A3 & A4 & A5 & A6).
  rewrite <- (map_map mix_I (fun i => i + (Inew - Rsum (map mix_I l)) / INR (length l))) in A5, A6.
  destruct (nset_current (cell_ops F tm) (mix_br F m M) m M (mix_V F tm m M) (mix_I_of F tm m M) (mix_C_of F tm m M) (mix_set F tm m M Hm)
     k rc l bs _ m M Inew Hk' A2 A4 Lr Z N (Rle_refl m) (Rle_refl M) A5 A6 T) as (l' & is' & E & B & K & W' & S & Q).
  exists l'. split; [exact E|]. destruct (mix_out F tm m M l' bs is' B) as (O1 & O2 & O3). rewrite A1 in O1. split; [exact O1|]. split; [|split].
  - clear -O3 W'. revert W'. induction O3 as [|x v l vs H _ IH]; intros W; constructor; apply Forall_cons_iff in W; [|apply IH, W].
    destruct W as [W _]. destruct x as [e|s]; [exists v; auto|]. destruct H as [d H]. exists d, v. auto.
  - eexists _, _. split; [exact O3|]. rewrite spread_R in S. exact S.
  - intros c Hc. rewrite O2. apply (Q c). clear -A1 A3 Hc. subst l. rewrite Forall_map in Hc.
    revert A3. induction Hc as [|b bs X _ IH]; intros Y; constructor; injection Y as Y1 Y2; [congruence|auto].
Qed.
Print Assumptions C93_mixed_setCurrent.

(** Commanding a voltage to parallel cells of both kinds. *)
Theorem C94_mixed : forall F tm k v D rc l, 0 < k <= 1 -> 0 <= D < v -> (length l <= 100)%nat -> length rc = length l ->
  Forall (fun r => r = 0) rc -> Forall (mix_steers F k v D) l -> Forall (mix_between F (v - D) (v + D)) l ->
  INR (length l) * D * (1 - k) ^ 49 < / 10 ^ 10 ->
  exists l', p_setVoltage (cell_ops F tm) v rc l = (l', Ok Success) /\ Forall2 mix_same l l' /\
    Forall (mix_between F (v - / 10 ^ 10) (v + / 10 ^ 10)) l'.
Proof.
  intros F tm k v D rc l Hk HD N Lr Z HF W T.
  assert (A : exists bs, map n_t bs = l /\ Forall (nsteers k v D) bs /\ nbrs (mix_br F (v - D) (v + D)) l bs (map mix_I l) /\
     Forall2 ncarry bs (map mix_I l) /\ Forall (near v D) (nvolts bs (map mix_I l))).
  { clear -HF W Hk. revert W. induction HF as [|c l H _ IH]; intros W; [exists []; repeat split; constructor|].
    apply Forall_cons_iff in W. destruct W as [W1 W]. destruct (IH W) as (bs & A1 & A2 & A3 & A4 & A5).
    destruct c as [e|s].
    - destruct H as [HL HR]. destruct W1 as (x & E & W1).
      assert (EV := V_carrying e (e_I (es (u_ecm e))) (proj1 HL)). rewrite carrying_self, E in EV. injection EV as EV.
      set (r := p_Rdc (ep (u_ecm e))) in *. set (o := emf (u_ecm e)). assert (Hr : 0 < r) by lra.
      assert (EB : forall y, bvolt (as_branch e) y = o - r * y) by reflexivity.
      exists (mkRb (inl e) (bvolt (as_branch e)) (p_cap (ep (u_ecm e))) ((o - (v + D)) / r) ((o - (v - D)) / r) :: bs).
      cbn [map n_t mix_I]. rewrite A1. split; [reflexivity|]. split; [|split; [|split]].
      + constructor; [|exact A2]. split; [|cbn [n_f n_a n_b]; rewrite !EB; split; right; field; lra].
        cbn [n_f n_a n_b]. intros i j _ Hij _. rewrite !EB. replace (200 * (o - r * i - (o - r * j))) with (200 * r * (j - i)) by ring.
        split; apply Rmult_le_compat_r; lra.
      + constructor; [|exact A3]. exists e. split; [|symmetry; apply carrying_self].
        split; [reflexivity|]. split; [exact HL|]. split; reflexivity.
      + constructor; [|exact A4]. unfold ncarry. cbn [n_a n_b]. rewrite EB in EV. set (i := e_I (es (u_ecm e))) in *.
        assert (X1 : (o - (v + D)) / r * r = o - (v + D)) by (field; lra). assert (X2 : (o - (v - D)) / r * r = o - (v - D)) by (field; lra).
        split; apply Rmult_le_reg_r with r; try lra; rewrite ?X1, ?X2; lra.
      + unfold nvolts in *. cbn [combine map n_f]. constructor; [|exact A5]. unfold near. apply Rabs_le. lra.
    - destruct H as (f & a & b & H1 & H2 & H3 & H4 & H5 & H6 & H7 & H8).
      assert (Es : s = held_at s (s_I (cs s)) (s_V (cs s)) (c_valid s)) by (destruct s as [p t ? ? ? ? ? ? ? ?]; destruct t; reflexivity).
      destruct W1 as (d & x & E & W1). rewrite Es, (held_V F s _ _ _ _ (H1 _ H5) H6) in E. injection E as _ E.
      exists (mkRb (inr s) f (q_cap (cp s)) a b :: bs). cbn [map n_t mix_I]. rewrite A1. split; [reflexivity|]. split; [|split; [|split]].
      + constructor; [split; [exact H2|split; assumption]|exact A2].
      + constructor; [|exact A3]. exists s. split; [reflexivity|].
        split; [reflexivity|]. split; [exact H1|]. split; [exact H7|]. split; [exact H8|]. split; [exact H5|].
        exists (s_V (cs s)), (c_valid s). split; [exact Es|exact H6].
      + constructor; [exact H5|exact A4].
      + unfold nvolts in *. cbn [combine map n_f]. constructor; [|exact A5]. unfold near. apply Rabs_le. lra. }
  destruct A as (bs & A1 & A2 & A3 & A4 & A5).
  destruct (nset_voltage (cell_ops F tm) (mix_br F (v - D) (v + D)) (v - D) (v + D) (mix_V F tm (v - D) (v + D)) (mix_I_of F tm (v - D) (v + D))
     (mix_set F tm (v - D) (v + D) ltac:(clear T; lra)) k v D rc l bs _ ltac:(clear T; lra) A2 A3 Lr Z N (proj1 HD) (Rle_refl _) (Rle_refl _) A4 A5 T)
    as (l' & is' & E & B & S).
  exists l'. split; [exact E|]. destruct (mix_out F tm _ _ l' bs is' B) as (O1 & _ & O3). rewrite A1 in O1. split; [exact O1|].
  rewrite spread_R in S. revert O3 S. generalize (nvolts bs is') as vs. generalize (/ 10 ^ 10). clear.
  intros q vs V. induction V as [|c x l vs H _ IH]; intros S; constructor; cbn [map Rsum] in S;
    assert (P : 0 <= Rsum (map (fun x => Rabs (v - x)) vs)) by (apply Rsum_nonneg, Forall_map, Forall_forall; intros; apply Rabs_pos);
    assert (P1 : 0 <= Rabs (v - x)) by apply Rabs_pos.
  - assert (X : v - q <= x <= v + q).
    { revert S P. generalize (Rsum (map (fun x => Rabs (v - x)) vs)). intros r S P. revert S. unfold Rabs. destruct (Rcase_abs (v - x)); lra. }
    destruct c as [e|s]; [exists x; auto|]. destruct H as [d H]. exists d, x. auto.
  - apply IH. lra.
Qed.
Print Assumptions C94_mixed.

(** A time step of a parallel module of both kinds completes. *)
Theorem C93_mixed_timeStep : forall F tmc tm k lo hi dt n m l1, m_series (mm m) = false -> m_top (mm m) = false -> 0 <= dt ->
  Forall2 (fun c d => o_timeStep (cell_ops F tmc) dt n c = (d, Ok tt)) (ms m) l1 ->
  1 / 40 <= k <= 1 -> 0 < lo -> lo <= hi <= lo + 1000 -> (2 <= length l1 <= 100)%nat -> length (m_rc (mm m)) = length l1 ->
  Forall (fun r => r = 0) (m_rc (mm m)) -> Forall (mix_balances F k lo hi) l1 -> Forall (mix_between F lo hi) l1 ->
  exists m', mod_timeStep (cell_ops F tmc) tm dt n m = (m', Ok tt) /\ mix_balanced F lo hi (/ 10 ^ 10) (Rsum (map mix_I l1)) l1 (ms m').
Proof.
  intros F tmc tm k lo hi dt n m l1 Hs Ht Hd HF2 Hk Hlo Hhi N Lr Z HF W.
  destruct (C93_mixed F tmc k lo hi _ l1 ltac:(lra) Hlo N Lr Z HF W) as (l' & E & Q).
  { apply iterations_suffice; [exact Hk|exact (proj2 N)|lra]. }
  assert (EC : exists us, each (o_timeStep (cell_ops F tmc) dt n) (ms m) = (l1, Ok us)).
  { clear -HF2. induction HF2 as [|c d lc ld H _ [us IH]]; [exists []; reflexivity|]. cbn [each]. rewrite H, IH. eexists. reflexivity. }
  destruct EC as [us EC].
  unfold mod_timeStep. replace (nltb dt (nZ 0)) with false by (symmetry; apply Rltb_false; rewrite R_nZ; lra).
  unfold step_children. rewrite EC. unfold mod_heat_step. cbn [mm ms]. rewrite Hs, Ht.
  destruct (m_block (mm m)); cbn [mm ms inval set_V set_cool ModuleModel.set_therm m_rc]; rewrite E; cbn [status_eqb];
    eexists; (split; [reflexivity|exact Q]).
Qed.
Print Assumptions C93_mixed_timeStep.

(** A full default cell of 200 Ah beside a physics-based cell with overpotentials. *)
Example C93_mixed_inhabited : let l := [inl (ex_cell 200 1 200); inr (tiny (1 / 10))] in
  Forall (mix_balances realF (1 / 4) 2 4) l /\ Forall (mix_between realF 2 4) l /\
  INR (length l) * (4 - 2) * (1 - 1 / 4) ^ 2499 < / 10 ^ 10.
Proof.
  cbv zeta. destruct tiny_window as (f & F0 & FF & HW). destruct (full_par 200 200) as (E1 & E2 & E3 & E4).
  assert (X1 := FF 0 (1 / 10) ltac:(lra) ltac:(lra) ltac:(lra)). rewrite F0 in X1.
  split; [|split; [|apply iterations_suffice; [lra|cbn; lia|lra]]]; repeat apply Forall_cons; try apply Forall_nil.
  - cbn [mix_balances]. split; [rewrite E1; lra|]. split; [split; [eexists; apply full_OCV|]; rewrite E3, E4; unfold chi; lra|]. rewrite E1, E2. lra.
  - destruct (HW (1 / 10) ltac:(lra)) as (H1 & H2 & H3 & H). exists f, (-7 / 10), (7 / 10). split; [exact H1|]. split; [exact H2|]. split; [|exact H].
    intros i j Hi Hij Hj. destruct (H3 i j Hi Hij Hj). lra.
  - cbn [mix_between]. eexists. split; [apply full_V|]. unfold chi. lra.
  - destruct (proj1 (HW (1 / 10) ltac:(lra)) (1 / 10) ltac:(lra)) as (_ & d & E). exists d, (f (1 / 10)). split; [exact E|lra].
Qed.

Example C93_mixed_setCurrent_inhabited : let l := [inl (ex_cell 200 1 200); inr (tiny (1 / 10))] in let I := 200 + 3 / 10 in
  Forall (fun c => mix_balances_at realF (1 / 4) 2 4 c (mix_I c + (I - Rsum (map mix_I l)) / INR (length l))) l /\
  INR (length l) * (4 - 2) * (1 - 1 / 4) ^ 10549 < / 10 ^ 9.
Proof.
  cbv zeta. destruct tiny_window as (f & F0 & FF & HW). destruct (full_par 200 200) as (E1 & E2 & E3 & E4).
  assert (X1 := FF 0 (2 / 10) ltac:(lra) ltac:(lra) ltac:(lra)). rewrite F0 in X1.
  split.
  - cbn [map mix_I Rsum length INR]. change (e_I (es (u_ecm (ex_cell 200 1 200)))) with 200. change (s_I (cs (tiny (1 / 10)))) with (1 / 10).
    replace ((200 + 3 / 10 - (200 + (1 / 10 + 0))) / (1 + 1)) with (1 / 10) by field.
    repeat apply Forall_cons; try apply Forall_nil; cbn [mix_balances_at mix_I].
    + change (e_I (es (u_ecm (ex_cell 200 1 200)))) with 200. split; [rewrite E1; lra|].
      split; [split; [split; [eexists; apply full_OCV|]; rewrite E3, E4; unfold chi; lra|]; rewrite E1, E2; lra|].
      exists (chi - 2 / 1000 * (200 + 1 / 10)). split; [exact (full_V 200 (200 + 1 / 10))|unfold chi; lra].
    + change (s_I (cs (tiny (1 / 10)))) with (1 / 10). replace (1 / 10 + 1 / 10) with (2 / 10) by field.
      destruct (HW (1 / 10) ltac:(lra)) as (H1 & H2 & H3 & H). exists f, (-7 / 10), (7 / 10). split; [|lra]. split; [exact H1|]. split; [exact H2|]. split; [|exact H].
      intros i j Hi Hij Hj. destruct (H3 i j Hi Hij Hj). lra.
  - apply P_ConvStr.more_iterations; [lra|lra|]. apply iterations_suffice; [lra|cbn; lia|lra].
Qed.

Example C94_mixed_inhabited : let l := [inl (ex_cell 10 1 645); inr (soft (-10))] in
  Forall (mix_steers plainF (2 / 5) 3 (1 / 10)) l /\ Forall (mix_between plainF (3 - 1 / 10) (3 + 1 / 10)) l /\
  INR (length l) * (1 / 10) * (1 - 2 / 5) ^ 49 < / 10 ^ 10.
Proof.
  cbv zeta. destruct (full_par 10 645) as (E1 & E2 & E3 & E4). split; [|split].
  - repeat apply Forall_cons; try apply Forall_nil; cbn [mix_steers].
    + split; [split; [eexists; apply full_OCV|]; rewrite E3, E4; unfold chi; lra|]. rewrite E2. lra.
    + exists (fun j => 301 / 100 - 1 / 400 * j), (-60), 60;
        (split; [intros j Hj; apply soft_shows; lra|]); unfold drops; cbn [soft cp quarter_par q_lim l_VMIN l_VMAX cs s_I c_valid];
        (split; [intros; lra|]; split; [lra|]; split; [lra|]; split; [lra|]; split; [discriminate|]; lra).
  - repeat apply Forall_cons; try apply Forall_nil; cbn [mix_between].
    + eexists. split; [apply full_V|]. unfold chi. lra.
    + destruct (soft_shows (-10) (-10) ltac:(lra)) as (_ & d & E). exists d; eexists; (split; [exact E|lra]).
  - cbn [length INR]. lra.
Qed.
