(** * C93 for physics-based cells: parallel modules settle if every voltage falls with the current *)
From Coq Require Import List Lra Lia.
From Verif Require Import Base RFacts StatusModel StatusProofs CellModel ModuleModel SpmModel SpmUnitModel ConvProofs VoltProofs MonoSpec MonoProofs MonoVolt MonoSecant PhysSpec PhysProofs PhysToy
  ConvSpec P_Conv DriveToy MonoReal.
Import ListNotations.
Local Open Scope R_scope.

Section Cells.
Variables (F : fns R) (tm : Z) (m M : R).
Hypothesis Hm : 0 < m.
Definition held_at (t : spm R) (i v : R) (fl : bool) : spm R := set_valid (set_st t (st_V (st_I (cs t) i) v)) fl.
Definition spm_br (s : spm R) (b : rbranch (spm R)) (i : R) : Prop :=
  n_c b = q_cap (cp (n_t b)) /\ (forall j, n_a b <= j <= n_b b -> shows F (n_t b) j (n_f b j)) /\
  l_VMIN (q_lim (cp (n_t b))) <= m /\ M <= l_VMAX (q_lim (cp (n_t b))) /\ ncarry b i /\
  exists v fl, s = held_at (n_t b) i v fl /\ (fl = true -> v = n_f b i).

Lemma calcV_held t i v fl : calcV F (held_at t i v fl) = calcV F (spm_at i t).
Proof. reflexivity. Qed.
Lemma shows_calc t i x : shows F t i x -> calcV F (spm_at i t) = Ok (Some x).
Proof.
  intros (P & d & E). unfold spm_V in E. cbn [spm_at set_valid c_valid] in E. fold (spm_at i t) in E.
  destruct (calcV F (spm_at i t)) as [[y|]|n| |]; injection E; intros; try discriminate.
  - subst. reflexivity.
  - exfalso. subst x. cbn in P. lra.
Qed.
Lemma held_V t i v fl x : shows F t i x -> (fl = true -> v = x) -> spm_V F (held_at t i v fl) = (held_at t i x true, Ok x).
Proof.
  intros H Hv. unfold spm_V. destruct fl.
  - rewrite (Hv eq_refl). reflexivity.
  - cbn [held_at set_valid c_valid]. fold (held_at t i v false). rewrite calcV_held, (shows_calc _ _ _ H). reflexivity.
Qed.
Lemma spm_br_V s b i : spm_br s b i -> exists s', o_V (spm_ops F tm) s = (s', Ok (n_f b i)) /\ spm_br s' b i.
Proof.
  intros (H1 & H2 & H3 & H4 & H5 & v & fl & -> & Hv). exists (held_at (n_t b) i (n_f b i) true). split.
  - apply (held_V _ _ _ _ _ (H2 i H5) Hv).
  - repeat split; auto; try apply H5; try (apply H2; auto). eexists _, _. split; [reflexivity|auto].
Qed.
Lemma spm_br_set s b i j : spm_br s b i -> ncarry b j -> m <= n_f b j <= M ->
  exists s' st, o_setCurrent (spm_ops F tm) j true s = (s', Ok st) /\ isStatusOK st = true /\ spm_br s' b j.
Proof.
  intros (H1 & H2 & H3 & H4 & H5 & v & fl & -> & Hv) Hj W. cbn [spm_ops o_setCurrent]. unfold spm_setCurrent.
  change (set_valid (set_st (held_at (n_t b) i v fl) (st_I (cs (held_at (n_t b) i v fl)) j)) false) with (held_at (n_t b) j v false).
  unfold spm_checkCurrent, spm_checkVoltage. rewrite (held_V _ _ _ _ _ (H2 j Hj)) by discriminate.
  set (x := n_f b j) in *.
  assert (CK : exists st, rmap snd (check_voltage (Ok x) (q_lim (cp (held_at (n_t b) j v false))) (s_I (cs (held_at (n_t b) j v false)))) = Ok st
     /\ isStatusOK st = true).
  { unfold check_voltage. cbn [rmap rbind snd held_at set_valid set_st cp].
    replace (nleb x (nZ 0)) with false by (symmetry; apply Rleb_false; rewrite R_nZ; lra).
    replace (nltb x (l_VMIN (q_lim (cp (n_t b))))) with false by (symmetry; apply Rltb_false; lra).
    replace (nltb (l_VMAX (q_lim (cp (n_t b)))) x) with false by (symmetry; apply Rltb_false; lra).
    cbn [andb]. eexists. split; [reflexivity|].
    repeat match goal with |- context [if ?z then _ else _] => destruct z end; reflexivity. }
  destruct CK as (st & E & S). rewrite E. unfold isStatusBad. rewrite S. cbn [negb].
  eexists _, st. split; [reflexivity|]. split; [exact S|].
  split; [exact H1|]. split; [exact H2|]. split; [exact H3|]. split; [exact H4|]. split; [exact Hj|].
  eexists _, _. split; [reflexivity|auto].
Qed.

(** The branches of a list of cells. *)
Lemma branches_at k l (h : spm R -> R) : Forall (fun c => spm_balances_at F k m M c (h c)) l -> exists bs,
  map n_t bs = l /\ Forall (nsettling k m M) bs /\ map n_c bs = map (fun c => q_cap (cp c)) l /\
  nbrs spm_br l bs (map (fun c => s_I (cs c)) l) /\ Forall2 ncarry bs (map h l) /\ Forall (within m M) (nvolts bs (map h l)).
Proof.
  induction 1 as [|c l (f & a & b & (H1 & H2 & H3 & H4 & H5 & H6 & H7 & H8 & H9) & G1 & G2) _ (bs & A1 & A2 & A3 & A4 & A5 & A6)].
  - exists []. repeat split; constructor.
  - exists (mkRb c f (q_cap (cp c)) a b :: bs). cbn [map n_t n_c]. rewrite A1, A3.
    split; [reflexivity|]. split; [constructor; [repeat split; auto; apply H3; auto|auto]|]. split; [reflexivity|].
    split; [|split; [constructor; auto|unfold nvolts in *; cbn [combine map n_f]; constructor; auto]]. constructor; [|exact A4].
    split; [reflexivity|]. split; [exact H1|]. split; [exact H8|]. split; [exact H9|]. split; [exact H6|].
    exists (s_V (cs c)), (c_valid c). split; [|exact H7]. destruct c as [p s ? ? ? ? ? ? ? ?]. destruct s. reflexivity.
Qed.
Lemma balances_now k c : spm_balances F k m M c -> spm_between F m M c -> spm_balances_at F k m M c (s_I (cs c)).
Proof.
  intros (f & a & b & H) (d & v & E & W). exists f, a, b. split; [exact H|].
  destruct H as (H1 & _ & _ & _ & _ & H6 & H7 & _). split; [exact H6|].
  assert (X : spm_V F c = (held_at c (s_I (cs c)) (f (s_I (cs c))) true, Ok (f (s_I (cs c))))).
  { rewrite <- (held_V c _ (s_V (cs c)) (c_valid c) _ (H1 _ H6) H7). f_equal. destruct c as [p s ? ? ? ? ? ? ? ?]. destruct s. reflexivity. }
  rewrite X in E. injection E as _ <-. exact W.
Qed.
Lemma branch_V l bs is : nbrs spm_br l bs is -> Forall2 (fun c x => exists d, spm_V F c = (d, Ok x)) l (nvolts bs is).
Proof.
  induction 1 as [|s l b bs i is H _ IH]; unfold nvolts in *; cbn [combine map]; constructor; auto.
  destruct (spm_br_V s b i H) as (s' & E & _). exists s'. exact E.
Qed.
Lemma branch_same l bs is : nbrs spm_br l bs is -> Forall2 spm_same (map n_t bs) l /\ map (fun c => s_I (cs c)) l = is.
Proof.
  induction 1 as [|s l b bs i is (_ & _ & _ & _ & _ & v & fl & -> & _) _ [IH1 IH2]]; split; try constructor; auto.
  - exists i, v, fl. reflexivity.
  - cbn. rewrite IH2. reflexivity.
Qed.
Lemma spm_done tol I l l' bs is : map n_t bs = l -> map n_c bs = map (fun c => q_cap (cp c)) l -> nbrs spm_br l' bs is ->
  Forall (within m M) (nvolts bs is) -> spread (vmean (nvolts bs is)) (nvolts bs is) < tol ->
  (forall c, Forall (fun b => n_c b = c) bs -> Rsum is = I) -> spm_balanced F m M tol I l l'.
Proof.
  intros <- Ec B W S T. destruct (branch_same _ _ _ B) as [Q1 Q2]. assert (V := branch_V _ _ _ B). split; [exact Q1|]. split; [|split].
  - clear -V W. revert W. induction V as [|c x l0 vs (d & E) _ IH]; intros W; constructor; apply Forall_cons_iff in W.
    + exists d, x. split; [exact E|apply W].
    + apply IH, W.
  - eexists _, _. split; [exact V|]. rewrite spread_R in S. exact S.
  - intros c Hc. unfold spm_total. rewrite Q2. apply (T c). clear -Ec Hc. rewrite Forall_map in Hc.
    revert Ec. induction Hc as [|b bs E _ IH]; intros Ec; constructor; injection Ec as E1 E2; [congruence|auto].
Qed.
End Cells.

(** Parallel physics-based cells without contact resistance whose voltages fall with the current, capacity times slope
    between [k] and 1: the redistribution of the present current succeeds and leaves the voltages in agreement. *)
Theorem C93_spm : forall F tm k m M rc l, 0 <= k <= 1 -> 0 < m -> (2 <= length l <= 100)%nat ->
  length rc = length l -> Forall (fun r => r = 0) rc -> Forall (spm_balances F k m M) l -> Forall (spm_between F m M) l ->
  INR (length l) * (M - m) * (1 - k) ^ 2499 < / 10 ^ 10 ->
  exists l', p_redistribute (spm_ops F tm) rc l = (l', Ok Success) /\ spm_balanced F m M (/ 10 ^ 10) (spm_total l) l l'.
Proof.
  intros F tm k m M rc l Hk Hm N Lr Z HF W T.
  destruct (branches_at F m M k l (fun c => s_I (cs c))) as (bs & A1 & A2 & A3 & A4 & A5 & A6).
  { clear -HF W. induction W; constructor; apply Forall_cons_iff in HF; [apply balances_now; [apply HF|auto]|apply IHW, HF]. }
  destruct (nredistribute (spm_ops F tm) (spm_br F m M) m M (spm_br_V F tm m M)
     ltac:(intros s b i (_ & _ & _ & _ & _ & v & fl & -> & _); reflexivity)
     ltac:(intros s b i (E & _ & _ & _ & _ & v & fl & -> & _); rewrite E; reflexivity)
     (spm_br_set F tm m M Hm) k rc l bs _ m M Hk A2 A4 Lr Z N (Rle_refl m) (Rle_refl M) A5 A6 T)
    as (l' & is' & E & B & K & W' & S & Q).
  exists l'. split; [exact E|]. eapply spm_done; eauto.
Qed.
Print Assumptions C93_spm.

(** Commanding a current: if sharing the change equally keeps every cell between the bounds, the command succeeds and, with
    equal capacities, delivers the commanded total. *)
Theorem C93_spm_setCurrent : forall F tm k m M rc l Inew, 0 <= k <= 1 -> 0 < m -> (1 <= length l <= 100)%nat ->
  length rc = length l -> Forall (fun r => r = 0) rc ->
  Forall (fun c => spm_balances_at F k m M c (s_I (cs c) + (Inew - spm_total l) / INR (length l))) l ->
  INR (length l) * (M - m) * (1 - k) ^ 10549 < / 10 ^ 9 ->
  exists l', p_setCurrent (spm_ops F tm) Inew rc l = (l', Ok Success) /\ spm_balanced F m M (/ 10 ^ 9) Inew l l'.
Proof.
  intros F tm k m M rc l Inew Hk Hm N Lr Z HF T.
  destruct (branches_at F m M k l _ HF) as (bs & A1 & A2 & A3 & A4 & A5 & A6).
  rewrite <- (map_map (fun c => s_I (cs c)) (fun i => i + (Inew - spm_total l) / INR (length l))) in A5, A6.
  destruct (nset_current (spm_ops F tm) (spm_br F m M) m M (spm_br_V F tm m M)
     ltac:(intros s b i (_ & _ & _ & _ & _ & v & fl & -> & _); reflexivity)
     ltac:(intros s b i (E & _ & _ & _ & _ & v & fl & -> & _); rewrite E; reflexivity)
     (spm_br_set F tm m M Hm) k rc l bs _ m M Inew Hk A2 A4 Lr Z N (Rle_refl m) (Rle_refl M) A5 A6 T)
    as (l' & is' & E & B & K & W' & S & Q).
  exists l'. split; [exact E|]. eapply spm_done; eauto.
Qed.
Print Assumptions C93_spm_setCurrent.

(** The result is the split of the circuit laws: compare it with currents of the same total at which all cells show one
    voltage. *)
Theorem C93_spm_split : forall F tm k m M rc l c js v, 0 <= k <= 1 -> 0 < m -> (2 <= length l <= 100)%nat ->
  length rc = length l -> Forall (fun r => r = 0) rc -> Forall (fun x => q_cap (cp x) = c) l ->
  spm_ideal F k m M v l js -> Rsum js = spm_total l -> Forall (spm_between F m M) l ->
  INR (length l) * (M - m) * (1 - k) ^ 2499 < / 10 ^ 10 ->
  exists l', p_redistribute (spm_ops F tm) rc l = (l', Ok Success) /\ spm_balanced F m M (/ 10 ^ 10) (spm_total l) l l' /\
    Forall2 (fun d j => k * Rabs (s_I (cs d) - j) <= 2 * c * / 10 ^ 10) l' js.
Proof.
  intros F tm k m M rc l c js v Hk Hm N Lr Z HC HJ HT W T.
  assert (A : exists bs, map n_t bs = l /\ Forall (nsettling k m M) bs /\ map n_c bs = map (fun x => q_cap (cp x)) l /\
     nbrs (spm_br F m M) l bs (map (fun x => s_I (cs x)) l) /\ Forall2 ncarry bs (map (fun x => s_I (cs x)) l) /\
     Forall2 ncarry bs js /\ Forall (fun x => x = v) (nvolts bs js)).
  { clear -HJ. induction HJ as [|x j l js (f & a & b & (H1 & H2 & H3 & H4 & H5 & H6 & H7 & H8 & H9) & G1 & G2) _ (bs & A1 & A2 & A3 & A4 & A5 & A6 & A7)].
    - exists []. repeat split; constructor.
    - exists (mkRb x f (q_cap (cp x)) a b :: bs). cbn [map n_t n_c]. rewrite A1, A3.
      split; [reflexivity|]. split; [constructor; [repeat split; auto; apply H3; auto|auto]|]. split; [reflexivity|].
      split; [|split; [constructor; auto|split; [constructor; auto|unfold nvolts in *; cbn [combine map n_f]; constructor; auto]]].
      constructor; [|exact A4]. split; [reflexivity|]. split; [exact H1|]. split; [exact H8|]. split; [exact H9|]. split; [exact H6|].
      exists (s_V (cs x)), (c_valid x). split; [|exact H7]. destruct x as [p s ? ? ? ? ? ? ? ?]. destruct s. reflexivity. }
  destruct A as (bs & A1 & A2 & A3 & A4 & A5 & A6 & A7).
  assert (W0 : Forall (within m M) (nvolts bs (map (fun x => s_I (cs x)) l))).
  { assert (V := branch_V F tm _ _ _ _ _ A4). revert V. generalize (nvolts bs (map (fun x => s_I (cs x)) l)). clear -W. intros vs V.
    induction V as [|x y l vs (d & E) _ IH]; constructor; apply Forall_cons_iff in W; [|apply IH, W].
    destruct W as [(d' & z & E' & W) _]. rewrite E in E'. injection E' as _ <-. exact W. }
  destruct (nredistribute (spm_ops F tm) (spm_br F m M) m M (spm_br_V F tm m M)
     ltac:(intros s b i (_ & _ & _ & _ & _ & x & fl & -> & _); reflexivity)
     ltac:(intros s b i (E & _ & _ & _ & _ & x & fl & -> & _); rewrite E; reflexivity)
     (spm_br_set F tm m M Hm) k rc l bs _ m M Hk A2 A4 Lr Z N (Rle_refl m) (Rle_refl M) A5 W0 T)
    as (l' & is' & E & B & K & W' & S & Q).
  exists l'. split; [exact E|]. split; [eapply spm_done; eauto|].
  assert (CB : Forall (fun b => n_c b = c) bs).
  { clear -A1 A3 HC. subst l. rewrite Forall_map in HC. revert A3. induction HC as [|b bs X _ IH]; intros Y; constructor; injection Y as Y1 Y2; [congruence|auto]. }
  assert (NE : bs <> []) by (intros ->; cbn in A1; subst l; cbn in N; lia).
  assert (C0 : 0 < c).
  { clear -NE CB A2. destruct bs as [|b bs]; [easy|]. apply Forall_cons_iff in CB, A2. destruct CB as [<- _], A2 as [[X _] _]. exact X. }
  assert (X := nexact k c v _ _ bs is' js (proj1 Hk) C0 NE
     ltac:(clear -A2 CB; induction CB as [|b bs X _ IH]; constructor; apply Forall_cons_iff in A2; [rewrite <- X; apply A2|apply IH, A2])
     K A6 A7 ltac:(rewrite (Q c CB), HT; reflexivity) S).
  destruct (branch_same _ _ _ _ _ _ B) as [_ EI]. rewrite <- EI in X. revert X. clear. revert js.
  induction l' as [|d l' IH]; intros js X; cbn [map] in X; inversion X as [|? j ? js' X1 X2]; subst; constructor; auto.
Qed.
Print Assumptions C93_spm_split.

(** So a time step of a parallel module of such cells completes. *)
Theorem C93_spm_timeStep : forall F tmc tm k lo hi dt n m l1, m_series (mm m) = false -> m_top (mm m) = false -> 0 <= dt ->
  Forall2 (fun c d => spm_timeStep_CC F tmc dt n c = (d, Ok tt)) (ms m) l1 ->
  1 / 40 <= k <= 1 -> 0 < lo -> lo <= hi <= lo + 1000 -> (2 <= length l1 <= 100)%nat -> length (m_rc (mm m)) = length l1 ->
  Forall (fun r => r = 0) (m_rc (mm m)) -> Forall (spm_balances F k lo hi) l1 -> Forall (spm_between F lo hi) l1 ->
  exists m', mod_timeStep (spm_ops F tmc) tm dt n m = (m', Ok tt) /\ spm_balanced F lo hi (/ 10 ^ 10) (spm_total l1) l1 (ms m').
Proof.
  intros F tmc tm k lo hi dt n m l1 Hs Ht Hd HF2 Hk Hlo Hhi N Lr Z HF W.
  destruct (C93_spm F tmc k lo hi _ l1 ltac:(lra) Hlo N Lr Z HF W) as (l' & E & Q).
  { apply iterations_suffice; [exact Hk|lia|lra]. }
  assert (EC : exists us, each (o_timeStep (spm_ops F tmc) dt n) (ms m) = (l1, Ok us)).
  { clear -HF2. induction HF2 as [|c d lc ld H _ [us IH]]; [exists []; reflexivity|]. cbn [each]. cbn [spm_ops o_timeStep] in *. rewrite H, IH. eexists. reflexivity. }
  destruct EC as [us EC].
  unfold mod_timeStep. replace (nltb dt (nZ 0)) with false by (symmetry; apply Rltb_false; rewrite R_nZ; lra).
  unfold step_children. rewrite EC. unfold mod_heat_step. cbn [mm ms]. rewrite Hs, Ht.
  destruct (m_block (mm m)); cbn [mm ms inval set_V set_cool ModuleModel.set_therm m_rc]; rewrite E; cbn [status_eqb];
    eexists; (split; [reflexivity|exact Q]).
Qed.
Print Assumptions C93_spm_timeStep.

(** Commanding a voltage: parallel physics-based cells without contact resistance, 200 times the slope between [k] and
    [2 - k]. The command succeeds and every cell then shows the commanded voltage. *)
Theorem C94_spm : forall F tm k v D rc l, 0 <= k <= 1 -> 0 <= D < v -> (length l <= 100)%nat -> length rc = length l ->
  Forall (fun r => r = 0) rc -> Forall (spm_steers F k v D) l -> Forall (spm_between F (v - D) (v + D)) l ->
  INR (length l) * D * (1 - k) ^ 49 < / 10 ^ 10 ->
  exists l', p_setVoltage (spm_ops F tm) v rc l = (l', Ok Success) /\ Forall2 spm_same l l' /\
    Forall (spm_between F (v - / 10 ^ 10) (v + / 10 ^ 10)) l'.
Proof.
  intros F tm k v D rc l Hk HD N Lr Z HF W T.
  assert (A : exists bs, map n_t bs = l /\ Forall (nsteers k v D) bs /\ nbrs (spm_br F (v - D) (v + D)) l bs (map (fun c => s_I (cs c)) l) /\
     Forall2 ncarry bs (map (fun c => s_I (cs c)) l)).
  { clear -HF. induction HF as [|c l (f & a & b & H1 & H2 & H3 & H4 & H5 & H6 & H7 & H8) _ (bs & A1 & A2 & A3 & A4)].
    - exists []. repeat split; constructor.
    - exists (mkRb c f (q_cap (cp c)) a b :: bs). cbn [map n_t]. rewrite A1.
      split; [reflexivity|]. split; [constructor; [split; [exact H2|split; assumption]|exact A2]|]. split; [|constructor; auto].
      constructor; [|exact A3]. split; [reflexivity|]. split; [exact H1|]. split; [exact H7|]. split; [exact H8|]. split; [exact H5|].
      exists (s_V (cs c)), (c_valid c). split; [|exact H6]. destruct c as [p s ? ? ? ? ? ? ? ?]. destruct s. reflexivity. }
  destruct A as (bs & A1 & A2 & A3 & A4).
  assert (W0 : Forall (near v D) (nvolts bs (map (fun c => s_I (cs c)) l))).
  { assert (V := branch_V F tm _ _ _ _ _ A3). revert V. generalize (nvolts bs (map (fun c => s_I (cs c)) l)). clear -W. intros vs V.
    induction V as [|c x l vs (d & E) _ IH]; constructor; apply Forall_cons_iff in W; [|apply IH, W].
    destruct W as [(d' & y & E' & W) _]. rewrite E in E'. injection E' as _ <-. unfold near. apply Rabs_le. lra. }
  destruct (nset_voltage (spm_ops F tm) (spm_br F (v - D) (v + D)) (v - D) (v + D) (spm_br_V F tm (v - D) (v + D))
     ltac:(intros s b i (_ & _ & _ & _ & _ & x & fl & -> & _); reflexivity)
     (spm_br_set F tm (v - D) (v + D) ltac:(lra)) k v D rc l bs _ Hk A2 A3 Lr Z N (proj1 HD) (Rle_refl _) (Rle_refl _) A4 W0 T)
    as (l' & is' & E & B & S).
  exists l'. split; [exact E|]. destruct (branch_same _ _ _ _ _ _ B) as [Q1 _]. rewrite A1 in Q1. split; [exact Q1|].
  assert (V := branch_V F tm _ _ _ _ _ B). rewrite spread_R in S. revert V S. generalize (nvolts bs is') as vs. generalize (/ 10 ^ 10). clear.
  intros q vs V. induction V as [|c x l vs (d & E) _ IH]; intros S; constructor; cbn [map Rsum] in S;
    assert (P : 0 <= Rsum (map (fun x => Rabs (v - x)) vs)) by (apply Rsum_nonneg, Forall_map, Forall_forall; intros; apply Rabs_pos);
    assert (P1 : 0 <= Rabs (v - x)) by apply Rabs_pos.
  - exists d, x. split; [exact E|]. revert S P. generalize (Rsum (map (fun x => Rabs (v - x)) vs)). intros r S P.
    revert S. unfold Rabs. destruct (Rcase_abs (v - x)); lra.
  - apply IH. lra.
Qed.
Print Assumptions C94_spm.

(** Commanding a voltage to a single physics-based cell: if the slope of its voltage varies by a factor of at most [1 + q],
    the error shrinks by [q] per iteration; the command succeeds within a microvolt and changes nothing but the current. *)
Theorem C94_spm_cell : forall F tm s1 s2 q v D c, 0 < s1 -> s1 <= s2 <= (1 + q) * s1 -> 0 <= q <= 1 ->
  spm_commands F s1 s2 v D c -> spm_between F (v - D) (v + D) c -> D * q ^ 49 < / 10 ^ 6 ->
  exists c', spm_setVoltage F tm v c = (c', Ok Success) /\ spm_same c c' /\ spm_between F (v - / 10 ^ 6) (v + / 10 ^ 6) c'.
Proof.
  intros F tm s1 s2 q v D c H1 H2 Hq (f & a & b & G1 & G2 & G3 & G4 & G5 & G6 & G7 & G8 & G9 & G10) W T. cbv zeta in *.
  set (lo := v - (D + s2 * (q_cap (cp c) / 100))) in *. set (hi := v + (D + s2 * (q_cap (cp c) / 100))) in *.
  set (B := mkRb c f (q_cap (cp c)) a b).
  assert (BC : spm_br F lo hi c B (s_I (cs c))).
  { split; [reflexivity|]. split; [exact G1|]. split; [exact G9|]. split; [exact G10|]. split; [exact G6|].
    exists (s_V (cs c)), (c_valid c). split; [|exact G7]. destruct c as [p s ? ? ? ? ? ? ? ?]. destruct s. reflexivity. }
  assert (W0 : Rabs (v - f (s_I (cs c))) <= D).
  { destruct (spm_br_V F tm lo hi c B _ BC) as (s' & E & _). cbn [spm_ops o_V] in E. destruct W as (d & x & E' & W). rewrite E in E'.
    injection E' as _ E'. apply Rabs_le. cbn [B n_f] in E'. lra. }
  destruct (secant_loop (spm_ops F tm) (spm_br F lo hi) lo hi (spm_br_V F tm lo hi)
     ltac:(intros s b0 i (E & _ & _ & _ & _ & x & fl & -> & _); rewrite E; reflexivity)
     (spm_br_set F tm lo hi G8) B s1 s2 q v D H1 H2 Hq G2 G3 G4 G5 (Rle_refl _) (Rle_refl _) 49 D c (s_I (cs c)) BC G6 W0 (Rle_refl _) T)
    as (c' & j & E & BJ & WJ).
  exists c'. split; [exact E|]. destruct (spm_br_V F tm lo hi c' B j BJ) as (d & EV & _).
  destruct BJ as (_ & _ & _ & _ & _ & x & fl & Ec & _). split; [exists j, x, fl; exact Ec|].
  exists d, (f j). split; [exact EV|]. revert WJ. cbn [B n_f]. generalize (/ 10 ^ 6). intros t. unfold Rabs. destruct (Rcase_abs (v - f j)); lra.
Qed.
Print Assumptions C94_spm_cell.

(** Finding: the bound of 1 matters for physics-based cells too. Two cells whose capacity times resistance is 2 swap their
    voltages in every iteration; whatever their imbalance, redistribution fails. *)
Theorem C93_spm_oscillates_refuted : forall F tm lo hi c1 c2 e1 r1 e2 r2, 0 < lo ->
  spm_linear F lo hi e1 r1 c1 -> spm_linear F lo hi e2 r2 c2 -> q_cap (cp c1) * r1 = 2 -> q_cap (cp c2) * r2 = 2 ->
  / 10 ^ 10 <= Rabs ((e1 - r1 * s_I (cs c1)) - (e2 - r2 * s_I (cs c2))) ->
  exists l', p_redistribute (spm_ops F tm) [0; 0] [c1; c2] = (l', Ok RedistributeCurrent_failed).
Proof.
  intros F tm lo hi c1 c2 e1 r1 e2 r2 Hlo L1 L2 K1 K2 D.
  set (lift := fun b : branch (spm R) => mkRb (b_t b) (bvolt b) (b_c b) ((b_e b - hi) / b_r b) ((b_e b - lo) / b_r b)).
  set (br := fun s (b : branch (spm R)) i => 0 < b_r b /\ spm_br F lo hi s (lift b) i).
  assert (CV : forall (b : branch (spm R)) j, 0 < b_r b -> ((b_e b - hi) / b_r b <= j <= (b_e b - lo) / b_r b <-> lo <= bvolt b j <= hi)).
  { intros b j P. unfold bvolt. split; intros [X Y].
    - apply (Rmult_le_compat_r (b_r b)) in X, Y; try lra. unfold Rdiv in X, Y. rewrite Rmult_assoc, Rinv_l in X, Y by lra. lra.
    - split; apply Rmult_le_reg_r with (b_r b); try lra; unfold Rdiv; rewrite Rmult_assoc, Rinv_l by lra; lra. }
  assert (BR : forall c e r, spm_linear F lo hi e r c -> br c (mkBr c e r (q_cap (cp c))) (s_I (cs c))).
  { intros c e r (P & H & W & V & M1 & M2). split; [exact P|]. split; [reflexivity|].
    split; [intros j Hj; apply H; apply (CV (mkBr c e r (q_cap (cp c))) j P) in Hj; exact Hj|]. split; [exact M1|]. split; [exact M2|].
    split; [apply (CV (mkBr c e r (q_cap (cp c))) _ P); exact W|].
    exists (s_V (cs c)), (c_valid c). split; [|exact V]. destruct c as [p s ? ? ? ? ? ? ? ?]. destruct s. reflexivity. }
  apply (oscillates_forever (spm_ops F tm) br lo hi) with (b1 := mkBr c1 e1 r1 (q_cap (cp c1))) (b2 := mkBr c2 e2 r2 (q_cap (cp c2)))
    (i1 := s_I (cs c1)) (i2 := s_I (cs c2)).
  - intros s b i [P H]. destruct (spm_br_V F tm lo hi s (lift b) i H) as (s' & E & H'). exists s'. split; [exact E|split; assumption].
  - intros s b i (_ & _ & _ & _ & _ & _ & v & fl & -> & _). reflexivity.
  - intros s b i (_ & E & _ & _ & _ & _ & v & fl & -> & _). cbn [lift n_c n_t] in E. rewrite E. reflexivity.
  - intros s b i j [P H] W. destruct (spm_br_set F tm lo hi Hlo s (lift b) i j H) as (s' & st & E & S & H'); [apply (CV b j P), W|exact W|].
    exists s', st. split; [exact E|]. split; [exact S|]. split; assumption.
  - cbn. lra.
  - cbn. lra.
  - constructor; [apply BR, L1|]. constructor; [apply BR, L2|]. constructor.
  - apply L1.
  - apply L2.
  - exact D.
Qed.
Print Assumptions C93_spm_oscillates_refuted.
Definition roller_at (i : R) : spm R := mkSpm roll_par (st_I (cs roller) i) false str0 true true 0 0 0 300.
Example C93_spm_oscillates_inhabited :
  spm_linear plainF 2 4 (301 / 100) 2 (roller_at (1 / 10)) /\ spm_linear plainF 2 4 (301 / 100) 2 (roller_at (-1 / 5)) /\
  q_cap (cp (roller_at (1 / 10))) * 2 = 2 /\ q_cap (cp (roller_at (-1 / 5))) * 2 = 2.
Proof.
  assert (L : forall i, 2 <= 301 / 100 - 2 * i <= 4 -> spm_linear plainF 2 4 (301 / 100) 2 (roller_at i)).
  { intros i Hi. split; [lra|]. split; [|split; [exact Hi|split; [discriminate|cbn; lra]]].
    intros j Hj. split; [lra|]. unfold spm_V. cbn [spm_at set_valid c_valid].
    change (calcV plainF _) with (calcV plainF (spm_at j roller)). rewrite roll_calc; [eexists; reflexivity|].
    split; [repeat split|]. exists 0, 0. now split. }
  split; [apply L; lra|]. split; [apply L; lra|]. cbn. lra.
Qed.

(** A cell of a quarter of an ampere hour with resistance 2, carrying [i]; two of them with unequal currents. *)
Definition quarter_par : spm_par R :=
  mkSpar (1 / 4) (mkLim 1 5 (1 / 2) 6) 200 400 2 2 1 1  1 1 1 1 1 1  300 1 1 1  1 1 1 1 1 (mkStrP 1 1 1 1 0 0)
    1 1 1 0 1 1 1 1 (mkSei 1 1 1 1 1 1 1 1 1 1 1 1 1 1 1) (mkCs 1 1 1 1 1 1 1 2)
    1 (mkLam 1 1 1 1 1 1 1 1 1 1 1)  1 1 0 1 (mkPl 1 1)
    roll_m (toy_curve 4 3) (toy_curve 1 0) (toy_curve 0 0) (toy_curve (1 / 1000) 0) plain false false (1, 1, 1, 1).
Definition quarter (i : R) : spm R := mkSpm quarter_par (st_I (cs roller) i) false str0 true true 0 0 0 300.
Lemma quarter_shows i j : j <= 1 -> shows plainF (quarter i) j (301 / 100 - 2 * j).
Proof.
  intros Hj. split; [lra|]. unfold spm_V. cbn [spm_at set_valid c_valid].
  change (calcV plainF _) with (calcV plainF (spm_at j roller)). rewrite roll_calc; [eexists; reflexivity|].
  split; [repeat split|]. exists 0, 0. now split.
Qed.
Lemma quarter_window i : -1 <= i <= 1 -> spm_window plainF (1 / 4) 2 4 (quarter i) (fun j => 301 / 100 - 2 * j) (-1) 1.
Proof.
  intros Hi. split; [intros j Hj; apply quarter_shows; lra|]. unfold falls. cbn [quarter cp quarter_par q_cap q_lim l_VMIN l_VMAX cs st_I s_I c_valid].
  split; [lra|]. split; [intros; lra|]. split; [lra|]. split; [lra|]. split; [lra|]. split; [discriminate|]. lra.
Qed.
Example C93_spm_inhabited : let l := [quarter (1 / 10); quarter (-1 / 5)] in
  Forall (spm_balances plainF (1 / 4) 2 4) l /\ Forall (spm_between plainF 2 4) l /\
  Forall (fun c => spm_balances_at plainF (1 / 4) 2 4 c (s_I (cs c) + (1 / 4 - spm_total l) / INR (length l))) l /\
  INR (length l) * (4 - 2) * (1 - 1 / 4) ^ 2499 < / 10 ^ 10 /\ ~ spm_agree plainF (/ 10 ^ 10) l.
Proof.
  cbv zeta. set (T := spm_total _).
  assert (ET : T = -1 / 10) by (unfold T, spm_total; cbn; lra).
  assert (V : forall i, -1 <= i <= 1 -> exists d, spm_V plainF (quarter i) = (d, Ok (301 / 100 - 2 * i))).
  { intros i Hi. destruct (quarter_shows i i ltac:(lra)) as (_ & d & E). exists d. exact E. }
  split; [|split; [|split; [|split]]].
  - repeat apply Forall_cons; try apply Forall_nil; eexists _, _, _; apply quarter_window; lra.
  - repeat apply Forall_cons; try apply Forall_nil; [destruct (V (1 / 10)) as (d & E); [lra|]|destruct (V (-1 / 5)) as (d & E); [lra|]];
      exists d; eexists; (split; [exact E|lra]).
  - assert (EL : INR (length [quarter (1 / 10); quarter (-1 / 5)]) = 2) by (cbn; ring). rewrite EL, ET.
    repeat apply Forall_cons; try apply Forall_nil; cbn [quarter cs st_I s_I roller]; eexists _, _, _; (split; [apply quarter_window; lra|]); cbv beta; lra.
  - apply iterations_suffice; [lra|cbn; lia|lra].
  - intros (vs & v & H & S). inversion H as [|? x ? ? (d1 & E1) H1]; subst. inversion H1 as [|? y ? ? (d2 & E2) H2]; subst. inversion H2; subst.
    destruct (V (1 / 10)) as (d & E); [lra|]. rewrite E in E1. injection E1 as _ <-.
    destruct (V (-1 / 5)) as (d' & E'); [lra|]. rewrite E' in E2. injection E2 as _ <-.
    cbn [map Rsum] in S. unfold Rabs in S. destruct (Rcase_abs _), (Rcase_abs _); lra.
Qed.

(** The same two cells carry the same total at one voltage. *)
Example C93_spm_split_inhabited : let l := [quarter (1 / 10); quarter (-1 / 5)] in let js := [-1 / 20; -1 / 20] in
  Forall (fun x => q_cap (cp x) = 1 / 4) l /\ spm_ideal plainF (1 / 4) 2 4 (311 / 100) l js /\ Rsum js = spm_total l.
Proof.
  cbv zeta. split; [repeat constructor|]. split; [|unfold spm_total; cbn; lra].
  repeat apply Forall2_cons; try apply Forall2_nil; eexists _, _, _; (split; [apply quarter_window; lra|]); cbv beta; lra.
Qed.

(** Two cells with overpotentials, computed with the true exponential and inverse hyperbolic sine. *)
Example C93_spm_real_inhabited : let l := [tiny (1 / 10); tiny (-1 / 5)] in let js := [-1 / 20; -1 / 20] in
  Forall (spm_balances realF (1 / 2) 2 4) l /\ Forall (spm_between realF 2 4) l /\ Forall (fun x => q_cap (cp x) = 1 / 4) l /\
  Rsum js = spm_total l /\ (exists v, spm_ideal realF (1 / 2) 2 4 v l js) /\ INR (length l) * (4 - 2) * (1 - 1 / 2) ^ 2499 < / 10 ^ 10.
Proof.
  cbv zeta. destruct tiny_window as (f & F0 & FF & HW). split; [|split; [|split; [|split; [|split]]]].
  - repeat apply Forall_cons; try apply Forall_nil; exists f, (-7 / 10), (7 / 10); apply HW; lra.
  - assert (X1 := FF 0 (1 / 10) ltac:(lra) ltac:(lra) ltac:(lra)). assert (X2 := FF (-1 / 5) 0 ltac:(lra) ltac:(lra) ltac:(lra)). rewrite F0 in X1, X2.
    repeat apply Forall_cons; try apply Forall_nil; match goal with |- spm_between _ _ _ (tiny ?i) => destruct (proj1 (HW i ltac:(lra)) i ltac:(lra)) as (_ & d & E) end;
      exists d; eexists; (split; [exact E|lra]).
  - repeat constructor.
  - unfold spm_total; cbn; lra.
  - exists (f (-1 / 20)). repeat apply Forall2_cons; try apply Forall2_nil; exists f, (-7 / 10), (7 / 10); (split; [apply HW; lra|]); (split; [lra|reflexivity]).
  - apply iterations_suffice; [lra|cbn; lia|lra].
Qed.

(** The cell with overpotentials, commanded from 3.01 V (no current) to 2.9 V. *)
Example C94_spm_cell_inhabited : spm_commands realF 2 (5 / 2) (29 / 10) (1 / 5) (tiny 0) /\
  spm_between realF (29 / 10 - 1 / 5) (29 / 10 + 1 / 5) (tiny 0) /\ 5 / 2 <= (1 + 1 / 4) * 2 /\ 1 / 5 * (1 / 4) ^ 49 < / 10 ^ 6.
Proof.
  destruct tiny_slopes as (f & F0 & FF & HW). split; [|split; [|split; lra]].
  - exists f, (-7 / 10), (7 / 10). destruct (HW 0 ltac:(lra)) as (G1 & _). cbv zeta.
    assert (X1 := FF (-7 / 10) 0 ltac:(lra) ltac:(lra) ltac:(lra)). assert (X2 := FF 0 (7 / 10) ltac:(lra) ltac:(lra) ltac:(lra)). rewrite F0 in X1, X2.
    cbn [tiny cp tiny_par q_cap q_lim l_VMIN l_VMAX cs roller st_I s_I c_valid].
    split; [exact G1|]. split; [lra|]. split; [exact FF|]. split; [lra|]. split; [lra|]. split; [lra|]. split; [discriminate|]. split; [lra|]. lra.
  - destruct (proj1 (HW 0 ltac:(lra)) 0 ltac:(lra)) as (_ & d & E). exists d, (f 0). split; [exact E|]. rewrite F0. lra.
Qed.

(** Two cells with a resistance of 2.5 milliohm, commanded to 3 V. *)
Definition soft (i : R) : spm R :=
  mkSpm quarter_par (mkSst i 0 310 (1 / 800) 0 1 1 1 1 3 3 (1 / 2) 1 1 0 [1; 0] [1; 0] (1 / 800) (1 / 800) (1 / 800) (1 / 2) 0 0 0) false str0 true true 0 0 0 300.
Lemma soft_calc i : calcV plainF (soft i) = Ok (Some (301 / 100 - 1 / 400 * i)).
Proof.
  assert (G : getCSurf plainF (soft i) = (1, 1, true)).
  { unfold getCSurf. destruct (calcDiffConstant plainF (soft i)) as [a b]. destruct (calcMolarFlux (soft i)) as [[x jp] jn]. unfold calcSurfaceConcentration.
    cbn [soft cp cs s_zp s_zn quarter_par q_M roll_m m_Cp m_Cn m_Dp m_Dn nth dot]. rewrite R_nZ. cbn [nadd nmul ndiv RNum].
    unfold conc_bad. cbn [soft cp quarter_par q_Cmaxp q_Cmaxn].
    replace (0 + 1 * 1 + 0 * 0 + 0 * jp / a) with 1 by (unfold Rdiv; ring). replace (0 + 1 * 1 + 0 * 0 + 0 * jn / b) with 1 by (unfold Rdiv; ring).
    do 1 f_equal. rewrite !R_nZ. repeat rewrite (proj2 (Rleb_false _ _)) by lra. reflexivity. }
  unfold calcV. rewrite G. cbn [negb soft cp quarter_par q_OCVp q_OCVn q_dOCVtot q_Cmaxp q_Cmaxn].
  change (ndiv 1 2 : R) with (1 / 2). rewrite !toy_interp. cbn [rbind]. unfold calcOverPotential, getRdc.
  cbn [plainF f_asinh]. do 2 f_equal. cbn. unfold Rdiv. lra.
Qed.
Lemma soft_shows i j : j <= 100 -> shows plainF (soft i) j (301 / 100 - 1 / 400 * j).
Proof.
  intros Hj. split; [lra|]. unfold spm_V. cbn [spm_at set_valid c_valid].
  change (calcV plainF _) with (calcV plainF (soft j)). rewrite soft_calc. eexists; reflexivity.
Qed.
Example C94_spm_inhabited : let l := [soft 10; soft (-10)] in
  Forall (spm_steers plainF (1 / 2) 3 (1 / 10)) l /\ Forall (spm_between plainF (3 - 1 / 10) (3 + 1 / 10)) l /\
  INR (length l) * (1 / 10) * (1 - 1 / 2) ^ 49 < / 10 ^ 10.
Proof.
  cbv zeta. split; [|split].
  - repeat apply Forall_cons; try apply Forall_nil; exists (fun j => 301 / 100 - 1 / 400 * j), (-60), 60;
      (split; [intros j Hj; apply soft_shows; lra|]); unfold drops; cbn [soft cp quarter_par q_lim l_VMIN l_VMAX cs s_I c_valid];
      (split; [intros; lra|]; split; [lra|]; split; [lra|]; split; [lra|]; split; [discriminate|]; lra).
  - repeat apply Forall_cons; try apply Forall_nil; match goal with |- spm_between _ _ _ (soft ?i) => destruct (soft_shows i i ltac:(lra)) as (_ & d & E) end;
      exists d; eexists; (split; [exact E|lra]).
  - cbn [length INR]. lra.
Qed.
