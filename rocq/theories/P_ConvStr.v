(** * C93, strings: balancing of parallel strings of cells *)
From Coq Require Import List Lra Lia.
From Verif Require Import Base RFacts StatusModel StatusProofs UtilModel CellModel CellSpec CellProofs CoolModel ModuleModel ModuleSpec ModuleExamples
  ConvSpec ConvProofs P_Conv VoltSpec VoltProofs P_Volt.
Import ListNotations.
Local Open Scope R_scope.

Lemma pow_fewer x n d : 0 <= x <= 1 -> x ^ (n + d) <= x ^ n.
Proof.
  intros H. rewrite pow_add. assert (0 <= x ^ n) by (apply pow_le; lra).
  assert (x ^ d <= 1) by (rewrite <- (pow1 d); apply pow_incr; lra).
  rewrite <- (Rmult_1_r (x ^ n)) at 2. apply Rmult_le_compat_l; auto.
Qed.
Lemma fewer n m k x y a : (n <= m)%nat -> 0 <= k <= 1 -> 0 <= a -> x <= y -> a * (1 - k) ^ n < x -> a * (1 - k) ^ m < y.
Proof.
  intros N Hk Ha Hx T. replace m with (n + (m - n))%nat by lia. assert (X := pow_fewer (1 - k) n (m - n) ltac:(lra)).
  apply Rle_lt_trans with (a * (1 - k) ^ n); [apply Rmult_le_compat_l; auto|lra].
Qed.
Lemma nat_2499 : (2499 <= 10549)%nat.
Proof. apply Nat.leb_le. vm_compute. reflexivity. Qed.
Lemma more_iterations k (n : nat) d : 0 <= k <= 1 -> 0 <= d -> INR n * d * (1 - k) ^ 2499 < / 10 ^ 10 -> INR n * d * (1 - k) ^ 10549 < / 10 ^ 9.
Proof.
  intros Hk Hd. apply (fewer _ _ _ _ _ _ nat_2499 Hk); [apply Rmult_le_pos; [apply pos_INR|exact Hd]|].
  lra.
Qed.

Section Strings.
Context (tm : Z).
Notation tag := (modrec R * list (ecmu R))%type.
Notation sops := (su_ops_at (A := R) ecm_ops tm 1).

(** What balancing achieves on strings: only currents change, the voltages read are between the bounds and deviate from a
    common one by less than [tol] in total, and strings of equal capacity keep the total current. *)
Definition strings_balanced (lo hi tol I : R) (l l' : list (su R (ecmu R) 1)) : Prop :=
  Forall2 (fun s s' => exists j, string_carrying j s s') l l' /\
  (exists ys y, Forall2 (fun s x => exists s2, o_V sops s = (s2, Ok x)) l' ys /\ Forall (fun x => lo <= x <= hi) ys /\ Rsum (map (fun x => Rabs (y - x)) ys) < tol) /\
  (forall c, Forall (fun s => o_Cap sops s = c) l -> Rsum (map (o_I sops) l') = I).

Section Bounds.
Context (lo hi : R).
Definition kept_br (s : su R (ecmu R) 1) (b : branch tag) (i : R) : Prop :=
  chain_br s b i /\ forall j, lo <= bvolt b j <= hi -> chain_ok b j.
Lemma kept_V s b i : kept_br s b i -> exists s', o_V sops s = (s', Ok (bvolt b i)) /\ kept_br s' b i.
Proof. intros [B K]. destruct (chain_V tm s b i B) as (s' & E & B'). exists s'. repeat split; auto; apply B'. Qed.
Lemma kept_set s b i j : kept_br s b i -> lo <= bvolt b j <= hi ->
  exists s' st, o_setCurrent sops j true s = (s', Ok st) /\ isStatusOK st = true /\ kept_br s' b j.
Proof. intros [B K] W. destruct (chain_set tm s b i j B (K j W)) as (s' & st & E & S & B'). exists s', st. repeat split; auto; apply B'. Qed.
Lemma kept_I s b i : kept_br s b i -> o_I sops s = i.
Proof. intros [B _]. exact (chain_I tm s b i B). Qed.
Lemma kept_Cap s b i : kept_br s b i -> o_Cap sops s = b_c b.
Proof. intros [B _]. exact (chain_Cap tm s b i B). Qed.

Lemma kept k l : Forall (string_balances k lo hi) l -> exists bs is,
  brs kept_br l bs is /\ Forall (settling k) bs /\ Forall (within lo hi) (volts bs is) /\
  Forall2 (fun s b => exists r cs, s = inr (mkM r cs) /\ b = as_chain (r, cs)) l bs.
Proof.
  induction 1 as [|s l (r & cs & i & x & -> & HS & HD & HR & HJ) _ (bs & is & IH1 & IH2 & IH3 & IH4)].
  - exists [], []. repeat split; constructor.
  - destruct (given r cs i x HS) as [B EV]. exists (as_chain (r, cs) :: bs), (i :: is).
    split; [constructor; [split; [exact B|]|exact IH1]|].
    { intros j N. unfold chain_ok. cbn [as_chain b_t snd]. apply (HJ j (bvolt (as_chain (r, cs)) j)); [|exact N]. apply chain_volt; [apply B|reflexivity]. }
    split; [constructor; [unfold settling; cbn [as_chain b_r b_c fst snd]; lra|exact IH2]|].
    split; [constructor; [unfold within; rewrite EV; exact HD|exact IH3]|]. constructor; eauto.
Qed.
Lemma caps_chain l bs is c : brs kept_br l bs is -> Forall (fun s => o_Cap sops s = c) l -> Forall (fun b => b_c b = c) bs.
Proof.
  induction 1 as [|s l b bs i is H _ IH]; intros F; constructor; apply Forall_cons_iff in F; destruct F as [F1 F]; auto. rewrite <- (kept_Cap s b i H). exact F1.
Qed.
Lemma strings_done tol I l bs is l' is' : brs kept_br l bs is -> Forall2 (fun s b => exists r cs, s = inr (mkM r cs) /\ b = as_chain (r, cs)) l bs ->
  brs kept_br l' bs is' -> Forall (within lo hi) (volts bs is') -> spread (vmean (volts bs is')) (volts bs is') < tol ->
  (forall c, Forall (fun b => b_c b = c) bs -> Rsum is' = I) -> strings_balanced lo hi tol I l l'.
Proof.
  intros B F B' W S T. split; [|split].
  - clear -F B'. revert l' is' B'. induction F as [|s b l bs (r & cs & -> & ->) _ IH]; intros l' is' B'; inversion B' as [|? ? ? ? ? ? ((_ & _ & r' & -> & U & _) & _) B1]; subst; [constructor|].
    constructor; [|eauto]. eexists _, r, cs, r'. repeat split; auto.
  - exists (volts bs is'), (vmean (volts bs is')). split; [|split; [exact W|rewrite spread_R in S; exact S]].
    clear -B'. induction B' as [|s l b bs i is H _ IH]; [constructor|]. unfold volts in *. cbn [combine map]. constructor; [|exact IH].
    destruct (kept_V s b i H) as (s2 & E & _). eauto.
  - intros c Hc. rewrite (brs_I sops kept_br kept_I _ _ _ B'). apply (T c). exact (caps_chain l bs is c B Hc).
Qed.
End Bounds.

(** Parallel strings of any cells and contact resistances inside the strings. *)
Theorem C93_strings : forall k lo hi rc l, 1 / 40 <= k <= 1 -> lo <= hi <= lo + 1000 -> (2 <= length l <= 100)%nat ->
  length rc = length l -> Forall (fun r => r = 0) rc -> Forall (string_balances k lo hi) l ->
  exists l', p_redistribute sops rc l = (l', Ok Success) /\ strings_balanced lo hi (/ 10 ^ 10) (Rsum (map (o_I sops) l)) l l'.
Proof.
  intros k lo hi rc l Hk Hhi N Lr Z H. destruct (kept lo hi k l H) as (bs & is & B & HF & W & F).
  destruct (redistribute sops (kept_br lo hi) lo hi (kept_V lo hi) (kept_I lo hi) (kept_Cap lo hi) (kept_set lo hi) k rc l bs is lo hi ltac:(lra) HF B Lr Z N
    (Rle_refl lo) (Rle_refl hi) W (iterations_suffice k (length l) (hi - lo) Hk ltac:(lia) ltac:(lra))) as (l' & is' & E & B' & W' & S & Q).
  exists l'. split; [exact E|]. eapply strings_done; eauto. intros c Hc. rewrite (Q c Hc), (brs_I sops (kept_br lo hi) (kept_I lo hi) _ _ _ B). reflexivity.
Qed.

(** Commanding a current on parallel strings. *)
Theorem C93_strings_setCurrent : forall k lo hi rc l Inew, 1 / 40 <= k <= 1 -> lo <= hi <= lo + 1000 -> (1 <= length l <= 100)%nat ->
  length rc = length l -> Forall (fun r => r = 0) rc -> Forall (string_balances k lo hi) l ->
  Forall (fun s => exists r cs y, s = inr (mkM r cs) /\
    string_V (m_rc r) cs (o_I sops s + (Inew - Rsum (map (o_I sops) l)) / INR (length l)) y /\ lo <= y <= hi) l ->
  exists l', p_setCurrent sops Inew rc l = (l', Ok Success) /\ strings_balanced lo hi (/ 10 ^ 9) Inew l l'.
Proof.
  intros k lo hi rc l Inew Hk Hhi N Lr Z H HW. assert (Hk' : 0 <= k <= 1) by lra. destruct (kept lo hi k l H) as (bs & is & B & HF & _ & F).
  rewrite (brs_I sops (kept_br lo hi) (kept_I lo hi) _ _ _ B) in HW.
  assert (W0 : Forall (within lo hi) (volts bs (map (fun i => i + (Inew - Rsum is) / INR (length l)) is))).
  { revert HW. generalize ((Inew - Rsum is) / INR (length l)). intros dI HW. clear -HW B F. revert is B.
    induction F as [|s b l bs (r & cs & -> & ->) _ IH]; intros is B; inversion B as [|? ? ? ? i is1 K B1]; subst; [constructor|].
    apply Forall_cons_iff in HW. destruct HW as [(r' & cs' & y & E & SV & Wy) HW]. injection E as <- <-.
    unfold volts in *. cbn [map combine]. constructor; [|apply IH; auto].
    rewrite (kept_I lo hi _ _ _ K) in SV. apply chain_volt in SV; [|apply K]. unfold within. rewrite <- SV. exact Wy. }
  assert (T : INR (length l) * (hi - lo) * (1 - k) ^ 10549 < / 10 ^ 9).
  { apply more_iterations; [lra|lra|]. apply iterations_suffice; [exact Hk|lia|lra]. }
  destruct (set_current sops (kept_br lo hi) lo hi (kept_V lo hi) (kept_I lo hi) (kept_Cap lo hi) (kept_set lo hi) k rc l bs is lo hi Inew Hk' HF B Lr Z N
    (Rle_refl lo) (Rle_refl hi) W0 T) as (l' & is' & E & B' & W' & S & Q).
  exists l'. split; [exact E|]. eapply strings_done; eauto.
Qed.
End Strings.
Print Assumptions C93_strings.
Print Assumptions C93_strings_setCurrent.

(** Two strings of ten full cells of 10 Ah, at 1 A and 3 A. *)
Example C93_strings_balance_inhabited : Forall (string_balances (1 / 40) (10 * 2) (10 * chi)) (pair_of 10) /\
  (forall i, In i [1; 3] -> exists y, string_V (repeat 0 10) (repeat (ex_cell 10 1 i) 10) (i + (20 - 4) / INR 2) y /\ 10 * 2 <= y <= 10 * chi).
Proof.
  assert (E10 : INR 10 = 10) by (cbn; ring). assert (E2 : INR 2 = 2) by (cbn; ring). split.
  - assert (G : forall i, 0 <= i <= 1000 -> string_balances (1 / 40) (10 * 2) (10 * chi) (inr (mkM (ex_rec true (repeat 0 10) 10) (repeat (ex_cell 10 1 i) 10)))).
    { intros i Hi. eexists _, _, i, _. split; [reflexivity|]. split; [apply full_is; [lia|lra]|]. split; [rewrite E10; unfold chi; lra|]. split.
      - cbn [ex_rec m_rc]. rewrite full_R, E10. replace (lmin (map (fun c => p_cap (ep (u_ecm c))) (repeat (ex_cell 10 1 i) 10))) with 10; [lra|].
        symmetry. transitivity (lmin (repeat 10 10)); [reflexivity|apply lmin_repeat; lia].
      - intros j y Hy W. cbn [ex_rec m_rc] in Hy. apply full_str in Hy. subst y. apply Forall_same, full_safe. rewrite E10 in W. unfold chi in W. lra. }
    repeat apply Forall_cons; try apply Forall_nil; apply G; lra.
  - intros i [<-|[<-|[]]]; eexists; (split; [apply full_str; reflexivity|]); rewrite E10, E2; unfold chi; lra.
Qed.
