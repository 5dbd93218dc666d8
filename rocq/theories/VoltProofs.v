(** * Voltage commands on packs: the loops over units whose voltage is linear in the current *)
From Coq Require Import List Lra Lia.
From Verif Require Import Base RFacts StatusModel StatusProofs CellModel ModuleModel ConvProofs.
Import ListNotations.
Local Open Scope R_scope.

Section Branches.
Context {Tag : Type}.
Notation branch := (branch Tag).
Context {U : Type} (o : su_ops R U) (br : U -> branch -> R -> Prop) (okb : branch -> R -> Prop).
Context (HV : forall s b i, br s b i -> exists s', o_V o s = (s', Ok (bvolt b i)) /\ br s' b i).
Context (HI : forall s b i, br s b i -> o_I o s = i).
Context (HC : forall s b i, br s b i -> o_Cap o s = b_c b).
Context (HS : forall s b i j, br s b i -> okb b j ->
  exists s' st, o_setCurrent o j true s = (s', Ok st) /\ isStatusOK st = true /\ br s' b j).

(** ** Parallel modules *)
Definition steered (v : R) (bs : list branch) (is : list R) : list R :=
  map (fun '(b, i) => i - 200 * (v - bvolt b i)) (combine bs is).
Definition near (v D x : R) : Prop := Rabs (v - x) <= D.

Lemma vadjust v l bs is : brs br l bs is -> Forall (fun '(b, i) => okb b i) (combine bs (steered v bs is)) ->
  exists l', p_vadjust o v is (volts bs is) l = (l', Ok (steered v bs is)) /\ brs br l' bs (steered v bs is).
Proof.
  induction 1 as [|s l b bs i is H _ IH]; intros W; [exists []; split; [reflexivity|constructor]|].
  unfold volts, steered in *. cbn [combine map p_vadjust] in *. apply Forall_cons_iff in W. destruct W as [W1 W].
  destruct (IH W) as (l' & E & B). destruct (HS s b i _ H W1) as (s' & st & E1 & _ & B1).
  match goal with |- context [o_setCurrent o ?j true s] => replace j with (i - 200 * (v - bvolt b i)) end.
  2:{ rewrite !R_nlit. cbn [nadd nmul ndiv nsub RNum]. field. }
  rewrite E1, E. exists (s' :: l'). split; [reflexivity|]. constructor; auto.
Qed.
Lemma steered_len v bs is : length is = length bs -> length (steered v bs is) = length bs.
Proof. intros. unfold steered. rewrite map_length, combine_length. lia. Qed.
Lemma steered_volts v bs : forall is, length is = length bs ->
  Forall2 (fun b '(x, y) => v - y = (1 - 200 * b_r b) * (v - x)) bs (combine (volts bs is) (volts bs (steered v bs is))).
Proof.
  induction bs as [|b bs IH]; intros [|i is] L; try discriminate; [constructor|].
  unfold volts, steered in *. cbn [combine map]. constructor; [unfold bvolt; ring|]. apply IH. auto.
Qed.
Lemma steered_near k v D bs : 0 <= k -> Forall (fun b => k <= 200 * b_r b <= 2 - k) bs -> forall is, length is = length bs ->
  Forall (near v D) (volts bs is) -> Forall (near v ((1 - k) * D)) (volts bs (steered v bs is)).
Proof.
  intros Hk. induction 1 as [|b bs Hb _ IH]; intros [|i is] L W; try discriminate; [constructor|].
  unfold volts, steered in *. cbn [combine map] in *. apply Forall_cons_iff in W. destruct W as [W1 W].
  constructor; [|apply IH; auto]. unfold near in *.
  replace (v - bvolt b (i - 200 * (v - bvolt b i))) with ((1 - 200 * b_r b) * (v - bvolt b i)) by (unfold bvolt; ring).
  rewrite Rabs_mult. apply Rmult_le_compat; try apply Rabs_pos; auto. apply Rabs_le. lra.
Qed.
Lemma near_spread v D l : Forall (near v D) l -> spread v l <= INR (length l) * D.
Proof.
  intros H. rewrite spread_R. rewrite <- (map_length (fun x => Rabs (v - x)) l). apply (Rsum_bounds 0 D).
  apply Forall_map. eapply Forall_impl; [|exact H]. intros x X. split; [apply Rabs_pos|exact X].
Qed.
Lemma ok_volts v D bs is : length is = length bs -> Forall (fun b => forall j, near v D (bvolt b j) -> okb b j) bs ->
  Forall (near v D) (volts bs is) -> Forall (fun '(b, i) => okb b i) (combine bs is).
Proof.
  intros L H. revert is L. induction H as [|b bs Hb _ IH]; intros [|i is] L W; try discriminate; [constructor|].
  unfold volts in *. cbn [combine map] in *. apply Forall_cons_iff in W. destruct W as [W1 W]. constructor; auto.
Qed.

Lemma vloop_S it v rc Ia l : p_vloop o (Datatypes.S it) v rc Ia l =
  match getVall o l rc with
  | (l1, Ok Va) =>
      if (spread v Va <? nlit 1 10000000000)%num then (l1, Ok Success)
      else match p_vadjust o v Ia Va l1 with
           | (l2, Ok Ia') => p_vloop o it v rc Ia' l2
           | (l2, e) => (l2, cast e)
           end
  | (l1, e) => (l1, cast e)
  end.
Proof. reflexivity. Qed.
Lemma vloop k v rc bs : 0 <= k <= 1 -> Forall (fun b => k <= 200 * b_r b <= 2 - k) bs -> length rc = length bs -> Forall (fun r => r = 0) rc ->
  (length bs <= 100)%nat ->
  forall it D l is, brs br l bs is -> 0 <= D -> Forall (fun b => forall j, near v D (bvolt b j) -> okb b j) bs ->
  Forall (near v D) (volts bs is) -> INR (length bs) * D * (1 - k) ^ it < / 10 ^ 10 ->
  exists l' is', p_vloop o (Datatypes.S it) v rc is l = (l', Ok Success) /\ brs br l' bs is' /\
    Forall (near v D) (volts bs is') /\ spread v (volts bs is') < / 10 ^ 10.
Proof.
  intros Hk HF Lr Z N.
  assert (TL : nlit (A := R) 1 10000000000 = / 10 ^ 10) by (rewrite R_nlit; field).
  induction it as [|it IH]; intros D l is B HD OK W T; destruct (brs_len _ _ _ _ B) as [L1 L2];
    (destruct (Vall o br HV l bs is rc B) as (l1 & E1 & B1); [lia|auto|lia|]); rewrite vloop_S, E1, TL;
    destruct (nltb (spread v (volts bs is)) (/ 10 ^ 10)) eqn:Es.
  - exists l1, is. apply Rltb_true in Es. repeat split; auto.
  - exfalso. apply Rltb_false in Es. assert (X := near_spread v D _ W). rewrite volts_len in X by auto. cbn [pow] in T. lra.
  - exists l1, is. apply Rltb_true in Es. repeat split; auto.
  - assert (W' := steered_near k v D bs (proj1 Hk) HF is L2 W).
    assert (D1 : (1 - k) * D <= D). { rewrite <- (Rmult_1_l D) at 2. apply Rmult_le_compat_r; lra. }
    assert (D0 : 0 <= (1 - k) * D) by (apply Rmult_le_pos; lra).
    assert (OK' : Forall (fun b => forall j, near v ((1 - k) * D) (bvolt b j) -> okb b j) bs).
    { eapply Forall_impl; [|exact OK]. intros b Hb j Hj. apply Hb. unfold near in *. lra. }
    destruct (vadjust v l1 bs is B1) as (l2 & E2 & B2).
    { eapply ok_volts; [apply steered_len; auto|exact OK'|exact W']. }
    rewrite E2.
    destruct (IH ((1 - k) * D) l2 _ B2 D0 OK' W') as (l' & is' & E3 & B3 & W3 & S3).
    { replace (INR (length bs) * ((1 - k) * D) * (1 - k) ^ it) with (INR (length bs) * D * (1 - k) ^ Datatypes.S it) by (cbn [pow]; ring). exact T. }
    exists l', is'. split; [exact E3|]. split; [exact B3|]. split; [|exact S3].
    eapply Forall_impl; [|exact W3]. intros x X. unfold near in *. lra.
Qed.
Lemma set_voltage k v D rc l bs is : 0 <= k <= 1 -> Forall (fun b => k <= 200 * b_r b <= 2 - k) bs -> brs br l bs is -> length rc = length l ->
  Forall (fun r => r = 0) rc -> (length l <= 100)%nat -> 0 <= D -> Forall (fun b => forall j, near v D (bvolt b j) -> okb b j) bs ->
  Forall (near v D) (volts bs is) -> INR (length l) * D * (1 - k) ^ 49 < / 10 ^ 10 ->
  exists l' is', p_setVoltage o v rc l = (l', Ok Success) /\ brs br l' bs is' /\
    Forall (near v D) (volts bs is') /\ spread v (volts bs is') < / 10 ^ 10.
Proof.
  intros Hk HF B Lr Z N HD OK W T. destruct (brs_len _ _ _ _ B) as [L1 L2].
  unfold p_setVoltage. replace (Nat.ltb NSUs_MAX (length l)) with false by (symmetry; apply Nat.ltb_ge; apply N).
  rewrite (brs_I o br HI _ _ _ B). apply (vloop k v rc bs Hk HF ltac:(lia) Z ltac:(lia) 49 D l is B HD OK W). rewrite <- L1. exact T.
Qed.

(** Branches of 10 milliohm: every correction mirrors the voltage at the target. *)
Lemma mirror v D rc bs : Forall (fun b => 200 * b_r b = 2) bs -> length rc = length bs -> Forall (fun r => r = 0) rc -> (length bs <= 100)%nat ->
  Forall (fun b => forall j, near v D (bvolt b j) -> okb b j) bs ->
  forall it l is, brs br l bs is -> Forall (near v D) (volts bs is) -> / 10 ^ 10 <= spread v (volts bs is) ->
  exists l', p_vloop o it v rc is l = (l', Ok RedistributeCurrent_failed).
Proof.
  intros HF Lr Z N OK.
  assert (TL : nlit (A := R) 1 10000000000 = / 10 ^ 10) by (rewrite R_nlit; field).
  induction it as [|it IH]; intros l is B W T; [exists l; reflexivity|]. destruct (brs_len _ _ _ _ B) as [L1 L2].
  destruct (Vall o br HV l bs is rc B) as (l1 & E1 & B1); [lia|auto|lia|]. rewrite vloop_S, E1, TL.
  replace (nltb (spread v (volts bs is)) (/ 10 ^ 10)) with false by (symmetry; apply Rltb_false; exact T).
  assert (Q : Forall (near v D) (volts bs (steered v bs is)) /\ spread v (volts bs (steered v bs is)) = spread v (volts bs is)).
  { rewrite !spread_R. clear -HF L2 W. revert is L2 W. induction HF as [|b bs Hb _ IH]; intros [|i is] L W; try discriminate; [split; [constructor|reflexivity]|].
    unfold volts, steered in *. cbn [combine map Rsum] in *. apply Forall_cons_iff in W. destruct W as [W1 W].
    destruct (IH is ltac:(auto) W) as [I1 I2].
    assert (E : v - bvolt b (i - 200 * (v - bvolt b i)) = - (v - bvolt b i)).
    { transitivity ((1 - 200 * b_r b) * (v - bvolt b i)); [unfold bvolt; ring|]. rewrite Hb. ring. }
    split.
    - constructor; [|exact I1]. unfold near in *. rewrite E, Rabs_Ropp. exact W1.
    - rewrite E, Rabs_Ropp, I2. reflexivity. }
  destruct Q as [Q1 Q2].
  destruct (vadjust v l1 bs is B1) as (l2 & E2 & B2).
  { eapply ok_volts; [apply steered_len; auto|exact OK|exact Q1]. }
  rewrite E2. apply (IH l2 _ B2 Q1). rewrite Q2. exact T.
Qed.
Lemma mirror_forever v D rc l bs is : Forall (fun b => 200 * b_r b = 2) bs -> brs br l bs is -> length rc = length l -> Forall (fun r => r = 0) rc ->
  (length l <= 100)%nat -> Forall (fun b => forall j, near v D (bvolt b j) -> okb b j) bs ->
  Forall (near v D) (volts bs is) -> / 10 ^ 10 <= spread v (volts bs is) ->
  exists l', p_setVoltage o v rc l = (l', Ok RedistributeCurrent_failed).
Proof.
  intros HF B Lr Z N OK W T. destruct (brs_len _ _ _ _ B) as [L1 L2].
  unfold p_setVoltage. replace (Nat.ltb NSUs_MAX (length l)) with false by (symmetry; apply Nat.ltb_ge; apply N).
  rewrite (brs_I o br HI _ _ _ B). apply (mirror v D rc bs HF ltac:(lia) Z ltac:(lia) OK 50 l is B W T).
Qed.

(** ** The secant loop hits a linear unit's voltage at once. *)
Definition trial (v : R) (b : branch) (i : R) : R :=
  if Rlt_dec (bvolt b i) v then i - 1 / 100 * b_c b else i + 1 / 100 * b_c b.
Lemma secant v s b i : br s b i -> 0 < b_r b -> 0 < b_c b ->
  okb b (trial v b i) -> okb b ((b_e b - v) / b_r b) ->
  exists s' j, setVoltage_iterative o v s = (s', Ok Success) /\ br s' b j /\
    (Rabs (v - bvolt b i) < / 10 ^ 6 /\ j = i \/ / 10 ^ 6 <= Rabs (v - bvolt b i) /\ bvolt b j = v).
Proof.
  intros B Hr Hc O1 O2. unfold setVoltage_iterative. rewrite (HI _ _ _ B).
  assert (TL : nlit (A := R) 1 1000000 = / 10 ^ 6) by (rewrite R_nlit; field).
  change 50%nat with (Datatypes.S (Datatypes.S 48)). generalize 48%nat as it. intros it.
  destruct (HV _ _ _ B) as (s1 & E1 & B1). cbn [setVoltage_loop]. rewrite E1, TL.
  match goal with |- context [nltb (nabs ?x) (/ 10 ^ 6)] => change (nabs x) with (Rabs (v - bvolt b i)) end.
  destruct (nltb (Rabs (v - bvolt b i)) (/ 10 ^ 6)) eqn:Es.
  { apply Rltb_true in Es. exists s1, i. auto. }
  apply Rltb_false in Es. rewrite (HC _ _ _ B1).
  assert (ET : (if nltb (bvolt b i) v then nsub i (nmul (nlit 1 100) (b_c b)) else nadd i (nmul (nlit 1 100) (b_c b))) = trial v b i).
  { unfold trial. destruct (nltb (bvolt b i) v) eqn:Ec; [apply Rltb_true in Ec|apply Rltb_false in Ec];
      destruct (Rlt_dec (bvolt b i) v); try lra; rewrite R_nlit; cbn [nadd nsub nmul RNum]; lra. }
  rewrite ET. set (t := trial v b i) in *.
  destruct (HS _ _ _ _ B1 O1) as (s2 & st2 & E2 & _ & B2). rewrite E2.
  destruct (HV _ _ _ B2) as (s3 & E3 & B3). rewrite E3.
  assert (Ht : t - i <> 0).
  { unfold t, trial. destruct (Rlt_dec (bvolt b i) v); lra. }
  assert (EJ : nsub t (nmul (nsub (bvolt b t) v) (ndiv (nsub i t) (nsub (bvolt b i) (bvolt b t)))) = (b_e b - v) / b_r b).
  { cbn [nsub nmul ndiv RNum]. unfold bvolt. field. split; [lra|].
    replace (b_e b - b_r b * i - (b_e b - b_r b * t)) with (b_r b * (t - i)) by ring.
    apply Rmult_integral_contrapositive_currified; lra. }
  rewrite EJ. destruct (HS _ _ _ _ B3 O2) as (s4 & st4 & E4 & _ & B4). rewrite E4.
  destruct (HV _ _ _ B4) as (s5 & E5 & B5). rewrite E5.
  assert (EF : bvolt b ((b_e b - v) / b_r b) = v) by (unfold bvolt; field; lra).
  rewrite EF.
  replace (nltb (nabs (nsub v v)) (/ 10 ^ 6)) with true.
  2:{ symmetry. apply Rltb_true. cbn. replace (v - v) with 0 by ring. rewrite Rabs_R0. lra. }
  exists s5, ((b_e b - v) / b_r b). split; [reflexivity|]. split; [exact B5|]. right. split; [exact Es|exact EF].
Qed.
End Branches.
