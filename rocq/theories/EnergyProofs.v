(** * Proofs of the energy statements about an equivalent-circuit cell *)
From Verif Require Import Base RFacts StatusModel StatusProofs UtilModel UtilSpec UtilProofs CellModel CellSpec
  CellProofs EnergySpec.
From Coq Require Import Lra Lia.
Local Open Scope R_scope.

(** ** Paths through a rising curve *)

Fixpoint path (f : R -> R) (x : R) (l : list R) : R :=
  match l with
  | [] => 0
  | y :: l' => f y * (x - y) + path f y l'
  end.
Definition mono (f : R -> R) (l : list R) : Prop :=
  forall a b, In a l -> In b l -> a <= b -> f a <= f b.

Lemma last_cons (l : list R) : forall y x, last (y :: l) x = last l y.
Proof.
  induction l as [|a l IH]; intros y x; [reflexivity|].
  change (last (a :: l) x = last (a :: l) y). rewrite !IH. reflexivity.
Qed.

Lemma path_app f l1 : forall x l2, path f x (l1 ++ l2) = path f x l1 + path f (last l1 x) l2.
Proof.
  induction l1 as [|y l1 IH]; intros x l2; cbn [app path]; [cbn; lra|].
  rewrite IH, last_cons. lra.
Qed.

Lemma last_app_cons (l1 : list R) : forall w l2 x, last (l1 ++ w :: l2) x = last l2 w.
Proof.
  induction l1 as [|a l1 IH]; intros w l2 x; cbn [app].
  - apply last_cons.
  - rewrite last_cons. apply IH.
Qed.

(** A path that starts on one side of [x] and ends on the other crosses it. *)
Lemma cross_down (l : list R) : forall y x, x <= y -> last l y < x ->
  exists l1 w l2, l = l1 ++ w :: l2 /\ w <= x /\ x <= last l1 y.
Proof.
  induction l as [|a l IH]; intros y x Hy Hl; [cbn in Hl; lra|].
  rewrite last_cons in Hl. destruct (Rle_dec a x) as [Ha|Ha].
  - exists [], a, l. cbn. auto.
  - destruct (IH a x) as (l1 & w & l2 & -> & Hw & Hu); [lra|exact Hl|].
    exists (a :: l1), w, l2. rewrite last_cons. auto.
Qed.
Lemma cross_up (l : list R) : forall y x, y <= x -> x < last l y ->
  exists l1 w l2, l = l1 ++ w :: l2 /\ x <= w /\ last l1 y <= x.
Proof.
  induction l as [|a l IH]; intros y x Hy Hl; [cbn in Hl; lra|].
  rewrite last_cons in Hl. destruct (Rle_dec x a) as [Ha|Ha].
  - exists [], a, l. cbn. auto.
  - destruct (IH a x) as (l1 & w & l2 & -> & Hw & Hu); [lra|exact Hl|].
    exists (a :: l1), w, l2. rewrite last_cons. auto.
Qed.

Lemma mono_sub f l l' : (forall a, In a l' -> In a l) -> mono f l -> mono f l'.
Proof. intros H M a b Ha Hb. apply M; auto. Qed.

Lemma path_le f : forall n l x, (length l <= n)%nat -> mono f (x :: l) ->
  path f x l <= f x * (x - last l x).
Proof.
  induction n as [|n IH]; intros l x Hn M.
  - destruct l; cbn in *; [lra|lia].
  - destruct l as [|y l]; [cbn; lra|].
    cbn [length] in Hn. cbn [path]. rewrite last_cons.
    assert (My : mono f (y :: l)) by (eapply mono_sub; [|exact M]; cbn; tauto).
    assert (I0 := IH l y ltac:(lia) My).
    set (z := last l y) in *.
    assert (Hxy : f y * (x - y) + path f y l <= f y * (x - z)) by lra.
    assert (In x (x :: y :: l) /\ In y (x :: y :: l)) as [Ix Iy] by (cbn; tauto).
    destruct (Rle_dec y x) as [H1|H1].
    + assert (F1 : f y <= f x) by (apply M; auto).
      destruct (Rle_dec z x) as [H2|H2].
      * eapply Rle_trans; [exact Hxy|]. apply Rmult_le_compat_r; lra.
      * destruct (cross_up l y x) as (l1 & w & l2 & E & Hw & Hu); [lra|fold z; lra|].
        subst l.
        rewrite app_length in Hn. cbn [length] in Hn.
        assert (Iw : In w (x :: y :: l1 ++ w :: l2)) by (right; right; apply in_or_app; right; left; auto).
        assert (A1 := IH (l1 ++ [x]) y).
        rewrite path_app, last_app_cons in A1. cbn [path last] in A1.
        assert (A2 := IH l2 w ltac:(lia)).
        unfold z in *. clear z. rewrite last_app_cons in *. rewrite path_app in *. cbn [path] in *.
        assert (B1 : path f y l1 + (f x * (last l1 y - x) + 0) <= f y * (y - x)).
        { apply A1; [rewrite app_length; cbn; lia|]. eapply mono_sub; [|exact M].
          cbn. intros a [->|Ha]; [tauto|]. apply in_app_or in Ha. rewrite in_app_iff. cbn in *. tauto. }
        assert (B2 : path f w l2 <= f w * (w - last l2 w)).
        { apply A2. eapply mono_sub; [|exact M]. cbn. intros a Ha. rewrite in_app_iff. cbn. tauto. }
        assert (F2 : f x <= f w) by (apply M; auto).
        assert (P : f w * (last l1 y - last l2 w) <= f x * (last l1 y - last l2 w)) by
          (assert (0 <= (f w - f x) * (last l2 w - last l1 y)) by (apply Rmult_le_pos; lra); nra).
        nra.
    + assert (F1 : f x <= f y) by (apply M; auto; lra).
      destruct (Rle_dec x z) as [H2|H2].
      * eapply Rle_trans; [exact Hxy|].
        assert (0 <= (f y - f x) * (z - x)) by (apply Rmult_le_pos; lra). nra.
      * destruct (cross_down l y x) as (l1 & w & l2 & E & Hw & Hu); [lra|fold z; lra|].
        subst l.
        rewrite app_length in Hn. cbn [length] in Hn.
        assert (Iw : In w (x :: y :: l1 ++ w :: l2)) by (right; right; apply in_or_app; right; left; auto).
        assert (A1 := IH (l1 ++ [x]) y).
        rewrite path_app, last_app_cons in A1. cbn [path last] in A1.
        assert (A2 := IH l2 w ltac:(lia)).
        unfold z in *. clear z. rewrite last_app_cons in *. rewrite path_app in *. cbn [path] in *.
        assert (B1 : path f y l1 + (f x * (last l1 y - x) + 0) <= f y * (y - x)).
        { apply A1; [rewrite app_length; cbn; lia|]. eapply mono_sub; [|exact M].
          cbn. intros a [->|Ha]; [tauto|]. apply in_app_or in Ha. rewrite in_app_iff. cbn in *. tauto. }
        assert (B2 : path f w l2 <= f w * (w - last l2 w)).
        { apply A2. eapply mono_sub; [|exact M]. cbn. intros a Ha. rewrite in_app_iff. cbn. tauto. }
        assert (F2 : f w <= f x) by (apply M; auto).
        assert (P : f w * (last l1 y - last l2 w) <= f x * (last l1 y - last l2 w)) by
          (assert (0 <= (f x - f w) * (last l1 y - last l2 w)) by (apply Rmult_le_pos; lra); nra).
        nra.
Qed.

(** ** One step *)

(** The pairs: what the circuit feeds them covers the growth of what they store. *)
Lemma pair_step r k dt i x : 0 <= r -> 0 < k -> 0 <= dt -> dt * k <= 2 ->
  1 / 2 * r * (1 / k) * ((x + dt * k * (i - x)) * (x + dt * k * (i - x))) - 1 / 2 * r * (1 / k) * (x * x)
  <= r * (x + dt * k * (i - x)) * (i * dt).
Proof.
  intros Hr Hk Hdt H2. set (dl := dt * k * (i - x)).
  assert (E : i * dt = dl * (1 / k) + dt * x) by (unfold dl; field; lra).
  rewrite E. set (t := 1 / k). assert (Ht : 0 < t) by (unfold t; apply Rdiv_lt_0_compat; lra).
  assert (Hd : dt <= 2 * t).
  { unfold t. apply Rmult_le_reg_r with k; [lra|]. replace (2 * (1 / k) * k) with 2 by (field; lra). lra. }
  assert (Q : 0 <= dt * (x * x) + dt * x * dl + dl * dl * t * / 2).
  { assert (dt * (dl * dl) / 4 <= dl * dl * t * / 2) by
      (assert (0 <= dl * dl) by (apply Rle_0_sqr); nra).
    assert (0 <= dt * ((x + dl / 2) * (x + dl / 2))) by (apply Rmult_le_pos; [lra|apply Rle_0_sqr]).
    nra. }
  assert (0 <= r * (dt * (x * x) + dt * x * dl + dl * dl * t * / 2)) by (apply Rmult_le_pos; auto).
  nra.
Qed.

Lemma pairs_step dt i : 0 <= dt -> forall rp itau ir,
  length rp = length ir -> length itau = length ir ->
  Forall (fun r => 0 <= r) rp -> Forall (fun k => 0 < k) itau -> Forall (fun k => dt * k <= 2) itau ->
  pairs_energy rp itau (step_Ir dt i itau ir) - pairs_energy rp itau ir <= pol rp (step_Ir dt i itau ir) * (i * dt).
Proof.
  intros Hdt rp itau ir. revert rp itau.
  induction ir as [|x ir IH]; intros [|r rp] [|k itau] L1 L2 Hr Hk H2; cbn in L1, L2; try discriminate.
  - unfold pol. cbn. lra.
  - inversion_clear Hr. inversion_clear Hk. inversion_clear H2.
    cbn [pairs_energy step_Ir]. unfold pol. cbn [combine map Rsum].
    assert (P := IH rp itau ltac:(lia) ltac:(lia) ltac:(auto) ltac:(auto) ltac:(auto)).
    assert (P1 := pair_step r k dt i x ltac:(auto) ltac:(auto) Hdt ltac:(auto)).
    unfold pol in P. cbn [nadd nmul nsub RNum].
    nra.
Qed.

(** The open-circuit voltage as a function. *)
Definition curve (d : XYdata R) (x : R) : R :=
  match XYdata_interp d x true with Ok o => o | _ => 0 end.
Definition on_table (d : XYdata R) (x : R) : Prop := exists o, XYdata_interp d x true = Ok o.

Lemma curve_mono d l : rising d -> Forall (on_table d) l -> mono (curve d) l.
Proof.
  intros Hr Hl a b Ha Hb Hab. rewrite Forall_forall in Hl.
  destruct (Hl a Ha) as (u & Eu). destruct (Hl b Hb) as (v & Ev).
  unfold curve. rewrite Eu, Ev. eapply Hr; eauto.
Qed.

Lemma out_into i g : out i g - into i g = if Rlt_dec 0 i then g else - g.
Proof. unfold out, into. destruct (Rlt_dec 0 i); lra. Qed.

Lemma step1_Wh dt (c c1 : ecm R) v : ecm_step1 dt c = (c1, Ok tt) -> ecm_V c1 = Ok v ->
  e_Wh (es c1) - e_Wh (es c) = Rabs (e_I (es c) * dt / 3600 * v).
Proof.
  intros E Hv.
  revert E Hv. unfold ecm_step1. cbn zeta.
  destruct (ecm_V _) as [v'| | |] eqn:Ev; try discriminate.
  intros H; injection H as <-. cbn [es e_Wh].
  change (ecm_V _) with (ecm_V (A := R) (mkEcm (ep c)
    (mkEst (e_T (es c)) (e_SOC (es c) - e_I (es c) * (dt / nZ 3600) / p_cap (ep c))%num (e_I (es c))
       (step_Ir dt (e_I (es c)) (p_itau (ep c)) (e_Ir (es c))) (e_time (es c) + dt)%num
       (e_Ah (es c) + nabs (e_I (es c) * (dt / nZ 3600)))%num (e_Wh (es c))))) at 1.
  rewrite Ev. intros H; injection H as ->.
  replace (e_I (es c) * (dt / (3600 / 1)) * v) with (e_I (es c) * dt / 3600 * v) by field. ring.
Qed.

Lemma step1_energy dt c c1 :
  passive c -> 0 <= dt -> Forall (fun k => dt * k <= 2) (p_itau (ep c)) ->
  ecm_step1 dt c = (c1, Ok tt) -> readable c1 ->
  on_table (p_ocv (ep c)) (e_SOC (es c1)) /\ passive c1 /\ ep c1 = ep c /\ e_I (es c1) = e_I (es c) /\
  (out (e_I (es c)) (e_Wh (es c1) - e_Wh (es c)) - into (e_I (es c)) (e_Wh (es c1) - e_Wh (es c)))
   + (stored c1 - stored c) / 3600
  <= p_cap (ep c) * (curve (p_ocv (ep c)) (e_SOC (es c1)) * (e_SOC (es c) - e_SOC (es c1))).
Proof.
  intros [P1 P2 P3 P4 [P5 P6] P7] Hdt Hs E ((o & Ho) & (v & Hv & Hv0)).
  assert (F := ecm_steps_frame 1 dt c c1 (Ok tt)). cbn [ecm_steps] in F. rewrite E in F.
  destruct (F eq_refl) as (Fp & Fi & _ & Fw). clear F.
  assert (L : length (e_Ir (es c1)) = length (e_Ir (es c))).
  { assert (W : ecm_wf c) by (split; auto). destruct (Fw W) as [W1 _]. rewrite Fp in W1. lia. }
  split; [exists o; unfold ecm_OCV in Ho; rewrite Fp in Ho; exact Ho|].
  split; [split; rewrite ?Fp; auto; rewrite L; auto|]. split; [exact Fp|]. split; [exact Fi|].
  assert (Hc : curve (p_ocv (ep c)) (e_SOC (es c1)) = o).
  { unfold curve. unfold ecm_OCV in Ho. rewrite Fp in Ho. rewrite Ho. reflexivity. }
  rewrite Hc. clear Hc.
  assert (Hw := step1_Wh dt c c1 v E Hv).
  destruct (step1_R _ _ _ _ E) as (E1 & _ & _ & _ & E5).
  assert (Hd : e_SOC (es c) - e_SOC (es c1) = e_I (es c) * dt / 3600 / p_cap (ep c)) by (rewrite E1; ring).
  assert (Vv : v = o - p_Rdc (ep c) * e_I (es c) - pol (p_Rp (ep c)) (e_Ir (es c1))).
  { unfold ecm_V in Hv. rewrite Ho, sub_drops_pol, Fp, Fi in Hv. injection Hv as <-. reflexivity. }
  assert (Hout : out (e_I (es c)) (e_Wh (es c1) - e_Wh (es c)) - into (e_I (es c)) (e_Wh (es c1) - e_Wh (es c))
                 = e_I (es c) * dt / 3600 * v).
  { rewrite out_into, Hw. destruct (Rlt_dec 0 (e_I (es c))) as [H|H].
    - apply Rabs_pos_eq. apply Rmult_le_pos; auto. apply Rmult_le_pos; [|lra]. apply Rmult_le_pos; lra.
    - rewrite Rabs_left1; [ring|].
      assert (0 <= - e_I (es c) * dt / 3600 * v).
      { apply Rmult_le_pos; auto. apply Rmult_le_pos; [|lra]. apply Rmult_le_pos; lra. }
      unfold Rdiv in *. nra. }
  rewrite Hout, Hd.
  replace (p_cap (ep c) * (o * (e_I (es c) * dt / 3600 / p_cap (ep c)))) with (o * (e_I (es c) * dt) / 3600)
    by (field; lra).
  assert (Q := pairs_step dt (e_I (es c)) Hdt (p_Rp (ep c)) (p_itau (ep c)) (e_Ir (es c)) P5 P6 P3 P4 Hs).
  rewrite <- E5 in Q. unfold stored. rewrite Fp. rewrite Vv.
  assert (0 <= p_Rdc (ep c) * (e_I (es c) * e_I (es c)) * dt)
    by (apply Rmult_le_pos; [apply Rmult_le_pos; [auto|apply Rle_0_sqr]|auto]).
  unfold Rdiv in *. nra.
Qed.

Lemma steps_energy dt : 0 <= dt -> forall n c c1,
  passive c -> Forall (fun k => dt * k <= 2) (p_itau (ep c)) ->
  ecm_steps n dt c = (c1, Ok tt) ->
  (forall k, (1 <= k <= n)%nat -> readable (fst (ecm_steps k dt c))) ->
  exists l, Forall (on_table (p_ocv (ep c))) l /\ last l (e_SOC (es c)) = e_SOC (es c1) /\
  passive c1 /\ ep c1 = ep c /\
  (out (e_I (es c)) (e_Wh (es c1) - e_Wh (es c)) - into (e_I (es c)) (e_Wh (es c1) - e_Wh (es c)))
   + (stored c1 - stored c) / 3600
  <= p_cap (ep c) * path (curve (p_ocv (ep c))) (e_SOC (es c)) l.
Proof.
  intros Hdt. induction n as [|n IH]; intros c c1 P Hs H Hk.
  - cbn in H. injection H as <-. exists []. cbn [last path]. repeat split; auto; try apply P.
    rewrite out_into. destruct (Rlt_dec 0 _); lra.
  - cbn [ecm_steps] in H. destruct (ecm_step1 dt c) as [c' [[]| | |]] eqn:E; try discriminate.
    assert (R1 : readable c').
    { specialize (Hk 1%nat). cbn [ecm_steps] in Hk. rewrite E in Hk. apply Hk. lia. }
    destruct (step1_energy dt c c' P Hdt Hs E R1) as (T & P' & Ep & Ei & B).
    destruct (IH c' c1) as (l & L1 & L2 & L3 & L4 & L5); auto.
    { rewrite Ep. exact Hs. }
    { intros k Hkk. specialize (Hk (Datatypes.S k)). cbn [ecm_steps] in Hk. rewrite E in Hk. apply Hk. lia. }
    exists (e_SOC (es c') :: l). rewrite Ep in *. split; [constructor; auto|].
    split; [rewrite last_cons; exact L2|]. split; [exact L3|]. split; [exact L4|].
    cbn [path]. rewrite out_into in *. rewrite Ei in L5.
    destruct (Rlt_dec 0 (e_I (es c))); rewrite Rmult_plus_distr_l; lra.
Qed.

Lemma passive_same c c1 : same_but_I c c1 -> passive c -> passive c1 /\ stored c1 = stored c.
Proof.
  intros (H1 & _ & _ & H4 & _) [P1 P2 P3 P4 P5 P6].
  split; [split; rewrite ?H1, ?H4; auto|]. unfold stored. rewrite H1, H4. reflexivity.
Qed.

Lemma used_energy c del tak d : used c del tak d -> passive c ->
  exists l, Forall (on_table (p_ocv (ep c))) l /\ last l (e_SOC (es c)) = e_SOC (es d) /\
  del - tak + (stored d - stored c) / 3600 <= p_cap (ep c) * path (curve (p_ocv (ep c))) (e_SOC (es c)) l.
Proof.
  induction 1; intros P.
  - exists []. cbn [last path]. repeat split; auto. lra.
  - apply setCurrent_frame in H. destruct (passive_same _ _ H P) as [P' S'].
    destruct H as (H1 & _ & H3 & _). rewrite <- H1, <- H3, <- S'. auto.
  - apply setVoltage_frame in H. destruct (passive_same _ _ H P) as [P' S'].
    destruct H as (H1 & _ & H3 & _). rewrite <- H1, <- H3, <- S'. auto.
  - apply setVoltage_throws in H. destruct H as [-> _]. auto.
  - assert (P' : passive (ecm_setT t c)) by (destruct P; split; auto). apply (IHused P').
  - unfold ecm_timeStep_CC in *. destruct (nltb dt (nZ 0)) eqn:Hd; [discriminate|].
    assert (Hdt : 0 <= dt).
    { apply Rltb_false in Hd. rewrite R_nZ in Hd. exact Hd. }
    rewrite Nat2Z.id in H.
    destruct (steps_energy dt Hdt n c c1 P H0 H) as (l & L1 & L2 & L3 & L4 & L5).
    { intros k Hk. specialize (H1 k Hk). rewrite Nat2Z.id in H1. exact H1. }
    destruct (IHused L3) as (l' & K1 & K2 & K3). rewrite L4 in K1, K3.
    exists (l ++ l'). split; [apply Forall_app; auto|].
    split. { rewrite <- K2, <- L2. clear. revert l'. induction l as [|a l IH] using rev_ind; intros l'; [reflexivity|].
      rewrite <- app_assoc. cbn [app]. rewrite last_app_cons, last_last. reflexivity. }
    rewrite path_app, L2. lra.
Qed.

(** Energy out of the terminals is covered by energy into them, the capacitors and the charge given up. *)
Lemma used_bound c del tak d o : used c del tak d -> passive c -> ecm_OCV c = Ok o ->
  del + stored d / 3600 <= tak + stored c / 3600 + p_cap (ep c) * o * (e_SOC (es c) - e_SOC (es d)).
Proof.
  intros U P Ho. destruct (used_energy c del tak d U P) as (l & L1 & L2 & L3).
  assert (T : on_table (p_ocv (ep c)) (e_SOC (es c))) by (exists o; exact Ho).
  assert (M : mono (curve (p_ocv (ep c))) (e_SOC (es c) :: l)).
  { apply curve_mono; [apply P|]. constructor; auto. }
  assert (B := path_le _ (length l) l (e_SOC (es c)) (le_n _) M). rewrite L2 in B.
  assert (Hc : curve (p_ocv (ep c)) (e_SOC (es c)) = o).
  { unfold curve. unfold ecm_OCV in Ho. rewrite Ho. reflexivity. }
  rewrite Hc in B. destruct P as [P1 _ _ _ _ _].
  assert (B2 := Rmult_le_compat_l (p_cap (ep c)) _ _ (Rlt_le _ _ P1) B).
  lra.
Qed.

(** ** Which tables rise *)
Lemma rising_table (d : XYdata R) :
  length (xy_x d) = length (xy_y d) -> (2 <= length (xy_x d))%nat ->
  (Z.of_nat (length (xy_x d)) <= 2147483647)%Z ->
  increasing (xy_x d) ->
  (xy_fixed d = true -> exists x0 dx, 0 < dx /\ uniform (xy_x d) x0 dx) ->
  (forall i j u v, (i <= j)%nat -> nth_error (xy_y d) i = Some u -> nth_error (xy_y d) j = Some v -> u <= v) ->
  rising d.
Proof.
  intros Hl H2 Hmax Hi Hf Hm x y u v Hxy Eu Ev. unfold XYdata_interp in *.
  assert (F : forall t, linInt true (xy_x d) (xy_y d) (Z.of_nat (length (xy_x d))) t (xy_fixed d) =
                        linInt true (xy_x d) (xy_y d) (Z.of_nat (length (xy_x d))) t false).
  { intros t. destruct (xy_fixed d); [|reflexivity]. destruct (Hf eq_refl) as (x0 & dx & D & U).
    eapply linInt_fixed_eq; eauto. }
  rewrite F in Eu, Ev.
  destruct (nth_error (xy_x d) 0) as [a|] eqn:Ha; [|apply nth_error_None in Ha; lia].
  destruct (nth_error (xy_x d) (length (xy_x d) - 1)) as [b|] eqn:Hb; [|apply nth_error_None in Hb; lia].
  assert (A1 : a <= x).
  { destruct (nltb x a) eqn:C.
    - rewrite (linInt_below _ _ _ a b false Ha Hb C) in Eu. discriminate.
    - apply Rltb_false in C. exact C. }
  assert (A2 : y <= b).
  { destruct (nltb b y) eqn:C.
    - rewrite (linInt_above _ _ _ a b false Ha Hb C) in Ev. discriminate.
    - apply Rltb_false in C. exact C. }
  eapply linInt_monotone with (a := a) (b := b); eauto.
Qed.

(** ** The default cell *)
Lemma default_ys nrc : xy_y (p_ocv (ecm_default_par (A := R) nrc)) = [2; 315 / 100; 43 / 10].
Proof.
  cbn -[nlit]. unfold nZ. rewrite !R_nlit. change (Pos.to_nat 3) with 3%nat. cbn [seq map]. rewrite !R_nlit.
  cbn [Z.of_nat Pos.of_succ_nat Pos.succ].
  match goal with |- [?a;?b;?c] = _ =>
    replace a with 2 by lra; replace b with (315/100) by lra; replace c with (43/10) by lra end. reflexivity.
Qed.

Lemma default_rising nrc : rising (p_ocv (ecm_default_par (A := R) nrc)).
Proof.
  assert (G := default_ocv_good nrc). destruct G as [G1 G2 G3 G4 _ _ G5].
  apply rising_table; auto.
  rewrite default_ys.
  intros [|[|[|i]]] [|[|[|j]]] u v Hij; cbn; try lia; intros H1 H2;
    try (destruct i; discriminate); try (destruct j; discriminate); injection H1 as <-; injection H2 as <-; lra.
Qed.

Lemma default_passive nrc : (nrc <= 2)%nat -> passive (ecm_default (A := R) nrc).
Proof.
  intros H. assert (D := default_rising nrc).
  destruct nrc as [|[|[|n]]]; [| | |lia]; (split; [| | | | |exact D]); cbn -[nlit]; unfold nZ;
    rewrite ?R_nlit; repeat constructor; try lra; rewrite ?R_nlit; try lra;
    cbn [ndiv nmul RNum]; apply Rdiv_lt_0_compat; lra.
Qed.

Lemma default_readable st x : 0 <= e_SOC st <= 1 -> Rabs (e_I st) <= 10 -> e_Ir st = [x] -> Rabs x <= 10 ->
  readable (mkEcm (ecm_default_par 1) st) /\ exists v, ecm_V (mkEcm (ecm_default_par 1) st) = Ok v /\ 1 <= v.
Proof.
  intros Hs Hi Hx Hx1.
  enough (H : (exists o, ecm_OCV (mkEcm (ecm_default_par 1) st) = Ok o) /\
              exists v, ecm_V (mkEcm (ecm_default_par 1) st) = Ok v /\ 1 <= v).
  { destruct H as (H & v & Hv & H1). split; [split; [exact H|]|]; exists v; split; auto; lra. }
  destruct (good_ocv_interp _ _ (default_ocv_good 1) Hs) as (o & Eo & Po).
  assert (Eo' : ecm_OCV (mkEcm (ecm_default_par 1) st) = Ok o) by exact Eo.
  split; [exists o; exact Eo'|].
  assert (B : 2 <= o <= 43 / 10).
  { eapply on_polyline_between; [apply (default_ocv_good 1)|exact Po|].
    change (p_ocv (ep (ecm_default 1))) with (p_ocv (ecm_default_par (A := R) 1)).
    rewrite default_ys. cbn. intros v Hv. lra. }
  unfold ecm_V. rewrite Eo'. eexists. split; [reflexivity|].
  rewrite sub_drops_pol. unfold pol. cbn [es ep p_Rp]. rewrite Hx.
  cbn -[nlit]. rewrite !R_nlit.
  unfold Rabs in Hi, Hx1. destruct (Rcase_abs (e_I st)), (Rcase_abs x); lra.
Qed.
