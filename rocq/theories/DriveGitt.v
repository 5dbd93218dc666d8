(** * Lemmas about the pulse test *)
From Coq Require Import Reals Lra Lia SpecFloat ZArith List.
Import ListNotations.
From Flocq Require Import Core.
From Verif Require Import Base RFacts StatusModel UtilModel CellModel ModuleModel SpmModel SpmSpec SpmProofs SpmReal SpmUnitModel DriveModel DriveSpec DriveProofs
  FloatSpec FloatFacts FloatEcm.

Section Any.
Context {A : Type} {NA : Num A} {S : Type} (o : su_ops A S).
Implicit Types (c d : S).

(** [n] seconds from [t]: the instants, and the end. *)
Fixpoint clock (n : nat) (t : A) : list A := match n with O => [] | Datatypes.S n' => t :: clock n' (nadd t (nZ 1)) end.
Fixpoint clock_end (n : nat) (t : A) : A := match n with O => t | Datatypes.S n' => clock_end n' (nadd t (nZ 1)) end.
Lemma clock_app n m t : clock (n + m) t = clock n t ++ clock m (clock_end n t).
Proof. revert t. induction n as [|n IH]; intros t; cbn; [reflexivity|]. now rewrite IH. Qed.
Lemma clock_end_app n m t : clock_end (n + m) t = clock_end m (clock_end n t).
Proof. revert t. induction n as [|n IH]; intros t; cbn; [reflexivity|]. now rewrite IH. Qed.

Lemma line_ok t c d x r : line o t (c, d) = (x, Ok r) ->
  exists c1 v d1 w, o_V o c = (c1, Ok v) /\ o_V o d = (d1, Ok w) /\ x = (c1, d1) /\ r = (t, o_I o c, v, o_I o d, w).
Proof.
  cbn. destruct (o_V o c) as [c1 [v| | |]]; try discriminate. destruct (o_V o d) as [d1 [w| | |]]; try discriminate. intros H. injection H as <- <-. eauto 8.
Qed.
Lemma both_ok {B : Type} (f g : M S B) c d x : both f g (c, d) = (x, Ok tt) ->
  exists c1 a d1 b, f c = (c1, Ok a) /\ g d = (d1, Ok b) /\ x = (c1, d1).
Proof.
  cbn. destruct (f c) as [c1 [v| | |]]; try discriminate. destruct (g d) as [d1 [w| | |]]; try discriminate. intros H. injection H as <-. eauto 8.
Qed.
Lemma mbind_ok {T B C : Type} (m : M T B) (f : B -> M T C) s s' r : mbind m f s = (s', Ok r) ->
  exists s1 b, m s = (s1, Ok b) /\ f b s1 = (s', Ok r).
Proof. unfold mbind. destruct (m s) as [s1 [b| | |]]; try discriminate. eauto. Qed.

Lemma seconds_ok n : forall t c d x t' l, seconds o n t (c, d) = (x, Ok (t', l)) ->
  held o n c (map col_c l) (fst x) /\ held o n d (map col_d l) (snd x) /\ map col_t l = clock n t /\ t' = clock_end n t.
Proof.
  induction n as [|n IH]; intros t c d x t' l H.
  - injection H as <- <- <-. repeat split; constructor.
  - cbn [seconds] in H. apply mbind_ok in H. destruct H as (s1 & r & H1 & H). apply line_ok in H1. destruct H1 as (c1 & v & d1 & w & V1 & V2 & -> & ->).
    apply mbind_ok in H. destruct H as (s2 & [] & H2 & H). apply both_ok in H2. destruct H2 as (c2 & [] & d2 & [] & T1 & T2 & ->).
    apply mbind_ok in H. destruct H as ([c3 d3] & [t3 l3] & H3 & H). injection H as <- <- <-.
    destruct (IH _ _ _ _ _ _ H3) as (K1 & K2 & K3 & K4). cbn [map col_c col_d col_t clock clock_end].
    split; [econstructor; eauto|]. split; [econstructor; eauto|]. split; [now rewrite K3|exact K4].
Qed.
Lemma pulses_ok np nr i n : forall t c d x l, pulses o n np nr i t (c, d) = (x, Ok l) ->
  exists lc ld, runs o (pulse_plan n np nr (nopp i)) c lc (fst x) /\ runs o (pulse_plan n np nr i) d ld (snd x) /\
    map col_c l = concat lc /\ map col_d l = concat ld /\ map col_t l = clock (n * (np + nr)) t.
Proof.
  induction n as [|n IH]; intros t c d x l H.
  - injection H as <- <-. exists [], []. repeat split; constructor.
  - cbn [pulses] in H. apply mbind_ok in H. destruct H as (s1 & [] & H1 & H). apply both_ok in H1. destruct H1 as (c1 & sc & d1 & sd & C1 & D1 & ->).
    apply mbind_ok in H. destruct H as ([c2 d2] & [t1 l1] & H2 & H). destruct (seconds_ok _ _ _ _ _ _ _ H2) as (K1 & K2 & K3 & K4).
    apply mbind_ok in H. destruct H as (s3 & [] & H3 & H). apply both_ok in H3. destruct H3 as (c3 & sc3 & d3 & sd3 & C3 & D3 & ->).
    apply mbind_ok in H. destruct H as ([c4 d4] & [t2 l2] & H4 & H). destruct (seconds_ok _ _ _ _ _ _ _ H4) as (J1 & J2 & J3 & J4).
    apply mbind_ok in H. destruct H as (x5 & l5 & H5 & H). injection H as <- <-.
    destruct (IH _ _ _ _ _ H5) as (lc & ld & R1 & R2 & R3 & R4 & R5). cbn [fst snd] in K1, K2, J1, J2.
    exists (map col_c l1 :: map col_c l2 :: lc), (map col_d l1 :: map col_d l2 :: ld).
    unfold pulse_plan in *. cbn [repeat concat app].
    split; [econstructor; [exact C1|exact K1|]; econstructor; [exact C3|exact J1|exact R1]|].
    split; [econstructor; [exact D1|exact K2|]; econstructor; [exact D3|exact J2|exact R2]|].
    rewrite !map_app. cbn [concat]. rewrite R3, R4, R5, K3, J3. repeat split.
    change (Datatypes.S n * (np + nr))%nat with (np + nr + n * (np + nr))%nat. rewrite !clock_app, clock_end_app, K4. subst t2. rewrite K4, <- app_assoc. reflexivity.
Qed.
End Any.

(** ** The instants *)
Lemma clock_R n : forall (t : R) k x, nth_error (clock n t) k = Some x -> x = (t + INR k)%R.
Proof.
  induction n as [|n IH]; intros t [|k] x H; try discriminate; cbn [clock nth_error] in H.
  - injection H as <-. cbn. lra.
  - apply IH in H. rewrite H, R_nZ, S_INR. cbn [nadd RNum]. lra.
Qed.
Lemma clock_f64 n : forall (t : f64) z k x, fin t -> fval t = IZR z -> (0 <= z)%Z -> (z + Z.of_nat k <= 2 ^ 53)%Z ->
  nth_error (clock n t) k = Some x -> fin x /\ fval x = IZR (z + Z.of_nat k).
Proof.
  induction n as [|n IH]; intros t z [|k] x Ft Vt Z0 Zk H; try discriminate; cbn [clock nth_error] in H.
  - injection H as <-. split; [exact Ft|]. now rewrite Z.add_0_r.
  - destruct (fnZ 1) as [F1 V1]; [easy|]. rewrite Nat2Z.inj_succ in *.
    assert (B : (Z.abs (z + 1) <= 2 ^ 53)%Z) by lia.
    destruct (fadd t (nZ 1) Ft F1) as [Fs Vs].
    { rewrite Vt, V1, <- plus_IZR, <- abs_IZR. apply Rle_trans with (IZR (2 ^ 53)); [now apply IZR_le|]. change (IZR (2 ^ 53)) with (bpow radix2 53). unfold huge. apply bpow_le. easy. }
    change (SFadd prec64 emax64 t (nZ 1)) with (nadd t (nZ 1)) in Fs, Vs.
    rewrite Vt, V1, <- plus_IZR, rnd_id in Vs by now apply fmt_int.
    replace (z + Z.succ (Z.of_nat k))%Z with (z + 1 + Z.of_nat k)%Z by lia. apply (IH (nadd t (nZ 1)) (z + 1)%Z k x Fs Vs); [lia|lia|exact H].
Qed.

(** ** Single-particle cells *)
Section Spm.
Variables (F : fns R) (tm : Z).
Notation O := (spm_ops F tm).
Implicit Types (c : spm R).
Local Open Scope R_scope.

Lemma held_spm n : forall c l c', held O n c l c' ->
  length l = n /\ Forall (fun y => fst y = s_I (cs c)) l /\ cp c' = cp c /\ s_I (cs c') = s_I (cs c) /\
  s_time (cs c') = s_time (cs c) + INR n /\ s_Ah (cs c') = s_Ah (cs c) + INR n * Rabs (s_I (cs c)) / 3600 /\
  s_SOC (cs c') = s_SOC (cs c) - INR n * s_I (cs c) / (q_cap (cp c) * 3600).
Proof.
  induction n as [|n IH]; intros c l c' H; inversion H as [|? ? u1 v u2 l' ? E1 E2 E3]; subst.
  - cbn [length INR]. repeat split; auto; unfold Rdiv; ring.
  - cbn [o_V O] in E1. cbn [o_timeStep O] in E2. destruct (V_ok _ _ _ _ E1) as (P & _ & _ & (w & S) & _).
    change 1%Z with (Z.of_nat 1) in E2. destruct (timeStep_counters _ _ _ _ _ _ E2) as (_ & P2 & I2 & Z2 & T2 & A2).
    rewrite R_nZ in Z2, T2, A2. cbn [INR] in Z2, T2, A2. rewrite S in I2, Z2, T2, A2. cbn [s_I s_SOC s_time s_Ah st_V] in I2, Z2, T2, A2.
    destruct (IH _ _ _ E3) as (K1 & K2 & K3 & K4 & K5 & K6 & K7). rewrite P in Z2.
    assert (P3 : cp u2 = cp c) by congruence. rewrite P3, I2 in *. cbn [length o_I O]. rewrite S_INR.
    split; [now rewrite K1|]. split; [constructor; [reflexivity|exact K2]|]. split; [exact K3|]. split; [exact K4|].
    rewrite K5, K6, K7, T2, A2, Z2. unfold Rdiv. repeat split; ring.
Qed.
Lemma runs_spm ps : forall c ls c', runs O ps c ls c' ->
  kept (s_I (cs c)) ps ls /\ cp c' = cp c /\ s_time (cs c') = s_time (cs c) + INR (length (concat ls)) /\
  s_Ah (cs c') = s_Ah (cs c) + Rsum (map (fun y => Rabs (fst y)) (concat ls)) / 3600 /\
  s_SOC (cs c') = s_SOC (cs c) - Rsum (map fst (concat ls)) / (q_cap (cp c) * 3600).
Proof.
  induction ps as [|[i n] ps IH]; intros c ls c' H; inversion H as [|? ? ? ? u1 st l u2 ls' ? E1 E2 E3]; subst.
  - cbn [concat map Rsum length INR]. repeat split; unfold Rdiv; ring.
  - cbn [o_setCurrent O] in E1. destruct (setCurrent_ok _ _ _ _ _ E1) as (P & _ & _ & w & S).
    destruct (held_spm _ _ _ _ E2) as (K1 & K2 & K3 & K4 & K5 & K6 & K7). rewrite S in K2, K4, K5, K6, K7. cbn [s_I s_SOC s_time s_Ah st_V st_I] in K2, K4, K5, K6, K7.
    destruct (IH _ _ _ E3) as (J1 & J2 & J3 & J4 & J5). set (x := if isStatusBad st then s_I (cs c) else i) in *.
    assert (X : x = i \/ x = s_I (cs c)) by (subst x; destruct (isStatusBad st); auto).
    assert (Q1 : Rsum (map fst l) = INR n * x /\ Rsum (map (fun y => Rabs (fst y)) l) = INR n * Rabs x).
    { rewrite <- K1. clear - K2. induction K2 as [|y l Hy _ IHl]; [cbn; split; ring|]. cbn [map Rsum length]. rewrite S_INR. destruct IHl as [-> ->]. rewrite Hy. split; ring. }
    destruct Q1 as [Q1 Q2]. split; [exists x; split; [exact K1|]; split; [exact K2|]; split; [exact X|]; rewrite <- K4; exact J1|].
    split; [congruence|]. cbn [concat]. rewrite app_length, plus_INR, !map_app, !Rsum_app, K1, Q1, Q2.
    assert (P2 : cp u2 = cp c) by congruence. rewrite J3, J4, J5, K5, K6, K7, P2, P. unfold Rdiv. repeat split; ring.
Qed.
Lemma planned_sums ps ls : as_planned ps ls ->
  Rsum (map fst (concat ls)) = Rsum (map (fun p => INR (snd p) * fst p) ps) /\
  Rsum (map (fun y => Rabs (fst y)) (concat ls)) = Rsum (map (fun p => INR (snd p) * Rabs (fst p)) ps).
Proof.
  induction 1 as [|[i n] l ps ls [H1 H2] _ [IH1 IH2]]; [split; reflexivity|]. cbn [concat map Rsum fst snd] in *. rewrite !map_app, !Rsum_app, IH1, IH2.
  assert (Q1 : Rsum (map fst l) = INR n * i /\ Rsum (map (fun y => Rabs (fst y)) l) = INR n * Rabs i).
  { rewrite <- H1. clear - H2. induction H2 as [|y l Hy _ IHl]; [cbn; split; ring|]. cbn [map Rsum]. cbn [length]. rewrite S_INR. destruct IHl as [-> ->]. rewrite Hy. split; ring. }
  destruct Q1 as [-> ->]. split; reflexivity.
Qed.
Lemma plan_sums n np nr (i : R) : Rsum (map (fun p => INR (snd p) * fst p) (pulse_plan n np nr i)) = INR n * INR np * i /\
  Rsum (map (fun p => INR (snd p) * Rabs (fst p)) (pulse_plan n np nr i)) = INR n * INR np * Rabs i.
Proof.
  unfold pulse_plan. induction n as [|n [IH1 IH2]]; [cbn; split; ring|]. cbn [repeat concat]. rewrite !map_app, !Rsum_app, IH1, IH2. cbn [map Rsum fst snd].
  rewrite R_nZ, Rabs_R0, S_INR. split; ring.
Qed.
End Spm.
