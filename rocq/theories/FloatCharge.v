(** * Proofs for C86: the charge reported by the cycler, in double arithmetic *)
From Coq Require Import Reals Lra Lia SpecFloat ZArith List Bool.
Import ListNotations.
From Flocq Require Import Core BinarySingleNaN.
From Verif Require Import Base RFacts StatusModel UtilModel CellModel CoolModel ModuleModel CyclerModel CyclerSpec CyclerProofs FloatSpec FloatFacts FloatEcm FloatCyc FloatInt FloatChargeSpec.
Local Open Scope R_scope.

Lemma bp_le a b x : (a <= b)%Z -> x <= bpow radix2 a -> x <= bpow radix2 b.
Proof. intros H K. apply Rle_trans with (1 := K). now apply bpow_le. Qed.
Lemma bp_mul x y a b : 0 <= x <= bpow radix2 a -> 0 <= y <= bpow radix2 b -> 0 <= x * y <= bpow radix2 (a + b).
Proof. intros [] []. rewrite bpow_plus. split; [now apply Rmult_le_pos|]. now apply Rmult_le_compat. Qed.
Lemma bp_dbl x a : x <= bpow radix2 a -> 2 * x <= bpow radix2 (a + 1).
Proof. intros H. rewrite bpow_plus. change (bpow radix2 1) with 2. lra. Qed.

Notation u := (bpow radix2 (-1021)).
Notation w := (bpow radix2 (-1000)).
Lemma u_w : 0 < u /\ 4 * u <= w.
Proof.
  split; [apply bpow_gt_0|]. apply Rle_trans with (bpow radix2 (2 + -1021)); [rewrite bpow_plus; change (bpow radix2 2) with 4; lra|apply bpow_le; lia].
Qed.

(** A product and a quotient by 3600 of non-negative doubles. *)
Lemma div3600 (y : f64) : fin y -> 0 <= fval y <= bpow radix2 700 ->
  fin (ndiv y (nZ 3600)) /\ 0 <= fval (ndiv y (nZ 3600)) /\ Rabs (fval (ndiv y (nZ 3600)) - fval y / 3600) <= eps * (fval y / 3600) + u.
Proof.
  intros Fy [P B]. destruct (fnZ 3600) as [F V]; [easy|]. destruct (fdiv y (nZ 3600) Fy F) as [FD VD].
  - rewrite V. lra.
  - rewrite V. rewrite Rabs_pos_eq by lra. apply Rle_trans with (fval y); [lra|]. apply (bp_le 700 1023); [lia|exact B].
  - cbn [ndiv SFNum]. split; [exact FD|]. rewrite VD, V. split; [apply rnd_pos; lra|].
    pose proof (rnd_abs (fval y / 3600)) as H. rewrite (Rabs_pos_eq (fval y / 3600)) in H by lra. exact H.
Qed.
Lemma mul_pos (x y : f64) a b : fin x -> fin y -> 0 <= fval x <= bpow radix2 a -> 0 <= fval y <= bpow radix2 b -> (a + b <= 690)%Z ->
  fin (nmul x y) /\ 0 <= fval (nmul x y) <= bpow radix2 700 /\ Rabs (fval (nmul x y) - fval x * fval y) <= eps * (fval x * fval y) + u.
Proof.
  intros Fx Fy Rx Ry H. pose proof (bp_mul _ _ _ _ Rx Ry) as [P Q]. assert (Q2 : fval x * fval y <= bpow radix2 690) by (apply (bp_le (a + b)); assumption).
  destruct (fmul x y Fx Fy) as [F V]. { rewrite Rabs_pos_eq by exact P. now apply (bp_le 690 1023). }
  cbn [nmul SFNum]. split; [exact F|]. rewrite V. pose proof (rnd_abs (fval x * fval y)) as E. rewrite (Rabs_pos_eq (fval x * fval y)) in E by exact P.
  split; [|exact E]. split; [now apply rnd_pos|]. assert (E1 : fmt (bpow radix2 700)) by (apply generic_format_bpow; unfold FLT_exp; lia).
  rewrite <- (rnd_id _ E1). apply rnd_le. now apply (bp_le 690).
Qed.
Definition near (p : f64) (q : R) : Prop := fin p /\ 0 <= fval p /\ 0 <= q <= bpow radix2 620 /\ Rabs (fval p - q) <= 4 * eps * q + w.
Lemma eps_twice t : 0 <= t -> eps * (eps * t) <= eps * t / 1000000.
Proof.
  intros H. pose proof eps_pos as EP. pose proof eps_small as ES. assert (0 <= eps * t) by (apply Rmult_le_pos; lra).
  apply Rle_trans with (/ 1000000 * (eps * t)); [apply Rmult_le_compat_r; lra|lra].
Qed.
Lemma eps_le a b : a <= b -> eps * a <= eps * b.
Proof. intros H. pose proof eps_pos. apply Rmult_le_compat_l; lra. Qed.
Lemma near_chain x z i m y p : 0 <= i -> 0 <= m -> 0 <= x -> 0 <= y -> Rabs (x - m) <= eps * m -> Rabs (y - i * x) <= eps * (i * x) + u -> Rabs (p - y / 3600) <= eps * (y / 3600) + u ->
  z = i * m / 3600 -> Rabs (p - z) <= 4 * eps * z + w.
Proof.
  intros Pi Pm Px Py E1 E2 E3 ->. pose proof eps_pos as EP. pose proof eps_small as ES. destruct u_w as [U1 U2].
  apply Rabs_le_inv in E1, E2, E3. set (E := i * m / 3600). assert (HE : 0 <= E) by (unfold E; pose proof (Rmult_le_pos _ _ Pi Pm); lra).
  assert (A1 : Rabs (i * x / 3600 - E) <= eps * E).
  { unfold E. replace (i * x / 3600 - i * m / 3600) with (i / 3600 * (x - m)) by field. rewrite Rabs_mult, (Rabs_pos_eq (i / 3600)) by lra.
    replace (eps * (i * m / 3600)) with (i / 3600 * (eps * m)) by field. apply Rmult_le_compat_l; [lra|]. apply Rabs_le; split; lra. }
  apply Rabs_le_inv in A1. set (F := i * x / 3600) in *. assert (A2 : i * x = 3600 * F) by (unfold F; field). rewrite A2 in E2.
  set (G := y / 3600) in *. assert (A3 : y = 3600 * G) by (unfold G; field). rewrite A3 in E2. clear A2 A3.
  assert (HG : - (eps * F + u) <= G - F <= eps * F + u) by lra. clear E2.
  assert (B1 : F <= E + eps * E) by lra. assert (B2 : G <= F + eps * F + u) by lra. assert (HF : 0 <= F) by (unfold F; pose proof (Rmult_le_pos _ _ Pi Px); lra).
  apply eps_le in B1, B2. pose proof (eps_twice E HE) as K2. pose proof (eps_twice F HF) as K4. pose proof (eps_le _ _ HE) as K6. pose proof (eps_le _ _ HF) as K7.
  assert (K5 : eps * u <= u) by (rewrite <- (Rmult_1_l u) at 2; apply Rmult_le_compat_r; lra).
  rewrite !Rmult_plus_distr_l in B1, B2. clearbody E F G.
  apply Rabs_le. split; lra.
Qed.
Lemma steps_mul (d : f64) n : fin d -> 0 <= fval d <= bpow radix2 300 -> (1 <= n <= 10)%Z ->
  fin (nmul d (nZ n)) /\ 0 <= fval (nmul d (nZ n)) <= bpow radix2 305 /\ Rabs (fval (nmul d (nZ n)) - fval d * IZR n) <= eps * (fval d * IZR n) /\ 0 <= fval d * IZR n <= bpow radix2 304.
Proof.
  intros Fd [Pd Bd] Hn. destruct (fnZ n) as [Fn Vn]; [lia|]. assert (N : 0 <= IZR n <= bpow radix2 4) by (change (bpow radix2 4) with (IZR 16); split; apply IZR_le; lia).
  pose proof (bp_mul _ _ _ _ (conj Pd Bd) N) as [P Q]. change (300 + 4)%Z with 304%Z in Q.
  destruct (fmul d (nZ n) Fd Fn) as [F V]. { rewrite Vn, Rabs_pos_eq by exact P. now apply (bp_le 304 1023). }
  cbn [nmul SFNum]. split; [exact F|]. rewrite V, Vn. split.
  - split; [now apply rnd_pos|]. assert (E1 : fmt (bpow radix2 305)) by (apply generic_format_bpow; unfold FLT_exp; lia).
    rewrite <- (rnd_id _ E1). apply rnd_le. now apply (bp_le 304).
  - split; [|auto]. pose proof (int_mul_err (fval d) n (fmt_val d Fd)) as E. rewrite (Rmult_comm (IZR n)), (Rabs_pos_eq (fval d * IZR n)) in E by exact P. exact E.
Qed.

(** ** The two portions the cycler adds *)
Definition cc_portion (i d : f64) (n : Z) : f64 := ndiv (nmul (nabs i) (nmul d (nZ n))) (nZ 3600).
Lemma cc_near i d n : fin i -> Rabs (fval i) <= bpow radix2 300 -> fin d -> 0 <= fval d <= bpow radix2 300 -> (1 <= n <= 10)%Z ->
  near (cc_portion i d n) (Rabs (fval i) * (fval d * IZR n) / 3600).
Proof.
  intros Fi Bi Fd Rd Hn. destruct (steps_mul d n Fd Rd Hn) as (F1 & R1 & E1 & R2). destruct (fabs i Fi) as [Fa Va]. change (SFabs i) with (nabs (A := f64) i) in Fa, Va.
  assert (Ra : 0 <= fval (nabs i) <= bpow radix2 300) by (rewrite Va; split; [apply Rabs_pos|exact Bi]).
  destruct (mul_pos (nabs i) (nmul d (nZ n)) 300 305 Fa F1 Ra R1) as (F2 & R3 & E2); [lia|].
  destruct (div3600 _ F2 R3) as (F3 & P3 & E3). split; [exact F3|]. split; [exact P3|]. rewrite Va in E2.
  pose proof (bp_mul _ _ _ _ (conj (Rabs_pos (fval i)) Bi) R2) as [P Q]. change (300 + 304)%Z with 604%Z in Q.
  split; [split; [lra|]; apply Rle_trans with (Rabs (fval i) * (fval d * IZR n)); [lra|now apply (bp_le 604)]|].
  exact (near_chain (fval (nmul d (nZ n))) _ (Rabs (fval i)) (fval d * IZR n) (fval (nmul (nabs i) (nmul d (nZ n)))) _ (Rabs_pos _) (proj1 R2) (proj1 R1) (proj1 R3) E1 E2 E3 eq_refl).
Qed.
Definition cv_portion (i d : f64) : f64 := nabs (ndiv (nmul i d) (nZ 3600)).
Lemma rnd_opp x : rnd (- x) = - rnd x.
Proof. apply round_NE_opp. Qed.
Lemma rnd_Rabs x : Rabs (rnd x) = rnd (Rabs x).
Proof.
  unfold Rabs at 2. destruct (Rcase_abs x) as [H|H].
  - rewrite rnd_opp. apply Rabs_left1. apply rnd_neg. lra.
  - apply Rabs_pos_eq. apply rnd_pos. lra.
Qed.
Lemma cv_near i d : fin i -> Rabs (fval i) <= bpow radix2 300 -> fin d -> 0 <= fval d <= bpow radix2 300 ->
  near (cv_portion i d) (Rabs (fval i) * (fval d * IZR 1) / 3600).
Proof.
  intros Fi Bi Fd Rd. pose proof (bp_mul _ _ _ _ (conj (Rabs_pos (fval i)) Bi) Rd) as [P Q]. change (300 + 300)%Z with 600%Z in Q.
  assert (A : Rabs (fval i * fval d) = Rabs (fval i) * fval d) by (rewrite Rabs_mult, (Rabs_pos_eq (fval d)) by apply Rd; reflexivity).
  destruct (fmul i d Fi Fd) as [F1 V1]. { rewrite A. now apply (bp_le 600 1023). }
  change (SFmul prec64 emax64 i d) with (nmul (A := f64) i d) in F1, V1.
  assert (B1 : Rabs (rnd (fval i * fval d)) <= bpow radix2 601).
  { rewrite rnd_Rabs, A. assert (E1 : fmt (bpow radix2 601)) by (apply generic_format_bpow; unfold FLT_exp; lia).
    rewrite <- (rnd_id _ E1). apply rnd_le. now apply (bp_le 600). }
  destruct (fnZ 3600) as [F V]; [easy|]. destruct (fdiv (nmul i d) (nZ 3600) F1 F) as [F2 V2].
  { rewrite V. lra. }
  { rewrite V, V1. unfold Rdiv. rewrite Rabs_mult, (Rabs_pos_eq (/ 3600)) by lra. apply Rle_trans with (Rabs (rnd (fval i * fval d))); [pose proof (Rabs_pos (rnd (fval i * fval d))); lra|].
    now apply (bp_le 601 1023). }
  change (SFdiv prec64 emax64 (nmul i d) (nZ 3600)) with (ndiv (A := f64) (nmul i d) (nZ 3600)) in F2, V2. rewrite V, V1 in V2.
  destruct (fabs _ F2) as [F3 V3]. change (SFabs (ndiv (nmul i d) (nZ 3600))) with (cv_portion i d) in F3, V3.
  assert (E : fval (cv_portion i d) = rnd (rnd (Rabs (fval i) * fval d) / 3600)).
  { rewrite V3, V2, rnd_Rabs. unfold Rdiv. rewrite Rabs_mult, (Rabs_pos_eq (/ 3600)), rnd_Rabs, A by lra. reflexivity. }
  rewrite !Rmult_1_r. split; [exact F3|]. rewrite E. assert (P1 := rnd_pos _ P). split; [apply rnd_pos; lra|].
  split; [split; [lra|]; apply Rle_trans with (Rabs (fval i) * fval d); [lra|now apply (bp_le 600)]|].
  pose proof (rnd_abs (Rabs (fval i) * fval d)) as E1. rewrite (Rabs_pos_eq (_ * _)) in E1 by exact P.
  pose proof (rnd_abs (rnd (Rabs (fval i) * fval d) / 3600)) as E2. rewrite (Rabs_pos_eq (_ / 3600)) in E2 by lra.
  refine (near_chain (fval d) _ (Rabs (fval i)) (fval d) (rnd (Rabs (fval i) * fval d)) _ (Rabs_pos _) (proj1 Rd) (proj1 Rd) P1 _ E1 E2 eq_refl).
  rewrite Rminus_diag_eq, Rabs_R0 by reflexivity. pose proof eps_pos. apply Rmult_le_pos; [lra|apply Rd].
Qed.

(** ** A counter that adds up portions *)
Notation top := (bpow radix2 1005).
Fixpoint qsum (ps : list (f64 * R)) : R := match ps with [] => 0 | (_, q) :: r => q + qsum r end.
Definition psum (ps : list (f64 * R)) (a : f64) : f64 := fold_left (fun x p => nadd x (fst p)) ps a.
Lemma qsum_pos ps : Forall (fun p => near (fst p) (snd p)) ps -> 0 <= qsum ps.
Proof. induction 1 as [|[p q] ps (_ & _ & [H _] & _) _ IH]; cbn [qsum]; [lra|]. cbn [snd] in H. lra. Qed.
Lemma qsum_app a b : qsum (a ++ b) = qsum a + qsum b.
Proof. induction a as [|[p q] a IH]; cbn [app qsum]; [lra|]. rewrite IH. lra. Qed.
Lemma sum_counts ps : Forall (fun p => near (fst p) (snd p)) ps -> forall a, fin a -> 0 <= fval a ->
  fval a + 2 * qsum ps + INR (length ps) * (2 * eps * top + 2 * w) <= top -> counts (length ps) (qsum ps) a (psum ps a).
Proof.
  pose proof eps_pos as EP. pose proof eps_small as ES. destruct u_w as [U1 U2]. assert (PT : 0 < top) by apply bpow_gt_0.
  induction 1 as [|[p q] ps (Fp & Pp & [Pq Bq] & E) HF IH]; intros a Fa Pa B.
  - unfold counts, psum. cbn [fold_left length INR qsum]. split; [exact Fa|]. split; [lra|]. rewrite Rplus_0_r, Rminus_diag_eq, Rabs_R0 by reflexivity. lra.
  - unfold counts. cbn [fst snd] in *. cbn [qsum length] in B |- *. rewrite S_INR in B |- *. pose proof (qsum_pos ps HF) as PQ. pose proof (pos_INR (length ps)) as PN.
    pose proof E as E'. apply Rabs_le_inv in E'. assert (HET : 0 < eps * top) by (apply Rmult_lt_0_compat; lra).
    pose proof (eps_le _ _ Pq) as KQ. assert (KQ2 : eps * q <= q / 1000000) by (pose proof (Rmult_le_compat_r q _ _ Pq ES); lra).
    assert (N0 : 0 <= INR (length ps) * (2 * eps * top + 2 * w)) by (apply Rmult_le_pos; lra).
    assert (Bp : fval p <= 1.5 * q + w) by lra. assert (Bs : fval a + fval p <= top) by lra.
    destruct (fadd a p Fa Fp) as [F1 V1]. { rewrite Rabs_pos_eq by lra. now apply (bp_le 1005 1023). }
    change (SFadd prec64 emax64 a p) with (nadd (A := f64) a p) in F1, V1.
    assert (E1 := add_err (fval a) (fval p) (fmt_val a Fa) (fmt_val p Fp)). rewrite <- V1, (Rabs_pos_eq (fval a + fval p)) in E1 by lra. apply Rabs_le_inv in E1.
    pose proof (eps_le _ _ Bs) as KS. assert (P1 : 0 <= fval (nadd a p)) by (rewrite V1; apply rnd_pos; lra).
    assert (M1 : fval a <= fval (nadd a p)). { rewrite V1. rewrite <- (rnd_id (fval a)) at 1 by now apply fmt_val. apply rnd_le. lra. }
    destruct (IH (nadd a p) F1 P1) as (F2 & M2 & E2).
    { rewrite Rmult_plus_distr_r, Rmult_1_l in B. lra. }
    change (psum ((p, q) :: ps) a) with (psum ps (nadd a p)). split; [exact F2|]. split; [lra|].
    set (b := psum ps (nadd a p)) in *. set (a1 := nadd a p) in *. apply Rabs_le_inv in E2.
    assert (S0 : 0 <= fval a + fval p) by lra. assert (K1 : eps * (fval a + fval p) <= 2 * eps * fval b).
    { assert (fval a + fval p <= 2 * fval a1). { pose proof (Rmult_le_compat_r (fval a + fval p) _ _ S0 ES). lra. }
      pose proof (eps_le (fval a + fval p) (2 * fval b)). lra. }
    apply Rabs_le. rewrite !Rmult_plus_distr_r, !Rmult_plus_distr_l in *. rewrite !Rmult_1_l in *. split; lra.
Qed.
(** For a moderate number of steps from a moderate counter *)
Lemma sum_moderate ps a : Forall (fun p => near (fst p) (snd p)) ps -> counter a -> INR (length ps) <= bpow radix2 50 -> counts (length ps) (qsum ps) a (psum ps a).
Proof.
  intros H [Fa [Pa Ba]] N. apply sum_counts; try assumption.
  assert (Q : qsum ps <= INR (length ps) * bpow radix2 620).
  { clear N. induction H as [|[p q] ps (_ & _ & [_ B] & _) _ IH]; cbn [qsum length]; [cbn; lra|]. rewrite S_INR. cbn [snd] in B. lra. }
  assert (PN := pos_INR (length ps)).
  assert (Q2 : INR (length ps) * bpow radix2 620 <= bpow radix2 670). { change 670%Z with (50 + 620)%Z. rewrite bpow_plus. apply Rmult_le_compat_r; [apply bpow_ge_0|exact N]. }
  assert (T1 : 2 * eps * top + 2 * w <= bpow radix2 953 + bpow radix2 (-999)).
  { rewrite eps_bpow. change (bpow radix2 953) with (bpow radix2 (1 + (-53 + 1005))). change (bpow radix2 (-999)) with (bpow radix2 (1 + -1000)). rewrite !bpow_plus. change (bpow radix2 1) with 2. lra. }
  assert (T2 : bpow radix2 (-999) <= bpow radix2 953) by (apply bpow_le; lia).
  assert (T3 : INR (length ps) * (2 * eps * top + 2 * w) <= bpow radix2 1004).
  { apply Rle_trans with (bpow radix2 50 * bpow radix2 954).
    - apply Rmult_le_compat; [exact PN| |exact N|]. { pose proof eps_pos. pose proof (bpow_gt_0 radix2 1005). pose proof (bpow_gt_0 radix2 (-1000)). assert (0 < eps * top) by now apply Rmult_lt_0_compat. lra. }
      change 954%Z with (1 + 953)%Z. rewrite bpow_plus. change (bpow radix2 1) with 2. lra.
    - rewrite <- bpow_plus. apply Rle_refl. }
  assert (T4 : bpow radix2 1000 <= bpow radix2 1002) by (apply bpow_le; lia). assert (T5 : bpow radix2 670 <= bpow radix2 1001) by (apply bpow_le; lia).
  assert (E5 : top = 8 * bpow radix2 1002). { change 1005%Z with (3 + 1002)%Z. rewrite bpow_plus. reflexivity. }
  assert (E4 : bpow radix2 1004 = 4 * bpow radix2 1002). { change 1004%Z with (2 + 1002)%Z. rewrite bpow_plus. reflexivity. }
  assert (E1 : bpow radix2 1002 = 2 * bpow radix2 1001). { change 1002%Z with (1 + 1001)%Z. rewrite bpow_plus. reflexivity. }
  pose proof (bpow_gt_0 radix2 1001). rewrite E5, E1 in *. lra.
Qed.

(** ** What constant current adds *)
Definition cc_ps (I : f64) (l : list (event f64)) : list (f64 * R) :=
  flat_map (fun e => match e with EStep d n => [(cc_portion I d n, Rabs (fval I) * (fval d * IZR n) / 3600)] | _ => [] end) l.
Lemma cc_ps_app I a b : cc_ps I (a ++ b) = cc_ps I a ++ cc_ps I b.
Proof. apply flat_map_app. Qed.
Lemma cc_ps_passive I l : Forall fpassive l -> cc_ps I l = [].
Proof. induction 1 as [|e l H _ IH]; [reflexivity|]. destruct e; try exact IH; destruct H. Qed.
Lemma cc_ps_length I l : length (cc_ps I l) = dturns l.
Proof. induction l as [|e l IH]; [reflexivity|]. unfold dturns in *. destruct e; cbn; auto. Qed.
Lemma cc_ps_sum I l : qsum (cc_ps I l) = Rabs (fval I) * true_elapsed l / 3600.
Proof. induction l as [|e l IH]; [cbn; lra|]. destruct e; try exact IH.
  change (cc_ps I (EStep dt n :: l)) with ((cc_portion I dt n, Rabs (fval I) * (fval dt * IZR n) / 3600) :: cc_ps I l). cbn [qsum true_elapsed]. rewrite IH. lra. Qed.
Lemma psum_app a b x : psum (a ++ b) x = psum b (psum a x).
Proof. apply fold_left_app. Qed.
Definition counts_n (l : list (event f64)) : Prop := forall d n, In (EStep d n) l -> (1 <= n <= 10)%Z.
Lemma counts_n_app a b : counts_n a -> counts_n b -> counts_n (a ++ b).
Proof. intros A B d n H. apply in_app_or in H. destruct H; eauto. Qed.
Lemma counts_n_passive l : Forall fpassive l -> counts_n l.
Proof. intros H d n Hi. rewrite Forall_forall in H. destruct (H _ Hi). Qed.
Lemma cc_ps_near I l : fin I -> Rabs (fval I) <= bpow radix2 300 -> (forall d n, In (EStep d n) l -> fin d /\ 0 <= fval d <= bpow radix2 300) -> counts_n l ->
  Forall (fun p => near (fst p) (snd p)) (cc_ps I l).
Proof.
  intros FI BI H N. apply Forall_forall. intros [p q] Hi. apply in_flat_map in Hi. destruct Hi as (e & He & Hp). destruct e; cbn in Hp; try tauto. destruct Hp as [E|[]].
  injection E as <- <-. destruct (H _ _ He). apply cc_near; auto. exact (N _ _ He).
Qed.

Section CCf.
Context {S : Type} (o : unit_if f64 S) (nmaxd : nat) (diag : bool) (Hon : diag = true -> dhonest_V o).
Variable (I : f64) (a0 : f64).
Definition booked_f (l : list (event f64)) (t : th f64) : Prop := th_Ah t = psum (cc_ps I l) a0 /\ counts_n l.
Lemma booked_app l l' t : booked_f l t -> Forall fpassive l' -> booked_f (l ++ l') t.
Proof. intros [A N] H. split; [rewrite cc_ps_app, (cc_ps_passive _ l'), app_nil_r; assumption|apply counts_n_app; [assumption|now apply counts_n_passive]]. Qed.
Definition ccp (l' : list (event f64)) (t' : th f64) (r : res (Status + f64 * bool)) : Prop :=
  match r with Ok (inl st) => st <> ReachedTimeLimit /\ st <> ReachedVoltageLimit | Ok (inr _) => booked_f l' t' | _ => True end.
Lemma ccp_bad {B} (e : res B) l t : notok e -> ccp l t (cast e).
Proof. destruct e; [intros []|intros _; exact Logic.I..]. Qed.
Lemma cut_range nmax nOnce dti left : (1 <= nOnce <= nmax)%Z -> (1 <= cut_n (A := f64) nOnce dti left <= nmax)%Z.
Proof. intros H. unfold cut_n. destruct (nltb _ _); lia. Qed.
Lemma cc_loop_c vlim tlim ndt nmax : (1 <= nmax <= 10)%Z -> forall fuel dti ttot idat nOnce vo vi up l t,
  (1 <= nOnce <= nmax)%Z -> booked_f l t -> wp (cc_loop (logged o) nmaxd diag fuel I vlim tlim ndt nmax dti ttot idat nOnce vo vi up) ccp l t.
Proof.
  intros Hnm. induction fuel as [|f IH]; intros dti ttot idat nOnce vo vi up l t Hn Hb; cbn [cc_loop].
  - destruct (negb (nltb ttot tlim)); [apply wp_ret; exact Hb|]. intros s i. exact Logic.I.
  - destruct (negb (nltb ttot tlim)); [apply wp_ret; exact Hb|].
    apply wp_bind, wp_set_f.
    2: { intros l' e _ He. destruct e; [destruct He| | |]; exact Logic.I. }
    intros l1 st Hp _. apply (booked_app _ l1) in Hb; [|exact Hp]. generalize dependent (l ++ l1). clear l l1 Hp. intros l Hb.
    set (n := cut_n nOnce dti (nsub tlim ttot)). set (d := cut_dt dti (nsub tlim ttot)).
    assert (Rn : (1 <= n <= nmax)%Z) by now apply cut_range.
    apply wp_bind, wp_try, wp_bind. cbn [logged q_step]. apply wp_call.
    2: { intros e He. destruct e; [destruct He| | |]; cbn [cast]; try exact Logic.I. apply wp_ret. cbn [negb]. apply wp_ret. split; discriminate. }
    intros s2 s3 uu _. apply wp_ret. cbn [negb]. 
    assert (HV : forall v, wp (A := f64) (S := S)
       (call (q_V (logged o)) ;;;
        add_th (d * nZ n)%num (nabs I * (d * nZ n) / nZ 3600)%num (nabs I * (d * nZ n) / nZ 3600 * v)%num ;;;
        idat' <- store_due (logged o) nmaxd (idat + n)%Z ndt ;;
        if beyond I v vlim then mret (inr ((ttot + d * nZ n)%num, true))
        else
          (nu <- cc_adapt (logged o) I vlim vo v n up ;;
           cc_loop (logged o) nmaxd diag f I vlim tlim ndt nmax d (ttot + d * nZ n)%num idat' (zclamp (fst nu) 1 nmax) v v (snd nu)))%prog
        ccp ((l ++ [EStep d n]) ++ [EReadV v]) t).
    { intros v. apply wp_bind, wp_call.
      2: { intros e He. destruct e; [destruct He| | |]; exact Logic.I. }
      intros s4 s5 v2 _. apply wp_bind, wp_add_th. set (t' := mkTh _ _ _).
      apply wp_bind, wp_store_due.
      2: { intros l' e _ He. destruct e; [destruct He| | |]; exact Logic.I. }
      intros l' z Hl'.
      assert (E2 : (((l ++ [EStep d n]) ++ [EReadV v]) ++ [EReadV v2]) ++ l' = (l ++ [EStep d n]) ++ ([EReadV v] ++ [EReadV v2] ++ l')) by (rewrite <- !app_assoc; reflexivity).
      assert (Hb2 : booked_f ((((l ++ [EStep d n]) ++ [EReadV v]) ++ [EReadV v2]) ++ l') t').
      { rewrite E2. apply booked_app; [|apply Forall_app; split; [repeat constructor|apply Forall_app; split; [repeat constructor|now apply quiet_fpassive]]].
        destruct Hb as [A N]. split.
        - rewrite cc_ps_app, psum_app, <- A. reflexivity.
        - apply counts_n_app; [exact N|]. intros d' n' [E|[]]. injection E as <- <-. lia. }
      destruct (beyond I v vlim); [apply wp_ret; exact Hb2|].
      apply wp_bind, wp_adapt_f.
      2: { intros e He. destruct e; [destruct He| | |]; exact Logic.I. }
      intros nu. apply IH; [apply zclamp_range; lia|exact Hb2]. }
    apply wp_bind. destruct diag.
    + apply wp_bind. cbn [logged q_checkV]. apply wp_call.
      2: { intros e He. destruct e; [destruct He| | |]; exact Logic.I. }
      intros s4 s5 [v st2] Ek. apply wp_ret. cbn [fst snd]. destruct (isStatusSuccessful st2) eqn:Es; [apply HV|].
      apply wp_ret. exact (Hon eq_refl _ _ _ _ Ek).
    + apply wp_bind. cbn [logged q_V]. apply wp_call.
      2: { intros e He. destruct e; [destruct He| | |]; exact Logic.I. }
      intros s4 s5 v _. apply wp_ret. destruct (nleb v (nZ 0)); [|apply HV]. apply wp_ret. split; discriminate.
Qed.
Lemma CC_c vlim tlim dt ndt fuel t : th_Ah t = a0 ->
  wp (CC (logged o) nmaxd diag fuel I vlim tlim dt ndt) (fun l' t' r => r = Ok ReachedTimeLimit \/ r = Ok ReachedVoltageLimit -> booked_f l' t') [] t.
Proof.
  intros Ht. unfold CC. set (nmax := if (0 <? ndt)%Z then Z.min 2 ndt else 2%Z).
  assert (Hnm : (1 <= nmax <= 10)%Z) by (unfold nmax; destruct (Z.ltb_spec 0 ndt); lia).
  assert (B0 : forall l, Forall fpassive l -> booked_f l t) by (intros l Hl; split; [rewrite cc_ps_passive by exact Hl; exact Ht|now apply counts_n_passive]).
  assert (HE : forall B (e : res B), notok e -> forall l' t', (cast e : res Status) = Ok ReachedTimeLimit \/ (cast e : res Status) = Ok ReachedVoltageLimit -> booked_f l' t').
  { intros B e He l' t' Hc. exfalso. destruct e; [destruct He| | |]; destruct Hc; discriminate. }
  apply wp_bind, wp_store_if.
  2: { intros l' e _ He. pose proof (HE _ e He) as X. destruct e; [destruct He| | |]; apply X. }
  intros l0 Hl0. cbn [app]. apply quiet_fpassive in Hl0. apply wp_bind, wp_set_f.
  2: { intros l' e _ He. pose proof (HE _ e He) as X. destruct e; [destruct He| | |]; apply X. }
  intros l1 st Hl1 _. assert (Hp : Forall fpassive (l0 ++ l1)) by (apply Forall_app; now split). clear Hl0 Hl1. generalize dependent (l0 ++ l1). clear l0 l1. intros l Hp.
  destruct (negb (isStatusSuccessful st)); [apply wp_ret; intros _; now apply B0|].
  apply wp_bind. cbn [logged q_V]. apply wp_call.
  2: { intros e He. pose proof (HE _ e He) as X. destruct e; [destruct He| | |]; apply X. }
  intros s0 s1 v0 _. assert (Hp1 : Forall fpassive (l ++ [EReadV v0])) by (apply Forall_app; split; [exact Hp|repeat constructor]).
  destruct (beyond I v0 vlim); [apply wp_ret; intros _; now apply B0|].
  apply wp_bind. eapply wp_conseq; [apply cc_loop_c with (nmax := nmax); [exact Hnm|lia|now apply B0]|].
  cbn beta. intros l2 t2 r Hr. destruct r as [[st2|[x vt]]| | |].
  - apply wp_ret. intros [E|E]; injection E as ->; destruct Hr as [H1 H2]; [now destruct H1|now destruct H2].
  - assert (HS : wp (A := f64) (S := S) (store_if (logged o) nmaxd (0 <? ndt)%Z ;;; mret ReachedTimeLimit)%prog (fun l' t' r => r = Ok ReachedTimeLimit \/ r = Ok ReachedVoltageLimit -> booked_f l' t') l2 t2 /\
                 wp (A := f64) (S := S) (store_if (logged o) nmaxd (0 <? ndt)%Z ;;; mret ReachedVoltageLimit)%prog (fun l' t' r => r = Ok ReachedTimeLimit \/ r = Ok ReachedVoltageLimit -> booked_f l' t') l2 t2).
    { split; (apply wp_bind, wp_store_if; [intros l' Hl'; apply wp_ret; intros _; apply booked_app; [exact Hr|now apply quiet_fpassive]|
        intros l' e _ He; pose proof (HE _ e He) as X; destruct e; [destruct He| | |]; apply X]). }
    destruct HS as [HS1 HS2]. destruct (nleb tlim x); [exact HS1|]. destruct vt; [exact HS2|]. apply wp_throw. intros [E|E]; discriminate.
  - intros [E|E]; discriminate.
  - intros [E|E]; discriminate.
  - intros [E|E]; discriminate.
Qed.
End CCf.

(** ** What constant voltage adds *)
Fixpoint cv_ps (l : list (event f64)) : list (f64 * R) :=
  match l with
  | [] => []
  | EStep d n :: l' => match l' with EReadI i :: _ => [(cv_portion i d, Rabs (fval i) * (fval d * IZR n) / 3600)] | _ => [] end ++ cv_ps l'
  | _ :: l' => cv_ps l'
  end.
Definition not_I (e : event f64) : Prop := match e with EReadI _ => False | _ => True end.
Lemma cv_ps_step d n l : cv_ps (EStep d n :: l) = match l with EReadI i :: _ => [(cv_portion i d, Rabs (fval i) * (fval d * IZR n) / 3600)] | _ => [] end ++ cv_ps l.
Proof. reflexivity. Qed.
Lemma cv_ps_app l e r : not_I e -> cv_ps (l ++ e :: r) = cv_ps l ++ cv_ps (e :: r).
Proof.
  intros He. induction l as [|x l IH]; [reflexivity|]. change ((x :: l) ++ e :: r) with (x :: (l ++ e :: r)).
  destruct x; try exact IH. rewrite !cv_ps_step, <- app_assoc, <- IH. f_equal. destruct l as [|y l]; [|reflexivity]. cbn [app]. destruct e; try reflexivity. destruct He.
Qed.
Lemma cv_ps_passive l : Forall fpassive l -> cv_ps l = [].
Proof. induction 1 as [|e l H _ IH]; [reflexivity|]. destruct e; try exact IH; destruct H. Qed.
Lemma cv_ps_sum l : qsum (cv_ps l) = true_charge l.
Proof.
  induction l as [|e l IH]; [reflexivity|]. destruct e; try exact IH. cbn [cv_ps true_charge]. rewrite qsum_app, IH. f_equal. destruct l as [|y l]; [reflexivity|].
  destruct y; try reflexivity. cbn [qsum]. lra.
Qed.
Definition ones (l : list (event f64)) : Prop := forall d n, In (EStep d n) l -> n = 1%Z.
Lemma cv_ps_length l : (length (cv_ps l) <= dturns l)%nat.
Proof.
  induction l as [|e l IH]; [apply le_n|]. unfold dturns in *. destruct e; cbn [cv_ps filter is_step length]; try exact IH.
  rewrite app_length. destruct l as [|y l]; [cbn; lia|]. destruct y; cbn [length] in *; lia.
Qed.
Lemma cv_ps_near l : readings_moderate l -> (forall d n, In (EStep d n) l -> fin d /\ 0 <= fval d <= bpow radix2 300) -> ones l ->
  Forall (fun p => near (fst p) (snd p)) (cv_ps l).
Proof.
  induction l as [|e l IH]; intros HR HS HO; [constructor|].
  assert (IH' : Forall (fun p => near (fst p) (snd p)) (cv_ps l)).
  { apply IH; [intros i Hi; apply HR; now right|intros d n Hi; apply (HS d n); now right|intros d n Hi; apply (HO d n); now right]. }
  destruct e; try exact IH'. cbn [cv_ps]. apply Forall_app. split; [|exact IH']. destruct l as [|y l]; [constructor|]. destruct y; try constructor; [|constructor]. cbn [fst snd].
  destruct (HR i) as [Fi Bi]; [right; now left|]. destruct (HS dt n) as [Fd Bd]; [now left|]. rewrite (HO dt n) by now left. now apply cv_near.
Qed.
Lemma counts_more k n q a b : counts k q a b -> (k <= n)%nat -> 0 <= fval b -> counts n q a b.
Proof.
  intros (F & M & E) H P. split; [exact F|]. split; [exact M|]. apply Rle_trans with (1 := E). apply le_INR in H. apply Rplus_le_compat_r, Rmult_le_compat_r; [|exact H].
  pose proof eps_pos. destruct u_w. pose proof (eps_le _ _ P). lra.
Qed.

Section CVf.
Context {S : Type} (o : unit_if f64 S) (nmaxd : nat) (a0 : f64).
Definition booked_v (l : list (event f64)) (t : th f64) : Prop := th_Ah t = psum (cv_ps l) a0 /\ ones l.
Lemma ones_app a b : ones a -> ones b -> ones (a ++ b).
Proof. intros A B d n H. apply in_app_or in H. destruct H; eauto. Qed.
Lemma ones_passive l : Forall fpassive l -> ones l.
Proof. intros H d n Hi. rewrite Forall_forall in H. destruct (H _ Hi). Qed.
(** [l] with calls behind it of which the first is not a reading of the current *)
Lemma booked_v_app l e r t : booked_v l t -> not_I e -> fpassive e -> Forall fpassive r -> booked_v (l ++ e :: r) t.
Proof.
  intros [A N] He Pe Pr. assert (P : Forall fpassive (e :: r)) by now constructor. split; [|apply ones_app; [exact N|now apply ones_passive]].
  rewrite cv_ps_app by exact He. rewrite (cv_ps_passive (e :: r)) by exact P. now rewrite app_nil_r.
Qed.
Lemma quiet_booked l r t : booked_v l t -> quiet r -> booked_v (l ++ r) t.
Proof.
  intros H Q. destruct r as [|e r]; [now rewrite app_nil_r|]. pose proof (quiet_fpassive _ Q) as P. inversion P; subst. apply booked_v_app; try assumption.
  inversion Q as [|? ? [->| ->] _]; exact Logic.I.
Qed.
Definition cvp {B} (l' : list (event f64)) (t' : th f64) (r : res B) : Prop := match r with Ok _ => booked_v l' t' | _ => True end.
Lemma cv_loop_c Vset Ilim tlim dt ndt : forall todo i nt ttot l t, booked_v l t ->
  wp (cv_loop (logged o) nmaxd todo i nt Vset Ilim tlim dt ndt ttot) cvp l t.
Proof.
  induction todo as [|td IH]; intros i nt ttot l t Hb; cbn [cv_loop]; [apply wp_ret; exact Hb|].
  apply wp_bind. cbn [logged q_setVoltage]. apply wp_call.
  2: { intros e He. destruct e; [destruct He| | |]; exact Logic.I. }
  intros s0 s1 st _. set (d := if (i + 1 =? nt)%Z then _ else _).
  apply wp_bind, wp_try, wp_bind. cbn [q_step]. apply wp_call.
  2: { intros e He. destruct e; [destruct He| | |]; cbn [cast]; try exact Logic.I. apply wp_ret. cbn [negb]. apply wp_ret. rewrite <- app_assoc. cbn [app].
       destruct Hb as [A N]. split.
       - rewrite cv_ps_app by exact Logic.I. cbn [cv_ps app]. now rewrite app_nil_r.
       - apply ones_app; [exact N|]. intros d' n' [E|[E|[]]]; discriminate. }
  intros s2 s3 uu _. apply wp_ret. cbn [negb]. apply wp_bind. cbn [q_I]. apply wp_call.
  2: { intros e He. destruct e; [destruct He| | |]; exact Logic.I. }
  intros s4 s5 i1 _. apply wp_bind. cbn [q_V]. apply wp_call.
  2: { intros e He. destruct e; [destruct He| | |]; exact Logic.I. }
  intros s6 s7 vi _. apply wp_bind, wp_add_charge. set (t' := mkTh _ _ _).
  assert (Hb2 : forall r, Forall fpassive r -> booked_v (((((l ++ [EVolt Vset st]) ++ [EStep d 1]) ++ [EReadI i1]) ++ [EReadV vi]) ++ r) t').
  { intros r Hr. assert (E : ((((l ++ [EVolt Vset st]) ++ [EStep d 1]) ++ [EReadI i1]) ++ [EReadV vi]) ++ r = l ++ EVolt Vset st :: EStep d 1 :: EReadI i1 :: EReadV vi :: r) by (rewrite <- !app_assoc; reflexivity).
    rewrite E. destruct Hb as [A N]. split.
    - rewrite cv_ps_app by exact Logic.I. rewrite psum_app, <- A. cbn [cv_ps]. rewrite (cv_ps_passive r) by exact Hr. reflexivity.
    - apply ones_app; [exact N|]. intros d' n' Hi. cbn [In] in Hi. destruct Hi as [Hi|[Hi|[Hi|[Hi|Hi]]]]; try discriminate; [injection Hi; auto|]. rewrite Forall_forall in Hr. destruct (Hr _ Hi). }
  generalize dependent ((((l ++ [EVolt Vset st]) ++ [EStep d 1]) ++ [EReadI i1]) ++ [EReadV vi]). clear l Hb. intros l Hb2.
  apply wp_bind, wp_store_if.
  2: { intros l' e _ He. destruct e; [destruct He| | |]; exact Logic.I. }
  intros l' Hl'. apply quiet_fpassive in Hl'. apply wp_bind. cbn [q_lim]. apply wp_call.
  2: { intros e He. destruct e; [destruct He| | |]; exact Logic.I. }
  intros s8 s9 lim _. rewrite app_nil_r. destruct (negb (status_eqb _ _)); [apply wp_ret; now apply Hb2|].
  apply wp_bind, wp_call.
  2: { intros e He. destruct e; [destruct He| | |]; exact Logic.I. }
  intros s10 s11 Ii _. rewrite <- app_assoc. assert (Hb3 : booked_v (l ++ l' ++ [EReadI Ii]) t') by (apply Hb2; apply Forall_app; split; [exact Hl'|repeat constructor]).
  destruct (_ && _); [apply wp_ret; exact Hb3|]. destruct (_ || _); [apply wp_ret; exact Hb3|]. apply IH. exact Hb3.
Qed.
Lemma CV_c Vset Ilim tlim dt ndt t : th_Ah t = a0 -> wp (CV (logged o) nmaxd Vset Ilim tlim dt ndt) cvp [] t.
Proof.
  intros Ht. unfold CV.
  assert (B0 : forall l, Forall fpassive l -> booked_v l t) by (intros l Hl; split; [rewrite cv_ps_passive by exact Hl; exact Ht|now apply ones_passive]).
  apply wp_bind, wp_store_if.
  2: { intros l' e _ He. destruct e; [destruct He| | |]; exact Logic.I. }
  intros l0 Hl0. cbn [app]. apply quiet_fpassive in Hl0. apply wp_bind. cbn [logged q_V]. apply wp_call.
  2: { intros e He. destruct e; [destruct He| | |]; exact Logic.I. }
  intros s0 s1 v _. apply wp_bind. cbn [q_I]. apply wp_call.
  2: { intros e He. destruct e; [destruct He| | |]; exact Logic.I. }
  intros s2 s3 Ii _. assert (P : Forall fpassive ((l0 ++ [EReadV v]) ++ [EReadI Ii])) by (rewrite <- app_assoc; apply Forall_app; split; [exact Hl0|repeat constructor]).
  destruct (_ && _); [apply wp_ret; now apply B0|].
  apply wp_bind. intros s i. cbn [fst snd c_su c_th]. destruct (to_size _) as [nt| | |]; try exact Logic.I.
  apply wp_bind. eapply wp_conseq; [apply cv_loop_c; now apply B0|].
  cbn beta. intros l2 t2 r Hr. destruct r as [[st2|[[x it] vt]]| | |]; try exact Logic.I; [apply wp_ret; exact Hr|].
  assert (HS : forall st : Status, wp (A := f64) (S := S) (B := Status) (store_if (logged o) nmaxd (0 <? ndt)%Z ;;; mret st)%prog cvp l2 t2).
  { intros st. apply wp_bind, wp_store_if; [intros l' Hl'; apply wp_ret; now apply quiet_booked|intros l' e _ He; destruct e; [destruct He| | |]; exact Logic.I]. }
  destruct (nleb tlim x); [apply HS|]. destruct it; [apply HS|]. apply wp_throw. exact Logic.I.
Qed.
End CVf.
