(** * Proofs about the converter and the battery *)
From Coq Require Import Reals Lra Lia.
From Verif Require Import Base RFacts StatusModel CellModel CoolModel ModuleModel ModuleSpec BattModel BattSpec.
Local Open Scope R_scope.

Lemma sq_nonneg (x : R) : 0 <= x * x.
Proof. nra. Qed.

(** The losses as a formula, once the number of inverters is known *)
Definition loss_formula (vdc vac n V I0 : R) : R :=
  let I := I0 / n in
  let Idc := I * V / vdc in
  (Rabs (I * igbt I * (1 + 2 * V / vdc)) + Rabs (8000 * ((6 + 1 / 10 * Rabs (I - 50)) * (1 / 1000) + 0)) +
   Rabs (Idc * igbt Idc * (1 + 2 * vdc / vac)) +
   Rabs (6 * 8000 * ((6 + 1 / 10 * Rabs (Idc - 50)) * (1 / 1000) + 1 / 1000 + (6 + 1 / 10 * Rabs (Idc - 50)) * (1 / 1000))) +
   136 / 10000 * ((2 * (3141592653589793 / 1000000000000000) * 8000 * (3 / 1000) * 1) * (2 * (3141592653589793 / 1000000000000000) * 8000 * (3 / 1000) * 1)) +
   3 * (136 / 10000) * (Idc * Idc) + 136 / 10000 * (I * I)) * n.
Lemma conv_losses_formula (c : conv R) V I n : to_int (nceil (v_pnom c / 200000)) = Ok n ->
  conv_losses c V I = Ok (loss_formula (v_dc c) (v_ac c) (IZR n) V I).
Proof.
  intros E. unfold conv_losses. replace (nceil (ndiv (v_pnom c) (nmul (nZ 200) (nZ 1000)))) with (nceil (v_pnom c / 200000)).
  - rewrite E. cbn [rmap rbind]. f_equal. unfold pi_lit. rewrite !R_nlit, !R_nZ. reflexivity.
  - f_equal. rewrite !R_nZ. cbn [ndiv nmul RNum]. f_equal. lra.
Qed.
Lemma inverters (p : R) : 0 < p -> p <= 200000 * 2147483647 -> exists n, to_int (nceil (p / 200000)) = Ok n /\ (1 <= n)%Z /\ IZR n - 1 < p / 200000 <= IZR n.
Proof.
  intros H0 H1. set (x := p / 200000). assert (Hx : 0 < x) by (unfold x; lra). assert (Hx1 : x <= 2147483647) by (unfold x; lra).
  pose proof (R_ceil_bounds x) as [B1 B2]. cbn [nceil RNum] in *. set (z := (- Int_part (- x))%Z) in *. exists z.
  assert (Hz1 : (1 <= z)%Z) by (apply (lt_IZR 0) in (* 0 < z *) B1 || (assert (IZR 0 < IZR z) by lra; apply lt_IZR in H; lia)).
  assert (Hz2 : (z <= 2147483647)%Z) by (assert (IZR z < IZR 2147483648) as H by lra; apply lt_IZR in H; lia).
  split; [|split; [exact Hz1|lra]]. unfold to_int. cbn [ntrunc RNum]. rewrite (Rtrunc_spec (IZR z) z); [|assert (1 <= IZR z) by (apply IZR_le; lia); lra|lra].
  destruct (Z.leb_spec (- 2147483648) z); [|lia]. destruct (Z.leb_spec z 2147483647); [|lia]. reflexivity.
Qed.
Lemma loss_lower vdc vac n V I : 1 <= n -> 981 * n <= loss_formula vdc vac n V I.
Proof.
  intros Hn. unfold loss_formula. set (i := I / n). set (d := i * V / vdc). apply Rmult_le_compat_r; [lra|].
  pose proof (Rabs_pos (i * igbt i * (1 + 2 * V / vdc))). pose proof (Rabs_pos (d * igbt d * (1 + 2 * vdc / vac))).
  pose proof (Rabs_pos (i - 50)). pose proof (Rabs_pos (d - 50)).
  rewrite (Rabs_pos_eq (8000 * _)) by lra. rewrite (Rabs_pos_eq (6 * 8000 * _)) by lra.
  pose proof (sq_nonneg i). pose proof (sq_nonneg d). lra.
Qed.
Lemma loss_idle vdc vac n V I : 1 <= n -> 0 < vdc -> 0 <= V -> I <= 0 -> 1500 * n <= loss_formula vdc vac n V I.
Proof.
  intros Hn Hv HV HI. unfold loss_formula. set (i := I / n). set (d := i * V / vdc). apply Rmult_le_compat_r; [lra|].
  assert (Hi : i <= 0) by (unfold i, Rdiv; apply Ropp_le_cancel; rewrite Ropp_0, Ropp_mult_distr_l; apply Rmult_le_pos; [lra|left; apply Rinv_0_lt_compat; lra]).
  assert (Hd : d <= 0).
  { unfold d, Rdiv. apply Ropp_le_cancel. rewrite Ropp_0, Ropp_mult_distr_l, Ropp_mult_distr_l. apply Rmult_le_pos; [apply Rmult_le_pos; lra|left; apply Rinv_0_lt_compat; lra]. }
  pose proof (Rabs_pos (i * igbt i * (1 + 2 * V / vdc))). pose proof (Rabs_pos (d * igbt d * (1 + 2 * vdc / vac))).
  rewrite (Rabs_left1 (i - 50)), (Rabs_left1 (d - 50)) by lra.
  rewrite (Rabs_pos_eq (8000 * _)) by lra. rewrite (Rabs_pos_eq (6 * 8000 * _)) by lra.
  pose proof (sq_nonneg i). pose proof (sq_nonneg d). lra.
Qed.
Lemma igbt_law i : igbt i = switch_voltage i /\ 0 <= switch_voltage i.
Proof.
  unfold igbt, switch_voltage. pose proof (Rabs_pos i). destruct (Rle_dec (Rabs i) 30) as [H1|H1]; (split; [|lra]).
  - rewrite (proj2 (Rltb_false _ _)) by (rewrite R_nZ; exact H1). rewrite !R_nZ. cbn [nadd nsub nmul ndiv nabs RNum]. lra.
  - rewrite (proj2 (Rltb_true _ _)) by (rewrite R_nZ; cbn [nabs RNum]; lra). rewrite !R_nZ. cbn [nadd nsub nmul ndiv nabs RNum]. lra.
Qed.
Lemma loss_law vdc vac n V I : loss_formula vdc vac n V I = inverter_law vdc vac V (I / n) * n.
Proof.
  unfold loss_formula, inverter_law. set (i := I / n). set (d := i * V / vdc). f_equal.
  destruct (igbt_law i) as [-> P1]. destruct (igbt_law d) as [-> P2].
  rewrite !Rabs_mult, (Rabs_pos_eq (switch_voltage i)), (Rabs_pos_eq (switch_voltage d)) by assumption.
  pose proof (Rabs_pos (i - 50)). pose proof (Rabs_pos (d - 50)).
  rewrite (Rabs_pos_eq ((6 + _) * _ + 0)) by lra. rewrite (Rabs_pos_eq ((6 + _) * _ + _ + _)) by lra.
  rewrite (Rabs_pos_eq 8000), (Rabs_pos_eq 6) by lra. unfold Rsqr. lra.
Qed.
(** *** Arrangements *)
Lemma Rsum_repeat x n : Rsum (repeat x n) = x * INR n.
Proof. induction n as [|n IH]; [cbn; lra|]. rewrite S_INR. cbn. rewrite IH. lra. Qed.
Lemma in_repeat {B} (x y : B) n : In y (repeat x n) <-> y = x /\ (0 < n)%nat.
Proof. split; [|intros [-> H]; destruct n; [lia|now left]]. induction n; cbn; [tauto|]. intros [<-|H]; [split; [reflexivity|lia]|]. destruct (IHn H). split; [assumption|lia]. Qed.
Lemma INR_pos n : (0 < n)%nat -> 0 < INR n.
Proof. intros H. apply lt_0_INR. exact H. Qed.
Lemma sum_repeat x n : is_sum (repeat x n) (x * INR n).
Proof. unfold is_sum. now rewrite Rsum_repeat. Qed.
Lemma min_repeat x n : (0 < n)%nat -> is_min (repeat x n) x.
Proof. intros H. split; [now apply in_repeat|]. intros y Hy. apply in_repeat in Hy. destruct Hy. lra. Qed.
Lemma max_repeat x n : (0 < n)%nat -> is_max (repeat x n) x.
Proof. intros H. split; [now apply in_repeat|]. intros y Hy. apply in_repeat in Hy. destruct Hy. lra. Qed.
Lemma mean_repeat x n : is_mean (repeat x n) x.
Proof. unfold is_mean. now rewrite Rsum_repeat, repeat_length. Qed.
Lemma parallel_repeat x n : x <> 0 -> (0 < n)%nat -> is_parallel (repeat x n) (x / INR n).
Proof.
  intros Hx Hn. unfold is_parallel. assert (E : Rsum (map Rinv (repeat x n)) = / x * INR n).
  { rewrite <- Rsum_repeat. f_equal. clear. induction n; cbn; congruence. }
  rewrite E. pose proof (INR_pos n Hn). field. split; lra.
Qed.

(** *** Losses *)
Section Loss.
Context {S : Type} (o : su_ops R S) (tm : Z).
Implicit Types b : batt R S.
Lemma on_cells_loss {B} (f : M (module R S) B) b : bt_loss (fst (on_cells f b)) = bt_loss b /\ bt_tot (fst (on_cells f b)) = bt_tot b.
Proof. unfold on_cells. destruct (bt_body b) as [[m k]|]; [|auto]. destruct (f m). cbn. auto. Qed.
Lemma scaled_loss (f : M (module R S) R) b : bt_loss (fst (scaled f b)) = bt_loss b /\ bt_tot (fst (scaled f b)) = bt_tot b.
Proof. unfold scaled. pose proof (on_cells_loss f b) as H. destruct (on_cells f b) as [b' [v| | |]]; exact H. Qed.
Lemma convLoss_loss b : bt_loss (fst (batt_convLoss o tm b)) = bt_loss b /\ bt_tot (fst (batt_convLoss o tm b)) = bt_tot b.
Proof. unfold batt_convLoss. pose proof (scaled_loss (o_V (mod_ops o tm)) b) as H. unfold batt_V. destruct (scaled _ b) as [b' [v| | |]]; exact H. Qed.
Lemma setT_loss t b : bt_loss (fst (batt_setT t b)) = bt_loss b /\ bt_tot (fst (batt_setT t b)) = bt_tot b.
Proof. unfold batt_setT. destruct (bt_body b) as [[m k]|]; [|auto]. destruct (cool_setT t k). cbn. auto. Qed.
Lemma thermal_loss n t b : bt_loss (fst (batt_thermal o tm n t b)) = bt_loss b /\ bt_tot (fst (batt_thermal o tm n t b)) = bt_tot b.
Proof.
  unfold batt_thermal. destruct (bt_body b) as [[m k]|]; [|auto]. destruct (tm =? 0)%Z; [auto|]. cbv zeta.
  destruct (o_thermal _ _ _ m) as [m1 [tc| | |]]; try (cbn; auto; fail).
  pose proof (convLoss_loss (with_body b (m1, k))) as H. destruct (batt_convLoss o tm (with_body b (m1, k))) as [b2 [l| | |]]; cbn [fst] in *; try exact H.
  destruct n; [|exact H]. destruct (bt_body b2) as [[m2 k2]|]; [|exact H]. destruct (cool_dstate _ _ t k2) as [k3 [Tb| | |]]; try exact H.
  match goal with |- context [if ?c then _ else _] => destruct c end; [exact H|]. destruct (o_setT _ tc m2) as [m3 [[]| | |]]; try exact H.
  match goal with |- context [batt_setT Tb ?x] => pose proof (setT_loss Tb x) as H2; destruct (batt_setT Tb x) as [b4 [[]| | |]] end; cbn [fst] in *; cbn in H2;
    (destruct H2 as [A1 A2]; destruct H as [B1 B2]; split; [now rewrite A1|now rewrite A2]).
Qed.
Lemma exec_books op b : let '(b', h) := batt_exec o tm op b in
  h + bt_loss b' - bt_loss b = lost o tm op b /\ bt_tot b' - bt_tot b = lost o tm op b.
Proof.
  destruct op; cbn [batt_exec lost]; rewrite ?R_nZ.
  - unfold batt_timeStep. pose proof (on_cells_loss (o_timeStep (mod_ops o tm) dt n) b) as [L1 L2].
    destruct (on_cells (o_timeStep (mod_ops o tm) dt n) b) as [b1 [[]| | |]]; cbn [fst] in *; try (rewrite L1, L2; split; lra).
    unfold batt_convLoss. pose proof (scaled_loss (o_V (mod_ops o tm)) b1) as [V1 V2]. unfold batt_V.
    destruct (scaled (o_V (mod_ops o tm)) b1) as [b2 [v| | |]]; cbn [fst cast] in *; try (rewrite V1, V2, L1, L2; split; lra).
    destruct (batt_I o tm b2) as [i| | |]; cbn [rbind cast fst]; try (rewrite V1, V2, L1, L2; split; lra).
    destruct (conv_losses (bt_conv b2) v i) as [p| | |]; cbn [fst cast]; try (rewrite V1, V2, L1, L2; split; lra).
    set (l := nmul (nmul p dt) (nZ n)). replace (nmul (nmul p dt) (IZR n)) with l by (unfold l; now rewrite R_nZ). set (b3 := with_loss b2 _ _).
    assert (T : let '(b4, r) := if bt_block b3 then (b3, Ok (nZ 0)) else batt_thermal o tm 0 (nmul (nZ n) dt) b3 in bt_loss b4 = bt_loss b3 /\ bt_tot b4 = bt_tot b3).
    { destruct (bt_block b3); [auto|]. pose proof (thermal_loss 0 (nmul (nZ n) dt) b3) as H. destruct (batt_thermal o tm 0 (nmul (nZ n) dt) b3). exact H. }
    destruct (if bt_block b3 then (b3, Ok (nZ 0)) else batt_thermal o tm 0 (nmul (nZ n) dt) b3) as [b4 r].
    assert (Q : bt_loss b3 = bt_loss b + l /\ bt_tot b3 = bt_tot b + l) by (unfold b3; cbn; rewrite V1, V2, L1, L2; split; reflexivity).
    destruct T as [T1 T2], Q as [Q1 Q2].
    destruct r as [x| | |]; [|(cbn [fst]; rewrite T1, T2, Q1, Q2; split; lra)..].
    destruct (bt_body b4) as [[m k]|]; cbn [fst with_body bt_loss bt_tot]; rewrite T1, T2, Q1, Q2; split; lra.
  - unfold batt_takeLosses. cbn. split; lra.
  - cbn. split; lra.
  - unfold batt_setCurrent. pose proof (on_cells_loss (o_setCurrent (mod_ops o tm) (ndiv i (np b)) chk) b) as [L1 L2]. rewrite L1, L2. split; lra.
  - pose proof (scaled_loss (o_V (mod_ops o tm)) b) as [V1 V2]. unfold batt_V. rewrite V1, V2. split; lra.
  - unfold batt_setStates. pose proof (on_cells_loss (o_setStates (mod_ops o tm) s chk) b) as [L1 L2].
    destruct (on_cells (o_setStates (mod_ops o tm) s chk) b) as [b1 [[s' st]| | |]]; cbn [fst] in *; try (rewrite L1, L2; split; lra).
    destruct (back s') as [t|]; cbn [fst]; [|rewrite L1, L2; split; lra]. pose proof (setT_loss t b1) as [T1 T2]. destruct (batt_setT t b1) as [b2 [[]| | |]]; cbn [fst] in *; rewrite T1, T2, L1, L2; split; lra.
  - unfold batt_coolload. destruct (bt_body b) as [[m k]|]; cbn; [|split; lra]. destruct (mod_coolload o m). cbn. split; lra.
  - pose proof (setT_loss t b) as [V1 V2]. rewrite V1, V2. split; lra.
  - unfold batt_setBlock. destruct (bt_body b) as [[m k]|]; cbn; split; lra.
Qed.
Lemma run_books : forall ops b, let '(b', hs, ls) := batt_run o tm ops b in
  Rsum hs + bt_loss b' - bt_loss b = Rsum ls /\ bt_tot b' - bt_tot b = Rsum ls.
Proof.
  induction ops as [|op ops IH]; intros b; cbn [batt_run]; [cbn; split; lra|]. pose proof (exec_books op b) as H. destruct (batt_exec o tm op b) as [b1 h].
  specialize (IH b1). destruct (batt_run o tm ops b1) as [[b2 hs] ls]. cbn [Rsum fold_right]. fold (Rsum hs). fold (Rsum ls). destruct H, IH. split; lra.
Qed.
End Loss.
