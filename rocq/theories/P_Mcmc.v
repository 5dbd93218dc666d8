(** * C70: adaptive Markov chain *)
From Coq Require Import SpecFloat.
From Verif Require Import Base RFacts BattModel DataModel DataSpec DataProofs McmcModel McmcSpec McmcProofs.
Local Open Scope R_scope.

(** One adaptation, any dimension: the new matrix is again a valid factor, and the covariance it stands for differs from the
    old one exactly by [n^(-1/2) (alpha - 0.234)] times the outer product of the proposed step, normalised by the length of the
    random vector. *)
Theorem C70_update f_pow N S w alpha n :
  sane_pow f_pow -> factor N S -> 0 < sq N w -> 0 <= alpha <= 1 -> 1 <= n ->
  exists S', S_update f_pow N S w alpha n = Ok S' /\ factor N S' /\
    forall i j, (i < N)%nat -> (j < N)%nat ->
      gram N S' i j = gram N S i j
        + f_pow n (- (1 / 2)) * (alpha - 234 / 1000) * (apply N S w i * apply N S w j) / sq N w.
Proof.
  intros Hp [HS HD] Hw Ha Hn. destruct (update_ok f_pow Hp N S w alpha n HS Hw Ha Hn) as (S' & E & L & D & G).
  exists S'. split; [exact E|]. split; [|exact G]. split; [exact L|].
  intros i Hi. destruct (D i Hi) as (c & Hc & ->). pose proof (HD i Hi). nra.
Qed.

(** Along every direction the variance of the proposals grows when the acceptance probability is above 0.234 and shrinks when
    it is below; it never falls below 76.6% of its value nor rises above 176.6% of it. *)
Theorem C70_direction f_pow N S w alpha n S' v :
  sane_pow f_pow -> lower N S -> 0 < sq N w -> 0 <= alpha <= 1 -> 1 <= n ->
  S_update f_pow N S w alpha n = Ok S' ->
  (234 / 1000 <= alpha -> variance N S v <= variance N S' v <= 1766 / 1000 * variance N S v) /\
  (alpha <= 234 / 1000 -> 766 / 1000 * variance N S v <= variance N S' v <= variance N S v).
Proof.
  intros Hp HS Hw Ha Hn E. destruct (update_ok f_pow Hp N S w alpha n HS Hw Ha Hn) as (S1 & E1 & _ & _ & G).
  rewrite E in E1. injection E1 as <-.
  set (c := f_pow n (- (1 / 2)) * (alpha - 234 / 1000) / sq N w).
  rewrite (variance_update N S S' w v c).
  2:{ intros i j Hi Hj. rewrite G by auto. unfold c. field. lra. }
  set (y := fun j => dot N (fun i => S i j) v).
  pose proof (cauchy N y w) as C. change (variance N S v) with (sq N y).
  pose proof (sq_nonneg N y) as Hy.
  set (d := dot N y w * dot N y w) in *. assert (0 <= d) as Hd by (unfold d; nra).
  assert (c * d = f_pow n (- (1 / 2)) * (alpha - 234 / 1000) * (d / sq N w)) as -> by (unfold c; field; lra).
  assert (0 <= d / sq N w <= sq N y) as Hq.
  { split; [apply Rmult_le_pos; [lra|]; left; apply Rinv_0_lt_compat; lra|].
    apply (Rmult_le_reg_r (sq N w)); [lra|]. unfold Rdiv. rewrite Rmult_assoc, Rinv_l by lra. lra. }
  destruct (proj2 Hp n Hn) as [P1 P2]. set (p := f_pow n (- (1 / 2))) in *. set (q := d / sq N w) in *.
  assert (0 <= p * q <= sq N y) as Hpq by nra.
  replace (p * (alpha - 234 / 1000) * q) with ((alpha - 234 / 1000) * (p * q)) by ring.
  set (z := p * q) in *. clearbody z q p d. split; intros; nra.
Qed.

(** Any history of adaptations from a valid factor ends in a valid factor. *)
Theorem C70_adaptation f_pow N l : sane_pow f_pow -> forall S k,
  factor N S -> (1 <= k)%nat ->
  Forall (fun p => 0 < sq N (fst p) /\ 0 <= snd p <= 1) l ->
  exists S', adapt f_pow N S k l = Ok S' /\ factor N S'.
Proof.
  intros Hp. induction l as [|[w a] l IH]; intros S k HS Hk F.
  - exists S. split; [reflexivity|exact HS].
  - inversion F as [|? ? [Hw Ha] F']; subst. cbn [fst snd] in *.
    assert (1 <= INR k) as Hn by (apply (le_INR 1 k); lia).
    destruct (C70_update f_pow N S w a (INR k) Hp HS Hw Ha Hn) as (S1 & E & HS1 & _).
    cbn [adapt]. rewrite E. cbn [rbind]. apply IH; auto.
Qed.

(** A zero random vector turns the factor into NaN. *)
Theorem C70_zero_step_refuted :
  exists f_pow : f64 -> f64 -> f64, (forall x, f_pow x (nZ 2) = nmul x x) /\ f_pow (nZ 1) (nopp (nlit 1 2)) = nZ 1 /\
  exists S', S_update f_pow 1 eye (fun _ => nZ 0) (nlit 1 2) (nZ 1) = Ok S' /\ neqb (S' 0%nat 0%nat) (S' 0%nat 0%nat) = false.
Proof.
  exists (fun x y => if neqb y (nZ 2) then nmul x x else nZ 1). split; [intros; reflexivity|]. split; [reflexivity|].
  eexists. split; [reflexivity|]. vm_compute. reflexivity.
Qed.

(** The prior accepts exactly the vectors whose parameters are all positive. *)
Theorem C70_prior f_log ds b : (length b <= length ds)%nat ->
  (Forall (fun x => 0 < x) b -> exists v, prior f_log ds b = Ok (v, true)) /\
  (~ Forall (fun x => 0 < x) b -> prior f_log ds b = Ok (- IZR (10 ^ 25), false)).
Proof.
  intros L. unfold prior.
  assert (forall ds b s, (length b <= length ds)%nat -> exists t, log_sum f_log s ds b = Ok t) as T.
  { clear. induction ds as [|d ds IH]; intros [|x b] s H; cbn in H.
    - exists s; reflexivity.
    - lia.
    - exists s; reflexivity.
    - cbn [log_sum]. apply IH. lia. }
  destruct (existsb (fun x => nleb x (nZ 0)) b) eqn:B.
  - split.
    + intros F. apply existsb_exists in B as (x & Hin & Hx). apply Rleb_true in Hx. rewrite R_nZ in Hx.
      rewrite Forall_forall in F. specialize (F x Hin). lra.
    + intros _. f_equal. f_equal. cbn [nopp RNum]. rewrite R_nlit. lra.
  - assert (Forall (fun x => 0 < x) b) as F.
    { apply Forall_forall. intros x Hin. destruct (Rlt_dec 0 x) as [|n]; [assumption|exfalso].
      assert (existsb (fun x => nleb x (nZ 0)) b = true).
      { apply existsb_exists. exists x. split; [assumption|]. apply Rleb_true. rewrite R_nZ. lra. }
      congruence. }
    split; [|contradiction]. intros _. destruct (T ds b (nZ 0) L) as (t & ->). exists t. reflexivity.
Qed.
(** In doubles it also accepts a parameter that is not a number. *)
Theorem C70_nan_refuted (f_log : f64 -> f64) (d : f64 -> f64) :
  exists v, prior f_log [d] [S754_nan] = Ok (v, true).
Proof. eexists. reflexivity. Qed.

(** The number the chain minimises is the negative log posterior: its exponential is the product of the prior densities with the
    Gaussian density of the observations. *)
Theorem C70_posterior theta r rs ds cost Nobs scalar err :
  i_logR theta = r :: rs -> length (i_param theta) = length ds -> length (i_param theta) = length scalar ->
  Forall (fun x => 0 < x) (i_param theta) -> Forall (fun y => 0 < y) (densities ds (i_param theta)) ->
  cost (map (fun '(a, b) => a * b) (combine (i_param theta) scalar)) = Ok err ->
  exists l, LL ln exp theta ds cost Nobs scalar = Ok (l, true) /\
    exp (- l_out l) = product (densities ds (i_param theta)) * gauss Nobs (exp r) err /\
    l_err l = err /\ l_out l = - l_P l + l_out1 l + l_out2 l.
Proof.
  intros ER L1 L2 Pos Den C. unfold LL.
  assert (existsb (fun x => nleb x (nZ 0)) (i_param theta) = false) as B.
  { destruct (existsb _ _) eqn:B; [|reflexivity]. apply existsb_exists in B as (x & Hin & Hx).
    apply Rleb_true in Hx. rewrite R_nZ in Hx. rewrite Forall_forall in Pos. specialize (Pos x Hin). lra. }
  unfold prior. rewrite B.
  destruct (log_sum_R ds (i_param theta) (nZ 0) ltac:(lia) Den) as (t & E & Et & Pp). rewrite E. cbn [rmap rbind].
  unfold in_scale. replace (length (i_param theta) <=? length scalar)%nat with true by lia. cbn [rbind].
  change (fun '(a, b) => nmul a b) with (fun '(a, b) => a * b). rewrite C. cbn [rbind]. unfold in_R. rewrite ER. cbn [rbind].
  eexists. split; [reflexivity|]. cbn [l_out l_err l_P l_out1 l_out2]. split; [|split; reflexivity].
  unfold gauss, pi_lit. cbn [nadd nmul ndiv nopp RNum]. rewrite !R_nZ, R_nnat, !R_nlit in *.
  set (y := 2 * (3141592653589793 / 1000000000000000) * exp r).
  pose proof (exp_pos r) as Hr. assert (0 < y) as Hy by (unfold y; nra).
  assert (/ sqrt y ^ Nobs = exp (- (1 / 2 * ln y * INR Nobs))) as ->.
  { rewrite exp_Ropp. f_equal. replace (sqrt y) with (exp (1 / 2 * ln y)).
    - rewrite <- Rpower_pow by apply exp_pos. unfold Rpower. rewrite ln_exp. f_equal. ring.
    - rewrite <- Rpower_sqrt by exact Hy. unfold Rpower. f_equal. field. }
  rewrite <- (exp_ln (product _) Pp) at 1. rewrite <- !exp_plus. f_equal. rewrite Et.
  field. lra.
Qed.

(** A record of the chain lists the parameters, the noise level and the five numbers of the likelihood, in that order, for one
    output. *)
Theorem C70_record {A} {NA : Num A} (p : list A) r (l : llres A) :
  let x := (mkIn p [r], l) in
  let line := p ++ [r; l_out l; l_out1 l; l_out2 l; l_P l; l_err l] in
  rec_size x = length line /\ (forall i, (i < length line)%nat -> rec_get x i = Ok (nth i line (nZ 0))) /\
  (forall i, (length line <= i)%nat -> rec_get x i = UB) /\ rec_back x = last line (nZ 0).
Proof.
  cbn zeta. assert (length (p ++ [r; l_out l; l_out1 l; l_out2 l; l_P l; l_err l]) = length p + 6)%nat as E by (rewrite app_length; reflexivity).
  rewrite E. unfold rec_size, rec_get, in_size. cbn [fst snd i_param i_logR length].
  split; [lia|]. split; [|split].
  - intros i Hi. unfold in_get. cbn [i_param i_logR].
    destruct (Nat.ltb_spec i (length p + 1)).
    + destruct (Nat.ltb_spec i (length p)).
      * rewrite app_nth1 by lia. reflexivity.
      * replace i with (length p) by lia. rewrite Nat.eqb_refl, app_nth2, Nat.sub_diag by lia. reflexivity.
    + rewrite app_nth2 by lia. replace (i - length p)%nat with (Datatypes.S (i - (length p + 1))) by lia. cbn [nth].
      assert (i - (length p + 1) < 5)%nat as H1 by lia. revert H1. generalize (i - (length p + 1))%nat.
      intros k Hk. unfold rec_ll. do 5 (destruct k as [|k]; [reflexivity|]). lia.
  - intros i Hi. destruct (Nat.ltb_spec i (length p + 1)); [lia|].
    rewrite (proj2 (nth_error_None _ _)); [reflexivity|]. cbn. lia.
  - unfold rec_back. cbn [snd]. change [r; l_out l; l_out1 l; l_out2 l; l_P l; l_err l] with ([r; l_out l; l_out1 l; l_out2 l; l_P l] ++ [l_err l]).
    rewrite app_assoc, last_last. reflexivity.
Qed.
(** With two or more outputs the record cannot be read: the index of the second noise level throws although it is below the
    announced size. *)
Theorem C70_outputs_refuted {A} {NA : Num A} (p : list A) r r' rs (l : llres A) :
  (length p + 1 < rec_size (mkIn p (r :: r' :: rs), l))%nat /\
  rec_get (mkIn p (r :: r' :: rs), l) (length p + 1) = Throw 123511.
Proof.
  unfold rec_size, rec_get, in_size, in_get. cbn [fst snd i_param i_logR length]. split; [lia|].
  replace (length p + 1 <? length p + Datatypes.S (Datatypes.S (length rs)))%nat with true by lia.
  replace (length p + 1 <? length p)%nat with false by lia. replace (length p + 1 =? length p)%nat with false by lia. reflexivity.
Qed.

(** The gamma prior is positive on the positive axis and highest at [(a-1) b]. *)
Theorem C70_gamma rg a b : 0 < b -> 0 < rg a ->
  (forall x, 0 < x -> gamma_at Rpower exp (gamma_make Rpower rg a b) x = rg a * (Rpower x (a - 1) * exp (- x / b)) / Rpower b a /\
     0 < gamma_at Rpower exp (gamma_make Rpower rg a b) x) /\
  (1 < a -> forall x, 0 < x ->
     gamma_at Rpower exp (gamma_make Rpower rg a b) x <= gamma_at Rpower exp (gamma_make Rpower rg a b) ((a - 1) * b)).
Proof.
  intros Hb Hr.
  assert (forall x, 0 < x -> gamma_at Rpower exp (gamma_make Rpower rg a b) x = rg a * (Rpower x (a - 1) * exp (- x / b)) / Rpower b a) as E.
  { intros x Hx. unfold gamma_at, gamma_make. cbn [g_scale g_a g_invb nmul nsub nopp ndiv RNum]. rewrite !R_nZ.
    replace (- (1 / b) * x) with (- x / b) by (field; lra). field. unfold Rpower. pose proof (exp_pos (a * ln b)). lra. }
  assert (0 < / Rpower b a) as Hi by (apply Rinv_0_lt_compat, exp_pos).
  split.
  - intros x Hx. rewrite (E x Hx). split; [reflexivity|].
    assert (0 < Rpower x (a - 1) * exp (- x / b)) by (apply Rmult_lt_0_compat; apply exp_pos).
    unfold Rdiv. apply Rmult_lt_0_compat; [|exact Hi]. nra.
  - intros Ha x Hx. assert (0 < (a - 1) * b) as Hm by nra. rewrite (E x Hx), (E _ Hm).
    unfold Rdiv. apply Rmult_le_compat_r; [lra|]. apply Rmult_le_compat_l; [lra|].
    unfold Rpower. rewrite <- !exp_plus.
    assert (forall u v, u <= v -> exp u <= exp v) as Hexp.
    { intros u v [H| ->]; [left; apply exp_increasing; exact H|right; reflexivity]. }
    apply Hexp. set (q := x / ((a - 1) * b)).
    assert (x = q * ((a - 1) * b)) as Ex by (unfold q; field; nra).
    assert (0 < q) as Hq by (unfold q; apply Rmult_lt_0_compat; [lra|apply Rinv_0_lt_compat; lra]).
    rewrite Ex at 1. rewrite ln_mult by auto.
    assert (ln q <= q - 1) as Hln.
    { pose proof (exp_ineq1_le (ln q)) as X. rewrite exp_ln in X by auto. lra. }
    replace (- x * / b) with (- (q * (a - 1))) by (rewrite Ex; field; lra).
    replace (- ((a - 1) * b) * / b) with (- (a - 1)) by (field; lra). nra.
Qed.

(** The general norm of slide_aux is a norm only for even powers: with power 1 a non-zero vector has length zero. *)
Theorem C70_norm_refuted (f_pow : R -> R -> R) : (forall x, f_pow x 1 = x) -> norm_sq f_pow 1 [-1; 1] = Ok 0.
Proof. intros H. unfold norm_sq. cbn [Z.ltb Z.eqb Z.compare fold_left nadd RNum]. rewrite !R_nZ, !H. f_equal. lra. Qed.

(** Powers below 1 have no norm: each kind has its own exception, whatever the vector. *)
Theorem C70_powers {A} {NA : Num A} (f_pow : A -> A -> A) N (x : list A) :
  ((N < -1)%Z -> norm_sq f_pow N x = Throw 12345) /\ (N = (-1)%Z -> norm_sq f_pow N x = Throw 12344) /\
  (N = 0%Z -> norm_sq f_pow N x = Throw 333456) /\ ((0 < N)%Z -> exists v, norm_sq f_pow N x = Ok v).
Proof.
  unfold norm_sq. split; [|split; [|split]].
  - intros H. now rewrite (proj2 (Z.ltb_lt _ _) H).
  - intros ->. reflexivity.
  - intros ->. reflexivity.
  - intros H. rewrite (proj2 (Z.ltb_ge _ _)), (proj2 (Z.eqb_neq _ _)), (proj2 (Z.eqb_neq _ _)) by lia. eexists. reflexivity.
Qed.
(** A vector that the prior rejects is reported with a false flag; the cost function is not called. *)
Theorem C70_rejected {A} {NA : Num A} (f_log f_exp : A -> A) theta ds cost Nobs scalar :
  Exists (fun x => nleb x (nZ 0) = true) (i_param theta) ->
  exists l, LL f_log f_exp theta ds cost Nobs scalar = Ok (l, false).
Proof.
  intros H. unfold LL, prior. replace (existsb _ _) with true; [eexists; reflexivity|].
  symmetry. apply existsb_exists. apply Exists_exists in H. exact H.
Qed.
(** Finding: its five numbers are zero, not the penalty that the prior computed; a caller that forgets the flag takes the rejected
    vector for one whose posterior density is 1. *)
Theorem C70_penalty_refuted {A} {NA : Num A} (f_log f_exp : A -> A) theta ds cost Nobs scalar :
  Exists (fun x => nleb x (nZ 0) = true) (i_param theta) ->
  prior f_log ds (i_param theta) = Ok (nopp (nlit (10 ^ 25) 1), false) /\
  forall l b, LL f_log f_exp theta ds cost Nobs scalar = Ok (l, b) -> rec_ll l = [nZ 0; nZ 0; nZ 0; nZ 0; nZ 0].
Proof.
  intros H. assert (E : existsb (fun x => nleb x (nZ 0)) (i_param theta) = true) by (apply existsb_exists; apply Exists_exists in H; exact H).
  unfold LL, prior. rewrite E. split; [reflexivity|]. cbn [rbind]. intros l b [= <- _]. reflexivity.
Qed.
(** Finding: nothing compares the lengths of the vectors. Fewer densities, or fewer scale factors, than parameters, and an input
    without noise level, are undefined behaviour. *)
Theorem C70_short_refuted {A} {NA : Num A} (f_log f_exp : A -> A) theta ds cost Nobs scalar :
  Forall (fun x => nleb x (nZ 0) = false) (i_param theta) ->
  ((length ds < length (i_param theta))%nat -> LL f_log f_exp theta ds cost Nobs scalar = UB) /\
  ((length scalar < length (i_param theta) <= length ds)%nat -> LL f_log f_exp theta ds cost Nobs scalar = UB) /\
  ((length (i_param theta) <= length ds)%nat -> (length (i_param theta) <= length scalar)%nat -> i_logR theta = [] ->
   (forall p, exists e, cost p = Ok e) -> LL f_log f_exp theta ds cost Nobs scalar = UB) /\
  (i_logR theta = [] -> in_get theta (length (i_param theta)) = UB).
Proof.
  intros H. assert (E : existsb (fun x => nleb x (nZ 0)) (i_param theta) = false).
  { destruct (existsb _ _) eqn:E; [|reflexivity]. apply existsb_exists in E. destruct E as (x & I & X). rewrite Forall_forall in H. now rewrite (H x I) in X. }
  assert (T : forall ds b s, (length b <= length ds)%nat -> exists t, log_sum f_log s ds b = Ok t).
  { clear. induction ds as [|d ds IH]; intros [|x b] s H; cbn in H; try lia; try (exists s; reflexivity). cbn [log_sum]. apply IH. lia. }
  assert (T' : forall ds b s, (length ds < length b)%nat -> log_sum f_log s ds b = UB).
  { clear. induction ds as [|d ds IH]; intros [|x b] s H; cbn in H; try lia; [reflexivity|]. cbn [log_sum]. apply IH. lia. }
  unfold LL, prior. rewrite E. split; [|split; [|split]].
  - intros L. now rewrite T'.
  - intros L. destruct (T ds (i_param theta) (nZ 0)) as (t & ->); [lia|]. cbn [rmap rbind]. unfold in_scale. now rewrite (proj2 (Nat.leb_gt _ _)) by lia.
  - intros L1 L2 N C. destruct (T ds (i_param theta) (nZ 0) L1) as (t & ->). cbn [rmap rbind]. unfold in_scale. rewrite (proj2 (Nat.leb_le _ _)) by lia. cbn [rbind].
    destruct (C (map (fun '(a, b) => nmul a b) (combine (i_param theta) scalar))) as (e & ->). cbn [rbind]. unfold in_R. now rewrite N.
  - intros N. unfold in_get. now rewrite Nat.ltb_irrefl, Nat.eqb_refl, N.
Qed.
Example C70_short_inhabited :
  Forall (fun x : f64 => nleb x (nZ 0) = false) (i_param (mkIn [nZ 1; nZ 2] [])) /\
  Exists (fun x : f64 => nleb x (nZ 0) = true) (i_param (mkIn [nZ 1; nZ 0] [nZ 1])).
Proof. split; [repeat constructor|]. right. left. reflexivity. Qed.

(** Not vacuous: the exact inverse square root, a two-parameter chain with identity factor, an accepted and a rejected step; and a
    posterior with a gamma prior. *)
Example C70_inhabited :
  sane_pow (fun x y => if Req_EM_T y 2 then x * x else / sqrt x) /\
  factor 2 (@eye R RNum) /\
  (let l := [((fun i => if Nat.eqb i 0 then 1 else 2) : vector R, 1); ((fun _ => 3) : vector R, 0)] in
   Forall (fun p => 0 < sq 2 (fst p) /\ 0 <= snd p <= 1) l /\
   exists S', adapt (fun x y => if Req_EM_T y 2 then x * x else / sqrt x) 2 eye 1 l = Ok S' /\ factor 2 S') /\
  (exists l, LL ln exp (mkIn [2] [0]) [gamma_at Rpower exp (gamma_make Rpower (fun _ => 1) 2 1)]
     (fun p => Ok (fold_left Rplus p 0)) 3 [5] = Ok (l, true) /\ l_err l = 10).
Proof.
  assert (sane_pow (fun x y => if Req_EM_T y 2 then x * x else / sqrt x)) as Hp.
  { split.
    - intros x. destruct (Req_EM_T 2 2); [reflexivity|lra].
    - intros n Hn. destruct (Req_EM_T (- (1 / 2)) 2); [lra|].
      assert (1 <= sqrt n) as H by (rewrite <- sqrt_1; apply sqrt_le_1_alt; lra).
      split; [apply Rinv_0_lt_compat; lra|]. rewrite <- Rinv_1. apply Rinv_le_contravar; lra. }
  assert (factor 2 (@eye R RNum)) as Hf.
  { split.
    - intros i j Hi Hij. unfold eye. destruct (Nat.eqb_spec i j); [lia|]. now rewrite R_nZ.
    - intros i Hi. unfold eye. rewrite Nat.eqb_refl, R_nZ. lra. }
  split; [exact Hp|]. split; [exact Hf|]. split.
  - cbv zeta. assert (Forall (fun p : vector R * R => 0 < sq 2 (fst p) /\ 0 <= snd p <= 1)
      [((fun i => if Nat.eqb i 0 then 1 else 2) : vector R, 1); ((fun _ => 3) : vector R, 0)]) as F.
    { constructor; [|constructor; [|constructor]]; cbn; lra. }
    split; [exact F|]. apply C70_adaptation; auto.
  - destruct (C70_posterior (mkIn [2] [0]) 0 [] [gamma_at Rpower exp (gamma_make Rpower (fun _ => 1) 2 1)]
      (fun p => Ok (fold_left Rplus p 0)) 3 [5] 10) as (l & E & _ & H & _); try reflexivity.
    + constructor; [lra|constructor].
    + constructor; [|constructor]. apply (C70_gamma (fun _ => 1) 2 1); lra.
    + cbn. f_equal. lra.
    + exists l. split; [exact E|exact H].
Qed.

Print Assumptions C70_update.
Print Assumptions C70_direction.
Print Assumptions C70_adaptation.
Print Assumptions C70_posterior.
Print Assumptions C70_gamma.
