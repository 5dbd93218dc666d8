(** * Proofs about the adaptive Markov chain *)
From Verif Require Import Base RFacts BattModel DataModel DataSpec DataProofs McmcModel McmcSpec.
Local Open Scope R_scope.

(** ** Finite sums *)
Fixpoint sm (n : nat) (f : nat -> R) : R := match n with O => 0 | S k => sm k f + f k end.
Lemma sm_ext n f g : (forall i, (i < n)%nat -> f i = g i) -> sm n f = sm n g.
Proof. induction n as [|n IH]; cbn; intros H; [reflexivity|]. rewrite H by lia. rewrite IH; auto. Qed.
Lemma sm_plus n f g : sm n (fun i => f i + g i) = sm n f + sm n g.
Proof. induction n as [|n IH]; cbn; [lra|]. rewrite IH. lra. Qed.
Lemma sm_scal n c f : sm n (fun i => c * f i) = c * sm n f.
Proof. induction n as [|n IH]; cbn; [lra|]. rewrite IH. lra. Qed.
Lemma sm_scal_r n c f : sm n (fun i => f i * c) = sm n f * c.
Proof. induction n as [|n IH]; cbn; [lra|]. rewrite IH. lra. Qed.
Lemma sm_zero n f : (forall i, (i < n)%nat -> f i = 0) -> sm n f = 0.
Proof. induction n as [|n IH]; cbn; intros H; [reflexivity|]. rewrite H, IH by (auto; lia). lra. Qed.
Lemma sm_swap n m f : sm n (fun i => sm m (fun j => f i j)) = sm m (fun j => sm n (fun i => f i j)).
Proof.
  induction n as [|n IH]; cbn.
  - symmetry. apply sm_zero. reflexivity.
  - rewrite IH, <- sm_plus. reflexivity.
Qed.
Lemma sm_mult n m f g : sm n f * sm m g = sm n (fun i => sm m (fun j => f i * g j)).
Proof. rewrite <- sm_scal_r. apply sm_ext. intros. now rewrite sm_scal. Qed.
Lemma sm_nonneg n f : (forall i, (i < n)%nat -> 0 <= f i) -> 0 <= sm n f.
Proof. induction n as [|n IH]; cbn; intros H; [lra|]. assert (0 <= f n) by (apply H; lia). assert (0 <= sm n f) by (apply IH; intros; apply H; lia). lra. Qed.
Lemma dot_sm n u v : dot n u v = sm n (fun i => u i * v i).
Proof. induction n as [|n IH]; cbn; [reflexivity|]. rewrite IH. reflexivity. Qed.
Lemma sm_cut n k f : (k <= n)%nat -> (forall i, (k <= i < n)%nat -> f i = 0) -> sm n f = sm k f.
Proof.
  induction n as [|n IH]; intros L H.
  - replace k with 0%nat by lia. reflexivity.
  - destruct (Nat.eq_dec k (S n)) as [->|]; [reflexivity|]. cbn. rewrite H by lia. rewrite IH; [lra|lia|]. intros; apply H; lia.
Qed.
Lemma sm_delta n k f : (k < n)%nat -> sm n (fun i => if Nat.eqb k i then f i else 0) = f k.
Proof.
  induction n as [|n IH]; intros L; [lia|]. cbn. destruct (Nat.eqb_spec k n) as [->|].
  - rewrite sm_zero; [lra|]. intros i Hi. destruct (Nat.eqb_spec n i); [lia|reflexivity].
  - rewrite IH by lia. lra.
Qed.
Lemma fold_sm (f : nat -> R) n : forall a, fold_left (fun acc o => acc + f o) (seq 0 n) a = a + sm n f.
Proof.
  induction n as [|n IH]; intros a; [cbn; lra|].
  rewrite seq_S, fold_left_app, IH. cbn. lra.
Qed.
Lemma sq_nonneg n v : 0 <= sq n v.
Proof. unfold sq. rewrite dot_sm. apply sm_nonneg. intros. nra. Qed.

(** ** Cauchy-Schwarz *)
Lemma cauchy n u v : dot n u v * dot n u v <= sq n u * sq n v.
Proof.
  unfold sq. pose proof (sq_nonneg n v) as Hv. unfold sq in Hv.
  destruct (Req_dec (dot n v v) 0) as [Z|NZ].
  - assert (forall i, (i < n)%nat -> v i = 0) as E.
    { clear Hv. revert Z. rewrite dot_sm. induction n as [|m IH]; [lia|]. cbn. intros Z i Hi.
      assert (0 <= sm m (fun i => v i * v i)) by (apply sm_nonneg; intros; nra).
      destruct (Nat.eq_dec i m) as [->|]; [nra|]. apply IH; [nra|lia]. }
    rewrite (dot_sm n u v), sm_zero; [|intros; rewrite E by auto; lra]. rewrite Z. lra.
  - set (t := dot n u v / dot n v v).
    assert (0 <= dot n (fun i => u i - t * v i) (fun i => u i - t * v i)) as H by apply (sq_nonneg n).
    assert (dot n (fun i => u i - t * v i) (fun i => u i - t * v i) = dot n u u - 2 * t * dot n u v + t * t * dot n v v) as E.
    { rewrite !dot_sm. rewrite <- !sm_scal. unfold Rminus. 
      replace (- sm n (fun i => 2 * t * (u i * v i))) with (sm n (fun i => (-1) * (2 * t * (u i * v i)))) by (rewrite sm_scal; lra).
      rewrite <- !sm_plus. apply sm_ext. intros. ring. }
    rewrite E in H. unfold t in H.
    replace (dot n u u - 2 * (dot n u v / dot n v v) * dot n u v + dot n u v / dot n v v * (dot n u v / dot n v v) * dot n v v)
      with ((dot n u u * dot n v v - dot n u v * dot n u v) / dot n v v) in H by (field; auto).
    assert (0 < dot n v v) by lra.
    apply (Rmult_le_compat_r (dot n v v)) in H; [|lra]. unfold Rdiv in H. rewrite Rmult_assoc, Rinv_l, Rmult_0_l in H; lra.
Qed.

(** ** The update *)
Section Update.
Variable f_pow : R -> R -> R.
Hypothesis Hp : sane_pow f_pow.

Lemma norm_sq2 n w : norm_sq f_pow 2 (map w (seq 0 n)) = Ok (sq n w).
Proof.
  unfold norm_sq. cbn [Z.ltb Z.eqb Z.compare]. f_equal.
  assert (forall l a, fold_left (fun sum x_i => nadd sum (f_pow x_i (nZ 2))) (map w l) a = fold_left (fun acc o => acc + w o * w o) l a) as E.
  { induction l as [|x l IH]; intros a; cbn [map fold_left]; [reflexivity|]. rewrite IH. rewrite R_nZ. cbn [nadd RNum]. now rewrite (proj1 Hp). }
  rewrite E, (fold_sm (fun o => w o * w o)), R_nZ. unfold sq. rewrite dot_sm. lra.
Qed.

Lemma step_eq n w alpha k : S_step f_pow n w alpha k = Ok (f_pow k (- (1 / 2)) * (alpha - 234 / 1000) / sq n w).
Proof. unfold S_step. rewrite norm_sq2. reflexivity. Qed.

Lemma eye_diag n : diagonal n (@eye R RNum).
Proof.
  unfold eye. split.
  - intros i j _ _ Hij. destruct (Nat.eqb_spec i j); [contradiction|]. now rewrite R_nZ.
  - intros i _. rewrite Nat.eqb_refl, R_nZ. lra.
Qed.
Lemma eye_gram n i j : (i < n)%nat -> (j < n)%nat -> gram n (@eye R RNum) i j = if Nat.eqb i j then 1 else 0.
Proof.
  intros Hi Hj. unfold gram. rewrite dot_sm. unfold eye.
  rewrite (sm_ext _ _ (fun k => if Nat.eqb i k then (if Nat.eqb j k then 1 else 0) else 0)).
  - rewrite sm_delta by auto. rewrite Nat.eqb_sym. reflexivity.
  - intros k _. rewrite !R_nZ. destruct (Nat.eqb i k), (Nat.eqb j k); lra.
Qed.
Lemma eye_tails x m : forall K, tails m K (@eye R RNum) x = sm m (fun i => x (K + i)%nat * x (K + i)%nat).
Proof.
  assert (forall m f, sm (S m) f = f 0%nat + sm m (fun i => f (S i))) as H.
  { clear. induction m as [|m IH]; intros f; [cbn; lra|]. cbn [sm]. cbn [sm] in IH. rewrite IH. cbn. lra. }
  induction m as [|m IH]; intros K; cbn [tails]; [reflexivity|].
  rewrite IH, H. unfold eye. rewrite Nat.eqb_refl, R_nZ, Nat.add_0_r.
  rewrite (sm_ext m _ (fun i => x (K + S i)%nat * x (K + S i)%nat)); [|intros; rewrite Nat.add_succ_r; reflexivity].
  field.
Qed.

Lemma update_ok N S w alpha n : lower N S -> 0 < sq N w -> 0 <= alpha <= 1 -> 1 <= n ->
  (exists S', S_update f_pow N S w alpha n = Ok S' /\ lower N S' /\
     (forall i, (i < N)%nat -> exists c, 0 < c /\ S' i i = S i i * c) /\
     forall i j, (i < N)%nat -> (j < N)%nat ->
       gram N S' i j = gram N S i j + f_pow n (- (1 / 2)) * (alpha - 234 / 1000) * (apply N S w i * apply N S w j) / sq N w).
Proof.
  intros HS Hw Ha Hn. unfold S_update. rewrite step_eq. cbn [rmap rbind].
  set (eta := f_pow n (- (1 / 2)) * (alpha - 234 / 1000)).
  assert (-1 < eta) as Heta.
  { destruct (proj2 Hp n Hn) as [H1 H2]. unfold eta. nra. }
  set (m := eta / sq N w). cbv zeta.
  change (nsqrt (nabs m)) with (sqrt (Rabs m)).
  set (x := fun i => nmul (w i) (sqrt (Rabs m))).
  set (down := nltb m (nZ 0)).
  assert (m = if down then - Rabs m else Rabs m) as Hm.
  { unfold down. destruct (nltb m (nZ 0)) eqn:B.
    - apply Rltb_true in B. rewrite R_nZ in B. rewrite Rabs_left by lra. lra.
    - apply Rltb_false in B. rewrite R_nZ in B. rewrite Rabs_right by lra. lra. }
  assert (sqrt (Rabs m) * sqrt (Rabs m) = Rabs m) as Hr by (apply sqrt_sqrt, Rabs_pos).
  assert (forall i j, sg down * (x i * x j) = m * (w i * w j)) as Hx.
  { intros i j. unfold x. cbn [nmul RNum].
    replace (w i * sqrt (Rabs m) * (w j * sqrt (Rabs m))) with (sqrt (Rabs m) * sqrt (Rabs m) * (w i * w j)) by ring.
    rewrite Hr. rewrite Hm at 2. unfold sg. destruct down; ring. }
  assert (down = true -> tails N 0 (@eye R RNum) x < 1) as Ht.
  { intros Hd. rewrite eye_tails. cbn [Nat.add].
    rewrite (sm_ext _ _ (fun i => (- m) * (w i * w i))).
    2:{ intros i _. specialize (Hx i i). rewrite Hd in Hx. cbn [sg] in Hx. lra. }
    rewrite sm_scal, <- dot_sm. fold (sq N w). unfold m. unfold Rdiv. rewrite Ropp_mult_distr_l, Rmult_assoc, Rinv_l by lra. lra. }
  destruct (chol_diag down N (@eye R RNum) x (eye_diag N) Ht) as (U & L & P).
  set (I := cholUpdate down N (@eye R RNum) x) in *.
  assert (forall o j, (o < j)%nat -> (j < N)%nat -> I o j = 0) as LI.
  { intros o j Ho Hj. specialize (L o j ltac:(lia) Ho). cbv beta in L. replace (j <? N)%nat with true in L by lia. exact L. }
  eexists. split; [reflexivity|].
  match goal with |- lower N ?s /\ _ => set (S' := s) end.
  assert (forall i j, (i < N)%nat -> (j < N)%nat -> S' i j = sm N (fun o => S i o * I o j)) as E.
  { intros i j Hi Hj. unfold S'. replace (i <? N)%nat with true by lia. cbn [andb].
    assert (sm N (fun o => S i o * I o j) = sm (Datatypes.S i) (fun o => S i o * I o j)) as ->.
    { apply sm_cut; [lia|]. intros o Ho. rewrite (HS i o) by lia. lra. }
    destruct (j <=? i)%nat eqn:B.
    - change (fun (acc : R) (o : nat) => nadd acc (nmul (S i o) (I o j))) with (fun (acc : R) (o : nat) => acc + (fun o => S i o * I o j) o).
      rewrite fold_sm, R_nZ. lra.
    - rewrite R_nZ. symmetry. apply sm_zero. intros o Ho. rewrite (LI o j) by lia. lra. }
  split; [|split].
  - intros i j Hi Hij. unfold S'. replace (j <=? i)%nat with false by lia. rewrite Bool.andb_false_r, R_nZ. reflexivity.
  - intros i Hi. exists (I i i). split; [apply P; auto|]. rewrite E by auto.
    rewrite (sm_ext _ _ (fun o => if Nat.eqb i o then S i i * I i i else 0)).
    + apply (sm_delta N i (fun _ => S i i * I i i) Hi).
    + intros o Ho. destruct (Nat.eqb_spec i o) as [->|]; [reflexivity|].
      destruct (Nat.lt_ge_cases o i); [rewrite LI by lia; lra|]. rewrite (HS i o) by lia. lra.
  - intros i j Hi Hj. unfold gram at 1. rewrite dot_sm.
    rewrite (sm_ext _ _ (fun k => sm N (fun o => sm N (fun q => S i o * I o k * (S j q * I q k))))).
    2:{ intros k Hk. rewrite !E by auto. apply sm_mult. }
    rewrite sm_swap.
    rewrite (sm_ext _ _ (fun o => sm N (fun q => (S i o * (if Nat.eqb o q then S j q else 0)) + m * ((S i o * w o) * (S j q * w q))))).
    2:{ intros o Ho. rewrite sm_swap. apply sm_ext. intros q Hq.
        specialize (U o q Ho Hq). rewrite eye_gram in U by auto. rewrite Hx in U. unfold gram in U. rewrite dot_sm in U.
        rewrite (sm_ext _ _ (fun k => S i o * S j q * (I o k * I q k))) by (intros; ring).
        rewrite sm_scal, U. destruct (Nat.eqb o q); ring. }
    rewrite (sm_ext _ _ (fun o => S i o * S j o + m * (S i o * w o) * sm N (fun q => S j q * w q))).
    2:{ intros o Ho. rewrite sm_plus, sm_scal, (sm_delta N o (fun q => S j q)) by auto.
        rewrite sm_scal, sm_scal. ring. }
    rewrite sm_plus, sm_scal_r, sm_scal. unfold apply, gram. rewrite !dot_sm. unfold m. field. lra.
Qed.
End Update.

(** ** Variance of the proposals *)
Lemma variance_gram N S v : variance N S v = sm N (fun i => sm N (fun k => v i * v k * gram N S i k)).
Proof.
  unfold variance, sq. rewrite dot_sm.
  rewrite (sm_ext _ _ (fun j => sm N (fun i => sm N (fun k => S i j * v i * (S k j * v k))))).
  2:{ intros j _. rewrite dot_sm. apply sm_mult. }
  rewrite sm_swap. apply sm_ext. intros i Hi. rewrite sm_swap. apply sm_ext. intros k Hk.
  unfold gram. rewrite dot_sm, <- sm_scal. apply sm_ext. intros. ring.
Qed.
Lemma variance_update N S S' w v c : (forall i j, (i < N)%nat -> (j < N)%nat ->
    gram N S' i j = gram N S i j + c * (apply N S w i * apply N S w j)) ->
  variance N S' v = variance N S v + c * (dot N (fun j => dot N (fun i => S i j) v) w * dot N (fun j => dot N (fun i => S i j) v) w).
Proof.
  intros H. rewrite !variance_gram.
  assert (dot N (fun j => dot N (fun i => S i j) v) w = sm N (fun i => v i * apply N S w i)) as ->.
  { rewrite dot_sm. rewrite (sm_ext _ _ (fun j => sm N (fun i => S i j * v i * w j))).
    2:{ intros j _. rewrite dot_sm, <- sm_scal_r. reflexivity. }
    rewrite sm_swap. apply sm_ext. intros i _. unfold apply. rewrite dot_sm, <- sm_scal. apply sm_ext. intros. ring. }
  rewrite sm_mult, <- sm_scal, <- sm_plus. apply sm_ext. intros i Hi.
  rewrite <- sm_scal, <- sm_plus. apply sm_ext. intros k Hk. rewrite H by auto. ring.
Qed.

(** ** Prior and likelihood *)
Lemma log_sum_R ds : forall b s, (length b <= length ds)%nat ->
  Forall (fun y => 0 < y) (densities ds b) ->
  exists t, log_sum ln s ds b = Ok t /\ t = s + ln (product (densities ds b)) /\ 0 < product (densities ds b).
Proof.
  induction ds as [|d ds IH]; intros [|x b] s L F; cbn in L.
  - exists s. cbn. rewrite ln_1. repeat split; lra.
  - lia.
  - exists s. cbn. rewrite ln_1. repeat split; lra.
  - cbn [densities] in F. inversion F as [|? ? Hx F']; subst.
    destruct (IH b (s + ln (d x)) ltac:(lia) F') as (t & E & -> & P).
    eexists. split; [exact E|]. cbn [densities product]. rewrite ln_mult by auto. split; [lra|nra].
Qed.
