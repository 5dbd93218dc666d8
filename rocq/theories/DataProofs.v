(** * Lemmas about containers, thread pool, writer and Cholesky update *)
From Coq Require Import Permutation.
From Verif Require Import Base RFacts DataModel DataSpec.

(** ** Thread pool *)
Lemma worker_loop_spec n e : (1 <= n)%Z -> (e + n <= INT_MAX + 1)%Z -> forall f k,
  (Z.of_nat f >= e - k)%Z ->
  exists l, worker_loop f k e n = Ok l /\ NoDup l /\
    forall i, In i l <-> (k <= i < e)%Z /\ ((i - k) mod n = 0)%Z.
Proof.
  intros Hn He. induction f as [|f IH]; intros k Hf; cbn [worker_loop].
  - destruct (k <? e)%Z eqn:L; [lia|]. exists []. split; [reflexivity|]. split; [constructor|].
    intros i. cbn. split; [tauto|lia].
  - destruct (k <? e)%Z eqn:L.
    2:{ exists []. split; [reflexivity|]. split; [constructor|]. intros i. cbn. split; [tauto|lia]. }
    replace (k + n <=? INT_MAX)%Z with true by lia.
    destruct (IH (k + n)%Z) as (l & E & ND & HI); [lia|]. rewrite E. cbn [rmap rbind].
    exists (k :: l). split; [reflexivity|]. split.
    + constructor; auto. rewrite HI. lia.
    + intros i. cbn [In]. rewrite HI.
      assert (Hm : ((i - (k + n)) mod n = (i - k) mod n)%Z).
      { replace (i - k)%Z with (i - (k + n) + 1 * n)%Z by lia. rewrite Z.mod_add by lia. reflexivity. }
      rewrite Hm. split.
      * intros [<-|[H1 H2]]; [split; [lia|]; rewrite Z.sub_diag; apply Z.mod_0_l; lia | split; [lia|auto]].
      * intros [H1 H2]. destruct (Z.eq_dec k i) as [|Hk]; [left; auto|right]. split; [|exact H2].
        split; [|lia]. destruct (Z.lt_ge_cases (i - k) n) as [Hlt|]; [|lia].
        rewrite Z.mod_small in H2 by lia. lia.
Qed.

Lemma rsequence_map_ok {B C} (f : B -> res C) (g : B -> C) l :
  (forall x, In x l -> f x = Ok (g x)) -> rsequence (map f l) = Ok (map g l).
Proof.
  induction l as [|x t IH]; intros H; cbn; [reflexivity|].
  rewrite H by (left; reflexivity). cbn. rewrite IH; [reflexivity|]. intros; apply H; right; auto.
Qed.

(** All threads of a strided partition. *)
Lemma workers_spec n e : (1 <= n)%Z -> (e + n <= INT_MAX + 1)%Z ->
  exists ts, rsequence (map (fun k => worker (Z.of_nat k) e n) (seq 0 (Z.to_nat n))) = Ok ts /\
    length ts = Z.to_nat n /\
    forall k t, nth_error ts k = Some t ->
      NoDup t /\ forall i, In i t <-> (0 <= i < e)%Z /\ (i mod n = Z.of_nat k)%Z.
Proof.
  intros Hn He.
  assert (W : forall k, exists l, worker (Z.of_nat k) e n = Ok l /\ NoDup l /\
             forall i, In i l <-> (Z.of_nat k <= i < e)%Z /\ ((i - Z.of_nat k) mod n = 0)%Z).
  { intros k. unfold worker. apply worker_loop_spec; auto. lia. }
  set (g := fun k => match worker (Z.of_nat k) e n with Ok l => l | _ => [] end).
  exists (map g (seq 0 (Z.to_nat n))). split.
  { apply rsequence_map_ok. intros k _. unfold g. destruct (W k) as (l & -> & _). reflexivity. }
  split; [rewrite map_length, seq_length; reflexivity|].
  intros k t Hk. rewrite nth_error_map in Hk.
  destruct (nth_error (seq 0 (Z.to_nat n)) k) as [k'|] eqn:E; [|discriminate].
  assert (Hlt : (k < Z.to_nat n)%nat).
  { rewrite <- (seq_length (Z.to_nat n) 0). apply nth_error_Some. congruence. }
  assert (k' = k).
  { apply nth_error_nth with (d := 0%nat) in E. rewrite seq_nth in E by auto. lia. }
  subst k'. cbn in Hk. injection Hk as <-. unfold g.
  destruct (W k) as (l & -> & ND & HI). split; [exact ND|].
  intros i. rewrite HI. split; intros [H1 H2].
  - split; [lia|]. replace i with (Z.of_nat k + (i - Z.of_nat k))%Z by lia.
    rewrite Z.add_mod, H2, Z.add_0_r, Z.mod_mod by lia. apply Z.mod_small. lia.
  - assert (Z.of_nat k <= i)%Z. { rewrite <- H2. apply Z.mod_le; lia. }
    split; [lia|]. rewrite Zminus_mod, H2, (Z.mod_small (Z.of_nat k)) by lia.
    rewrite Z.sub_diag. apply Z.mod_0_l. lia.
Qed.

Lemma run_spec w hc e : (0 <= w)%Z -> (1 <= hc)%Z -> (e + hc <= INT_MAX)%Z ->
  exists ts n, run_workers w hc e = Ok ts /\ (1 <= n)%Z /\ length ts = Z.to_nat n /\
    forall k t, nth_error ts k = Some t ->
      NoDup t /\ forall i, In i t <-> (0 <= i < e)%Z /\ (i mod n = Z.of_nat k)%Z.
Proof.
  intros Hw Hh He. unfold run_workers.
  destruct (w =? 1)%Z eqn:E1.
  - destruct (workers_spec 1 e) as (ts & E & L & H); [lia|lia|]. exists ts, 1%Z.
    change (Z.to_nat 1) with 1%nat in E. cbn [seq map rsequence] in E. change (Z.of_nat 0) with 0%Z in E.
    destruct (worker 0 e 1); cbn in E; try discriminate. injection E as <-. cbn [rmap rbind].
    split; [reflexivity|]. split; [lia|]. split; [exact L|exact H].
  - destruct (workers_spec (Z.min (if (w <? 1)%Z then hc else w) hc) e) as (ts & E & L & H).
    + destruct (w <? 1)%Z eqn:E2; lia.
    + destruct (w <? 1)%Z eqn:E2; lia.
    + exists ts, (Z.min (if (w <? 1)%Z then hc else w) hc). split; [exact E|].
      split; [destruct (w <? 1)%Z eqn:E2; lia|]. auto.
Qed.

Lemma range_In e i : In i (range e) <-> (0 <= i < e)%Z.
Proof.
  unfold range. rewrite in_map_iff. split.
  - intros (k & <- & H). apply in_seq in H. lia.
  - intros H. exists (Z.to_nat i). split; [lia|]. apply in_seq. lia.
Qed.
Lemma range_NoDup e : NoDup (range e).
Proof. unfold range. apply FinFun.Injective_map_NoDup; [intros a b; lia|apply seq_NoDup]. Qed.

Lemma NoDup_concat {B} (ts : list (list B)) :
  (forall k t, nth_error ts k = Some t -> NoDup t) ->
  (forall k1 k2 t1 t2 b, nth_error ts k1 = Some t1 -> nth_error ts k2 = Some t2 -> In b t1 -> In b t2 -> k1 = k2) ->
  NoDup (concat ts).
Proof.
  induction ts as [|t ts IH]; intros H1 H2; cbn; [constructor|].
  assert (Happ : forall (u v : list B), NoDup u -> NoDup v -> (forall b, In b u -> ~ In b v) -> NoDup (u ++ v)).
  { clear. induction u as [|x u IH]; cbn; intros v Hu Hv Hd; auto. inversion Hu; subst.
    constructor.
    - rewrite in_app_iff. intros [?|?]; [auto|]. apply (Hd x); auto.
    - apply IH; auto. }
  apply Happ.
  - apply (H1 0%nat); reflexivity.
  - apply IH.
    + intros k t' Hk. apply (H1 (S k)); exact Hk.
    + intros k1 k2 t1 t2 b A1 A2 B1 B2. assert (S k1 = S k2) by (eapply H2; eauto). lia.
  - intros b Hb Hc. apply in_concat in Hc. destruct Hc as (t' & Ht' & Hbt').
    apply In_nth_error in Ht'. destruct Ht' as [k Hk].
    assert (0%nat = S k) by (eapply (H2 0%nat (S k) t t' b); eauto; reflexivity). lia.
Qed.

Lemma run_perm w hc e : (0 <= w)%Z -> (1 <= hc)%Z -> (e + hc <= INT_MAX)%Z ->
  exists ts, run_workers w hc e = Ok ts /\ Permutation (concat ts) (range e).
Proof.
  intros Hw Hh He. destruct (run_spec w hc e Hw Hh He) as (ts & n & E & Hn & L & H).
  exists ts. split; [exact E|]. apply NoDup_Permutation.
  - apply NoDup_concat.
    + intros k t Hk. apply H in Hk. tauto.
    + intros k1 k2 t1 t2 b A1 A2 B1 B2. apply H in A1. apply H in A2.
      destruct A1 as [_ A1]. destruct A2 as [_ A2]. apply A1 in B1. apply A2 in B2. lia.
  - apply range_NoDup.
  - intros i. rewrite range_In, in_concat. split.
    + intros (t & Ht & Hi). apply In_nth_error in Ht. destruct Ht as [k Hk]. apply H in Hk.
      destruct Hk as [_ Hk]. apply Hk in Hi. tauto.
    + intros Hi. assert (Hm := Z.mod_pos_bound i n).
      destruct (nth_error ts (Z.to_nat (i mod n))) as [t|] eqn:Et; [|apply nth_error_None in Et; lia].
      exists t. split; [eapply nth_error_In; eauto|]. apply H in Et. destruct Et as [_ Et]. apply Et. lia.
Qed.

Lemma interleaving_perm {E} (ts : list (list E)) sched : interleaving ts sched -> Permutation sched (concat ts).
Proof.
  induction 1 as [ts H|ts1 e t ts2 sched H IH].
  - assert (concat ts = []) as ->; [|constructor].
    induction H as [|x l Hx Hl IHl]; cbn; [reflexivity|]. rewrite Hx. exact IHl.
  - rewrite concat_app in *. cbn [concat] in *.
    cbn [app]. etransitivity; [apply perm_skip; exact IH|]. apply Permutation_middle.
Qed.

Lemma interleaving_filter {E} (P : E -> bool) (ts : list (list E)) sched : interleaving ts sched ->
  forall k, (forall k' t', k' <> k -> nth_error ts k' = Some t' -> filter P t' = []) ->
  filter P sched = match nth_error ts k with Some t => filter P t | None => [] end.
Proof.
  induction 1 as [ts H|ts1 e t ts2 sched H IH]; intros k Hk.
  - destruct (nth_error ts k) as [t|] eqn:Et; [|reflexivity].
    apply nth_error_In in Et. rewrite Forall_forall in H. rewrite (H t Et). reflexivity.
  - assert (NE : forall x k', k' <> length ts1 -> nth_error (ts1 ++ x :: ts2) k' = nth_error (ts1 ++ (e :: t) :: ts2) k').
    { intros x k' Hne. destruct (Nat.lt_ge_cases k' (length ts1)) as [Hl|Hl].
      - rewrite !nth_error_app1 by auto. reflexivity.
      - rewrite !nth_error_app2 by auto. destruct (k' - length ts1)%nat eqn:D; [lia|]. reflexivity. }
    assert (EQ : forall x, nth_error (ts1 ++ x :: ts2) (length ts1) = Some x).
    { intros x. rewrite nth_error_app2, Nat.sub_diag by lia. reflexivity. }
    destruct (Nat.eq_dec k (length ts1)) as [->|Hne].
    + rewrite EQ. specialize (IH (length ts1)). rewrite EQ in IH. cbn [filter].
      rewrite IH; [reflexivity|]. intros k' t' Hn Hn'. apply (Hk k'); auto. rewrite <- (NE t); auto.
    + assert (Pe : filter P (e :: t) = []) by (apply (Hk (length ts1)); auto).
      cbn [filter] in Pe. destruct (P e) eqn:Pe1; [discriminate|]. cbn [filter]. rewrite Pe1.
      rewrite (IH k).
      * rewrite (NE t); auto.
      * intros k' t' Hn Hn'. destruct (Nat.eq_dec k' (length ts1)) as [->|Hx].
        -- rewrite EQ in Hn'. injection Hn' as <-. exact Pe.
        -- apply (Hk k'); auto. rewrite <- (NE t); auto.
Qed.

Definition touches {X} (j : Z) (a : action X) : bool := (j =? fst a)%Z.

Lemma exec_component {X} (sched : list (action X)) : forall s j,
  exec sched s j = complete (map snd (filter (touches j) sched)) (s j).
Proof.
  unfold exec, complete. induction sched as [|a t IH]; intros s j; cbn; [reflexivity|].
  rewrite IH. unfold exec1, touches. destruct (j =? fst a)%Z; reflexivity.
Qed.

Lemma actions_filter {X} (prog : Z -> list (X -> X)) j l : NoDup l ->
  filter (touches j) (actions_of prog l) = if in_dec Z.eq_dec j l then map (pair j) (prog j) else [].
Proof.
  assert (F : forall i (p : list (X -> X)), filter (touches j) (map (pair i) p) = if (j =? i)%Z then map (pair i) p else []).
  { intros i p. induction p as [|g p IH]; cbn; [destruct (j =? i)%Z; reflexivity|].
    rewrite IH. unfold touches. cbn. destruct (j =? i)%Z; reflexivity. }
  induction 1 as [|i l Hi Hl IH]; [reflexivity|].
  change (actions_of prog (i :: l)) with (map (pair i) (prog i) ++ actions_of prog l).
  rewrite (filter_app (touches j)).
  etransitivity; [apply (f_equal2 (@app _) (F i (prog i)) IH)|]. clear IH.
  destruct (j =? i)%Z eqn:E.
  - apply Z.eqb_eq in E. subst i. destruct (in_dec Z.eq_dec j l); [contradiction|].
    rewrite app_nil_r. destruct (in_dec Z.eq_dec j (j :: l)) as [|C]; [reflexivity|]. exfalso; apply C; left; reflexivity.
  - apply Z.eqb_neq in E. destruct (in_dec Z.eq_dec j l) as [I1|I1], (in_dec Z.eq_dec j (i :: l)) as [I2|I2]; try reflexivity.
    + exfalso; apply I2; right; exact I1.
    + destruct I2 as [I2|I2]; [congruence|contradiction].
Qed.

Lemma run_same_result {X} (prog : Z -> list (X -> X)) w hc e s :
  (0 <= w)%Z -> (1 <= hc)%Z -> (e + hc <= INT_MAX)%Z ->
  exists ts, run_workers w hc e = Ok ts /\
    forall sched, interleaving (map (actions_of prog) ts) sched ->
      forall j, exec sched s j = if (0 <=? j)%Z && (j <? e)%Z then complete (prog j) (s j) else s j.
Proof.
  intros Hw Hh He. destruct (run_spec w hc e Hw Hh He) as (ts & n & E & Hn & L & H).
  exists ts. split; [exact E|]. intros sched Hs j. rewrite exec_component.
  assert (Hmod := Z.mod_pos_bound j n).
  rewrite (interleaving_filter _ _ _ Hs (Z.to_nat (j mod n))).
  - rewrite nth_error_map. destruct (nth_error ts (Z.to_nat (j mod n))) as [t|] eqn:Et.
    2:{ apply nth_error_None in Et. lia. }
    cbn [option_map]. apply H in Et. destruct Et as [ND HI].
    rewrite actions_filter by exact ND.
    destruct (in_dec Z.eq_dec j t) as [Hin|Hin]; rewrite HI in Hin.
    + replace ((0 <=? j)%Z && (j <? e)%Z) with true by lia. rewrite map_map. cbn. rewrite map_id. reflexivity.
    + destruct ((0 <=? j)%Z && (j <? e)%Z) eqn:B; [|reflexivity].
      exfalso. apply Hin. lia.
  - intros k' t' Hk' Ht'. rewrite nth_error_map in Ht'.
    destruct (nth_error ts k') as [u|] eqn:Eu; [|discriminate]. cbn in Ht'. injection Ht' as <-.
    apply H in Eu. destruct Eu as [ND HI]. rewrite actions_filter by exact ND.
    destruct (in_dec Z.eq_dec j u) as [Hin|]; [|reflexivity]. apply HI in Hin. lia.
Qed.

Lemma worker_overflow f : forall k, (0 <= k < INT_MAX)%Z -> Z.even k = true -> (Z.of_nat f >= INT_MAX - k)%Z ->
  worker_loop f k INT_MAX 2 = UB.
Proof.
  induction f as [|f IH]; intros k Hk Ev Hf; [lia|]. cbn [worker_loop].
  replace (k <? INT_MAX)%Z with true by lia.
  destruct (k + 2 <=? INT_MAX)%Z eqn:L; [|reflexivity].
  rewrite IH; [reflexivity| | |lia].
  - split; [lia|]. assert (k + 2 <> INT_MAX)%Z; [|lia].
    intros C. apply (f_equal Z.even) in C. rewrite Z.even_add, Ev in C. discriminate.
  - rewrite Z.even_add, Ev. reflexivity.
Qed.
Lemma run_overflow : run_workers 0 2 INT_MAX = UB.
Proof.
  assert (H : worker (Z.of_nat 0) INT_MAX 2 = UB).
  { unfold worker. apply worker_overflow; [unfold INT_MAX; lia | reflexivity | lia]. }
  assert (S : forall x y : res (list Z), x = UB -> rsequence [x; y] = UB) by (intros x y ->; reflexivity).
  exact (S _ _ H).
Qed.

(** ** Small vector *)

Lemma firstn_list_set {B} (l : list B) n x : (n < length l)%nat -> firstn (S n) (list_set l n x) = firstn n l ++ [x].
Proof.
  revert n; induction l as [|a l IH]; intros [|n]; cbn; try lia; intros H; [reflexivity|].
  f_equal. apply IH. lia.
Qed.
Lemma pushes_spec l : forall v, sv_ok v -> (sv_n v + length l <= sv_max v)%nat ->
  exists v', pushes l v = (v', Ok tt) /\ sv_ok v' /\ sv_max v' = sv_max v /\ sv_n v' = (sv_n v + length l)%nat /\
    sv_elems v' = sv_elems v ++ l.
Proof.
  induction l as [|x t IH]; intros v [H1 H2] H; cbn [pushes].
  - exists v. cbn. rewrite Nat.add_0_r, app_nil_r. repeat split; auto.
  - cbn in H. unfold sv_push.
    replace (Nat.ltb (sv_max v) (sv_n v)) with false by (symmetry; apply Nat.ltb_ge; lia).
    replace (Nat.ltb (sv_n v) (sv_max v)) with true by (symmetry; apply Nat.ltb_lt; lia).
    destruct (IH (mkSV (sv_max v) (list_set (sv_data v) (sv_n v) x) (S (sv_n v)))) as (v' & E & O & Mx & Nn & El).
    + split; cbn; [rewrite list_set_length; auto|lia].
    + cbn; lia.
    + exists v'. rewrite E. cbn in Mx, Nn. split; [reflexivity|]. split; [exact O|]. split; [exact Mx|].
      split; [cbn; lia|]. rewrite El. unfold sv_elems. cbn [sv_n sv_data].
      rewrite firstn_list_set by lia. rewrite <- app_assoc. reflexivity.
Qed.
Lemma sv_get_spec v i : sv_ok v ->
  sv_get i v = match nth_error (sv_elems v) i with Some x => Ok x | None => Throw 1234 end.
Proof.
  intros [H1 H2]. unfold sv_get, sv_elems.
  destruct (Nat.ltb i (sv_n v)) eqn:L.
  - apply Nat.ltb_lt in L.
    assert (F : nth_error (firstn (sv_n v) (sv_data v)) i = nth_error (sv_data v) i).
    { rewrite <- (firstn_skipn (sv_n v) (sv_data v)) at 2. rewrite nth_error_app1; [reflexivity|].
      rewrite firstn_length. lia. }
    rewrite F. destruct (nth_error (sv_data v) i) eqn:E; [reflexivity|]. apply nth_error_None in E. lia.
  - apply Nat.ltb_ge in L. destruct (nth_error (firstn (sv_n v) (sv_data v)) i) eqn:E; [|reflexivity].
    assert (i < length (firstn (sv_n v) (sv_data v)))%nat by (apply nth_error_Some; congruence).
    rewrite firstn_length in H. lia.
Qed.

(** ** State storage *)
Section StoreP.
Context {A : Type}.
Lemma write_at_spec (vs : list A) : forall h a x,
  write_at h a vs x = if (a <=? x)%nat && (x <? a + length vs)%nat
                      then match nth_error vs (x - a) with Some v => v | None => h x end else h x.
Proof.
  induction vs as [|v vs IH]; intros h a x; cbn [write_at length].
  - destruct ((a <=? x)%nat && (x <? a + 0)%nat) eqn:B; [lia|reflexivity].
  - rewrite IH. destruct (Nat.eqb x a) eqn:E.
    + apply Nat.eqb_eq in E. subst x.
      replace ((S a <=? a)%nat && (a <? S a + length vs)%nat) with false by lia.
      replace ((a <=? a)%nat && (a <? a + S (length vs))%nat) with true by lia.
      rewrite Nat.sub_diag. reflexivity.
    + apply Nat.eqb_neq in E. destruct ((a <=? x)%nat && (x <? a + S (length vs))%nat) eqn:B.
      * replace ((S a <=? x)%nat && (x <? S a + length vs)%nat) with true by lia.
        replace (x - a)%nat with (S (x - S a)) by lia. reflexivity.
      * replace ((S a <=? x)%nat && (x <? S a + length vs)%nat) with false by lia. reflexivity.
Qed.

Lemma read_span_length (h : heap A) s : length (read_span h s) = snd s.
Proof. unfold read_span. rewrite map_length, seq_length. reflexivity. Qed.

(** Contents of the store after a history. *)
Lemma storing_store (h h' : heap A) st st' log : storing h st log h' st' ->
  ss_spans st' = ss_spans st ++ map fst log /\ ss_vals st' = ss_vals st ++ concat (map snd log) /\
  Forall (fun e => length (snd e) = snd (fst e)) log.
Proof.
  induction 1 as [h st|h st s log h' st' H IH|h st h1 log h' st' H IH].
  - cbn. rewrite !app_nil_r. auto.
  - destruct IH as (I1 & I2 & I3). cbn in *. rewrite I1, I2, <- !app_assoc. repeat split; auto.
    constructor; auto. cbn. apply read_span_length.
  - exact IH.
Qed.

Lemma restore_loop_spec (log : list (span * list A)) : forall h a,
  Forall (fun e => length (snd e) = snd (fst e)) log ->
  restore_loop (map fst log) (concat (map snd log)) h a =
  match last_saved log a with Some v => v | None => h a end.
Proof.
  induction log as [|[s vs] log IH]; intros h a H; cbn [map concat restore_loop last_saved fst snd]; [reflexivity|].
  inversion H as [|? ? Hl H']; subst. cbn in Hl.
  rewrite <- Hl at 1. rewrite skipn_app, skipn_all, Nat.sub_diag. cbn [app skipn].
  rewrite <- Hl at 1. rewrite firstn_app, Nat.sub_diag, firstn_all, app_nil_r.
  rewrite IH by exact H'. destruct (last_saved log a); [reflexivity|].
  rewrite write_at_spec. rewrite Hl.
  destruct ((fst s <=? a)%nat && (a <? fst s + snd s)%nat) eqn:B; reflexivity.
Qed.

Lemma storage_restores (h h' hr : heap A) st log : storing h ss_clear log h' st ->
  forall a, ss_restore st hr a = match last_saved log a with Some v => v | None => hr a end.
Proof.
  intros H a. apply storing_store in H. destruct H as (H1 & H2 & H3). cbn in H1, H2.
  unfold ss_restore. rewrite H1, H2. apply restore_loop_spec. exact H3.
Qed.

Lemma last_saved_none (log : list (span * list A)) a :
  Forall (fun e => length (snd e) = snd (fst e)) log ->
  (last_saved log a = None <-> forall s vs, In (s, vs) log -> ~ in_span a s).
Proof.
  induction log as [|[s vs] log IH]; intros H; cbn [last_saved]; [split; [intros _ s vs []|auto]|].
  inversion H as [|? ? Hl H']; subst. cbn in Hl. specialize (IH H'). unfold in_span in *.
  destruct (last_saved log a) as [v|] eqn:E.
  - split; [discriminate|]. intros C. destruct IH as [_ IH].
    assert (Some v = None); [|discriminate]. apply IH. intros s' vs' Hi. apply (C s' vs'). right; exact Hi.
  - destruct IH as [IH _]. specialize (IH eq_refl).
    destruct ((fst s <=? a)%nat && (a <? fst s + snd s)%nat) eqn:B.
    + split.
      * intros C. apply nth_error_None in C. lia.
      * intros C. exfalso. apply (C s vs); [left; reflexivity|]. lia.
    + split; [|reflexivity]. intros _ s' vs' [Hi|Hi]; [injection Hi as <- <-; lia | apply (IH s' vs'); auto].
Qed.

Lemma disjoint_last_saved (log : list (span * list A)) a s vs :
  Forall (fun e => length (snd e) = snd (fst e)) log ->
  (forall i j si sj vi vj, i <> j -> nth_error log i = Some (si, vi) -> nth_error log j = Some (sj, vj) ->
     ~ (in_span a si /\ in_span a sj)) ->
  In (s, vs) log -> in_span a s -> last_saved log a = nth_error vs (a - fst s).
Proof.
  induction log as [|[s0 vs0] log IH]; intros H D Hin Ha; [destruct Hin|]. cbn [last_saved].
  inversion H as [|? ? Hl H']; subst. cbn in Hl.
  destruct Hin as [Hin|Hin].
  - injection Hin as -> ->.
    assert (E : last_saved log a = None).
    { apply last_saved_none; auto. intros s' vs' Hi Hs'. apply In_nth_error in Hi. destruct Hi as [k Hk].
      apply (D 0%nat (S k) s s' vs vs'); auto. }
    rewrite E. unfold in_span in Ha.
    replace ((fst s <=? a)%nat && (a <? fst s + snd s)%nat) with true by lia. reflexivity.
  - assert (E : last_saved log a = nth_error vs (a - fst s)).
    { apply IH; auto. intros i j si sj vi vj Hij Hi Hj. apply (D (S i) (S j) si sj vi vj); auto. }
    rewrite E. destruct (nth_error vs (a - fst s)) eqn:N; [reflexivity|].
    apply nth_error_None in N. rewrite Forall_forall in H'. apply H' in Hin. cbn in Hin. unfold in_span in Ha. lia.
Qed.
End StoreP.

(** ** Writer *)
Section WriterP.
Context {A : Type}.
Lemma write_loop_numbers n (data : list A) : (1 <= n)%nat -> forall i,
  exists t, write_loop i n data = Ok t /\ numbers t = data.
Proof.
  intros Hn. induction data as [|x rest IH]; intros i; cbn [write_loop].
  - exists []. auto.
  - destruct n as [|n']; [lia|]. destruct (IH (S i)) as (t & -> & N). cbn [rmap rbind].
    eexists. split; [reflexivity|]. unfold numbers in *. rewrite flat_map_app. cbn [flat_map].
    rewrite N. destruct (Nat.eqb (i mod S n') 0); [destruct (Nat.eqb i 0)|]; reflexivity.
Qed.

(** Tokens of a row after its first number / of the following rows. *)
Definition row_tail (r : list A) : list (ftok A) := flat_map (fun x => [FComma; FNum x]) r.

Lemma write_loop_row n (r rest : list A) i k : (1 <= n)%nat -> (i = k * n + (n - length r))%nat -> (length r <= n - 1)%nat ->
  write_loop i n (r ++ rest) = rmap (fun t => row_tail r ++ t) (write_loop (i + length r) n rest).
Proof.
  intros Hn. revert i. induction r as [|x r IH]; intros i Hi Hl; cbn [app length].
  - rewrite Nat.add_0_r. destruct (write_loop i n rest); reflexivity.
  - cbn [write_loop length] in *. destruct n as [|n']; [lia|].
    rewrite (IH (S i)) by lia. replace (i + S (length r))%nat with (S i + length r)%nat by lia.
    assert (E : (i mod S n')%nat = (S n' - S (length r))%nat).
    { rewrite Hi. rewrite Nat.add_comm, Nat.mod_add by lia. apply Nat.mod_small. lia. }
    replace (Nat.eqb (i mod S n') 0) with false by (symmetry; apply Nat.eqb_neq; lia).
    destruct (write_loop (S i + length r) (S n') rest); reflexivity.
Qed.

Lemma parse_row_tail (r cur : list A) t : parse_after cur (row_tail r ++ t) = parse_after (cur ++ r) t.
Proof.
  revert cur. induction r as [|x r IH]; intros cur; cbn; [rewrite app_nil_r; reflexivity|].
  rewrite IH, <- app_assoc. reflexivity.
Qed.

(** Rows of width [n], the last one possibly shorter. *)
Lemma rows_of_head n (rs : list (list A)) : rows_of n rs -> exists x r rs', rs = (x :: r) :: rs' /\ (length r <= n - 1)%nat /\
  (rs' = [] \/ (length r = n - 1 /\ rows_of n rs'))%nat.
Proof.
  destruct 1 as [r H|r rs H Hn H'].
  - destruct r as [|x r]; cbn in H; [lia|]. exists x, r, []. repeat split; auto; lia.
  - destruct r as [|x r]; cbn in H; [lia|]. exists x, r, rs. repeat split; auto; try lia.
    right. split; auto. lia.
Qed.

Lemma write_loop_rows n (rs : list (list A)) : (1 <= n)%nat -> rows_of n rs -> forall k,
  exists x t, write_loop (k * n) n (concat rs) = Ok ((if Nat.eqb k 0 then [] else [FNewline]) ++ FNum x :: t) /\
    parse_after [x] t = Some rs.
Proof.
  intros Hn H. induction H as [r H|r rs H _ H' IH]; intros k.
  - destruct r as [|x r]; cbn [length] in H; [lia|]. cbn [concat app write_loop]. rewrite app_nil_r.
    destruct n as [|n']; [lia|].
    rewrite Nat.mod_mul by lia. rewrite Nat.eqb_refl.
    replace (Nat.eqb (k * S n') 0) with (Nat.eqb k 0) by (destruct k; reflexivity).
    exists x, (row_tail r).
    assert (G : forall (l : list A) i, (length l < S n')%nat -> (0 < i mod S n')%nat -> (i mod S n' + length l <= S n')%nat ->
       write_loop i (S n') l = Ok (row_tail l)).
    { induction l as [|y l IHl]; intros i L1 L2 L3; cbn [write_loop]; [reflexivity|]. cbn in L1, L3.
      replace (Nat.eqb (i mod S n') 0) with false by (symmetry; apply Nat.eqb_neq; lia).
      destruct l as [|z l'].
      - cbn [write_loop rmap rbind]. reflexivity.
      - assert (Em : (S i mod S n' = S (i mod S n'))%nat).
        { cbn in L1, L3. rewrite (Nat.div_mod i (S n')) at 1 by lia.
          replace (S (S n' * (i / S n') + i mod S n'))%nat with (S (i mod S n') + (i / S n') * S n')%nat by lia.
          rewrite Nat.mod_add by lia. apply Nat.mod_small. cbn in *. lia. }
        rewrite IHl; [reflexivity| | |].
        + cbn in *; lia.
        + lia.
        + cbn in *; lia. }
    destruct r as [|y r'].
    + cbn. split; [reflexivity|reflexivity].
    + cbn [length] in H. 
      assert (Em : (S (k * S n') mod S n' = 1)%nat).
      { replace (S (k * S n'))%nat with (1 + k * S n')%nat by lia. rewrite Nat.mod_add by lia. apply Nat.mod_small. lia. }
      rewrite (G (y :: r')).
      * cbn [rmap rbind]. split; [reflexivity|]. rewrite <- (app_nil_r (row_tail (y :: r'))), parse_row_tail. reflexivity.
      * cbn; lia.
      * lia.
      * cbn [length]; lia.
  - destruct r as [|x r]; cbn [length] in H; [lia|]. cbn [concat app write_loop].
    destruct n as [|n']; [lia|].
    rewrite Nat.mod_mul by lia. rewrite Nat.eqb_refl.
    replace (Nat.eqb (k * S n') 0) with (Nat.eqb k 0) by (destruct k; reflexivity).
    rewrite (write_loop_row (S n') r (concat rs) (S (k * S n')) k) by lia.
    replace (S (k * S n') + length r)%nat with (S k * S n')%nat by lia.
    destruct (IH (S k)) as (y & t & E & P). rewrite E. cbn [rmap rbind Nat.eqb app].
    exists x, (row_tail r ++ FNewline :: FNum y :: t). split; [reflexivity|].
    rewrite parse_row_tail. cbn [parse_after]. rewrite P. reflexivity.
Qed.

Lemma write_single_batch n (rs : list (list A)) : (1 <= n)%nat -> rows_of n rs ->
  exists f, write_data n ([], concat rs) = Ok (f, []) /\ parse_rows f = Some rs.
Proof.
  intros Hn H. destruct (write_loop_rows n rs Hn H 0) as (x & t & E & P). cbn in E.
  exists (FNum x :: t). unfold write_data. cbn [fst snd]. rewrite E. cbn. auto.
Qed.

(** any number of batches: every sample, in order *)
Lemma write_batches_numbers n (bs : list (list A)) : (1 <= n)%nat -> forall f,
  exists f', write_batches n f bs = Ok f' /\ numbers f' = numbers f ++ concat bs.
Proof.
  intros Hn. induction bs as [|b bs IH]; intros f; cbn [write_batches concat].
  - exists f. rewrite app_nil_r. auto.
  - unfold write_data. cbn [fst snd]. destruct (write_loop_numbers n b Hn 0) as (t & -> & N). cbn [rmap rbind].
    destruct (IH (f ++ t)) as (f' & -> & N'). exists f'. split; [reflexivity|].
    rewrite N'. unfold numbers in *. rewrite flat_map_app, N, app_assoc. reflexivity.
Qed.

Lemma two_batches_glued n (x y : A) (r1 r2 : list A) : (1 <= n)%nat ->
  forall f, write_batches n [] [x :: r1; y :: r2] = Ok f -> parse_rows f = None.
Proof.
  intros Hn f. cbn [write_batches]. unfold write_data. cbn [fst snd app].
  assert (E : forall (data : list A) i, exists t, write_loop i n data = Ok t).
  { intros data i. destruct (write_loop_numbers n data Hn i) as (t & E & _). eauto. }
  assert (T : forall (d : list A) i t c u, write_loop (S i) n d = Ok t -> parse_after c (t ++ FNum y :: u) = None).
  { induction d as [|z d IHd]; intros i t c u; cbn [write_loop].
    - intros H; injection H as <-. reflexivity.
    - destruct n as [|n']; [lia|]. destruct (E d (S (S i))) as [t' Et']. rewrite Et'. cbn [rmap rbind].
      intros H; injection H as <-.
      match goal with |- context [if ?b then [FNewline] else [FComma]] => destruct b end.
      + change (option_map (cons c) (parse_after [z] (t' ++ FNum y :: u)) = None).
        rewrite (IHd (S i) t' [z] u Et'). reflexivity.
      + apply (IHd (S i) t' _ u Et'). }
  destruct (E r1 1%nat) as [t1 E1]. destruct (E r2 1%nat) as [t2 E2].
  cbn [write_loop]. destruct n as [|n']; [lia|]. rewrite E1, E2. cbn [rmap rbind].
  rewrite Nat.mod_0_l by lia. cbn. intros H; injection H as <-.
  apply (T r1 0%nat t1); exact E1.
Qed.
End WriterP.

(** ** Degradation identifiers *)
Lemma toks_dash_inj l1 l2 p1 p2 r1 r2 :
  toks_dash l1 ++ TNum p1 :: TUnder :: r1 = toks_dash l2 ++ TNum p2 :: TUnder :: r2 ->
  l1 = l2 /\ p1 = p2 /\ r1 = r2.
Proof.
  revert l2. induction l1 as [|x l1 IH]; intros [|y l2]; cbn; intros H; try discriminate.
  - injection H as -> ->. auto.
  - injection H as -> H. apply IH in H. destruct H as (-> & -> & ->). auto.
Qed.
Lemma norm_inj (l1 l2 : list Z) : ~ In 0%Z l1 -> ~ In 0%Z l2 ->
  (match l1 with [] => [0%Z] | z :: l => z :: l end) = (match l2 with [] => [0%Z] | z :: l => z :: l end) -> l1 = l2.
Proof.
  intros H1 H2. destruct l1 as [|x l1], l2 as [|y l2]; auto.
  - intros H; injection H as <- <-. exfalso; apply H2; left; reflexivity.
  - intros H; injection H as -> ->. exfalso; apply H1; left; reflexivity.
Qed.
Lemma removelast_dash x l : removelast (toks_dash (x :: l)) = TNum x :: flat_map (fun z => [TDash; TNum z]) l.
Proof.
  revert x. induction l as [|y l IH]; intros x; [reflexivity|].
  specialize (IH y). cbn in *. f_equal. f_equal. exact IH.
Qed.
Lemma lam_inj x1 l1 x2 l2 p1 p2 :
  (TNum x1 :: flat_map (fun z => [TDash; TNum z]) l1) ++ [TUnder; TNum p1] =
  (TNum x2 :: flat_map (fun z => [TDash; TNum z]) l2) ++ [TUnder; TNum p2] -> x1 :: l1 = x2 :: l2 /\ p1 = p2.
Proof.
  revert x1 x2 l2. induction l1 as [|y l1 IH]; intros x1 x2 [|z l2]; cbn; intros H; try discriminate.
  - injection H as -> ->. auto.
  - injection H as -> H H'. cbn in IH. destruct (IH y z l2) as [E ->]; [cbn; congruence|].
    split; [congruence|reflexivity].
Qed.
Lemma deg_print_inj d1 d2 :
  ~ In 0%Z (d_SEI d1) -> ~ In 0%Z (d_CS d1) -> ~ In 0%Z (d_SEI d2) -> ~ In 0%Z (d_CS d2) ->
  deg_print d1 = deg_print d2 -> d1 = d2.
Proof.
  destruct d1 as [s1 sp1 c1 cd1 l1 p1], d2 as [s2 sp2 c2 cd2 l2 p2]. unfold deg_print.
  cbn [d_SEI d_SEIpor d_CS d_CSdiff d_LAM d_pl]. intros Z1 Z2 Z3 Z4 H.
  assert (N : forall l, match l with [] => [TNum 0; TDash] | l' => toks_dash l' end =
     toks_dash (match l with [] => [0%Z] | l' => l' end)) by (intros [|]; reflexivity).
  assert (N' : forall l, match l with [] => [TNum 0; TDash] | z :: l0 => toks_dash (z :: l0) end =
     toks_dash (match l with [] => [0%Z] | z :: l0 => z :: l0 end)) by (intros [|]; reflexivity).
  rewrite !N' in H. cbn [app] in H.
  apply toks_dash_inj in H. destruct H as (E1 & -> & H). apply norm_inj in E1; auto. subst s2.
  apply toks_dash_inj in H. destruct H as (E2 & -> & H). apply norm_inj in E2; auto. subst c2.
  destruct l1 as [|x1 l1], l2 as [|x2 l2].
  - cbn in H. injection H as ->. reflexivity.
  - rewrite removelast_dash in H. cbn in H. destruct l2; cbn in H; discriminate.
  - rewrite removelast_dash in H. cbn in H. destruct l1; cbn in H; discriminate.
  - rewrite !removelast_dash, <- !app_assoc in H. apply lam_inj in H. destruct H as [E ->]. rewrite E. reflexivity.
Qed.

(** ** Cholesky update *)
Local Open Scope R_scope.
Lemma dot_ext n u v u' v' : (forall i, (i < n)%nat -> u i = u' i) -> (forall i, (i < n)%nat -> v i = v' i) ->
  dot n u v = dot n u' v'.
Proof.
  induction n as [|n IH]; cbn; intros H1 H2; [reflexivity|].
  rewrite H1, H2 by lia. rewrite IH; auto.
Qed.

Lemma sg2 b : sg b * sg b = 1.
Proof. destruct b; cbn; lra. Qed.

Lemma chol_row_R down s c k L x j :
  chol_row down s c k (L, x) j =
  (mset L j k (L j k + sg down * (s * x j / c)), vset x j (c * x j - s * (L j k + sg down * (s * x j / c)))).
Proof.
  unfold chol_row. destruct down; cbn [sg nadd nsub nmul ndiv RNum].
  - replace (L j k + -1 * (s * x j / c)) with (L j k - s * x j / c) by ring. reflexivity.
  - replace (L j k + 1 * (s * x j / c)) with (L j k + s * x j / c) by ring. reflexivity.
Qed.

(** The inner loop, for a column that is zero below the diagonal. *)
Lemma chol_rows_spec down s c k m : forall L x L' x',
  (forall j, (k < j < S k + m)%nat -> L j k = 0) -> c * c = 1 + sg down * (s * s) -> c <> 0 ->
  fold_left (chol_row down s c k) (seq (S k) m) (L, x) = (L', x') ->
  (forall i j, L' i j = if Nat.eqb j k && (k <? i)%nat && (i <? S k + m)%nat then sg down * (s * x i / c) else L i j) /\
  (forall i, x' i = if (k <? i)%nat && (i <? S k + m)%nat then x i / c else x i).
Proof.
  intros L x. revert L x. induction m as [|m IH]; intros L x L' x' HL Hc Hc0.
  - cbn [seq fold_left]. intros H; injection H as <- <-. split; [intros i j|intros i].
    + replace (Nat.eqb j k && (k <? i)%nat && (i <? S k + 0)%nat) with false by lia. reflexivity.
    + replace ((k <? i)%nat && (i <? S k + 0)%nat) with false by lia. reflexivity.
  - rewrite seq_S, fold_left_app. cbn [fold_left].
    destruct (fold_left (chol_row down s c k) (seq (S k) m) (L, x)) as [L1 x1] eqn:E.
    destruct (IH L x L1 x1 ltac:(intros; apply HL; lia) Hc Hc0 E) as [I1 I2].
    rewrite chol_row_R. intros H; apply pair_equal_spec in H; destruct H as [<- <-].
    assert (EL : L1 (S k + m)%nat k = 0).
    { rewrite I1. replace (Nat.eqb k k && (k <? S k + m)%nat && (S k + m <? S k + m)%nat) with false by lia.
      apply HL. lia. }
    assert (Ex : x1 (S k + m)%nat = x (S k + m)%nat).
    { rewrite I2. replace ((k <? S k + m)%nat && (S k + m <? S k + m)%nat) with false by lia. reflexivity. }
    rewrite EL, Ex. split.
    + intros i j. unfold mset.
      destruct (Nat.eqb i (S k + m) && Nat.eqb j k) eqn:B.
      * replace (Nat.eqb j k && (k <? i)%nat && (i <? S k + S m)%nat) with true by lia.
        assert (i = S k + m)%nat as -> by lia. lra.
      * rewrite I1. destruct (Nat.eqb j k && (k <? i)%nat && (i <? S k + m)%nat) eqn:B2.
        -- replace (Nat.eqb j k && (k <? i)%nat && (i <? S k + S m)%nat) with true by lia. reflexivity.
        -- replace (Nat.eqb j k && (k <? i)%nat && (i <? S k + S m)%nat) with false by lia. reflexivity.
    + intros i. unfold vset. destruct (Nat.eqb i (S k + m)) eqn:B.
      * replace ((k <? i)%nat && (i <? S k + S m)%nat) with true by lia.
        assert (i = S k + m)%nat as -> by lia.
        set (z := x (S k + m)%nat).
        transitivity ((c * c - sg down * (s * s)) * (z / c)); [field; exact Hc0|]. rewrite Hc. ring.
      * rewrite I2. destruct ((k <? i)%nat && (i <? S k + m)%nat) eqn:B2.
        -- replace ((k <? i)%nat && (i <? S k + S m)%nat) with true by lia. reflexivity.
        -- replace ((k <? i)%nat && (i <? S k + S m)%nat) with false by lia. reflexivity.
Qed.

Lemma tails_scale m : forall K L x y c, c <> 0 -> (forall i, (K <= i < K + m)%nat -> y i = x i / c) ->
  tails m K L y = tails m K L x / (c * c).
Proof.
  induction m as [|m IH]; intros K L x y c Hc H; cbn [tails]; [unfold Rdiv; ring|].
  rewrite (IH (S K) L x y c) by (auto; intros; apply H; lia). rewrite (H K) by lia.
  unfold Rdiv. rewrite Rinv_mult. ring.
Qed.
Lemma tails_nonneg m : forall K L x, 0 <= tails m K L x.
Proof.
  induction m as [|m IH]; intros K L x; cbn [tails]; [lra|].
  assert (H := Rle_0_sqr (x K / L K K)). unfold Rsqr in H. specialize (IH (S K) L x). lra.
Qed.
Lemma tails_ext m : forall K L L' x, (forall i, (K <= i < K + m)%nat -> L i i = L' i i) -> tails m K L x = tails m K L' x.
Proof.
  induction m as [|m IH]; intros K L L' x H; cbn [tails]; [reflexivity|].
  rewrite (H K) by lia. rewrite (IH (S K) L L') by (intros; apply H; lia). reflexivity.
Qed.

Lemma chol_diag_inv down n L x : diagonal n L -> (down = true -> tails n 0 L x < 1) ->
  forall K L' x', (K <= n)%nat -> fold_left (chol_col down n) (seq 0 K) (L, x) = (L', x') ->
  (forall i j, (i < n)%nat -> (K <= j < n)%nat -> L' i j = L i j) /\
  (forall i j, (j < n)%nat -> (i < j)%nat -> L' i j = 0) /\
  (forall i, (i < n)%nat -> 0 < L' i i) /\
  (forall i j, (i < n)%nat -> (j < n)%nat ->
     dot K (L' i) (L' j) + sg down * ((if (K <=? i)%nat then x' i else 0) * (if (K <=? j)%nat then x' j else 0))
     = dot K (L i) (L j) + sg down * (x i * x j)) /\
  (down = true -> tails (n - K) K L x' < 1).
Proof.
  intros [D1 D2] Ht. induction K as [|K IH]; intros L' x' HK.
  - cbn [seq fold_left]. intros H; injection H as <- <-. cbn [dot].
    split; [auto|]. split; [intros; apply D1; lia|]. split; [auto|]. split; [|rewrite Nat.sub_0_r; exact Ht].
    intros i j Hi Hj. reflexivity.
  - rewrite seq_S, fold_left_app. cbn [fold_left plus].
    destruct (fold_left (chol_col down n) (seq 0 K) (L, x)) as [L1 x1] eqn:E.
    destruct (IH L1 x1 ltac:(lia) eq_refl) as (I1 & I2 & I3 & I4 & I5). clear IH.
    assert (HKn : (K < n)%nat) by lia.
    unfold chol_col.
    assert (LK : L1 K K = L K K) by (apply I1; lia). rewrite LK.
    assert (P := D2 K HKn). set (lk := L K K) in *. set (xk := x1 K) in *.
    assert (Hr : exists r, 0 < r /\ r * r = lk * lk + sg down * (xk * xk) /\
       (if down then nsqrt (nsub (nmul lk lk) (nmul xk xk)) else nsqrt (nadd (nmul lk lk) (nmul xk xk))) = r).
    { destruct down; cbn [sg nsqrt nadd nsub nmul RNum].
      - assert (Hpos : 0 < lk * lk - xk * xk).
        { specialize (I5 eq_refl). replace (n - K)%nat with (S (n - S K)) in I5 by lia. cbn [tails] in I5.
          fold lk xk in I5. assert (T := tails_nonneg (n - S K) (S K) L x1).
          assert (H : xk / lk * (xk / lk) < 1) by lra.
          assert (W : xk / lk * (xk / lk) * (lk * lk) = xk * xk) by (field; apply Rgt_not_eq; exact P).
          assert (P2 : 0 < lk * lk) by (apply Rmult_lt_0_compat; exact P).
          assert (V := Rmult_lt_compat_r (lk * lk) _ _ P2 H). lra. }
        exists (sqrt (lk * lk - xk * xk)). split; [apply sqrt_lt_R0; exact Hpos|].
        split; [rewrite sqrt_sqrt by lra; ring|reflexivity].
      - assert (Hpos : 0 < lk * lk + xk * xk) by (assert (Q := Rle_0_sqr xk); unfold Rsqr in Q; assert (0 < lk * lk) by (apply Rmult_lt_0_compat; exact P); lra).
        exists (sqrt (lk * lk + xk * xk)). split; [apply sqrt_lt_R0; exact Hpos|].
        split; [rewrite sqrt_sqrt by lra; ring|reflexivity]. }
    destruct Hr as (r & Rp & Rr & Er). rewrite Er. cbn [ndiv RNum].
    intros H.
    destruct (chol_rows_spec down (xk / lk) (r / lk) K (n - S K) (mset L1 K K r) x1 L' x') as [J1 J2]; auto.
    { intros j Hj. unfold mset. replace (Nat.eqb j K && Nat.eqb K K) with false by lia.
      rewrite I1 by lia. apply D1; lia. }
    { replace (r / lk * (r / lk)) with (r * r / (lk * lk)) by (field; lra). rewrite Rr. field. lra. }
    { apply Rmult_integral_contrapositive_currified; [lra|]. apply Rinv_neq_0_compat; lra. }
    assert (c0 : r / lk <> 0) by (apply Rmult_integral_contrapositive_currified; [lra|apply Rinv_neq_0_compat; lra]).
    assert (Q1 : forall i j, (i < n)%nat -> j <> K -> L' i j = L1 i j).
    { intros i j Hi Hj. rewrite J1. replace (Nat.eqb j K && (K <? i)%nat && (i <? S K + (n - S K))%nat) with false by lia.
      unfold mset. replace (Nat.eqb i K && Nat.eqb j K) with false by lia. reflexivity. }
    assert (QK : L' K K = r).
    { rewrite J1. replace (Nat.eqb K K && (K <? K)%nat && (K <? S K + (n - S K))%nat) with false by lia.
      unfold mset. replace (Nat.eqb K K && Nat.eqb K K) with true by lia. reflexivity. }
    assert (Qb : forall i, (K < i < n)%nat -> L' i K = sg down * (xk / lk * x1 i / (r / lk))).
    { intros i Hi. rewrite J1. replace (Nat.eqb K K && (K <? i)%nat && (i <? S K + (n - S K))%nat) with true by lia.
      reflexivity. }
    assert (Qa : forall i, (i < K)%nat -> L' i K = 0).
    { intros i Hi. rewrite J1. replace (Nat.eqb K K && (K <? i)%nat && (i <? S K + (n - S K))%nat) with false by lia.
      unfold mset. replace (Nat.eqb i K && Nat.eqb K K) with false by lia. apply I2; lia. }
    assert (Qx : forall i, (K < i < n)%nat -> x' i = x1 i / (r / lk)).
    { intros i Hi. rewrite J2. replace ((K <? i)%nat && (i <? S K + (n - S K))%nat) with true by lia. reflexivity. }
    split. { intros i j Hi Hj. rewrite Q1 by lia. apply I1; lia. }
    split. { intros i j Hj Hij. destruct (Nat.eq_dec j K) as [->|N]; [apply Qa; exact Hij|].
      rewrite Q1 by lia. apply I2; lia. }
    split. { intros i Hi. destruct (Nat.eq_dec i K) as [->|N]; [rewrite QK; exact Rp|]. rewrite Q1 by lia. apply I3; lia. }
    split.
    + intros i j Hi Hj. cbn [dot].
      assert (V := I4 i j Hi Hj).
      rewrite (dot_ext K (L' i) (L' j) (L1 i) (L1 j)) by (intros; apply Q1; lia).
      assert (G : L' i K * L' j K + sg down * ((if (S K <=? i)%nat then x' i else 0) * (if (S K <=? j)%nat then x' j else 0))
                = L i K * L j K + sg down * ((if (K <=? i)%nat then x1 i else 0) * (if (K <=? j)%nat then x1 j else 0))).
      { assert (S2 := sg2 down). clear - S2 Hi Hj Qa QK Qb Qx Rr Rp P D1 lk xk HKn.
        destruct (Nat.lt_trichotomy i K) as [Ci|[Ci|Ci]].
        - rewrite (Qa i) by lia. rewrite (D1 i K) by lia.
          replace (S K <=? i)%nat with false by lia. replace (K <=? i)%nat with false by lia. ring.
        - subst i. rewrite QK. fold lk. replace (S K <=? K)%nat with false by lia. replace (K <=? K)%nat with true by lia. fold xk.
          destruct (Nat.lt_trichotomy j K) as [Cj|[Cj|Cj]].
          + rewrite (Qa j) by lia. rewrite (D1 j K) by lia. replace (K <=? j)%nat with false by lia. ring.
          + subst j. rewrite QK. fold lk. replace (S K <=? K)%nat with false by lia. replace (K <=? K)%nat with true by lia. fold xk. lra.
          + rewrite (Qb j) by lia. rewrite (D1 j K) by lia. replace (K <=? j)%nat with true by lia.
            field. lra.
        - replace (S K <=? i)%nat with true by lia. replace (K <=? i)%nat with true by lia.
          rewrite (Qb i), (D1 i K), (Qx i) by lia.
          destruct (Nat.lt_trichotomy j K) as [Cj|[Cj|Cj]].
          + rewrite (Qa j) by lia. rewrite (D1 j K) by lia. replace (K <=? j)%nat with false by lia.
            replace (S K <=? j)%nat with false by lia. ring.
          + subst j. rewrite QK. fold lk. replace (S K <=? K)%nat with false by lia. replace (K <=? K)%nat with true by lia. fold xk.
            field. lra.
          + rewrite (Qb j), (D1 j K), (Qx j) by lia. replace (K <=? j)%nat with true by lia.
            replace (S K <=? j)%nat with true by lia.
            transitivity ((sg down * sg down * (xk * xk) + sg down * (lk * lk)) / (r * r) * (x1 i * x1 j)); [field; lra|].
            rewrite S2. transitivity ((sg down * (sg down * sg down * (xk * xk) / sg down + lk * lk)) / (r * r) * (x1 i * x1 j)).
            * rewrite S2. field. split; first [lra | intros Z; rewrite Z in S2; lra].
            * replace (sg down * sg down * (xk * xk) / sg down) with (sg down * (xk * xk)).
              -- replace (sg down * (xk * xk) + lk * lk) with (r * r) by lra. field. lra.
              -- field. intros Z; rewrite Z in S2; lra. }
      lra.
    + intros Hd. specialize (I5 Hd). replace (n - K)%nat with (S (n - S K)) in I5 by lia. cbn [tails] in I5. fold lk xk in I5.
      rewrite (tails_scale (n - S K) (S K) L x1 x' (r / lk) c0) by (intros; apply Qx; lia).
      subst down. cbn [sg] in Rr.
      set (t := tails _ _ _ _) in *.
      replace (r / lk * (r / lk)) with (r * r / (lk * lk)) by (field; lra). rewrite Rr.
      assert (0 < lk * lk) by (apply Rmult_lt_0_compat; exact P). assert (0 < r * r) by (apply Rmult_lt_0_compat; exact Rp).
      replace (xk / lk * (xk / lk)) with (xk * xk / (lk * lk)) in I5 by (field; lra).
      assert (W : xk * xk / (lk * lk) * (lk * lk) = xk * xk) by (field; lra).
      apply (Rmult_lt_reg_r ((lk * lk + -1 * (xk * xk)) / (lk * lk))).
      { apply Rdiv_lt_0_compat; lra. }
      unfold Rdiv at 1. rewrite Rmult_assoc, Rinv_l, Rmult_1_r, Rmult_1_l.
      * apply (Rmult_lt_reg_r (lk * lk)); [lra|].
        replace ((lk * lk + -1 * (xk * xk)) / (lk * lk) * (lk * lk)) with (lk * lk + -1 * (xk * xk)) by (field; lra). nra.
      * apply Rgt_not_eq. apply Rdiv_lt_0_compat; lra.
Qed.

Lemma chol_diag down n L x : diagonal n L -> (down = true -> tails n 0 L x < 1) ->
  updates n L (cholUpdate down n L x) x (sg down) /\
  lower n (fun i j => if (j <? n)%nat then cholUpdate down n L x i j else 0) /\
  (forall i, (i < n)%nat -> 0 < cholUpdate down n L x i i).
Proof.
  intros D Ht. unfold cholUpdate.
  destruct (fold_left (chol_col down n) (seq 0 n) (L, x)) as [L' x'] eqn:E. cbn [fst].
  destruct (chol_diag_inv down n L x D Ht n L' x' (Nat.le_refl n) E) as (_ & I2 & I3 & I4 & _).
  split; [|split; [|exact I3]].
  - intros i j Hi Hj. unfold gram. specialize (I4 i j Hi Hj).
    replace (n <=? i)%nat with false in I4 by lia. lra.
  - intros i j Hi Hij. destruct (j <? n)%nat eqn:B; [|reflexivity]. apply I2; lia.
Qed.

Lemma chol_offdiag_wrong : exists L x, lower 2 L /\ (forall i, (i < 2)%nat -> 0 < L i i) /\
  ~ updates 2 L (cholUpdate false 2 L x) x 1.
Proof.
  exists (fun i j => if (j <=? i)%nat then 1 else 0), (fun i => if Nat.eqb i 0 then 1 else 0). split; [|split].
  - intros i j _ H. replace (j <=? i)%nat with false by lia. reflexivity.
  - intros i _. rewrite Nat.leb_refl. lra.
  - intros H. specialize (H 1%nat 0%nat ltac:(lia) ltac:(lia)). revert H.
    unfold gram, cholUpdate, chol_col, chol_row, mset, vset.
    cbn [seq fold_left Nat.sub fst dot Nat.eqb Nat.leb andb nadd nsub nmul ndiv nsqrt RNum].
    intros H.
    assert (Hs : sqrt (1 * 1 + 1 * 1) * sqrt (1 * 1 + 1 * 1) = 2) by (rewrite sqrt_sqrt; lra).
    assert (Hp : 0 < sqrt (1 * 1 + 1 * 1)) by (apply sqrt_lt_R0; lra).
    set (q := sqrt (1 * 1 + 1 * 1)) in *.
    replace (1 + 1 / 1 * 0 / (q / 1)) with 1 in H by (field; lra). nra.
Qed.
