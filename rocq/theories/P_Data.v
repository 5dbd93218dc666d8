(** * C06-C09, C61, C64: thread pool, containers, writer, Cholesky update, degradation identifiers *)
From Coq Require Import Permutation.
From Verif Require Import Base RFacts DataModel DataSpec DataProofs.

(** ** C06 *)

(** Every schedule of the started threads runs each index of the range exactly once: all range lengths, all
    requested worker counts (0 = automatic), all positive hardware concurrencies; the hypothesis [e + hc <= INT_MAX]
    is where the C++ index arithmetic stays defined. *)
Theorem C06_each_index_once : forall w hc e, (0 <= w)%Z -> (1 <= hc)%Z -> (e + hc <= INT_MAX)%Z ->
  exists threads, run_workers w hc e = Ok threads /\
    forall schedule, interleaving threads schedule -> Permutation schedule (range e).
Proof.
  intros w hc e Hw Hh He. destruct (run_perm w hc e Hw Hh He) as (ts & H1 & H2).
  exists ts. split; [exact H1|]. intros sched Hs.
  exact (Permutation_trans (interleaving_perm ts sched Hs) H2).
Qed.
Print Assumptions C06_each_index_once.

(** Tasks made of arbitrary atomic actions on their own component: every interleaving of the threads' actions ends in
    the state of the serial loop. *)
Theorem C06_same_state_as_serial : forall (X : Type) (prog : Z -> list (X -> X)) w hc e s,
  (0 <= w)%Z -> (1 <= hc)%Z -> (e + hc <= INT_MAX)%Z ->
  exists threads, run_workers w hc e = Ok threads /\
    forall schedule, interleaving (map (actions_of prog) threads) schedule ->
      forall j, exec schedule s j = exec (actions_of prog (range e)) s j.
Proof.
  intros X prog w hc e s Hw Hh He. destruct (run_same_result prog w hc e s Hw Hh He) as (ts & H1 & H2).
  exists ts. split; [exact H1|]. intros sched Hs j. rewrite (H2 sched Hs j).
  rewrite exec_component, actions_filter by apply range_NoDup.
  destruct (in_dec Z.eq_dec j (range e)) as [I|I]; rewrite range_In in I.
  - replace ((0 <=? j)%Z && (j <? e)%Z) with true by lia. rewrite map_map. cbn. rewrite map_id. reflexivity.
  - replace ((0 <=? j)%Z && (j <? e)%Z) with false by lia. reflexivity.
Qed.
Print Assumptions C06_same_state_as_serial.

Example C06_inhabited : run_workers 0 3 7 = Ok [[0; 3; 6]; [1; 4]; [2; 5]]%Z /\
  interleaving [[0; 3; 6]; [1; 4]; [2; 5]]%Z [1; 0; 2; 4; 3; 5; 6]%Z.
Proof.
  split; [reflexivity|].
  apply (il_step [[0; 3; 6]]%Z 1%Z [4]%Z [[2; 5]]%Z). apply (il_step [] 0%Z [3; 6]%Z [[4]; [2; 5]]%Z).
  apply (il_step [[3; 6]; [4]]%Z 2%Z [5]%Z []). apply (il_step [[3; 6]]%Z 4%Z [] [[5]]%Z).
  apply (il_step [] 3%Z [6]%Z [[]; [5]]%Z). apply (il_step [[6]; []]%Z 5%Z [] []).
  apply (il_step [] 6%Z [] [[]; []]). apply il_done. repeat constructor.
Qed.

(** Finding: when the hardware concurrency is not computable (0), no task runs at all unless exactly one worker is
    requested. *)
Theorem C06_unknown_hardware_refuted : forall w e, (0 <= w)%Z -> w <> 1%Z -> run_workers w 0 e = Ok [].
Proof.
  intros w e Hw Hw1. unfold run_workers. replace (w =? 1)%Z with false by lia.
  destruct (w <? 1)%Z eqn:B; [reflexivity|]. replace (Z.min w 0) with 0%Z by lia. reflexivity.
Qed.
Print Assumptions C06_unknown_hardware_refuted.

(** Finding: a range that ends at the largest [int] overflows the loop index. *)
Theorem C06_overflow_refuted : run_workers 0 2 INT_MAX = UB.
Proof. exact run_overflow. Qed.
Print Assumptions C06_overflow_refuted.

(** ** C07 *)

(** Within the capacity (the off-by-one case below is the missing part): pushes succeed, the elements are the pushed
    values in order, and indexed access returns them or throws; it never leaves the storage. *)
Theorem C07_push_and_get_partial : forall nmax l, (length l <= nmax)%nat ->
  exists v, pushes l (sv_empty nmax) = (v, Ok tt) /\ sv_elems v = l /\
    forall i, sv_get i v = match nth_error l i with Some x => Ok x | None => Throw 1234 end.
Proof.
  intros nmax l H.
  assert (K : sv_ok (sv_empty nmax)) by (split; cbn; [apply repeat_length|lia]).
  destruct (pushes_spec l (sv_empty nmax) K H) as (v & E & O & _ & _ & El). cbn in El.
  exists v. split; [exact E|]. split; [exact El|]. intros i. rewrite (sv_get_spec v i O), El. reflexivity.
Qed.
Print Assumptions C07_push_and_get_partial.
Example C07_inhabited : exists v, pushes [1; 4]%Z (sv_empty 10) = (v, Ok tt) /\ sv_get 1 v = Ok 4%Z /\ sv_get 2 v = Throw 1234.
Proof. eexists; repeat split; reflexivity. Qed.

(** Finding: one more push than the capacity writes outside the storage, for every capacity and contents. *)
Theorem C07_push_full_refuted : forall nmax l x, length l = nmax ->
  snd (pushes (l ++ [x]) (sv_empty nmax)) = UB.
Proof.
  intros nmax l x H.
  assert (K : sv_ok (sv_empty nmax)) by (split; cbn; [apply repeat_length|lia]).
  assert (G : forall l2 v v', pushes l2 v = (v', Ok tt) -> forall l1, pushes (l2 ++ l1) v = pushes l1 v').
  { induction l2 as [|y l2 IH]; cbn; intros v v' E l1; [injection E as ->; reflexivity|].
    destruct (sv_push y v) as [v1 [[]| | |]]; try discriminate. apply IH; exact E. }
  destruct (pushes_spec l (sv_empty nmax) K ltac:(cbn; lia)) as (v & E & O & Em & En & _).
  rewrite (G _ _ _ E). cbn [pushes]. unfold sv_push. cbn in Em, En.
  replace (Nat.ltb (sv_max v) (sv_n v)) with false by (symmetry; apply Nat.ltb_ge; lia).
  replace (Nat.ltb (sv_n v) (sv_max v)) with false by (symmetry; apply Nat.ltb_ge; lia). reflexivity.
Qed.
Print Assumptions C07_push_full_refuted.

(** Finding: iterating over an interval view of a container visits everything but the last element. *)
Theorem C07_interval_drops_last_refuted : forall (B : Type) (l : list B) x, interval_elems (l ++ [x]) = l.
Proof.
  intros. unfold interval_elems. rewrite app_length. cbn. replace (length l + 1 - 1)%nat with (length l) by lia.
  rewrite firstn_app, Nat.sub_diag, firstn_all, app_nil_r. reflexivity.
Qed.
Print Assumptions C07_interval_drops_last_refuted.

(** ** C08 *)

(** Any history of adding blocks with arbitrary changes of the memory in between, then restoring into any memory:
    an address covered by one saved block gets the value that block had when it was added, an address covered by
    none keeps its value. *)
Theorem C08_restore : forall (A : Type) (h h' hr : heap A) st log,
  storing h ss_clear log h' st ->
  (forall a s vs, In (s, vs) log -> in_span a s ->
     (forall i j si sj vi vj, i <> j -> nth_error log i = Some (si, vi) -> nth_error log j = Some (sj, vj) ->
        ~ (in_span a si /\ in_span a sj)) ->
     nth_error vs (a - fst s) = Some (ss_restore st hr a)) /\
  (forall a, (forall s vs, In (s, vs) log -> ~ in_span a s) -> ss_restore st hr a = hr a).
Proof.
  intros A h h' hr st log H. destruct (storing_store h h' _ _ _ H) as (_ & _ & F).
  assert (R := storage_restores h h' hr st log H). split.
  - intros a s vs Hin Ha Hd. assert (E := disjoint_last_saved log a s vs F Hd Hin Ha).
    rewrite R, E. destruct (nth_error vs (a - fst s)) eqn:N; [reflexivity|].
    apply nth_error_None in N. rewrite Forall_forall in F. specialize (F _ Hin). cbn in F. unfold in_span in Ha. lia.
  - intros a Ha. rewrite R. destruct (last_saved log a) eqn:N; [|reflexivity].
    assert (Q := proj2 (last_saved_none log a F) Ha). congruence.
Qed.
Print Assumptions C08_restore.

(** Overlapping blocks: the block added last wins. *)
Theorem C08_last_added_wins : forall (A : Type) (h h' hr : heap A) st log,
  storing h ss_clear log h' st ->
  forall a, ss_restore st hr a = match last_saved log a with Some v => v | None => hr a end.
Proof. exact @storage_restores. Qed.
Print Assumptions C08_last_added_wins.
Example C08_inhabited : exists log h' st, storing (fun a => Z.of_nat a) ss_clear log h' st /\ length log = 2%nat /\
  ss_restore st (fun _ => 9%Z) 3%nat = 3%Z /\ ss_restore st (fun _ => 9%Z) 12%nat = 77%Z /\
  ss_restore st (fun _ => 9%Z) 5%nat = 9%Z.
Proof.
  do 3 eexists. split; [apply (st_add _ _ (2, 2)%nat); apply (st_mutate _ _ (fun _ => 77%Z));
    apply (st_add _ _ (10, 3)%nat); apply st_nil|]. repeat split; reflexivity.
Qed.

(** ** C09 *)

(** One batch, into an empty file: all rows come back, and the buffer is empty. *)
Theorem C09_one_batch_rows_partial : forall (A : Type) n (rs : list (list A)), (1 <= n)%nat -> rows_of n rs ->
  exists f, write_data n ([], concat rs) = Ok (f, []) /\ parse_rows f = Some rs.
Proof. exact @write_single_batch. Qed.
Print Assumptions C09_one_batch_rows_partial.

(** Any split into batches: every sample is in the file exactly once and in order. *)
Theorem C09_samples_in_order : forall (A : Type) n (batches : list (list A)), (1 <= n)%nat ->
  exists f, write_batches n [] batches = Ok f /\ numbers f = concat batches.
Proof. intros A n bs H. destruct (write_batches_numbers n bs H []) as (f & E & N). exists f. auto. Qed.
Print Assumptions C09_samples_in_order.
Theorem C09_buffer_emptied : forall (A : Type) n (st st' : list (ftok A) * list A),
  write_data n st = Ok st' -> snd st' = [] /\ exists t, fst st' = fst st ++ t.
Proof.
  intros A n st st'. unfold write_data, rmap, rbind. destruct (write_loop 0 n (snd st)) as [t| | |]; try discriminate.
  intros H; injection H as <-. split; [reflexivity|]. exists t. reflexivity.
Qed.
Print Assumptions C09_buffer_emptied.
Example C09_inhabited : rows_of 3 [[1; 2; 3]; [4; 5; 6]; [7]]%Z.
Proof. repeat (apply ro_cons; [reflexivity|lia|]). apply ro_last. cbn. lia. Qed.

(** Finding: with two or more non-empty batches the last number of one batch and the first of the next run together. *)
Theorem C09_batches_glued_refuted : forall (A : Type) n (x y : A) r1 r2, (1 <= n)%nat ->
  exists f, write_batches n [] [x :: r1; y :: r2] = Ok f /\ parse_rows f = None.
Proof.
  intros A n x y r1 r2 H. destruct (write_batches_numbers n [x :: r1; y :: r2] H []) as (f & E & _).
  exists f. split; [exact E|]. exact (two_batches_glued n x y r1 r2 H f E).
Qed.
Print Assumptions C09_batches_glued_refuted.

(** Finding: in a cell's file the header of the second write continues the last row of the first. *)
Theorem C09_cell_file_glued_refuted : exists (f1 f2 : list (ftok Z)) before after,
  write_cell [1]%Z ([], [10; 11; 12; 13; 14; 15; 16]%Z) = Ok (f1, []) /\
  write_cell [2]%Z (f1, [20; 21; 22; 23; 24; 25; 26]%Z) = Ok (f2, []) /\
  f2 = before ++ [FNum 16; FText 0]%Z ++ after.
Proof.
  eexists. eexists.
  exists ([FText 0; FComma; FNum 1; FComma; FNewline; FNewline; FNewline; FNum 10; FComma; FNum 11; FComma; FNum 12;
    FComma; FNum 13; FComma; FNum 14; FComma; FNum 15; FComma])%Z. eexists. repeat split; reflexivity.
Qed.
Print Assumptions C09_cell_file_glued_refuted.

(** ** C61 *)
Local Open Scope R_scope.

(** For diagonal factors (the program only ever updates the identity matrix, src/optimisation/MCMC.hpp:32-34) of every
    size the result is a lower-triangular factor with positive diagonal of the updated matrix; a downdate needs the
    result to stay positive definite. *)
Theorem C61_update_diagonal_partial : forall down n (L : matrix R) x,
  diagonal n L -> (down = true -> tails n 0 L x < 1) ->
  updates n L (cholUpdate down n L x) x (sg down) /\
  (forall i j, (i < n)%nat -> (j < n)%nat -> (i < j)%nat -> cholUpdate down n L x i j = 0) /\
  (forall i, (i < n)%nat -> 0 < cholUpdate down n L x i i).
Proof.
  intros down n L x D T. destruct (chol_diag down n L x D T) as (U & Lo & P). split; [exact U|]. split; [|exact P].
  intros i j Hi Hj Hij. specialize (Lo i j Hi Hij). cbn beta in Lo. replace (j <? n)%nat with true in Lo by lia. exact Lo.
Qed.
Print Assumptions C61_update_diagonal_partial.
Example C61_inhabited : diagonal 3 (fun i j => if Nat.eqb i j then 1 else 0) /\
  tails 3 0 (fun i j => if Nat.eqb i j then 1 else 0) (fun _ => / 2) < 1.
Proof.
  split; [split|cbn; lra].
  - intros i j _ _ H. replace (Nat.eqb i j) with false by lia. reflexivity.
  - intros i _. rewrite Nat.eqb_refl. lra.
Qed.

(** Finding: with a non-zero entry below the diagonal the returned matrix is not a factor of the updated matrix. *)
Theorem C61_offdiagonal_refuted : exists (L : matrix R) x, lower 2 L /\ (forall i, (i < 2)%nat -> 0 < L i i) /\
  ~ updates 2 L (cholUpdate false 2 L x) x 1.
Proof. exact chol_offdiag_wrong. Qed.
Print Assumptions C61_offdiagonal_refuted.

(** ** C64 *)

(** Two sets of degradation settings with the same printed identifier are equal. Models numbered 0 are never stored in
    the SEI and crack lists ([add_model] drops them). *)
Theorem C64_identifier_unique : forall d1 d2,
  ~ In 0%Z (d_SEI d1) -> ~ In 0%Z (d_CS d1) -> ~ In 0%Z (d_SEI d2) -> ~ In 0%Z (d_CS d2) ->
  deg_print d1 = deg_print d2 -> d1 = d2.
Proof. exact deg_print_inj. Qed.
Print Assumptions C64_identifier_unique.
(** [add_model] keeps zeros out, whatever it is called with. *)
Theorem C64_zero_never_stored : forall v x v', ~ In 0%Z (sv_elems v) -> sv_ok v ->
  add_model x v = (v', Ok tt) -> ~ In 0%Z (sv_elems v').
Proof.
  intros v x v' H K E. unfold add_model in E. destruct (x =? 0)%Z eqn:B; [injection E as <-; exact H|].
  assert (G : pushes [x] v = (v', Ok tt)) by (cbn [pushes]; rewrite E; reflexivity).
  assert (L : (sv_n v + 1 <= sv_max v)%nat).
  { unfold sv_push in E. destruct (Nat.ltb (sv_max v) (sv_n v)); [discriminate|].
    destruct (Nat.ltb (sv_n v) (sv_max v)) eqn:B2; [|discriminate]. apply Nat.ltb_lt in B2. lia. }
  destruct (pushes_spec [x] v K L) as (v2 & E2 & _ & _ & _ & El). rewrite G in E2. injection E2 as <-.
  rewrite El, in_app_iff. intros [I|[I|[]]]; [exact (H I)|]. subst. discriminate.
Qed.
Print Assumptions C64_zero_never_stored.
Example C64_inhabited : deg_print (mkDeg [1; 2]%Z 1 [] 0 [3]%Z 1) <> deg_print (mkDeg [1]%Z 2 [] 0 [3]%Z 1) /\
  deg_print (mkDeg [1; 2]%Z 1 [] 0 [3]%Z 1) =
  [TNum 1; TDash; TNum 2; TDash; TNum 1; TUnder; TNum 0; TDash; TNum 0; TUnder; TNum 3; TUnder; TNum 1]%Z.
Proof. split; [intros H; apply (f_equal (@length idtok)) in H; discriminate H|reflexivity]. Qed.
