(** * C34: what a parallel module books as contact heat *)
From Coq Require Import List Lia Reals Lra.
From Verif Require Import Base RFacts StatusModel CellModel CoolModel ModuleModel ModuleSpec ModuleProofs ModuleExamples P_Module.
Import ListNotations.
Local Open Scope R_scope.

(** Contact resistance [j] carries the current of all branches from [j] on: the right heat, and the one with the currents of the
    resistances in front added again. *)
Definition ladder_heat (rc is : list R) (t : R) : R := Rsum (map (fun j => nth j rc 0 * (behind is j * behind is j) * t) (seq 0 (length is))).
Definition piled (is : list R) (j : nat) : R := Rsum (map (behind is) (seq 0 (S j))).
Definition piled_heat (rc is : list R) (t : R) : R := Rsum (map (fun j => nth j rc 0 * (piled is j * piled is j) * t) (seq 0 (length is))).

Lemma Rsum_ext (f g : nat -> R) l : (forall j, In j l -> f j = g j) -> Rsum (map f l) = Rsum (map g l).
Proof. intros H. f_equal. now apply map_ext_in. Qed.
Lemma Rsum_le (f g : nat -> R) l : (forall j, In j l -> f j <= g j) -> Rsum (map f l) <= Rsum (map g l).
Proof. induction l as [|a l IH]; intros H; cbn [map Rsum]; [lra|]. apply Rplus_le_compat; [apply H; now left|apply IH; intros j Hj; apply H; now right]. Qed.

Section Loop.
Context (tm : Z) (n : nat).
Notation o := (Ops R tm n).
Lemma sum_currents : forall (l : list (Tree R n)) a, fold_left (fun a x => nadd a (o_I o x)) l a = a + Rsum (map (current n) l).
Proof.
  induction l as [|s l IH]; intros a; cbn [fold_left map Rsum]; [lra|]. rewrite IH, C26_current. cbn. lra.
Qed.
Lemma heat_loop k dt : forall (l : list (Tree R n)) rc q ii, length rc = length l ->
  heat_p_loop o k dt q ii l rc =
  q + Rsum (map (fun j => nth j rc 0 * ((ii + piled (map (current n) l) j) * (ii + piled (map (current n) l) j)) * (IZR k * dt)) (seq 0 (length l))).
Proof.
  induction l as [|s l IH]; intros rc q ii Hl; [cbn; lra|]. destruct rc as [|r rc]; [discriminate|]. injection Hl as Hl.
  cbn [heat_p_loop]. rewrite (IH _ _ _ Hl), sum_currents. cbn [length seq map Rsum]. rewrite <- seq_shift, map_map.
  rewrite Rplus_assoc. cbn [nadd nmul RNum]. unfold nZ at 1. cbn [nlit RNum].
  match goal with |- q + (?a + ?b) = q + (?c + ?d) => assert (X : a = c) end.
  { unfold piled, behind. cbn [seq map Rsum skipn nth]. rewrite R_nZ || idtac. field_simplify. ring_simplify. lra || nra. }
  rewrite X. f_equal. f_equal. apply Rsum_ext. intros j _. cbn [nth].
  assert (Y : piled (map (current n) (s :: l)) (S j) = Rsum (map (current n) (s :: l)) + piled (map (current n) l) j).
  { unfold piled. change (seq 0 (S (S j))) with (0%nat :: seq 1 (S j)). cbn [map Rsum]. unfold behind at 1. cbn [skipn]. f_equal.
    rewrite <- seq_shift, map_map. apply Rsum_ext. reflexivity. }
  cbn [map Rsum] in *. rewrite Y. ring.
Qed.
End Loop.

Lemma piled_0 is : piled is 0 = Rsum is.
Proof. unfold piled, behind. cbn. lra. Qed.
Lemma piled_S is j : piled is (S j) = piled is j + behind is (S j).
Proof.
  unfold piled. rewrite (seq_S (S j) 0), map_app. cbn [map plus]. generalize (map (behind is) (seq 0 (S j))). intros l. induction l as [|a l IH]; cbn [app Rsum] in *; lra.
Qed.
Lemma Rsum_pos l : Forall (fun x => 0 <= x) l -> 0 <= Rsum l.
Proof. induction 1; cbn [Rsum]; lra. Qed.
Lemma behind_pos is j : Forall (fun x => 0 <= x) is -> 0 <= behind is j.
Proof. intros H. apply Rsum_pos. rewrite <- (firstn_skipn j is) in H. now apply Forall_app in H. Qed.
Lemma piled_pos is j : Forall (fun x => 0 <= x) is -> behind is j <= piled is j.
Proof.
  intros H. assert (P : 0 <= piled is j /\ behind is j <= piled is j); [|apply P].
  induction j as [|j IH]; [rewrite piled_0; unfold behind; cbn [skipn]; split; [now apply Rsum_pos|lra]|].
  rewrite piled_S. pose proof (behind_pos is (S j) H). lra.
Qed.
Lemma Rsum_opp l : Rsum (map Ropp l) = - Rsum l.
Proof. induction l; cbn [map Rsum]; lra. Qed.
Lemma behind_opp is j : behind (map Ropp is) j = - behind is j.
Proof. unfold behind. now rewrite <- Rsum_opp, skipn_map. Qed.
Lemma piled_opp is j : piled (map Ropp is) j = - piled is j.
Proof. induction j as [|j IH]; [rewrite !piled_0; apply Rsum_opp|]. rewrite !piled_S, IH, behind_opp. lra. Qed.

Lemma piled_first : forall rc is t, (forall j, (0 < j)%nat -> nth j rc 0 = 0) -> piled_heat rc is t = ladder_heat rc is t.
Proof.
  intros rc is t H. unfold piled_heat, ladder_heat. apply Rsum_ext. intros [|j] _; [rewrite piled_0; reflexivity|rewrite H by lia; ring].
Qed.
Lemma piled_enough : forall rc is t, Forall (fun r => 0 <= r) rc -> 0 <= t -> Forall (fun x => 0 <= x) is \/ Forall (fun x => x <= 0) is ->
  ladder_heat rc is t <= piled_heat rc is t.
Proof.
  intros rc is t Hr Ht Hi. unfold piled_heat, ladder_heat. apply Rsum_le. intros j _.
  assert (R0 : 0 <= nth j rc 0).
  { destruct (nth_in_or_default j rc 0) as [H| ->]; [|lra]. rewrite Forall_forall in Hr. now apply Hr. }
  assert (X : behind is j * behind is j <= piled is j * piled is j).
  { destruct Hi as [Hi|Hi].
    - pose proof (behind_pos is j Hi). pose proof (piled_pos is j Hi). nra.
    - assert (Hn : Forall (fun x => 0 <= x) (map Ropp is)) by (apply Forall_map; eapply Forall_impl; [|exact Hi]; cbn; intros; lra).
      pose proof (behind_pos _ j Hn) as P1. pose proof (piled_pos _ j Hn) as P2. rewrite behind_opp in *. rewrite piled_opp in P2. nra. }
  apply Rmult_le_compat_r; [exact Ht|]. now apply Rmult_le_compat_l.
Qed.

(** The law the code follows: over a time step of an unblocked parallel module below the top, the heat booked is that of currents piled up
    from resistance to resistance. That is the right heat when all resistances but the first are zero, and with branch currents of one sign
    it is never less. Partial: the right law has [behind] instead of [piled], see [C34_parallel_refuted]. *)
Theorem C34_parallel_step_partial : forall tm n dt k (m m' : module R (Tree R n)) l u, m_series (mm m) = false -> m_block (mm m) = false -> m_top (mm m) = false ->
  length (m_rc (mm m)) = length (ms m) -> each (o_timeStep (Ops R tm n) dt k) (ms m) = (l, Ok u) -> mod_timeStep (Ops R tm n) tm dt k m = (m', Ok tt) ->
  let is := map (current n) l in
  m_Qc (mm m') = m_Qc (mm m) + piled_heat (m_rc (mm m)) is (IZR k * dt) /\
  ((forall j, (0 < j)%nat -> nth j (m_rc (mm m)) 0 = 0) -> m_Qc (mm m') = m_Qc (mm m) + ladder_heat (m_rc (mm m)) is (IZR k * dt)) /\
  (Forall (fun r => 0 <= r) (m_rc (mm m)) -> (0 <= k)%Z -> Forall (fun x => 0 <= x) is \/ Forall (fun x => x <= 0) is ->
    m_Qc (mm m) + ladder_heat (m_rc (mm m)) is (IZR k * dt) <= m_Qc (mm m')).
Proof.
  intros tm n dt k m m' l u Hs Hb Ht Hl He H is. unfold mod_timeStep in H. destruct (nltb dt (nZ 0)) eqn:Ed; [discriminate|]. unfold step_children in H. rewrite He in H.
  unfold mod_heat_step in H. cbn [mm ms] in H. rewrite Hb, Hs, Ht in H. cbn [mm ms] in H.
  assert (L : length (m_rc (mm m)) = length l) by (destruct (each_ok _ _ _ _ He) as (_ & _ & F); congruence).
  assert (X : m_Qc (mm m') = heat_p (Ops R tm n) k dt (mkM (mm m) l)).
  { destruct (p_redistribute _ _ _) as [l2 [st| | |]]; try discriminate. destruct (status_eqb st Success).
    - injection H as <-. reflexivity.
    - destruct (p_redistribute _ _ _) as [l3 [?| | |]]; discriminate. }
  assert (Y : m_Qc (mm m') = m_Qc (mm m) + piled_heat (m_rc (mm m)) is (IZR k * dt)).
  2:{ split; [exact Y|]. split; [intros Hj; now rewrite Y, piled_first|]. intros Hr Hk Hi. rewrite Y. apply Rplus_le_compat_l. apply piled_enough; auto.
      apply Rmult_le_pos; [now apply IZR_le|]. apply Rltb_false in Ed. rewrite R_nZ in Ed. cbn in Ed. lra. }
  rewrite X. unfold heat_p. cbn [mm ms]. rewrite (heat_loop _ _ _ _ _ _ _ _ L). rewrite R_nZ. unfold piled_heat, is. rewrite map_length. f_equal. apply Rsum_ext.
  intros j _. ring.
Qed.
Print Assumptions C34_parallel_step_partial.


Definition one_ohmic : module f64 (Tree f64 0) := mkM (ex_rec false [mohm; nZ 0] 2) [cell1; cell1].
(** A run that meets the hypotheses (in doubles: two cells of 1 A, the first resistance 1 mOhm), and that the two laws differ on it. *)
Example C34_parallel_inhabited : (let m := one_ohmic in m_series (mm m) = false /\ m_block (mm m) = false /\ m_top (mm m) = false /\
  length (m_rc (mm m)) = length (ms m) /\ (exists l u, each (o_timeStep (Ops f64 0 0) (nZ 1) 1) (ms m) = (l, Ok u) /\ length l = 2%nat) /\
  snd (mod_timeStep (Ops f64 0 0) 0 (nZ 1) 1 m) = Ok tt) /\
  ladder_heat [1; 1] [1; 1] 1 = 5 /\ piled_heat [1; 1] [1; 1] 1 = 13 /\ ladder_heat [1; 0] [1; 1] 1 = 4 /\ piled_heat [1; 0] [1; 1] 1 = 4.
Proof.
  split; [|unfold ladder_heat, piled_heat, piled, behind; cbn; repeat split; lra]. cbv zeta. do 4 (split; [reflexivity|]). split; [|vm_compute; reflexivity].
  exists (fst (each (o_timeStep (Ops f64 0 0) (nZ 1) 1) (ms one_ohmic))), [tt; tt]. split; [vm_compute; reflexivity|vm_compute; reflexivity].
Qed.
