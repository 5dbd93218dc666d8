(** * C86: in double arithmetic the cycler's charge counter is current times time *)
From Coq Require Import Reals Lra Lia SpecFloat ZArith List Bool.
Import ListNotations.
From Flocq Require Import Core BinarySingleNaN.
From Verif Require Import Base RFacts StatusModel UtilModel CellModel CoolModel ModuleModel CyclerModel CyclerSpec CyclerProofs P_Cycler FloatSpec FloatFacts FloatEcm FloatCyc FloatInt FloatChargeSpec FloatCharge.
Local Open Scope R_scope.

(** A constant-current run on any unit, in doubles: when it reports its time or its voltage limit, the charge counter has risen by |I| times the
    exact time the unit was advanced by, up to two rounding units of the counter per step and four of the charge. *)
Theorem C86_CC {S : Type} (o : unit_if f64 S) nmax diag fuel I vlim tlim dt ndt s idx t l t' r :
  (diag = true -> dhonest_V o) -> fin I -> Rabs (fval I) <= bpow radix2 300 -> counter (th_Ah t) -> steps_moderate l ->
  observed (CC (logged o) nmax diag fuel I vlim tlim dt ndt) s idx t l t' r -> r = Ok ReachedTimeLimit \/ r = Ok ReachedVoltageLimit ->
  counts (dturns l) (Rabs (fval I) * true_elapsed l / 3600) (th_Ah t) (th_Ah t').
Proof.
  intros Ho FI BI Ha [Hs Hn] H Hr. destruct (observed_wp _ _ _ _ _ _ _ _ (CC_c o nmax diag Ho I (th_Ah t) vlim tlim dt ndt fuel t eq_refl) H Hr) as [A N].
  rewrite A, <- cc_ps_sum, <- (cc_ps_length I). apply sum_moderate; [|exact Ha|now rewrite cc_ps_length]. now apply cc_ps_near.
Qed.
Print Assumptions C86_CC.

(** A constant-voltage run on any unit that returns at all: the charge counter has risen by the sum, over the steps, of the length times the
    magnitude of the current read after the step, with the same accuracy. *)
Theorem C86_CV {S : Type} (o : unit_if f64 S) nmax Vset Ilim tlim dt ndt s idx t l t' st :
  counter (th_Ah t) -> steps_moderate l -> readings_moderate l ->
  observed (CV (logged o) nmax Vset Ilim tlim dt ndt) s idx t l t' (Ok st) ->
  counts (dturns l) (true_charge l) (th_Ah t) (th_Ah t').
Proof.
  intros Ha [Hs Hn] HR H. destruct (observed_wp _ _ _ _ _ _ _ _ (CV_c o nmax (th_Ah t) Vset Ilim tlim dt ndt t eq_refl) H) as [A N].
  assert (L := cv_ps_length l). assert (C : counts (length (cv_ps l)) (qsum (cv_ps l)) (th_Ah t) (th_Ah t')).
  { rewrite A. apply sum_moderate; [now apply cv_ps_near|exact Ha|]. apply le_INR in L. lra. }
  rewrite cv_ps_sum in C. apply counts_more with (1 := C); [exact L|]. destruct C as (_ & M & _). destruct Ha as [_ [P _]]. lra.
Qed.
Print Assumptions C86_CV.

Definition small (x : f64) : bool := is_finite_SF x && valid_binary prec64 emax64 x && SFleb (SFabs x) (nZ 1000).
Definition log_ok (l : list (event f64)) : bool :=
  forallb (fun e => match e with EStep d _ => small d && SFleb (nZ 0) d | EReadI i => small i | _ => true end) l && Nat.leb (dturns l) 1000.
Lemma small_ok x : small x = true -> fin x /\ Rabs (fval x) <= bpow radix2 300.
Proof.
  unfold small. rewrite !andb_true_iff. intros ((A & B) & C). assert (F : fin x) by (split; assumption). destruct (fabs x F) as [Fa Va]. destruct (fnZ 1000) as [F3 V3]; [easy|].
  apply fleb in C; [|assumption..]. rewrite Va, V3 in C. split; [exact F|]. apply Rle_trans with (1 := C). apply Rle_trans with (bpow radix2 10); [change (bpow radix2 10) with 1024; lra|now apply bpow_le].
Qed.
Lemma log_ok_moderate l : log_ok l = true -> steps_moderate l /\ readings_moderate l.
Proof.
  unfold log_ok. rewrite andb_true_iff, forallb_forall. intros [H N]. apply Nat.leb_le, le_INR in N. split; [split|].
  - intros d n Hi. apply H in Hi. apply andb_true_iff in Hi. destruct Hi as [A B]. apply small_ok in A. destruct A as [F A]. destruct (fnZ 0) as [F0 V0]; [easy|].
    apply fleb in B; [|assumption..]. rewrite V0 in B. rewrite Rabs_pos_eq in A by exact B. auto.
  - apply Rle_trans with (1 := N). apply Rle_trans with (bpow radix2 10); [|now apply bpow_le]. change (bpow radix2 10) with (IZR 1024). rewrite INR_IZR_INZ. apply IZR_le. vm_compute. discriminate.
  - intros i Hi. apply H in Hi. now apply small_ok.
Qed.
(** Charging a half-full cell at 16 A for 5 s; holding it at 3.2 V for 2 s. *)
Example C86_inhabited :
  counter (th_Ah (th0 (A := f64))) /\ dhonest_V (rc_if (A := f64)) /\ (fin (nZ (-16)) /\ Rabs (fval (nZ (-16))) <= bpow radix2 300) /\
  (let x := CC (logged rc_if) 100000 true 20 (nZ (-16)) (nlit 42 10) (nZ 5) (nZ 1) 0 (mkCyc (half, []) 0 th0) in
     snd x = Ok ReachedTimeLimit /\ steps_moderate (snd (c_su (fst x))) /\ dturns (snd (c_su (fst x))) = 3%nat) /\
  (let x := CV (logged rc_if) 100 (nlit 32 10) (nlit 1 10) (nZ 2) (nZ 1) 0 (mkCyc (half, []) 0 th0) in
     snd x = Ok ReachedTimeLimit /\ steps_moderate (snd (c_su (fst x))) /\ readings_moderate (snd (c_su (fst x))) /\ dturns (snd (c_su (fst x))) = 2%nat).
Proof.
  split. { destruct (fnZ 0) as [F0 V0]; [easy|]. split; [exact F0|]. change (th_Ah (th0 (A := f64))) with (nZ (A := f64) 0). rewrite V0. split; [lra|apply bpow_ge_0]. }
  split. { intros s s' v st H. cbn [rc_if q_checkV] in H. unfold rlift in H. cbn [ecm_ops o_checkV] in H. unfold ecm_checkVoltage, check_voltage in H.
    destruct (ecm_V (u_ecm (rc_u s))) as [v0| | |]; try discriminate H; apply pair_equal_spec in H; destruct H as [_ H]; injection H as _ <-;
      repeat match goal with |- context [if ?b then _ else _] => destruct b end; split; discriminate. }
  split. { apply small_ok. vm_compute. reflexivity. }
  split; cbv zeta.
  - split; [vm_compute; reflexivity|]. split; [apply log_ok_moderate; vm_compute; reflexivity|vm_compute; reflexivity].
  - split; [vm_compute; reflexivity|]. rewrite <- and_assoc. split; [apply log_ok_moderate; vm_compute; reflexivity|vm_compute; reflexivity].
Qed.
