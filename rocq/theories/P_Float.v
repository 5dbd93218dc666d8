(** * C77: double precision - clocks and books drift by at most a few rounding units per step, counters never run backwards *)
From Coq Require Import Reals Lra Lia SpecFloat ZArith List Bool.
Import ListNotations.
From Flocq Require Import Core BinarySingleNaN.
From Verif Require Import Base RFacts StatusModel UtilModel CellModel CellSpec CoolModel ModuleModel CyclerModel CyclerSpec CyclerProofs.
From Verif Require Import FloatSpec FloatFacts FloatEcm FloatCyc P_Cycler.
Local Open Scope R_scope.

(** Whatever doubles an equivalent-circuit cell holds and whatever double the step is - infinities and not-a-numbers included: after a
    time step that returns, the cell still holds doubles, and each of its counters (time, charge and energy throughput) is either
    not-a-number or not below what it was. *)
Theorem C77_never_decrease dt n (c c1 : ecm f64) : double dt -> double_cell c -> ecm_timeStep_CC dt n c = (c1, Ok tt) ->
  double_cell c1 /\
  (nnan (e_time (es c1)) = false -> nleb (e_time (es c)) (e_time (es c1)) = true) /\
  (nnan (e_Ah (es c1)) = false -> nleb (e_Ah (es c)) (e_Ah (es c1)) = true) /\
  (nnan (e_Wh (es c1)) = false -> nleb (e_Wh (es c)) (e_Wh (es c1)) = true).
Proof. exact (timeStep_mono dt n c c1). Qed.
Print Assumptions C77_never_decrease.

(** Any history of a cell in doubles, with currents, steps and capacity of a moderate size and sound books before and after every
    call: the time, the charge throughput and the state of charge at the end are those of the exact sums up to a few rounding units
    (2^-53) per step, of the size of the final counter, and a few rounding units of the charge moved. *)
Theorem C77_books c log d : double_hist sound_books c log d -> moderate (p_cap (ep c)) -> fval (p_cap (ep c)) <> 0 ->
  let q := abs_charge (log_val log) / 3600 in let cap := fval (p_cap (ep c)) in
  Rabs (fval (e_time (es d)) - (fval (e_time (es c)) + total_time (log_val log))) <= log_steps log * (2 * eps * fval (e_time (es d))) /\
  Rabs (fval (e_Ah (es d)) - (fval (e_Ah (es c)) + q)) <= log_steps log * (2 * eps * fval (e_Ah (es d))) + 3 * eps * q /\
  Rabs (fval (e_SOC (es d)) - (fval (e_SOC (es c)) - net_charge (log_val log) / 3600 / cap)) <= log_steps log * (4 * eps) + 4 * eps * (q / Rabs cap).
Proof. intros H M N. destruct (hist_err c log d H M N) as (_ & _ & _ & _ & A & B & C). auto. Qed.
Print Assumptions C77_books.

(** The cycler's rest on any unit, in doubles, with a limit of at most 2^50 seconds and 2^50 steps: it takes steps no longer than asked and at
    most 10 at once; it ends - never runs on, never reports a time limit it did not reach, never raises its own error - unless a call on
    the unit failed; when it reports the time limit, its clock is between the limit and the limit plus 4 rounding units, and the time the
    unit was advanced by is exactly the limit up to 4 rounding units of it per turn. *)
Theorem C77_rest {S : Type} (o : unit_if f64 S) nmax fuel tlim dt ndt s idx t l t' r :
  fin tlim -> moderate dt -> 0 < fval dt -> 0 <= fval tlim <= bpow radix2 50 -> fval tlim <= bpow radix2 50 * fval dt ->
  2 * fval tlim / fval dt + 2 <= INR fuel ->
  observed (rest (logged o) nmax fuel tlim dt ndt) s idx t l t' r ->
  dsteps_within (fval dt) 10 l /\
  match r with
  | Ok st => (st = ReachedTimeLimit /\ fin (elapsed_in_order l) /\ fval tlim <= fval (elapsed_in_order l) <= fval tlim * (1 + 4 * eps) /\
                Rabs (true_elapsed l - fval tlim) <= INR (dturns l + 1) * (4 * eps * fval tlim) /\ th_time t' = nadd (th_time t) (elapsed_in_order l)) \/
             (isStatusBad st = true /\ t' = t)
  | _ => failed_last l /\ t' = t
  end.
Proof.
  intros Ft Md Pd [Pt Bt] Rt Hf H. destruct (observed_wp _ _ _ _ _ _ _ _ (rest_f o nmax tlim dt Ft Md Pd Pt Bt Rt ndt fuel t Hf) H) as [H1 H2].
  split; [|exact H2]. intros d n Hi. destruct (H1 d n Hi) as (A & B & C). split; [exact A|]. split; [exact B|]. destruct (0 <? ndt)%Z; lia.
Qed.
Print Assumptions C77_rest.

(** The same for a constant-current run, which takes at most 2 steps at once; its books start at zero. *)
Theorem C77_CC {S : Type} (o : unit_if f64 S) nmax diag fuel I vlim tlim dt ndt s idx t l t' r :
  fin tlim -> moderate dt -> 0 < fval dt -> 0 <= fval tlim <= bpow radix2 50 -> fval tlim <= bpow radix2 50 * fval dt ->
  2 * fval tlim / fval dt + 2 <= INR fuel -> (diag = true -> dhonest o) -> th_time t = nZ 0 ->
  observed (CC (logged o) nmax diag fuel I vlim tlim dt ndt) s idx t l t' r ->
  dsteps_within (fval dt) 2 l /\ fin (elapsed_in_order l) /\ 0 <= fval (elapsed_in_order l) <= fval tlim * (1 + 4 * eps) /\
  Rabs (fval (elapsed_in_order l) - true_elapsed l) <= INR (dturns l) * (4 * eps * fval tlim) /\
  match r with
  | Ok st => st = ReachedTimeLimit -> fval tlim <= fval (elapsed_in_order l) /\ th_time t' = elapsed_in_order l
  | _ => failed_last l
  end.
Proof.
  intros Ft Md Pd [Pt Bt] Rt Hf Ho Ht H.
  destruct (observed_wp _ _ _ _ _ _ _ _ (CC_f o nmax tlim dt Ft Md Pd Pt Bt Rt diag Ho I vlim ndt fuel t Hf Ht) H) as [(H1 & F & R & E) H2].
  split; [|auto]. intros d n Hi. destruct (H1 d n Hi) as (A & B & C). split; [exact A|]. split; [exact B|]. destruct (0 <? ndt)%Z; lia.
Qed.
Print Assumptions C77_CC.

(** The drift is real: after three steps of a tenth of a second the cell's clock is past three tenths. *)
Theorem C77_exact_refuted : exists c1, ecm_timeStep_CC (A := f64) (nlit 1 10) 3 (ecm_default 1) = (c1, Ok tt) /\ nltb (nlit 3 10) (e_time (es c1)) = true.
Proof. eexists. split; vm_compute; reflexivity. Qed.
Print Assumptions C77_exact_refuted.

Lemma moderate_int z : (1 <= Z.abs z <= 2 ^ 53)%Z -> moderate (nZ (A := f64) z).
Proof.
  intros H. destruct (fnZ z) as [F V]; [lia|]. split; [exact F|]. right. rewrite V, <- abs_IZR. split.
  - apply Rle_trans with 1; [change 1 with (bpow radix2 0); now apply bpow_le|apply IZR_le; lia].
  - apply Rle_trans with (IZR (2 ^ 53)); [apply IZR_le; lia|]. change (IZR (2 ^ 53)) with (bpow radix2 53). now apply bpow_le.
Qed.
Definition three (c : ecm f64) : ecm f64 := fst (ecm_timeStep_CC (nZ 2) 3 c).
Lemma books_ok (c : ecm f64) :
  is_finite_SF (e_SOC (es c)) && valid_binary prec64 emax64 (e_SOC (es c)) && SFleb (SFabs (e_SOC (es c))) (nZ 2) &&
  is_finite_SF (e_time (es c)) && valid_binary prec64 emax64 (e_time (es c)) && SFleb (nZ 0) (e_time (es c)) && SFleb (e_time (es c)) (nZ 1000) &&
  is_finite_SF (e_Ah (es c)) && valid_binary prec64 emax64 (e_Ah (es c)) && SFleb (nZ 0) (e_Ah (es c)) && SFleb (e_Ah (es c)) (nZ 1000) = true -> sound_books c.
Proof.
  rewrite !andb_true_iff. intros ((((((((((A1 & A2) & A3) & B1) & B2) & B3) & B4) & D1) & D2) & D3) & D4).
  assert (FA : fin (e_SOC (es c))) by (split; assumption). assert (FB : fin (e_time (es c))) by (split; assumption). assert (FD : fin (e_Ah (es c))) by (split; assumption).
  destruct (fnZ 0) as [F0 V0]; [easy|]. destruct (fnZ 2) as [F2 V2]; [easy|]. destruct (fnZ 1000) as [F3 V3]; [easy|]. destruct (fabs _ FA) as [FE VE].
  apply fleb in A3, B3, B4, D3, D4; try assumption. rewrite VE, V2 in A3. rewrite V0 in B3, D3. rewrite V3 in B4, D4.
  assert (1000 <= bpow radix2 1000). { apply Rle_trans with (bpow radix2 10); [change (bpow radix2 10) with 1024; lra|now apply bpow_le]. }
  split; [exact FA|]. split; [exact A3|]. split; [exact FB|]. split; [lra|]. split; [exact FD|]. lra.
Qed.
(** A default cell discharged at 16 A in three steps of 2 s; a rest of 25 s in steps of 2 s and a charge of 5 s in steps of 1 s. *)
Example C77_inhabited :
  (let c := ecm_default (A := f64) 1 in double_cell c /\ moderate (p_cap (ep c)) /\ fval (p_cap (ep c)) <> 0 /\
     double_hist sound_books c [(nZ 16, nZ 2, 3%nat)] (three (fst (ecm_setCurrent (nZ 16) false c)))) /\
  (fin (nZ 25) /\ moderate (nZ 2) /\ 0 < fval (nZ 2) /\ 0 <= fval (nZ 25) <= bpow radix2 50 /\ fval (nZ 25) <= bpow radix2 50 * fval (nZ 2) /\
     2 * fval (nZ 25) / fval (nZ 2) + 2 <= INR 27 /\
     snd (rest (logged rc_if) 100000 27 (nZ 25) (nZ 2) 3 (mkCyc (half, []) 0 th0)) = Ok ReachedTimeLimit) /\
  (dhonest (rc_if (A := f64)) /\ fin (nZ 5) /\ moderate (nZ 1) /\ 0 < fval (nZ 1) /\ fval (nZ 5) <= bpow radix2 50 * fval (nZ 1) /\
     2 * fval (nZ 5) / fval (nZ 1) + 2 <= INR 20 /\ th_time (th0 (A := f64)) = nZ 0 /\
     snd (CC (logged rc_if) 100000 true 20 (nZ (-16)) (nlit 42 10) (nZ 5) (nZ 1) 0 (mkCyc (half, []) 0 th0)) = Ok ReachedTimeLimit).
Proof.
  destruct (fnZ 25) as [F25 V25]; [easy|]. destruct (fnZ 2) as [F2 V2]; [easy|]. destruct (fnZ 5) as [F5 V5]; [easy|]. destruct (fnZ 1) as [F1 V1]; [easy|].
  assert (B : 1000 <= bpow radix2 50) by (apply Rle_trans with (bpow radix2 10); [change (bpow radix2 10) with 1024; lra|now apply bpow_le]).
  split; [|split].
  - cbv zeta. split; [repeat split; repeat constructor; vm_compute; reflexivity|]. split; [apply moderate_int; easy|].
    split; [change (p_cap (ep (ecm_default (A := f64) 1))) with (nZ (A := f64) 16); destruct (fnZ 16) as [_ ->]; [easy|lra]|].
    eapply dh_setI with (i := nZ 16) (chk := false); [vm_compute; reflexivity|].
    match goal with |- double_hist _ ?c _ _ => change c with (fst (ecm_setCurrent (nZ 16) false (ecm_default (A := f64) 1))) end.
    set (c := fst _). change (nZ 16) with (e_I (es c)).
    eapply dh_step; [apply books_ok; vm_compute; reflexivity|apply (moderate_int 16); easy|apply moderate_int; easy|vm_compute; reflexivity|apply books_ok; vm_compute; reflexivity|].
    match goal with |- double_hist _ ?a _ ?b => assert (a = b) as -> by (vm_compute; reflexivity) end. constructor.
  - rewrite V25, V2. split; [exact F25|]. split; [apply moderate_int; easy|]. split; [lra|]. split; [lra|]. split; [lra|]. split; [cbn [INR]; lra|vm_compute; reflexivity].
  - split.
    { intros s s' v st H. cbn [rc_if q_checkV] in H. unfold rlift in H. cbn [ecm_ops o_checkV] in H. unfold ecm_checkVoltage, check_voltage in H.
      destruct (ecm_V (u_ecm (rc_u s))) as [v0| | |]; try discriminate H; apply pair_equal_spec in H; destruct H as [_ H]; injection H as _ <-;
        repeat match goal with |- context [if ?b then _ else _] => destruct b end; discriminate. }
    rewrite V5, V1. split; [exact F5|]. split; [apply moderate_int; easy|]. split; [lra|]. split; [lra|]. split; [cbn [INR]; lra|]. split; vm_compute; reflexivity.
Qed.
