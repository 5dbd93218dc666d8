(** * C83: double precision - the books of a single-particle cell drift by at most a few rounding units per step *)
From Coq Require Import Reals Lra Lia SpecFloat ZArith List Bool.
Import ListNotations.
From Flocq Require Import Core BinarySingleNaN.
From Verif Require Import Base RFacts StatusModel UtilModel CellModel CellSpec SpmModel SpmSpec SpmWitness CyclerModel CyclerSpec.
From Verif Require Import FloatSpec FloatFacts FloatEcm FloatSpmSpec FloatSpm FloatSpm2 P_Float P_Spm.
Local Open Scope R_scope.

(** Whatever calls operate a single-particle cell - commands, voltage reads, temperatures, time steps with or without ageing, each of
    them completed, refused or ended by an exception - and whatever doubles it holds and is given, infinities and not-a-numbers included:
    its clock and its charge counter are at the end either not-a-number or not below what they were at the start. *)
Theorem C83_never_decrease F tm c l d : history F tm (fun _ o => operating o /\ double_args o) c l d -> double_books c ->
  double_books d /\
  (nnan (s_time (cs d)) = false -> nleb (s_time (cs c)) (s_time (cs d)) = true) /\
  (nnan (s_Ah (cs d)) = false -> nleb (s_Ah (cs c)) (s_Ah (cs d)) = true).
Proof. intros H D. destruct (hist_never_less F tm c l d H D) as (A & B & C). split; [exact A|]. split; intros N; [exact (proj2 (B N))|exact (proj2 (C N))]. Qed.
Print Assumptions C83_never_decrease.

(** The same for the energy counter over a time step, whatever its outcome, when the numbers the voltage is computed from are doubles
    and the library's exponential and inverse hyperbolic sine return doubles. *)
Theorem C83_energy F tm dt n c : double_fns F -> double dt -> double_spm c -> let d := fst (spm_timeStep_CC F tm dt n c) in
  nnan (s_Wh (cs d)) = false -> nleb (s_Wh (cs c)) (s_Wh (cs d)) = true.
Proof. intros HF Hd D d N. exact (proj2 (call_Wh F HF tm dt n c Hd D N)). Qed.
Print Assumptions C83_energy.

(** Any operating history of a single-particle cell in doubles, with currents, steps and capacity of a moderate size and sound books
    before and after every time step, ageing or not: the time, the charge throughput and the state of charge at the end are those of the
    exact sums up to a few rounding units (2^-53) per step, of the size of the final counter, and a few rounding units of the charge moved. *)
Theorem C83_books F tm c log d : spm_double_hist F tm c log d -> moderate (q_cap (cp c)) -> fval (q_cap (cp c)) <> 0 ->
  let q := abs_charge (log_val log) / 3600 in let cap := fval (q_cap (cp c)) in
  Rabs (fval (s_time (cs d)) - (fval (s_time (cs c)) + total_time (log_val log))) <= log_steps log * (2 * eps * fval (s_time (cs d))) /\
  Rabs (fval (s_Ah (cs d)) - (fval (s_Ah (cs c)) + q)) <= log_steps log * (2 * eps * fval (s_Ah (cs d))) + 3 * eps * q /\
  Rabs (fval (s_SOC (cs d)) - (fval (s_SOC (cs c)) - net_charge (log_val log) / 3600 / cap)) <= log_steps log * (4 * eps) + 4 * eps * (q / Rabs cap).
Proof. intros H M N. destruct (spm_hist_err F tm c log d H M N) as (_ & _ & _ & _ & A & B & C). auto. Qed.
Print Assumptions C83_books.

(** The drift is real: after three steps of a tenth of a second at rest the cell's clock is past three tenths. *)
Theorem C83_exact_refuted : forall g h p, exists c1, spm_timeStep_CC (w_fns g h p) 0 (nlit 1 10) 3 w_ref = (c1, Ok tt) /\ nltb (nlit 3 10) (s_time (cs c1)) = true.
Proof. intros g h p. eexists. split; vm_compute; reflexivity. Qed.
Print Assumptions C83_exact_refuted.

Lemma spm_books_ok (c : spm f64) :
  is_finite_SF (s_SOC (cs c)) && valid_binary prec64 emax64 (s_SOC (cs c)) && SFleb (SFabs (s_SOC (cs c))) (nZ 2) &&
  is_finite_SF (s_time (cs c)) && valid_binary prec64 emax64 (s_time (cs c)) && SFleb (nZ 0) (s_time (cs c)) && SFleb (s_time (cs c)) (nZ 1000) &&
  is_finite_SF (s_Ah (cs c)) && valid_binary prec64 emax64 (s_Ah (cs c)) && SFleb (nZ 0) (s_Ah (cs c)) && SFleb (s_Ah (cs c)) (nZ 1000) = true -> sound_spm c.
Proof.
  rewrite !andb_true_iff. intros ((((((((((A1 & A2) & A3) & B1) & B2) & B3) & B4) & D1) & D2) & D3) & D4).
  assert (FA : fin (s_SOC (cs c))) by (split; assumption). assert (FB : fin (s_time (cs c))) by (split; assumption). assert (FD : fin (s_Ah (cs c))) by (split; assumption).
  destruct (fnZ 0) as [F0 V0]; [vm_compute; discriminate|]. destruct (fnZ 2) as [F2 V2]; [vm_compute; discriminate|]. destruct (fnZ 1000) as [F3 V3]; [vm_compute; discriminate|]. destruct (fabs _ FA) as [FE VE].
  apply fleb in A3, B3, B4, D3, D4; try assumption. rewrite VE, V2 in A3. rewrite V0 in B3, D3. rewrite V3 in B4, D4.
  assert (1000 <= bpow radix2 1000). { apply Rle_trans with (bpow radix2 10); [change (bpow radix2 10) with 1024; lra|apply bpow_le; lia]. }
  split; [exact FA|]. split; [exact A3|]. split; [exact FB|]. split; [lra|]. split; [exact FD|]. lra.
Qed.
(** The default cell with fast reactions, discharged at 1 A in two steps of 2 s with ageing on. *)
Definition w_run (g h : f64 -> f64) (p : f64 -> f64 -> f64) : spm f64 := fst (spm_timeStep_CC (w_fns g h p) 0 (nZ 2) 2 (w_on g h p)).
Example C83_inhabited : forall g h p, let F := w_fns g h p in
  double_books w_big /\ double_spm w_big /\ double_fns (mkFns (fun _ => nZ 1) (fun x => nZ 0) p) /\
  history F 0 (fun _ o => operating o /\ double_args o) w_big [OpCurrent (nZ 1) true; OpStep (nZ 2) 2] (w_run g h p) /\ c_block (w_on g h p) = false /\
  spm_double_hist F 0 w_big [(nZ 1, nZ 2, 2%nat)] (w_run g h p) /\ moderate (q_cap (cp w_big)) /\ fval (q_cap (cp w_big)) <> 0.
Proof.
  intros g h p F. split; [repeat split; vm_compute; reflexivity|]. split; [repeat split; repeat constructor; vm_compute; reflexivity|].
  split; [intros x; split; reflexivity|]. split.
  { constructor; [split; [exact Logic.I|reflexivity]|]. constructor; [split; [exact Logic.I|reflexivity]|]. unfold w_run, w_on, F. cbn [after]. constructor. }
  split; [vm_compute; reflexivity|]. split.
  - apply (sdh_cmd F 0 w_big (OpCurrent (nZ 1) true)); [exact Logic.I|discriminate|]. cbn [after]. unfold F at 2. fold (w_on g h p).
    assert (EI : s_I (cs (w_on g h p)) = nZ 1) by (vm_compute; reflexivity). rewrite <- EI at 1.
    apply (sdh_step F 0 (w_on g h p) (nZ 2) 2 (w_run g h p) []).
    + apply spm_books_ok. vm_compute. reflexivity.
    + rewrite EI. apply moderate_int. lia.
    + apply moderate_int. lia.
    + lia.
    + change (Z.of_nat 2) with 2%Z. assert (K : snd (spm_timeStep_CC F 0 (nZ 2) 2 (w_on g h p)) = Ok tt) by (vm_compute; reflexivity).
      unfold w_run. fold F. destruct (spm_timeStep_CC F 0 (nZ 2) 2 (w_on g h p)) as [c1 r]. cbn [fst snd] in *. now rewrite K.
    + apply spm_books_ok. vm_compute. reflexivity.
    + constructor.
  - assert (E : q_cap (cp w_big) = nZ 16) by (vm_compute; reflexivity). rewrite E. split; [apply moderate_int; lia|]. destruct (fnZ 16) as [_ ->]; [lia|lra].
Qed.
