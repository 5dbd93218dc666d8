(** * C87: drive cycles and pulse tests *)
From Coq Require Import Reals Lra Lia SpecFloat.
From Verif Require Import Base RFacts StatusModel UtilModel CellModel ModuleModel SpmModel SpmUnitModel SpmSpec SpmProofs SpmReal SpmDiff
  FloatSpec FloatFacts FloatEcm PhysToy DriveModel DriveSpec DriveProofs DriveGitt DriveToy SpmWitness.
Local Open Scope R_scope.

(** ** The drive cycle *)

(** The records of a drive cycle that ends without an error: one per second, at most one per entry of the profile, fewer only if
    the measured element fell below the limit. Record [i] holds the state after [i] seconds; the current in it is the commanded
    one or the one that flowed in the second before, and the charge throughput is the sum of the recorded currents. *)
Lemma zn_at_R k (s : spm_st R) : zn_at k s = nth k (s_zn s) 0.
Proof. unfold zn_at. now rewrite R_nZ. Qed.
Theorem C87_recorded : forall (F : fns R) tm k z0 z10 stop cap rates (c c' : spm R) es,
  drive F tm k z0 z10 stop cap rates c = (c', Ok es) ->
  (length es <= length rates)%nat /\ (rates <> [] -> es <> []) /\
  ((length es < length rates)%nat -> nth k (s_zn (cs c')) 0 < stop) /\
  s_time (cs c') = s_time (cs c) + INR (length es) /\
  s_Ah (cs c') = s_Ah (cs c) + Rsum (map (fun e => Rabs (e_I e)) es) / 3600 /\
  forall i e, nth_error es i = Some e ->
    (exists r, nth_error rates i = Some r /\ (e_I e = r * cap \/ e_I e = before (s_I (cs c)) es i) /\
      nth_error (volt_file cap rates es) i = Some (r * cap, e_V e, e_soc e)) /\
    s_time (e_st e) = s_time (cs c) + INR i /\
    s_Ah (e_st e) = s_Ah (cs c) + Rsum (map (fun e => Rabs (e_I e)) (firstn i es)) / 3600 /\
    ((0 < i)%nat -> stop <= nth k (s_zn (e_st e)) 0) /\
    e_soc e = 100 * ((nth k (s_zn (e_st e)) 0 - z0) / (z10 - z0)).
Proof.
  intros F tm k z0 z10 stop cap rates c c' es H. destruct (drive_book _ _ _ _ _ _ _ _ _ _ _ H) as (B1 & B2 & B3 & B4 & B5 & _ & B6).
  split; [exact B1|]. split; [exact B2|]. split; [now rewrite <- zn_at_R|]. split; [exact B4|]. split; [exact B5|].
  intros i e E. destruct (B6 i e E) as ((r & R1 & R2) & _ & E2 & E3 & E4). split; [|split; [exact E3|]].
  - exists r. split; [exact R1|]. split; [exact R2|]. unfold volt_file. rewrite nth_error_map.
    assert (G : nth_error (combine rates es) i = Some (r, e)).
    { clear - R1 E. revert es i R1 E. induction rates as [|x rates IH]; intros [|y es] [|i]; cbn; try discriminate.
      - now intros [= ->] [= ->].
      - apply IH. }
    rewrite G. reflexivity.
  - split; [apply E4|]. rewrite <- !zn_at_R. split; [apply E4|]. rewrite E2. unfold est_SOC. now rewrite R_nZ.
Qed.
Print Assumptions C87_recorded.

(** The voltage in a record is the one that a cell in the recorded state has, whatever was stored before (any carrier). *)
Theorem C87_voltage : forall (A : Type) (NA : Num A) (F : fns A) tm k z0 z10 stop cap rates (c c' : spm A) es,
  c_block c = true -> read_V F c = fresh_V F c -> drive F tm k z0 z10 stop cap rates c = (c', Ok es) ->
  forall e x, In e es -> cp x = cp c -> cs x = e_st e -> fresh_V F x = Ok (e_V e).
Proof. intros A NA F tm k z0 z10 stop cap rates c c' es. exact (drive_fresh F tm k z0 z10 stop cap rates c c' es). Qed.
Print Assumptions C87_voltage.

(** The estimated state of charge is a coulomb count: where the measured element has no relaxation, it moves by the same amount
    for every recorded ampere-second. *)
Theorem C87_coulomb : forall (F : fns R) tm k z0 z10 stop cap rates (c c' : spm R) es,
  diffusion_only tm c -> (k < length (s_zn (cs c)))%nat -> (k < length (m_An (q_M (cp c))))%nat -> (k < length (m_Bn (q_M (cp c))))%nat ->
  nth k (m_An (q_M (cp c))) 0 = 0 -> drive F tm k z0 z10 stop cap rates c = (c', Ok es) ->
  let per_coulomb := nth k (m_Bn (q_M (cp c))) 0 / (q_surf (cp c) * (s_an (cs c) * q_n (cp c) * 96487 * s_thickn (cs c))) in
  forall i e, nth_error es i = Some e ->
    e_soc e = 100 * ((nth k (s_zn (cs c)) 0 + per_coulomb * Rsum (map e_I (firstn i es)) - z0) / (z10 - z0)).
Proof.
  intros F tm k z0 z10 stop cap rates c c' es O L1 L2 L3 N H rate i e E.
  pose proof (drive_mode _ _ _ _ _ _ _ _ _ _ _ H O L1 L2 L3 N i e E) as Q.
  destruct (C87_recorded _ _ _ _ _ _ _ _ _ _ _ H) as (_ & _ & _ & _ & _ & B). destruct (B i e E) as (_ & _ & _ & _ & ->).
  rewrite <- !zn_at_R, Q. reflexivity.
Qed.
Print Assumptions C87_coulomb.

(** The experiments are independent: each has the voltages, the estimates and, but for the counters, the states of the
    experiment that is run alone from the cell as it was at first (any carrier). *)
Theorem C87_repeatable : forall (A : Type) (NA : Num A) (F : fns A) tm k z0 z10 stop rates pts (c c' : spm A) ess,
  c_block c = true -> experiments F tm k z0 z10 stop rates pts c = (c', Ok ess) ->
  Forall2 (fun pt es => exists c1 c2 fs, spm_setC (fst pt) (snd pt) c = (c1, Ok tt) /\
    drive F tm k z0 z10 stop (q_cap (cp c)) rates c1 = (c2, Ok fs) /\
    volt_file (q_cap (cp c)) rates es = volt_file (q_cap (cp c)) rates fs /\
    map (fun e => matter (e_st e)) es = map (fun e => matter (e_st e)) fs) pts ess.
Proof.
  intros A NA F tm k z0 z10 stop rates pts c c' ess B H.
  assert (K : kin c c) by (repeat split). pose proof (experiments_alone F tm k z0 z10 stop rates pts c c c' ess B K H) as G. clear H.
  induction G as [|pt es pts ess (c1 & c2 & fs & E1 & E2 & E3) _ IH]; constructor.
  - exists c1, c2, fs. split; [exact E1|]. split; [exact E2|]. split.
    + unfold volt_file. clear - E3. revert rates. induction E3 as [|e f es fs (X & Y & _) _ IH]; intros [|r rates]; cbn; try reflexivity.
      now rewrite X, Y, IH.
    + clear - E3. induction E3 as [|e f es fs (_ & _ & Z) _ IH]; [reflexivity|]. cbn. now rewrite Z, IH.
  - exact IH.
Qed.
Print Assumptions C87_repeatable.

(** With five diffusion states per electrode the columns of the states are those of the header (any carrier). *)
Theorem C87_columns : forall (A : Type) (NA : Num A) (F : fns A) tm k z0 z10 stop cap rates (c c' : spm A) es,
  c_block c = true -> length (s_zp (cs c)) = 5%nat -> length (s_zn (cs c)) = 5%nat ->
  drive F tm k z0 z10 stop cap rates c = (c', Ok es) ->
  state_file es = map (fun e => header_order (e_st e)) es /\ Forall (fun l => length l = 28%nat) (state_file es).
Proof.
  intros A NA F tm k z0 z10 stop cap rates c c' es B Lp Ln H. pose proof (drive_lens F tm k z0 z10 stop cap rates c c' es B H) as L.
  assert (X : forall e, In e es -> firstn 28 (st_list (e_st e)) = header_order (e_st e) /\ length (header_order (e_st e)) = 28%nat).
  { intros e I. pose proof (L e I) as Q. unfold lens in Q. rewrite Lp, Ln in Q. clear - Q. injection Q as Q1 Q2. destruct (e_st e) as [? ? ? ? ? ? ? ? ? ? ? ? ? ? ? zp zn]. cbn [s_zp s_zn] in Q1, Q2.
    do 5 (destruct zp as [|? zp]; [discriminate|]). destruct zp; [|discriminate]. do 5 (destruct zn as [|? zn]; [discriminate|]). destruct zn; [|discriminate]. now split. }
  unfold state_file. split.
  - apply map_ext_in. intros e I. now apply X.
  - apply Forall_forall. intros l I. apply in_map_iff in I. destruct I as (e & <- & I). destruct (X e I) as [-> ->]. reflexivity.
Qed.
Print Assumptions C87_columns.

(** ** The pulse test *)

(** The two cells of the pulse test do not influence each other: after the first line, the current and voltage columns of each
    are those that the cell has when it alone follows the plan, charging the one and discharging the other (any kind of unit). *)
Theorem C87_separate : forall (A : Type) (NA : Num A) (S : Type) (o : su_ops A S) n np nr rate (c d c' d' : S) rows,
  gitt o n np nr rate (c, d) = ((c', d'), Ok rows) ->
  exists c1 v d1 w rows', o_V o c = (c1, Ok v) /\ o_V o d = (d1, Ok w) /\ rows = (nZ 0, o_I o c, v, o_I o d, w) :: rows' /\
    exists lc ld, runs o (pulse_plan n np nr (nopp (nmul rate (o_Cap o c)))) c1 lc c' /\
                  runs o (pulse_plan n np nr (nmul rate (o_Cap o c))) d1 ld d' /\
                  map col_c rows' = concat lc /\ map col_d rows' = concat ld.
Proof.
  intros A NA S o n np nr rate c d c' d' rows H. unfold gitt in H. apply mbind_ok in H. destruct H as (s1 & r & H1 & H).
  apply line_ok in H1. destruct H1 as (c1 & v & d1 & w & V1 & V2 & -> & ->). apply mbind_ok in H. destruct H as (s2 & l & H2 & H).
  injection H as -> <-. destruct (pulses_ok _ _ _ _ _ _ _ _ _ _ H2) as (lc & ld & R1 & R2 & C1 & C2 & _). cbn [fst snd] in *.
  exists c1, v, d1, w, l. repeat split; auto. exists lc, ld. auto.
Qed.
Print Assumptions C87_separate.

Lemma gitt_clock {A : Type} {NA : Num A} {S : Type} (o : su_ops A S) n np nr rate (c d : S) x rows :
  gitt o n np nr rate (c, d) = (x, Ok rows) -> map col_t rows = nZ 0 :: clock (n * (np + nr)) (nZ 0).
Proof.
  intros H. unfold gitt in H. apply mbind_ok in H. destruct H as (s1 & r & H1 & H). apply line_ok in H1. destruct H1 as (c1 & v & d1 & w & V1 & V2 & -> & ->).
  apply mbind_ok in H. destruct H as (s2 & l & H2 & H). injection H as -> <-. destruct (pulses_ok _ _ _ _ _ _ _ _ _ _ H2) as (lc & ld & _ & _ & _ & _ & T).
  cbn [map col_t]. now rewrite T.
Qed.
Lemma clock_length {A : Type} {NA : Num A} n : forall t : A, length (clock n t) = n.
Proof. induction n as [|n IH]; intros t; [reflexivity|]. cbn [clock length]. now rewrite IH. Qed.

(** The file has a line for the start and one for each second, and in doubles line [j] of the latter has the time [j] exactly. *)
Theorem C87_times : forall (S : Type) (o : su_ops f64 S) n np nr rate (c d : S) x rows,
  gitt o n np nr rate (c, d) = (x, Ok rows) ->
  length rows = (1 + n * (np + nr))%nat /\
  forall j r, nth_error rows (Datatypes.S j) = Some r -> (Z.of_nat j <= 2 ^ 53)%Z -> fin (col_t r) /\ fval (col_t r) = INR j.
Proof.
  intros S o n np nr rate c d x rows H. pose proof (gitt_clock _ _ _ _ _ _ _ _ _ H) as T. split.
  - rewrite <- (map_length col_t), T. cbn [length]. now rewrite clock_length.
  - intros j r E L. apply (map_nth_error col_t) in E. rewrite T in E. cbn [nth_error] in E. destruct (fnZ 0) as [F0 V0]; [easy|].
    destruct (clock_f64 _ _ 0%Z j _ F0 V0 ltac:(lia) ltac:(lia) E) as [G1 G2]. split; [exact G1|]. rewrite G2, Z.add_0_l. symmetry. apply INR_IZR_INZ.
Qed.
Print Assumptions C87_times.

(** What a cell of the pulse test goes through: in every phase one current, the commanded one or the one of the phase before;
    the time, the charge throughput and the state of charge are those of the recorded currents. *)
Definition tested (i0 : R) (plan : list (R * nat)) (col : list (R * R)) (c c' : spm R) : Prop :=
  (exists phases, col = concat phases /\ kept i0 plan phases) /\
  s_time (cs c') = s_time (cs c) + INR (length col) /\
  s_Ah (cs c') = s_Ah (cs c) + Rsum (map (fun y => Rabs (fst y)) col) / 3600 /\
  s_SOC (cs c') = s_SOC (cs c) - Rsum (map fst col) / (q_cap (cp c) * 3600).
Theorem C87_pulses : forall (F : fns R) tm n np nr rate (c d c' d' : spm R) rows,
  gitt (spm_ops F tm) n np nr rate (c, d) = ((c', d'), Ok rows) ->
  tested (s_I (cs c)) (pulse_plan n np nr (- (rate * q_cap (cp c)))) (map col_c (tl rows)) c c' /\
  tested (s_I (cs d)) (pulse_plan n np nr (rate * q_cap (cp c))) (map col_d (tl rows)) d d'.
Proof.
  intros F tm n np nr rate c d c' d' rows H.
  destruct (C87_separate _ _ _ _ _ _ _ _ _ _ _ _ _ H) as (c1 & v & d1 & w & rows' & V1 & V2 & -> & lc & ld & R1 & R2 & C1 & C2).
  cbn [tl]. rewrite C1, C2. cbn [o_V o_Cap spm_ops] in *. destruct (V_ok _ _ _ _ V1) as (P1 & _ & _ & (w1 & S1) & _). destruct (V_ok _ _ _ _ V2) as (P2 & _ & _ & (w2 & S2) & _).
  destruct (runs_spm _ _ _ _ _ _ R1) as (K1 & _ & K2 & K3 & K4). destruct (runs_spm _ _ _ _ _ _ R2) as (J1 & _ & J2 & J3 & J4).
  rewrite S1, ?P1 in *. rewrite S2, ?P2 in *. split; (split; [eexists; split; [reflexivity|eassumption]|]); repeat split; assumption.
Qed.
Print Assumptions C87_pulses.

Lemma moved (F : fns R) tm n np nr rate (c d c' d' : spm R) rows lc ld :
  gitt (spm_ops F tm) n np nr rate (c, d) = ((c', d'), Ok rows) ->
  let i := rate * q_cap (cp c) in
  map col_c (tl rows) = concat lc -> as_planned (pulse_plan n np nr (- i)) lc ->
  map col_d (tl rows) = concat ld -> as_planned (pulse_plan n np nr i) ld ->
  s_time (cs c') = s_time (cs c) + INR (n * (np + nr)) /\ s_time (cs d') = s_time (cs d) + INR (n * (np + nr)) /\
  s_SOC (cs c') = s_SOC (cs c) + INR n * INR np * i / (q_cap (cp c) * 3600) /\
  s_SOC (cs d') = s_SOC (cs d) - INR n * INR np * i / (q_cap (cp d) * 3600) /\
  s_Ah (cs c') = s_Ah (cs c) + INR n * INR np * Rabs i / 3600 /\ s_Ah (cs d') = s_Ah (cs d) + INR n * INR np * Rabs i / 3600.
Proof.
  intros H i Ec Pc Ed Pd.
  assert (L : length (tl rows) = (n * (np + nr))%nat).
  { pose proof (gitt_clock _ _ _ _ _ _ _ _ _ H) as T. destruct rows as [|r rows]; [discriminate|]. cbn [map tl] in *. injection T as _ T.
    rewrite <- (map_length col_t), T. apply clock_length. }
  destruct (C87_pulses _ _ _ _ _ _ _ _ _ _ _ H) as ((_ & T1 & A1 & S1) & (_ & T2 & A2 & S2)).
  destruct (planned_sums _ _ Pc) as [U1 U2]. destruct (planned_sums _ _ Pd) as [W1 W2].
  destruct (plan_sums n np nr (- i)) as [X1 X2]. destruct (plan_sums n np nr i) as [Y1 Y2].
  rewrite map_length, L in T1, T2. rewrite Ec, U1, X1 in S1. rewrite Ec, U2, X2, Rabs_Ropp in A1. rewrite Ed, W1, Y1 in S2. rewrite Ed, W2, Y2 in A2.
  split; [exact T1|]. split; [exact T2|]. split; [rewrite S1; unfold Rdiv; ring|]. split; [exact S2|]. split; [exact A1|exact A2].
Qed.

(** The test of the library, whenever no command is refused, moves exactly the capacity: the charged cell gains 1 of state of
    charge and both cells a throughput of the capacity, in 60 hours. *)
Theorem C87_capacity : forall (F : fns R) tm (c d c' d' : spm R) rows lc ld,
  GITT_test (spm_ops F tm) (c, d) = ((c', d'), Ok rows) -> 0 < q_cap (cp c) ->
  let i := 5 / 100 * q_cap (cp c) in
  map col_c (tl rows) = concat lc -> as_planned (pulse_plan 20 (Z.to_nat 3600) (Z.to_nat 7200) (- i)) lc ->
  map col_d (tl rows) = concat ld -> as_planned (pulse_plan 20 (Z.to_nat 3600) (Z.to_nat 7200) i) ld ->
  s_time (cs c') = s_time (cs c) + 216000 /\ s_time (cs d') = s_time (cs d) + 216000 /\
  s_SOC (cs c') = s_SOC (cs c) + 1 /\ s_SOC (cs d') = s_SOC (cs d) - q_cap (cp c) / q_cap (cp d) /\
  s_Ah (cs c') = s_Ah (cs c) + q_cap (cp c) /\ s_Ah (cs d') = s_Ah (cs d) + q_cap (cp c).
Proof.
  intros F tm c d c' d' rows lc ld. unfold GITT_test. cbv zeta.
  assert (Np : INR (Z.to_nat 3600) = 3600) by (rewrite INR_IZR_INZ, Z2Nat.id; [reflexivity|easy]).
  assert (Nr : INR (Z.to_nat 7200) = 7200) by (rewrite INR_IZR_INZ, Z2Nat.id; [reflexivity|easy]).
  revert Np Nr. generalize (Z.to_nat 3600) (Z.to_nat 7200). intros np nr Np Nr H Q Ec Pc Ed Pd.
  change (nlit 5 100 : R) with (5 / 100) in H.
  destruct (moved _ _ _ _ _ _ _ _ _ _ _ _ _ H Ec Pc Ed Pd) as (T1 & T2 & S1 & S2 & A1 & A2).
  assert (N20 : INR 20 = 20) by (rewrite INR_IZR_INZ; reflexivity).
  rewrite mult_INR, plus_INR, N20, Np, Nr in T1, T2. rewrite N20, Np in S1, S2, A1, A2. rewrite Rabs_pos_eq in A1, A2 by lra.
  split; [rewrite T1; lra|]. split; [rewrite T2; lra|]. split; [rewrite S1; field; lra|].
  split; [rewrite S2; unfold Rdiv; rewrite Rinv_mult; lra|]. split; [rewrite A1; lra|rewrite A2; lra].
Qed.
Print Assumptions C87_capacity.

(** ** Findings *)
Definition quick : spm f64 :=
  Eval vm_compute in spm_setChar (s_Dp (cs w_ref)) (s_Dn (cs w_ref)) (nZ (10 ^ 300)) (nZ (10 ^ 300)) (nlit 1 100) w_ref.
Definition quick_blocked : spm f64 :=
  Eval vm_compute in mkSpm (cp quick) (cs quick) (c_valid quick) (c_str quick) true (c_parent quick) (c_Q quick) (c_Qtot quick) (c_tth quick) (c_Tenv quick).

(** The current column of the voltage file is the requested current: when a command is refused, it is not the one that flowed,
    which the file with the states has (doubles). *)
Theorem C87_current_refuted : forall g h p,
  match drive (w_fns g h p) 0 0 (nZ 0) (nZ 1) (nZ (-1)) (nZ 1) [nZ 1; nZ (-500)] quick_blocked with
  | (_, Ok es) => map (fun '(i, _, _) => i) (volt_file (nZ 1) [nZ 1; nZ (-500)] es) = [nZ 1; nZ (-500)] /\
                  map (fun l => nth 0 l (nZ 0)) (state_file es) = [nZ 1; nZ 1]
  | _ => False
  end.
Proof. intros g h p. vm_compute. split; reflexivity. Qed.
Print Assumptions C87_current_refuted.

(** When a pulse empties an electrode, the command to rest is refused and the pulse current goes on through the rest; the voltage
    in the file is 0 (doubles; the cell was prepared with [setC]). *)
Definition plainf : fns f64 := mkFns (fun _ => nZ 1) (fun _ => nZ 0) (fun _ _ => nZ 1).
Definition nearly_empty : spm f64 := Eval vm_compute in fst (spm_setC (nlit 1 2) (nlit 1 (10 ^ 12)) quick_blocked).
Definition emptied_rows := Eval vm_compute in
  match gitt (spm_ops plainf 0) 1 1 2 (nlit 5 100) (nearly_empty, quick_blocked) with (_, Ok l) => map col_c l | _ => [] end.
Theorem C87_rest_refuted : exists x rows i v0 v1,
  spm_setC (nlit 1 2) (nlit 1 (10 ^ 12)) quick_blocked = (nearly_empty, Ok tt) /\
  gitt (spm_ops plainf 0) 1 1 2 (nlit 5 100) (nearly_empty, quick_blocked) = (x, Ok rows) /\
  map col_c rows = [(nZ 0, v0); (i, v1); (i, nZ 0); (i, nZ 0)] /\ nltb i (nZ 0) = true /\ nltb (nZ 2) v1 = true.
Proof.
  destruct (gitt (spm_ops plainf 0) 1 1 2 (nlit 5 100) (nearly_empty, quick_blocked)) as [x r] eqn:E.
  assert (R : match r with Ok l => map col_c l = emptied_rows | _ => False end).
  { change r with (snd (x, r)). rewrite <- E. vm_compute. reflexivity. }
  destruct r as [rows| | |]; try contradiction. exists x, rows. rewrite R. eexists _, _, _. split; [vm_compute; reflexivity|]. split; [reflexivity|].
  split; [unfold emptied_rows; reflexivity|]. split; vm_compute; reflexivity.
Qed.
Print Assumptions C87_rest_refuted.

(** ** Examples *)

(** A cell that rests at first drives through any profile of small currents, and none is refused. *)
Example C87_drive_inhabited : forall tm z0 z10 stop cap rates, Forall (fun r => Rabs (r * cap) <= 1 / 2) rates ->
  let c := roller in let k := 1%nat in
  c_block c = true /\ read_V plainF c = fresh_V plainF c /\ diffusion_only tm c /\
  (k < length (s_zn (cs c)))%nat /\ (k < length (m_An (q_M (cp c))))%nat /\ (k < length (m_Bn (q_M (cp c))))%nat /\
  nth k (m_An (q_M (cp c))) 0 = 0 /\ nth k (m_Bn (q_M (cp c))) 0 <> 0 /\
  exists c' es, drive plainF tm k z0 z10 stop cap rates c = (c', Ok es) /\
    forall i e, nth_error es i = Some e -> exists r, nth_error rates i = Some r /\ e_I e = r * cap.
Proof.
  intros tm z0 z10 stop cap rates H c k. split; [reflexivity|]. split; [now apply coherent_invalid|]. split; [now left|].
  cbn. repeat split; try lia; try lra. destruct (roll_drive tm k z0 z10 stop cap rates roller roller_rolls H) as (c' & es & E & _ & G). exists c', es. now split.
Qed.
(** Two experiments in doubles; the second starts where the first did, with the same file. *)
Example C87_repeat_inhabited :
  match experiments plainf 0 0 (nZ 0) (nZ 1) (nZ (-1)) [nlit 1 10; nZ 0] [(nlit 1 2, nlit 1 2); (nlit 1 2, nlit 1 2)] quick_blocked with
  | (_, Ok [e; f]) => volt_file (nZ 16) [nlit 1 10; nZ 0] e = volt_file (nZ 16) [nlit 1 10; nZ 0] f /\ length e = 2%nat
  | _ => False
  end.
Proof. vm_compute. split; reflexivity. Qed.
(** The library's pulse test on two cells of capacity 1 that rest at first: it ends, and no command is refused. *)
Example C87_gitt_inhabited : forall tm, exists c' d' rows lc ld,
  GITT_test (spm_ops plainF tm) (roller, roller) = ((c', d'), Ok rows) /\ 0 < q_cap (cp roller) /\
  map col_c (tl rows) = concat lc /\ as_planned (pulse_plan 20 (Z.to_nat 3600) (Z.to_nat 7200) (- (5 / 100 * q_cap (cp roller)))) lc /\
  map col_d (tl rows) = concat ld /\ as_planned (pulse_plan 20 (Z.to_nat 3600) (Z.to_nat 7200) (5 / 100 * q_cap (cp roller))) ld.
Proof.
  intros tm. unfold GITT_test. generalize (Z.to_nat 3600) (Z.to_nat 7200). generalize 20%nat. intros n np nr. change (q_cap (cp roller)) with 1.
  assert (B : Rabs (5 / 100 * 1) <= 1 / 2) by (rewrite Rabs_pos_eq; lra).
  assert (B' : Rabs (- (5 / 100 * 1)) <= 1 / 2) by now rewrite Rabs_Ropp.
  destruct (roll_V roller roller_rolls) as (c1 & v & E1 & H1 & _).
  destruct (roll_pulses tm np nr (5 / 100 * 1) B n (nZ 0) c1 c1 H1 H1) as (c2 & d2 & l & E2 & H2 & J2).
  assert (G : gitt (spm_ops plainF tm) n np nr (nlit 5 100) (roller, roller) = ((c2, d2), Ok ((nZ 0, s_I (cs roller), v, s_I (cs roller), v) :: l))).
  { unfold gitt, mbind at 1, line. cbn [o_V o_I o_Cap spm_ops fst]. rewrite E1. unfold mbind. change (nmul (nlit 5 100) (q_cap (cp roller))) with (5 / 100 * 1). rewrite E2. reflexivity. }
  destruct (C87_separate _ _ _ _ _ _ _ _ _ _ _ _ _ G) as (x1 & v1 & y1 & w1 & rows' & V1 & V2 & Er & lc & ld & R1 & R2 & C1 & C2).
  injection Er as _ _ <-. cbn [o_V o_Cap spm_ops] in *. rewrite E1 in V1, V2. injection V1 as <- <-. injection V2 as <- <-.
  change (nmul (nlit 5 100) (q_cap (cp roller))) with (5 / 100 * 1) in R1, R2.
  assert (P : forall i, Rabs i <= 1 / 2 -> Forall (fun p => Rabs (fst p) <= 1 / 2) (pulse_plan n np nr i)).
  { intros i Hi. unfold pulse_plan. clear - Hi. induction n as [|n IH]; [constructor|]. cbn [repeat concat app]. constructor; [exact Hi|]. constructor; [|exact IH].
    cbn [fst]. rewrite R_nZ, Rabs_R0. lra. }
  exists c2, d2, ((nZ 0, s_I (cs roller), v, s_I (cs roller), v) :: l), lc, ld. split; [exact G|]. split; [lra|]. cbn [tl].
  split; [exact C1|]. split; [exact (roll_planned tm _ (P _ B') _ _ _ H1 R1)|]. split; [exact C2|exact (roll_planned tm _ (P _ B) _ _ _ H1 R2)].
Qed.
