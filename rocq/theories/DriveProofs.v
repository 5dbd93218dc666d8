(** * Lemmas about drive cycles and pulse tests *)
From Coq Require Import Reals Lra Lia.
From Verif Require Import Base RFacts StatusModel StatusProofs UtilModel CellModel ModuleModel SpmModel SpmSpec SpmProofs SpmReal SpmDiff DriveModel DriveSpec.

(** ** One command and one reading, any carrier *)
Section Any.
Context {A : Type} {NA : Num A}.
Variable F : fns A.
Implicit Types (c : spm A).

Lemma V_ok c c' v : spm_V F c = (c', Ok v) ->
  cp c' = cp c /\ c_block c' = c_block c /\ c_parent c' = c_parent c /\ (exists w, cs c' = st_V (cs c) w) /\ (v = s_V (cs c') \/ v = nZ 0).
Proof.
  intros E. destruct (spm_V_cases _ _ _ _ E) as [(-> & _ & H)|[(-> & _ & H)|(w & -> & _ & H & _)]].
  - injection H as ->. repeat split; auto. exists (s_V (cs c)). now destruct (cs c).
  - repeat split; [exists (s_V (cs c)); now destruct (cs c)|]. rewrite fresh_V_calc in H.
    unfold spm_V in E. destruct (c_valid c); [left; now injection E|].
    destruct (calcV F c) as [[x|]|n| |]; try discriminate.
    + left. injection E as E1 E2. rewrite <- E2. symmetry. apply (f_equal (fun z => s_V (cs z))) in E1. exact (eq_sym E1).
    + right. now injection E.
  - injection H as ->. repeat split; auto. now exists w.
Qed.
Lemma setCurrent_ok c i c' st : spm_setCurrent F i true c = (c', Ok st) ->
  cp c' = cp c /\ c_block c' = c_block c /\ c_parent c' = c_parent c /\
  exists w, cs c' = st_V (st_I (cs c) (if isStatusBad st then s_I (cs c) else i)) w.
Proof.
  intros E. destruct (isStatusBad st) eqn:B.
  - rewrite (setCurrent_bad _ _ _ _ _ _ E B). repeat split. exists (s_V (cs c)). now destruct (cs c).
  - unfold spm_setCurrent, spm_checkCurrent, spm_checkVoltage in E.
    set (c1 := set_valid (set_st c (st_I (cs c) i)) false) in *. destruct (spm_V F c1) as [c2 r] eqn:Ev.
    destruct (check_voltage r (q_lim (cp c1)) (s_I (cs c1))) as [[v st']|n| |] eqn:Ec; cbn in E; try discriminate.
    injection E as E1 E2. subst st'. rewrite B in E1. subst c2.
    destruct (spm_V_cases _ _ _ _ Ev) as [(-> & _)|[(-> & _)|(w & -> & _)]]; repeat split; try (exists (s_V (cs c)); reflexivity). exists w. reflexivity.
Qed.
End Any.

Section Drive.
Context {A : Type} {NA : Num A}.
Variables (F : fns A) (tm : Z).
Implicit Types (c : spm A).

Lemma drive_cons k z0 z10 stop cap r rates c c' es : drive F tm k z0 z10 stop cap (r :: rates) c = (c', Ok es) ->
  exists c1 st c2 v c3, spm_setCurrent F (nmul r cap) true c = (c1, Ok st) /\ spm_V F c1 = (c2, Ok v) /\
    spm_timeStep_CC F tm (nZ 1) 1 c2 = (c3, Ok tt) /\
    let e := mkEn v (cs c2) (est_SOC z0 z10 (zn_at k (cs c2))) in
    (nltb (zn_at k (cs c3)) stop = true /\ es = [e] /\ c' = c3) \/
    (nltb (zn_at k (cs c3)) stop = false /\ exists es', drive F tm k z0 z10 stop cap rates c3 = (c', Ok es') /\ es = e :: es').
Proof.
  cbn [drive]. unfold mbind at 1. intros H. destruct (spm_setCurrent F (nmul r cap) true c) as [c1 [st| | |]] eqn:E1; try discriminate.
  unfold mbind at 1 in H. destruct (spm_V F c1) as [c2 [v| | |]] eqn:E2; try discriminate.
  unfold mbind at 1 in H. destruct (spm_timeStep_CC F tm (nZ 1) 1 c2) as [c3 [[]| | |]] eqn:E3; try discriminate.
  exists c1, st, c2, v, c3. repeat (split; [first [reflexivity|assumption]|]). cbv zeta.
  destruct (nltb (zn_at k (cs c3)) stop) eqn:E4.
  - injection H as <- <-. left. auto.
  - right. split; [reflexivity|]. unfold mbind in H. destruct (drive F tm k z0 z10 stop cap rates c3) as [c4 [es'| | |]]; try discriminate.
    injection H as <- <-. exists es'. auto.
Qed.
End Drive.

Section Real.
Variables (F : fns R) (tm : Z).
Implicit Types (c : spm R).
Local Open Scope R_scope.

(** One second of the drive. *)
Lemma second r c c1 st c2 v c3 : spm_setCurrent F r true c = (c1, Ok st) -> spm_V F c1 = (c2, Ok v) ->
  spm_timeStep_CC F tm (nZ 1) 1 c2 = (c3, Ok tt) ->
  (exists w, cs c2 = st_V (st_I (cs c) (if isStatusBad st then s_I (cs c) else r)) w) /\ (v = s_V (cs c2) \/ v = 0) /\
  cp c2 = cp c /\ c_block c2 = c_block c /\ c_parent c2 = c_parent c /\
  cp c3 = cp c /\ s_I (cs c3) = s_I (cs c2) /\ s_time (cs c3) = s_time (cs c) + 1 /\
  s_Ah (cs c3) = s_Ah (cs c) + Rabs (s_I (cs c2)) / 3600 /\
  s_SOC (cs c3) = s_SOC (cs c) - s_I (cs c2) / (q_cap (cp c) * 3600).
Proof.
  intros E1 E2 E3. destruct (setCurrent_ok _ _ _ _ _ E1) as (P1 & B1 & Q1 & w1 & S1).
  destruct (V_ok _ _ _ _ E2) as (P2 & B2 & Q2 & (w2 & S2) & HV). rewrite R_nZ in HV.
  assert (S2' : cs c2 = st_V (st_I (cs c) (if isStatusBad st then s_I (cs c) else r)) w2) by (rewrite S2, S1; reflexivity).
  change 1%Z with (Z.of_nat 1) in E3. destruct (timeStep_counters _ _ _ _ _ _ E3) as (_ & P3 & I3 & C3 & T3 & A3).
  rewrite R_nZ in C3, T3, A3. cbn [INR] in C3, T3, A3.
  split; [now exists w2|]. split; [exact HV|]. split; [congruence|]. split; [congruence|]. split; [congruence|]. split; [congruence|]. split; [exact I3|].
  assert (T : s_time (cs c2) = s_time (cs c) /\ s_Ah (cs c2) = s_Ah (cs c) /\ s_SOC (cs c2) = s_SOC (cs c)) by (rewrite S2'; repeat split).
  destruct T as (T & Q & Z). rewrite T3, A3, C3, T, Q, Z. replace (cp c2) with (cp c) by congruence. split; [ring|]. split.
  - f_equal. unfold Rdiv. ring.
  - f_equal. unfold Rdiv. ring.
Qed.

Lemma drive_book k z0 z10 stop cap : forall rates c c' es, drive F tm k z0 z10 stop cap rates c = (c', Ok es) ->
  (length es <= length rates)%nat /\ (rates <> [] -> es <> []) /\ ((length es < length rates)%nat -> zn_at k (cs c') < stop) /\
  s_time (cs c') = s_time (cs c) + INR (length es) /\
  s_Ah (cs c') = s_Ah (cs c) + Rsum (map (fun e => Rabs (e_I e)) es) / 3600 /\ cp c' = cp c /\
  forall i e, nth_error es i = Some e ->
    (exists r, nth_error rates i = Some r /\ (e_I e = r * cap \/ e_I e = before (s_I (cs c)) es i)) /\
    (e_V e = s_V (e_st e) \/ e_V e = 0) /\ e_soc e = est_SOC z0 z10 (zn_at k (e_st e)) /\
    s_time (e_st e) = s_time (cs c) + INR i /\
    s_Ah (e_st e) = s_Ah (cs c) + Rsum (map (fun e => Rabs (e_I e)) (firstn i es)) / 3600 /\
    ((0 < i)%nat -> stop <= zn_at k (e_st e)).
Proof.
  induction rates as [|r rates IH]; intros c c' es H.
  - injection H as <- <-. split; [cbn; lia|]. split; [tauto|]. split; [cbn; lia|]. cbn [length INR map Rsum]. split; [ring|]. split; [unfold Rdiv; ring|].
    split; [reflexivity|]. intros [|i] e; discriminate.
  - destruct (drive_cons _ _ _ _ _ _ _ _ _ _ _ _ H) as (c1 & st & c2 & v & c3 & E1 & E2 & E3 & C).
    destruct (second _ _ _ _ _ _ _ E1 E2 E3) as ((w & S2) & HV & _ & _ & _ & P3 & I3 & T3 & A3 & _).
    set (e0 := mkEn v (cs c2) (est_SOC z0 z10 (zn_at k (cs c2)))) in *. cbv zeta in C.
    assert (H0 : (e_I e0 = r * cap \/ e_I e0 = s_I (cs c)) /\ (e_V e0 = s_V (e_st e0) \/ e_V e0 = 0) /\
      s_time (e_st e0) = s_time (cs c) /\ s_Ah (e_st e0) = s_Ah (cs c)).
    { unfold e_I. subst e0. cbn [e_st e_V]. rewrite S2. cbn. destruct (isStatusBad st); split; auto; split; auto; rewrite S2 in HV; exact HV. }
    destruct H0 as (G1 & G2 & G3 & G4).
    destruct C as [(L & -> & ->)|(L & es' & D & ->)].
    + split; [cbn; lia|]. split; [discriminate|]. split; [intros _; now apply Rltb_true|]. cbn [length INR map Rsum firstn].
      split; [exact T3|]. split; [rewrite A3; unfold e_I; subst e0; cbn [e_st]; unfold Rdiv; ring|]. split; [exact P3|].
      intros [|[|i]] e Hn; try discriminate. injection Hn as <-. split; [exists r; split; [reflexivity|exact G1]|]. split; [exact G2|]. split; [reflexivity|].
      cbn [INR firstn map Rsum]. rewrite G3, G4. split; [ring|]. split; [unfold Rdiv; ring|lia].
    + destruct (IH _ _ _ D) as (K1 & K2 & K3 & K4 & K5 & K6 & K7).
      split; [cbn; lia|]. split; [discriminate|]. split; [intros Hl; apply K3; cbn in Hl; lia|].
      split; [rewrite K4, T3; cbn [length]; rewrite S_INR; ring|].
      split; [rewrite K5, A3; cbn [map Rsum]; change (e_I e0) with (s_I (cs c2)); unfold Rdiv; ring|]. split; [congruence|].
      intros [|i] e Hn; cbn [nth_error] in Hn.
      * injection Hn as <-. split; [exists r; split; [reflexivity|exact G1]|]. split; [exact G2|]. split; [reflexivity|].
        cbn [INR firstn map Rsum]. rewrite G3, G4. split; [ring|]. split; [unfold Rdiv; ring|lia].
      * destruct (K7 _ _ Hn) as ((q & Hq & J1) & J2 & J3 & J4 & J5 & J6).
        split; [exists q; split; [exact Hq|]|].
        { destruct J1 as [J1|J1]; [now left|right]. rewrite J1. destruct i as [|i]; cbn [before nth_error]; [rewrite I3; reflexivity|].
          destruct (nth_error es' i) eqn:N; [reflexivity|]. exfalso. apply nth_error_None in N. assert (nth_error es' (S i) <> None) by congruence.
          apply nth_error_Some in H0. lia. }
        split; [exact J2|]. split; [exact J3|]. split; [rewrite J4, T3, S_INR; ring|].
        split; [rewrite J5, A3; cbn [firstn map Rsum]; change (e_I e0) with (s_I (cs c2)); unfold Rdiv; ring|].
        intros _. destruct i as [|i]; [|apply J6; lia].
        destruct rates as [|r1 rates1]; [injection D as _ <-; discriminate|].
        destruct (drive_cons _ _ _ _ _ _ _ _ _ _ _ _ D) as (a1 & sa & a2 & va & a3 & X1 & X2 & X3 & Y).
        destruct (second _ _ _ _ _ _ _ X1 X2 X3) as ((wa & Sa) & _). cbv zeta in Y.
        assert (He : e_st e = cs a2). { destruct Y as [(_ & -> & _)|(_ & l & _ & ->)]; injection Hn as <-; reflexivity. }
        rewrite He, Sa. unfold zn_at in *. cbn [s_zn st_V st_I]. apply Rltb_false in L. lra.
Qed.
End Real.

Section Mode.
Variables (F : fns R) (tm : Z).
Implicit Types (c : spm R).
Local Open Scope R_scope.

(** Charge per unit of the uniform mode of the anode. *)
Definition mode_rate (k : nat) c : R := nth k (m_Bn (q_M (cp c))) 0 / (q_surf (cp c) * (s_an (cs c) * q_n (cp c) * 96487 * s_thickn (cs c))).

Lemma second_mode k r c c1 st c2 v c3 : spm_setCurrent F r true c = (c1, Ok st) -> spm_V F c1 = (c2, Ok v) ->
  spm_timeStep_CC F tm (nZ 1) 1 c2 = (c3, Ok tt) -> diffusion_only tm c ->
  (k < length (s_zn (cs c)))%nat -> (k < length (m_An (q_M (cp c))))%nat -> (k < length (m_Bn (q_M (cp c))))%nat -> nth k (m_An (q_M (cp c))) 0 = 0 ->
  same_build c c3 /\ c_parent c3 = c_parent c /\ length (s_zn (cs c3)) = length (s_zn (cs c)) /\ s_zn (cs c2) = s_zn (cs c) /\
  nth k (s_zn (cs c3)) 0 = nth k (s_zn (cs c)) 0 + mode_rate k c * s_I (cs c2).
Proof.
  intros E1 E2 E3 O L1 L2 L3 N. destruct (second _ _ _ _ _ _ _ _ _ E1 E2 E3) as ((w & S2) & _ & P2 & B2 & Q2 & _).
  assert (SB : same_build c c2) by (split; [exact P2|]; split; [rewrite S2; reflexivity|]; split; [unfold ageing; rewrite S2; reflexivity|exact B2]).
  pose proof (build_diffusion tm c c2 SB Q2 O) as O2. change 1%Z with (Z.of_nat 1) in E3.
  destruct (timeStep_z _ _ _ _ _ _ O2 E3) as (G & _ & V & _ & _ & Y).
  assert (Z2 : s_zn (cs c2) = s_zn (cs c)) by (rewrite S2; reflexivity).
  split; [exact (build_trans _ _ _ SB G)|]. split; [congruence|]. split; [rewrite Y, pass_iter_length, Z2; reflexivity|]. split; [exact Z2|].
  rewrite Y, Z2, P2, pass_iter_null by assumption. rewrite R_nZ. cbn [INR]. f_equal.
  unfold mode_rate, jn_of, calcMolarFlux, FARADAY. cbn [snd]. rewrite P2, S2, R_nZ. cbn [s_I s_an s_thickn st_V st_I ndiv nmul RNum].
  unfold Rdiv. rewrite !Rinv_mult. ring.
Qed.
Lemma mode_rate_build k c c' : same_build c c' -> mode_rate k c' = mode_rate k c.
Proof.
  intros (P & T & G & _). unfold mode_rate. rewrite P. unfold ageing in G. injection G. intros. congruence.
Qed.

Lemma drive_mode k z0 z10 stop cap : forall rates c c' es, drive F tm k z0 z10 stop cap rates c = (c', Ok es) -> diffusion_only tm c ->
  (k < length (s_zn (cs c)))%nat -> (k < length (m_An (q_M (cp c))))%nat -> (k < length (m_Bn (q_M (cp c))))%nat -> nth k (m_An (q_M (cp c))) 0 = 0 ->
  forall i e, nth_error es i = Some e -> zn_at k (e_st e) = zn_at k (cs c) + mode_rate k c * Rsum (map e_I (firstn i es)).
Proof.
  induction rates as [|r rates IH]; intros c c' es H O L1 L2 L3 N.
  - injection H as <- <-. intros [|i] e; discriminate.
  - destruct (drive_cons _ _ _ _ _ _ _ _ _ _ _ _ H) as (c1 & st & c2 & v & c3 & E1 & E2 & E3 & C).
    destruct (second_mode k _ _ _ _ _ _ _ E1 E2 E3 O L1 L2 L3 N) as (SB & Q & L & Z & Y). cbv zeta in C.
    unfold zn_at in *. rewrite R_nZ in *.
    destruct C as [(_ & -> & ->)|(_ & es' & D & ->)]; intros [|i] e Hn; cbn [nth_error] in Hn.
    + injection Hn as <-. cbn [e_st firstn map Rsum]. rewrite Z. ring.
    + destruct i; discriminate.
    + injection Hn as <-. cbn [e_st firstn map Rsum]. rewrite Z. ring.
    + assert (P : cp c3 = cp c) by apply SB.
      rewrite (IH _ _ _ D) with (i := i); try assumption; rewrite ?P, ?L; try assumption; [|exact (build_diffusion tm c c3 SB Q O)].
      rewrite Y, (mode_rate_build k c c3 SB). cbn [firstn map Rsum]. unfold e_I at 2. cbn [e_st]. ring.
Qed.
End Mode.

(** ** History does not matter *)
Section Twins.
Context {A : Type} {NA : Num A}.
Variables (F : fns A) (tm : Z).
Implicit Types (c d : spm A).

Definition twins c d : Prop :=
  cp d = cp c /\ matter (cs d) = matter (cs c) /\ c_valid d = c_valid c /\ (c_valid c = true -> s_V (cs d) = s_V (cs c)) /\
  c_block c = true /\ c_block d = true.
Definition same_out {B : Type} (x y : spm A * res B) : Prop := snd x = snd y /\ twins (fst x) (fst y).

Lemma matter_ex s t : matter t = matter s -> t = st_cum (st_SOC (st_V s (s_V t)) (s_SOC t)) (s_time t) (s_Ah t) (s_Wh t).
Proof. destruct s, t. unfold matter. cbn. intros H. injection H. intros. subst. reflexivity. Qed.
Lemma calcV_matter c d : cp d = cp c -> matter (cs d) = matter (cs c) -> calcV F d = calcV F c.
Proof. intros P M. apply matter_ex in M. destruct c, d. cbn in *. subst. rewrite M. reflexivity. Qed.

Lemma V_twins c d : twins c d -> same_out (spm_V F c) (spm_V F d).
Proof.
  intros T. assert (T0 := T). destruct T0 as (P & M & V & W & B1 & B2). unfold spm_V. rewrite V, (calcV_matter c d P M).
  destruct (c_valid c) eqn:Ev; [split; [cbn; now rewrite W|exact T]|].
  destruct (calcV F c) as [[v|]|n| |]; (split; [reflexivity|]); try exact T.
  repeat split; auto.
Qed.
Lemma setCurrent_twins i chk c d : twins c d -> same_out (spm_setCurrent F i chk c) (spm_setCurrent F i chk d).
Proof.
  intros T. assert (T0 := T). destruct T0 as (P & M & V & W & B1 & B2). unfold spm_setCurrent.
  set (c1 := set_valid (set_st c (st_I (cs c) i)) false). set (d1 := set_valid (set_st d (st_I (cs d) i)) false).
  assert (IE : s_I (cs d) = s_I (cs c)) by (apply matter_ex in M; rewrite M; reflexivity).
  assert (T1 : twins c1 d1).
  { subst c1 d1. repeat split; auto; try discriminate. apply matter_ex in M. cbn [cs set_valid set_st]. rewrite M. reflexivity. }
  assert (K : same_out (spm_checkCurrent F chk c1) (spm_checkCurrent F chk d1)).
  { unfold spm_checkCurrent, spm_checkVoltage. destruct chk; [|split; [reflexivity|exact T1]].
    destruct (V_twins _ _ T1) as [R1 R2]. destruct (spm_V F c1) as [c2 r], (spm_V F d1) as [d2 r']. cbn [fst snd] in R1, R2. subst r'.
    change (s_I (cs c1)) with i. change (s_I (cs d1)) with i. change (cp c1) with (cp c). change (cp d1) with (cp d). rewrite P. split; [reflexivity|exact R2]. }
  destruct K as [R1 R2]. destruct (spm_checkCurrent F chk c1) as [c2 r], (spm_checkCurrent F chk d1) as [d2 r']. cbn [fst snd] in R1, R2. subst r'.
  destruct r as [st|n| |]; (split; [reflexivity|]); try exact R2.
  cbn [fst]. destruct (isStatusBad st); [|exact R2].
  destruct R2 as (Q1 & Q2 & Q3 & Q4 & Q5 & Q6). repeat split; auto. apply matter_ex in Q2. cbn [cs set_valid set_st]. rewrite Q2, IE. reflexivity.
Qed.
Lemma step1_twins dt c d : twins c d -> same_out (spm_step1 F dt c) (spm_step1 F dt d).
Proof.
  intros T. assert (T0 := T). destruct T0 as (P & M & V & W & B1 & B2). apply matter_ex in M.
  unfold spm_step1.
  assert (D : calcDiffConstant F d = calcDiffConstant F c) by (unfold calcDiffConstant, arrh; rewrite P, M; reflexivity).
  assert (J : calcMolarFlux d = calcMolarFlux c) by (unfold calcMolarFlux; rewrite P, M; reflexivity).
  rewrite D, J. destruct (calcDiffConstant F c) as [a b]. destruct (calcMolarFlux c) as [[x y] z].
  match goal with |- same_out (match spm_V F ?d with _ => _ end) _ => set (c1 := d) end.
  match goal with |- same_out _ (match spm_V F ?d with _ => _ end) => set (d1 := d) end.
  assert (T1 : twins c1 d1).
  { subst c1 d1. split; [exact P|]. split; [|repeat split; auto; discriminate]. cbn [cs set_valid set_st set_str cp]. rewrite P, M. reflexivity. }
  assert (IE : s_I (cs d) = s_I (cs c)) by (rewrite M; reflexivity). rewrite IE.
  destruct (V_twins _ _ T1) as [R1 R2]. destruct (spm_V F c1) as [c2 r], (spm_V F d1) as [d2 r']. cbn [fst snd] in R1, R2. subst r'.
  destruct r as [v|n| |]; (split; [reflexivity|]); try exact R2.
Qed.
Lemma steps_twins dt n : forall c d, twins c d -> same_out (spm_steps F n dt c) (spm_steps F n dt d).
Proof.
  induction n as [|n IH]; intros c d T; [split; [reflexivity|exact T]|]. rewrite !steps_S. destruct (step1_twins dt c d T) as [R1 R2].
  destruct (spm_step1 F dt c) as [c2 r], (spm_step1 F dt d) as [d2 r']. cbn [fst snd] in R1, R2. subst r'.
  destruct r as [[]|e| |]; [now apply IH|now split..].
Qed.
Lemma timeStep_twins dt n c d : twins c d -> same_out (spm_timeStep_CC F tm dt n c) (spm_timeStep_CC F tm dt n d).
Proof.
  intros T. unfold spm_timeStep_CC. destruct (nltb dt (nZ 0)); [split; [reflexivity|exact T]|].
  match goal with |- same_out (match spm_steps F _ _ ?d with _ => _ end) _ => set (c1 := d) end.
  match goal with |- same_out _ (match spm_steps F _ _ ?d with _ => _ end) => set (d1 := d) end.
  assert (T1 : twins c1 d1) by exact T.
  destruct (steps_twins dt (Z.to_nat n) _ _ T1) as [R1 R2].
  destruct (spm_steps F (Z.to_nat n) dt c1) as [c2 r], (spm_steps F (Z.to_nat n) dt d1) as [d2 r']. cbn [fst snd] in R1, R2. subst r'.
  destruct r as [[]|e| |]; try now split. assert (R3 := R2). destruct R3 as (_ & _ & _ & _ & -> & ->). now split.
Qed.

(** What two drives record in common. *)
Definition alike_entry (e f : entry A) : Prop := e_V e = e_V f /\ e_soc e = e_soc f /\ matter (e_st e) = matter (e_st f).
Lemma drive_twins k z0 z10 stop cap : forall rates c d c' es, twins c d -> drive F tm k z0 z10 stop cap rates c = (c', Ok es) ->
  exists d' fs, drive F tm k z0 z10 stop cap rates d = (d', Ok fs) /\ twins c' d' /\ Forall2 alike_entry es fs.
Proof.
  induction rates as [|r rates IH]; intros c d c' es T H.
  - injection H as <- <-. exists d, []. repeat split; auto; apply T.
  - destruct (drive_cons _ _ _ _ _ _ _ _ _ _ _ _ H) as (c1 & st & c2 & v & c3 & E1 & E2 & E3 & C). cbv zeta in C.
    destruct (setCurrent_twins (nmul r cap) true _ _ T) as [R1 T1]. rewrite E1 in R1, T1. destruct (spm_setCurrent F (nmul r cap) true d) as [d1 x1] eqn:G1. cbn [fst snd] in R1, T1. subst x1.
    destruct (V_twins _ _ T1) as [R2 T2]. rewrite E2 in R2, T2. destruct (spm_V F d1) as [d2 x2] eqn:G2. cbn [fst snd] in R2, T2. subst x2.
    destruct (timeStep_twins (nZ 1) 1 _ _ T2) as [R3 T3]. rewrite E3 in R3, T3. destruct (spm_timeStep_CC F tm (nZ 1) 1 d2) as [d3 x3] eqn:G3. cbn [fst snd] in R3, T3. subst x3.
    assert (Z2 : zn_at k (cs d2) = zn_at k (cs c2)) by (destruct T2 as (_ & M & _); apply matter_ex in M; rewrite M; reflexivity).
    assert (Z3 : zn_at k (cs d3) = zn_at k (cs c3)) by (destruct T3 as (_ & M & _); apply matter_ex in M; rewrite M; reflexivity).
    assert (AE : alike_entry (mkEn v (cs c2) (est_SOC z0 z10 (zn_at k (cs c2)))) (mkEn v (cs d2) (est_SOC z0 z10 (zn_at k (cs d2))))).
    { split; [reflexivity|]. cbn [e_soc e_st]. rewrite Z2. split; [reflexivity|]. symmetry. apply T2. }
    cbn [drive]. unfold mbind at 1. rewrite G1. unfold mbind at 1. rewrite G2. unfold mbind at 1. rewrite G3, Z3.
    destruct C as [(L & -> & ->)|(L & es' & D & ->)]; rewrite L.
    + eexists _, _. split; [reflexivity|]. split; [exact T3|]. constructor; [exact AE|constructor].
    + destruct (IH _ _ _ _ T3 D) as (d' & fs & K1 & K2 & K3). unfold mbind. rewrite K1. eexists _, _. split; [reflexivity|]. split; [exact K2|]. now constructor.
Qed.


Lemma V_fresh c c' v x : coherent F c -> spm_V F c = (c', Ok v) -> cp x = cp c' -> cs x = cs c' -> fresh_V F x = Ok v.
Proof.
  intros H E P S. assert (R : read_V F c = Ok v) by (unfold read_V; now rewrite E).
  rewrite fresh_V_calc, (calcV_matter c' x P (f_equal matter S)), <- fresh_V_calc.
  replace c' with (fst (spm_V F c)) by now rewrite E. now rewrite fresh_read, <- H.
Qed.

(** Changes that leave everything but current, voltage, concentrations and counters. *)
Definition kin c d : Prop :=
  cp d = cp c /\ c_block d = c_block c /\ matter (st_z (st_I (cs d) (nZ 0)) [] []) = matter (st_z (st_I (cs c) (nZ 0)) [] []).
Lemma kin_trans c d e : kin c d -> kin d e -> kin c e.
Proof. intros (A1 & A2 & A3) (B1 & B2 & B3). repeat split; congruence. Qed.
Lemma kin_V c c' r : spm_V F c = (c', r) -> kin c c'.
Proof. intros E. destruct (spm_V_cases _ _ _ _ E) as [(-> & _)|[(-> & _)|(w & -> & _)]]; repeat split. Qed.
Lemma kin_setCurrent i c c' st : spm_setCurrent F i true c = (c', Ok st) -> kin c c'.
Proof. intros E. destruct (setCurrent_ok _ _ _ _ _ E) as (P & B & _ & w & S). split; [exact P|]. split; [exact B|]. rewrite S. reflexivity. Qed.
Lemma kin_step1 dt c : kin c (fst (spm_step1 F dt c)).
Proof.
  unfold spm_step1. destruct (calcDiffConstant F c) as [a b]. destruct (calcMolarFlux c) as [[x y] z].
  match goal with |- context [spm_V F ?d] => set (c1 := d) end.
  assert (K1 : kin c c1) by (repeat split).
  destruct (spm_V F c1) as [c2 v] eqn:Ev. apply kin_V in Ev. pose proof (kin_trans _ _ _ K1 Ev) as K2.
  destruct v; exact K2.
Qed.
Lemma kin_steps dt n : forall c, kin c (fst (spm_steps F n dt c)).
Proof.
  induction n as [|n IH]; intros c; [repeat split|]. rewrite steps_S. pose proof (kin_step1 dt c) as K. destruct (spm_step1 F dt c) as [c1 r]. cbn [fst] in K.
  destruct r as [[]|e| |]; try exact K. exact (kin_trans _ _ _ K (IH c1)).
Qed.
Lemma kin_timeStep dt n c : c_block c = true -> kin c (fst (spm_timeStep_CC F tm dt n c)).
Proof.
  intros B. unfold spm_timeStep_CC. destruct (nltb dt (nZ 0)); [repeat split|].
  match goal with |- context [spm_steps F _ _ ?d] => set (c1 := d) end. pose proof (kin_steps dt (Z.to_nat n) c1) as K.
  destruct (spm_steps F (Z.to_nat n) dt c1) as [c2 r]. cbn [fst] in K.
  assert (K2 : kin c c2) by exact K. destruct r as [[]|e| |]; try exact K2. destruct K2 as (K3 & K4 & K5). rewrite K4, B. repeat split; assumption.
Qed.
Lemma kin_drive k z0 z10 stop cap : forall rates c c' es, c_block c = true -> drive F tm k z0 z10 stop cap rates c = (c', Ok es) -> kin c c'.
Proof.
  induction rates as [|r rates IH]; intros c c' es B H; [injection H as <- <-; repeat split|].
  destruct (drive_cons _ _ _ _ _ _ _ _ _ _ _ _ H) as (c1 & st & c2 & v & c3 & E1 & E2 & E3 & C). cbv zeta in C.
  pose proof (kin_trans _ _ _ (kin_setCurrent _ _ _ _ E1) (kin_V _ _ _ E2)) as K2.
  assert (B2 : c_block c2 = true) by (destruct K2 as (_ & -> & _); exact B).
  pose proof (kin_timeStep (nZ 1) 1 c2 B2) as K3. rewrite E3 in K3. cbn [fst] in K3. pose proof (kin_trans _ _ _ K2 K3) as K.
  destruct C as [(_ & _ & ->)|(_ & es' & D & _)]; [exact K|]. apply (kin_trans _ _ _ K). apply (IH _ _ _ (eq_trans (proj1 (proj2 K)) B) D).
Qed.
(** Setting uniform concentrations makes kin cells twins. *)
Lemma drive_fresh k z0 z10 stop cap : forall rates c c' es, c_block c = true -> coherent F c -> drive F tm k z0 z10 stop cap rates c = (c', Ok es) ->
  forall e x, In e es -> cp x = cp c -> cs x = e_st e -> fresh_V F x = Ok (e_V e).
Proof.
  induction rates as [|r rates IH]; intros c c' es B Co H e x; [injection H as <- <-; intros []|].
  destruct (drive_cons _ _ _ _ _ _ _ _ _ _ _ _ H) as (c1 & st & c2 & v & c3 & E1 & E2 & E3 & C). cbv zeta in C.
  pose proof (kin_trans _ _ _ (kin_setCurrent _ _ _ _ E1) (kin_V _ _ _ E2)) as K2.
  assert (B2 : c_block c2 = true) by (destruct K2 as (_ & -> & _); exact B).
  pose proof (kin_timeStep (nZ 1) 1 c2 B2) as K3. rewrite E3 in K3. cbn [fst] in K3. pose proof (kin_trans _ _ _ K2 K3) as K.
  pose proof (after_setCurrent F c (nmul r cap) true Co) as Co1. rewrite E1 in Co1. cbn [fst] in Co1.
  pose proof (read_after F _ _ _ Co1 E2) as Co2. pose proof (after_step_blocked F tm (nZ 1) 1 c2 B2 Co2) as Co3. rewrite E3 in Co3. cbn [fst] in Co3.
  assert (G : cp x = cp c -> cs x = cs c2 -> fresh_V F x = Ok v).
  { intros P S. apply (V_fresh c1 c2 v x Co1 E2); [|exact S]. destruct K2 as (-> & _). exact P. }
  destruct C as [(_ & -> & _)|(_ & es' & D & ->)].
  - intros [<-|[]] P S. now apply G.
  - intros [<-|I] P S; [now apply G|]. destruct K as (K4 & K5 & _).
    apply (IH _ _ _ (eq_trans K5 B) Co3 D e x I); [now rewrite K4|exact S].
Qed.

(** The number of diffusion states is kept. *)
Definition lens c : nat * nat := (length (s_zp (cs c)), length (s_zn (cs c))).
Lemma z_step_len dt (z dz : list A) : length (z_step dt z dz) = length z.
Proof. revert dz. induction z as [|u z IH]; intros [|d dz]; cbn; auto. Qed.
Lemma lens_V c c' r : spm_V F c = (c', r) -> lens c' = lens c.
Proof. intros E. destruct (spm_V_cases _ _ _ _ E) as [(-> & _)|[(-> & _)|(w & -> & _)]]; reflexivity. Qed.
Lemma lens_step1 dt c : lens (fst (spm_step1 F dt c)) = lens c.
Proof.
  unfold spm_step1. destruct (calcDiffConstant F c) as [a b]. destruct (calcMolarFlux c) as [[x y] z].
  match goal with |- context [spm_V F ?d] => set (c1 := d) end.
  assert (K1 : lens c1 = lens c) by (unfold lens; cbn; now rewrite !z_step_len).
  destruct (spm_V F c1) as [c2 v] eqn:Ev. apply lens_V in Ev. destruct v; exact (eq_trans Ev K1).
Qed.
Lemma lens_steps dt n : forall c, lens (fst (spm_steps F n dt c)) = lens c.
Proof.
  induction n as [|n IH]; intros c; [reflexivity|]. rewrite steps_S. pose proof (lens_step1 dt c) as K. destruct (spm_step1 F dt c) as [c1 r]. cbn [fst] in K.
  destruct r as [[]|e| |]; try exact K. now rewrite IH.
Qed.
Lemma lens_timeStep dt n c : c_block c = true -> lens (fst (spm_timeStep_CC F tm dt n c)) = lens c.
Proof.
  intros B. pose proof (kin_timeStep dt n c B) as K0. unfold spm_timeStep_CC in *. destruct (nltb dt (nZ 0)); [reflexivity|].
  match goal with |- context [spm_steps F _ _ ?d] => set (c1 := d) in * end. pose proof (lens_steps dt (Z.to_nat n) c1) as K. pose proof (kin_steps dt (Z.to_nat n) c1) as K1.
  destruct (spm_steps F (Z.to_nat n) dt c1) as [c2 r]. cbn [fst] in K, K1.
  assert (K2 : lens c2 = lens c) by exact K. destruct r as [[]|e| |]; try exact K2.
  assert (B2 : c_block c2 = true) by (destruct K1 as (_ & -> & _); exact B). rewrite B2. exact K2.
Qed.
Lemma drive_lens k z0 z10 stop cap : forall rates c c' es, c_block c = true -> drive F tm k z0 z10 stop cap rates c = (c', Ok es) ->
  forall e, In e es -> (length (s_zp (e_st e)), length (s_zn (e_st e))) = lens c.
Proof.
  induction rates as [|r rates IH]; intros c c' es B H e; [injection H as <- <-; intros []|].
  destruct (drive_cons _ _ _ _ _ _ _ _ _ _ _ _ H) as (c1 & st & c2 & v & c3 & E1 & E2 & E3 & C). cbv zeta in C.
  pose proof (kin_trans _ _ _ (kin_setCurrent _ _ _ _ E1) (kin_V _ _ _ E2)) as K2.
  assert (B2 : c_block c2 = true) by (destruct K2 as (_ & -> & _); exact B).
  pose proof (kin_timeStep (nZ 1) 1 c2 B2) as K3. rewrite E3 in K3. cbn [fst] in K3. destruct (kin_trans _ _ _ K2 K3) as (_ & K5 & _).
  destruct (setCurrent_ok _ _ _ _ _ E1) as (_ & _ & _ & w & S1).
  assert (L2 : lens c2 = lens c) by (rewrite (lens_V _ _ _ E2); unfold lens; rewrite S1; reflexivity).
  pose proof (lens_timeStep (nZ 1) 1 c2 B2) as L3. rewrite E3 in L3. cbn [fst] in L3.
  destruct C as [(_ & -> & _)|(_ & es' & D & ->)].
  - intros [<-|[]]. exact L2.
  - intros [<-|I]; [exact L2|]. rewrite (IH _ _ _ (eq_trans K5 B) D e I). now rewrite L3.
Qed.

Lemma setC_kin fp fn c d d' : c_block c = true -> kin c d -> spm_setC fp fn d = (d', Ok tt) ->
  exists c', spm_setC fp fn c = (c', Ok tt) /\ twins d' c' /\ kin c d' /\ cp c' = cp c.
Proof.
  intros B (P & Q & M) H. unfold spm_setC in *. destruct (_ || _)%bool; [discriminate|]. rewrite P in H.
  destruct (ntrunc _) as [iz|]; [|discriminate]. destruct (_ && _)%bool; [|discriminate].
  injection H as <-. eexists. split; [reflexivity|].
  assert (M2 : forall zp zn, matter (st_I (st_z (cs c) zp zn) (nZ 0)) = matter (st_I (st_z (cs d) zp zn) (nZ 0))).
  { intros zp zn. destruct (cs c), (cs d). unfold matter in *. cbn in *. injection M. intros. subst. reflexivity. }
  split; [split; [now rewrite ?P|]; split; [cbn [cs set_valid set_st set_str]; apply M2|]; repeat split; auto; try discriminate; cbn; congruence|].
  split; [|reflexivity]. split; [exact P|]. split; [exact Q|]. cbn [cs set_valid set_st set_str]. rewrite <- M. reflexivity.
Qed.
Lemma experiments_alone k z0 z10 stop rates : forall pts c d d' ess, c_block c = true -> kin c d ->
  experiments F tm k z0 z10 stop rates pts d = (d', Ok ess) ->
  Forall2 (fun pt es => exists c1 c2 fs, spm_setC (fst pt) (snd pt) c = (c1, Ok tt) /\
    drive F tm k z0 z10 stop (q_cap (cp c)) rates c1 = (c2, Ok fs) /\ Forall2 alike_entry es fs) pts ess.
Proof.
  induction pts as [|[fp fn] pts IH]; intros c d d' ess B K H; cbn [experiments] in H.
  - injection H as <- <-. constructor.
  - unfold mbind at 1 in H. destruct (spm_setC fp fn d) as [d1 [[]| | |]] eqn:E1; try discriminate.
    destruct (setC_kin _ _ _ _ _ B K E1) as (c1 & F1 & T1 & K1 & P1).
    unfold mbind at 1 in H. destruct (drive F tm k z0 z10 stop (q_cap (cp d1)) rates d1) as [d2 [es| | |]] eqn:E2; try discriminate.
    unfold mbind at 1 in H. destruct (experiments F tm k z0 z10 stop rates pts d2) as [d3 [l| | |]] eqn:E3; try discriminate. injection H as <- <-.
    destruct (drive_twins _ _ _ _ _ _ _ _ _ _ T1 E2) as (c2 & fs & F2 & _ & AL).
    assert (B1 : c_block d1 = true) by apply T1.
    constructor.
    + exists c1, c2, fs. split; [exact F1|]. split; [|exact AL]. destruct K1 as (Kp & _). rewrite Kp in F2. exact F2.
    + apply (IH c d2 d3); [exact B| |exact E3]. exact (kin_trans _ _ _ K1 (kin_drive _ _ _ _ _ _ _ _ _ B1 E2)).
Qed.
End Twins.
