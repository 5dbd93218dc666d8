(** * Lemmas about the single-particle cell: the time step *)
From Coq Require Import Lra.
From Verif Require Import Base RFacts StatusModel UtilModel CellModel CellSpec SpmModel SpmSpec SpmProofs.

(** ** One pass of the loop, any carrier *)
Section Any.
Context {A : Type} {NA : Num A}.
Variable F : fns A.
Implicit Types (c : spm A) (s : spm_st A).
Local Open Scope num_scope.

(** What a read of the voltage may change. *)
Definition same_but_voltage c c' : Prop :=
  cp c' = cp c /\ (exists v, cs c' = st_V (cs c) v) /\ c_str c' = c_str c /\ c_block c' = c_block c /\
  c_parent c' = c_parent c /\ c_Q c' = c_Q c /\ c_Qtot c' = c_Qtot c /\ c_tth c' = c_tth c /\ c_Tenv c' = c_Tenv c.
Lemma st_V_id s : st_V s (s_V s) = s.
Proof. now destruct s. Qed.
Lemma V_same c c' r : spm_V F c = (c', r) -> same_but_voltage c c'.
Proof.
  intros E. unfold same_but_voltage.
  destruct (spm_V_cases _ _ _ _ E) as [(-> & _)|[(-> & _)|(v & -> & _)]].
  1-2: repeat (split; [reflexivity || (eexists; symmetry; apply st_V_id)|]); reflexivity.
  repeat (split; [reflexivity || (eexists; reflexivity)|]); reflexivity.
Qed.

(** The states after the diffusion update of one pass. *)
Definition pass_zp dt c : list A :=
  z_step dt (s_zp (cs c)) (dz_diff (fst (calcDiffConstant F c)) (snd (fst (calcMolarFlux c)))
                                   (m_Ap (q_M (cp c))) (m_Bp (q_M (cp c))) (s_zp (cs c))).
Definition pass_zn dt c : list A :=
  z_step dt (s_zn (cs c)) (dz_diff (snd (calcDiffConstant F c)) (snd (calcMolarFlux c))
                                   (m_An (q_M (cp c))) (m_Bn (q_M (cp c))) (s_zn (cs c))).

Record passed dt c c' : Prop := {
  ps_cp : cp c' = cp c;
  ps_block : c_block c' = c_block c;
  ps_parent : c_parent c' = c_parent c;
  ps_I : s_I (cs c') = s_I (cs c);
  ps_T : s_T (cs c') = s_T (cs c);
  ps_age : ageing c' = ageing c;
  ps_zp : s_zp (cs c') = pass_zp dt c;
  ps_zn : s_zn (cs c') = pass_zn dt c;
  ps_SOC : s_SOC (cs c') = s_SOC (cs c) + dt * (nZ 0 + (- s_I (cs c)) / (q_cap (cp c) * nZ 3600));
  ps_time : s_time (cs c') = s_time (cs c) + dt;
  ps_Ah : s_Ah (cs c') = s_Ah (cs c) + nabs (s_I (cs c) * (dt / nZ 3600));
  ps_Wh : s_Wh (cs c') = s_Wh (cs c) \/ exists v, s_Wh (cs c') = s_Wh (cs c) + nabs (s_I (cs c) * (dt / nZ 3600) * v);
  ps_tth : c_tth c' = c_tth c /\ c_Q c' = c_Q c /\ c_Qtot c' = c_Qtot c /\ c_Tenv c' = c_Tenv c }.

Lemma step1_passed dt c : passed dt c (fst (spm_step1 F dt c)).
Proof.
  unfold spm_step1.
  destruct (calcDiffConstant F c) as [a b] eqn:E1. destruct (calcMolarFlux c) as [[x y] z] eqn:E2.
  match goal with |- context [spm_V F ?d] => set (c1 := d) end.
  destruct (spm_V F c1) as [c2 r] eqn:E.
  destruct (V_same _ _ _ E) as (H1 & (v & H2) & H3 & H4 & H5 & H6 & H7 & H8 & H9).
  assert (P : forall k, (exists w, cs k = st_cum (cs c2) (s_time (cs c2)) (s_Ah (cs c2)) w /\
     (w = s_Wh (cs c2) \/ exists v, w = s_Wh (cs c2) + nabs (s_I (cs c) * (dt / nZ 3600) * v))) ->
     cp k = cp c2 -> c_block k = c_block c2 -> c_parent k = c_parent c2 ->
     c_tth k = c_tth c2 /\ c_Q k = c_Q c2 /\ c_Qtot k = c_Qtot c2 /\ c_Tenv k = c_Tenv c2 -> passed dt c k).
  { intros k (w & Hk & Hw) K1 K2 K3 K4.
    assert (Q : cs k = st_cum (st_V (cs c1) v) (s_time (cs c1)) (s_Ah (cs c1)) w) by (rewrite Hk, H2; reflexivity).
    split.
    - now rewrite K1, H1.
    - now rewrite K2, H4.
    - now rewrite K3, H5.
    - now rewrite Q.
    - now rewrite Q.
    - unfold ageing. now rewrite Q.
    - unfold pass_zp. rewrite E1, E2. now rewrite Q.
    - unfold pass_zn. rewrite E1, E2. now rewrite Q.
    - now rewrite Q.
    - now rewrite Q.
    - now rewrite Q.
    - rewrite Q. cbn [s_Wh st_cum]. rewrite H2 in Hw. exact Hw.
    - rewrite H6, H7, H8, H9 in K4. exact K4. }
  assert (Q0 : passed dt c c2).
  { apply P; auto. exists (s_Wh (cs c2)). split; [now destruct (cs c2)|now left]. }
  destruct r as [v0|n| |]; try exact Q0.
  apply P; auto. exists (s_Wh (cs c2) + nabs (s_I (cs c) * (dt / nZ 3600) * v0)). split; [reflexivity|right; eauto].
Qed.

(** ** After the loop *)
Lemma st_T_id s : st_T s (s_T s) = s.
Proof. now destruct s. Qed.

Record rest_ok (tm : Z) c c' : Prop := {
  ro_cp : cp c' = cp c; ro_block : c_block c' = c_block c; ro_parent : c_parent c' = c_parent c;
  ro_valid : c_valid c' = c_valid c }.

(** The cell on which the degradation derivatives are taken, and the result. *)
Lemma heat_age_spec tm dt n c c' r :
  spm_heat_age F tm dt n c = (c', r) ->
  rest_ok tm c c' /\
  exists t, ((tm = 0%Z \/ c_parent c = true) -> t = s_T (cs c)) /\
  ((cs c' = st_T (cs c) t /\ r <> Ok tt) \/
   (exists d c1, cp c1 = cp c /\ cs c1 = st_T (cs c) t /\ c_valid c1 = c_valid c /\
                 (q_sdai (cp c) = false -> q_slares (cp c) = false ->
                    c_str c1 = c_str c \/ c_str c1 = str_flags (c_str c) false false) /\
                 t_dt (c_str c1) = t_dt (c_str c) /\
                 dState_degradation F c1 = Ok d /\ cs c' = age (st_T (cs c) t) d dt (nZ n) /\ r = Ok tt)).
Proof.
  unfold spm_heat_age, mbind.
  destruct (dState_thermal F c) as [dq|e| |].
  2-4: intros H; apply pair_equal_spec in H; destruct H as [<- <-]; split; [now split|]; exists (s_T (cs c));
       split; [easy|left; rewrite st_T_id; easy].
  set (c0 := set_therm c _ _ _).
  (* temperature *)
  assert (T : forall c1 r1,
    (if c_parent c0 then (c0, Ok tt)
     else match spm_thermal tm [(c_Tenv c0, q_Qch (cp c0), q_Acell (cp c0))] (c_tth c0) c0 with
          | (c', Ok t) => (spm_setT t c', Ok tt) | (c', Throw n) => (c', Throw n) | (c', UB) => (c', UB)
          | (c', Fuel) => (c', Fuel) end) = (c1, r1) ->
    rest_ok tm c c1 /\ t_dt (c_str c1) = t_dt (c_str c) /\
    (c_str c1 = c_str c \/ c_str c1 = str_flags (c_str c) false false) /\
    exists t, ((tm = 0%Z \/ c_parent c = true) -> t = s_T (cs c)) /\ cs c1 = st_T (cs c) t).
  { intros c1 r1 H. change (c_parent c0) with (c_parent c) in H. destruct (c_parent c) eqn:EP.
    - injection H as <- <-. split; [now split|]. split; [reflexivity|]. split; [now left|]. exists (s_T (cs c)).
      split; [easy|]. now rewrite st_T_id.
    - destruct (spm_thermal tm _ (c_tth c0) c0) as [c3 r3] eqn:ET.
      assert (E3 : c3 = set_therm c0 (nZ 0) (c_Qtot c0 + c_Q c0) (nZ 0)).
      { unfold spm_thermal in ET. injection ET as <- _. reflexivity. }
      assert (K : tm = 0%Z -> r3 = Ok (s_T (cs c))).
      { intros ->. unfold spm_thermal in ET. injection ET as _ <-. reflexivity. }
      clear ET.
      destruct r3 as [t|e| |]; injection H as <- <-; subst c3.
      + split; [now split|]. split; [reflexivity|]. split; [right; reflexivity|]. exists t.
        split; [|reflexivity]. intros [Z|Z]; [|congruence]. apply K in Z. now injection Z.
      + split; [now split|]. split; [reflexivity|]. split; [now left|]. exists (s_T (cs c)). split; [easy|]. now rewrite st_T_id.
      + split; [now split|]. split; [reflexivity|]. split; [now left|]. exists (s_T (cs c)). split; [easy|]. now rewrite st_T_id.
      + split; [now split|]. split; [reflexivity|]. split; [now left|]. exists (s_T (cs c)). split; [easy|]. now rewrite st_T_id. }
  match goal with |- context [if c_parent c0 then ?x else ?y] => destruct (if c_parent c0 then x else y) as [c1 r1] eqn:E1 end.
  destruct (T _ _ eq_refl) as (R1 & D1 & S1 & t & Ht & C1). clear T E1.
  destruct r1 as [[]|e| |].
  2-4: intros H; apply pair_equal_spec in H; destruct H as [<- <-]; split; [exact R1|]; exists t; split; [exact Ht|left; easy].
  (* Dai stress *)
  set (c2 := if q_sdai (cp c1) then updateDaiStress F c1 else c1).
  assert (R2 : cp c2 = cp c1 /\ cs c2 = cs c1 /\ c_valid c2 = c_valid c1 /\ c_block c2 = c_block c1 /\
               c_parent c2 = c_parent c1 /\ t_dt (c_str c2) = t_dt (c_str c1) /\ (q_sdai (cp c1) = false -> c_str c2 = c_str c1)).
  { subst c2. destruct (q_sdai (cp c1)); [|repeat split]. unfold updateDaiStress. destruct (getC F c1). repeat split. easy. }
  clearbody c2. destruct R2 as (P2 & C2 & V2 & B2 & Q2 & D2 & S2).
  (* Laresgoiti stress *)
  assert (L : forall c3 r3, (if q_slares (cp c2) then updateLaresgoitiStress F c2 else (c2, Ok tt)) = (c3, r3) ->
               cp c3 = cp c2 /\ cs c3 = cs c2 /\ c_valid c3 = c_valid c2 /\ c_block c3 = c_block c2 /\
               c_parent c3 = c_parent c2 /\ t_dt (c_str c3) = t_dt (c_str c2) /\
               (q_slares (cp c2) = false -> c_str c3 = c_str c2)).
  { intros c3 r3. destruct (q_slares (cp c2)); intros H.
    - unfold updateLaresgoitiStress in H. destruct (laresgoiti F c2); apply pair_equal_spec in H; destruct H as [<- _]; repeat split; easy.
    - apply pair_equal_spec in H; destruct H as [<- _]; repeat split. }
  destruct (if q_slares (cp c2) then updateLaresgoitiStress F c2 else (c2, Ok tt)) as [c3 r3] eqn:E3.
  destruct (L _ _ eq_refl) as (P3 & C3 & V3 & B3 & Q3 & D3 & S3). clear L E3.
  destruct R1 as [R1a R1b R1c R1d].
  assert (R3 : rest_ok tm c c3).
  { split; congruence. }
  destruct r3 as [[]|e| |].
  2-4: intros H; apply pair_equal_spec in H; destruct H as [<- <-]; split; [exact R3|]; exists t; split; [exact Ht|left; split; [congruence|easy]].
  destruct (dState_degradation F c3) as [d|e| |] eqn:ED.
  2-4: intros H; apply pair_equal_spec in H; destruct H as [<- <-]; split; [exact R3|]; exists t; split; [exact Ht|left; split; [congruence|easy]].
  intros H; apply pair_equal_spec in H; destruct H as [<- <-]. split.
  { destruct R3; split; assumption. }
  exists t. split; [exact Ht|]. right. exists d, c3. destruct R3 as [Ra Rb Rc Rd].
  split; [exact Ra|]. split; [congruence|]. split; [exact Rd|]. split.
  { intros K1 K2. assert (q_sdai (cp c1) = false) by congruence. assert (q_slares (cp c2) = false) by congruence.
    rewrite S3, S2 by assumption. exact S1. }
  split; [congruence|]. split; [exact ED|]. split; [|reflexivity]. cbn [cs set_st]. congruence.
Qed.

End Any.

(** ** Reals *)
Section Real.
Variable F : fns R.
Implicit Types (c : spm R) (s : spm_st R).
Local Open Scope R_scope.

(** *** No degradation model *)
Lemma sei_all_none c o e ids acc : Forall (fun i => i = 0%Z) ids -> sei_all F c o e ids acc = Ok acc.
Proof.
  intros H. revert acc. induction H as [|i l -> H IH]; intros acc; [reflexivity|].
  cbn [sei_all sei_one rbind]. rewrite IH. f_equal. rewrite R_nZ. cbn [nadd RNum]. lra.
Qed.
Lemma cs_all_none c o e ids a b : Forall (fun i => i = 0%Z) ids -> cs_all F c o e ids a b = Ok (a, b).
Proof. intros H. revert a b. induction H as [|i l -> H IH]; intros a b; [reflexivity|]. cbn [cs_all cs_one rbind]. apply IH. Qed.
Lemma lam_all_none c z e ids r : Forall (fun i => i = 0%Z) ids -> lam_all F c z e ids r = Ok r.
Proof. intros H. revert r. induction H as [|i l -> H IH]; intros r; [reflexivity|]. cbn [lam_all lam_one rbind]. apply IH. Qed.

Lemma up_zero x dt n : nadd x (nmul (nmul (nZ 0) dt) n) = x.
Proof. rewrite R_nZ. cbn [nadd nmul RNum]. ring. Qed.
Lemma age_z_zero dt n z dz : Forall (fun x => x = 0) dz -> age_z dt n z dz = z.
Proof.
  intros H. revert z. induction H as [|x l -> H IH]; intros [|u z]; try reflexivity.
  cbn [age_z]. rewrite IH. f_equal. cbn [nadd nmul RNum]. ring.
Qed.
Lemma map_up_zero dt n z : map (fun x : R => nadd x (nmul (nmul (nZ 0) dt) n)) z = z.
Proof. induction z as [|x z IH]; [reflexivity|]. cbn [map]. now rewrite IH, up_zero. Qed.

Ltac zring := unfold nZ; cbn [nadd nmul ndiv nlit RNum]; unfold Rdiv; ring.
Lemma age_none c d s dt n :
  no_degradation c -> dState_degradation F c = Ok d -> age s d dt n = s.
Proof.
  intros (N1 & N2 & N3 & N4 & N5 & N6). unfold dState_degradation.
  destruct (calcDiffConstant F c) as [dpt dnt]. destruct (calcMolarFlux c) as [[ia jp] jn].
  destruct (calcSurfaceConcentration c jp jn dpt dnt) as [cps cns]. destruct (conc_bad c cps cns); [discriminate|].
  destruct (calcOverPotential F c cps cns ia) as [etap etan].
  destruct (XYdata_interp (q_dOCVn (cp c)) _ true) as [dOCVn|e| |]; try discriminate.
  destruct (XYdata_interp (q_OCVn (cp c)) _ true) as [ocvn|e| |]; try discriminate. cbn [rbind].
  unfold SEI. rewrite sei_all_none by exact N1. cbn [rbind]. rewrite N2.
  unfold CSm. rewrite cs_all_none by exact N3. cbn [rbind]. rewrite N4.
  unfold LAM. rewrite lam_all_none by exact N5. cbn [rbind a_tp a_tn a_ap a_an a_ep a_en].
  unfold LiPlating. rewrite N6. cbn [rbind]. intros H. injection H as <-.
  unfold age. cbn [dd_delta dd_LLI dd_tp dd_tn dd_ep dd_en dd_ap dd_an dd_CS dd_Dn dd_dpl dd_zn].
  assert (Z : (nZ 0 : R) = 0) by apply R_nZ.
  rewrite !up_zero, map_up_zero, age_z_zero.
  2: { apply Forall_forall. intros x Hx. apply in_map_iff in Hx. destruct Hx as (b & <- & _).  zring. }
  assert (U : forall x dx : R, dx = 0 -> nadd x (nmul (nmul dx dt) n) = x).
  { intros x dx ->. cbn [nadd nmul RNum]. ring. }
  rewrite (U (s_delta s)), (U (s_LLI s)), (U (s_en s)), (U (s_ap s)), (U (s_an s)), (U (s_dpl s)).
  - now destruct s.
  - zring.
  - zring.
  - zring.
  - zring.
  - zring.
  - zring.
Qed.

Lemma nodeg_cp c c' : cp c' = cp c -> no_degradation c -> no_degradation c'.
Proof. unfold no_degradation. intros ->. auto. Qed.

(** The voltage store over a time step of a cell with no degradation model, T_MODEL = 0. *)
Lemma after_step_nodeg dt n c : no_degradation c -> coherent F c -> coherent F (fst (spm_timeStep_CC F 0 dt n c)).
Proof.
  intros N H. unfold spm_timeStep_CC. destruct (nltb dt (nZ 0)); [exact H|].
  match goal with |- context [spm_steps F _ _ ?d] => set (c1 := d) end.
  assert (H1 : coherent F c1) by (apply (coherent_ext F c); [reflexivity..|exact H]).
  pose proof (after_steps F (Z.to_nat n) dt c1 H1) as H2.
  destruct (steps_block F (Z.to_nat n) dt c1) as (B2 & P2 & _).
  destruct (spm_steps F (Z.to_nat n) dt c1) as [c2 r]. cbn [fst] in H2, B2, P2. destruct r; try exact H2.
  destruct (c_block c2); [exact H2|].
  destruct (spm_heat_age F 0 dt n c2) as [c' r'] eqn:E.
  destruct (heat_age_spec _ _ _ _ _ _ _ E) as (R & t & Ht & C). rewrite (Ht (or_introl eq_refl)) in C. rewrite st_T_id in C.
  destruct R as [Ra Rb Rc Rd]. cbn [fst].
  assert (cs c' = cs c2) as Ec.
  { destruct C as [[C _]|(d & c4 & K1 & K2 & K3 & K4 & K5 & K6 & K7 & K8)]; [exact C|]. rewrite K7.
    apply (age_none c4); [|exact K6]. apply (nodeg_cp c); [|exact N]. rewrite K1, P2. reflexivity. }
  now apply (coherent_ext F c2).
Qed.

Lemma history_nodeg c l c' : history F 0 tame_nodeg c l c' -> coherent F c -> coherent F c'.
Proof.
  induction 1 as [c|c o l c' T _ IH]; intros H; [exact H|]. apply IH.
  destruct o; try (now apply tame_coherent). now apply after_step_nodeg.
Qed.

(** *** Counters *)
Definition counters s : R * R * R * R := (s_SOC s, s_time s, s_Ah s, s_Wh s).

Lemma cmd_keeps tm o c :
  operating o -> (forall dt n, o <> OpStep dt n) ->
  cp (after F tm o c) = cp c /\ counters (cs (after F tm o c)) = counters (cs c) /\ ageing (after F tm o c) = ageing c.
Proof.
  intros O N. destruct o; cbn [operating] in O; try contradiction; cbn [after].
  - destruct (spm_V F c) as [c' r] eqn:E. destruct (V_same _ _ _ _ E) as (P & (v & Q) & _). cbn [fst].
    unfold counters, ageing. now rewrite P, Q.
  - unfold spm_setCurrent, spm_checkCurrent, spm_checkVoltage. destruct chk; [|now repeat split].
    match goal with |- context [spm_V F ?d] => set (c1 := d) end.
    destruct (spm_V F c1) as [c2 v] eqn:Ev. destruct (V_same _ _ _ _ Ev) as (P & (w & Q) & _).
    assert (K : cp c2 = cp c /\ counters (cs c2) = counters (cs c) /\ ageing c2 = ageing c).
    { unfold counters, ageing. now rewrite P, Q. }
    destruct (check_voltage v (q_lim (cp c1)) (s_I (cs c1))) as [[u st]|k| |]; try exact K.
    change (rmap snd (Ok (u, st))) with (Ok st). cbv iota beta. destruct (isStatusBad st); exact K.
  - unfold spm_setC. destruct (_ || _ || _); [now repeat split|]. destruct (ntrunc _) as [iz|]; [|now repeat split].
    destruct (_ && _); now repeat split.
  - unfold spm_setTenv. destruct (_ || _); now repeat split.
  - now repeat split.
  - exfalso. now apply (N dt n).
  - now repeat split.
  - now repeat split.
  - now repeat split.
Qed.

(** The loop. *)
Lemma steps_counters n dt : forall c c', spm_steps F n dt c = (c', Ok tt) ->
  cp c' = cp c /\ s_I (cs c') = s_I (cs c) /\ s_T (cs c') = s_T (cs c) /\ ageing c' = ageing c /\
  s_SOC (cs c') = s_SOC (cs c) - s_I (cs c) * (INR n * dt) / (q_cap (cp c) * 3600) /\
  s_time (cs c') = s_time (cs c) + INR n * dt /\
  s_Ah (cs c') = s_Ah (cs c) + Rabs (s_I (cs c) * (dt / 3600)) * INR n.
Proof.
  induction n as [|n IH]; intros c c' H.
  - injection H as <-. cbn [INR]. repeat split; unfold Rdiv; ring.
  - rewrite steps_S in H. pose proof (step1_passed F dt c) as P. destruct (spm_step1 F dt c) as [c1 r]. cbn [fst] in P.
    destruct r as [[]|e| |]; try discriminate. destruct (IH _ _ H) as (K1 & K2 & K3 & K4 & K5 & K6 & K7).
    destruct P as [P1 _ _ P4 P5 P6 _ _ P9 P10 P11 _ _].
    rewrite P1, P4, P5, P6 in *. repeat (split; [assumption|]). rewrite K5, K6, K7, P9, P10, P11, !R_nZ, S_INR.
    cbn [nadd nmul ndiv nopp nabs RNum]. unfold Rdiv. repeat split; ring.
Qed.
Lemma steps_mono n dt : 0 <= dt -> forall c,
  let c' := fst (spm_steps F n dt c) in
  cp c' = cp c /\ s_I (cs c') = s_I (cs c) /\ ageing c' = ageing c /\ s_time (cs c) <= s_time (cs c') /\ s_Ah (cs c) <= s_Ah (cs c') /\
  s_Wh (cs c) <= s_Wh (cs c').
Proof.
  intros D. induction n as [|n IH]; intros c; cbn zeta.
  - cbn [spm_steps fst]. repeat split; lra.
  - rewrite steps_S. pose proof (step1_passed F dt c) as P. destruct (spm_step1 F dt c) as [c1 r]. cbn [fst] in P.
    assert (K : cp c1 = cp c /\ s_I (cs c1) = s_I (cs c) /\ ageing c1 = ageing c /\ s_time (cs c) <= s_time (cs c1) /\ s_Ah (cs c) <= s_Ah (cs c1) /\ s_Wh (cs c) <= s_Wh (cs c1)).
    { destruct P as [P1 _ _ P4 P5 P6 _ _ P9 P10 P11 P12 _]. rewrite P10, P11. cbn [nadd nabs RNum].
      pose proof (Rabs_pos (nmul (s_I (cs c)) (ndiv dt (nZ 3600)))).
      repeat split; auto; try lra. destruct P12 as [->|(v & ->)]; [lra|]. cbn [nadd nabs RNum].
      match goal with |- context [Rabs ?x] => pose proof (Rabs_pos x) end. lra. }
    destruct r as [[]|e| |]; try exact K. destruct (IH c1) as (I1 & I2 & I3 & I4 & I5 & I6).
    destruct K as (K1 & K2 & K3 & K4 & K5 & K6). repeat split; try congruence; lra.
Qed.

Lemma age_counters s d dt n : counters (age s d dt n) = counters s /\ s_I (age s d dt n) = s_I s /\ s_T (age s d dt n) = s_T s.
Proof. unfold counters, age. cbn [s_SOC s_time s_Ah s_Wh s_I s_T]. now rewrite !up_zero. Qed.

Lemma heat_counters tm dt n c c' r :
  spm_heat_age F tm dt n c = (c', r) -> cp c' = cp c /\ counters (cs c') = counters (cs c) /\ s_I (cs c') = s_I (cs c).
Proof.
  intros E. destruct (heat_age_spec _ _ _ _ _ _ _ E) as ([Ra _ _ _] & t & _ & C). split; [exact Ra|].
  destruct C as [[-> _]|(d & c1 & _ & _ & _ & _ & _ & _ & -> & _)].
  - split; reflexivity.
  - destruct (age_counters (st_T (cs c) t) d dt (nZ n)) as (-> & -> & _). split; reflexivity.
Qed.

Lemma timeStep_inv tm dt n c c' :
  spm_timeStep_CC F tm dt n c = (c', Ok tt) ->
  0 <= dt /\ exists c2, spm_steps F (Z.to_nat n) dt
      (set_str c (let t := c_str c in mkStr (t_dai_up t) (t_lares_up t) (t_dai_p t) (t_dai_n t) (t_lares_n t)
                               (t_dai_p t) (t_dai_n t) (t_lares_n t) (nmul (nZ n) dt))) = (c2, Ok tt) /\
    ((c_block c2 = true /\ c' = c2) \/ (c_block c2 = false /\ spm_heat_age F tm dt n c2 = (c', Ok tt))).
Proof.
  unfold spm_timeStep_CC. destruct (nltb dt (nZ 0)) eqn:L; [discriminate|]. rewrite R_nZ in L. apply Rltb_false in L.
  match goal with |- context [spm_steps F _ _ ?d] => set (c1 := d) end.
  destruct (spm_steps F (Z.to_nat n) dt c1) as [c2 r] eqn:E. intros H. split; [exact L|].
  destruct r as [[]|e| |]; try discriminate. exists c2. split; [reflexivity|].
  destruct (c_block c2) eqn:B; [left|right]; split; auto. now injection H.
Qed.

Lemma timeStep_counters tm dt (n : nat) c c' :
  spm_timeStep_CC F tm dt (Z.of_nat n) c = (c', Ok tt) ->
  0 <= dt /\ cp c' = cp c /\ s_I (cs c') = s_I (cs c) /\
  s_SOC (cs c') = s_SOC (cs c) - s_I (cs c) * (INR n * dt) / (q_cap (cp c) * 3600) /\
  s_time (cs c') = s_time (cs c) + INR n * dt /\
  s_Ah (cs c') = s_Ah (cs c) + Rabs (s_I (cs c)) * (INR n * dt) / 3600.
Proof.
  intros H. destruct (timeStep_inv _ _ _ _ _ H) as (D & c2 & E & C). rewrite Nat2Z.id in E. split; [exact D|].
  destruct (steps_counters _ _ _ _ E) as (K1 & K2 & K3 & K4 & K5 & K6 & K7).
  assert (R : cp c' = cp c2 /\ counters (cs c') = counters (cs c2) /\ s_I (cs c') = s_I (cs c2)).
  { destruct C as [[_ ->]|[_ C]]; [auto|]. exact (heat_counters _ _ _ _ _ _ C). }
  destruct R as (R1 & R2 & R3). unfold counters in R2. injection R2 as -> -> -> _. rewrite R1, R3, K1, K2, K5, K6, K7.
  cbn [cs cp set_str]. repeat split. rewrite Rabs_mult, (Rabs_right (dt / 3600)) by lra. unfold Rdiv. ring.
Qed.

Lemma hist_counters tm c log c' : spm_hist F tm c log c' ->
  cp c' = cp c /\
  s_SOC (cs c') = s_SOC (cs c) - net_charge log / (q_cap (cp c) * 3600) /\
  s_time (cs c') = s_time (cs c) + total_time log /\
  s_Ah (cs c') = s_Ah (cs c) + abs_charge log / 3600.
Proof.
  induction 1 as [c|c o log c' O N H IH|c dt n c1 log c' H H' IH].
  - unfold net_charge, total_time, abs_charge. cbn [map Rsum]. repeat split; unfold Rdiv; ring.
  - destruct (cmd_keeps tm o c O N) as (K1 & K2 & _). unfold counters in K2. injection K2 as K2 K3 K4 K5.
    now rewrite K1, K2, K3, K4 in IH.
  - destruct (timeStep_counters _ _ _ _ _ H) as (D & K1 & K2 & K3 & K4 & K5).
    destruct IH as (I1 & I2 & I3 & I4). rewrite K1 in *. split; [exact I1|]. rewrite I2, I3, I4, K3, K4, K5.
    unfold net_charge, total_time, abs_charge. cbn [map Rsum]. unfold Rdiv. repeat split; ring.
Qed.

(** Whatever the outcome of the calls, the counters never decrease. *)
Lemma op_mono tm o c : operating o ->
  s_time (cs c) <= s_time (cs (after F tm o c)) /\ s_Ah (cs c) <= s_Ah (cs (after F tm o c)) /\
  s_Wh (cs c) <= s_Wh (cs (after F tm o c)).
Proof.
  intros O. assert (D : (exists dt n, o = OpStep dt n) \/ (forall dt n, o <> OpStep dt n)).
  { destruct o; try (right; discriminate). left; eauto. }
  destruct D as [(dt & n & ->)|N].
  - cbn [after]. unfold spm_timeStep_CC. destruct (nltb dt (nZ 0)) eqn:L; [cbn [fst]; lra|].
    rewrite R_nZ in L. apply Rltb_false in L.
    match goal with |- context [spm_steps F _ _ ?d] => set (c1 := d) end.
    pose proof (steps_mono (Z.to_nat n) dt L c1) as P. cbn zeta in P.
    destruct (spm_steps F (Z.to_nat n) dt c1) as [c2 r]. cbn [fst] in P. destruct P as (_ & _ & _ & P).
    destruct r as [[]|e| |]; try exact P. destruct (c_block c2); [exact P|].
    destruct (spm_heat_age F tm dt n c2) as [c' r'] eqn:E. destruct (heat_counters _ _ _ _ _ _ E) as (_ & K & _).
    cbn [fst]. unfold counters in K. injection K as K1 K2 K3 K4. rewrite K2, K3, K4. exact P.
  - destruct (cmd_keeps tm o c O N) as (_ & K & _). unfold counters in K. injection K as K1 K2 K3 K4.
    rewrite K2, K3, K4. lra.
Qed.
Lemma hist_mono tm c l c' : history F tm (fun _ => operating) c l c' ->
  s_time (cs c) <= s_time (cs c') /\ s_Ah (cs c) <= s_Ah (cs c') /\ s_Wh (cs c) <= s_Wh (cs c').
Proof.
  induction 1 as [c|c o l c' O _ IH]; [lra|]. pose proof (op_mono tm o c O). lra.
Qed.
End Real.
