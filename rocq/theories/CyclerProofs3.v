(** * Proofs about the cycler: CV, CCCV, testCapacity, data storage *)
From Coq Require Import Reals Lra.
From Verif Require Import Base RFacts StatusModel CellModel CoolModel ModuleModel CyclerModel CyclerSpec CyclerProofs CyclerProofs2.
Local Open Scope R_scope.

Lemma cv_charge_app a b : closed a -> cv_charge (a ++ b) = cv_charge a + cv_charge b.
Proof.
  induction a as [|e a IH]; intros H; cbn [app cv_charge]; [lra|].
  destruct a as [|e2 a'].
  - destruct e; cbn [cv_charge app]; try lra. discriminate H.
  - assert (IH' := IH (closed_cons _ _ H ltac:(discriminate))). destruct e; rewrite ?IH'; try reflexivity.
    cbn [app]. lra.
Qed.
Lemma cv_charge_passive l : Forall passive l -> cv_charge l = 0.
Proof. induction 1 as [|e l He _ IH]; [reflexivity|]. destruct e; cbn [cv_charge]; auto; destruct He. Qed.
Lemma cv_energy_passive l : Forall passive l -> cv_energy l = 0.
Proof. induction 1 as [|e l He _ IH]; [reflexivity|]. destruct e; cbn [cv_energy]; auto; destruct He. Qed.

(** The log does not end in a step or in a step and its current reading. *)
Definition closed2 (l : RL) : Prop := closed l /\ closed (removelast l).
Lemma closed2_cons e l : closed2 (e :: l) -> (2 <= length l)%nat -> closed2 l.
Proof.
  intros [H1 H2] Hl. split; [apply (closed_cons e); [assumption|]; destruct l; [cbn in Hl; lia|discriminate]|].
  destruct l as [|a l]; [cbn in Hl; lia|]. apply (closed_cons e); [exact H2|]. destruct l; [cbn in Hl; lia|discriminate].
Qed.
Lemma cv_energy_app a b : closed2 a -> cv_energy (a ++ b) = cv_energy a + cv_energy b.
Proof.
  induction a as [|e a IH]; intros H; cbn [app cv_energy]; [lra|].
  destruct a as [|e2 [|e3 a']].
  - destruct H as [H _]. destruct e; cbn [cv_energy app]; try lra. discriminate H.
  - destruct H as [H1 H2]. cbn in H1, H2. cbn [app]. destruct e; try discriminate H2; destruct e2; try discriminate H1; cbn [cv_energy]; lra.
  - assert (IH' := IH (closed2_cons _ _ H ltac:(cbn; lia))). destruct e; rewrite ?IH'; try reflexivity.
    cbn [app]. lra.
Qed.
Lemma closed2_app l l' : closed2 l -> Forall passive l' -> closed2 (l ++ l').
Proof.
  intros [H1 H2]. induction l' as [|e l' _] using rev_ind; intros HF; [rewrite app_nil_r; now split|].
  apply Forall_app in HF. destruct HF as [HF He]. rewrite app_assoc. split.
  - apply closed_snoc. inversion He as [|? ? Hp _]; subst. now destruct e.
  - rewrite removelast_last. now apply closed_app.
Qed.

Lemma last_V_app (l l' : RL) : (forall v, ~ In (EReadV v) l') -> last_V (l ++ l') = last_V l.
Proof.
  intros H. unfold last_V. rewrite fold_left_app. generalize (fold_left (fun a e => match e with EReadV v => Some v | _ => a end) l None).
  induction l' as [|e l' IH]; intros a; [reflexivity|]. cbn [fold_left]. rewrite IH by (intros v Hv; apply (H v); now right).
  destruct e; try reflexivity. exfalso. eapply H. now left.
Qed.
Lemma last_I_app (l l' : RL) : (forall i, ~ In (EReadI i) l') -> last_I (l ++ l') = last_I l.
Proof.
  intros H. unfold last_I. rewrite fold_left_app. generalize (fold_left (fun a e => match e with EReadI v => Some v | _ => a end) l None).
  induction l' as [|e l' IH]; intros a; [reflexivity|]. cbn [fold_left]. rewrite IH by (intros v Hv; apply (H v); now right).
  destruct e; try reflexivity. exfalso. eapply H. now left.
Qed.
Lemma last_V_snoc (l : RL) v : last_V (l ++ [EReadV v]) = Some v.
Proof. unfold last_V. now rewrite fold_left_app. Qed.
Lemma last_I_snoc (l : RL) v : last_I (l ++ [EReadI v]) = Some v.
Proof. unfold last_I. now rewrite fold_left_app. Qed.
Lemma quiet_noV (l : RL) v : quiet l -> ~ In (EReadV v) l.
Proof. intros H Hi. eapply Forall_forall in Hi; [|exact H]. cbn in Hi. destruct Hi; discriminate. Qed.
Lemma quiet_noI (l : RL) v : quiet l -> ~ In (EReadI v) l.
Proof. intros H Hi. eapply Forall_forall in Hi; [|exact H]. cbn in Hi. destruct Hi; discriminate. Qed.

Lemma at_voltage_set v vset : at_voltage v vset = true -> at_set v vset.
Proof. unfold at_voltage, at_set. rewrite orb_true_iff, !Rltb_true. cbn [nabs nsub ndiv nlit RNum]. auto. Qed.

Section CV.
Context {S : Type} (o : unit_if R S) (nmaxd : nat).

Definition cvbk (l : RL) (t0 t : th R) : Prop := th_time t = th_time t0 /\ cvbooks l t0 t.
Lemma cvbk_passive l l' t0 t : cvbk l t0 t -> closed2 l -> Forall passive l' -> cvbk (l ++ l') t0 t.
Proof.
  intros [H1 [H2 H3]] Hc Hp. unfold cvbk, cvbooks. rewrite cv_charge_app, cv_energy_app, (cv_charge_passive l'), (cv_energy_passive l'), !Rplus_0_r; auto; apply Hc.
Qed.

Definition CVend (Vset Ilim : R) (l' : RL) (st : Status) : Prop :=
  match st with
  | ReachedCurrentLimit => exists i v, last_I l' = Some i /\ last_V l' = Some v /\ Rabs i < Ilim /\ at_set v Vset
  | ReachedSmallCurrent => exists i, last_I l' = Some i /\ (Rabs i < Ilim / 10 \/ Rabs i < 1 / 1000000)
  | VMINsafety_violation => exists s s' lim v, q_lim o s = (s', Ok lim) /\ last_V l' = Some v /\ v < l_VMIN lim * (99 / 100)
  | VMAXsafety_violation => exists s s' lim v, q_lim o s = (s', Ok lim) /\ last_V l' = Some v /\ l_VMAX lim * (101 / 100) < v
  | timeStep_CC_failed => failed_last l'
  | _ => False
  end.

Definition cvpost (Vset Ilim tlim dt : R) (t0 : th R) (l' : RL) (t' : th R) (r : res (Status + R * bool * bool)) : Prop :=
  elapsed l' <= tlim /\ steps_within dt 1 l' /\ steps_at Vset l' /\
  match r with
  | Ok (inl st) => cvbk l' t0 t' /\ CVend Vset Ilim l' st /\ st <> ReachedCurrentLimit /\ st <> ReachedSmallCurrent
  | Ok (inr (x, it, vt)) =>
      cvbk l' t0 t' /\ elapsed l' = x /\ closed2 l' /\
      (if it then CVend Vset Ilim l' (if vt then ReachedCurrentLimit else ReachedSmallCurrent) else x = tlim)
  | _ => failed_last l'
  end.

Lemma cv_loop_spec (Vset Ilim tlim dt : R) ndt nt t0 : 0 < dt -> IZR nt - 1 < tlim / dt <= IZR nt ->
  forall todo i ttot l t,
  (0 <= i)%Z -> (i + Z.of_nat todo = nt)%Z -> (if (i =? nt)%Z then ttot = tlim else ttot = dt * IZR i) -> elapsed l = ttot ->
  steps_within dt 1 l -> steps_at Vset l -> closed2 l -> cvbk l t0 t ->
  wp (cv_loop (logged o) nmaxd todo i nt Vset Ilim tlim dt ndt ttot) (cvpost Vset Ilim tlim dt t0) l t.
Proof.
  intros Hdt Hnt. assert (Hq : tlim = tlim / dt * dt) by (field; lra). set (q := tlim / dt) in *.
  induction todo as [|td IH]; intros i ttot l t Hi Htd Htt Hel Hsw Hsa Hc Hb.
  - cbn [cv_loop]. assert (i = nt) by lia. subst i. rewrite Z.eqb_refl in Htt. apply wp_ret.
    split; [lra|]. split; [assumption|]. split; [assumption|]. split; [assumption|]. split; [assumption|]. split; assumption.
  - cbn [cv_loop]. destruct (Z.eqb_spec i nt) as [->|Hne]; [lia|].
    assert (Hint : IZR i <= IZR nt - 1) by (rewrite <- minus_IZR; apply IZR_le; lia).
    assert (Hi0 : 0 <= IZR i) by (apply IZR_le; lia).
    assert (Hlt : ttot < tlim) by nra.
    assert (HP : forall l', Forall passive l' -> elapsed (l ++ l') = ttot /\ steps_within dt 1 (l ++ l') /\ steps_at Vset (l ++ l') /\ closed2 (l ++ l') /\ cvbk (l ++ l') t0 t).
    { intros l' Hp. split; [rewrite elapsed_app, (elapsed_passive l') by assumption; lra|].
      split; [apply steps_within_app; [assumption|now apply steps_within_passive]|].
      split; [apply before_app; [assumption|now apply passive_nostep]|].
      split; [now apply closed2_app|now apply cvbk_passive]. }
    apply wp_bind. cbn [logged q_setVoltage]. apply wp_call.
    2: { intros e He. destruct (HP [EErr]) as [H1 [H2 [H3 [H4 H5]]]]; [repeat constructor|].
         assert (HQ : elapsed (l ++ [EErr]) <= tlim /\ steps_within dt 1 (l ++ [EErr]) /\ steps_at Vset (l ++ [EErr]) /\ failed_last (l ++ [EErr])).
         { split; [lra|]. split; [assumption|]. split; [assumption|]. apply failed_last_err. }
         destruct e; [destruct He| | |]; exact HQ. }
    intros s0 s1 stv _.
    destruct (HP [EVolt Vset stv]) as [H1 [H2 [H3 [H4 H5]]]]; [repeat constructor|].
    assert (Hcm : exists l' st, l ++ [EVolt Vset stv] = l' ++ [EVolt Vset st]) by eauto.
    set (l1 := l ++ [EVolt Vset stv]) in *. clearbody l1.
    set (d := if (i + 1 =? nt)%Z then _ else dt).
    assert (Hd : 0 < d <= dt /\ ttot + d <= tlim /\ (if (i + 1 =? nt)%Z then ttot + d = tlim else ttot + d = dt * IZR (i + 1))).
    { unfold d. rewrite plus_IZR. destruct (Z.eqb_spec (i + 1) nt) as [E|E].
      - rewrite R_nZ. cbn [nsub nmul RNum]. assert (Ei : IZR (nt - 1) = IZR i) by (f_equal; lia). rewrite Ei.
        assert (En : IZR nt = IZR i + 1) by (rewrite <- plus_IZR; f_equal; lia). rewrite En in Hnt.
        split; [|split]; nra.
      - assert (IZR i + 1 <= IZR nt - 1) by (rewrite <- minus_IZR, <- plus_IZR; apply IZR_le; lia).
        split; [lra|]. split; [nra|lra]. }
    clearbody d. destruct Hd as [Hd [Hd2 Hd3]].
    apply wp_bind, wp_try, wp_bind. cbn [logged q_step]. apply wp_call.
    2: { intros e He. 
         assert (HQ : elapsed (l1 ++ [ETried d 1]) <= tlim /\ steps_within dt 1 (l1 ++ [ETried d 1]) /\ steps_at Vset (l1 ++ [ETried d 1]) /\ cvbk (l1 ++ [ETried d 1]) t0 t /\ failed_last (l1 ++ [ETried d 1])).
         { rewrite elapsed_app. cbn [elapsed]. split; [lra|].
           split; [apply steps_within_app; [assumption|apply steps_within_tried; [lra|lia]]|].
           split; [apply before_snoc; [assumption|reflexivity]|].
           split; [|apply failed_last_tried].
           destruct H5 as [B1 [B2 B3]]. unfold cvbk, cvbooks. rewrite cv_charge_app, cv_energy_app by (try assumption; apply H4). cbn [cv_charge cv_energy].
           rewrite !Rplus_0_r. auto. }
         destruct HQ as [Q1 [Q2 [Q3 [Q4 Q5]]]].
         destruct e; [destruct He| | |]; cbn [cast].
         - apply wp_ret. cbn [negb]. apply wp_ret. split; [assumption|]. split; [assumption|]. split; [assumption|]. split; [assumption|]. split; [exact Q5|]. split; discriminate.
         - split; [assumption|]. split; [assumption|]. split; assumption.
         - split; [assumption|]. split; [assumption|]. split; assumption. }
    intros s2 s3 u _. apply wp_ret. cbn [negb].
    assert (HP2 : forall l', Forall passive l' -> elapsed (l1 ++ [EStep d 1] ++ l') = ttot + d /\ steps_within dt 1 (l1 ++ [EStep d 1] ++ l') /\ steps_at Vset (l1 ++ [EStep d 1] ++ l')).
    { intros l' Hp. split; [rewrite !elapsed_app, (elapsed_passive l') by assumption; cbn [elapsed]; lra|].
      split; [apply steps_within_app; [assumption|apply steps_within_app; [apply steps_within_one; [lra|lia]|now apply steps_within_passive]]|].
      rewrite app_assoc. apply before_app; [|now apply passive_nostep]. apply before_step; assumption. }
    assert (HE : forall l' B (e : res B), Forall passive l' -> notok e -> forall t', cvpost Vset Ilim tlim dt t0 (l1 ++ [EStep d 1] ++ l' ++ [EErr]) t' (cast e)).
    { intros l' B e Hp He t'. assert (Hp' : Forall passive (l' ++ [EErr])) by (apply Forall_app; split; [assumption|repeat constructor]).
      destruct (HP2 _ Hp') as [Q1 [Q2 Q3]]. split; [lra|]. split; [assumption|]. split; [assumption|].
      replace (l1 ++ [EStep d 1] ++ l' ++ [EErr]) with ((l1 ++ [EStep d 1] ++ l') ++ [EErr]) by (rewrite <- !app_assoc; reflexivity).
      destruct e; [destruct He| | |]; cbn [cast]; apply failed_last_err. }
    apply wp_bind, wp_call.
    2: { intros e He. rewrite <- app_assoc. pose proof (HE [] _ e ltac:(constructor) He t). destruct e; [destruct He| | |]; assumption. }
    intros s4 s5 i1 _. rewrite <- app_assoc. apply wp_bind, wp_call.
    2: { intros e He. rewrite <- !app_assoc. pose proof (HE [EReadI i1] _ e ltac:(repeat constructor) He t). destruct e; [destruct He| | |]; assumption. }
    intros s6 s7 vi _. rewrite <- !app_assoc. apply wp_bind, wp_add_charge. rewrite !R_nZ. cbn [nadd nmul ndiv nabs RNum].
    set (t' := mkTh _ _ _).
    assert (Hb' : forall l', Forall passive l' -> cvbk (l1 ++ [EStep d 1] ++ [EReadI i1] ++ [EReadV vi] ++ l') t0 t').
    { intros l' Hp. destruct H5 as [B1 [B2 B3]]. unfold cvbk, cvbooks, t'. cbn [th_time th_Ah th_Wh].
      rewrite cv_charge_app, cv_energy_app by (try assumption; apply H4). cbn [app cv_charge cv_energy].
      rewrite (cv_charge_passive l'), (cv_energy_passive l') by assumption.
      assert (Ha : Rabs (i1 * d / 3600) = Rabs i1 * (d * 1) / 3600).
      { unfold Rdiv. rewrite !Rabs_mult, (Rabs_right d) by lra. rewrite (Rabs_right (/ 3600)) by lra. lra. }
      rewrite Ha, B1, B2, B3. repeat split; lra. }
    apply wp_bind, wp_store_if.
    2: { intros l' e Hl' He. rewrite <- !app_assoc.
         assert (Hpp : Forall passive ([EReadI i1] ++ [EReadV vi] ++ l')).
         { apply Forall_app; split; [repeat constructor|apply Forall_app; split; [repeat constructor|now apply quiet_passive]]. }
         pose proof (HE ([EReadI i1] ++ [EReadV vi] ++ l') _ e Hpp He t') as HX. rewrite <- !app_assoc in HX. destruct e; [destruct He| | |]; exact HX. }
    intros l' Hl'. rewrite <- !app_assoc. pose proof (quiet_passive _ Hl') as Hpl'.
    assert (Hpp : Forall passive ([EReadI i1] ++ [EReadV vi] ++ l')).
    { apply Forall_app; split; [repeat constructor|apply Forall_app; split; [repeat constructor|assumption]]. }
    apply wp_bind, wp_call.
    2: { intros e He. pose proof (HE _ _ e Hpp He t') as HX. rewrite <- !app_assoc in HX. rewrite <- !app_assoc. destruct e; [destruct He| | |]; exact HX. }
    intros s8 s9 lim Elm. rewrite app_nil_r.
    destruct (HP2 _ Hpp) as [Q1 [Q2 Q3]].
    assert (Hlv : last_V (l1 ++ [EStep d 1] ++ [EReadI i1] ++ [EReadV vi] ++ l') = Some vi).
    { replace (l1 ++ [EStep d 1] ++ [EReadI i1] ++ [EReadV vi] ++ l') with (((l1 ++ [EStep d 1] ++ [EReadI i1]) ++ [EReadV vi]) ++ l') by (rewrite <- !app_assoc; reflexivity).
      rewrite last_V_app; [apply last_V_snoc|]. intros v Hv. now apply quiet_noV in Hv. }
    match goal with |- context [check_safety ?a ?b ?c] => destruct (check_safety a b c) eqn:Es end;
      try (exfalso; revert Es; unfold check_safety; repeat match goal with |- context [if ?b then _ else _] => destruct b end; discriminate);
      cbn [status_eqb status_val Z.eqb negb].
    2, 3: apply wp_ret; (split; [lra|]); (split; [assumption|]); (split; [assumption|]); (split; [now apply Hb'|]); (split; [|split; discriminate]);
      exists s8, s9, lim, vi; (split; [exact Elm|]); (split; [exact Hlv|]); revert Es; unfold check_safety;
      destruct (nltb vi _) eqn:E1; [apply Rltb_true in E1; intros; (discriminate || exact E1)|]; destruct (nltb _ vi) eqn:E2; intros; try discriminate; now apply Rltb_true in E2.
    apply wp_bind, wp_call.
    2: { intros e He. pose proof (HE _ _ e Hpp He t') as HX. rewrite <- !app_assoc in HX. rewrite <- !app_assoc. destruct e; [destruct He| | |]; exact HX. }
    intros s10 s11 Ii _. rewrite <- !app_assoc.
    assert (Hpq : Forall passive ([EReadI i1] ++ [EReadV vi] ++ l' ++ [EReadI Ii])).
    { rewrite !app_assoc. apply Forall_app; split; [rewrite <- !app_assoc; assumption|repeat constructor]. }
    destruct (HP2 _ Hpq) as [R1 [R2 R3]].
    assert (R4 : cvbk (l1 ++ [EStep d 1] ++ [EReadI i1] ++ [EReadV vi] ++ l' ++ [EReadI Ii]) t0 t').
    { apply Hb'. apply Forall_app; split; [assumption|repeat constructor]. }
    set (L := l1 ++ [EStep d 1] ++ [EReadI i1] ++ [EReadV vi] ++ l' ++ [EReadI Ii]) in *.
    assert (R5 : closed2 L).
    { replace L with (((l1 ++ [EStep d 1] ++ [EReadI i1]) ++ [EReadV vi]) ++ (l' ++ [EReadI Ii])) by (unfold L; rewrite <- !app_assoc; reflexivity).
      apply closed2_app; [|apply Forall_app; split; [assumption|repeat constructor]].
      split; [now apply closed_snoc|]. rewrite removelast_last, app_assoc. now apply closed_snoc. }
    assert (R6 : last_I L = Some Ii).
    { replace L with ((l1 ++ [EStep d 1] ++ [EReadI i1] ++ [EReadV vi] ++ l') ++ [EReadI Ii]) by (unfold L; rewrite <- !app_assoc; reflexivity). apply last_I_snoc. }
    assert (R7 : last_V L = Some vi).
    { replace L with (((l1 ++ [EStep d 1] ++ [EReadI i1]) ++ [EReadV vi]) ++ (l' ++ [EReadI Ii])) by (unfold L; rewrite <- !app_assoc; reflexivity).
      rewrite last_V_app; [apply last_V_snoc|]. intros v Hv. apply in_app_iff in Hv. destruct Hv as [Hv|[Hv|[]]]; [now apply quiet_noV in Hv|discriminate]. }
    clearbody L.
    destruct (nltb (Rabs Ii) Ilim && at_voltage vi Vset) eqn:Elim.
    { apply andb_true_iff in Elim. destruct Elim as [E1 E2]. apply Rltb_true in E1. apply at_voltage_set in E2.
      apply wp_ret. split; [lra|]. split; [assumption|]. split; [assumption|]. split; [assumption|]. split; [assumption|]. split; [assumption|].
      exists Ii, vi. auto. }
    match goal with |- context [if ?b then _ else _] => destruct b eqn:Esm end.
    { apply orb_true_iff in Esm. rewrite !Rltb_true in Esm. rewrite ?R_nZ in Esm. cbn [ndiv nlit RNum] in Esm.
      apply wp_ret. split; [lra|]. split; [assumption|]. split; [assumption|]. split; [assumption|]. split; [assumption|]. split; [assumption|].
      exists Ii. auto. }
    apply IH; try assumption; try lia.
Qed.

Definition CVpost (Vset Ilim tlim dt : R) (t0 : th R) (l' : RL) (t' : th R) (r : res Status) : Prop :=
  elapsed l' <= tlim /\ steps_within dt 1 l' /\ steps_at Vset l' /\
  match r with
  | Ok st => cvbk l' t0 t' /\ (st = ReachedTimeLimit /\ elapsed l' = tlim \/ CVend Vset Ilim l' st)
  | _ => failed_last l'
  end.

Lemma to_size_ceil (x : R) : 0 <= x -> x <= 18446744073709551615 -> exists n, to_size (nceil x) = Ok n /\ (0 <= n)%Z /\ IZR n - 1 < x <= IZR n.
Proof.
  intros H0 H1. pose proof (R_ceil_bounds x) as [B1 B2]. cbn [nceil RNum] in *. set (z := (- Int_part (- x))%Z) in *. exists z.
  assert (Hz0 : (0 <= z)%Z) by (apply le_IZR; lra).
  assert (Hz1 : (z < 18446744073709551616)%Z) by (apply lt_IZR; lra).
  split; [|split; [assumption|lra]]. unfold to_size. cbn [ntrunc RNum]. rewrite (Rtrunc_spec (IZR z) z); [|apply IZR_le; assumption|lra].
  destruct (Z.leb_spec 0 z); [|lia]. destruct (Z.ltb_spec z 18446744073709551616); [reflexivity|lia].
Qed.

Lemma CV_spec (Vset Ilim tlim dt : R) ndt t : 0 < dt -> 0 <= tlim -> tlim <= dt * 18446744073709551615 ->
  wp (CV (logged o) nmaxd Vset Ilim tlim dt ndt) (CVpost Vset Ilim tlim dt t) [] t.
Proof.
  intros Hdt Ht Hsz. unfold CV.
  assert (HP : forall l, Forall passive l -> elapsed l <= tlim /\ steps_within dt 1 l /\ steps_at Vset l /\ cvbk l t t /\ closed2 l).
  { intros l Hp. rewrite elapsed_passive by assumption. split; [lra|]. split; [now apply steps_within_passive|].
    split; [rewrite <- (app_nil_l l); apply before_app; [apply before_nil|now apply passive_nostep]|].
    split; [|rewrite <- (app_nil_l l); apply closed2_app; [split; reflexivity|assumption]].
    unfold cvbk, cvbooks. rewrite cv_charge_passive, cv_energy_passive by assumption. repeat split; lra. }
  assert (HE : forall l B (e : res B) t', Forall passive l -> notok e -> CVpost Vset Ilim tlim dt t (l ++ [EErr]) t' (cast e)).
  { intros l B e t' Hp He. assert (Hp' : Forall passive (l ++ [EErr])) by (apply Forall_app; split; [assumption|repeat constructor]).
    destruct (HP _ Hp') as [H1 [H2 [H3 _]]]. split; [assumption|]. split; [assumption|]. split; [assumption|]. destruct e; [destruct He| | |]; apply failed_last_err. }
  apply wp_bind, wp_store_if.
  2: { intros l' e Hl' He. cbn [app]. pose proof (HE l' _ e t (quiet_passive _ Hl') He). destruct e; [destruct He| | |]; assumption. }
  intros l0 Hl0. cbn [app]. pose proof (quiet_passive _ Hl0) as Hp0.
  apply wp_bind, wp_call.
  2: { intros e He. pose proof (HE l0 _ e t Hp0 He). destruct e; [destruct He| | |]; assumption. }
  intros s0 s1 vprev _. assert (Hp1 : Forall passive (l0 ++ [EReadV vprev])) by (apply Forall_app; split; [assumption|repeat constructor]).
  apply wp_bind, wp_call.
  2: { intros e He. pose proof (HE _ _ e t Hp1 He). destruct e; [destruct He| | |]; assumption. }
  intros s2 s3 Ii _. assert (Hp2 : Forall passive ((l0 ++ [EReadV vprev]) ++ [EReadI Ii])) by (apply Forall_app; split; [assumption|repeat constructor]).
  set (l1 := (l0 ++ [EReadV vprev]) ++ [EReadI Ii]) in *.
  destruct (HP _ Hp2) as [H1 [H2 [H3 [H4 H5]]]].
  cbn [nabs ndiv RNum].
  destruct (nltb (Rabs Ii) Ilim && at_voltage vprev Vset) eqn:Elim.
  { apply andb_true_iff in Elim. destruct Elim as [E1 E2]. apply Rltb_true in E1. apply at_voltage_set in E2.
    apply wp_ret. split; [assumption|]. split; [assumption|]. split; [assumption|]. split; [assumption|]. right.
    exists Ii, vprev. split; [apply last_I_snoc|]. split; [|now split].
    unfold l1. rewrite last_V_app; [apply last_V_snoc|]. intros v [Hv|[]]; discriminate. }
  destruct (to_size_ceil (tlim / dt)) as [nt [En [Hn0 Hn1]]].
  { apply Rmult_le_reg_r with dt; [assumption|]. replace (tlim / dt * dt) with tlim by (field; lra). lra. }
  { apply Rmult_le_reg_r with dt; [assumption|]. replace (tlim / dt * dt) with tlim by (field; lra). lra. }
  apply wp_bind. rewrite En. intros s i. cbn [fst snd c_su c_th]. revert s i. 
  match goal with |- forall s i, ?G => idtac end.
  match goal with |- forall (_ : ?X) (_ : ?Y), wp ?m ?Q ?l ?t => enough (HW : wp m Q l t) by (intros; exact HW) end.
  apply wp_bind. eapply wp_conseq.
  { apply cv_loop_spec with (t0 := t) (dt := dt); try assumption; try lia.
    - rewrite R_nZ. destruct (Z.eqb_spec 0 nt) as [<-|Hne]; [|lra].
      assert (Hx : tlim / dt <= 0) by lra. assert (tlim = tlim / dt * dt) by (field; lra). nra.
    - rewrite R_nZ. now apply elapsed_passive. }
  cbn beta. intros l3 t3 r [Q1 [Q2 [Q3 Q4]]].
  destruct r as [[st|[[x it] vt]]| | |]; try (split; [assumption|]; split; [assumption|]; split; [assumption|]; assumption).
  { apply wp_ret. split; [assumption|]. split; [assumption|]. split; [assumption|]. destruct Q4 as [Q4 [Q5 _]]. split; [assumption|]. now right. }
  destruct Q4 as [Q4 [Q5 [Q6 Q7]]].
  assert (HFin : forall st, st <> timeStep_CC_failed -> (st = ReachedTimeLimit /\ elapsed l3 = tlim) \/ CVend Vset Ilim l3 st ->
     wp (A := R) (S := S) (store_if (logged o) nmaxd (0 <? ndt)%Z ;;; mret st)%prog (CVpost Vset Ilim tlim dt t) l3 t3).
  { intros st Hnf Hst. apply wp_bind, wp_store_if.
    2: { intros l' e Hl' He'. assert (Hpe : Forall passive (l' ++ [EErr])) by (apply Forall_app; split; [now apply quiet_passive|repeat constructor]).
         assert (HQ : elapsed (l3 ++ l' ++ [EErr]) <= tlim /\ steps_within dt 1 (l3 ++ l' ++ [EErr]) /\ steps_at Vset (l3 ++ l' ++ [EErr]) /\ failed_last (l3 ++ l' ++ [EErr])).
         { rewrite elapsed_app, (elapsed_passive (l' ++ [EErr])) by assumption. split; [lra|].
           split; [apply steps_within_app; [assumption|now apply steps_within_passive]|].
           split; [apply before_app; [assumption|now apply passive_nostep]|]. rewrite app_assoc. apply failed_last_err. }
         destruct e; [destruct He'| | |]; exact HQ. }
    intros l' Hl'. pose proof (quiet_passive _ Hl') as Hpl'. apply wp_ret.
    assert (P1 : elapsed (l3 ++ l') = elapsed l3) by (rewrite elapsed_app, (elapsed_passive l') by assumption; lra).
    unfold CVpost. rewrite P1. split; [assumption|]. split; [apply steps_within_app; [assumption|now apply steps_within_passive]|].
    split; [apply before_app; [assumption|now apply passive_nostep]|]. split; [now apply cvbk_passive|].
    destruct Hst as [Hst|Hst]; [now left|right]. unfold CVend in *.
    rewrite last_I_app, last_V_app by (intros v Hv; (now apply quiet_noV in Hv) || (now apply quiet_noI in Hv)). destruct st; try exact Hst. now destruct Hnf. }
  destruct (nleb tlim x) eqn:Ex.
  { apply Rleb_true in Ex. apply HFin; [discriminate|]. left. split; [reflexivity|lra]. }
  apply Rleb_false in Ex. destruct it; [apply HFin; [now destruct vt|now right]|]. lra.
Qed.
End CV.

(** ** CCCV *)
Section CCCV.
Context {S : Type} (o : unit_if R S) (nmaxd : nat) (diag : bool).

Lemma booked_time i l t t' dt nmax : steps_within dt nmax l -> booked i l t t' -> th_time t <= th_time t' <= th_time t + elapsed l.
Proof.
  intros Hs [[H _]|[l0 [d [n [v [-> [H _]]]]]]].
  - pose proof (elapsed_nonneg _ _ _ Hs). lra.
  - assert (Hs0 : steps_within dt nmax l0) by (intros d' n' [Hi|Hi]; apply Hs; rewrite !in_app_iff; auto).
    pose proof (elapsed_nonneg _ _ _ Hs0). rewrite elapsed_app. cbn [elapsed].
    destruct (Hs d n) as [Hd Hn]; [left; apply in_app_iff; right; now left|]. assert (1 <= IZR n) by (apply IZR_le; lia). nra.
Qed.
Lemma CCpost_booked I vlim tlim dt nmax t l' t' st : CCpost I vlim tlim dt nmax t l' t' (Ok st) -> booked I l' t t'.
Proof. intros [_ [_ [_ H]]]. destruct st; try exact H; [left; apply H|left; apply H]. Qed.

Definition CCCVpost (I Vset Ilim tlim dt : R) (nmax : Z) (t : th R) (l' : RL) (t' : th R) (r : res Status) : Prop :=
  match r with
  | Ok st =>
      (Forall passive l' /\ t' = t /\ st <> Success) \/
      (exists l0 l1 l2 v i st1 t1 t2, l' = l0 ++ l1 ++ l2 /\ Forall passive l0 /\ last_V l0 = Some v /\
         i = (if Rlt_dec Vset v then Rabs I else - Rabs I) /\
         CCpost i Vset tlim dt nmax th0 l1 t1 (Ok st1) /\ CVpost o Vset (Rabs Ilim) (tlim - th_time t1) dt th0 l2 t2 (Ok st) /\
         th_time t' = th_time t1 + th_time t2 /\ th_Ah t' = th_Ah t1 + th_Ah t2 /\ th_Wh t' = th_Wh t1 + th_Wh t2)
  | _ => failed_last l'
  end.

Lemma failed_last_app (l l' : RL) : failed_last l' -> failed_last (l ++ l').
Proof. intros [a [e [-> H]]]. exists (l ++ a), e. split; [now rewrite app_assoc|assumption]. Qed.

Lemma CCCV_spec (I Vset Ilim tlim dt : R) ndt fuel t : 0 < dt -> 0 <= tlim -> tlim <= dt * INR fuel -> tlim <= dt * 18446744073709551615 ->
  (diag = true -> honest o) ->
  wp (CCCV_with_tlim (logged o) nmaxd diag fuel I Vset Ilim tlim dt ndt) (CCCVpost I Vset Ilim tlim dt (if (0 <? ndt)%Z then Z.min 2 ndt else 2%Z) t) [] t.
Proof.
  intros Hdt Ht Hf Hsz Hh. unfold CCCV_with_tlim. cbn zeta. cbn [nabs nopp nsub nadd RNum].
  apply wp_bind, wp_call.
  2: { intros e He. destruct e; [destruct He| | |]; apply (failed_last_err []). }
  intros s0 s1 lim _. cbn [app].
  match goal with |- context [if ?b then _ else _] => destruct b end.
  { apply wp_ret. left. split; [constructor|]. split; [reflexivity|discriminate]. }
  apply wp_bind. cbn [logged q_setCurrent]. rewrite R_nZ. apply wp_call.
  2: { intros e He. destruct e; [destruct He| | |]; apply (failed_last_err []). }
  intros s2 s3 st0 _. cbn [app].
  destruct (isStatusFailed st0) eqn:Est.
  { apply wp_ret. left. split; [repeat constructor|]. split; [reflexivity|]. intros ->. discriminate. }
  apply wp_bind, wp_call.
  2: { intros e He. destruct e; [destruct He| | |]; apply (failed_last_err [_]). }
  intros s4 s5 v _. cbn [app].
  set (l0 := [ESet 0 st0; EReadV v]).
  set (i := if nltb Vset v then Rabs I else - Rabs I).
  assert (Hi : i = if Rlt_dec Vset v then Rabs I else - Rabs I) by (unfold i; cbn [nltb RNum]; destruct (Rlt_dec Vset v); reflexivity).
  clearbody i.
  apply wp_bind, wp_with_th.
  eapply wp_conseq. { eapply wp_frame; [apply fa_CC|]. apply CC_spec; eassumption. }
  cbn beta. intros la t1 r [l1 [-> H1]].
  destruct r as [st1| | |]; [|destruct H1 as [_ [_ [_ H1]]]; now apply failed_last_app..].
  cbn [fst snd].
  pose proof (CCpost_booked _ _ _ _ _ _ _ _ _ H1) as Hb.
  assert (Htm : 0 <= th_time t1 <= elapsed l1).
  { destruct H1 as [_ [H1 _]]. pose proof (booked_time _ _ _ _ _ _ H1 Hb) as HX. unfold th0 in HX. cbn [th_time] in HX. rewrite R_nZ in HX. lra. }
  assert (Hel : elapsed l1 <= tlim) by apply H1.
  apply wp_bind, wp_with_th.
  eapply wp_conseq. { eapply wp_frame; [apply fa_CV|]. apply CV_spec; [assumption|lra|lra]. }
  cbn beta. intros lb t2 r2 [l2 [-> H2]].
  destruct r2 as [st2| | |]; [|destruct H2 as [_ [_ [_ H2]]]; now apply failed_last_app..].
  cbn [fst snd]. apply wp_bind, wp_set_th, wp_ret.
  right. exists l0, l1, l2, v, i, st1, t1, t2. rewrite app_assoc.
  split; [reflexivity|]. split; [repeat constructor|]. split; [reflexivity|]. split; [assumption|].
  split; [assumption|]. split; [assumption|]. cbn [th_time th_Ah th_Wh]. auto.
Qed.

End CCCV.

(** ** Invariants of the log and the cycler's index *)
Section Keeps.
Context {A : Type} {NA : Num A} {S : Type}.
Notation W := (cyc A (S * list (event A))).
Context (J : nat -> list (event A) -> Prop) (nmax : nat).
Definition neutral (e : event A) : Prop := match e with EStore | EWrite | EStates _ => False | _ => True end.
Hypothesis J_neutral : forall i l e, J i l -> neutral e -> J i (l ++ [e]).
Hypothesis J_store : forall i l, J i l -> (i < nmax)%nat -> J (i + 1) (l ++ [EStore]).
Hypothesis J_write : forall i l, J i l -> J 0 (l ++ [EWrite]).
Hypothesis nmax_pos : (0 < nmax)%nat.

Definition keeps {B : Type} (m : M W B) : Prop :=
  forall w, J (c_idx w) (snd (c_su w)) -> J (c_idx (fst (m w))) (snd (c_su (fst (m w)))).

Lemma ke_res {B : Type} (f : W -> res B) : keeps (fun w => (w, f w)).
Proof. intros w H. exact H. Qed.
Lemma ke_ret {B : Type} (b : B) : keeps (mret b).
Proof. intros w H. exact H. Qed.
Lemma ke_throw {B : Type} c : keeps (B := B) (mthrow c).
Proof. intros w H. exact H. Qed.
Lemma ke_bind {B C : Type} (m : M W B) (f : B -> M W C) : keeps m -> (forall b, keeps (f b)) -> keeps (mbind m f).
Proof.
  intros Hm Hf w H. specialize (Hm w H). unfold mbind. destruct (m w) as [w' r]. destruct r; try exact Hm. apply Hf, Hm.
Qed.
Lemma ke_call {B : Type} (f : M S B) ok ko : (forall b, ok b = [] \/ exists e, ok b = [e] /\ neutral e) -> neutral ko -> keeps (call (observe f ok ko)).
Proof.
  intros Hok Hko w H. unfold call, observe. destruct (f (fst (c_su w))) as [s' r].
  destruct r as [b|c| |]; cbn [fst snd c_su c_idx]; try (apply J_neutral; assumption).
  destruct (Hok b) as [->|[e [-> He]]]; [now rewrite app_nil_r|now apply J_neutral].
Qed.
Lemma ke_try {B : Type} (m h : M W B) : keeps m -> keeps h -> keeps (try m h).
Proof. intros Hm Hh w H. specialize (Hm w H). unfold try. destruct (m w) as [w' r]. destruct r; try exact Hm. apply Hh, Hm. Qed.
Lemma ke_with {B : Type} (m : M W B) : keeps m -> keeps (with_th m).
Proof.
  intros Hm w H. specialize (Hm (mkCyc (c_su w) (c_idx w) th0) H). unfold with_th.
  destruct (m (mkCyc (c_su w) (c_idx w) th0)) as [w' r]. destruct r; exact Hm.
Qed.
Lemma ke_th (a b c : A) : keeps (add_th a b c).
Proof. intros w H. exact H. Qed.
Lemma ke_charge (b c : A) : keeps (add_charge b c).
Proof. intros w H. exact H. Qed.
Lemma ke_set t' : keeps (set_th t').
Proof. intros w H. exact H. Qed.

Context (o : unit_if A S) (diag : bool).
Lemma ke_write : keeps (writeData (logged o)).
Proof.
  intros w H. unfold writeData. cbn [logged q_write]. unfold observe. destruct (q_write o (fst (c_su w))) as [s' r].
  destruct r; cbn [fst snd c_su c_idx]; try (apply J_neutral; [exact H|exact I]). now apply (J_write (c_idx w)).
Qed.
Lemma ke_store : keeps (storeData (logged o) nmax).
Proof.
  intros w H. unfold storeData, mbind.
  assert (HS : forall w' : W, J (c_idx w') (snd (c_su w')) -> (c_idx w' < nmax)%nat ->
    forall x, x = match call (q_store (logged o)) w' with
                  | (s', Ok _) => (mkCyc (c_su s') (c_idx s' + 1) (c_th s'), Ok tt)
                  | (s', Throw n) => (s', Throw n) | (s', UB) => (s', UB) | (s', Fuel) => (s', Fuel) end ->
    J (c_idx (fst x)) (snd (c_su (fst x)))).
  { intros w' H' Hlt x ->. unfold call. cbn [logged q_store]. unfold observe. destruct (q_store o (fst (c_su w'))) as [s' r].
    destruct r; cbn [fst snd c_su c_idx]; try (apply J_neutral; [exact H'|exact I]). now apply J_store. }
  destruct (Nat.leb_spec nmax (c_idx w)) as [Hle|Hlt].
  - unfold writeData. cbn [logged q_write]. unfold observe. destruct (q_write o (fst (c_su w))) as [s' r].
    destruct r; cbn [fst snd c_su c_idx]; try (apply J_neutral; [exact H|exact I]).
    eapply HS; [| |reflexivity]; [now apply (J_write (c_idx w))|exact nmax_pos].
  - cbn [mret]. eapply HS; [exact H|exact Hlt|reflexivity].
Qed.
Lemma ke_store_if b : keeps (store_if (logged o) nmax b).
Proof. destruct b; [apply ke_store|apply ke_ret]. Qed.
Lemma ke_store_due idat ndt : keeps (store_due (logged o) nmax idat ndt).
Proof. unfold store_due. destruct (_ && _); [|apply ke_ret]. apply ke_bind; [apply ke_store|intros; apply ke_ret]. Qed.

Ltac kcall := apply ke_call; [intros; first [left; reflexivity | right; eexists; split; [reflexivity|exact I]]|exact I].
Ltac ke :=
  lazymatch goal with
  | |- keeps (mbind _ _) => apply ke_bind; [ke|intros; ke]
  | |- keeps (call _) => kcall
  | |- keeps (mret _) => apply ke_ret
  | |- keeps (mthrow _) => apply ke_throw
  | |- keeps (try _ _) => apply ke_try; ke
  | |- keeps (with_th _) => apply ke_with; ke
  | |- keeps (add_th _ _ _) => apply ke_th
  | |- keeps (add_charge _ _) => apply ke_charge
  | |- keeps (set_th _) => apply ke_set
  | |- keeps (store_if _ _ _) => apply ke_store_if
  | |- keeps (store_due _ _ _ _) => apply ke_store_due
  | |- keeps (if ?b then _ else _) => destruct b; ke
  | |- keeps (let '(_, _) := ?p in _) => destruct p; ke
  | |- keeps (match ?p with inl _ => _ | inr _ => _ end) => destruct p; ke
  | |- _ => cbn zeta; auto
  end.

Lemma ke_rest_loop fuel : forall tlim ndt nm dti ttot idat nOnce ninc, keeps (rest_loop (logged o) nmax fuel tlim ndt nm dti ttot idat nOnce ninc).
Proof.
  induction fuel as [|f IH]; intros; cbn [rest_loop]; (destruct (nltb ttot tlim); cbn [negb]; [|apply ke_ret]); [apply ke_res|].
  cbn zeta. ke.
Qed.
Lemma ke_rest fuel tlim dt ndt : keeps (rest (logged o) nmax fuel tlim dt ndt).
Proof. unfold rest. apply ke_bind; [apply ke_store_if|]. intros. apply ke_bind; [apply ke_rest_loop|]. intros. ke. Qed.
Lemma ke_setCurrent I vlim : keeps (cyc_setCurrent (logged o) diag I vlim).
Proof. unfold cyc_setCurrent. ke. Qed.
Lemma ke_adapt I vlim vo vi n up : keeps (cc_adapt (logged o) I vlim vo vi n up).
Proof. unfold cc_adapt. ke. Qed.
Lemma ke_cc_loop fuel : forall I vlim tlim ndt nm dti ttot idat nOnce vo vi up,
  keeps (cc_loop (logged o) nmax diag fuel I vlim tlim ndt nm dti ttot idat nOnce vo vi up).
Proof.
  induction fuel as [|f IH]; intros; cbn [cc_loop]; (destruct (nltb ttot tlim); cbn [negb]; [|apply ke_ret]); [apply ke_res|].
  apply ke_bind; [apply ke_setCurrent|]. intros _. cbn zeta. ke; try (destruct b0; ke); try (apply ke_adapt).
Qed.
Lemma ke_CC fuel I vlim tlim dt ndt : keeps (CC (logged o) nmax diag fuel I vlim tlim dt ndt).
Proof.
  unfold CC. apply ke_bind; [apply ke_store_if|]. intros _. apply ke_bind; [apply ke_setCurrent|]. intros st.
  destruct (negb _); [apply ke_ret|]. apply ke_bind; [kcall|]. intros v0. destruct (beyond _ _ _); [apply ke_ret|].
  apply ke_bind; [apply ke_cc_loop|]. intros [st'|[x v]]; ke.
Qed.
Lemma ke_cv_loop todo : forall i nt Vset Ilim tlim dt ndt ttot, keeps (cv_loop (logged o) nmax todo i nt Vset Ilim tlim dt ndt ttot).
Proof. induction todo as [|td IH]; intros; cbn [cv_loop]; [apply ke_ret|]. cbn zeta. ke. Qed.
Lemma ke_CV Vset Ilim tlim dt ndt : keeps (CV (logged o) nmax Vset Ilim tlim dt ndt).
Proof.
  unfold CV. apply ke_bind; [apply ke_store_if|]. intros _. apply ke_bind; [kcall|]. intros v. apply ke_bind; [kcall|]. intros i.
  destruct (_ && _); [apply ke_ret|]. apply ke_bind; [apply ke_res|]. intros nt. apply ke_bind; [apply ke_cv_loop|]. intros [st|[[x a] b]]; ke.
Qed.
Lemma ke_CCCV fuel I Vset Ilim tlim dt ndt : keeps (CCCV_with_tlim (logged o) nmax diag fuel I Vset Ilim tlim dt ndt).
Proof. unfold CCCV_with_tlim. cbn zeta. ke; first [apply ke_CC|apply ke_CV]. Qed.
Hypothesis J_states : forall i l s, J i l -> J i (l ++ [EStates s]).
Lemma ke_setStates s : keeps (call (q_setStates (logged o) s false)).
Proof.
  intros w H. unfold call. cbn [logged q_setStates]. unfold observe. destruct (q_setStates o s false (fst (c_su w))) as [s' r].
  destruct r; cbn [fst snd c_su c_idx]; [now apply J_states|apply J_neutral; [exact H|exact I]..].
Qed.
Lemma ke_testCapacity fuel : keeps (testCapacity (logged o) nmax diag fuel).
Proof.
  unfold testCapacity. cbn zeta. do 3 (apply ke_bind; [kcall|]; intros). apply ke_bind; [apply ke_with, ke_CC|]. intros.
  destruct (negb _); [apply ke_bind; [apply ke_setStates|intros; apply ke_ret]|].
  apply ke_bind; [kcall|]; intros. apply ke_bind; [apply ke_with, ke_CC|]. intros.
  destruct (negb _); [apply ke_bind; [apply ke_setStates|intros; apply ke_ret]|apply ke_ret].
Qed.
End Keeps.

(** ** testCapacity *)
Section TC.
Context {S : Type} (o : unit_if R S) (nmaxd : nat) (diag : bool).
Definition TCpost (l' : RL) (r : res (R * option R * R)) : Prop :=
  match r with
  | Ok (c, None, _) => c = 0 /\ exists s l1, l' = EGot s :: l1 ++ [EStates s]
  | Ok (c, Some a, _) =>
      exists s i l1 l2, l' = EGot s :: l1 ++ l2 /\ (forall s', ~ In (EStates s') (l1 ++ l2)) /\
        commanded (- i) l1 /\ commanded i l2 /\ c = Rabs i * elapsed l2 / 3600 /\ a = Rabs i * elapsed l1 / 3600 + c
  | _ => failed_last l'
  end.

Lemma no_states_CC fuel I vlim tlim dt ndt t : (0 < nmaxd)%nat ->
  wp (CC (logged o) nmaxd diag fuel I vlim tlim dt ndt) (fun l' _ _ => forall s', ~ In (EStates s') l') [] t.
Proof.
  intros Hn s i.
  pose proof (ke_CC (S := S) (fun (_ : nat) (l : RL) => forall s', ~ In (EStates s') l) nmaxd) as HK.
  refine (HK _ _ _ Hn o diag fuel I vlim tlim dt ndt (mkCyc (s, []) i t) _).
  - intros _ l e Hl He s' Hi. apply in_app_iff in Hi. destruct Hi as [Hi|[Hi|[]]]; [exact (Hl _ Hi)|subst e; exact He].
  - intros _ l Hl _ s' Hi. apply in_app_iff in Hi. destruct Hi as [Hi|[Hi|[]]]; [exact (Hl _ Hi)|discriminate].
  - intros _ l Hl s' Hi. apply in_app_iff in Hi. destruct Hi as [Hi|[Hi|[]]]; [exact (Hl _ Hi)|discriminate].
  - intros s' [].
Qed.
Lemma wp_and {B : Type} (m : M (cyc R (S * RL)) B) (Q Q' : RL -> th R -> res B -> Prop) l t :
  wp m Q l t -> wp m Q' l t -> wp m (fun l' t' r => Q l' t' r /\ Q' l' t' r) l t.
Proof. intros H H' s i. split; [apply H|apply H']. Qed.

Lemma testCapacity_spec fuel t : (0 < nmaxd)%nat -> 630720000 <= INR fuel -> (diag = true -> honest o) ->
  wp (testCapacity (logged o) nmaxd diag fuel) (fun l' t' r => t' = t /\ TCpost l' r) [] t.
Proof.
  intros Hnm Hf Hh. unfold testCapacity. cbn zeta.
  assert (HCC : forall I vlim l, wp (with_th (CC (logged o) nmaxd diag fuel I vlim TIME_INF (nZ 1) 0))
    (fun l' t' r => t' = t /\ match r with
       | Ok (st, t1) => exists l1, l' = l ++ l1 /\ CCpost I vlim TIME_INF 1 2 th0 l1 t1 (Ok st) /\ (forall s', ~ In (EStates s') l1)
       | _ => failed_last l' end) l t).
  { intros I vlim l. apply wp_with_th. eapply wp_conseq.
    { eapply wp_frame; [apply fa_CC|]. apply wp_and; [|now apply no_states_CC].
      apply CC_spec; unfold TIME_INF; rewrite ?R_nZ; try lra. assumption. }
    cbn beta. intros l' t1 r [l1 [-> [H1 H2]]].
    destruct r as [st| | |]; [|split; [reflexivity|]; destruct H1 as [_ [_ [_ H1]]]; now apply failed_last_app..].
    split; [reflexivity|]. exists l1. split; [reflexivity|]. split; [|assumption].
    rewrite R_nZ in H1. exact H1. }
  apply wp_bind, wp_call.
  2: { intros e He. destruct e; [destruct He| | |]; (split; [reflexivity|]; apply (failed_last_err [])). }
  intros s0 s1 sini _. cbn [app]. apply wp_bind, wp_call.
  2: { intros e He. destruct e; [destruct He| | |]; (split; [reflexivity|]; apply (failed_last_err [_])). }
  intros s2 s3 cap _. apply wp_bind, wp_call.
  2: { intros e He. destruct e; [destruct He| | |]; (split; [reflexivity|]; apply failed_last_err). }
  intros s4 s5 lim _. rewrite !app_nil_r.
  set (i := nmul (ndiv (nZ 1) (nZ 25)) cap).
  assert (Hi : nmul (- (nZ 1 / nZ 25))%num cap = - i) by (unfold i; rewrite !R_nZ; cbn; lra). rewrite Hi. clear Hi. clearbody i.
  apply wp_bind. eapply wp_conseq; [apply HCC|]. cbn beta.
  intros la t' r [-> H1]. destruct r as [[st1 t1]| | |]; try (split; [reflexivity|]; exact H1).
  destruct H1 as [l1 [-> [H1 Hn1]]]. cbn [fst snd].
  assert (HSet : forall l2 x, wp (A := R) (S := S) (call (q_setStates (logged o) sini false) ;;; mret (nZ 0, None, x))%prog
     (fun l' t' r => t' = t /\ TCpost l' r) ([EGot sini] ++ l2) t).
  { intros l2 x. apply wp_bind. cbn [logged q_setStates]. apply wp_call.
    2: { intros e He. destruct e; [destruct He| | |]; (split; [reflexivity|]; apply failed_last_err). }
    intros s6 s7 b _. apply wp_ret. split; [reflexivity|]. cbn [TCpost]. split; [apply R_nZ|].
    exists sini, l2. reflexivity. }
  destruct (status_eqb st1 ReachedVoltageLimit) eqn:E1; cbn [negb]; [|apply HSet].
  apply wp_bind, wp_call.
  2: { intros e He. destruct e; [destruct He| | |]; (split; [reflexivity|]; apply failed_last_err). }
  intros s6 s7 lim2 _. rewrite app_nil_r. apply wp_bind. eapply wp_conseq; [apply HCC|]. cbn beta.
  intros lb t' r [-> H2]. destruct r as [[st2 t2]| | |]; try (split; [reflexivity|]; exact H2).
  destruct H2 as [l2 [-> [H2 Hn2]]]. cbn [fst snd].
  destruct (status_eqb st2 ReachedVoltageLimit) eqn:E2; cbn [negb]; [|rewrite <- app_assoc; apply HSet].
  apply wp_ret. split; [reflexivity|]. cbn [TCpost]. exists sini, i, l1, l2.
  split; [rewrite <- app_assoc; reflexivity|].
  split; [intros s' Hs; apply in_app_iff in Hs; destruct Hs as [Hs|Hs]; [exact (Hn1 _ Hs)|exact (Hn2 _ Hs)]|].
  assert (st1 = ReachedVoltageLimit) by (destruct st1; try discriminate; reflexivity).
  assert (st2 = ReachedVoltageLimit) by (destruct st2; try discriminate; reflexivity). subst.
  destruct H1 as [_ [_ [C1 [[_ [B1 _]] _]]]]. destruct H2 as [_ [_ [C2 [[_ [B2 _]] _]]]].
  split; [assumption|]. split; [assumption|]. unfold th0 in B1, B2. cbn [th_Ah] in B1, B2. rewrite R_nZ in B1, B2. rewrite Rabs_Ropp in B1.
  cbn [nadd RNum]. rewrite B1, B2. split; lra.
Qed.
End TC.
