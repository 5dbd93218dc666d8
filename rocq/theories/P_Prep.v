(** * C88: prepared cells, recorded curves, the long pack benchmark *)
From Coq Require Import Reals Lra Lia SpecFloat.
From Verif Require Import Base RFacts FloatSpec FloatFacts FloatEcm StatusModel StatusProofs UtilModel CellModel DataModel CoolModel ModuleModel SpmModel SpmUnitModel SpmSpec SpmProofs SpmReal SpmAge
  SpmWitness PhysSpec PhysProofs PhysToy DriveModel DriveSpec DriveProofs DriveGitt DriveToy
  CyclerModel CyclerSpec CyclerProofs CyclerProofs2 P_Cycler PrepModel PrepSpec PrepProofs PrepCycler PrepTrack.

(** ** Bringing a unit to a voltage *)

(** When the preparation with a current of 10 mA or more returns, degradation has been switched off, the unit has been moved 0.2 V
    to the other side of [V0] (no further than its own limit) with 5 A in steps of two seconds, has been given that current and has been stepped, one
    second at a time, until its voltage, which was short of [V0] before each of these steps, is at [V0] or past it; degradation
    and the thermal model are switched on (any unit, any arithmetic). *)
Theorem C88_prepared : forall (A : Type) (NA : Num A) (S : Type) (o : su_ops A S) fuel I0 V0 (u u' : S) w,
  init_cell_manual o fuel I0 V0 u = (u', Ok w) -> nltb (nabs I0) (nlit 1 100) = false ->
  let up := nltb I0 (nZ 0) in
  let u0 := o_setFlag o true u in
  let vmin := l_Vmin (o_lim o u0) in let vmax := l_Vmax (o_lim o u0) in
  let lo := nsub V0 (nlit 2 10) in let hi := nadd V0 (nlit 2 10) in
  let margin := if up then (if nltb vmin lo then lo else vmin) else (if nltb hi vmax then hi else vmax) in
  exists a v0 a1 m x v1 x1 st n y v, o_V o u0 = (a, Ok v0) /\
    (if short_of (negb up) margin v0 then exists st0, o_setCurrent o (nZ (if up then 5 else -5)) true a = (a1, Ok st0) else a1 = a) /\
    rides o (negb up) margin (nZ 2) m a1 x v1 /\
    o_setCurrent o I0 true x = (x1, Ok st) /\ rides o up V0 (nZ 1) n x1 y v /\ (m <= fuel /\ n <= fuel)%nat /\
    u' = o_setFlag o false y /\ (if up then nltb v V0 = false else nltb V0 v = false).
Proof.
  intros A NA S o fuel I0 V0 u u' w H Hi up. unfold init_cell_manual in H. rewrite Hi in H. fold up in H. apply mbind_ok in H. destruct H as (y & w1 & H & E).
  injection E as <- _. destruct up eqn:U; cbv zeta; cbn [negb].
  - unfold prep_charge, max2 in H. apply mbind_ok in H. destruct H as (u1 & v1 & H1 & H). apply mbind_ok in H. destruct H as (u2 & [] & H2 & H).
    apply mbind_ok in H. destruct H as (u3 & w2 & H3 & H). apply mbind_ok in H. destruct H as (u4 & st & H4 & H).
    destruct (until_ok _ _ _ _ _ _ _ _ _ _ H) as (n & v & Hn & Hr). destruct (until_ok _ _ _ _ _ _ _ _ _ _ H3) as (m & vm & Hm & Hrm).
    exists u1, v1, u2, m, u3, vm, u4, st, n, y, v. split; [exact H1|]. split; [|repeat (split; [assumption || reflexivity || (split; assumption)|]); exact (rides_ends _ _ _ _ _ _ _ _ Hr)].
    unfold short_of. destruct (nltb _ v1) in *; [apply mbind_ok in H2; destruct H2 as (u5 & st0 & H2 & E); injection E as ->; exists st0; exact H2|now injection H2 as ->].
  - unfold prep_disch, min2 in H. apply mbind_ok in H. destruct H as (u1 & v1 & H1 & H). apply mbind_ok in H. destruct H as (u2 & [] & H2 & H).
    apply mbind_ok in H. destruct H as (u3 & w2 & H3 & H). apply mbind_ok in H. destruct H as (u4 & st & H4 & H).
    destruct (until_ok _ _ _ _ _ _ _ _ _ _ H) as (n & v & Hn & Hr). destruct (until_ok _ _ _ _ _ _ _ _ _ _ H3) as (m & vm & Hm & Hrm).
    exists u1, v1, u2, m, u3, vm, u4, st, n, y, v. split; [exact H1|]. split; [|repeat (split; [assumption || reflexivity || (split; assumption)|]); exact (rides_ends _ _ _ _ _ _ _ _ Hr)].
    unfold short_of. destruct (nltb v1 _) in *; [apply mbind_ok in H2; destruct H2 as (u5 & st0 & H2 & E); injection E as ->; exists st0; exact H2|now injection H2 as ->].
Qed.
Print Assumptions C88_prepared.

(** With a smaller current, a fiftieth of the capacity brings the unit to [V0] in steps of a tenth of a second, in the direction in
    which [V0] lies, and [I0] is set only then. *)
Theorem C88_prepared_small : forall (A : Type) (NA : Num A) (S : Type) (o : su_ops A S) fuel I0 V0 (u u' : S) w,
  init_cell_manual o fuel I0 V0 u = (u', Ok w) -> nltb (nabs I0) (nlit 1 100) = true ->
  exists t x0 x v0 x1 st n y v z st2, o_V o (o_setFlag o true u) = (x0, Ok t) /\ o_V o x0 = (x, Ok v0) /\ let up := nltb v0 V0 in
    o_setCurrent o (nmul (nlit (if up then -2 else 2) 100) (o_Cap o x)) true x = (x1, Ok st) /\ rides o up V0 (nlit 1 10) n x1 y v /\
    o_setCurrent o I0 true y = (z, Ok st2) /\ u' = o_setFlag o false z.
Proof.
  intros A NA S o fuel I0 V0 u u' w H Hi. unfold init_cell_manual in H. rewrite Hi in H. apply mbind_ok in H. destruct H as (z & w1 & H & E).
  injection E as <- _. unfold prep_small in H. apply mbind_ok in H. destruct H as (u1 & v1 & H1 & H). apply mbind_ok in H. destruct H as (u2 & v2 & H2 & H).
  apply mbind_ok in H. destruct H as (y & w2 & H3 & H). apply mbind_ok in H. destruct H as (z' & st2 & H5 & H). injection H as -> _.
  exists v1, u1, u2, v2. destruct (nltb v2 V0) eqn:U; apply mbind_ok in H3; destruct H3 as (u4 & st & H4 & H3);
    destruct (until_ok _ _ _ _ _ _ _ _ _ _ H3) as (n & v & Hn & Hr); exists u4, st, n, y, v, z, st2; repeat (split; [assumption|]); reflexivity.
Qed.
Print Assumptions C88_prepared_small.

(** A single-particle cell that has accepted the current carries it when the preparation returns; otherwise it carries the 5 A of
    the first phase, or the current it had before (over the reals). *)
Lemma rides_I (F : fns R) tm up vlim d n c c' v : rides (spm_ops F tm) up vlim d n c c' v -> s_I (cs c') = s_I (cs c).
Proof.
  induction 1 as [u u1 v H _|n u u1 v u2 u3 v' u' w H1 _ H2 H3 _ IH].
  - destruct (V_ok _ _ _ _ H) as (_ & _ & _ & (x & ->) & _). reflexivity.
  - destruct (V_ok _ _ _ _ H1) as (_ & _ & _ & (x & E1) & _). destruct (V_ok _ _ _ _ H3) as (_ & _ & _ & (x3 & E3) & _).
    change (spm_timeStep_CC F tm d (Z.of_nat 1) u1 = (u2, Ok tt)) in H2. destruct (timeStep_counters _ _ _ _ _ _ H2) as (_ & _ & I2 & _).
    rewrite IH, E3. change (s_I (cs u2) = s_I (cs u)). now rewrite I2, E1.
Qed.
Theorem C88_current : forall (F : fns R) tm fuel I0 V0 (c c' : spm R) w, init_cell_manual (spm_ops F tm) fuel I0 V0 c = (c', Ok w) ->
  (1 / 100 <= Rabs I0)%R -> exists x x1 st, (s_I (cs x) = s_I (cs c) \/ s_I (cs x) = if Rlt_dec I0 0 then 5 else -5)%R /\
    spm_setCurrent F I0 true x = (x1, Ok st) /\ s_I (cs c') = (if isStatusBad st then s_I (cs x) else I0) /\ c_block c' = false.
Proof.
  intros F tm fuel I0 V0 c c' w H Hi. destruct (C88_prepared _ _ _ _ _ _ _ _ _ _ H) as (a & v0 & a1 & m & x & v1 & x1 & st & n & y & v & H0 & Hc & Hm & H1 & H2 & _ & -> & _).
  { apply Rltb_false. exact Hi. }
  exists x, x1, st. split; [|split; [exact H1|split; [|reflexivity]]].
  - rewrite (rides_I _ _ _ _ _ _ _ _ _ Hm). change (spm_V F (o_setFlag (spm_ops F tm) true c) = (a, Ok v0)) in H0. destruct (V_ok _ _ _ _ H0) as (_ & _ & _ & (z & Ea) & _).
    assert (Ia : s_I (cs a) = s_I (cs c)) by (rewrite Ea; reflexivity). destruct (short_of _ _ _) in Hc; [|subst a1; left; exact Ia].
    destruct Hc as (st0 & Hc). change (spm_setCurrent F (nZ (if nltb I0 (nZ 0) then 5 else -5)) true a = (a1, Ok st0)) in Hc.
    destruct (setCurrent_ok _ _ _ _ _ Hc) as (_ & _ & _ & w1 & ->). destruct (isStatusBad st0); [left; exact Ia|]. right. cbn [cs s_I].
    assert (D : (if nltb I0 (nZ 0) then 5 else -5)%Z = if Rlt_dec I0 0 then 5%Z else (-5)%Z).
    { destruct (Rlt_dec I0 0) as [L|L]; [rewrite (proj2 (Rltb_true _ _)); [reflexivity|now rewrite R_nZ]|rewrite (proj2 (Rltb_false _ _)); [reflexivity|rewrite R_nZ; lra]]. }
    change (nZ (if nltb I0 (nZ 0) then 5 else -5) = (if Rlt_dec I0 0 then 5 else -5)%R). rewrite D, R_nZ. now destruct (Rlt_dec I0 0).
  - change (s_I (cs y) = if isStatusBad st then s_I (cs x) else I0). rewrite (rides_I _ _ _ _ _ _ _ _ _ H2).
    destruct (setCurrent_ok _ _ _ _ _ H1) as (_ & _ & _ & w1 & ->). now destruct (isStatusBad st).
Qed.
Print Assumptions C88_current.

(** The caller's counters of charge, time and energy are zero whatever has been done. *)
Theorem C88_unreported_refuted : forall (A : Type) (NA : Num A) (S : Type) (o : su_ops A S) fuel I0 V0 (u u' : S) w,
  init_cell_manual o fuel I0 V0 u = (u', Ok w) -> w = (nZ 0, nZ 0, nZ 0).
Proof. intros A NA S o fuel I0 V0 u u' w H. unfold init_cell_manual in H. apply mbind_ok in H. destruct H as (y & w1 & _ & H). now injection H as _ <-. Qed.
Print Assumptions C88_unreported_refuted.

(** A small equivalent-circuit cell (0.1 Ah, half full): 24 s to prepare it for 2 A and 3.12 V. *)
Definition prep_cell : ecmu f64 := Eval vm_compute in mkEu true (match ecm_make 1 (nlit 1 10) (nlit 1 2) with Ok c => c | _ => ecm_default 1 end).
Definition prep_end (I0 V0 : f64) : bool * Z * bool * f64 * f64 * bool :=
  let '(u, r) := init_cell_manual ecm_ops 30 I0 V0 prep_cell in
  let v := match ecm_V (u_ecm u) with Ok v => v | _ => nZ 0 end in
  (match r with Ok _ => true | _ => false end, match ntrunc (nmul (e_time (es (u_ecm u))) (nZ 10)) with Some z => z | None => (-1)%Z end, u_block u, ecm_I (u_ecm u), v, nltb v V0).
Example C88_prepared_inhabited : let '(ok, t, b, i, v, below) := prep_end (nZ 2) (nlit 312 100) in ok = true /\ t = 240%Z /\ b = false /\ i = nZ 2 /\ below = true.
Proof. vm_compute. repeat split. Qed.

(** Prepared to rest at 3.15001 V, the cell is below that voltage: it was reached while charging. *)
Theorem C88_rest_refuted : let '(ok, t, b, i, v, below) := prep_end (nZ 0) (nlit 315001 100000) in
  ok = true /\ t = 5%Z /\ i = nZ 0 /\ below = true.
Proof. vm_compute. repeat split. Qed.
Print Assumptions C88_rest_refuted.

Local Open Scope R_scope.
(** The status of the command is not looked at: a cell that refuses the 5 A and rests at a higher voltage is stepped for ever. *)
Definition at_rest (c : spm R) : Prop := rolls c /\ s_I (cs c) = 0 /\ coherent plainF c.
Lemma rest_V c : at_rest c -> exists c', spm_V plainF c = (c', Ok (301 / 100)) /\ at_rest c'.
Proof.
  intros (H & I & K). destruct (roll_V _ H) as (c' & v & E & H' & I'). exists c'.
  pose proof (V_fresh _ _ _ _ c' K E eq_refl eq_refl) as Fv. rewrite fresh_V_calc, (roll_calc _ H'), I', I in Fv. injection Fv as <-.
  replace (301 / 100 - 2 * 0) with (301 / 100) in E by lra. split; [exact E|]. split; [exact H'|]. split; [congruence|].
  pose proof (coherent_read plainF c K) as K'. now rewrite E in K'.
Qed.
Lemma rest_refuse c : at_rest c -> exists c', spm_setCurrent plainF (nZ 5) true c = (c', Ok V_not_calculated) /\ at_rest c'.
Proof.
  intros (H & I & K). pose proof (after_setCurrent plainF c (nZ 5) true K) as K'. unfold spm_setCurrent in *.
  set (c1 := set_valid (set_st c (st_I (cs c) (nZ 5))) false) in *. assert (H1 : rolls c1) by exact H.
  unfold spm_checkCurrent, spm_checkVoltage in *. destruct (spm_V plainF c1) as [c2 r] eqn:E. pose proof (rolls_V _ _ _ E H1) as H2.
  unfold spm_V in E. cbn [c_valid c1 set_valid] in E. rewrite (roll_calc _ H1) in E. assert (Er : r = Ok (301 / 100 - 2 * s_I (cs c1))) by congruence. clear E. subst r.
  assert (S : check_voltage (Ok (301 / 100 - 2 * s_I (cs c1))) (SpmModel.q_lim (cp c1)) (s_I (cs c1)) = Ok (301 / 100 - 2 * s_I (cs c1), V_not_calculated)).
  { unfold check_voltage. rewrite (proj2 (Rleb_true _ _)); [reflexivity|]. cbn [c1 set_valid set_st cs st_I s_I]. rewrite !R_nZ. lra. }
  rewrite S in *. cbn [rmap snd] in *. change (isStatusBad V_not_calculated) with true in *. cbn [fst] in K'. eexists. split; [reflexivity|].
  split; [|split; [exact I|exact K']]. destruct H2 as (K2 & x & y & Zp & Zn). split; [exact K2|]. exists x, y. now split.
Qed.
Lemma rest_step tm c : at_rest c -> exists c', spm_timeStep_CC plainF tm (nZ 2) 1 c = (c', Ok tt) /\ at_rest c'.
Proof.
  intros (H & I & K). assert (B : c_block c = true) by (destruct H as ((_ & -> & _) & _); reflexivity).
  destruct (roll_step_any tm (nZ 2) c ltac:(rewrite R_nZ; lra) H) as (c' & E & H' & I'). exists c'. split; [exact E|]. split; [exact H'|]. split; [congruence|].
  pose proof (after_step_blocked plainF tm (nZ 2) 1 c B K) as K'. now rewrite E in K'.
Qed.
Lemma rest_until tm vlim q : vlim < 301 / 100 -> forall fuel w c, at_rest c -> snd (until (spm_ops plainF tm) fuel false vlim (nZ 2) q w c) = Fuel.
Proof.
  intros Hv. induction fuel as [|f IH]; intros w c H; cbn [until]; unfold mbind; cbn [spm_ops o_V o_timeStep];
    destruct (rest_V _ H) as (c1 & E1 & H1); rewrite E1; replace (nltb vlim (301 / 100)) with true by (symmetry; now apply Rltb_true); [reflexivity|].
  destruct (rest_step tm _ H1) as (c2 & E2 & H2). rewrite E2. destruct (rest_V _ H2) as (c3 & E3 & H3). rewrite E3. now apply IH.
Qed.
Theorem C88_stuck_refuted : forall tm, exists c I0 V0, c_block c = true /\ s_I (cs c) = 0 /\ spm_V plainF c = (fst (spm_V plainF c), Ok (301 / 100)) /\
  V0 < 301 / 100 /\ forall fuel, snd (init_cell_manual (spm_ops plainF tm) fuel I0 V0 c) = Fuel.
Proof.
  intros tm. exists roller, (-1 / 2), 3. split; [reflexivity|]. split; [reflexivity|].
  assert (H0 : at_rest roller) by (split; [exact roller_rolls|]; split; [reflexivity|]; now apply coherent_invalid).
  split; [destruct (rest_V _ H0) as (x & -> & _); reflexivity|]. split; [lra|].
  intros fuel. unfold init_cell_manual. change (o_setFlag (spm_ops plainF tm) true roller) with roller.
  replace (nltb (nabs (-1 / 2)) (nlit 1 100)) with false by (symmetry; apply Rltb_false; cbn [nabs nlit RNum]; rewrite Rabs_left; lra).
  replace (nltb (-1 / 2) (nZ 0)) with true by (symmetry; apply Rltb_true; rewrite R_nZ; lra).
  unfold prep_charge. cbv zeta. cbn [spm_ops o_lim o_V o_setCurrent].
  assert (M : max2 (l_Vmin (SpmModel.q_lim (cp roller))) (nsub 3 (nlit 2 10)) = (28 / 10 : R)).
  { unfold max2. change (l_Vmin (SpmModel.q_lim (cp roller))) with (1 : R). cbn [nsub nlit RNum]. rewrite (proj2 (Rltb_true _ _)) by lra. lra. }
  destruct (rest_V _ H0) as (c1 & E1 & H1). destruct (rest_refuse _ H1) as (c2 & E2 & H2).
  pose proof (rest_until tm (28 / 10) (nZ 10) ltac:(lra) fuel (nZ 0, nZ 0, nZ 0) c2 H2) as X. destruct (until _ _ _ _ _ _ _ c2) as [c3 r] eqn:E3. cbn [snd] in X. subst r.
  assert (Y : forall k, mbind (spm_V plainF) (fun v => mbind (if nltb (28 / 10) v then mbind (spm_setCurrent plainF (nZ 5) true) (fun _ => mret tt) else mret tt)
                (fun _ => mbind (until (spm_ops plainF tm) fuel false (28 / 10) (nZ 2) (nZ 10) (nZ 0, nZ 0, nZ 0)) k)) roller = (c3, Fuel (B := tally R))).
  { intros k. unfold mbind. rewrite E1. replace (nltb (28 / 10) (301 / 100)) with true by (symmetry; apply Rltb_true; lra). rewrite E2. cbn [mret]. rewrite E3. reflexivity. }
  unfold mbind at 1. rewrite M, Y. reflexivity.
Qed.
Print Assumptions C88_stuck_refuted.

(** ** Recorded curves *)

(** Reading the voltage again gives the same value and changes nothing, and reading it does not change the lithium fractions. *)
Theorem C88_cached : forall (A : Type) (NA : Num A) (F : fns A) (c c' : spm A) v cmp cmn, spm_V F c = (c', Ok v) ->
  spm_V F c' = (c', Ok v) /\ fractions F cmp cmn c' = fractions F cmp cmn c.
Proof.
  intros A NA F c c' v cmp cmn H. split; [exact (V_again _ _ _ _ H)|].
  destruct (spm_V_cases _ _ _ _ H) as [(-> & _)|[(-> & _)|(w & -> & _)]]; reflexivity.
Qed.
Print Assumptions C88_cached.

Lemma moved_alike {A : Type} {NA : Num A} (thr : A) p q : moved_on thr p q = false <-> alike thr p q.
Proof. unfold moved_on, alike. rewrite !Bool.orb_false_iff. tauto. Qed.

(** The file of a sweep starts with the point before the current was set and goes on with points of the cell running for itself,
    second by second, until its voltage is not below [vend], in order and with some left out.  At every second, one of the
    points written so far is like the present one up to [thr] or is the present one.  Two consecutive lines are never alike. *)
Theorem C88_resolved : forall (A : Type) (NA : Num A) (F : fns A) tm fuel k cmp cmn i thr vend (c c' : spm A) rows,
  ocv_curve F tm fuel k cmp cmn i thr vend c = (c', Ok rows) ->
  exists c0 v0 c1 st ps w, spm_V F c = (c0, Ok v0) /\ spm_setCurrent F i true c0 = (c1, Ok st) /\ alone F tm k cmp cmn vend c1 ps c' w /\
    let p := seen F k cmp cmn v0 c0 in
    exists l, rows = p :: l /\ subseq l ps /\
    (forall ps1 q ps2, ps = ps1 ++ q :: ps2 -> exists l1 r l2, rows = l1 ++ r :: l2 /\ subseq (l1 ++ [r]) (p :: ps1 ++ [q]) /\ (alike thr r q \/ r = q)) /\
    (forall l1 r1 r2 l2, rows = l1 ++ r1 :: r2 :: l2 -> ~ alike thr r1 r2).
Proof.
  intros A NA F tm fuel k cmp cmn i thr vend c c' rows H. unfold ocv_curve in H. apply mbind_ok in H. destruct H as (c0 & v0 & H0 & H). cbv zeta in H. rewrite point_seen in H.
  apply mbind_ok in H. destruct H as (c1 & st & H1 & H). apply mbind_ok in H. destruct H as (c2 & l & H2 & H). injection H as -> <-.
  destruct (sweep_alone _ _ _ _ _ _ _ _ _ _ _ _ H2) as (ps & w & A1 & A2 & A3 & A4). exists c0, v0, c1, st, ps, w. repeat (split; [assumption|]).
  cbv zeta. exists l. split; [reflexivity|]. split; [exact A2|]. split.
  - intros ps1 q ps2 E. destruct (A3 _ _ _ E) as (l1 & r & l2 & B1 & B2 & B3). exists l1, r, l2. rewrite <- moved_alike. auto.
  - intros l1 r1 r2 l2 E. specialize (A4 _ _ _ _ E). rewrite <- moved_alike. congruence.
Qed.
Print Assumptions C88_resolved.

(** Over the reals: within [thr] of a written line at every second. *)
Theorem C88_resolved_R : forall (F : fns R) tm fuel k cmp cmn i thr vend (c c' : spm R) rows, 0 <= thr ->
  ocv_curve F tm fuel k cmp cmn i thr vend c = (c', Ok rows) ->
  exists c0 v0 c1 st ps w, spm_V F c = (c0, Ok v0) /\ spm_setCurrent F i true c0 = (c1, Ok st) /\ alone F tm k cmp cmn vend c1 ps c' w /\ vend <= w /\
    Forall (fun q => pt_V q < vend /\ exists r, In r rows /\
      Rabs (pt_V r - pt_V q) <= thr /\ Rabs (pt_fp r - pt_fp q) <= thr /\ Rabs (pt_fn r - pt_fn q) <= thr) ps.
Proof.
  intros F tm fuel k cmp cmn i thr vend c c' rows Ht H. destruct (C88_resolved _ _ _ _ _ _ _ _ _ _ _ _ _ _ H) as (c0 & v0 & c1 & st & ps & w & H0 & H1 & H2 & l & -> & _ & H3 & _).
  exists c0, v0, c1, st, ps, w. repeat (split; [assumption|]). split; [clear H H0 H1 H3; induction H2; [now apply Rltb_false|assumption]|].
  assert (X : Forall (fun q => pt_V q < vend) ps).
  { clear H H0 H1 H3. induction H2 as [|x d v d2 ps y w E1 E2 E3 _ IH]; constructor; [|exact IH]. cbn [seen pt_V]. now apply Rltb_true. }
  rewrite Forall_forall in *. intros q Hq. split; [now apply X|]. destruct (in_split _ _ Hq) as (ps1 & ps2 & E).
  destruct (H3 _ _ _ E) as (l1 & r & l2 & B1 & _ & B3). exists r. rewrite B1. split; [apply in_or_app; right; now left|].
  destruct B3 as [(B3 & B4 & B5)| ->].
  - apply Rltb_false in B3, B4, B5. auto.
  - unfold Rminus. rewrite !Rplus_opp_r, Rabs_R0. auto.
Qed.
Print Assumptions C88_resolved_R.

(** A cell in doubles: four lines for six instants. *)
Definition flatF : fns f64 := mkFns (fun _ => nZ 1) (fun _ => nZ 0) (fun _ _ => nZ 1).
Definition w_blk : spm f64 :=
  mkSpm (cp w_ref) (cs w_ref) (c_valid w_ref) (c_str w_ref) true (c_parent w_ref) (c_Q w_ref) (c_Qtot w_ref) (c_tth w_ref) (c_Tenv w_ref).
Example C88_resolved_inhabited :
  match ocv_curve flatF 0 9 0 (q_Cmaxp (cp w_ref)) (q_Cmaxn (cp w_ref)) (nZ 16) (nlit 2 10000) (nlit 30256 10000) w_blk with
  | (c, Ok rows) => length rows = 4%nat /\ ntrunc (s_time (cs c)) = Some 5%Z
  | _ => False
  end.
Proof. vm_compute. now split. Qed.

(** ** The log of one discharge *)

Lemma clock_end_R n : forall t : R, clock_end n t = t + INR n.
Proof. induction n as [|n IH]; intros t; cbn [clock_end]; [cbn; lra|]. rewrite IH, S_INR, R_nZ. cbn [nadd RNum]. lra. Qed.

(** Over the reals: line [j] has the time [j]; the cell's own clock and charge counter have advanced by as much, and its state of
    charge accordingly; every voltage is above 2.7 V; the log ends after the hour or at 2.7 V. *)
Theorem C88_log : forall (F : fns R) tm fuel (c c' : spm R) rows, run_Cell_SPM_2 F tm fuel c = (c', Ok rows) ->
  exists c1 st, spm_setCurrent F 1 true c = (c1, Ok st) /\
  (forall j r, nth_error rows j = Some r -> ll_t r = INR j /\ ll_t r <= 3600 /\ 27 / 10 < ll_V r /\ ll_time r = s_time (cs c) + INR j /\
     ll_Ah r = s_Ah (cs c) + Rabs (s_I (cs c1)) * INR j / 3600 /\ ll_SOC r = s_SOC (cs c) - s_I (cs c1) * INR j / (q_cap (cp c) * 3600)) /\
  (length rows = 3601%nat \/ exists x v, spm_V F x = (c', Ok v) /\ v <= 27 / 10).
Proof.
  intros F tm fuel c c' rows H. unfold run_Cell_SPM_2 in H. apply mbind_ok in H. destruct H as (c1 & st & H1 & H). rewrite R_nZ in H1. exists c1, st. split; [exact H1|].
  assert (D : nmul (nlit 1 2) (nZ 2) = (nZ 1 : R)) by (rewrite !R_nZ; cbn [nmul nlit RNum]; lra).
  destruct (log_time _ _ _ _ _ D _ _ _ _ _ H) as (K1 & K2 & K3). destruct (setCurrent_ok _ _ _ _ _ H1) as (P1 & _ & _ & w1 & S1).
  assert (T : s_time (cs c1) = s_time (cs c) /\ s_Ah (cs c1) = s_Ah (cs c) /\ s_SOC (cs c1) = s_SOC (cs c)) by (rewrite S1; repeat split).
  destruct T as (T1 & T2 & T3). assert (N : forall j r, nth_error rows j = Some r -> ll_t r = INR j /\ ll_t r <= 3600 /\ 27 / 10 < ll_V r).
  { intros j r Hj. apply nth_error_In in Hj as Hin. rewrite Forall_forall in K2. destruct (K2 _ Hin) as (L1 & L2). apply Rleb_true in L1. apply Rltb_true in L2.
    apply (map_nth_error ll_t) in Hj. rewrite K1 in Hj. apply clock_R in Hj. rewrite R_nZ in Hj, L1. cbn [nlit RNum] in L2. split; [lra|]. split; [exact L1|lra]. }
  split.
  - intros j r Hj. destruct (N _ _ Hj) as (N1 & N2 & N3). repeat (split; [assumption|]).
    destruct (log_counters _ _ _ _ _ _ _ _ _ _ H _ _ Hj) as (_ & M2 & M3 & M4). rewrite M2, M3, M4, T1, T2, T3, P1. cbn [nlit RNum].
    replace (INR j * (IZR 1 / IZR (Z.pos 2) * 2)) with (INR j) by lra. repeat split.
  - destruct K3 as [K3|(x & v & E & L)]; [left|right; exists x, v; split; [exact E|]; apply Rltb_false in L; cbn [nlit RNum] in L; lra].
    apply Rleb_false in K3. rewrite clock_end_R, !R_nZ in K3. destruct (length rows) as [|n] eqn:Ln; [cbn [INR] in K3; lra|].
    destruct (nth_error rows n) as [r|] eqn:En; [|apply nth_error_None in En; lia]. destruct (N _ _ En) as (N1 & N2 & _). rewrite N1 in N2. rewrite S_INR in K3.
    rewrite INR_IZR_INZ in N2, K3. apply (le_IZR _ 3600) in N2. assert (G : IZR 3599 < IZR (Z.of_nat n)) by lra. apply lt_IZR in G. f_equal. lia.
Qed.
Print Assumptions C88_log.

(** Line [j] shows the cell after [j] times two half seconds, at one moment: voltage, open-circuit voltage, state of charge, temperature
    and counters (any carrier). *)
Theorem C88_log_line : forall (A : Type) (NA : Num A) (F : fns A) tm fuel (c c' : spm A) rows, run_Cell_SPM_2 F tm fuel c = (c', Ok rows) ->
  exists c1 st, spm_setCurrent F (nZ 1) true c = (c1, Ok st) /\ forall j r, nth_error rows j = Some r ->
  exists d d1, seconds_on F tm (nlit 1 2) j c1 d /\ spm_V F d = (d1, Ok (ll_V r)) /\ spm_OCV F d1 = Ok (ll_OCV r) /\ ll_SOC r = s_SOC (cs d1) /\
    ll_T r = s_T (cs d1) /\ ll_time r = s_time (cs d1) /\ ll_Ah r = s_Ah (cs d1) /\ ll_Wh r = s_Wh (cs d1).
Proof.
  intros A NA F tm fuel c c' rows H. unfold run_Cell_SPM_2 in H. apply mbind_ok in H. destruct H as (c1 & st & H1 & H). exists c1, st. split; [exact H1|].
  exact (log_line _ _ _ _ _ _ _ _ _ _ H).
Qed.
Print Assumptions C88_log_line.

(** In doubles as well the times are exact, there are no more than 3601 lines, and every voltage is above the limit. *)
Theorem C88_log_double : forall (F : fns f64) tm fuel (c c' : spm f64) rows, run_Cell_SPM_2 F tm fuel c = (c', Ok rows) ->
  (length rows <= 3601)%nat /\
  forall j r, nth_error rows j = Some r -> fin (ll_t r) /\ fval (ll_t r) = INR j /\ nltb (nlit 27 10) (ll_V r) = true.
Proof.
  intros F tm fuel c c' rows H. unfold run_Cell_SPM_2 in H. apply mbind_ok in H. destruct H as (c1 & st & _ & H).
  assert (D : nmul (nlit 1 2) (nZ 2) = (nZ 1 : f64)) by reflexivity.
  destruct (log_time _ _ _ _ _ D _ _ _ _ _ H) as (K1 & K2 & _). destruct (fnZ 0) as [F0 V0]; [easy|]. destruct (fnZ 3600) as [F3 V3]; [easy|].
  assert (N : forall j r, (Z.of_nat j <= 2 ^ 53)%Z -> nth_error rows j = Some r -> fin (ll_t r) /\ fval (ll_t r) = INR j /\ (Z.of_nat j <= 3600)%Z /\ nltb (nlit 27 10) (ll_V r) = true).
  { intros j r L Hj. apply nth_error_In in Hj as Hin. rewrite Forall_forall in K2. destruct (K2 _ Hin) as (L1 & L2).
    apply (map_nth_error ll_t) in Hj. rewrite K1 in Hj. destruct (clock_f64 _ _ 0%Z j _ F0 V0 ltac:(lia) ltac:(lia) Hj) as [G1 G2]. rewrite Z.add_0_l in G2.
    split; [exact G1|]. split; [now rewrite G2, INR_IZR_INZ|]. split; [|exact L2]. apply (fleb _ _ G1 F3) in L1. rewrite G2, V3 in L1. now apply le_IZR. }
  assert (Len : (length rows <= 3601)%nat).
  { destruct (le_lt_dec (length rows) 3601) as [G|G]; [exact G|]. destruct (nth_error rows 3601) as [r|] eqn:E; [|apply nth_error_None in E; lia].
    destruct (N 3601%nat r) as (_ & _ & G3 & _); [|exact E|]; change (Z.of_nat 3601) with 3601%Z in *; lia. }
  split; [exact Len|]. intros j r Hj. assert (j < length rows)%nat by (apply nth_error_Some; congruence). destruct (N j r) as (G1 & G2 & _ & G4); [lia|exact Hj|auto].
Qed.
Print Assumptions C88_log_double.

(** A cell in doubles whose voltage falls below 2.7 V after four lines. *)
Definition steep : XYdata f64 := Eval vm_compute in w_line (nlit (-686100) 1000) (nlit 313900 1000).
Definition blk (c : spm f64) : spm f64 :=
  mkSpm (cp c) (cs c) (c_valid c) (c_str c) true (c_parent c) (c_Q c) (c_Qtot c) (c_tth c) (c_Tenv c).
Definition steep_cell : spm f64 := Eval vm_compute in blk (spm_setT (nZ 298) (w_or (spm_default w_m steep w_n w_0 w_0) w_dummy)).
Example C88_log_inhabited :
  match run_Cell_SPM_2 flatF 0 9 steep_cell with
  | (c, Ok rows) => map (fun r => ntrunc (ll_t r)) rows = [Some 0%Z; Some 1%Z; Some 2%Z; Some 3%Z] /\ ntrunc (s_time (cs c)) = Some 4%Z
  | _ => False
  end.
Proof. vm_compute. now split. Qed.

(** ** The long pack benchmark *)

(** A constant-current run towards a limit that every voltage it reads has passed already, in the direction of the current, takes
    no step and counts nothing (any unit, any arithmetic). *)
Theorem C50_past : forall (A : Type) (NA : Num A) (S : Type) (o : unit_if A S) nmax diag fuel I vlim tlim dt ndt s idx t l t' r,
  observed (CC (logged o) nmax diag fuel I vlim tlim dt ndt) s idx t l t' r ->
  (forall v, In (EReadV v) l -> (nltb I (nZ 0) = true /\ nltb vlim v = true) \/ (nltb (nZ 0) I = true /\ nltb v vlim = true)) ->
  nsteps l = 0%nat /\ t' = t.
Proof.
  intros A NA S o nmax diag fuel I vlim tlim dt ndt s idx t l t' r H Hv.
  destruct (observed_wp _ _ _ _ _ _ _ _ (CC_past o nmax diag fuel I vlim tlim dt ndt t) H) as [H1 H2].
  - intros v Hin. unfold beyond. destruct (Hv v Hin) as [[E1 E2]|[E1 E2]]; rewrite E1, E2; [reflexivity|now rewrite Bool.orb_true_r].
  - split; [now apply calm_nsteps|exact H2].
Qed.
Print Assumptions C50_past.

(** The benchmark alternates charge and discharge of 20 minutes with rests of 15 and 30, but its charging limit is 2.7 V for ten
    cells in series: on any unit that always reads more than that, the charge takes no time, and a cycle planned for 85
    minutes is over after 65 (over the reals). *)
Theorem C88_long_refuted : forall (S : Type) (o : unit_if R S) nmax diag n fuel s idx t l t' r,
  1800 <= INR fuel -> (diag = true -> honest o) ->
  observed (pack_long (logged o) nmax diag n fuel) s idx t l t' r -> (forall v, In (EReadV v) l -> 27 / 10 < v) ->
  elapsed l <= INR n * (65 * 60).
Proof.
  intros S o nmax diag n fuel s idx t l t' r Hf Hh H Hv. destruct (observed_wp _ _ _ _ _ _ _ _ (pack_long_spec o nmax diag fuel Hf Hh n [] t) H) as (l1 & E & H1).
  cbn [app] in E. subst l1. specialize (H1 Hv). lra.
Qed.
Print Assumptions C88_long_refuted.

(** Charging at 16 A towards 3 V a cell that is at 3.15 V. *)
Example C50_past_inhabited :
  let x := CC (logged rc_if) 100 true 20 (nZ (-16)) (nZ 3) (nZ 100) (nZ 1) 0 (mkCyc (half, []) 0 th0) in
  snd x = Ok ReachedVoltageLimit /\ nsteps (snd (c_su (fst x))) = 0%nat /\
  forallb (fun e => match e with EReadV v => nltb (nZ 3) v | _ => true end) (snd (c_su (fst x))) = true.
Proof. cbn zeta. split; [|split]; vm_compute; reflexivity. Qed.

(** A unit that always reads 37 V and takes every command: the benchmark on it can be observed. *)
Definition stiff : unit_if R R := mkIf
  (fun s => (s, Ok s)) (fun s => (s, Ok 1)) (fun s => (s, Ok (mkLim 1 99 0 100))) (fun s => (s, Ok 37)) (fun s => (s, Ok (37, Success)))
  (fun s => (s, Ok 37)) (fun s => (s, Ok [s])) (fun _ _ s => (s, Ok ([], Success))) (fun i _ _ => (i, Ok Success)) (fun _ s => (s, Ok Success))
  (fun _ _ s => (s, Ok tt)) (fun s => (s, Ok tt)) (fun s => (s, Ok tt)).
Example C88_long_inhabited : forall nmax n fuel s idx t, exists l t' r,
  observed (pack_long (logged stiff) nmax true n fuel) s idx t l t' r /\ honest stiff /\ forall v, In (EReadV v) l -> 27 / 10 < v.
Proof.
  intros nmax n fuel s idx t. set (x := pack_long (logged stiff) nmax true n fuel (mkCyc (s, []) idx t)).
  exists (snd (c_su (fst x))), (c_th (fst x)), (snd x). split; [|split].
  - exists (fst x). split; [|now split]. now rewrite <- surjective_pairing.
  - intros a b v st E. injection E as _ _ <-. split; discriminate.
  - assert (T : tracks (fun v => v = 37) (pack_long (logged stiff) nmax true n fuel)) by (apply tr_long; cbn; intros a b v E; now injection E as _ <-).
    specialize (T [] t ltac:(constructor) s idx). fold x in T. rewrite Forall_forall in T. intros v Hv. specialize (T _ Hv). cbn in T. lra.
Qed.
