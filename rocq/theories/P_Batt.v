(** * C44-C47: converter and battery *)
From Coq Require Import Reals Lra Lia SpecFloat.
From Verif Require Import Base RFacts StatusModel StatusProofs CellModel CellSpec CellProofs CoolModel CoolSpec CoolProofs
  ModuleModel ModuleSpec ModuleProofs ModuleProofs2 ModuleProofs3 ModuleExamples BattModel BattSpec BattProofs.

Notation Tree A n := (su A (ecmu A) n).
Notation Ops A tm n := (su_ops_at (A := A) (C := ecmu A) ecm_ops tm n).
Local Open Scope R_scope.

(** ** C44 *)

(** Any rating above 0 (and small enough for the number of 200 kW inverters to fit an [int]), any voltage, any current: the
    losses are at least 981 W per inverter. *)
Theorem C44_positive : forall (c : conv R) (V I : R), 0 < v_pnom c <= 200000 * 2147483647 ->
  exists p n, conv_losses c V I = Ok p /\ (1 <= n)%Z /\ IZR n - 1 < v_pnom c / 200000 <= IZR n /\ 981 * IZR n <= p /\ 0 < p.
Proof.
  intros c V I [H0 H1]. destruct (inverters _ H0 H1) as (n & E & Hn & B). assert (Hn' : 1 <= IZR n) by (apply IZR_le; exact Hn).
  exists (loss_formula (v_dc c) (v_ac c) (IZR n) V I), n. pose proof (loss_lower (v_dc c) (v_ac c) (IZR n) V I Hn') as L.
  split; [now apply conv_losses_formula|]. split; [exact Hn|]. split; [exact B|]. split; [exact L|]. lra.
Qed.
Print Assumptions C44_positive.
(** The documented 1.5 kW (per inverter) hold when the battery rests or is charged. Missing for C44: they do not hold when it
    is discharged, see below. *)
Theorem C44_documented_partial : forall (c : conv R) (V I : R), 0 < v_pnom c <= 200000 * 2147483647 -> 0 < v_dc c -> 0 <= V -> I <= 0 ->
  exists p n, conv_losses c V I = Ok p /\ IZR n - 1 < v_pnom c / 200000 <= IZR n /\ 1500 * IZR n <= p.
Proof.
  intros c V I [H0 H1] Hv HV HI. destruct (inverters _ H0 H1) as (n & E & Hn & B). assert (Hn' : 1 <= IZR n) by (apply IZR_le; exact Hn).
  exists (loss_formula (v_dc c) (v_ac c) (IZR n) V I), n. split; [now apply conv_losses_formula|]. split; [exact B|]. now apply loss_idle.
Qed.
Print Assumptions C44_documented_partial.
(** The default converter, 1200 V, 50 A discharge: below 1.5 kW (in doubles). *)
Theorem C44_documented_refuted : exists p, conv_losses (A := f64) conv_make (nZ 1200) (nZ 50) = Ok p /\ nltb p (nZ 1500) = true.
Proof.
  exists (match conv_losses (A := f64) conv_make (nZ 1200) (nZ 50) with Ok p => p | _ => nZ 0 end). split; vm_compute; reflexivity.
Qed.
Print Assumptions C44_documented_refuted.
(** The losses are those of the data sheet, each of the inverters carrying its share of the current. *)
Theorem C44_law : forall (c : conv R) (V I : R), 0 < v_pnom c <= 200000 * 2147483647 ->
  exists n, (1 <= n)%Z /\ IZR n - 1 < v_pnom c / 200000 <= IZR n /\
    conv_losses c V I = Ok (IZR n * inverter_law (v_dc c) (v_ac c) V (I / IZR n)).
Proof.
  intros c V I [H0 H1]. destruct (inverters _ H0 H1) as (n & E & Hn & B). exists n. split; [exact Hn|]. split; [exact B|].
  rewrite (conv_losses_formula _ _ _ _ E), loss_law. f_equal. lra.
Qed.
Print Assumptions C44_law.
(** A battery as it is made: one string of one, nothing lost yet, losses not blocked from the temperature model, a converter of one inverter
    between 1500 V dc and 1500 V ac, which takes between 1501 and 1502 W when no current flows, at any voltage. *)
Theorem C44_as_made : forall (S : Type), let b := batt_make (A := R) (S := S) in
  bt_ns b = 1%Z /\ bt_np b = 1%Z /\ bt_loss b = 0 /\ bt_tot b = 0 /\ bt_block b = false /\ bt_body b = None /\
  (forall V I, conv_losses (bt_conv b) V I = Ok (inverter_law 1500 1500 V I)) /\
  (forall V, exists p, conv_losses (bt_conv b) V 0 = Ok p /\ 1501 < p < 1502).
Proof.
  intros S b. subst b. unfold batt_make. cbn [bt_ns bt_np bt_loss bt_tot bt_block bt_body bt_conv]. rewrite !R_nZ.
  do 6 (split; [reflexivity|]).
  assert (L : forall V I, conv_losses (conv_make (A := R)) V I = Ok (inverter_law 1500 1500 V I)).
  { intros V I. destruct (C44_law (conv_make (A := R)) V I) as (n & Hn & B & E); [cbn [conv_make v_pnom]; rewrite R_nZ; lra|].
    cbn [conv_make v_pnom v_dc v_ac] in B, E. rewrite !R_nZ in B, E.
    assert (n = 1%Z). { assert (IZR n < IZR 2) by (simpl; lra). apply lt_IZR in H. lia. }
    subst n. rewrite E. f_equal. replace (I / 1) with I by lra. lra. }
  split; [exact L|]. intros V. exists (inverter_law 1500 1500 V 0). split; [apply L|].
  unfold inverter_law. replace (0 * V / 1500) with 0 by lra. rewrite !Rabs_R0, !Rmult_0_l, !Rabs_left by lra. unfold Rsqr. lra.
Qed.
Print Assumptions C44_as_made.
Example C44_inhabited : 0 < v_pnom (conv_make (A := R)) <= 200000 * 2147483647 /\ 0 < v_dc (conv_make (A := R)).
Proof. cbn [conv_make v_pnom v_dc]. rewrite !R_nZ. lra. Qed.

(** ** C45 *)
Section C45.
Context {S : Type} (o : su_ops R S) (tm : Z).
Notation mo := (mod_ops o tm).
Implicit Types (b : batt R S) (m : module R S).

Lemma read_consists {B} (f : module R S -> B) b m s p : consists b m s p -> read_cells f b = Ok (f m).
Proof. intros ((k & E) & _). unfold read_cells. now rewrite E. Qed.
Lemma factors b m s p : consists b m s p -> ns b = INR s /\ np b = INR p.
Proof. intros (_ & E1 & E2 & _). unfold ns, np. rewrite E1, E2, !R_nZ, !INR_IZR_INZ. auto. Qed.

(** Capacity, limits, current, open-circuit voltage and resistance are those of [s] groups in series of [p] copies of the
    tree in parallel; the cells are all counted. *)
Theorem C45_scaling : forall b m s p, consists b m s p ->
  (exists x, batt_Cap o tm b = Ok x /\ arranged is_sum is_min s p (o_Cap mo m) x) /\
  (exists l, batt_lim o tm b = Ok l /\
     arranged is_max is_sum s p (l_Vmin (o_lim mo m)) (l_Vmin l) /\ arranged is_max is_sum s p (l_VMIN (o_lim mo m)) (l_VMIN l) /\
     arranged is_min is_sum s p (l_Vmax (o_lim mo m)) (l_Vmax l) /\ arranged is_min is_sum s p (l_VMAX (o_lim mo m)) (l_VMAX l)) /\
  (exists x, batt_I o tm b = Ok x /\ arranged is_sum is_min s p (o_I mo m) x) /\
  (forall x, o_OCV mo m = Ok x -> exists z, batt_OCV o tm b = Ok z /\ arranged is_mean is_sum s p x z) /\
  (forall x, o_Rtot mo m = Ok x -> x <> 0 -> exists z, batt_Rtot o tm b = Ok z /\ arranged is_parallel is_sum s p x z) /\
  batt_N o tm b = Ok (Z.of_nat (o_N mo m * s * p)).
Proof.
  intros b m s p C. destruct (factors _ _ _ _ C) as [Es Ep]. assert (H0 := C). destruct H0 as (_ & Zs & Zp & Hs & Hp).
  pose proof (INR_pos _ Hs) as Ps. pose proof (INR_pos _ Hp) as Pp.
  unfold batt_Cap, batt_lim, batt_I, batt_OCV, batt_Rtot, batt_N. rewrite !(read_consists _ _ _ _ _ C). cbn [rbind]. rewrite !Es, !Ep. cbn [nmul RNum].
  split; [|split; [|split; [|split; [|split]]]].
  - eexists. split; [reflexivity|]. eexists. split; [apply sum_repeat|now apply min_repeat].
  - eexists. split; [reflexivity|]. cbn [l_Vmin l_VMIN l_Vmax l_VMAX].
    split; [|split; [|split]]; eexists; (split; [first [now apply max_repeat|now apply min_repeat]|apply sum_repeat]).
  - eexists. split; [reflexivity|]. eexists. split; [apply sum_repeat|now apply min_repeat].
  - intros x ->. cbn [rmap rbind]. eexists. split; [reflexivity|]. eexists. split; [apply mean_repeat|apply sum_repeat].
  - intros x -> Hx. cbn [rmap rbind ndiv]. eexists. split; [reflexivity|]. exists (x / INR p). split; [now apply parallel_repeat|].
    assert (E : x / INR p * INR s = ndiv (x * INR s) (INR p)) by (cbn [ndiv RNum]; field; lra). rewrite <- E. apply sum_repeat.
  - rewrite Zs, Zp. f_equal. lia.
Qed.

(** Voltage and power: the battery's power is that of all its copies. *)
Theorem C45_power : forall b m s p m' v, consists b m s p -> o_V mo m = (m', Ok v) ->
  exists b' vb ib, batt_V o tm b = (b', Ok vb) /\ batt_I o tm b' = Ok ib /\ consists b' m' s p /\
    arranged is_mean is_sum s p v vb /\ vb * ib = INR s * INR p * (v * o_I mo m').
Proof.
  intros b m s p m' v C E. destruct (factors _ _ _ _ C) as [Es Ep]. assert (H0 := C). destruct H0 as ((k & Ek) & Zs & Zp & Hs & Hp).
  exists (with_body b (m', k)), (v * INR s), (o_I mo m' * INR p). unfold batt_V, scaled, on_cells. rewrite Ek, E, Es. split; [reflexivity|].
  assert (C' : consists (with_body b (m', k)) m' s p) by (split; [exists k; reflexivity|]; cbn; auto).
  split; [|split; [exact C'|]].
  - unfold batt_I. rewrite (read_consists _ _ _ _ _ C'). destruct (factors _ _ _ _ C') as [_ ->]. reflexivity.
  - split; [|ring]. eexists. split; [apply mean_repeat|apply sum_repeat].
Qed.

(** A current command reaches the cells divided by the number of copies in parallel, with the same verdict. *)
Theorem C45_command : forall b m s p I chk m' r, consists b m s p -> o_setCurrent mo (I / INR p) chk m = (m', r) ->
  exists b', batt_setCurrent o tm I chk b = (b', r) /\ consists b' m' s p /\ (o_I mo m' = I / INR p -> batt_I o tm b' = Ok I).
Proof.
  intros b m s p I chk m' r C E. destruct (factors _ _ _ _ C) as [Es Ep]. assert (H0 := C). destruct H0 as ((k & Ek) & Zs & Zp & Hs & Hp).
  pose proof (INR_pos _ Hp) as Pp. exists (with_body b (m', k)). unfold batt_setCurrent, on_cells. rewrite Ek, Ep. cbn [ndiv RNum]. rewrite E. split; [reflexivity|].
  assert (C' : consists (with_body b (m', k)) m' s p) by (split; [exists k; reflexivity|]; cbn; auto).
  split; [exact C'|]. intros EI. unfold batt_I. rewrite (read_consists _ _ _ _ _ C'). destruct (factors _ _ _ _ C') as [_ ->]. f_equal. rewrite EI. cbn. field. lra.
Qed.
End C45.
Print Assumptions C45_scaling.
Print Assumptions C45_power.
Print Assumptions C45_command.

Lemma series_current P n : forall (u v : Tree R n) x, same_tree P n u v -> all_series n u -> well_formed n u ->
  Forall (fun c => e_I (es (u_ecm c)) = x) (leaves n v) -> current n v = x.
Proof.
  induction n as [|n IH]; intros u v x.
  - cbn. intros _ _ _ F. now inversion F.
  - node u c m; node v d k; cbn; try tauto; [intros _ _ _ F; now inversion F|].
    intros [H1 H2] [S1 S2] [[N1 _] N2] F. rewrite <- H1, S1. destruct H2 as [|a b l l' Hab H2]; [congruence|].
    inversion S2; subst. inversion N2; subst. cbn in F. apply Forall_app in F. destruct F as [F _]. now apply (IH a b).
Qed.
(** Series trees: an accepted command is read back, and every cell carries its share. (Missing for C45: a parallel module need
    not carry the current it was given, C32.) *)
Theorem C45_readback_partial : forall tm n (b b' : batt R (Tree R n)) m s p I chk st, consists b m s p -> well_formed (S n) (inr m : Tree R (S n)) ->
  all_series (S n) (inr m : Tree R (S n)) -> batt_setCurrent (Ops R tm n) tm I chk b = (b', Ok st) -> isStatusBad st = false ->
  batt_I (Ops R tm n) tm b' = Ok I /\
  exists m', consists b' m' s p /\ Forall (fun c => e_I (es (u_ecm c)) = I / INR p) (leaves (S n) (inr m' : Tree R (S n))).
Proof.
  intros tm n b b' m s p I chk st C W A E B. destruct (o_setCurrent (mod_ops (Ops R tm n) tm) (I / INR p) chk m) as [m' r] eqn:Em.
  destruct (C45_command (Ops R tm n) tm b m s p I chk m' r C Em) as (b1 & E1 & C1 & R1). rewrite E in E1. apply pair_equal_spec in E1. destruct E1 as [<- <-].
  assert (Et : o_setCurrent (Ops R tm (S n)) (I / INR p) chk (inr m : Tree R (S n)) = (inr m', Ok st)).
  { cbn [su_ops_at sum_ops o_setCurrent both]. unfold on_r. now rewrite Em. }
  pose proof (accepted_everywhere tm (S n) (inr m : Tree R (S n)) (inr m') (I / INR p) chk st A Et B) as F.
  split; [|exists m'; auto]. apply R1. change (o_I (mod_ops (Ops R tm n) tm) m') with (o_I (Ops R tm (S n)) (inr m' : Tree R (S n))). rewrite I_current.
  eapply series_current; [eapply setCurrent_frame_tree; exact Et|exact A|exact W|exact F].
Qed.
Print Assumptions C45_readback_partial.

(** A battery of 4 x 2 strings of three cells *)
Definition ex_batt (A : Type) {NA : Num A} : batt A (Tree A 0) :=
  mkBatt (Some (mkM (ex_rec true [mohm; mohm; mohm] 3) [cell1; cell1; cell1], hvac_make 24 1 (nZ 3000))) conv_make 4 2 (nZ 0) (nZ 0) false.
Example C45_inhabited : exists m, consists (ex_batt R) m 4 2 /\ well_formed 1 (inr m : Tree R 1) /\ all_series 1 (inr m : Tree R 1) /\
  (exists b' st, batt_setCurrent (Ops f64 0 0) 0 (nZ 4) true (ex_batt f64) = (b', Ok st) /\ isStatusBad st = false).
Proof.
  eexists. split; [split; [eexists; reflexivity|]; cbn; repeat split; lia|]. split; [|split].
  - cbn. repeat split; try discriminate; repeat constructor.
  - cbn. repeat split; repeat constructor.
  - exists (fst (batt_setCurrent (Ops f64 0 0) 0 (nZ 4) true (ex_batt f64))), Success. split; vm_compute; reflexivity.
Qed.

(** [getVhigh] of a battery ("the voltage of the cell with the highest voltage", Battery.hpp:78) is a cell voltage multiplied by
    the number of groups in series; no cell has it. *)
Theorem C45_extremes_refuted : exists b' v, batt_Vhigh (Ops f64 0 0) 0 (ex_batt f64) = (b', Ok v) /\
  Forall (fun c => match ecm_V (u_ecm c) with Ok w => nltb (nmul (nZ 3) w) v = true | _ => False end)
    (match bt_body (ex_batt f64) with Some (m, _) => ms m | None => [] end).
Proof.
  exists (fst (batt_Vhigh (Ops f64 0 0) 0 (ex_batt f64))), (match snd (batt_Vhigh (Ops f64 0 0) 0 (ex_batt f64)) with Ok v => v | _ => nZ 0 end).
  split; [vm_compute; reflexivity|]. cbn [bt_body ex_batt ms]. do 3 (apply Forall_cons; [vm_compute; reflexivity|]). apply Forall_nil.
Qed.
Print Assumptions C45_extremes_refuted.

(** ** C46 *)

(** Over any sequence of calls on a battery (of any tree, also when calls fail): energy handed out plus energy pending is the
    energy lost in the converter meanwhile, and so is the change of the lifetime total. *)
Theorem C46_books : forall (S : Type) (o : su_ops R S) (tm : Z) (ops : list (batt_op R)) (b b' : batt R S) (handed lostE : list R),
  batt_run o tm ops b = (b', handed, lostE) ->
  Rsum handed + bt_loss b' - bt_loss b = Rsum lostE /\ bt_tot b' - bt_tot b = Rsum lostE.
Proof. intros S o tm ops b b' hs ls E. pose proof (run_books o tm ops b) as H. rewrite E in H. exact H. Qed.
Print Assumptions C46_books.
(** What has been handed out is not handed out again. *)
Theorem C46_once : forall (A : Type) (NA : Num A) (S : Type) (b : batt A S),
  let '(b1, e1) := batt_takeLosses b in e1 = bt_loss b /\ snd (batt_takeLosses b1) = nZ 0 /\ bt_tot b1 = bt_tot b.
Proof. intros. cbn. auto. Qed.
Print Assumptions C46_once.
(** Steps do lose energy (doubles): one second of the battery above, twice handed out. *)
Example C46_inhabited : exists b' hs ls, batt_run (Ops f64 0 0) 0 [BStep (nZ 1) 1; BTake; BStep (nZ 1) 1; BTake] (ex_batt f64) = (b', hs, ls) /\
  map (fun x => nltb (nZ 1000) x) ls = [true; false; true; false] /\ map (fun x => nltb (nZ 1000) x) hs = [false; true; false; true].
Proof.
  pose (r := batt_run (Ops f64 0 0) 0 [BStep (nZ 1) 1; BTake; BStep (nZ 1) 1; BTake] (ex_batt f64)).
  exists (fst (fst r)), (snd (fst r)), (snd r). split; [|split]; vm_compute; reflexivity.
Qed.

(** ** C47 *)

(** The states of a battery [d] written into an equally built battery [u] reproduce every cell, the temperature and the states.
    Missing for C47: the span is not consumed, what follows the states matters, and a refusal changes the temperature. *)
Theorem C47_roundtrip_partial : forall (A : Type) (NA : Num A) tm n (u d : batt A (Tree A n)) mu ku md kd chk,
  bt_body u = Some (mu, ku) -> bt_body d = Some (md, kd) ->
  same_tree like (S n) (inr mu : Tree A (S n)) (inr md : Tree A (S n)) -> Forall (acceptable_cell chk) (leaves (S n) (inr md : Tree A (S n))) ->
  temps_allowed (S n) (inr md : Tree A (S n)) -> T_allowed (k_T kd) ->
  exists s u' st mu' ku', batt_getStates (Ops A tm n) tm d = Ok s /\ batt_setStates (Ops A tm n) tm s chk u = (u', Ok ([k_T kd], st)) /\ isStatusBad st = false /\
    bt_body u' = Some (mu', ku') /\ same_tree (fun c e => u_ecm c = u_ecm e) (S n) (inr mu' : Tree A (S n)) (inr md : Tree A (S n)) /\ k_T ku' = k_T kd /\
    batt_getStates (Ops A tm n) tm u' = Ok s.
Proof.
  intros A NA tm n u d mu ku md kd chk Eu Ed L F T Tk.
  destruct (states_roundtrip_tree tm (S n) (inr mu : Tree A (S n)) (inr md : Tree A (S n)) chk [k_T kd] L F T) as (u' & st & E & B & St & G).
  destruct u' as [c|m']; [destruct St|]. cbn [su_ops_at sum_ops o_setStates o_getStates both] in E, G. unfold on_r in E.
  destruct (o_setStates (mod_ops (Ops A tm n) tm) (o_getStates (mod_ops (Ops A tm n) tm) md ++ [k_T kd]) chk mu) as [m1 r1] eqn:E1.
  injection E as E2 E3. subst m1 r1.
  exists (o_getStates (mod_ops (Ops A tm n) tm) md ++ [k_T kd]), (with_body u (m', with_kT ku (k_T kd))), st, m', (with_kT ku (k_T kd)).
  unfold batt_getStates. rewrite Ed. split; [reflexivity|]. split; [|split; [exact B|]].
  - unfold batt_setStates, on_cells. rewrite Eu, E1. cbn [back rev List.app]. unfold batt_setT. cbn [bt_body with_body].
    destruct (setT_cases (k_T kd) ku) as [[_ ->]|[N _]]; [reflexivity|contradiction].
  - split; [reflexivity|]. split; [exact St|]. split; [reflexivity|]. cbn [bt_body with_body]. now rewrite G.
Qed.
Print Assumptions C47_roundtrip_partial.
Example C47_inhabited : exists mu ku, bt_body (ex_batt f64) = Some (mu, ku) /\ same_tree like 1 (inr mu : Tree f64 1) (inr mu : Tree f64 1) /\
  Forall (acceptable_cell true) (leaves 1 (inr mu : Tree f64 1)) /\ temps_allowed 1 (inr mu : Tree f64 1) /\ T_allowed (k_T ku).
Proof.
  do 2 eexists. split; [reflexivity|]. split; [|split; [|split]].
  - split; [reflexivity|]. do 3 (apply Forall2_cons; [split; reflexivity|]). apply Forall2_nil.
  - do 3 (apply Forall_cons; [split; [vm_compute; reflexivity|]; intros _; eexists _, _; (split; [vm_compute; reflexivity|reflexivity])|]). apply Forall_nil.
  - split; [split; [vm_compute; reflexivity|split; vm_compute; reflexivity]|]. do 3 (apply Forall_cons; [exact I|]). apply Forall_nil.
  - split; [vm_compute; reflexivity|split; vm_compute; reflexivity].
Qed.

(** A one-cell battery, its states with another temperature (300 K) ... *)
Definition ex_batt1 : batt f64 (Tree f64 0) := mkBatt (Some (mkM (ex_rec true [mohm] 1) [cell1], hvac_make 1 1 (nZ 0))) conv_make 1 1 (nZ 0) (nZ 0) false.
Definition states1 (soc : f64) : list f64 := [nZ 288; soc; nZ 1; nZ 0; nZ 0; nZ 0; nZ 0; nZ 288; nZ 300].
(** ... followed by another value (310): the battery takes that for its temperature, and the span is not consumed. *)
Theorem C47_continuation_refuted : exists b st, batt_setStates (Ops f64 0 0) 0 (states1 half ++ [nZ 310]) true ex_batt1 = (b, Ok ([nZ 300; nZ 310], st)) /\
  isStatusBad st = false /\ batt_T b = Ok (nZ 310).
Proof.
  exists (fst (batt_setStates (Ops f64 0 0) 0 (states1 half ++ [nZ 310]) true ex_batt1)), Success. split; [|split]; vm_compute; reflexivity.
Qed.
Print Assumptions C47_continuation_refuted.
(** With one value too few, the battery takes over the states of its cells and then reads the last element of an empty span. *)
Theorem C47_short_refuted : exists s soc, states1 soc = s ++ [nZ 300] /\ snd (batt_setStates (Ops f64 0 0) 0 s true ex_batt1) = UB /\
  batt_getStates (Ops f64 0 0) 0 (fst (batt_setStates (Ops f64 0 0) 0 s true ex_batt1)) = Ok (s ++ [T_ENV]).
Proof. exists (removelast (states1 half)), half. split; [|split]; vm_compute; reflexivity. Qed.
Print Assumptions C47_short_refuted.
(** States with an invalid charge are refused, but the battery's temperature is changed. *)
Theorem C47_refusal_refuted : exists b rest st, batt_setStates (Ops f64 0 0) 0 (states1 (nZ 2)) true ex_batt1 = (b, Ok (rest, st)) /\
  isStatusBad st = true /\ batt_T b = Ok (nZ 300) /\ batt_T ex_batt1 = Ok (nZ 288).
Proof.
  pose (r := batt_setStates (Ops f64 0 0) 0 (states1 (nZ 2)) true ex_batt1).
  exists (fst r), (match snd r with Ok (x, _) => x | _ => [] end), (match snd r with Ok (_, x) => x | _ => Success end).
  split; [|split; [|split]]; vm_compute; reflexivity.
Qed.
Print Assumptions C47_refusal_refuted.
