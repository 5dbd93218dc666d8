(** * C39, C40, C42 and the coolant part of C43: cooling systems *)
From Coq Require Import SpecFloat.
From Verif Require Import Base RFacts CoolModel CoolSpec CoolProofs.

(** ** C39 *)

(** Doubles included: whatever calls a cooling system gets, its temperature stays an allowed one. *)
Theorem C39_temperature_in_range : forall (A : Type) (NA : Num A) (ops : list (cool_op A)) (k : cool A),
  T_allowed (k_T k) -> T_allowed (k_T (cool_run ops k)).
Proof. exact @run_T_allowed. Qed.
Print Assumptions C39_temperature_in_range.

(** A command outside the range, or not a number, throws 99 and changes nothing; any other is taken over. *)
Theorem C39_command : forall (A : Type) (NA : Num A) (t : A) (k : cool A),
  (~ T_allowed t -> cool_setT t k = (k, Throw 99)) /\
  (T_allowed t -> exists k', cool_setT t k = (k', Ok tt) /\ k_T k' = t).
Proof.
  intros A NA t k. destruct (setT_cases t k) as [[H E]|[H E]]; split; intros H'; try tauto.
  exists (with_kT k t). auto.
Qed.
Print Assumptions C39_command.

(** The systems the modules construct start in the range; the range is [273 K, 348 K]; not-a-number is outside. *)
Example C39_inhabited : T_allowed (k_T (cool_make (A := R) 3 1)) /\ T_allowed (k_T (hvac_make (A := f64) 3 1 (nZ 0))) /\
  (forall t : R, T_allowed t <-> (273 <= t <= 348)%R) /\ ~ T_allowed (S754_nan : f64).
Proof.
  assert (G : forall t : R, T_allowed t <-> (273 <= t <= 348)%R).
  { intros t. unfold T_allowed, degC. rewrite !R_nZ, !Rltb_false, Reqb_true.
    split; [intros (H1 & H2 & _); split; assumption|intros [H1 H2]; auto]. }
  split; [apply G; cbn [k_T cool_make]; unfold T_ENV; rewrite R_degC; lra|].
  split; [repeat split; vm_compute; reflexivity|]. split; [exact G|].
  intros (_ & _ & H). vm_compute in H. discriminate.
Qed.

Local Open Scope R_scope.

(** ** C40 *)

(** On/off control, for every history of (local, global) temperatures: the fan runs at its design flow exactly when the
    thermostat described by the temperature history alone is on, and stands still otherwise. *)
Theorem C40_hysteresis : forall (k : cool R) (hist : list (R * R)),
  k_kind k <> COpen -> (k_ctrl k = 2 \/ k_ctrl k = 3)%Z -> k_Toff k < k_Ton k ->
  (k_flow k = 0 \/ k_flow k = k_flr k) -> k_flr k <> 0 ->
  (k_flow (cool_run (controls hist) k) = k_flr k <->
   thermostat_on (k_Ton k) (k_Toff k) (k_flow k = k_flr k) (map (control_temp (k_ctrl k)) hist)) /\
  (k_flow (cool_run (controls hist) k) = 0 <->
   ~ thermostat_on (k_Ton k) (k_Toff k) (k_flow k = k_flr k) (map (control_temp (k_ctrl k)) hist)).
Proof.
  intros k hist HK HC HT HF HR. destruct (hysteresis k hist HK HC HT HF HR) as [[O F]|[O F]]; rewrite F; split; split; intros H;
    try tauto; try lra; exfalso; auto.
Qed.
Print Assumptions C40_hysteresis.

(** Proportional control: the flow is the design flow times gain times excess, or zero when that fraction is at most 0.2. *)
Theorem C40_proportional : forall (k : cool R) tl tg,
  k_kind k <> COpen -> (k_ctrl k = 4 \/ k_ctrl k = 5)%Z ->
  let excess := Rmax (control_temp (k_ctrl k) (tl, tg) - k_propT k) 0 in
  (2 / 10 < k_gain k * excess -> k_flow (cool_control tl tg k) = k_flr k * k_gain k * excess) /\
  (k_gain k * excess <= 2 / 10 -> k_flow (cool_control tl tg k) = 0).
Proof.
  intros k tl tg HK HC. cbv zeta. rewrite (control_prop_flow k tl tg HK HC). unfold fan_prop.
  rewrite nmax_R, R_nlit, !R_nZ. cbn [nltb nmul nsub RNum].
  split; intros H; rcase; lra.
Qed.
Print Assumptions C40_proportional.

(** The systems built by the constructors satisfy the hypotheses, for every strategy and every number of cells. *)
Example C40_inhabited : forall n c, (1 <= n)%nat ->
  let k := cool_make (A := R) n c in
  k_kind k <> COpen /\ k_Toff k < k_Ton k /\ k_flow k = k_flr k /\ k_flr k <> 0 /\
  k_Ton k = 308 /\ k_Toff k = 298 /\ k_gain k = / 10 /\ k_propT k = 298.
Proof.
  intros n c Hn. cbn [cool_make k_kind k_Toff k_Ton k_flow k_flr k_gain k_propT].
  unfold flowrate_perCell, T_ENV. rewrite nmax_R, R_nlit, R_nnat, !R_degC, !R_nZ. cbn [nadd nmul ndiv nsub RNum].
  replace (Rmax (273 + 25) (273 + 15 + 5)) with 298 by (unfold Rmax; destruct (Rle_dec _ _) as [H|H]; lra).
  assert (1 <= INR n) by (change 1 with (INR 1); apply le_INR; exact Hn).
  repeat split; try congruence; try lra.
Qed.

(** It starts without flow. *)
Theorem C40_open_as_made : forall (A : Type) (NA : Num A) n ctrl,
  k_kind (open_make (A := A) n ctrl) = COpen /\ k_flow (open_make (A := A) n ctrl) = nZ 0.
Proof. intros A NA n ctrl. split; reflexivity. Qed.
Print Assumptions C40_open_as_made.

(** A system with an open pass-through never has flow of its own. *)
Theorem C40_open_has_no_flow : forall (A : Type) (NA : Num A) tl tg (k : cool A), k_kind k = COpen ->
  k_flow (cool_control tl tg k) = nZ 0.
Proof. intros A NA tl tg k K. unfold cool_control. rewrite K. reflexivity. Qed.
Print Assumptions C40_open_has_no_flow.

(** ** C42 *)

(** For every history of calls the AC power stays between 0 and its rating. *)
Theorem C42_power_bounded : forall (k : cool R) h ops, k_kind k = CHvac h ->
  0 <= h_Qac h <= h_Q h -> 0 <= h_gain h ->
  match k_kind (cool_run ops k) with CHvac h' => 0 <= h_Qac h' <= h_Q h' | _ => True end.
Proof.
  intros k h ops K Hq Hg. assert (O : ac_ok k) by (unfold ac_ok; rewrite K; split; [lra|]; split; assumption).
  assert (G := ac_invariant ops k O). unfold ac_ok in G. destruct (k_kind (cool_run ops k)); tauto.
Qed.
Print Assumptions C42_power_bounded.

(** Proportional strategies: off at or below the off-temperature; otherwise rating times the capped fraction of the AC's own
    controller, provided the fan controller's fraction exceeds 0.2. The missing part is the switch-on fraction of the AC's
    own controller, see below. *)
Theorem C42_proportional_partial : forall (k : cool R) h tl tg,
  k_kind k = CHvac h -> (k_ctrl k = 4 \/ k_ctrl k = 5)%Z ->
  let t := if (k_ctrl k =? 4)%Z then k_T k else tg in
  let excess := Rmax (t - h_propT h) 0 in
  exists h', k_kind (cool_control tl tg k) = CHvac h' /\
    (k_T k <= h_Toff h -> h_Qac h' = 0) /\
    (h_Toff h < k_T k -> 2 / 10 < k_gain k * excess -> h_Qac h' = h_Q h * Rmin (h_gain h * excess) 1) /\
    (k_gain k * excess <= 2 / 10 -> h_Qac h' = 0).
Proof.
  intros k h tl tg K C. cbv zeta. unfold cool_control. rewrite K.
  destruct (fan_control_T tl tg k) as (ET & EC & _ & _ & EG).
  eexists. split; [reflexivity|]. cbn [h_Qac]. unfold ac_control. rewrite EC.
  assert (P : (match k_ctrl k with 4%Z => ac_prop (fan_control tl tg k) h (k_T (fan_control tl tg k)) | _ => ac_prop (fan_control tl tg k) h tg end)
    = ac_prop (fan_control tl tg k) h (if (k_ctrl k =? 4)%Z then k_T k else tg)).
  { destruct C as [-> | ->]; cbn; rewrite ?ET; reflexivity. }
  assert (Q : match k_ctrl k with
     | 1%Z => if nltb (k_T (fan_control tl tg k)) (h_Toff h) then nZ 0 else h_Q h
     | 2%Z => if nleb (k_T (fan_control tl tg k)) (h_Toff h) then nZ 0 else if nleb (h_Ton h) (k_T (fan_control tl tg k)) then h_Q h else h_Qac h
     | 3%Z => if nleb (k_T (fan_control tl tg k)) (h_Toff h) then nZ 0 else if nleb (h_Ton h) tg then h_Q h else h_Qac h
     | 4%Z => ac_prop (fan_control tl tg k) h (k_T (fan_control tl tg k))
     | 5%Z => ac_prop (fan_control tl tg k) h tg
     | _ => h_Qac h end = ac_prop (fan_control tl tg k) h (if (k_ctrl k =? 4)%Z then k_T k else tg)).
  { destruct C as [-> | ->]; cbn; rewrite ?ET; reflexivity. }
  rewrite Q. unfold ac_prop. rewrite nmax_R, nmin_R, !R_nZ, R_nlit, ET, EG. cbn [nleb nltb nmul nsub RNum].
  repeat split; intros; rcase; lra.
Qed.
Print Assumptions C42_proportional_partial.

(** Strategies 2 and 3 (on/off) and 1 (always on above the minimum). *)
Theorem C42_onoff : forall (k : cool R) h tl tg,
  k_kind k = CHvac h -> (k_ctrl k = 2 \/ k_ctrl k = 3)%Z ->
  let t := if (k_ctrl k =? 2)%Z then k_T k else tg in
  exists h', k_kind (cool_control tl tg k) = CHvac h' /\
    (k_T k <= h_Toff h -> h_Qac h' = 0) /\
    (h_Toff h < k_T k -> h_Ton h <= t -> h_Qac h' = h_Q h) /\
    (h_Toff h < k_T k -> t < h_Ton h -> h_Qac h' = h_Qac h).
Proof.
  intros k h tl tg K C. cbv zeta. unfold cool_control. rewrite K.
  destruct (fan_control_T tl tg k) as (ET & EC & _ & _ & _).
  eexists. split; [reflexivity|]. cbn [h_Qac]. unfold ac_control. rewrite EC, ET.
  destruct C as [-> | ->]; cbn [Z.eqb Pos.eqb nleb RNum]; rewrite R_nZ; repeat split; intros; rcase; lra.
Qed.
Print Assumptions C42_onoff.
Example C42_inhabited : forall n c, (1 <= n)%nat -> exists h, k_kind (hvac_make (A := R) n c 0) = CHvac h /\
  0 <= h_Qac h <= h_Q h /\ 0 <= h_gain h.
Proof.
  intros n c Hn. eexists. split; [reflexivity|]. cbn [h_Qac h_Q h_gain]. rewrite R_nlit, R_nnat.
  assert (1 <= INR n) by (change 1 with (INR 1); apply le_INR; exact Hn).
  destruct (c =? 3)%Z, (c =? 5)%Z; cbn [orb nadd nmul ndiv nsub RNum]; rewrite ?R_degC, !R_nZ; repeat split; try lra.
Qed.

(** Finding: the AC is switched on by the fan's gain. With the constructor's settings (AC gain 0.2 per kelvin above 20
    degrees) at 21.5 degrees the AC's own fraction is 0.3, above the switch-on fraction 0.2, yet the AC is off. *)
Theorem C42_switch_on_fraction_refuted : forall n, (1 <= n)%nat -> exists k h h',
  k = with_kT (hvac_make (A := R) n 4 0) (2945 / 10) /\ k_kind k = CHvac h /\
  h_Toff h < k_T k /\ 2 / 10 < h_gain h * (k_T k - h_propT h) /\ 0 < h_Q h /\
  k_kind (cool_control 300 300 k) = CHvac h' /\ h_Qac h' = 0.
Proof.
  intros n Hn. do 3 eexists. split; [reflexivity|]. split; [reflexivity|].
  assert (1 <= INR n) by (change 1 with (INR 1); apply le_INR; exact Hn).
  cbn [h_Toff h_gain h_propT h_Q k_T with_kT Z.eqb Pos.eqb orb]. rewrite ?R_degC, !R_nZ, R_nlit, R_nnat.
  cbn [nadd nmul ndiv nsub RNum].
  split; [lra|]. split; [lra|]. split; [lra|]. split; [reflexivity|].
  cbn [h_Qac]. unfold ac_control, ac_prop. cbn [fan_control k_ctrl with_kT hvac_make with_kind with_kV cool_make with_flow k_T k_gain h_Toff h_propT h_Q h_gain Z.eqb Pos.eqb orb].
  rewrite nmax_R, R_nlit, ?R_degC, !R_nZ. cbn [nadd nmul ndiv nsub nleb nltb RNum].
  replace (Rmax (2945 / 10 - (273 + 20)) 0) with (15 / 10) by (unfold Rmax; destruct (Rle_dec _ _); lra).
  rcase; try reflexivity; exfalso; lra.
Qed.
Print Assumptions C42_switch_on_fraction_refuted.

(** ** C43, coolant part *)

(** The temperature rise times the coolant's heat capacity is the heat received less the heat the AC removes, and the
    lifetime counters add exactly these amounts. *)
Theorem C43_coolant_balance : forall (k k' : cool R) qt qc t Tnew,
  k_rho k * k_cp k * k_V k <> 0 -> cool_dstate qt qc t k = (k', Ok Tnew) ->
  let ac := match k_kind k with CHvac h => h_Qac h * t | _ => 0 end in
  k_rho k * k_cp k * k_V k * (Tnew - k_T k) = qt - ac /\
  u_Qevac_life (k_cum k') = u_Qevac_life (k_cum k) + qc /\
  u_Qabs_life (k_cum k') = u_Qabs_life (k_cum k) + (qt - ac) /\
  u_time_life (k_cum k') = u_time_life (k_cum k) + t /\
  u_Eop (k_cum k') = u_Eop (k_cum k) + exchange_energy k qt qc t.
Proof.
  intros k k' qt qc t Tnew H0. unfold cool_dstate, exchange_energy. destruct (k_kind k) eqn:K.
  1,2: cbn [nadd nsub nmul ndiv RNum]; intros E; injection E as <- <-;
    cbn [k_cum with_cum cum_add u_Qevac_life u_Qabs_life u_time_life u_Eop nadd nsub nmul ndiv RNum];
    repeat split; try lra; set (hc := k_rho k * k_cp k * k_V k) in *; field; exact H0.
  match goal with |- context [if ?b then _ else _] => destruct b eqn:B end; [discriminate|].
  cbn [nadd nsub nmul ndiv RNum]. intros E; injection E as <- <-. 
  cbn [k_cum with_cum with_kind cum_add u_Qevac_life u_Qabs_life u_time_life u_Eop nadd nsub nmul ndiv RNum].
  repeat split; try lra. set (hc := k_rho k * k_cp k * k_V k) in *; field; exact H0.
Qed.
Print Assumptions C43_coolant_balance.

(** An air-conditioned system refuses, with the documented error and unchanged, heat that does not come from its children alone;
    it accepts all other heat, and the other systems accept any. *)
Theorem C43_children_only : forall (k : cool R) qt qc t,
  (exists h, k_kind k = CHvac h) /\ 1 / 1000000000000 < Rabs (qt - qc) /\ cool_dstate qt qc t k = (k, Throw 10) \/
  ((forall h, k_kind k <> CHvac h) \/ Rabs (qt - qc) <= 1 / 1000000000000) /\ exists k' Tnew, cool_dstate qt qc t k = (k', Ok Tnew).
Proof.
  intros k qt qc t. unfold cool_dstate. destruct (k_kind k) as [| |h] eqn:K.
  1,2: right; split; [left; intros h; discriminate|]; eexists; eexists; reflexivity.
  destruct (nltb (nlit 1 1000000000000) (nabs (nsub qt qc))) eqn:B.
  - left. split; [now exists h|]. apply Rltb_true in B. split; [exact B|reflexivity].
  - right. apply Rltb_false in B. split; [right; exact B|]. eexists; eexists; reflexivity.
Qed.
Print Assumptions C43_children_only.
