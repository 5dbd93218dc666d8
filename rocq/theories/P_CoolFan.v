(** * C65: the fan's energy and the convection it buys *)
From Coq Require Import SpecFloat Lra.
From Verif Require Import Base RFacts CoolModel CoolSpec CoolProofs.
Local Open Scope R_scope.

(** Kinetic energy per second of the air of density [rho] that crosses area [Ar] at [flow] cubic metres per second. *)
Definition air_power (rho Ar flow : R) : R := 1 / 2 * (rho * flow) * (flow / Ar) ^ 2.

(** An exchange of [t] seconds without air conditioning: efficiency times energy is the kinetic energy of the air moved. *)
Theorem C65_fan_energy : forall (k k' : cool R) qt qc t Tnew, k_eta k <> 0 -> k_Across k <> 0 ->
  (forall h, k_kind k <> CHvac h) -> cool_dstate qt qc t k = (k', Ok Tnew) ->
  k_eta k * (u_Eop (k_cum k') - u_Eop (k_cum k)) = air_power (k_rho k) (k_Across k) (k_flow k) * t.
Proof.
  intros k k' qt qc t Tnew He Ha Hk. unfold cool_dstate, fan_power, air_power.
  destruct (k_kind k) as [| |h]; [| |destruct (Hk h eq_refl)]; intros E; apply pair_equal_spec in E; destruct E as [<- _];
    cbn [k_cum with_cum cum_add u_Eop nadd nsub nmul ndiv RNum]; rewrite R_nZ; field; now split.
Qed.
Print Assumptions C65_fan_energy.

(** With air conditioning of power [Q]: plus [COP] times the heat removed if the environment is less than 5 K cooler, otherwise
    the energy of a fan of twice the area that carries the heat away in environment air. *)
Theorem C65_hvac_energy : forall (k k' : cool R) h qt qc t Tnew, k_eta k <> 0 -> k_Across k <> 0 -> k_rho k * k_cp k <> 0 ->
  k_kind k = CHvac h -> cool_dstate qt qc t k = (k', Ok Tnew) ->
  let grows := u_Eop (k_cum k') - u_Eop (k_cum k) in
  let fan := air_power (k_rho k) (k_Across k) (k_flow k) * t / k_eta k in
  (k_T k - 5 < T_ENV -> grows = fan + h_COP h * (h_Qac h * t)) /\
  (T_ENV <= k_T k - 5 -> exists intake, k_rho k * k_cp k * intake * (k_T k - T_ENV) = h_Qac h /\
     grows = fan + air_power (k_rho k) (2 * k_Across k) intake * t / k_eta k).
Proof.
  intros k k' h qt qc t Tnew He Ha Hr Hk. unfold cool_dstate. rewrite Hk.
  match goal with |- context [if ?b then _ else _] => destruct b end; [discriminate|].
  intros E; apply pair_equal_spec in E; destruct E as [<- _]. cbn zeta.
  cbn [k_cum with_cum with_kind cum_add u_Eop nadd nsub nmul ndiv RNum].
  unfold fan_power, ac_energy. rewrite Hk. rewrite !R_nZ. cbn [nadd nsub nmul ndiv RNum].
  set (E := T_ENV). assert (Hrho : k_rho k <> 0) by (intros Hc; rewrite Hc in Hr; lra). assert (Hcp : k_cp k <> 0) by (intros Hc; rewrite Hc in Hr; lra).
  assert (HF : k_rho k * k_Across k * (k_flow k / k_Across k * (k_flow k / k_Across k) * (k_flow k / k_Across k)) / 2 / k_eta k * t =
               air_power (k_rho k) (k_Across k) (k_flow k) * t / k_eta k) by (unfold air_power; field; now split).
  rewrite HF. 
  destruct (@neqb R RNum (h_Qac h) 0) eqn:Eq; [apply Reqb_true in Eq|apply Reqb_false in Eq].
  { cbn [orb]. rewrite Eq. split; [intros _; lra|]. intros H. exists 0. split; [lra|]. unfold air_power. field. now split. }
  destruct (@neqb R RNum t 0) eqn:Et; [apply Reqb_true in Et|apply Reqb_false in Et].
  { cbn [orb]. rewrite Et. split; [intros _; lra|]. intros H. exists (h_Qac h / (k_rho k * k_cp k * (k_T k - E))). split; [field; repeat split; try assumption; lra|]. lra. }
  cbn [orb]. destruct (nltb (k_T k - 5) E) eqn:Elt; [apply Rltb_true in Elt|apply Rltb_false in Elt]; (split; intros H; [try lra|try lra]).
  exists (h_Qac h / (k_rho k * k_cp k * (k_T k - E))). split; [field; repeat split; try assumption; lra|].
  unfold air_power. field. repeat split; try assumption; lra.
Qed.
Print Assumptions C65_hvac_energy.

(** A stopped fan costs nothing; of two flows, the larger costs more. *)
Theorem C65_fan_monotone : forall rho Ar f1 f2, 0 < rho -> 0 < Ar -> 0 <= f1 < f2 ->
  air_power rho Ar 0 = 0 /\ air_power rho Ar f1 < air_power rho Ar f2.
Proof.
  intros rho Ar f1 f2 Hr HA [H0 H1]. unfold air_power. split; [unfold Rdiv; ring|].
  replace (1 / 2 * (rho * f1) * (f1 / Ar) ^ 2) with (rho / (2 * (Ar * Ar)) * (f1 * f1 * f1)) by (field; lra).
  replace (1 / 2 * (rho * f2) * (f2 / Ar) ^ 2) with (rho / (2 * (Ar * Ar)) * (f2 * f2 * f2)) by (field; lra).
  assert (0 < rho / (2 * (Ar * Ar))) by (apply Rdiv_lt_0_compat; [lra|]; apply Rmult_lt_0_compat; [lra|]; now apply Rmult_lt_0_compat).
  apply Rmult_lt_compat_l; [assumption|]. assert (f1 * f1 <= f2 * f2) by nra.
  apply Rle_lt_trans with (f2 * f2 * f1); [apply Rmult_le_compat_r; lra|]. apply Rmult_lt_compat_l; [apply Rmult_lt_0_compat; lra|lra].
Qed.
Print Assumptions C65_fan_monotone.

(** Convection: an open system has a constant coefficient; otherwise a stopped fan convects nothing, a turning one does, and up to
    an air speed of 25 m/s a larger flow convects more. *)
Theorem C65_convection : forall (k : cool R),
  (k_kind k = COpen -> cool_getH k = 90) /\
  (k_kind k <> COpen -> k_flow k = 0 -> cool_getH k = 0) /\
  (k_kind k <> COpen -> 0 < k_Across k -> 0 < k_flow k <= 25 * k_Across k ->
     12 < cool_getH k /\ forall f, 0 <= f < k_flow k -> cool_getH (with_flow k f) < cool_getH k).
Proof.
  intros k. unfold cool_getH. split; [intros ->; apply R_nZ|].
  split.
  - intros Hk Hf. rewrite Hf, R_nZ. replace (@neqb R RNum 0 0) with true by (symmetry; apply Reqb_true; reflexivity).
    destruct (k_kind k); [reflexivity|destruct (Hk eq_refl)|reflexivity].
  - intros Hk HA [H0 H1].
    assert (Hv : forall f, 0 < f <= k_flow k -> 0 < f / k_Across k <= 25).
    { intros f Hf. split; [apply Rdiv_lt_0_compat; lra|]. apply Rmult_le_reg_r with (k_Across k); [assumption|]. unfold Rdiv. rewrite Rmult_assoc, Rinv_l by lra. lra. }
    assert (Hs : forall v, 0 < v <= 25 -> 0 < sqrt v <= 5 /\ sqrt v * sqrt v = v).
    { intros v Hv'. split; [split; [apply sqrt_lt_R0; lra|]|apply sqrt_sqrt; lra]. replace 5 with (sqrt (5 * 5)) by (apply sqrt_square; lra). apply sqrt_le_1; lra. }
    assert (Hpos : forall v, 0 < v <= 25 -> 12 < 1212 / 100 - 116 / 100 * v + 116 / 10 * sqrt v).
    { intros v Hv'. destruct (Hs v Hv') as [[S1 S2] S3]. nra. }
    assert (G : forall f, 0 < f -> (match k_kind k with COpen => nZ 90 | _ => if neqb f (nZ 0) then nZ 0 else nadd (nsub (nlit 1212 100) (nmul (nlit 116 100) (ndiv f (k_Across k)))) (nmul (nlit 116 10) (nsqrt (ndiv f (k_Across k)))) end) =
       1212 / 100 - 116 / 100 * (f / k_Across k) + 116 / 10 * sqrt (f / k_Across k)).
    { intros f Hf. rewrite !R_nZ, !R_nlit. cbn [nadd nsub nmul ndiv nsqrt RNum]. replace (@neqb R RNum f 0) with false by (symmetry; apply Reqb_false; lra).
      destruct (k_kind k); [reflexivity|destruct (Hk eq_refl)|reflexivity]. }
    cbn zeta. rewrite (G (k_flow k) H0). split; [apply Hpos, Hv; lra|].
    intros f [F0 F1]. cbn [with_flow k_kind k_flow k_Across].
    destruct (Req_dec f 0) as [->|Hn].
    + rewrite R_nZ. replace (@neqb R RNum 0 0) with true by (symmetry; apply Reqb_true; reflexivity).
      assert (12 < 1212 / 100 - 116 / 100 * (k_flow k / k_Across k) + 116 / 10 * sqrt (k_flow k / k_Across k)) by (apply Hpos, Hv; lra).
      destruct (k_kind k); [lra|destruct (Hk eq_refl)|lra].
    + rewrite (G f) by lra. destruct (Hv f ltac:(lra)) as [V1 V2]. destruct (Hv (k_flow k) ltac:(lra)) as [W1 W2].
      assert (HV : f / k_Across k < k_flow k / k_Across k) by (apply Rmult_lt_compat_r; [apply Rinv_0_lt_compat|]; lra).
      destruct (Hs _ (conj V1 V2)) as [[S1 S2] S3]. destruct (Hs _ (conj W1 W2)) as [[S4 S5] S6].
      assert (Hsq : sqrt (f / k_Across k) < sqrt (k_flow k / k_Across k)) by (apply sqrt_lt_1; lra). nra.
Qed.
Print Assumptions C65_convection.

(** Beyond that speed more flow convects less: at 100 m/s less than at 25 m/s, and the proportional fan's flow has no upper limit. *)
Theorem C65_fast_fan_refuted : forall (k : cool R), k_kind k = CBase -> 0 < k_Across k ->
  cool_getH (with_flow k (100 * k_Across k)) < cool_getH (with_flow k (25 * k_Across k)).
Proof.
  intros k Hk HA. unfold cool_getH. cbn [with_flow k_kind k_flow k_Across]. rewrite Hk. rewrite !R_nZ, !R_nlit. cbn [nadd nsub nmul ndiv nsqrt RNum].
  replace (@neqb R RNum (100 * k_Across k) 0) with false by (symmetry; apply Reqb_false; nra). replace (@neqb R RNum (25 * k_Across k) 0) with false by (symmetry; apply Reqb_false; nra).
  replace (100 * k_Across k / k_Across k) with 100 by (field; lra). replace (25 * k_Across k / k_Across k) with 25 by (field; lra).
  replace (sqrt 100) with 10 by (symmetry; replace 100 with (10 * 10) by lra; apply sqrt_square; lra).
  replace (sqrt 25) with 5 by (symmetry; replace 25 with (5 * 5) by lra; apply sqrt_square; lra). lra.
Qed.
Print Assumptions C65_fast_fan_refuted.

(** The cooling system of a module of 3 cells has efficiency 1/2, a positive area and 20 m/s at full flow (flowrate_perCell). *)
Example C65_inhabited : let k := cool_make (A := R) 3 1 in
  k_kind k = CBase /\ 0 < k_Across k /\ k_eta k <> 0 /\ 0 < k_flow k <= 25 * k_Across k.
Proof.
  cbn zeta. unfold cool_make. cbn [k_kind k_Across k_eta k_flow]. unfold flowrate_perCell, nnat. cbn [Z.of_nat Pos.of_succ_nat Pos.succ]. rewrite !R_nlit, ?R_nZ. cbn [nmul RNum Z.of_nat Pos.of_succ_nat Pos.succ]. split; [reflexivity|]. repeat split; lra.
Qed.
