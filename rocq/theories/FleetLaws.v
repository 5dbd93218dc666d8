(** * Both kinds of cell are lawful *)
From Coq Require Import List Lia Reals Lra.
From Verif Require Import Base RFacts StatusModel StatusProofs UtilModel CellModel CellSpec CellProofs CoolModel ModuleModel ModuleSpec ModuleProofs ModuleProofs3
  SpmModel SpmUnitModel SpmSpec SpmProofs SpmReal PackSpec FleetModel FleetSpec FleetProofs.
Import ListNotations.
Local Open Scope R_scope.

Definition acc_ecm (e : ecmu R) : account := account_of (inl e).
Definition acc_spm (p : spm R) : account := account_of (inr p).

Lemma check_nonneg v l (i : R) x st : check_voltage v l i = Ok (x, st) -> (0 <= status_val st)%Z.
Proof.
  unfold check_voltage. destruct v as [v| | |]; try discriminate; intros [= <- <-]; [|cbn; lia].
  repeat match goal with |- context [if ?b then _ else _] => destruct b end; cbn; lia.
Qed.

Lemma ecm_lawful : lawful ecm_ops acc_ecm.
Proof.
  constructor; try (intros; reflexivity).
  - intros i b c. unfold si. pose proof (surjective_pairing (o_setCurrent ecm_ops i b c)) as E. apply leaf_setCurrent_frame in E.
    destruct E as (_ & E2 & E3). unfold acc_ecm, account_of, at_current. rewrite E2, E3. reflexivity.
  - intros i b c c' st. cbn. unfold lift_ecm. destruct (ecm_setCurrent i b (u_ecm c)) as [e r] eqn:E. intros [= <- ->].
    unfold ecm_setCurrent in E. destruct (ecm_checkCurrent _ _) as [s| | |]; try discriminate. injection E as <- <-.
    destruct (isStatusBad s); reflexivity.
  - intros i c c' st. cbn. intros [= _ <-]. reflexivity.
  - intros dt k c c'. cbn [ecm_ops o_timeStep]. unfold lift_ecm. destruct (ecm_timeStep_CC dt k (u_ecm c)) as [e r] eqn:E. intros [= <- ->] Hk.
    unfold ecm_timeStep_CC in E. destruct (nltb dt _) eqn:Hd; [discriminate|]. rewrite R_nZ in Hd. apply Rltb_false in Hd.
    pose proof (ecm_steps_frame _ _ _ _ _ E) as (Fp & FI & _). destruct (steps_R _ dt Hd _ _ _ E) as (S1 & S2 & S3 & _).
    rewrite INR_IZR_INZ, Z2Nat.id in * by exact Hk. unfold acc_ecm, account_of, drawn. cbn [u_ecm a_I a_SOC a_Ah a_time a_cap].
    rewrite FI, S1, S2, S3, Fp. f_equal; unfold Rdiv; ring.
  - intros c v st. cbn. unfold ecm_checkVoltage. apply check_nonneg.
Qed.

Section Spm.
Context (F : fns R) (tm : Z).
Lemma spm_V_acc c : acc_spm (fst (spm_V F c)) = acc_spm c.
Proof.
  unfold spm_V. destruct (c_valid c); [reflexivity|]. destruct (calcV F c) as [[v|]| | |]; reflexivity.
Qed.
Lemma spm_check_acc c : acc_spm (fst (spm_checkVoltage F c)) = acc_spm c.
Proof. unfold spm_checkVoltage. pose proof (spm_V_acc c) as H. destruct (spm_V F c) as [c1 v]. exact H. Qed.
Lemma spm_lawful : lawful (spm_ops F tm) acc_spm.
Proof.
  assert (CC : forall b c, acc_spm (fst (spm_checkCurrent F b c)) = acc_spm c).
  { intros [|] c; [|reflexivity]. unfold spm_checkCurrent. pose proof (spm_check_acc c) as H. destruct (spm_checkVoltage F c) as [c1 r]. exact H. }
  constructor; try (intros; reflexivity).
  - exact spm_V_acc.
  - exact spm_check_acc.
  - exact spm_V_acc.
  - exact spm_V_acc.
  - intros i b c. cbn [spm_ops o_setCurrent]. unfold spm_setCurrent.
    pose proof (CC b (set_valid (set_st c (st_I (cs c) i)) false)) as H.
    destruct (spm_checkCurrent F b _) as [c2 r]. cbn [fst] in H.
    assert (K : si acc_spm c c2) by (unfold si; rewrite H; reflexivity).
    destruct r as [st| | |]; try exact K. cbn [fst]. destruct (isStatusBad st); [|exact K].
    unfold si in *. unfold acc_spm, account_of, at_current in *. cbn [a_I a_SOC a_Ah a_time a_cap cs cp set_valid set_st st_V st_I s_I s_SOC s_Ah s_time] in *.
    injection H as H1 H2 H3 H4 H5. congruence.
  - intros i b c c' st. cbn [spm_ops o_setCurrent]. unfold spm_setCurrent.
    pose proof (CC b (set_valid (set_st c (st_I (cs c) i)) false)) as H.
    destruct (spm_checkCurrent F b _) as [c2 r]. cbn [fst] in H. destruct r as [s| | |]; try discriminate. intros [= <- <-].
    destruct (isStatusBad s); [reflexivity|]. rewrite H. reflexivity.
  - intros i c c' st. cbn. intros [= _ <-]. reflexivity.
  - intros dt k c c'. cbn [spm_ops o_timeStep]. intros E Hk. rewrite <- (Z2Nat.id k Hk) in E. apply timeStep_counters in E.
    destruct E as (_ & E1 & E2 & E3 & E4 & E5). rewrite INR_IZR_INZ, Z2Nat.id in * by exact Hk.
    unfold acc_spm, account_of, drawn. cbn [a_I a_SOC a_Ah a_time a_cap]. rewrite E1, E2, E3, E4, E5. unfold Rdiv. rewrite Rinv_mult.
    f_equal; ring.
  - intros c v st. cbn. unfold spm_checkVoltage. destruct (spm_V F c) as [c1 r]. apply check_nonneg.
  - intros c. cbn. unfold spm_checkVoltage. destruct (spm_V F c) as [c1 r] eqn:E. unfold spm_V in E. destruct (c_valid c) eqn:Ev.
    + injection E as <- <-. cbn. unfold spm_V. rewrite Ev. reflexivity.
    + destruct (calcV F c) as [[v|]| | |] eqn:Ec; injection E as <- <-; cbn [fst snd]; unfold spm_V; rewrite ?Ev, ?Ec; reflexivity.
Qed.

Lemma cell_lawful : lawful (cell_ops F tm) account_of.
Proof.
  pose proof ecm_lawful as E. pose proof spm_lawful as P.
  constructor; unfold cell_ops; cbn [sum_ops o_I o_V o_checkV o_Vlow o_Vhigh o_thermal o_setT o_coolload o_setCurrent o_timeStep].
  - intros [c|c]; [exact (lw_I _ _ E c)|exact (lw_I _ _ P c)].
  - intros [c|c]; cbn [both]; unfold on_l, on_r; [pose proof (lw_V _ _ E c) as H|pose proof (lw_V _ _ P c) as H].
    + destruct (o_V ecm_ops c) as [c' r]. exact H.
    + destruct (o_V (spm_ops F tm) c) as [c' r]. exact H.
  - intros [c|c]; cbn [both]; unfold on_l, on_r; [pose proof (lw_check _ _ E c) as H|pose proof (lw_check _ _ P c) as H].
    + destruct (o_checkV ecm_ops c) as [c' r]. exact H.
    + destruct (o_checkV (spm_ops F tm) c) as [c' r]. exact H.
  - intros [c|c]; cbn [both]; unfold on_l, on_r; [pose proof (lw_low _ _ E c) as H|pose proof (lw_low _ _ P c) as H].
    + destruct (o_Vlow ecm_ops c) as [c' r]. exact H.
    + destruct (o_Vlow (spm_ops F tm) c) as [c' r]. exact H.
  - intros [c|c]; cbn [both]; unfold on_l, on_r; [pose proof (lw_high _ _ E c) as H|pose proof (lw_high _ _ P c) as H].
    + destruct (o_Vhigh ecm_ops c) as [c' r]. exact H.
    + destruct (o_Vhigh (spm_ops F tm) c) as [c' r]. exact H.
  - intros nb t [c|c]; cbn [both]; unfold on_l, on_r; [pose proof (lw_thermal _ _ E nb t c) as H|pose proof (lw_thermal _ _ P nb t c) as H].
    + destruct (o_thermal ecm_ops nb t c) as [c' r]. exact H.
    + destruct (o_thermal (spm_ops F tm) nb t c) as [c' r]. exact H.
  - intros t [c|c]; cbn [both]; unfold on_l, on_r; [pose proof (lw_setT _ _ E t c) as H|pose proof (lw_setT _ _ P t c) as H].
    + destruct (o_setT ecm_ops t c) as [c' r]. exact H.
    + destruct (o_setT (spm_ops F tm) t c) as [c' r]. exact H.
  - intros [c|c]; cbn [both]; unfold on_l, on_r; [pose proof (lw_cool _ _ E c) as H|pose proof (lw_cool _ _ P c) as H].
    + destruct (o_coolload ecm_ops c) as [c' r]. exact H.
    + destruct (o_coolload (spm_ops F tm) c) as [c' r]. exact H.
  - intros i b [c|c]; cbn [both]; unfold on_l, on_r; [pose proof (lw_set _ _ E i b c) as H|pose proof (lw_set _ _ P i b c) as H].
    + destruct (o_setCurrent ecm_ops i b c) as [c' r]. exact H.
    + destruct (o_setCurrent (spm_ops F tm) i b c) as [c' r]. exact H.
  - intros i b [c|c] c' st; cbn [both]; unfold on_l, on_r.
    + destruct (o_setCurrent ecm_ops i b c) as [d r] eqn:Q. intros [= <- ->]. exact (lw_set_ok _ _ E i b c d st Q).
    + destruct (o_setCurrent (spm_ops F tm) i b c) as [d r] eqn:Q. intros [= <- ->]. exact (lw_set_ok _ _ P i b c d st Q).
  - intros i [c|c] c' st; cbn [both]; unfold on_l, on_r.
    + destruct (o_setCurrent ecm_ops i false c) as [d r] eqn:Q. intros [= <- ->]. exact (lw_unchecked _ _ E i c d st Q).
    + destruct (o_setCurrent (spm_ops F tm) i false c) as [d r] eqn:Q. intros [= <- ->]. exact (lw_unchecked _ _ P i c d st Q).
  - intros dt k [c|c] c'; cbn [both]; unfold on_l, on_r.
    + destruct (o_timeStep ecm_ops dt k c) as [d r] eqn:Q. intros [= <- ->]. exact (lw_step _ _ E dt k c d Q).
    + destruct (o_timeStep (spm_ops F tm) dt k c) as [d r] eqn:Q. intros [= <- ->]. exact (lw_step _ _ P dt k c d Q).
  - intros [c|c] v st; cbn [both]; unfold on_l, on_r.
    + pose proof (lw_status _ _ E c v st) as H. destruct (o_checkV ecm_ops c) as [d r]. exact H.
    + pose proof (lw_status _ _ P c v st) as H. destruct (o_checkV (spm_ops F tm) c) as [d r]. exact H.
  - intros [c|c]; cbn [both]; unfold on_l, on_r.
    + pose proof (lw_see _ _ E c) as H. destruct (o_V ecm_ops c) as [d r]. cbn [fst both] in *.
      destruct (o_checkV ecm_ops d), (o_checkV ecm_ops c). exact H.
    + pose proof (lw_see _ _ P c) as H. destruct (o_V (spm_ops F tm) c) as [d r]. cbn [fst both] in *.
      destruct (o_checkV (spm_ops F tm) d), (o_checkV (spm_ops F tm) c). exact H.
  - intros [c|c]; cbn [both]; unfold on_l, on_r.
    + pose proof (lw_lows _ _ E c) as H. destruct (o_V ecm_ops c), (o_Vlow ecm_ops c). exact H.
    + pose proof (lw_lows _ _ P c) as H. destruct (o_V (spm_ops F tm) c), (o_Vlow (spm_ops F tm) c). exact H.
  - intros [c|c]; cbn [both]; unfold on_l, on_r.
    + pose proof (lw_highs _ _ E c) as H. destruct (o_V ecm_ops c), (o_Vhigh ecm_ops c). exact H.
    + pose proof (lw_highs _ _ P c) as H. destruct (o_V (spm_ops F tm) c), (o_Vhigh (spm_ops F tm) c). exact H.
Qed.
End Spm.
