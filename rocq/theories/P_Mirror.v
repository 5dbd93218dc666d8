(** * C93 and C94: contact resistances on which balancing and voltage commands never settle *)
From Coq Require Import List Lra Lia.
From Verif Require Import Base RFacts StatusModel StatusProofs UtilModel CellModel CellSpec CellProofs CoolModel ModuleModel ModuleSpec ModuleExamples
  ConvSpec ConvProofs P_Conv P_ConvStr LadderSpec LadderProofs P_Ladder MirrorSpec MirrorProofs.
Import ListNotations.
Local Open Scope R_scope.

Definition line (n : nat) (g h : R) : list R := map (fun j => g * (INR j + h)) (seq 0 n).
Lemma line_len n g h : length (line n g h) = n.
Proof. unfold line. rewrite map_length. apply seq_length. Qed.
Lemma line_bound n g h G : (forall j, (j < n)%nat -> Rabs (g * (INR j + h)) <= G) -> Forall (fun d => Rabs d <= G) (line n g h).
Proof. intros H. apply Forall_map, Forall_forall. intros j Hj. apply in_seq in Hj. apply H. lia. Qed.
Lemma abs_range a b x : - a <= x <= a -> b = a -> Rabs x <= b.
Proof. intros H ->. apply Rabs_le. exact H. Qed.

(** Finding: the cells alone would balance (capacity times resistance at most 1), but with these contact resistances every iteration mirrors the
    deviations of the terminal voltages, and the redistribution fails however small they are. *)
Theorem C93_contact_refuted : forall n lo hi c R0 q r y g l, (2 <= n <= 100)%nat -> 0 < lo -> 0 < c -> 0 <= c * R0 <= 1 -> c * q = 2 ->
  length l = n -> Forall (fun x => in_limits lo hi x /\ p_cap (ep (u_ecm x)) = c /\ p_Rdc (ep (u_ecm x)) = R0) l ->
  terminals (contacts_mean n r q R0) l (equidistant n y g) -> / 10 ^ 10 <= Rabs g ->
  Forall (between (lo + Rabs g * INR n) (hi - Rabs g * INR n)) l ->
  exists l', p_redistribute ecm_ops (contacts_mean n r q R0) l = (l', Ok RedistributeCurrent_failed).
Proof.
  intros n lo hi c R0 q r y g l N Hlo Hc HcR Hq Ln HF HT Hg W.
  assert (HI : Forall (in_limits lo hi) l) by (eapply Forall_impl; [|exact HF]; cbn; tauto).
  assert (B := cells_brs lo hi l HI). set (h := - ((INR n - 1) / 2)). set (ds := line n g h).
  assert (Lr : length (contacts_mean n r q R0) = length l) by (unfold contacts_mean; cbn [length]; rewrite map_length, seq_length; lia).
  apply (terminals_seen _ _ _ _ _ _ B Lr) in HT.
  assert (LD : length ds = length (map as_branch l)) by (unfold ds; rewrite line_len, map_length; auto).
  assert (ED : equidistant n y g = shift y ds).
  { unfold equidistant, ds, line, shift. rewrite map_map. apply map_ext. intros j. unfold h. ring. }
  assert (Z : Rsum ds = 0).
  { unfold ds, line. rewrite sum_line. unfold h. cbn [INR]. field. }
  assert (Gn : 0 <= Rabs g * INR n) by (apply Rmult_le_pos; [apply Rabs_pos|apply pos_INR]).
  assert (HB : Forall (fun b => b_r b = R0) (map as_branch l)) by (apply Forall_map; eapply Forall_impl; [|exact HF]; cbn; tauto).
  assert (W1 := start_volts lo hi (lo + Rabs g * INR n) (hi - Rabs g * INR n) l HI ltac:(lra) ltac:(lra) W).
  assert (DG : Forall (fun d => Rabs d <= Rabs g * INR n) ds).
  { apply line_bound. intros j Hj. rewrite Rabs_mult. apply Rmult_le_compat_l; [apply Rabs_pos|]. apply Rabs_le. unfold h.
    assert (0 <= INR j) by apply pos_INR. assert (INR j <= INR n) by (apply le_INR; lia). assert (0 <= INR n) by apply pos_INR.
    assert (X : 1 <= INR n) by (apply (le_INR 1); lia). lra. }
  apply (redistribute_mirror ecm_ops (cell_br lo hi) lo hi (cell_V lo hi) ltac:(intros s b i (_ & -> & _); reflexivity)
     ltac:(intros s b i (-> & -> & _); reflexivity) (cell_set lo hi Hlo) c _ (map as_branch l) l (currents l) y (- (q - R0) * (g * (INR 0 + h))) ds Hc); auto.
  - apply Forall_map. eapply Forall_impl; [|exact HF]. cbn. tauto.
  - lia.
  - replace (2 / c) with q by (rewrite <- Hq; field; lra).
    apply imp_steps; [rewrite map_length; exact Lr|exact LD|exact HB|]. unfold contacts_mean. unfold ds in *.
    destruct n as [|m]; [lia|]. unfold line in *. cbn [seq map steps]. split; [cbn [seq map] in Z; rewrite Z; ring|].
    replace (S m - 1)%nat with m by lia. exact (steps_mean (S m) (q - R0) g m 1 ltac:(lia) ltac:(lia)).
  - eapply Rle_trans; [exact Hg|]. unfold ds. destruct n as [|[|m]]; [lia|lia|]. unfold line. cbn [seq map Rsum].
    assert (A := abs_nonneg (map (fun j => g * (INR j + h)) (seq 2 m))). change (INR 0) with 0. change (INR 1) with 1.
    assert (T := Rabs_triang (g * (1 + h)) (- (g * (0 + h)))). rewrite Rabs_Ropp in T. replace (g * (1 + h) + - (g * (0 + h))) with g in T by ring. lra.
  - congruence.
  - eapply Forall_impl; [|exact W1]. unfold within. intros; lra.
  - assert (X : Forall (within (lo + Rabs g * INR n - Rabs g * INR n) (hi - Rabs g * INR n + Rabs g * INR n)) (volts (map as_branch l) (lin c (currents l) ds))).
    { eapply volts_move; [rewrite !map_length; reflexivity|exact LD| |exact DG|reflexivity|exact W1]. eapply Forall_impl; [|exact HB]. cbn. intros b ->. exact HcR. }
    eapply Forall_impl; [|exact X]. unfold within. intros; lra.
Qed.
Print Assumptions C93_contact_refuted.

(** Finding: the same for voltage commands, with contacts of a fraction of a milliohm. *)
Theorem C94_contact_refuted : forall n lo hi R0 v g l, (1 <= n <= 100)%nat -> 0 < lo -> 0 <= 200 * R0 <= 1 ->
  length l = n -> Forall (fun x => in_limits lo hi x /\ p_Rdc (ep (u_ecm x)) = R0) l ->
  terminals (contacts_target n R0) l (staircase n v g) -> / 10 ^ 10 <= Rabs g ->
  Forall (between (lo + Rabs g * INR n) (hi - Rabs g * INR n)) l ->
  exists l', p_setVoltage ecm_ops v (contacts_target n R0) l = (l', Ok RedistributeCurrent_failed).
Proof.
  intros n lo hi R0 v g l N Hlo HcR Ln HF HT Hg W.
  assert (HI : Forall (in_limits lo hi) l) by (eapply Forall_impl; [|exact HF]; cbn; tauto).
  assert (B := cells_brs lo hi l HI). set (ds := line n g 1).
  assert (Lr : length (contacts_target n R0) = length l) by (unfold contacts_target; rewrite map_length, seq_length; lia).
  apply (terminals_seen _ _ _ _ _ _ B Lr) in HT.
  assert (LD : length ds = length (map as_branch l)) by (unfold ds; rewrite line_len, map_length; auto).
  assert (ED : staircase n v g = shift v ds).
  { unfold staircase, ds, line, shift. rewrite map_map. apply map_ext. intros j. ring. }
  assert (Gn : 0 <= Rabs g * INR n) by (apply Rmult_le_pos; [apply Rabs_pos|apply pos_INR]).
  assert (HB : Forall (fun b => b_r b = R0) (map as_branch l)) by (apply Forall_map; eapply Forall_impl; [|exact HF]; cbn; tauto).
  assert (W1 := start_volts lo hi (lo + Rabs g * INR n) (hi - Rabs g * INR n) l HI ltac:(lra) ltac:(lra) W).
  assert (DG : Forall (fun d => Rabs d <= Rabs g * INR n) ds).
  { apply line_bound. intros j Hj. rewrite Rabs_mult. apply Rmult_le_compat_l; [apply Rabs_pos|].
    assert (0 <= INR j) by apply pos_INR. rewrite Rabs_pos_eq by lra. rewrite <- S_INR. apply le_INR. lia. }
  apply (set_voltage_mirror ecm_ops (cell_br lo hi) lo hi (cell_V lo hi) ltac:(intros s b i (_ & -> & _); reflexivity)
     (cell_set lo hi Hlo) v _ (map as_branch l) l (currents l) ds); auto.
  - lia.
  - replace (2 / 200) with (1 / 100) by field. rewrite (imp_steps (1 / 100) R0 _ _ _ 0); [rewrite Rmult_0_r; apply shift_0| |exact LD|exact HB|].
    + rewrite map_length. exact Lr.
    + apply (steps_target n (1 / 100 - R0) g n 0 0); [cbn; ring|lia].
  - eapply Rle_trans; [exact Hg|]. unfold ds. destruct n as [|m]; [lia|]. unfold line. cbn [seq map Rsum].
    assert (A := abs_nonneg (map (fun j => g * (INR j + 1)) (seq 1 m))). change (INR 0) with 0. replace (g * (0 + 1)) with g by ring. lra.
  - congruence.
  - eapply Forall_impl; [|exact W1]. unfold within. intros; lra.
  - assert (X : Forall (within (lo + Rabs g * INR n - Rabs g * INR n) (hi - Rabs g * INR n + Rabs g * INR n)) (volts (map as_branch l) (lin 200 (currents l) ds))).
    { eapply volts_move; [rewrite !map_length; reflexivity|exact LD| |exact DG|reflexivity|exact W1]. eapply Forall_impl; [|exact HB]. cbn. intros b ->. exact HcR. }
    eapply Forall_impl; [|exact X]. unfold within. intros; lra.
Qed.
Print Assumptions C94_contact_refuted.

(** Three full default cells of 16 Ah that carry 398.3625 A, 6.275 A and 0.1 A; two that carry 31 A and 10 A. *)
Example C93_contact_refuted_inhabited : let l := [ex_cell 16 1 (3983625 / 10000); ex_cell 16 1 (6275 / 1000); ex_cell 16 1 (1 / 10)] in
  let g := 1 / 20000 in Forall (fun x => in_limits 2 chi x /\ p_cap (ep (u_ecm x)) = 16 /\ p_Rdc (ep (u_ecm x)) = 2 / 1000) l /\
  terminals (contacts_mean 3 0 (1 / 8) (2 / 1000)) l (equidistant 3 (chi - 796675 / 1000000) g) /\
  Forall (between (2 + Rabs g * INR 3) (chi - Rabs g * INR 3)) l.
Proof.
  cbv zeta. split; [|split].
  - repeat apply Forall_cons; try apply Forall_nil; (split; [apply full_in|]);
      (match goal with |- context [ex_cell 16 1 ?i] => destruct (full_par 16 i) as (E1 & E2 & _) end); rewrite E1, E2; split; reflexivity.
  - exists [chi - 2 / 1000 * (3983625 / 10000); chi - 2 / 1000 * (6275 / 1000); chi - 2 / 1000 * (1 / 10)]. split; [|split; [reflexivity|]].
    + repeat (apply Forall2_cons; [apply full_V|]). apply Forall2_nil.
    + intros [|[|[|j]]] x H; cbn [nth_error] in H; try (destruct j; discriminate); injection H as <-; unfold contact_drop, contacts_mean, equidistant; cbn; f_equal; lra.
  - rewrite Rabs_right by lra. cbn [INR]. repeat apply Forall_cons; try apply Forall_nil; (eexists; split; [apply full_V|]; unfold chi; lra).
Qed.
Example C94_contact_refuted_inhabited : let l := [ex_cell 16 1 31; ex_cell 16 1 10] in let g := 2 / 1000 in let v := chi - 64 / 1000 - 16 / 6000 * 41 in
  Forall (fun x => in_limits 2 chi x /\ p_Rdc (ep (u_ecm x)) = 2 / 1000) l /\ terminals (contacts_target 2 (2 / 1000)) l (staircase 2 v g) /\
  Forall (between (2 + Rabs g * INR 2) (chi - Rabs g * INR 2)) l.
Proof.
  cbv zeta. split; [|split].
  - repeat apply Forall_cons; try apply Forall_nil; (split; [apply full_in|]);
      (match goal with |- context [ex_cell 16 1 ?i] => destruct (full_par 16 i) as (_ & E2 & _) end); exact E2.
  - exists [chi - 2 / 1000 * 31; chi - 2 / 1000 * 10]. split; [|split; [reflexivity|]].
    + repeat (apply Forall2_cons; [apply full_V|]). apply Forall2_nil.
    + intros [|[|j]] x H; cbn [nth_error] in H; try (destruct j; discriminate); injection H as <-; unfold contact_drop, contacts_target, staircase; cbn; f_equal; lra.
  - rewrite Rabs_right by lra. cbn [INR]. repeat apply Forall_cons; try apply Forall_nil; (eexists; split; [apply full_V|]; unfold chi; lra).
Qed.
