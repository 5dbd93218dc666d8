(** * C93 and C94 with contact resistances: parallel modules balance and reach a voltage at their terminals *)
From Coq Require Import List Lra Lia.
From Verif Require Import Base RFacts StatusModel StatusProofs UtilModel CellModel CellSpec CellProofs CoolModel ModuleModel ModuleSpec ModuleExamples
  ConvSpec ConvProofs P_Conv P_ConvStr LadderSpec LadderProofs.
Import ListNotations.
Local Open Scope R_scope.

Notation currents l := (map (fun c => e_I (es (u_ecm c))) l).

Lemma drop_S r rc i is j : contact_drop (r :: rc) (i :: is) (S j) = r * Rsum (i :: is) + contact_drop rc is j.
Proof.
  unfold contact_drop. change (seq 0 (S (S j))) with (0%nat :: seq 1 (S j)). rewrite <- seq_shift, map_cons, map_map. cbn [Rsum nth skipn]. reflexivity.
Qed.
Lemma seen_nth {Tag} : forall (bs : list (branch Tag)) rc is, length rc = length bs -> length is = length bs ->
  forall j v, nth_error (volts bs is) j = Some v -> nth_error (seen rc bs is) j = Some (v - contact_drop rc is j).
Proof.
  induction bs as [|b bs IH]; intros [|r rc] [|i is] L1 L2 j v H; try discriminate; [destruct j; discriminate|].
  unfold volts in *. cbn [combine map seen] in *. unfold shift. destruct j as [|j]; cbn [nth_error map] in *.
  - injection H as <-. f_equal. unfold contact_drop. cbn [seq map Rsum nth skipn]. ring.
  - assert (X := IH rc is ltac:(auto) ltac:(auto) j v H). rewrite (map_nth_error _ _ _ X). f_equal. rewrite drop_S. ring.
Qed.
Lemma volts_fun (l : list (ecmu R)) : forall vs ws, Forall2 (fun c x => ecm_V (u_ecm c) = Ok x) l vs -> Forall2 (fun c x => ecm_V (u_ecm c) = Ok x) l ws -> vs = ws.
Proof.
  induction l as [|c l IH]; intros vs ws H1 H2; inversion H1; inversion H2; subst; [reflexivity|]. f_equal; [congruence|auto].
Qed.
Lemma F2_len {X Y} (P : X -> Y -> Prop) l m : Forall2 P l m -> length l = length m.
Proof. induction 1; cbn; auto. Qed.
Lemma nth_ext' {X} : forall (l m : list X), length l = length m -> (forall j x, nth_error l j = Some x -> nth_error m j = Some x) -> l = m.
Proof.
  induction l as [|x l IH]; intros [|y m] L H; try discriminate; [reflexivity|]. f_equal.
  - assert (E := H 0%nat x eq_refl). cbn in E. congruence.
  - apply IH; [auto|]. intros j z Hz. exact (H (S j) z Hz).
Qed.

(** The terminals see what the loop computes. *)
Lemma terminals_seen lo hi rc l l' is : brs (cell_br lo hi) l' (map as_branch l) is -> length rc = length l ->
  forall ts, terminals rc l' ts <-> ts = seen rc (map as_branch l) is.
Proof.
  intros B Lr ts. destruct (brs_cells lo hi l l' is B) as (H1 & H2 & H3). destruct (brs_len _ _ _ _ B) as [L1 L2]. rewrite map_length in L1, L2.
  assert (LV := F2_len _ _ _ H3). assert (LS := seen_len (map as_branch l) rc is ltac:(rewrite map_length; auto) ltac:(rewrite map_length; auto)). rewrite map_length in LS.
  assert (SN := seen_nth (map as_branch l) rc is ltac:(rewrite map_length; auto) ltac:(rewrite map_length; auto)).
  unfold terminals. rewrite H2. split.
  - intros (vs & V & L & T). rewrite (volts_fun _ _ _ V H3) in T. symmetry. apply nth_ext'; [lia|]. intros j x Hx.
    destruct (nth_error (volts (map as_branch l) is) j) as [v|] eqn:E.
    + rewrite (SN j v E) in Hx. rewrite (T j v E). exact Hx.
    + exfalso. apply nth_error_None in E. assert (j < length (seen rc (map as_branch l) is))%nat by (apply nth_error_Some; congruence). lia.
  - intros ->. exists (volts (map as_branch l) is). split; [exact H3|]. split; [lia|exact SN].
Qed.
Lemma kind_in c k R0 lo hi l : Forall (of_kind c k R0 lo hi) l -> Forall (in_limits lo hi) l.
Proof. apply Forall_impl. intros x H. apply H. Qed.
Lemma kind_br c k R0 lo hi l : Forall (of_kind c k R0 lo hi) l -> Forall (fun b => b_c b = c /\ k <= c * b_r b /\ b_r b <= R0) (map as_branch l).
Proof. intros H. apply Forall_map. eapply Forall_impl; [|exact H]. intros x (_ & X). exact X. Qed.
Lemma start_volts lo hi m M l : Forall (in_limits lo hi) l -> lo <= m -> M <= hi -> Forall (between m M) l -> Forall (within m M) (volts (map as_branch l) (currents l)).
Proof.
  intros HL H1 H2 W. apply (volts_between m M l).
  - eapply Forall_impl; [|exact HL]. intros c (X1 & X2 & X3). split; [exact X1|]. lra.
  - apply map_length.
  - clear -W. induction W as [|c l H _ IH]; constructor; [rewrite carrying_self; exact H|auto].
Qed.
Lemma end_between lo hi l' vs : Forall2 (fun c x => ecm_V (u_ecm c) = Ok x) l' vs -> Forall (within lo hi) vs -> Forall (between lo hi) l'.
Proof.
  induction 1 as [|c x l0 l1 H _ IH]; intros W; constructor; apply Forall_cons_iff in W; destruct W as [W1 W]; [|auto]. exists x. split; [exact H|exact W1].
Qed.
Lemma spread_deviations y ts : spread y ts = deviations y ts.
Proof. rewrite spread_R. reflexivity. Qed.
Lemma margin G k lo : 0 <= G -> 0 < k -> lo <= lo + G / k.
Proof. intros H K. assert (0 <= G / k) by (apply Rmult_le_pos; [auto|left; apply Rinv_0_lt_compat; auto]). lra. Qed.
Lemma margin' G k hi : 0 <= G -> 0 < k -> hi - G / k <= hi.
Proof. intros H K. assert (X := margin G k 0 H K). lra. Qed.

(** Equal capacities [c], resistances up to [R0], contact resistances so small that [c * (R0 + ladder rc) <= 1]; the voltages seen from
    the terminals deviate by at most [G] (root of the squares), and the cells are [G / k] away from their limits. Then the redistribution
    succeeds, changes nothing but currents, keeps their total and makes the terminals agree. *)
Theorem C93_contact : forall c k R0 lo hi rc l ts y G, 0 < k <= 1 -> 0 < R0 -> 0 < c -> 0 < lo -> (2 <= length l <= 100)%nat ->
  length rc = length l -> Forall (fun r => 0 <= r) rc -> c * (R0 + ladder rc) <= 1 -> Forall (of_kind c k R0 lo hi) l ->
  terminals rc l ts -> 0 <= G -> squares y ts <= G * G -> Forall (between (lo + G / k) (hi - G / k)) l ->
  INR (length l) * (G * (1 - k) ^ 2499 * (G * (1 - k) ^ 2499)) < / 10 ^ 20 ->
  exists l' ts' y', p_redistribute ecm_ops rc l = (l', Ok Success) /\ only_currents l l' /\ Forall (between lo hi) l' /\
    total_I l' = total_I l /\ terminals rc l' ts' /\ deviations y' ts' < / 10 ^ 10.
Proof.
  intros c k R0 lo hi rc l ts y G Hk HR0 Hc Hlo N Lr HR HL HF HT HG Q W T. assert (HI := kind_in _ _ _ _ _ _ HF). assert (B := cells_brs lo hi l HI).
  apply (terminals_seen _ _ _ _ _ _ B Lr) in HT. subst ts.
  destruct (redistribute_seen ecm_ops (cell_br lo hi) lo hi (cell_V lo hi) ltac:(intros s b i (_ & -> & _); reflexivity)
     ltac:(intros s b i (-> & -> & _); reflexivity) (cell_set lo hi Hlo) c k R0 rc l _ _ G y Hk HR0 Hc (kind_br _ _ _ _ _ _ HF) HR HL Lr N B HG Q
     (start_volts lo hi _ _ l HI (margin G k lo HG (proj1 Hk)) (margin' G k hi HG (proj1 Hk)) W) T) as (l' & is' & E & B' & W' & S & Z).
  destruct (brs_cells lo hi l l' is' B') as (H1 & H2 & H3). eexists l', _, _. split; [exact E|]. split; [exact H1|].
  split; [exact (end_between _ _ _ _ H3 W')|]. split; [unfold total_I; rewrite H2; exact Z|].
  split; [apply (terminals_seen _ _ _ _ _ _ B' Lr); reflexivity|]. rewrite <- spread_deviations. exact S.
Qed.
Print Assumptions C93_contact.

(** The command of a current starts from the equal shares. *)
Definition shared (Inew : R) (l : list (ecmu R)) : list (ecmu R) :=
  map (fun c => carrying (e_I (es (u_ecm c)) + (Inew - total_I l) / INR (length l)) c) l.
Lemma shared_brs lo hi dI l : Forall (in_limits lo hi) l ->
  brs (cell_br lo hi) (map (fun c => carrying (e_I (es (u_ecm c)) + dI) c) l) (map as_branch l) (map (fun i => i + dI) (currents l)).
Proof. induction 1 as [|c l G _ IH]; cbn; constructor; auto. split; [reflexivity|]. split; [reflexivity|exact G]. Qed.
Lemma shared_in lo hi dI l : Forall (in_limits lo hi) l -> Forall (in_limits lo hi) (map (fun c => carrying (e_I (es (u_ecm c)) + dI) c) l).
Proof. intros H. apply Forall_map. eapply Forall_impl; [|exact H]. intros c X. exact X. Qed.
Lemma F2_within lo hi l vs : Forall2 (fun c x => ecm_V (u_ecm c) = Ok x) l vs -> Forall (between lo hi) l -> Forall (within lo hi) vs.
Proof.
  induction 1 as [|c x l0 l1 H _ IH]; intros W; constructor; apply Forall_cons_iff in W; destruct W as [(v & W1 & W2) W]; [|auto].
  rewrite H in W1. injection W1 as ->. exact W2.
Qed.
Theorem C93_contact_setCurrent : forall c k R0 lo hi rc l ts y G Inew, 0 < k <= 1 -> 0 < R0 -> 0 < c -> 0 < lo -> (1 <= length l <= 100)%nat ->
  length rc = length l -> Forall (fun r => 0 <= r) rc -> c * (R0 + ladder rc) <= 1 -> Forall (of_kind c k R0 lo hi) l ->
  terminals rc (shared Inew l) ts -> 0 <= G -> squares y ts <= G * G -> Forall (between (lo + G / k) (hi - G / k)) (shared Inew l) ->
  INR (length l) * (G * (1 - k) ^ 10549 * (G * (1 - k) ^ 10549)) < / 10 ^ 18 ->
  exists l' ts' y', p_setCurrent ecm_ops Inew rc l = (l', Ok Success) /\ only_currents l l' /\ Forall (between lo hi) l' /\
    total_I l' = Inew /\ terminals rc l' ts' /\ deviations y' ts' < / 10 ^ 9.
Proof.
  intros c k R0 lo hi rc l ts y G Inew Hk HR0 Hc Hlo N Lr HR HL HF HT HG Q W T. assert (HI := kind_in _ _ _ _ _ _ HF). assert (B := cells_brs lo hi l HI).
  unfold shared in HT, W. assert (BS := shared_brs lo hi ((Inew - total_I l) / INR (length l)) l HI).
  apply (terminals_seen _ _ _ _ _ _ BS Lr) in HT. subst ts. destruct (brs_cells _ _ _ _ _ BS) as (_ & _ & V1).
  destruct (set_current_seen ecm_ops (cell_br lo hi) lo hi (cell_V lo hi) ltac:(intros s b i (_ & -> & _); reflexivity)
     ltac:(intros s b i (-> & -> & _); reflexivity) (cell_set lo hi Hlo) c k R0 rc l _ _ G y Inew Hk HR0 Hc (kind_br _ _ _ _ _ _ HF) HR HL Lr N B HG Q
     (F2_within _ _ _ _ V1 W) T) as (l' & is' & E & B' & W' & S & Z).
  destruct (brs_cells lo hi l l' is' B') as (H1 & H2 & H3). eexists l', _, _. split; [exact E|]. split; [exact H1|].
  split; [exact (end_between _ _ _ _ H3 W')|]. split; [unfold total_I; rewrite H2; exact Z|].
  split; [apply (terminals_seen _ _ _ _ _ _ B' Lr); reflexivity|]. rewrite <- spread_deviations. exact S.
Qed.
Print Assumptions C93_contact_setCurrent.

(** A time step of a parallel module with contact resistances. *)
Theorem C93_contact_timeStep : forall tm c k R0 lo hi dt n m l1 ts y G, m_series (mm m) = false -> m_top (mm m) = false -> 0 <= dt ->
  Forall2 (fun c d => o_timeStep ecm_ops dt n c = (d, Ok tt)) (ms m) l1 ->
  0 < k <= 1 -> 0 < R0 -> 0 < c -> 0 < lo -> (2 <= length l1 <= 100)%nat -> length (m_rc (mm m)) = length l1 ->
  Forall (fun r => 0 <= r) (m_rc (mm m)) -> c * (R0 + ladder (m_rc (mm m))) <= 1 -> Forall (of_kind c k R0 lo hi) l1 ->
  terminals (m_rc (mm m)) l1 ts -> 0 <= G -> squares y ts <= G * G -> Forall (between (lo + G / k) (hi - G / k)) l1 ->
  INR (length l1) * (G * (1 - k) ^ 2499 * (G * (1 - k) ^ 2499)) < / 10 ^ 20 ->
  exists m' ts' y', mod_timeStep ecm_ops tm dt n m = (m', Ok tt) /\ only_currents l1 (ms m') /\ Forall (between lo hi) (ms m') /\
    total_I (ms m') = total_I l1 /\ terminals (m_rc (mm m)) (ms m') ts' /\ deviations y' ts' < / 10 ^ 10.
Proof.
  intros tm c k R0 lo hi dt n m l1 ts y G Hs Ht Hd F Hk HR0 Hc Hlo N Lr HR HL HF HT HG Q W T.
  destruct (C93_contact c k R0 lo hi _ l1 ts y G Hk HR0 Hc Hlo N Lr HR HL HF HT HG Q W T) as (l' & ts' & y' & E & Q').
  clear T. assert (EC : exists us, each (o_timeStep ecm_ops dt n) (ms m) = (l1, Ok us)).
  { clear -F. induction F as [|x d lc ld H _ [us IH]]; [exists []; reflexivity|]. cbn [each]. rewrite H, IH. eexists. reflexivity. }
  destruct EC as [us EC].
  unfold mod_timeStep. replace (nltb dt (nZ 0)) with false by (symmetry; apply Rltb_false; rewrite R_nZ; lra).
  unfold step_children. rewrite EC. unfold mod_heat_step. cbn [mm ms]. rewrite Hs, Ht.
  destruct (m_block (mm m)); cbn [mm ms inval set_V set_cool set_therm m_rc]; rewrite E; cbn [status_eqb];
    eexists _, ts', y'; (split; [reflexivity|exact Q']).
Qed.
Print Assumptions C93_contact_timeStep.

Lemma only_brs lo hi : forall l l', only_currents l l' -> Forall (in_limits lo hi) l -> brs (cell_br lo hi) l' (map as_branch l) (currents l').
Proof.
  induction 1 as [|c d l l' H _ IH]; intros G; [constructor|]. apply Forall_cons_iff in G. destruct G as [G1 G]. cbn [map]. constructor; [|auto].
  split; [reflexivity|]. split; [exact H|exact G1].
Qed.
Lemma lin_back : forall xs ys, length xs = length ys -> lin 1 ys (lin (-1) xs ys) = xs.
Proof. unfold lin. induction xs as [|x xs IH]; intros [|y ys] L; try discriminate; [reflexivity|]. cbn [combine map]. f_equal; [ring|apply IH; auto]. Qed.
Lemma flat_lin y v : forall ws us, Forall (fun t => t = v) ws -> length us = length ws -> map (fun x => y - x) (lin (- 1) ws us) = shift (y - v) us.
Proof.
  unfold lin, shift. induction ws as [|w ws IH]; intros [|u us] F L; try discriminate; [reflexivity|]. apply Forall_cons_iff in F. destruct F as [-> F].
  cbn [combine map]. f_equal; [ring|apply IH; auto].
Qed.
Lemma abs_nonneg xs : 0 <= Rsum (map Rabs xs).
Proof. apply Rsum_nonneg, Forall_map, Forall_forall. intros x _. apply Rabs_pos. Qed.
Lemma sq_abs xs : sq xs <= Rsum (map Rabs xs) * Rsum (map Rabs xs).
Proof.
  induction xs as [|x xs IH]; [unfold sq; cbn; lra|]. assert (A := abs_nonneg xs). assert (B := Rabs_pos x). unfold sq in *. cbn [map Rsum].
  assert (XX : Rabs x * Rabs x = x * x) by (rewrite <- Rabs_mult; apply Rabs_pos_eq, Rle_0_sqr).
  assert (0 <= Rabs x * Rsum (map Rabs xs)) by (apply Rmult_le_pos; auto). lra.
Qed.
Lemma split_len {Tag} r0 (bs : list (branch Tag)) rc z a : 0 <= r0 -> length rc = length bs -> length z = length bs -> Forall (fun b => r0 <= b_r b) bs ->
  Forall (fun r => 0 <= r) rc -> Rsum z = 0 -> r0 * r0 * sq z <= sq (shift a (imp rc bs z)).
Proof.
  intros H L1 L2 HB HR HZ. assert (LM := imp_len bs rc z L1 L2). assert (I := ip_imp r0 bs rc z L1 L2 H HB HR). set (e := shift a (imp rc bs z)).
  assert (E : ip z e = ip z (imp rc bs z)) by (unfold e; rewrite ip_shift, HZ by lia; ring).
  assert (LE : length e = length z) by (unfold e; rewrite shift_len; lia).
  assert (X := sq_nonneg (lin (- r0) e z)). rewrite sq_lin, (ip_comm e z), E in X by lia.
  apply (Rmult_le_compat_l r0) in I; [|exact H]. lra.
Qed.
(** The currents found are those of the circuit laws with the contact resistances: compare them with the same cells carrying the same total
    at a common voltage of the terminals. *)
Theorem C93_contact_split : forall lo hi r0 rc l l1 l2 ts1 ts2 y v tol, 0 <= r0 -> length rc = length l -> Forall (fun r => 0 <= r) rc ->
  Forall (in_limits lo hi) l -> Forall (fun c => r0 <= p_Rdc (ep (u_ecm c))) l -> only_currents l l1 -> only_currents l l2 -> total_I l1 = total_I l2 ->
  terminals rc l1 ts1 -> deviations y ts1 < tol -> terminals rc l2 ts2 -> Forall (fun t => t = v) ts2 ->
  Forall2 (fun c d => r0 * Rabs (e_I (es (u_ecm c)) - e_I (es (u_ecm d))) <= tol) l1 l2.
Proof.
  intros lo hi r0 rc l l1 l2 ts1 ts2 y v tol H0 Lr HR HI HB O1 O2 HT T1 D1 T2 D2.
  assert (B1 := only_brs lo hi l l1 O1 HI). assert (B2 := only_brs lo hi l l2 O2 HI).
  apply (terminals_seen _ _ _ _ _ _ B1 Lr) in T1. apply (terminals_seen _ _ _ _ _ _ B2 Lr) in T2. subst ts1 ts2.
  assert (HB' : Forall (fun b => r0 <= b_r b) (map as_branch l)) by (apply Forall_map; exact HB).
  destruct (brs_len _ _ _ _ B1) as [L1 L2]. destruct (brs_len _ _ _ _ B2) as [L3 L4]. unfold total_I in HT.
  set (bs := map as_branch l) in *. assert (Lb : length rc = length bs) by (unfold bs; rewrite map_length; exact Lr).
  set (z := lin (- 1) (currents l1) (currents l2)). assert (LZ : length z = length bs) by (unfold z; rewrite lin_len; lia).
  assert (EZ : currents l1 = lin 1 (currents l2) z) by (unfold z; symmetry; apply lin_back; lia).
  rewrite EZ, (seen_lin 1) in D1 by auto.
  assert (ZZ : Rsum z = 0) by (unfold z; rewrite Rsum_lin by lia; rewrite HT; ring).
  assert (S := split_len r0 bs rc z (y - v) H0 Lb LZ HB' HR ZZ). rewrite <- (flat_lin y v (seen rc bs (currents l2))) in S; [|exact D2|rewrite imp_len, seen_len; auto].
  assert (Q := Rle_trans _ _ _ S (sq_abs _)). rewrite map_map in Q. unfold deviations in D1. replace (- (1)) with (-1) in D1 by ring.
  assert (P : 0 <= Rsum (map (fun x => Rabs (y - x)) (lin (- 1) (seen rc bs (currents l2)) (imp rc bs z)))) by (rewrite <- (map_map (fun x => y - x) Rabs); apply abs_nonneg).
  set (d := Rsum (map (fun x => Rabs (y - x)) _)) in *.
  assert (EA : forall x, In x z -> r0 * Rabs x <= tol).
  { intros x Hx. apply each_sq in Hx. assert (A := Rabs_pos x). assert (X : (r0 * Rabs x) * (r0 * Rabs x) <= d * d).
    { replace (r0 * Rabs x * (r0 * Rabs x)) with (r0 * r0 * (Rabs x * Rabs x)) by ring. rewrite <- Rabs_mult, (Rabs_pos_eq (x * x)) by apply Rle_0_sqr.
      eapply Rle_trans; [|exact Q]. apply Rmult_le_compat_l; [apply Rle_0_sqr|exact Hx]. }
    apply Rsqr_incr_0 in X; [lra|apply Rmult_le_pos; auto|exact P]. }
  assert (LL : length l1 = length l2) by lia. unfold z in EA. clear -EA LL. revert l2 LL EA.
  induction l1 as [|c l1 IH]; intros [|e l2] LL EA; try discriminate; constructor.
  - specialize (EA (e_I (es (u_ecm c)) + - 1 * e_I (es (u_ecm e)))). replace (e_I (es (u_ecm c)) - e_I (es (u_ecm e))) with (e_I (es (u_ecm c)) + - 1 * e_I (es (u_ecm e))) by ring.
    apply EA. left. reflexivity.
  - apply IH; [auto|]. intros x Hx. apply EA. right. exact Hx.
Qed.
Print Assumptions C93_contact_split.

(** A voltage commanded at the terminals of a parallel module with contact resistances is reached there. *)
Theorem C94_contact : forall k R0 v lo hi rc l ts G, 0 < k <= 1 -> 0 < R0 -> 0 < lo -> (length l <= 100)%nat ->
  length rc = length l -> Forall (fun r => 0 <= r) rc -> 200 * (R0 + ladder rc) <= 1 ->
  Forall (in_limits lo hi) l -> Forall (fun c => k <= 200 * p_Rdc (ep (u_ecm c)) /\ p_Rdc (ep (u_ecm c)) <= R0) l ->
  terminals rc l ts -> 0 <= G -> squares v ts <= G * G -> Forall (between (lo + G / k) (hi - G / k)) l ->
  INR (length l) * (G * (1 - k) ^ 49 * (G * (1 - k) ^ 49)) < / 10 ^ 20 ->
  exists l' ts', p_setVoltage ecm_ops v rc l = (l', Ok Success) /\ only_currents l l' /\ Forall (between lo hi) l' /\
    terminals rc l' ts' /\ deviations v ts' < / 10 ^ 10.
Proof.
  intros k R0 v lo hi rc l ts G Hk HR0 Hlo N Lr HR HL HI HB HT HG Q W T. assert (B := cells_brs lo hi l HI).
  apply (terminals_seen _ _ _ _ _ _ B Lr) in HT. subst ts.
  destruct (set_voltage_seen ecm_ops (cell_br lo hi) lo hi (cell_V lo hi) ltac:(intros s b i (_ & -> & _); reflexivity)
     (cell_set lo hi Hlo) k R0 v rc l (map as_branch l) _ G Hk HR0 ltac:(apply Forall_map; exact HB) HR HL Lr N B HG Q
     (start_volts lo hi _ _ l HI (margin G k lo HG (proj1 Hk)) (margin' G k hi HG (proj1 Hk)) W) T) as (l' & is' & E & B' & W' & S).
  destruct (brs_cells lo hi l l' is' B') as (H1 & H2 & H3). eexists l', _. split; [exact E|]. split; [exact H1|].
  split; [exact (end_between _ _ _ _ H3 W')|].
  split; [apply (terminals_seen _ _ _ _ _ _ B' Lr); reflexivity|]. rewrite <- spread_deviations. exact S.
Qed.
Print Assumptions C94_contact.

(** Two full default cells of 16 Ah behind contacts of 20 microohm, and the same two as the equal shares of 201 A. *)
Definition contacts2 : list R := [1 / 50000; 1 / 50000].
Definition seen2 : list R := [chi - 20402 / 100000; chi - 20804 / 100000].
Lemma two_terminals q : terminals contacts2 [ex_cell q 1 100; ex_cell q 1 101] seen2.
Proof.
  exists [chi - 2 / 1000 * 100; chi - 2 / 1000 * 101]. split; [|split; [reflexivity|]].
  - apply Forall2_cons; [apply full_V|]. apply Forall2_cons; [apply full_V|]. apply Forall2_nil.
  - intros [|[|j]] v H; cbn [nth_error] in H; try (destruct j; discriminate); injection H as <-; unfold contact_drop, contacts2, seen2; cbn; f_equal; lra.
Qed.
Lemma two_squares : squares (chi - 20603 / 100000) seen2 <= 3 / 1000 * (3 / 1000).
Proof. unfold squares, seen2. cbn [map Rsum]. lra. Qed.
Lemma two_kind i j : Forall (of_kind 16 (4 / 125) (2 / 1000) 2 chi) [ex_cell 16 1 i; ex_cell 16 1 j].
Proof.
  repeat apply Forall_cons; try apply Forall_nil; (split; [apply full_in|]);
    (match goal with |- context [ex_cell 16 1 ?i] => destruct (full_par 16 i) as (E1 & E2 & _) end); rewrite E1, E2; repeat split; lra.
Qed.
Lemma two_between q D : 0 <= D <= 1 / 5 -> Forall (between (2 + D) (chi - D)) [ex_cell q 1 100; ex_cell q 1 101].
Proof. intros H. repeat apply Forall_cons; try apply Forall_nil; (eexists; split; [apply full_V|]; unfold chi; lra). Qed.
Lemma two_ladder : ladder contacts2 = 3 / 50000.
Proof. unfold ladder, contacts2. cbn [length INR]. lra. Qed.
Lemma small_product (n : nat) G x e t : 0 <= G <= 1 -> 0 <= x <= e -> INR n * (e * e) < t -> INR n * (G * x * (G * x)) < t.
Proof.
  intros HG Hx H. eapply Rle_lt_trans; [|exact H]. apply Rmult_le_compat_l; [apply pos_INR|].
  assert (X : 0 <= G * x <= e). { split; [apply Rmult_le_pos; lra|]. apply Rle_trans with (1 * x); [apply Rmult_le_compat_r; lra|lra]. }
  apply Rmult_le_compat; lra.
Qed.
Lemma few_2499 : 1 * (1 - 4 / 125) ^ 2499 < / 10 ^ 15.
Proof.
  assert (X := iterations_suffice (4 / 125) 100 1000 ltac:(lra) ltac:(lia) ltac:(lra)). revert X.
  generalize ((1 - 4 / 125) ^ 2499). intros x X. replace (INR 100) with 100 in X by (cbn; lra). lra.
Qed.
Lemma few_10549 : 1 * (1 - 4 / 125) ^ 10549 < / 10 ^ 15.
Proof. apply (fewer 2499 10549 (4 / 125) (/ 10 ^ 15) (/ 10 ^ 15) 1 nat_2499); [lra|lra|apply Rle_refl|apply few_2499]. Qed.
Lemma pow_ge0 n : 0 <= (1 - 4 / 125) ^ n.
Proof. apply pow_le. lra. Qed.

Example C93_contact_inhabited : let l := [ex_cell 16 1 100; ex_cell 16 1 101] in let G := 3 / 1000 in
  Forall (of_kind 16 (4 / 125) (2 / 1000) 2 chi) l /\ Forall (fun r => 0 <= r) contacts2 /\ 16 * (2 / 1000 + ladder contacts2) <= 1 /\
  terminals contacts2 l seen2 /\ squares (chi - 20603 / 100000) seen2 <= G * G /\ Forall (between (2 + G / (4 / 125)) (chi - G / (4 / 125))) l /\
  INR (length l) * (G * (1 - 4 / 125) ^ 2499 * (G * (1 - 4 / 125) ^ 2499)) < / 10 ^ 20 /\ ~ deviations (chi - 20603 / 100000) seen2 < / 10 ^ 10.
Proof.
  cbv zeta. split; [apply two_kind|]. split; [repeat constructor; lra|]. split; [rewrite two_ladder; lra|]. split; [apply two_terminals|].
  split; [apply two_squares|]. split; [apply two_between; lra|]. split.
  - apply (small_product _ _ _ (/ 10 ^ 15)); [lra| |cbn [length INR]; lra]. assert (X := few_2499). rewrite Rmult_1_l in X. split; [apply pow_ge0|left; exact X].
  - unfold deviations, seen2. cbn [map Rsum]. intros H.
    assert (X1 := Rle_abs (chi - 20603 / 100000 - (chi - 20804 / 100000))). assert (X2 := Rabs_pos (chi - 20603 / 100000 - (chi - 20402 / 100000))). lra.
Qed.
Example C93_contact_setCurrent_inhabited : let l := [ex_cell 16 1 0; ex_cell 16 1 1] in let G := 3 / 1000 in
  Forall (of_kind 16 (4 / 125) (2 / 1000) 2 chi) l /\ terminals contacts2 (shared 201 l) seen2 /\
  Forall (between (2 + G / (4 / 125)) (chi - G / (4 / 125))) (shared 201 l) /\
  INR (length l) * (G * (1 - 4 / 125) ^ 10549 * (G * (1 - 4 / 125) ^ 10549)) < / 10 ^ 18.
Proof.
  cbv zeta. assert (E : shared 201 [ex_cell 16 1 0; ex_cell 16 1 1] = [ex_cell 16 1 100; ex_cell 16 1 101]).
  { unfold shared. replace ((201 - total_I [ex_cell 16 1 0; ex_cell 16 1 1]) / INR (length [ex_cell (A := R) 16 1 0; ex_cell 16 1 1])) with 100
      by (unfold total_I; cbn; lra). cbn [map].
    change (carrying ?j (ex_cell 16 1 ?i)) with (ex_cell 16 1 j). cbn [ex_cell u_ecm es e_I]. repeat f_equal; lra. }
  rewrite E. split; [apply two_kind|]. split; [apply two_terminals|]. split; [apply two_between; lra|].
  apply (small_product _ _ _ (/ 10 ^ 15)); [lra| |cbn [length INR]; lra]. assert (X := few_10549). rewrite Rmult_1_l in X. split; [apply pow_ge0|left; exact X].
Qed.
Example C94_contact_inhabited : let l := [ex_cell 10 1 100; ex_cell 10 1 101] in let v := chi - 21 / 100 in let G := 1 / 100 in
  Forall (in_limits 2 chi) l /\ Forall (fun c => 2 / 5 <= 200 * p_Rdc (ep (u_ecm c)) /\ p_Rdc (ep (u_ecm c)) <= 2 / 1000) l /\
  200 * (2 / 1000 + ladder contacts2) <= 1 /\ terminals contacts2 l seen2 /\ squares v seen2 <= G * G /\
  Forall (between (2 + G / (2 / 5)) (chi - G / (2 / 5))) l /\ INR (length l) * (G * (1 - 2 / 5) ^ 49 * (G * (1 - 2 / 5) ^ 49)) < / 10 ^ 20.
Proof.
  cbv zeta. split; [|split; [|split; [|split; [|split; [|split]]]]].
  - repeat apply Forall_cons; try apply Forall_nil; apply full_in.
  - repeat apply Forall_cons; try apply Forall_nil; (match goal with |- context [ex_cell 10 1 ?i] => destruct (full_par 10 i) as (_ & E & _) end); rewrite E; lra.
  - rewrite two_ladder. lra.
  - apply two_terminals.
  - unfold squares, seen2. cbn [map Rsum]. lra.
  - apply two_between. lra.
  - assert (X : 0 <= (1 - 2 / 5) ^ 49 <= / 10 ^ 10 * (2 / 10)) by lra. revert X. generalize ((1 - 2 / 5) ^ 49). intros x X.
    apply (small_product _ _ _ (/ 10 ^ 10 * (2 / 10))); [lra|exact X|]. cbn [length INR]. lra.
Qed.
Example C93_contact_split_inhabited : let l1 := [ex_cell 16 1 100; ex_cell 16 1 101] in let l2 := [ex_cell 16 1 101; ex_cell 16 1 100] in
  only_currents l1 l1 /\ only_currents l1 l2 /\ total_I l1 = total_I l2 /\ Forall (fun c => 2 / 1000 <= p_Rdc (ep (u_ecm c))) l1 /\
  terminals contacts2 l1 seen2 /\ deviations (chi - 20603 / 100000) seen2 < 1 / 200 /\
  exists ts v, terminals contacts2 l2 ts /\ Forall (fun t => t = v) ts.
Proof.
  cbv zeta. split; [repeat constructor|]. split; [repeat constructor|]. split; [unfold total_I; cbn; lra|]. split; [|split; [apply two_terminals|split]].
  - repeat apply Forall_cons; try apply Forall_nil; (match goal with |- context [ex_cell 16 1 ?i] => destruct (full_par 16 i) as (_ & E & _) end); rewrite E; lra.
  - unfold deviations, seen2. cbn [map Rsum]. rewrite Rabs_left, Rabs_right by lra. lra.
  - exists [chi - 20602 / 100000; chi - 20602 / 100000], (chi - 20602 / 100000). split; [|repeat constructor].
    exists [chi - 2 / 1000 * 101; chi - 2 / 1000 * 100]. split; [|split; [reflexivity|]].
    + apply Forall2_cons; [apply full_V|]. apply Forall2_cons; [apply full_V|]. apply Forall2_nil.
    + intros [|[|j]] v H; cbn [nth_error] in H; try (destruct j; discriminate); injection H as <-; unfold contact_drop, contacts2; cbn; f_equal; lra.
Qed.
