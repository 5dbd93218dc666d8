(** * C93: balancing of parallel cells converges to the currents of the circuit laws *)
From Coq Require Import List Lra Lia.
From Verif Require Import Base RFacts StatusModel StatusProofs UtilModel CellModel CellSpec CellProofs CoolModel ModuleModel ModuleSpec ModuleExamples ConvSpec ConvProofs.
Import ListNotations.
Local Open Scope R_scope.

Section Cells.
Context (lo hi : R) (Hlo : 0 < lo).
Definition emf (c : ecm R) : R := match ecm_OCV c with Ok x => x - pol (p_Rp (ep c)) (e_Ir (es c)) | _ => 0 end.
Definition as_branch (c : ecmu R) : branch (ecmu R) := mkBr c (emf (u_ecm c)) (p_Rdc (ep (u_ecm c))) (p_cap (ep (u_ecm c))).
Definition cell_br (s : ecmu R) (b : branch (ecmu R)) (i : R) : Prop :=
  b = as_branch (b_t b) /\ s = carrying i (b_t b) /\ in_limits lo hi (b_t b).

Lemma V_carrying c i : (exists x, ecm_OCV (u_ecm c) = Ok x) -> ecm_V (u_ecm (carrying i c)) = Ok (bvolt (as_branch c) i).
Proof.
  intros [x E]. unfold ecm_V, bvolt, as_branch, emf. cbn [carrying u_ecm b_e b_r].
  change (ecm_OCV (mkEcm (ep (u_ecm c)) (with_I (es (u_ecm c)) i))) with (ecm_OCV (u_ecm c)). rewrite E.
  cbn [ep es with_I e_I e_Ir]. rewrite sub_drops_pol. f_equal. cbn. ring.
Qed.
Lemma carrying_twice i j c : carrying j (carrying i c) = carrying j c.
Proof. destruct c as [b [p s]]. reflexivity. Qed.
Lemma carrying_self c : carrying (e_I (es (u_ecm c))) c = c.
Proof. destruct c as [b [p [? ? ? ? ? ? ?]]]. reflexivity. Qed.

Lemma cell_V s b i : cell_br s b i -> exists s', o_V (ecm_ops (A := R)) s = (s', Ok (bvolt b i)) /\ cell_br s' b i.
Proof.
  intros (Hb & -> & G). exists (carrying i (b_t b)). split; [|split; auto]. cbn [ecm_ops o_V].
  rewrite V_carrying by apply G. rewrite <- Hb. reflexivity.
Qed.
Lemma cell_set s b i j : cell_br s b i -> lo <= bvolt b j <= hi ->
  exists s' st, o_setCurrent (ecm_ops (A := R)) j true s = (s', Ok st) /\ isStatusOK st = true /\ cell_br s' b j.
Proof.
  intros (Hb & -> & G) W. cbn [ecm_ops o_setCurrent]. unfold lift_ecm, ecm_setCurrent.
  assert (EV := V_carrying (b_t b) j (proj1 G)). rewrite <- Hb in EV.
  destruct G as (G0 & L1 & L2). assert (G := conj G0 (conj L1 L2)).
  assert (CK : exists st, ecm_checkCurrent true (mkEcm (ep (u_ecm (carrying i (b_t b)))) (with_I (es (u_ecm (carrying i (b_t b)))) j))
     = Ok st /\ isStatusOK st = true).
  { change (mkEcm (ep (u_ecm (carrying i (b_t b)))) (with_I (es (u_ecm (carrying i (b_t b)))) j)) with (u_ecm (carrying j (b_t b))).
    unfold ecm_checkCurrent, ecm_checkVoltage. rewrite EV. unfold check_voltage. cbn [rmap rbind snd].
    replace (nleb (bvolt b j) (nZ 0)) with false by (symmetry; apply Rleb_false; rewrite R_nZ; lra).
    cbn [carrying u_ecm ep].
    replace (nltb (bvolt b j) (l_VMIN (p_lim (ep (u_ecm (b_t b)))))) with false by (symmetry; apply Rltb_false; lra).
    replace (nltb (l_VMAX (p_lim (ep (u_ecm (b_t b))))) (bvolt b j)) with false by (symmetry; apply Rltb_false; lra).
    cbn [andb]. eexists. split; [reflexivity|].
    repeat match goal with |- context [if ?x then _ else _] => destruct x end; reflexivity. }
  destruct CK as (st & E & S). rewrite E. unfold isStatusBad. rewrite S. cbn [negb].
  eexists _, st. split; [reflexivity|]. split; [exact S|]. split; [exact Hb|]. split; [reflexivity|exact G].
Qed.

Lemma cells_brs l : Forall (in_limits lo hi) l ->
  brs cell_br l (map as_branch l) (map (fun c => e_I (es (u_ecm c))) l).
Proof.
  induction 1 as [|c l G _ IH]; cbn; constructor; auto. split; [reflexivity|]. split; [|exact G]. cbn. symmetry. apply carrying_self.
Qed.
Lemma brs_cells l : forall l' is, brs cell_br l' (map as_branch l) is -> only_currents l l' /\ map (fun c => e_I (es (u_ecm c))) l' = is /\
  Forall2 (fun c x => ecm_V (u_ecm c) = Ok x) l' (volts (map as_branch l) is).
Proof.
  induction l as [|c l IH]; intros l' is B; inversion B as [|s l1 b bs i is1 (Hb & Hs & G) B1]; subst.
  - repeat split; constructor.
  - destruct (IH _ _ B1) as (H1 & H2 & H3). cbn [as_branch b_t] in *. split; [|split].
    + constructor; [|exact H1]. reflexivity.
    + cbn. rewrite H2. reflexivity.
    + unfold volts in *. cbn [map combine]. constructor; [apply V_carrying, G|exact H3].
Qed.
Lemma volts_between l : Forall (in_limits lo hi) l -> forall is, length is = length l ->
  (Forall (within lo hi) (volts (map as_branch l) is) <-> Forall2 (fun c i => between lo hi (carrying i c)) l is).
Proof.
  induction 1 as [|c l G _ IH]; intros [|i is] L; try discriminate; [split; constructor|].
  unfold volts in *. cbn [map combine]. split; intros H.
  - apply Forall_cons_iff in H. destruct H as [H1 H2]. constructor; [|apply IH; auto].
    eexists. split; [apply V_carrying, G|exact H1].
  - inversion H as [|? ? ? ? H1 H2]; subst. constructor; [|apply IH; auto].
    destruct H1 as (v & E & W). rewrite V_carrying in E by apply G. injection E as <-. exact W.
Qed.
Lemma settling_cells k l : Forall (balances k lo hi) l -> Forall (settling k) (map as_branch l).
Proof. intros H. apply Forall_map. eapply Forall_impl; [|exact H]. intros c [_ K]. unfold settling. cbn. lra. Qed.
Lemma balances_in k l : Forall (balances k lo hi) l -> Forall (in_limits lo hi) l.
Proof. apply Forall_impl. intros c [H _]. exact H. Qed.
Lemma caps_cells l c : Forall (fun x => p_cap (ep (u_ecm x)) = c) l -> Forall (fun b => b_c b = c) (map as_branch l).
Proof. intros H. apply Forall_map. exact H. Qed.
End Cells.

(** What balancing achieves. *)
Definition balanced (lo hi tol I : R) (l l' : list (ecmu R)) : Prop :=
  only_currents l l' /\ Forall (between lo hi) l' /\ agree tol l' /\
  (forall c, Forall (fun x => p_cap (ep (u_ecm x)) = c) l -> total_I l' = I).

Lemma done lo hi tol l l' is I : brs (cell_br lo hi) l' (map as_branch l) is ->
  Forall (within lo hi) (volts (map as_branch l) is) ->
  spread (vmean (volts (map as_branch l) is)) (volts (map as_branch l) is) < tol ->
  (forall c, Forall (fun b => b_c b = c) (map as_branch l) -> Rsum is = I) -> balanced lo hi tol I l l'.
Proof.
  intros B W S T. destruct (brs_cells lo hi l l' is B) as (H1 & H2 & H3). split; [exact H1|]. split; [|split].
  - clear -H3 W. revert H3 W. generalize (volts (map as_branch l) is). intros vs H3. induction H3 as [|c x l0 l1 H _ IH]; intros W; constructor.
    + apply Forall_cons_iff in W. exists x. split; [exact H|apply W].
    + apply IH. now apply Forall_cons_iff in W.
  - eexists _, _. split; [exact H3|]. rewrite spread_R in S. exact S.
  - intros c Hc. unfold total_I. rewrite H2. apply (T c). apply caps_cells, Hc.
Qed.

(** Parallel cells without contact resistance, capacity times resistance between [k] and 1: the redistribution
    succeeds, changes nothing but currents, and keeps the total if the capacities are equal. *)
Theorem C93_redistribute : forall k lo hi rc l, 0 <= k <= 1 -> 0 < lo -> (2 <= length l <= 100)%nat ->
  length rc = length l -> Forall (fun r => r = 0) rc -> Forall (balances k lo hi) l -> Forall (between lo hi) l ->
  INR (length l) * (hi - lo) * (1 - k) ^ 2499 < / 10 ^ 10 ->
  exists l', p_redistribute ecm_ops rc l = (l', Ok Success) /\ balanced lo hi (/ 10 ^ 10) (total_I l) l l'.
Proof.
  intros k lo hi rc l Hk Hlo N Lr Z HF W T.
  assert (W0 : Forall (within lo hi) (volts (map as_branch l) (map (fun c => e_I (es (u_ecm c))) l))).
  { apply (volts_between lo hi l (balances_in lo hi k l HF)); [apply map_length|]. clear -W. induction W as [|c l H _ IH]; constructor; [rewrite carrying_self; exact H|auto]. }
  destruct (redistribute ecm_ops (cell_br lo hi) lo hi (cell_V lo hi) ltac:(intros s b i (_ & -> & _); reflexivity)
     ltac:(intros s b i (-> & -> & _); reflexivity) (cell_set lo hi Hlo) k rc l _ _ lo hi Hk (settling_cells lo hi k l HF)
     (cells_brs lo hi l (balances_in lo hi k l HF)) Lr Z N (Rle_refl lo) (Rle_refl hi) W0 T) as (l' & is' & E & B & W' & S & Q).
  exists l'. split; [exact E|]. eapply done; eauto.
Qed.
Print Assumptions C93_redistribute.

(** Commanding a current: if the cells stay between the bounds when the change is shared equally, the command
    succeeds and, with equal capacities, delivers the commanded total. *)
Theorem C93_setCurrent : forall k lo hi rc l Inew, 0 <= k <= 1 -> 0 < lo -> (1 <= length l <= 100)%nat ->
  length rc = length l -> Forall (fun r => r = 0) rc -> Forall (balances k lo hi) l ->
  Forall (fun c => between lo hi (carrying (e_I (es (u_ecm c)) + (Inew - total_I l) / INR (length l)) c)) l ->
  INR (length l) * (hi - lo) * (1 - k) ^ 10549 < / 10 ^ 9 ->
  exists l', p_setCurrent ecm_ops Inew rc l = (l', Ok Success) /\ balanced lo hi (/ 10 ^ 9) Inew l l'.
Proof.
  intros k lo hi rc l Inew Hk Hlo N Lr Z HF W T.
  assert (W0 : Forall (within lo hi) (volts (map as_branch l)
      (map (fun i => i + (Inew - Rsum (map (fun c => e_I (es (u_ecm c))) l)) / INR (length l)) (map (fun c => e_I (es (u_ecm c))) l)))).
  { apply (volts_between lo hi l (balances_in lo hi k l HF)); [rewrite !map_length; reflexivity|]. unfold total_I in W. revert W.
    generalize ((Inew - Rsum (map (fun c => e_I (es (u_ecm c))) l)) / INR (length l)). intros dI W. clear -W.
    induction W as [|c l H _ IH]; constructor; auto. }
  destruct (set_current ecm_ops (cell_br lo hi) lo hi (cell_V lo hi) ltac:(intros s b i (_ & -> & _); reflexivity)
     ltac:(intros s b i (-> & -> & _); reflexivity) (cell_set lo hi Hlo) k rc l _ _ lo hi Inew Hk (settling_cells lo hi k l HF)
     (cells_brs lo hi l (balances_in lo hi k l HF)) Lr Z N (Rle_refl lo) (Rle_refl hi) W0 T) as (l' & is' & E & B & W' & S & Q).
  exists l'. split; [exact E|]. eapply done; eauto.
Qed.
Print Assumptions C93_setCurrent.

(** The result is the split of the circuit laws: compare it with the same cells carrying the same total at one common
    voltage. *)
Theorem C93_split : forall lo hi tol I l l' l2 c, l <> [] -> balanced lo hi tol I l l' -> Forall (fun x => p_cap (ep (u_ecm x)) = c) l ->
  Forall (fun x => 0 < p_Rdc (ep (u_ecm x))) l -> Forall (fun x => exists o, ecm_OCV (u_ecm x) = Ok o) l ->
  only_currents l l2 -> one_voltage l2 -> total_I l2 = I -> currents_close (2 * tol) l' l2.
Proof.
  intros lo hi tol I l l' l2 c NE (H1 & _ & (vs & vm & A1 & A2) & H4) HC HR HO K1 (v & K2) K3.
  specialize (H4 c HC). rewrite <- K3 in H4. clear K3 HC.
  assert (LV : forall k, only_currents l k -> Forall2 (fun c x => ecm_V (u_ecm c) = Ok x) k (volts (map as_branch l) (map (fun c => e_I (es (u_ecm c))) k))).
  { clear -HO. intros k F. induction F as [|a b la lb E F IH]; [constructor|]. apply Forall_cons_iff in HO. destruct HO as [O HO].
    unfold volts in *. cbn [map combine]. constructor; [|auto]. rewrite E. rewrite V_carrying by exact O. reflexivity. }
  assert (EV : vs = volts (map as_branch l) (map (fun c => e_I (es (u_ecm c))) l')).
  { assert (X := LV l' H1). clear -A1 X. revert X. generalize (volts (map as_branch l) (map (fun c => e_I (es (u_ecm c))) l')).
    induction A1 as [|a x la lx E _ IH]; intros ks X; inversion X; subst; [reflexivity|]. f_equal; [congruence|auto]. }
  assert (E2 : Forall (fun x => x = v) (volts (map as_branch l) (map (fun c => e_I (es (u_ecm c))) l2))).
  { assert (X := LV l2 K1). clear -X K2. revert X. generalize (volts (map as_branch l) (map (fun c => e_I (es (u_ecm c))) l2)).
    induction K2 as [|a la E _ IH]; intros ks X; inversion X; subst; [constructor|]. constructor; [congruence|auto]. }
  assert (L1 : length l' = length l) by (clear -H1; unfold only_currents in H1; induction H1; cbn; congruence).
  assert (L2 : length l2 = length l) by (clear -K1; unfold only_currents in K1; induction K1; cbn; congruence).
  assert (D := exact_split (map as_branch l) (map (fun c => e_I (es (u_ecm c))) l') (map (fun c => e_I (es (u_ecm c))) l2) v vm tol
    ltac:(destruct l; easy) ltac:(apply Forall_map; exact HR) ltac:(rewrite !map_length; auto) ltac:(rewrite !map_length; auto) E2 H4
    ltac:(rewrite spread_R, <- EV; exact A2)).
  clear -D E2 H1 K1 HR. unfold currents_close. revert l2 K1 E2 D HR. unfold volts.
  induction H1 as [|a b la lb E H1 IH]; intros l2 K1 E2 D HR; inversion K1 as [|? d ? l2' Ed K1']; subst; [constructor|].
  cbn [map combine] in *. apply Forall_cons_iff in D, E2, HR. destruct D as [D1 D2], E2 as [F1 F2], HR as [R1 R2].
  constructor; [|apply IH; auto].
  replace (p_Rdc (ep (u_ecm b))) with (p_Rdc (ep (u_ecm a))) by (rewrite E; reflexivity).
  set (i := e_I (es (u_ecm b))) in *. set (j := e_I (es (u_ecm d))) in *.
  rewrite <- F1 in D1. unfold bvolt in D1. cbn [as_branch b_e b_r] in D1.
  set (q := p_Rdc (ep (u_ecm a))) in *. rewrite <- (Rabs_pos_eq q) by lra. rewrite <- Rabs_mult.
  replace ((i - j) * q) with (- (emf (u_ecm a) - q * i - (emf (u_ecm a) - q * j))) by ring. rewrite Rabs_Ropp. exact D1.
Qed.
Print Assumptions C93_split.

(** For up to 100 cells whose capacity times resistance is at least 1/40, and any voltages up to 1000 V apart, the
    iterations suffice. *)
Lemma iterations_suffice k n d : 1 / 40 <= k <= 1 -> (n <= 100)%nat -> 0 <= d <= 1000 -> INR n * d * (1 - k) ^ 2499 < / 10 ^ 10.
Proof.
  intros Hk Hn Hd.
  assert (B : forall m x, 0 <= x <= 1 -> (1 - x) ^ m * (1 + INR m * x) <= 1).
  { induction m as [|m IH]; intros x Hx; [cbn; lra|]. specialize (IH x Hx). rewrite S_INR. cbn [pow].
    assert (0 <= (1 - x) ^ m) by (apply pow_le; lra). assert (0 <= INR m) by apply pos_INR.
    assert ((1 - x) * (1 + (INR m + 1) * x) <= 1 + INR m * x).
    { assert (0 <= INR m * (x * x)) by (apply Rmult_le_pos; [auto|apply Rle_0_sqr]). assert (0 <= x * x) by apply Rle_0_sqr. nra. }
    apply Rle_trans with ((1 - x) ^ m * ((1 - x) * (1 + (INR m + 1) * x))); [right; ring|].
    apply Rle_trans with ((1 - x) ^ m * (1 + INR m * x)); [apply Rmult_le_compat_l; auto|exact IH]. }
  assert (P0 : 0 <= (1 - k) ^ 49) by (apply pow_le; lra).
  assert (P : (1 - k) ^ 49 <= 1 / 2).
  { assert (X := B 49%nat k ltac:(lra)). replace (INR 49) with 49 in X by (cbn; ring).
    revert P0 X. generalize ((1 - k) ^ 49). intros y P0 X. nra. }
  change 2499%nat with (49 * 51)%nat. rewrite pow_mult.
  assert (Q : ((1 - k) ^ 49) ^ 51 <= (1 / 2) ^ 51) by (apply pow_incr; split; auto).
  revert Q. assert (Q0 : 0 <= ((1 - k) ^ 49) ^ 51) by (apply pow_le; exact P0). revert Q0. generalize (((1 - k) ^ 49) ^ 51). intros z Q0 Q.
  assert (N1 : 0 <= INR n <= 100) by (split; [apply pos_INR|replace 100 with (INR 100) by (cbn; ring); apply le_INR; exact Hn]).
  apply Rle_lt_trans with (100 * 1000 * (1 / 2) ^ 51); [|lra].
  apply Rmult_le_compat; auto; [apply Rmult_le_pos; lra|apply Rmult_le_compat; lra].
Qed.
Theorem C93_default : forall lo hi rc l, 0 < lo -> lo <= hi <= lo + 1000 -> (2 <= length l <= 100)%nat ->
  length rc = length l -> Forall (fun r => r = 0) rc -> Forall (balances (1 / 40) lo hi) l -> Forall (between lo hi) l ->
  exists l', p_redistribute ecm_ops rc l = (l', Ok Success) /\ balanced lo hi (/ 10 ^ 10) (total_I l) l l'.
Proof.
  intros lo hi rc l Hlo Hhi N Lr Z HF W. apply (C93_redistribute (1 / 40)); auto; [lra|].
  apply iterations_suffice; [lra|lia|lra].
Qed.
Print Assumptions C93_default.

(** So a time step of such a module completes. *)
Theorem C93_timeStep : forall tm lo hi dt n m l1, m_series (mm m) = false -> m_top (mm m) = false -> 0 <= dt ->
  Forall2 (fun c d => o_timeStep ecm_ops dt n c = (d, Ok tt)) (ms m) l1 ->
  0 < lo -> lo <= hi <= lo + 1000 -> (2 <= length l1 <= 100)%nat -> length (m_rc (mm m)) = length l1 ->
  Forall (fun r => r = 0) (m_rc (mm m)) -> Forall (balances (1 / 40) lo hi) l1 -> Forall (between lo hi) l1 ->
  exists m', mod_timeStep ecm_ops tm dt n m = (m', Ok tt) /\ balanced lo hi (/ 10 ^ 10) (total_I l1) l1 (ms m').
Proof.
  intros tm lo hi dt n m l1 Hs Ht Hd F Hlo Hhi N Lr Z HF W.
  destruct (C93_default lo hi _ l1 Hlo Hhi N Lr Z HF W) as (l' & E & Q).
  assert (EC : exists us, each (o_timeStep ecm_ops dt n) (ms m) = (l1, Ok us)).
  { clear -F. induction F as [|c d lc ld H _ [us IH]]; [exists []; reflexivity|]. cbn [each]. rewrite H, IH. eexists. reflexivity. }
  destruct EC as [us EC].
  unfold mod_timeStep. replace (nltb dt (nZ 0)) with false by (symmetry; apply Rltb_false; rewrite R_nZ; lra).
  unfold step_children. rewrite EC. unfold mod_heat_step. cbn [mm ms]. rewrite Hs, Ht.
  destruct (m_block (mm m)); cbn [mm ms inval set_V set_cool set_therm m_rc]; rewrite E; cbn [status_eqb];
    eexists; (split; [reflexivity|exact Q]).
Qed.
Print Assumptions C93_timeStep.

(** Two full default cells at 1 A and 3 A. *)
Lemma full_OCV q i : ecm_OCV (u_ecm (ex_cell q 1 i)) = Ok chi.
Proof.
  assert (X := end_V true 0). unfold ecm_V in X. change (ecm_OCV (with_I1 full 0)) with (ecm_OCV (u_ecm (ex_cell q 1 i))) in X.
  destruct (ecm_OCV (u_ecm (ex_cell q 1 i))) as [x|e| |]; try discriminate.
  - rewrite sub_drops_pol in X. injection X as X. f_equal. unfold pol in X. cbn in X. rewrite ?R_nZ in X. cbn in X. lra.
  - injection X as X. unfold chi in X. lra.
Qed.
Lemma full_par q i : p_cap (ep (u_ecm (ex_cell (A := R) q 1 i))) = q /\ p_Rdc (ep (u_ecm (ex_cell (A := R) q 1 i))) = 2 / 1000 /\
  l_VMIN (p_lim (ep (u_ecm (ex_cell (A := R) q 1 i)))) = 2 /\ l_VMAX (p_lim (ep (u_ecm (ex_cell (A := R) q 1 i)))) = chi.
Proof.
  cbn [ex_cell u_ecm ep p_cap p_Rdc p_lim ecm_default_par]. repeat split; unfold chi; cbn; lra.
Qed.
Lemma full_V q i : ecm_V (u_ecm (ex_cell q 1 i)) = Ok (chi - 2 / 1000 * i).
Proof.
  unfold ecm_V. rewrite full_OCV, sub_drops_pol. destruct (full_par q i) as (_ & E & _). rewrite E. f_equal.
  cbn [ex_cell u_ecm es e_I e_Ir]. unfold pol. cbn. lra.
Qed.
Lemma full_in q i : in_limits 2 chi (ex_cell q 1 i).
Proof. destruct (full_par q i) as (_ & _ & E1 & E2). split; [eexists; apply full_OCV|]. rewrite E1, E2. lra. Qed.
Lemma full_between q i : 0 <= i <= 1000 -> between 2 chi (ex_cell q 1 i).
Proof. intros H. eexists. split; [apply full_V|]. unfold chi. lra. Qed.

Example C93_inhabited : exists l l2, length l = 2%nat /\ Forall (balances (1 / 40) 2 chi) l /\ Forall (between 2 chi) l /\
  only_currents l l2 /\ one_voltage l2 /\ total_I l2 = total_I l /\ ~ one_voltage l.
Proof.
  exists [ex_cell 16 1 1; ex_cell 16 1 3], [ex_cell 16 1 2; ex_cell 16 1 2].
  split; [reflexivity|]. split; [|split; [|split; [|split; [|split]]]].
  - repeat apply Forall_cons; try apply Forall_nil; (split; [apply full_in|]); 
      (match goal with |- context [ex_cell 16 1 ?i] => destruct (full_par 16 i) as (E1 & E2 & _) end); rewrite E1, E2; lra.
  - repeat apply Forall_cons; try apply Forall_nil; apply full_between; lra.
  - repeat constructor.
  - exists (chi - 2 / 1000 * 2). repeat apply Forall_cons; try apply Forall_nil; apply full_V.
  - unfold total_I. cbn. lra.
  - intros (v & H). apply Forall_cons_iff in H. destruct H as [H1 H]. apply Forall_cons_iff in H. destruct H as [H2 _].
    rewrite full_V in H1, H2. injection H1 as H1. injection H2 as H2. lra.
Qed.

(** Finding: beyond that the loop need not settle. Two cells whose capacity times resistance is 2 (for the default
    resistance 1000 Ah) swap their voltages in every iteration; whatever their imbalance, redistribution fails. *)
Theorem C93_oscillates_refuted : forall lo hi c1 c2 v1 v2, 0 < lo -> in_limits lo hi c1 -> in_limits lo hi c2 ->
  p_cap (ep (u_ecm c1)) * p_Rdc (ep (u_ecm c1)) = 2 -> p_cap (ep (u_ecm c2)) * p_Rdc (ep (u_ecm c2)) = 2 ->
  ecm_V (u_ecm c1) = Ok v1 -> ecm_V (u_ecm c2) = Ok v2 -> lo <= v1 <= hi -> lo <= v2 <= hi -> / 10 ^ 10 <= Rabs (v1 - v2) ->
  exists l', p_redistribute ecm_ops [0; 0] [c1; c2] = (l', Ok RedistributeCurrent_failed).
Proof.
  intros lo hi c1 c2 v1 v2 Hlo I1 I2 K1 K2 V1 V2 W1 W2 D.
  assert (B := cells_brs lo hi [c1; c2] (Forall_cons _ I1 (Forall_cons _ I2 (Forall_nil _)))).
  assert (E1 : bvolt (as_branch c1) (e_I (es (u_ecm c1))) = v1).
  { assert (X := V_carrying c1 (e_I (es (u_ecm c1))) (proj1 I1)). rewrite carrying_self, V1 in X. injection X as ->. reflexivity. }
  assert (E2 : bvolt (as_branch c2) (e_I (es (u_ecm c2))) = v2).
  { assert (X := V_carrying c2 (e_I (es (u_ecm c2))) (proj1 I2)). rewrite carrying_self, V2 in X. injection X as ->. reflexivity. }
  apply (oscillates_forever ecm_ops (cell_br lo hi) lo hi (cell_V lo hi) ltac:(intros s b i (_ & -> & _); reflexivity)
     ltac:(intros s b i (-> & -> & _); reflexivity) (cell_set lo hi Hlo) (as_branch c1) (as_branch c2) [c1; c2] _ _
     ltac:(cbn; lra) ltac:(cbn; lra) B); unfold within; rewrite ?E1, ?E2; auto.
Qed.
Print Assumptions C93_oscillates_refuted.
Example C93_oscillates_inhabited : in_limits 2 chi (ex_cell 1000 1 1) /\ in_limits 2 chi (ex_cell 1000 1 3) /\
  p_cap (ep (u_ecm (ex_cell (A := R) 1000 1 1))) * p_Rdc (ep (u_ecm (ex_cell (A := R) 1000 1 1))) = 2 /\
  ecm_V (u_ecm (ex_cell 1000 1 1)) = Ok (chi - 2 / 1000 * 1) /\ ecm_V (u_ecm (ex_cell 1000 1 3)) = Ok (chi - 2 / 1000 * 3).
Proof.
  split; [apply full_in|]. split; [apply full_in|]. split; [|split; apply full_V].
  destruct (full_par 1000 1) as (E1 & E2 & _). rewrite E1, E2. lra.
Qed.

(** ** Strings in parallel *)
Notation cell10 i := (ex_cell (A := R) 10 1 i).
Definition str_br (s : Tree R 1) (b : branch unit) (i : R) : Prop := exists r,
  s = inr (mkM r (repeat (cell10 i) 100)) /\ b = mkBr tt (100 * chi) (100 * (2 / 1000)) 10 /\ m_series r = true /\
  m_rc r = repeat 0 100 /\ 0 < chi - 2 / 1000 * i /\ (m_Vok r = true -> m_V r = bvolt b i).
Lemma str_loop i : 0 < chi - 2 / 1000 * i -> forall n acc,
  sV_loop ecm_ops acc (repeat (cell10 i) n) (repeat 0 n) = (repeat (cell10 i) n, acc + INR n * (chi - 2 / 1000 * i), Ok true).
Proof.
  intros P. induction n as [|n IH]; intros acc; [cbn; rewrite Rmult_0_l, Rplus_0_r; reflexivity|].
  cbn [repeat sV_loop]. change (o_V (ecm_ops (A := R)) (cell10 i)) with (cell10 i, ecm_V (u_ecm (cell10 i))). rewrite full_V.
  replace (nleb (chi - 2 / 1000 * i) (nZ 0)) with false by (symmetry; apply Rleb_false; rewrite R_nZ; lra).
  rewrite IH. rewrite S_INR. f_equal. f_equal. cbn. ring.
Qed.
Lemma str_V s b i : str_br s b i -> exists s', o_V (su_ops_at (A := R) ecm_ops 0 1) s = (s', Ok (bvolt b i)) /\ str_br s' b i.
Proof.
  intros (r & -> & -> & Hs & Hr & P & C). 
  change (o_V (su_ops_at (A := R) ecm_ops 0 1) (inr (mkM r (repeat (cell10 i) 100)))) with (on_r (X := ecmu R) (mod_V ecm_ops) (mkM r (repeat (cell10 i) 100))).
  unfold on_r, mod_V. cbn [mm ms]. rewrite Hs. destruct (m_Vok r) eqn:Ev.
  - rewrite (C eq_refl). eexists. split; [reflexivity|]. exists r. repeat split; auto.
  - rewrite Hr, (str_loop i P).
    assert (E : nadd (nZ 0) (INR 100 * (chi - 2 / 1000 * i)) = bvolt (mkBr tt (100 * chi) (100 * (2 / 1000)) 10) i).
    { rewrite R_nZ. replace (INR 100) with 100 by (cbn; ring). unfold bvolt. cbn. ring. }
    change (nZ 0 + INR 100 * (chi - 2 / 1000 * i)) with (nadd (nZ 0) (INR 100 * (chi - 2 / 1000 * i))). rewrite E.
    eexists. split; [reflexivity|]. eexists. split; [reflexivity|]. repeat split; auto.
Qed.
Lemma str_set_loop i j : 2 <= chi - 2 / 1000 * j <= chi -> forall t d olds, (d + t <= 100)%nat ->
  s_setCurrent ecm_ops t d j true olds (repeat (cell10 j) d ++ repeat (cell10 i) t) = (repeat (cell10 j) (d + t), Ok Success).
Proof.
  intros W. induction t as [|t IH]; intros d olds N; cbn [s_setCurrent repeat].
  - rewrite app_nil_r, Nat.add_0_r. reflexivity.
  - replace (Nat.leb NSUs_MAX d) with false by (symmetry; apply Nat.leb_gt; unfold NSUs_MAX; lia).
    assert (NE : nth_error (repeat (cell10 j) d ++ cell10 i :: repeat (cell10 i) t) d = Some (cell10 i)).
    { rewrite nth_error_app2; rewrite repeat_length; [|lia]. rewrite Nat.sub_diag. reflexivity. }
    rewrite NE. unfold child_do. rewrite NE.
    destruct (cell_set 2 chi ltac:(lra) (cell10 i) (as_branch (cell10 i)) i j) as (s' & st & E & S & (_ & Es & _)).
    { split; [reflexivity|]. split; [reflexivity|]. apply full_in. }
    { assert (X := V_carrying (cell10 i) j (ex_intro _ _ (full_OCV 10 i))). change (carrying j (cell10 i)) with (cell10 j) in X.
      rewrite full_V in X. injection X as X. rewrite <- X. exact W. }
    rewrite E. unfold isStatusBad. rewrite S. cbn [negb]. rewrite Es. change (carrying j (b_t (as_branch (cell10 i)))) with (cell10 j).
    assert (LS : list_set (repeat (cell10 j) d ++ cell10 i :: repeat (cell10 i) t) d (cell10 j) = repeat (cell10 j) (Datatypes.S d) ++ repeat (cell10 i) t).
    { clear. induction d as [|d IHd]; [reflexivity|]. cbn [repeat app list_set] in *. rewrite IHd. reflexivity. }
    rewrite LS, IH by lia. f_equal. f_equal. lia.
Qed.
Lemma str_set s b i j : str_br s b i -> 100 * 2 <= bvolt b j <= 100 * chi ->
  exists s' st, o_setCurrent (su_ops_at (A := R) ecm_ops 0 1) j true s = (s', Ok st) /\ isStatusOK st = true /\ str_br s' b j.
Proof.
  intros (r & -> & -> & Hs & Hr & P & C) W. unfold bvolt in W. cbn [b_e b_r] in W.
  change (o_setCurrent (su_ops_at (A := R) ecm_ops 0 1) j true (inr (mkM r (repeat (cell10 i) 100))))
    with (on_r (X := ecmu R) (mod_setCurrent ecm_ops j true) (mkM r (repeat (cell10 i) 100))).
  unfold on_r, mod_setCurrent. cbn [mm ms]. rewrite Hs, repeat_length.
  assert (X := str_set_loop i j ltac:(lra) 100 0 [] ltac:(lia)). cbn [app] in X.
  change (repeat (cell10 j) 0 ++ repeat (cell10 i) 100) with (repeat (cell10 i) 100) in X. rewrite X. clear X.
  exists (inr (mkM (inval r) (repeat (cell10 j) 100))), Success.
  split; [reflexivity|]. split; [reflexivity|]. exists (inval r). repeat split; auto; [lra|]. cbn. discriminate.
Qed.
Lemma lmin_repeat (x : R) n : (1 <= n)%nat -> lmin (repeat x n) = x.
Proof.
  destruct n as [|n]; [lia|]. intros _. cbn [lmin repeat]. induction n as [|n IH]; [reflexivity|]. cbn [repeat fold_left].
  replace (nmin x x) with x; [exact IH|]. unfold nmin. destruct (nltb _ _); reflexivity.
Qed.
Lemma str_Cap s b i : str_br s b i -> o_Cap (su_ops_at (A := R) ecm_ops 0 1) s = b_c b.
Proof.
  intros (r & -> & -> & Hs & _).
  change (o_Cap (su_ops_at (A := R) ecm_ops 0 1) (inr (mkM r (repeat (cell10 i) 100)))) with (mod_Cap ecm_ops (mkM r (repeat (cell10 i) 100))).
  unfold mod_Cap. cbn [mm ms]. rewrite Hs. apply (lmin_repeat 10 100). lia.
Qed.
Lemma str_I s b i : str_br s b i -> o_I (su_ops_at (A := R) ecm_ops 0 1) s = i.
Proof.
  intros (r & -> & -> & Hs & _).
  change (o_I (su_ops_at (A := R) ecm_ops 0 1) (inr (mkM r (repeat (cell10 i) 100)))) with (mod_I ecm_ops (mkM r (repeat (cell10 i) 100))).
  unfold mod_I. cbn [mm ms]. rewrite Hs. reflexivity.
Qed.

(** Finding: long strings in parallel are never balanced, as the resistance grows with the string and the capacity does
    not shrink. Two strings of 100 full default cells of 10 Ah, at any two different currents between 0 and 1000 A. *)
Theorem C93_strings_refuted : forall r1 r2 i1 i2, m_series r1 = true -> m_series r2 = true -> m_rc r1 = repeat 0 100 -> m_rc r2 = repeat 0 100 ->
  m_Vok r1 = false -> m_Vok r2 = false -> 0 <= i1 <= 1000 -> 0 <= i2 <= 1000 -> / 10 ^ 9 <= Rabs (i1 - i2) ->
  exists l', p_redistribute (su_ops_at ecm_ops 0 1) [0; 0]
    [inr (mkM r1 (repeat (ex_cell 10 1 i1) 100)); inr (mkM r2 (repeat (ex_cell 10 1 i2) 100))] = (l', Ok RedistributeCurrent_failed).
Proof.
  intros r1 r2 i1 i2 S1 S2 R1 R2 C1 C2 W1 W2 D.
  set (b := mkBr tt (100 * chi) (100 * (2 / 1000)) 10).
  assert (KB : b_r b * b_c b = 2) by (cbn; lra).
  apply (oscillates_forever (su_ops_at ecm_ops 0 1) str_br (100 * 2) (100 * chi) str_V str_I str_Cap str_set b b _ i1 i2 KB KB).
  - repeat constructor.
    + exists r1. repeat split; auto; [unfold chi; lra|]. rewrite C1. discriminate.
    + exists r2. repeat split; auto; [unfold chi; lra|]. rewrite C2. discriminate.
  - unfold within, bvolt, b, chi. cbn [b_e b_r]. lra.
  - unfold within, bvolt, b, chi. cbn [b_e b_r]. lra.
  - unfold bvolt, b. cbn [b_e b_r]. replace (100 * chi - 100 * (2 / 1000) * i1 - (100 * chi - 100 * (2 / 1000) * i2)) with (- (2 / 10) * (i1 - i2)) by lra.
    rewrite Rabs_mult, Rabs_left by lra. lra.
Qed.
Print Assumptions C93_strings_refuted.
Example C93_strings_inhabited : exists r, m_series (A := R) r = true /\ m_rc r = repeat 0 100 /\ m_Vok r = false /\ / 10 ^ 9 <= Rabs (1 - 3).
Proof. exists (ex_rec true (repeat 0 100) 100). repeat split. rewrite Rabs_left; lra. Qed.
