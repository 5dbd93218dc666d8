(** * C68: the simulated slow discharge behind the OCV fit *)
From Coq Require Import SpecFloat Lra.
From Verif Require Import Base RFacts UtilModel UtilSpec UtilProofs FitModel DischModel DischSpec DischProofs.
Local Open Scope R_scope.

(** The complete result of every discharge that ends. There are electrode potentials [pot] - those of the given tables at the
    fractions of each 5 s period - and a period [K] such that [K] is the first one at which the discharge must stop, one row is
    stored for the start, for every hundredth period before [K] and for [K], and the reported fractions are those at the start,
    at [K] and half way. Any capacity, active material, tables of any size. *)
Theorem C68_exact : forall fuel (p : dpar R) sp sn o,
  table (d_p p) -> table (d_n p) -> discharge fuel p sp sn = Ok o ->
  exists pot K, (1 <= K)%nat /\
    (forall j, potential (d_p p) (cath p sp j) (fst (pot j)) /\ potential (d_n p) (anod p sn j) (snd (pot j))) /\
    stops p sp sn pot K /\ (forall j, (1 <= j < K)%nat -> ~ stops p sp sn pot j) /\
    o_rows o = map (row_at p sp sn pot) (recorded K) /\
    o_fp o = (sp, (sp + cath p sp K) / 2, cath p sp K) /\ o_fn o = (sn, (sn + anod p sn K) / 2, anod p sn K).
Proof.
  intros fuel p sp sn o Tp Tn H. unfold discharge, discharge_noexcept3 in H. rewrite init_eq in H by assumption.
  cbn [rbind] in H.
  destruct (d_rounds fuel p (stt p sp sn 0)) as [[z rows]| | |] eqn:E; try discriminate H. cbn [rbind] in H. injection H as <-.
  destruct (rounds_eq p sp sn Tp Tn fuel 0 z rows) as (K & K1 & K2 & K3 & K4 & K5).
  { intros j Hj. cbn in Hj. now replace j with 0%nat by lia. } { exact E. }
  exists (potf p sp sn), K. destruct K as [|K]; [cbn in K2; discriminate|].
  split; [lia|]. split.
  { intros j. split; [apply pv_spec; exact Tp|apply pv_spec; exact Tn]. }
  split; [now apply endb_stops|]. split.
  { intros j Hj S. destruct j as [|j]; [lia|]. apply endb_stops in S. rewrite K3 in S by lia. discriminate. }
  cbn [o_rows o_fp o_fn]. unfold d_fracs. rewrite K4. cbn [stt s_sp s_sn]. rewrite !R_nZ. split; [|split; reflexivity].
  rewrite K5. unfold recorded. cbn [seq map app]. rewrite Nat.sub_0_r. f_equal.
Qed.
Print Assumptions C68_exact.

(** It ends within [fuel] rounds of 100 periods if that charge would fill the cathode; any starting fractions and end voltage. *)
Theorem C68_ends : forall fuel (p : dpar R) sp sn, table (d_p p) -> table (d_n p) -> (1 <= fuel)%nat ->
  1 <= cath p sp (100 * fuel) -> exists o, discharge fuel p sp sn = Ok o.
Proof.
  intros fuel p sp sn Tp Tn Hf Hc. unfold discharge, discharge_noexcept3. rewrite init_eq by assumption. cbn [rbind].
  destruct (rounds_ok p sp sn Tp Tn fuel 0 (100 * fuel)) as (z & rows & E).
  - intros j Hj. cbn in Hj. now replace j with 0%nat by lia.
  - destruct (100 * fuel)%nat as [|K] eqn:EK; [lia|]. apply endb_stops. unfold stops. tauto.
  - unfold hundred. lia.
  - change (hundred 0) with 0%nat in E. rewrite E. cbn. eauto.
Qed.
Print Assumptions C68_ends.
Lemma nat_above x : exists n, x < INR n.
Proof.
  exists (Z.to_nat (up x)). rewrite INR_IZR_INZ. destruct (archimed x) as (H & _).
  destruct (Z.le_gt_cases 0 (up x)) as [L|L]; [now rewrite Z2Nat.id|].
  apply Rlt_le_trans with (IZR (up x)); [lra|]. apply IZR_le. lia.
Qed.
(** Such a number of rounds exists for every positive capacity and amount of cathode material. *)
Theorem C68_terminates : forall (p : dpar R) sp sn, table (d_p p) -> table (d_n p) ->
  0 < d_cap p -> 0 < d_AMp p -> 0 < d_cmaxp p ->
  exists N, forall fuel, (N <= fuel)%nat -> exists o, discharge fuel p sp sn = Ok o.
Proof.
  intros p sp sn Tp Tn Hc H1 H2.
  assert (Q : 0 < quantum p * 3600 / 96487 / (d_AMp p * d_cmaxp p)).
  { unfold quantum. apply Rdiv_lt_0_compat; [lra|]. now apply Rmult_lt_0_compat. }
  destruct (nat_above ((1 - sp) / (quantum p * 3600 / 96487 / (d_AMp p * d_cmaxp p)))) as (N & HN).
  exists (S N). intros fuel Hf. apply C68_ends; auto; [lia|].
  assert (HL : INR N <= INR (100 * fuel)) by (apply le_INR; lia).
  set (q := quantum p * 3600 / 96487 / (d_AMp p * d_cmaxp p)) in *.
  assert (E : cath p sp (100 * fuel) = sp + INR (100 * fuel) * q).
  { unfold cath, charge, q, Rdiv. ring. }
  rewrite E. assert (1 - sp < INR N * q).
  { apply Rmult_lt_reg_r with (/ q); [now apply Rinv_0_lt_compat|]. rewrite Rmult_assoc, Rinv_r by lra. unfold Rdiv in HN. lra. }
  assert (INR N * q <= INR (100 * fuel) * q) by (apply Rmult_le_compat_r; lra). lra.
Qed.
Print Assumptions C68_terminates.

(** Lithium is conserved in every row: what the anode lost the cathode gained, and it is the charge of the row; charges
    increase from row to row when the capacity is positive. *)
Theorem C68_lithium : forall fuel (p : dpar R) sp sn o, table (d_p p) -> table (d_n p) ->
  d_AMp p * d_cmaxp p <> 0 -> d_AMn p * d_cmaxn p <> 0 -> discharge fuel p sp sn = Ok o ->
  (forall r, In r (o_rows o) ->
     (r_sp r - sp) * (d_AMp p * d_cmaxp p) * 96487 = 3600 * r_Ah r /\
     (sn - r_sn r) * (d_AMn p * d_cmaxn p) * 96487 = 3600 * r_Ah r) /\
  (0 < d_cap p -> forall i r r', nth_error (o_rows o) i = Some r -> nth_error (o_rows o) (S i) = Some r' -> r_Ah r < r_Ah r').
Proof.
  intros fuel p sp sn o Tp Tn Np Nn H.
  destruct (C68_exact fuel p sp sn o Tp Tn H) as (pot & K & HK & _ & _ & _ & HR & _). rewrite HR. split.
  - intros r Hr. apply in_map_iff in Hr. destruct Hr as (j & <- & _). unfold row_at, cath, anod. cbn. split; field; auto.
    + split; intros C; apply Np; rewrite C; ring.
    + split; intros C; apply Nn; rewrite C; ring.
  - intros Hc i r r' E E'. rewrite nth_error_map in E, E'.
    destruct (nth_error (recorded K) i) as [a|] eqn:Ea; [|discriminate].
    destruct (nth_error (recorded K) (S i)) as [b|] eqn:Eb; [|discriminate].
    cbn in E, E'. injection E as <-. injection E' as <-. unfold row_at. cbn [r_Ah]. unfold charge.
    assert (Hab : (a < b)%nat).
    { unfold recorded in Ea, Eb. set (l := map (fun k => (100 * k)%nat) (seq 0 (S ((K - 1) / 100)))) in *.
      assert (Ll : length l = S ((K - 1) / 100)) by (unfold l; now rewrite map_length, seq_length).
      assert (Hl : forall k c, nth_error l k = Some c -> c = (100 * k)%nat /\ (k <= (K - 1) / 100)%nat).
      { intros k c Hk. unfold l in Hk. rewrite nth_error_map in Hk.
        destruct (nth_error (seq 0 (S ((K - 1) / 100))) k) as [c'|] eqn:Es; [|discriminate]. cbn [option_map] in Hk. injection Hk as <-.
        assert (k < length (seq 0 (S ((K - 1) / 100))))%nat by (apply nth_error_Some; now rewrite Es).
        rewrite seq_length in H0. pose proof (@seq_nth (S ((K - 1) / 100)) 0%nat k 0%nat H0) as Hs.
        apply nth_error_nth with (d := 0%nat) in Es. rewrite Es in Hs. split; lia. }
      assert (S i < length (l ++ [K]))%nat by (apply nth_error_Some; now rewrite Eb).
      rewrite app_length in H0. cbn [length] in H0.
      rewrite nth_error_app1 in Ea by lia. destruct (Hl _ _ Ea) as (-> & Hi).
      destruct (Nat.lt_ge_cases (S i) (length l)) as [Hlt|Hge].
      - rewrite nth_error_app1 in Eb by exact Hlt. destruct (Hl _ _ Eb) as (-> & _). lia.
      - rewrite nth_error_app2 in Eb by exact Hge. replace (S i - length l)%nat with 0%nat in Eb by lia. cbn in Eb. injection Eb as <-.
        pose proof (Nat.mul_div_le (K - 1) 100 ltac:(lia)). lia. }
    apply Rmult_lt_compat_r; [unfold quantum; lra|]. now apply lt_INR.
Qed.
Print Assumptions C68_lithium.

(** The overload without electrode outputs gives the same rows and fractions, when the tables cover 0 to 1 and the start is in there. *)
Theorem C68_overloads : forall fuel (p : dpar R) sp sn o, table (d_p p) -> table (d_n p) ->
  covers (d_p p) -> covers (d_n p) -> 0 <= sp <= 1 -> 0 <= sn <= 1 -> discharge fuel p sp sn = Ok o ->
  discharge_noexcept1 fuel p sp sn = Ok (o_rows o, Some (o_fp o, o_fn o)).
Proof.
  intros fuel p sp sn o Tp Tn Cp Cn Hp Hn H. unfold discharge, discharge_noexcept3 in H. unfold discharge_noexcept1.
  rewrite init_eq in H |- * by assumption. cbn [rbind] in H |- *.
  destruct (d_rounds fuel p (stt p sp sn 0)) as [[z rows]| | |] eqn:E; try discriminate H. cbn [rbind] in H. injection H as <-.
  assert (C0 : cath p sp 0 = sp) by (unfold cath, charge; cbn; unfold Rdiv; ring).
  assert (A0 : anod p sn 0 = sn) by (unfold anod, charge; cbn; unfold Rdiv; ring).
  assert (GG : forall j, 0 <= cath p sp j <= 1 -> 0 <= anod p sn j <= 1 -> good p sp sn j = true).
  { intros j H1 H2. unfold good. apply andb_true_iff. split; apply Z.eqb_eq.
    - now apply (pv_spec (d_p p) _ Tp), Cp.
    - now apply (pv_spec (d_n p) _ Tn), Cn. }
  assert (G : forall i, endb p sp sn i = false -> good p sp sn i = true).
  { intros [|i] Hi.
    - apply GG; [now rewrite C0|now rewrite A0].
    - unfold endb in Hi. repeat (apply orb_false_iff in Hi; destruct Hi as [Hi ?]).
      rewrite Rleb_false, R_nZ in *. apply GG; lra. }
  assert (O0 : okf p sp sn 0 = true) by (cbn [okf]; now apply G).
  destruct (rounds1_eq p sp sn Tp Tn G fuel 0 O0) as (R1 & _). destruct (R1 _ _ E) as (Hz & rows1 & E1 & E2).
  rewrite E1. cbn [rbind]. rewrite Hz, E2. reflexivity.
Qed.
Print Assumptions C68_overloads.

(** That overload refuses a start outside of a table and stores nothing. *)
Theorem C68_refuses : forall fuel (p : dpar R) sp sn, table (d_p p) -> table (d_n p) ->
  ~ within (d_p p) sp \/ ~ within (d_n p) sn -> discharge_noexcept1 fuel p sp sn = Ok ([], None).
Proof.
  intros fuel p sp sn Tp Tn H. unfold discharge_noexcept1. rewrite init_eq by assumption. cbn [rbind].
  assert (C0 : cath p sp 0 = sp) by (unfold cath, charge; cbn; unfold Rdiv; ring).
  assert (A0 : anod p sn 0 = sn) by (unfold anod, charge; cbn; unfold Rdiv; ring).
  assert (G : okf p sp sn 0 = false).
  { cbn [okf]. unfold good. rewrite C0, A0. destruct H as [H|H].
    - apply (pv_spec (d_p p) _ Tp) in H. apply Z.eqb_neq in H. now rewrite H.
    - apply (pv_spec (d_n p) _ Tn) in H. apply Z.eqb_neq in H. rewrite H. apply andb_false_r. }
  assert (E : d_rounds1 fuel p (stt p sp sn 0) = Ok (stt p sp sn 0, [])).
  { destruct fuel; cbn [d_rounds1]; unfold d_go; cbn [stt s_end s_ok]; rewrite G, andb_false_r; reflexivity. }
  rewrite E. cbn [rbind stt s_ok]. now rewrite G.
Qed.
Print Assumptions C68_refuses.

(** ** What does not hold *)

(** A simple cell: tables over [0,1], 4 V to 3 V at the cathode and 1 V to 0 V at the anode. *)
Definition lin01 (y0 y1 : f64) : list f64 * list f64 := ([nZ 0; nZ 1], [y0; y1]).
Definition toy (cap AM Vend : f64) : dpar f64 :=
  mkDp (lin01 (nZ 4) (nZ 3)) (lin01 (nZ 1) (nZ 0)) cap AM AM (nZ 1) (nZ 1) Vend.

(** The documented error (a lithium fraction outside of its curve) is never raised by the overload that the fit uses: the
    voltage is taken to be zero and the discharge "succeeds" (doubles). *)
Theorem C68_error_refuted :
  exists o, discharge 1 (toy (nZ 1) (nZ 1) (nZ 3)) (nlit 3 2) (nlit 1 2) = Ok o /\
    map r_v (o_rows o) = [nopp (nlit 1 2); nopp (nlit 1 2)].
Proof. eexists. split; vm_compute; reflexivity. Qed.
Print Assumptions C68_error_refuted.

(** The voltage of a row is not that of its charge and fractions, but that of 5 s before: the last row of this discharge has
    most of the anode's lithium moved and still the voltage of the start. *)
Theorem C68_stale_refuted :
  exists o r, discharge 1 (toy (nZ 1200) (nlit 1 100) (nlit 18 5)) (nlit 1 4) (nlit 3 4) = Ok o /\
    nth_error (o_rows o) 1 = Some r /\
    (exists r0, nth_error (o_rows o) 0 = Some r0 /\ r_v r = r_v r0 /\ nltb (r_Ah r0) (r_Ah r) = true) /\
    d_interp (toy (nZ 1200) (nlit 1 100) (nlit 18 5)) (d_init (r_sp r) (r_sn r)) <>
      Ok (mkDs (nZ 0) (r_sp r) (r_sn r) false (r_v r) (r_op r) (r_on r) true).
Proof.
  eexists. eexists. split; [vm_compute; reflexivity|]. split; [vm_compute; reflexivity|]. split.
  - eexists. repeat split; vm_compute; reflexivity.
  - vm_compute. discriminate.
Qed.
Print Assumptions C68_stale_refuted.

(** A capacity of zero, or one so small that a period does not change the doubles holding the fractions, never ends. *)
Theorem C68_endless_refuted : forall fuel,
  discharge fuel (toy (nZ 0) (nZ 1) (nZ 2)) (nlit 1 4) (nlit 3 4) = Fuel /\
  discharge fuel (toy (nlit 1 100000000000000000) (nZ 1) (nZ 2)) (nlit 1 4) (nlit 3 4) = Fuel.
Proof.
  assert (X : forall cap, (exists s0, d_interp (toy cap (nZ 1) (nZ 2)) (d_init (nlit 1 4) (nlit 3 4)) = Ok s0 /\
      s_end s0 = false /\ s_sp s0 = nlit 1 4 /\ s_sn s0 = nlit 3 4) ->
    (forall ah v op on ok, exists s', d_sub (toy cap (nZ 1) (nZ 2)) (mkDs ah (nlit 1 4) (nlit 3 4) false v op on ok) = Ok s' /\
      s_end s' = false /\ s_sp s' = nlit 1 4 /\ s_sn s' = nlit 3 4) ->
    forall fuel, discharge fuel (toy cap (nZ 1) (nZ 2)) (nlit 1 4) (nlit 3 4) = Fuel).
  { intros cap (s0 & E0 & H0) HS fuel. unfold discharge, discharge_noexcept3. rewrite E0. cbn [rbind].
    rewrite (rounds_stuck (toy cap (nZ 1) (nZ 2))
      (fun s => s_end s = false /\ s_sp s = nlit 1 4 /\ s_sn s = nlit 3 4)); [reflexivity| |exact H0].
    intros s (H1 & H2 & H3). split; [exact H1|]. destruct s as [ah sp sn e v op on ok]. cbn in H1, H2, H3. subst.
    destruct (HS ah v op on ok) as (s' & E' & H'). eauto. }
  intros fuel. split; apply X.
  - eexists. repeat split; vm_compute; reflexivity.
  - intros. eexists. split; [vm_compute; reflexivity|]. repeat split; vm_compute; reflexivity.
  - eexists. repeat split; vm_compute; reflexivity.
  - intros. eexists. split; [vm_compute; reflexivity|]. repeat split; vm_compute; reflexivity.
Qed.
Print Assumptions C68_endless_refuted.

(** ** A case that meets the hypotheses *)
Definition toyR : dpar R := mkDp ([0; 1], [4; 3]) ([0; 1], [1; 0]) 2 1 1 1000 1000 2.
Lemma table2 y0 y1 : table ([0; 1], [y0; y1]).
Proof.
  repeat split; cbn; auto.
  intros i j a b Hij Ha Hb. destruct i as [|[|i]], j as [|[|j]]; cbn in *; try lia; try congruence;
    repeat match goal with H : Some _ = Some _ |- _ => injection H as <- | H : nth_error [] ?k = Some _ |- _ => destruct k; discriminate H
    | H : None = Some _ |- _ => discriminate H end; try lra.
Qed.
Example C68_inhabited : table (d_p toyR) /\ table (d_n toyR) /\ covers (d_p toyR) /\ covers (d_n toyR) /\
  exists N o, discharge N toyR (1 / 4) (3 / 4) = Ok o.
Proof.
  split; [apply table2|]. split; [apply table2|].
  assert (C : forall y0 y1, covers ([0; 1], [y0; y1])).
  { intros y0 y1 x Hx. exists 0, 1. cbn. auto. }
  split; [apply C|]. split; [apply C|].
  destruct (C68_terminates toyR (1 / 4) (3 / 4)) as (N & HN); try (cbn; lra); try apply table2.
  exists N. apply HN. lia.
Qed.

(** The thickness reported with a fit, times the assumed electrode surface and volume fraction, is the fitted amount of material. *)
Theorem C68_thickness : forall AM : R, 982 / 10000 * fit_thick AM * (1 / 2) = AM.
Proof. intros AM. unfold fit_thick. cbn. field. Qed.
Print Assumptions C68_thickness.
