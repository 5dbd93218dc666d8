(** * C84: interpolation in a table, in double arithmetic *)
From Coq Require Import Reals Lra Lia SpecFloat ZArith List Bool.
Import ListNotations.
From Flocq Require Import Core BinarySingleNaN.
From Verif Require Import Base RFacts UtilModel UtilSpec UtilProofs FloatSpec FloatFacts FloatEcm FloatIntSpec FloatInt.
Local Open Scope R_scope.

(** The points (0, 0), (3, 0.1) and (6, 0.1). *)
Definition w_xs : list f64 := [nZ 0; nZ 3; nZ 6].
Definition w_ys : list f64 := [nZ 0; nlit 1 10; nlit 1 10].
Lemma w_tenth : fin (nlit 1 10 : f64) /\ 0 <= fval (nlit 1 10 : f64) <= 1.
Proof.
  destruct (fint 1) as [F1 V1]; [cbn; lia|]. destruct (fint 10) as [F2 V2]; [cbn; lia|].
  destruct (fdiv (sf_of_Z 1) (sf_of_Z 10) F1 F2) as [F V]; [rewrite V2; discrR| |].
  - rewrite V1, V2. apply Rle_trans with (bpow radix2 0); [|now apply bpow_le]. change (bpow radix2 0) with 1. apply Rabs_le. lra.
  - split; [exact F|]. change (fval (nlit 1 10)) with (fval (SFdiv prec64 emax64 (sf_of_Z 1) (sf_of_Z 10))). rewrite V, V1, V2.
    split; [apply rnd_pos; lra|]. apply Rle_trans with (rnd 1); [apply rnd_le; lra|]. right. apply rnd_id. apply (generic_format_bpow radix2 (FLT_exp (-1074) 53) 0). unfold FLT_exp. lia.
Qed.
Lemma w_table : double_table 1 w_xs w_ys.
Proof.
  destruct w_tenth as [F T]. destruct (fnZ 0) as [F0 V0]; [easy|]. destruct (fnZ 3) as [F3 V3]; [easy|]. destruct (fnZ 6) as [F6 V6]; [easy|].
  assert (H : 8 <= bpow radix2 100) by (change 8 with (bpow radix2 3); now apply bpow_le).
  assert (H1 : bpow radix2 (-100) <= 1) by (change 1 with (bpow radix2 0); now apply bpow_le). assert (H2 : bpow radix2 (-800) <= 1) by (change 1 with (bpow radix2 0); now apply bpow_le).
  unfold double_table, w_xs, w_ys. split; [reflexivity|]. split; [cbn; lia|]. split; [repeat constructor; assumption|]. split; [repeat constructor; assumption|].
  split; [repeat first [apply Forall_nil|apply Forall_cons]; rewrite ?V0, ?V3, ?V6; apply Rabs_le; lra|]. split; [repeat first [apply Forall_nil|apply Forall_cons]; rewrite ?V0; apply Rabs_le; lra|].
  split; [|split; [|lra]].
  - cbn [map]. rewrite V0, V3, V6. intros [|[|[|i]]] [|[|[|j]]] a b L E1 E2; try lia; cbn [nth_error] in E1, E2; try (destruct j; discriminate); try (destruct i; discriminate); inversion E1; inversion E2; subst; lra.
  - intros [|[|[|i]]] a b E1 E2; cbn [nth_error] in E1, E2; try discriminate; try (destruct i; discriminate).
    + replace a with (nZ 0 : f64) by congruence. replace b with (nZ 3 : f64) by congruence. rewrite V0, V3. lra.
    + replace a with (nZ 3 : f64) by congruence. replace b with (nZ 6 : f64) by congruence. rewrite V6, V3. lra.
Qed.

(** Inside the table, the answer in doubles is a finite number within 16 half-units of 2^-52 times the largest ordinate of the exact
    piecewise linear function through the table's points. *)
Theorem C84_value : forall B (xs ys : list f64) x first last bound, double_table B xs ys -> ends xs first last -> fin x ->
  fval first <= fval x <= fval last ->
  exists y e, linInt bound xs ys (Z.of_nat (length xs)) x false = Ok y /\ fin y /\ on_polyline (map fval xs) (map fval ys) (fval x) e /\
    Rabs (fval y - e) <= 16 * eps * B.
Proof. exact linInt_near. Qed.
Print Assumptions C84_value.

(** In a table point the answer is that point's ordinate, to the same precision ... *)
Theorem C84_knots : forall B (xs ys : list f64) i xk yk y bound, double_table B xs ys ->
  nth_error xs i = Some xk -> nth_error ys i = Some yk -> linInt bound xs ys (Z.of_nat (length xs)) xk false = Ok y ->
  Rabs (fval y - fval yk) <= 16 * eps * B.
Proof.
  intros B xs ys i xk yk y bound T X Y E. pose proof T as (Hlen & H2 & Fx & _ & _ & _ & Hinc & _).
  destruct (nth_error xs 0) as [a|] eqn:A; [|apply nth_error_None in A; lia]. destruct (nth_error xs (length xs - 1)) as [b|] eqn:Bq; [|apply nth_error_None in Bq; lia].
  assert (Li : (i < length xs)%nat) by (apply nth_error_Some; congruence).
  assert (Hm : forall i j u v, (i <= j)%nat -> nth_error xs i = Some u -> nth_error xs j = Some v -> fval u <= fval v).
  { intros k j u v L U V. destruct (Nat.eq_dec k j) as [->|N]; [assert (u = v) by congruence; subst; lra|]. left. apply (Hinc k j); [lia| |]; now apply nth_map. }
  destruct (linInt_near B xs ys xk a b bound T (conj A Bq)) as (y' & e & E1 & _ & P & D).
  - exact (nth_Forall _ _ _ _ Fx X).
  - split; [apply (Hm 0%nat i)|apply (Hm i (length xs - 1)%nat)]; auto; lia.
  - replace (fval yk) with e; [congruence|]. eapply on_polyline_unique; [exact Hinc|exact P|]. apply on_polyline_knot with i; [exact Hinc|now rewrite !map_length|now rewrite map_length|now apply nth_map|now apply nth_map].
Qed.
Print Assumptions C84_knots.
(** ... but not exactly: with the points (0, 0), (3, 0.1) and (6, 0.1) the answer at 3 is the double after 0.1, which is also more than
    any ordinate of the table. *)
Theorem C84_knots_refuted : exists (xs ys : list f64) y,
  double_table 1 xs ys /\ nth_error xs 1 = Some (nZ 3) /\ nth_error ys 1 = Some (nlit 1 10) /\
  linInt true xs ys (Z.of_nat (length xs)) (nZ 3) false = Ok y /\ (nlit 1 10 <? y)%num = true /\ forallb (fun v => (v <? y)%num) ys = true.
Proof.
  eexists w_xs, w_ys, _. split; [exact w_table|]. split; [reflexivity|]. split; [reflexivity|]. split; [vm_compute; reflexivity|]. split; vm_compute; reflexivity.
Qed.
Print Assumptions C84_knots_refuted.

(** The answer never leaves the range of the ordinates by more than that. *)
Theorem C84_bounded : forall B (xs ys : list f64) x y first last lo hi bound, double_table B xs ys -> ends xs first last -> fin x ->
  fval first <= fval x <= fval last -> (forall v, In v ys -> lo <= fval v <= hi) ->
  linInt bound xs ys (Z.of_nat (length xs)) x false = Ok y -> lo - 16 * eps * B <= fval y <= hi + 16 * eps * B.
Proof.
  intros B xs ys x y a b lo hi bound T En Fx H R E. destruct (linInt_near B xs ys x a b bound T En Fx H) as (y' & e & E1 & _ & P & D).
  replace y' with y in D by congruence. assert (L : lo <= e <= hi).
  { eapply on_polyline_between; [apply T|exact P|]. intros v Hv. apply in_map_iff in Hv. destruct Hv as (u & <- & Hu). now apply R. }
  apply Rabs_le_inv in D. lra.
Qed.
Print Assumptions C84_bounded.

(** Strictly between two neighbouring table points the answers rise or fall exactly as the two ordinates do ... *)
Theorem C84_monotone : forall B (xs ys : list f64) first last bound i xl xr yl yr x1 x2 y1 y2, double_table B xs ys -> ends xs first last ->
  nth_error xs i = Some xl -> nth_error xs (S i) = Some xr -> nth_error ys i = Some yl -> nth_error ys (S i) = Some yr ->
  fin x1 -> fin x2 -> fval xl < fval x1 -> fval x1 <= fval x2 -> fval x2 < fval xr ->
  linInt bound xs ys (Z.of_nat (length xs)) x1 false = Ok y1 -> linInt bound xs ys (Z.of_nat (length xs)) x2 false = Ok y2 ->
  (fval yl <= fval yr -> fval y1 <= fval y2) /\ (fval yr <= fval yl -> fval y2 <= fval y1).
Proof.
  intros B xs ys a b bound i xl xr yl yr x1 x2 y1 y2 T En I1 I2 I3 I4 F1 F2 L1 L2 L3 E1 E2.
  destruct (inside B xs ys x1 a b bound i xl xr yl yr T En F1 I1 I2 I3 I4) as (z1 & D1 & V1); [lra|].
  destruct (inside B xs ys x2 a b bound i xl xr yl yr T En F2 I1 I2 I3 I4) as (z2 & D2 & V2); [lra|].
  replace z1 with y1 in V1 by congruence. replace z2 with y2 in V2 by congruence. rewrite V1, V2. apply chord_mono; lra.
Qed.
Print Assumptions C84_monotone.

(** ... and over the whole of a table with rising ordinates they rise up to the rounding ... *)
Theorem C84_rising : forall B (xs ys : list f64) first last bound x1 x2 y1 y2, double_table B xs ys -> ends xs first last ->
  (forall i j u v, (i <= j)%nat -> nth_error ys i = Some u -> nth_error ys j = Some v -> fval u <= fval v) ->
  fin x1 -> fin x2 -> fval first <= fval x1 -> fval x1 <= fval x2 -> fval x2 <= fval last ->
  linInt bound xs ys (Z.of_nat (length xs)) x1 false = Ok y1 -> linInt bound xs ys (Z.of_nat (length xs)) x2 false = Ok y2 ->
  fval y1 <= fval y2 + 32 * eps * B.
Proof.
  intros B xs ys a b bound x1 x2 y1 y2 T En Hm F1 F2 L1 L2 L3 E1 E2.
  destruct (linInt_near B xs ys x1 a b bound T En F1) as (z1 & e1 & D1 & _ & P1 & V1); [lra|].
  destruct (linInt_near B xs ys x2 a b bound T En F2) as (z2 & e2 & D2 & _ & P2 & V2); [lra|].
  replace z1 with y1 in V1 by congruence. replace z2 with y2 in V2 by congruence. apply Rabs_le_inv in V1, V2. assert (M : e1 <= e2); [|lra].
  apply (on_polyline_monotone (map fval xs) (map fval ys) (fval x1) e1 (fval x2) e2); auto; [apply T|]. intros i j u v L U V.
  destruct (nth_error ys i) as [u'|] eqn:U1; [|apply nth_error_None in U1; assert (nth_error (map fval ys) i = None) by (apply nth_error_None; now rewrite map_length); congruence].
  destruct (nth_error ys j) as [v'|] eqn:W1; [|apply nth_error_None in W1; assert (nth_error (map fval ys) j = None) by (apply nth_error_None; now rewrite map_length); congruence].
  rewrite (nth_map _ _ _ _ U1) in U. rewrite (nth_map _ _ _ _ W1) in V. replace u with (fval u') by congruence. replace v with (fval v') by congruence. now apply (Hm i j).
Qed.
Print Assumptions C84_rising.

(** ... but not exactly: in the same table the answer at 3 is above that at 4. *)
Theorem C84_rising_refuted : exists (xs ys : list f64) y1 y2,
  double_table 1 xs ys /\ (forall i j u v, (i <= j)%nat -> nth_error ys i = Some u -> nth_error ys j = Some v -> fval u <= fval v) /\
  linInt true xs ys (Z.of_nat (length xs)) (nZ 3) false = Ok y1 /\ linInt true xs ys (Z.of_nat (length xs)) (nZ 4) false = Ok y2 /\ (y2 <? y1)%num = true.
Proof.
  eexists w_xs, w_ys, _, _. split; [exact w_table|]. split; [|split; [vm_compute; reflexivity|]; split; [vm_compute; reflexivity|]; vm_compute; reflexivity].
  destruct w_tenth as [_ T]. destruct (fnZ 0) as [F0 V0]; [easy|]. unfold w_ys.
  intros [|[|[|i]]] [|[|[|j]]] a b L E1 E2; try lia; cbn [nth_error] in E1, E2; try (destruct j; discriminate); try (destruct i; discriminate).
  all: repeat match goal with H : Some ?u = Some ?v |- _ => assert (v = u) by congruence; clear H end; subst; lra.
Qed.
Print Assumptions C84_rising_refuted.

(** The table of the two examples, and the query 4, which lies inside it. *)
Example C84_inhabited : double_table 1 w_xs w_ys /\ ends w_xs (nZ 0) (nZ 6) /\ fin (nZ 4 : f64) /\ fval (nZ 0 : f64) <= fval (nZ 4 : f64) <= fval (nZ 6 : f64).
Proof.
  destruct (fnZ 0) as [F0 V0]; [easy|]. destruct (fnZ 4) as [F4 V4]; [easy|]. destruct (fnZ 6) as [F6 V6]; [easy|].
  split; [exact w_table|]. split; [split; reflexivity|]. split; [exact F4|]. rewrite V0, V4, V6. lra.
Qed.

