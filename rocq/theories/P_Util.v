(** * C02-C05: interpolation, grids, histograms *)
From Coq Require Import Permutation SpecFloat.
From Verif Require Import Base RFacts UtilModel UtilSpec UtilProofs.
Local Open Scope R_scope.

(** ** C02 *)

(** For every strictly increasing table and every query in its range, interpolation by search
    returns the value of the piecewise-linear function through the points. *)
Theorem C02_interpolation_value : forall (xs ys : list R) (x first last : R) (bound : bool),
  length xs = length ys -> (2 <= length xs)%nat -> increasing xs ->
  nth_error xs 0 = Some first -> nth_error xs (length xs - 1) = Some last ->
  first <= x <= last ->
  exists y, linInt bound xs ys (Z.of_nat (length xs)) x false = Ok y /\
    on_polyline xs ys x y /\ (forall y', on_polyline xs ys x y' -> y' = y).
Proof. exact linInt_value. Qed.
Print Assumptions C02_interpolation_value.

(** Exact at the knots. *)
Theorem C02_interpolation_knots : forall (xs ys : list R) i xk yk bound,
  length xs = length ys -> (2 <= length xs)%nat -> increasing xs ->
  nth_error xs i = Some xk -> nth_error ys i = Some yk ->
  linInt bound xs ys (Z.of_nat (length xs)) xk false = Ok yk.
Proof. exact linInt_knot. Qed.
Print Assumptions C02_interpolation_knots.

(** Never outside the range of the ordinates. *)
Theorem C02_interpolation_bounded : forall (xs ys : list R) x y first last lo hi bound,
  length xs = length ys -> (2 <= length xs)%nat -> increasing xs ->
  nth_error xs 0 = Some first -> nth_error xs (length xs - 1) = Some last -> first <= x <= last ->
  (forall v, In v ys -> lo <= v <= hi) ->
  linInt bound xs ys (Z.of_nat (length xs)) x false = Ok y -> lo <= y <= hi.
Proof. exact linInt_between. Qed.
Print Assumptions C02_interpolation_bounded.

(** Monotone data give a monotone interpolation (an OCV curve stays monotone). *)
Theorem C02_interpolation_monotone : forall (xs ys : list R) x1 x2 y1 y2 first last bound,
  length xs = length ys -> (2 <= length xs)%nat -> increasing xs ->
  (forall i j u v, (i <= j)%nat -> nth_error ys i = Some u -> nth_error ys j = Some v -> u <= v) ->
  nth_error xs 0 = Some first -> nth_error xs (length xs - 1) = Some last ->
  first <= x1 -> x1 <= x2 -> x2 <= last ->
  linInt bound xs ys (Z.of_nat (length xs)) x1 false = Ok y1 ->
  linInt bound xs ys (Z.of_nat (length xs)) x2 false = Ok y2 ->
  y1 <= y2.
Proof. exact linInt_monotone. Qed.
Print Assumptions C02_interpolation_monotone.

(** Out of range with bounds enforced: error code 1 and nothing else, for every carrier (doubles included)
    and whatever the table contains. *)
Theorem C02_outside_rejected : forall (A : Type) (NA : Num A) (xs ys : list A) (x first last : A) fx,
  nth_error xs 0 = Some first -> nth_error xs (length xs - 1) = Some last ->
  (nltb x first = true \/ nltb last x = true) ->
  linInt true xs ys (Z.of_nat (length xs)) x fx = Throw 1.
Proof.
  intros A NA xs ys x a b fx Ha Hb [H|H];
    [exact (linInt_below xs ys x a b fx Ha Hb H) | exact (linInt_above xs ys x a b fx Ha Hb H)].
Qed.
Print Assumptions C02_outside_rejected.

(** Out of range without bounds: clamped to the end ordinates. *)
Theorem C02_outside_clamped : forall (xs ys : list R) x first last fx,
  length xs = length ys -> (2 <= length xs)%nat -> increasing xs ->
  nth_error xs 0 = Some first -> nth_error xs (length xs - 1) = Some last ->
  (x <= first -> exists y0, nth_error ys 0 = Some y0 /\
     linInt false xs ys (Z.of_nat (length xs)) x fx = Ok y0) /\
  (last <= x -> exists yn, nth_error ys (length ys - 1) = Some yn /\
     linInt false xs ys (Z.of_nat (length xs)) x fx = Ok yn).
Proof. exact linInt_clamped. Qed.
Print Assumptions C02_outside_clamped.

(** For every carrier - doubles included - and *every* table (sorted or not), a query strictly between the
    first and the last abscissa reads only inside the table and evaluates the chord of two adjacent points
    that bracket it. *)
Theorem C02_interior_no_out_of_range_read :
  forall (A : Type) (NA : Num A) (bound : bool) (xs ys : list A) (x first last : A),
  length xs = length ys ->
  nth_error xs 0 = Some first -> nth_error xs (length xs - 1) = Some last ->
  nltb x first = false -> nltb last x = false -> nleb x first = false -> nleb last x = false ->
  nltb first x = true ->
  exists i xl xr yl yr,
    nth_error xs i = Some xl /\ nth_error xs (S i) = Some xr /\
    nth_error ys i = Some yl /\ nth_error ys (S i) = Some yr /\
    nltb xl x = true /\ nltb xr x = false /\
    linInt bound xs ys (Z.of_nat (length xs)) x false =
      Ok (nadd yl (ndiv (nmul (nsub yr yl) (nsub x xl)) (nsub xr xl))).
Proof. exact @linInt_interior_any. Qed.
Print Assumptions C02_interior_no_out_of_range_read.

(** Finding: a NaN query passes the bound checks and reads before the start of the table
    (undefined behaviour), with the search as with the shortcut. *)
Theorem C02_nan_query_refuted :
  exists (xs ys : list f64) (x : f64),
    XYdata_make xs ys = Ok (mkXY xs ys true) /\
    linInt true xs ys (Z.of_nat (length xs)) x false = UB /\
    linInt true xs ys (Z.of_nat (length xs)) x true = UB.
Proof.
  exists [nZ 0; nlit 1 2; nZ 1], [nZ 2; nZ 3; nZ 4], S754_nan.
  vm_compute. auto.
Qed.
Print Assumptions C02_nan_query_refuted.

(** Non-vacuity: the OCV table shape used by the ECM cell (three points). *)
Example C02_table_ex : increasing [0; 1/2; 1] /\
  nth_error [0; 1/2; 1] 0 = Some 0 /\ nth_error [0; 1/2; 1] 2 = Some 1 /\
  linInt true [0; 1/2; 1] [2; 3; 5] 3 (3/4) false = Ok 4.
Proof.
  assert (Hinc : increasing [0; 1/2; 1]).
  { intros i j a b Hij Ha Hb.
    destruct i as [|[|[|i]]], j as [|[|[|j]]]; simpl in Ha, Hb; try lia; try discriminate;
      try (destruct j; discriminate); try (destruct i; discriminate);
      injection Ha as <-; injection Hb as <-; lra. }
  repeat split; auto.
  destruct (linInt_value [0; 1/2; 1] [2; 3; 5] (3/4) 0 1 true eq_refl ltac:(simpl; lia) Hinc eq_refl eq_refl
    ltac:(lra)) as (y & E & _ & U).
  simpl Z.of_nat in E. rewrite E. f_equal. symmetry. apply U.
  exists 1%nat, (1/2), 1, 3, 5. repeat split; try lra.
Qed.

(** ** C03 *)

(** On an exactly uniform table the constant-step shortcut gives the same result as the search,
    for every query. *)
Theorem C03_shortcut_equals_search_partial : forall (xs ys : list R) (x x0 dt : R) (bound : bool),
  length xs = length ys -> (2 <= length xs)%nat -> (Z.of_nat (length xs) <= 2147483647)%Z ->
  0 < dt -> uniform xs x0 dt ->
  linInt bound xs ys (Z.of_nat (length xs)) x true = linInt bound xs ys (Z.of_nat (length xs)) x false.
Proof. exact linInt_fixed_eq. Qed.
Print Assumptions C03_shortcut_equals_search_partial.

(** Finding: a table accepted as uniform (each step within 1% of the first) for which the shortcut selects
    the wrong interval: the result differs from the table's piecewise-linear value. *)
Definition drift_x : list f64 := [nZ 0; nZ 1; nlit 2005 1000; nlit 3010 1000].
Definition drift_y : list f64 := [nZ 0; nZ 0; nZ 0; nZ 1000].
Theorem C03_shortcut_differs_refuted :
  exists d y y',
    XYdata_make drift_x drift_y = Ok d /\
    XYdata_interp d (nlit 2003 1000) true = Ok y /\
    linInt true drift_x drift_y 4 (nlit 2003 1000) false = Ok y' /\
    nltb y (nlit (-1) 1) = true /\ neqb y' (nZ 0) = true.
Proof.
  eexists (mkXY _ _ true), _, _.
  split; [vm_compute; reflexivity|]. split; [vm_compute; reflexivity|]. split; [vm_compute; reflexivity|].
  split; vm_compute; reflexivity.
Qed.
Print Assumptions C03_shortcut_differs_refuted.

(** Finding: the drift accumulates with the table length; on this 202-point table, accepted as uniform,
    a query inside the range reads beyond the end of the table. *)
Definition long_x : list f64 :=
  nZ 0 :: map (fun i => nadd (nZ 1) (nmul (nlit 1005 1000) (nnat i))) (seq 0 201).
Theorem C03_shortcut_out_of_range_refuted :
  exists d, XYdata_make long_x long_x = Ok d /\
    nltb (nlit 2019 10) (last long_x (nZ 0)) = true /\
    XYdata_interp d (nlit 2019 10) true = UB.
Proof. exists (mkXY long_x long_x true). vm_compute. auto. Qed.
Print Assumptions C03_shortcut_out_of_range_refuted.

(** Finding: rounding alone does it, on an ordinary table: 0.2, 0.3, 0.4, queried at the double before 0.4.  The step 0.3 - 0.2 is rounded
    down, so the query is two whole steps from the start and the point behind the last one is read. *)
Definition tenths_x : list f64 := [nlit 2 10; nlit 3 10; nlit 4 10].
Definition before_end : f64 := nsub (nlit 4 10) (nlit 1 18014398509481984).
Theorem C03_decimal_refuted :
  exists d, XYdata_make tenths_x tenths_x = Ok d /\ nltb (nlit 2 10) before_end = true /\ nltb before_end (nlit 4 10) = true /\
    XYdata_interp d before_end true = UB.
Proof. exists (mkXY tenths_x tenths_x true). repeat split; vm_compute; reflexivity. Qed.
Print Assumptions C03_decimal_refuted.

(** Which tables are accepted as uniform: those all of whose steps lie within one percent of the first. *)
Lemma fixed_from_iff dt tol : forall l : list R, fixed_from dt tol l = true <->
  forall i a b, nth_error l i = Some a -> nth_error l (S i) = Some b -> Rabs (b - a - dt) <= tol.
Proof.
  induction l as [|a [|b l] IH]; [split; [intros _ [|i] ? ? H; discriminate|reflexivity]|split; [intros _ [|[|i]] ? ? ? H; discriminate|reflexivity]|].
  cbn [fixed_from]. change (nabs (nsub (nsub b a) dt)) with (Rabs (b - a - dt)).
  destruct (nltb tol (Rabs (b - a - dt))) eqn:E.
  - apply Rltb_true in E. split; [discriminate|]. intros H. specialize (H 0%nat a b eq_refl eq_refl). lra.
  - apply Rltb_false in E. rewrite IH. split.
    + intros H [|i] x y Hx Hy; [injection Hx as <-; injection Hy as <-; exact E|exact (H i x y Hx Hy)].
    + intros H i x y Hx Hy. exact (H (S i) x y Hx Hy).
Qed.
Theorem C03_accepted_tables : forall (x0 x1 : R) (t : list R),
  check_is_fixed (x0 :: x1 :: t) = Ok true <->
  forall i a b, nth_error (x1 :: t) i = Some a -> nth_error (x1 :: t) (S i) = Some b -> Rabs (b - a - (x1 - x0)) <= (x1 - x0) / 100.
Proof.
  intros x0 x1 t. unfold check_is_fixed. set (g := fixed_from _ _ _).
  assert (G : g = true <-> forall i a b, nth_error (x1 :: t) i = Some a -> nth_error (x1 :: t) (S i) = Some b -> Rabs (b - a - (x1 - x0)) <= (x1 - x0) / 100).
  { unfold g. rewrite fixed_from_iff. replace (nlit 1 100 * (x1 - x0))%num with ((x1 - x0) / 100)%R; [reflexivity|]. rewrite R_nlit. cbn. field. }
  rewrite <- G. split; [intros H; now injection H as ->|intros ->; reflexivity].
Qed.
Print Assumptions C03_accepted_tables.
Example C03_accepted_ex : check_is_fixed [0; 1; 2; 301/100] = Ok true /\ check_is_fixed [0; 1; 2; 303/100] = Ok false.
Proof.
  split.
  - apply C03_accepted_tables. intros [|[|[|i]]] a b Ha Hb; cbn in Ha, Hb; try discriminate; injection Ha as <-; injection Hb as <-; apply Rabs_le; lra.
  - unfold check_is_fixed. f_equal. apply Bool.not_true_is_false. rewrite fixed_from_iff. intros H. specialize (H 1%nat 2 (303/100) eq_refl eq_refl).
    rewrite R_nlit in H. cbn in H. revert H. unfold Rabs. destruct (Rcase_abs _); lra.
Qed.

Example C03_uniform_ex : uniform [2; 5/2; 3] 2 (1/2) /\ 0 < 1/2.
Proof.
  split; [|lra]. intros i a H. destruct i as [|[|[|i]]]; simpl in H; try discriminate;
    try (injection H as <-; simpl; lra). destruct i; discriminate.
Qed.

(** ** C04 *)

Theorem C04_linspace_length : forall (A : Type) (NA : Num A) (x1 x2 : A) n,
  length (linspace x1 x2 n) = Z.to_nat n /\
  length (fd_list (linspace_fix x1 x2 n)) = Z.to_nat n.
Proof. exact @linspace_lengths. Qed.
Print Assumptions C04_linspace_length.

(** Every element is the affine grid value: so the first is x1, the last x2, the step constant. *)
Theorem C04_linspace_values : forall (x1 x2 : R) n i,
  (2 <= n)%Z -> (i < Z.to_nat n)%nat ->
  nth_error (linspace x1 x2 n) i = Some (x1 + INR i * ((x2 - x1) / (IZR n - 1))) /\
  nth_error (fd_list (linspace_fix x1 x2 n)) i = Some (x1 + INR i * ((x2 - x1) / (IZR n - 1))).
Proof. exact linspace_values. Qed.
Print Assumptions C04_linspace_values.

Theorem C04_linspace_ends : forall (x1 x2 : R) n, (2 <= n)%Z ->
  fd_front (linspace_fix x1 x2 n) = x1 /\ fd_back (linspace_fix x1 x2 n) = x2 /\
  nth_error (linspace x1 x2 n) 0 = Some x1 /\
  nth_error (linspace x1 x2 n) (Z.to_nat n - 1) = Some x2.
Proof. exact linspace_ends. Qed.
Print Assumptions C04_linspace_ends.

(** The vector and the compact form agree for every N, also N <= 1 (where the single value is x2). *)
Theorem C04_linspace_forms_agree : forall (x1 x2 : R) n,
  linspace x1 x2 n = fd_list (linspace_fix x1 x2 n).
Proof. exact linspace_agree. Qed.
Print Assumptions C04_linspace_forms_agree.

(** prev/next step back and forth along the grid, from every grid point, also beyond the ends. *)
Theorem C04_prev_next : forall (d : FixedData R) i,
  fd_next d (fd_at d i) = fd_at d (i + 1) /\ fd_prev d (fd_at d i) = fd_at d (i - 1).
Proof. exact fd_prev_next. Qed.
Print Assumptions C04_prev_next.

(** Finding: in doubles the two forms do not hit the same points: the compact form misses x2. *)
Theorem C04_forms_agree_double_refuted :
  exists (x1 x2 : f64) n,
    neqb (fd_back (linspace_fix x1 x2 n)) x2 = false /\
    neqb (List.last (linspace x1 x2 n) (nZ 0)) x2 = true.
Proof. exists (nZ 0), (nZ 1), 50%Z. vm_compute. auto. Qed.
Print Assumptions C04_forms_agree_double_refuted.

(** ** C05 *)

(** Any carrier, any starting counts: no sample is lost or counted twice. *)
Theorem C05_histogram_conserves : forall (A : Type) (NA : Num A) xs (h h' : Histogram A),
  hist_adds h xs = Ok h' ->
  total (h_bins h') = (length xs + total (h_bins h))%nat /\ length (h_bins h') = length (h_bins h).
Proof. exact @hist_adds_total. Qed.
Print Assumptions C05_histogram_conserves.

(** Every sample sequence (whose scaled values fit an int) is binned exactly as documented. *)
Theorem C05_histogram_bins : forall lo hi n xs,
  lo < hi -> (1 <= n)%nat -> Forall (castable lo hi n) xs ->
  exists h, hist_adds (hist_make lo hi n) xs = Ok h /\
    length (h_bins h) = (n + 2)%nat /\
    total (h_bins h) = length xs /\
    forall i c, nth_error (h_bins h) i = Some c -> counts (in_bin lo hi n i) xs c.
Proof. exact hist_correct. Qed.
Print Assumptions C05_histogram_bins.

Theorem C05_histogram_order_irrelevant : forall lo hi n xs ys,
  lo < hi -> (1 <= n)%nat -> Forall (castable lo hi n) xs -> Permutation xs ys ->
  exists hx hy, hist_adds (hist_make lo hi n) xs = Ok hx /\ hist_adds (hist_make lo hi n) ys = Ok hy /\
    h_bins hx = h_bins hy.
Proof. exact hist_order_irrelevant. Qed.
Print Assumptions C05_histogram_order_irrelevant.

(** Findings: undefined behaviour for a default-constructed histogram, for a NaN sample and for a finite
    sample far out of range; and in doubles a sample below an edge can be counted above it, and the last
    edge can be missing from the reported edges. *)
Theorem C05_default_histogram_refuted : forall x : R,
  -2147483648 <= 1 + x < 2147483648 -> hist_add (hist_default : Histogram R) x = UB.
Proof. exact hist_default_ub. Qed.
Print Assumptions C05_default_histogram_refuted.

Theorem C05_nan_or_far_sample_refuted :
  hist_add (hist_make (nZ 0) (nZ 1) 100 : Histogram f64) S754_nan = UB /\
  hist_add (hist_make (nZ 0) (nZ 1) 100 : Histogram f64) (nZ 100000000) = UB.
Proof. vm_compute. auto. Qed.
Print Assumptions C05_nan_or_far_sample_refuted.

Theorem C05_double_edge_misbinned_refuted :
  let h := hist_make (nZ 0) (nZ 1) 20 : Histogram f64 in
  exists e, hist_edges h = Ok e /\
    nltb (nlit 85 100) (fd_at e 17) = true /\ hist_index h (nlit 85 100) = Ok 18%Z.
Proof. cbv zeta. eexists. split; [vm_compute; reflexivity|]. split; vm_compute; reflexivity. Qed.
Print Assumptions C05_double_edge_misbinned_refuted.

Theorem C05_double_edge_missing_refuted :
  rmap (fun e => fd_n e) (hist_edges (hist_make (nZ 0) (nZ 1) 93 : Histogram f64)) = Ok 93%Z.
Proof. vm_compute. reflexivity. Qed.
Print Assumptions C05_double_edge_missing_refuted.

(** Over the reals the reported edges are the n+1 documented ones. *)
Theorem C05_edges : forall lo hi n, lo < hi -> (1 <= n)%nat -> (Z.of_nat n <= 2147483647)%Z ->
  exists e, hist_edges (hist_make lo hi n) = Ok e /\ fd_n e = (Z.of_nat n + 1)%Z /\
    forall k, fd_at e (Z.of_nat k) = edge lo hi n k.
Proof. exact hist_edges_spec. Qed.
Print Assumptions C05_edges.

Example C05_ex : Forall (castable 0 1 10) [-5; 0; 1/3; 1; 7].
Proof. repeat constructor; unfold castable; simpl; lra. Qed.
