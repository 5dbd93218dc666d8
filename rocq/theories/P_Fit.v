(** * C59, C60: OCV curves and the OCV fit *)
From Coq Require Import SpecFloat Lra.
From Verif Require Import Base RFacts UtilModel UtilSpec UtilProofs FitModel FitSpec FitProofs FitProofs2.
Local Open Scope R_scope.

(** ** C59 *)

(** Over the reals, any length: accepted exactly if usable, where the end points may miss 0 and 1 by less than 1e-5. *)
Theorem C59_accepted_iff_partial : forall (e : bool) (xs ys : list R), length xs = length ys -> xs <> [] ->
  exists b, validOCV e xs ys = Ok b /\ (b = true <-> usable (1 / 100000) e xs ys).
Proof. intros e xs ys L N. now apply validOCV_R. Qed.
Print Assumptions C59_accepted_iff_partial.

(** Every curve from exactly 0 to exactly 1 with strictly increasing abscissae and voltages in [0,10] is accepted. *)
Theorem C59_complete : forall (e : bool) (xs ys : list R), length xs = length ys -> increasing xs ->
  nth_error xs 0 = Some 0 -> (e = true -> nth_error xs (length xs - 1) = Some 1) -> (forall y, In y ys -> 0 <= y <= 10) ->
  validOCV e xs ys = Ok true.
Proof.
  intros e xs ys L I H0 H1 HY. destruct (validOCV_R xs ys e L) as (b & E & H); [intros ->; discriminate|].
  rewrite E. f_equal. apply H. split; [exact I|]. split; [exact HY|]. split.
  - exists 0. split; [exact H0|]. rewrite Rabs_R0. lra.
  - intros K. exists 1. split; [auto|]. replace (1 - 1) with 0 by ring. rewrite Rabs_R0. lra.
Qed.
Print Assumptions C59_complete.

(** So interpolation on an accepted electrode curve is defined, and gives a voltage between 0 and 10. *)
Theorem C59_interpolation : forall (xs ys : list R) x, length xs = length ys -> (2 <= length xs)%nat ->
  validOCV true xs ys = Ok true -> 1 / 100000 <= x <= 1 - 1 / 100000 ->
  exists v, linInt true xs ys (Z.of_nat (length xs)) x false = Ok v /\ 0 <= v <= 10 /\ on_polyline xs ys x v.
Proof.
  intros xs ys x L L2 V Hx. destruct (validOCV_R xs ys true L) as (b & E & H); [intros ->; cbn in L2; lia|].
  rewrite E in V. injection V as ->. destruct (proj1 H eq_refl) as (I & HY & (a & Ha & Ta) & Hb).
  destruct (Hb eq_refl) as (b & Hb' & Tb). apply Rabs_def2 in Ta. apply Rabs_def2 in Tb.
  destruct (linInt_polyline xs ys x a b true L L2 I Ha Hb') as (v & Ev & P); [lra|]. exists v. split; [exact Ev|]. split; [|exact P].
  apply (linInt_between xs ys x v a b 0 10 true); auto. lra.
Qed.
Print Assumptions C59_interpolation.

(** In doubles, for columns without not-a-numbers (infinities allowed): neighbours strictly increase and voltages are
    between 0 and 10, as the machine compares them. *)
Theorem C59_doubles : forall (e : bool) (x0 : f64) (xs ys : list f64) (y0 : f64), length xs = length ys ->
  Forall number (x0 :: xs) -> Forall number (y0 :: ys) ->
  exists b, validOCV e (x0 :: xs) (y0 :: ys) = Ok b /\
    (b = true <-> usable_f64 (x0 :: xs) (y0 :: ys) /\ nltb (nabs x0) (nlit 1 100000) = true /\
       (e = true -> nltb (nabs (nsub (last (x0 :: xs) x0) (nZ 1))) (nlit 1 100000) = true)).
Proof.
  intros e x0 xs ys y0 L Nx Ny. inversion Nx as [|? ? N1 N2]; inversion Ny as [|? ? N3 N4]; subst.
  destruct (rows_f64 xs ys x0 L N2 N4 N1) as (b & E & H). unfold validOCV. rewrite E. cbn [rmap rbind].
  eexists. split; [reflexivity|]. rewrite !Bool.andb_true_iff, H.
  assert (V : negb (orb (nltb y0 (nZ 0)) (nltb (nZ 10) y0)) = true <-> nleb (nZ 0) y0 = true /\ nleb y0 (nZ 10) = true).
  { rewrite Bool.negb_true_iff, Bool.orb_false_iff.
    rewrite (SF_total' y0 (nZ 0)), (SF_total' (nZ 10) y0) by (auto; apply nZ_number; auto). reflexivity. }
  rewrite V. unfold usable_f64. set (lst := last (x0 :: xs) x0). split.
  - intros (Q1 & Q2 & Q3 & Q4). split; [split; [exact Q3|]|].
    + intros y [<-|Hy]; auto.
    + destruct e; [apply Bool.andb_true_iff in Q1; split; [apply Q1|intros _; apply Q1]|split; [exact Q1|discriminate]].
  - intros ((Q3 & Q4) & Q1 & Q2). repeat split; auto; try (apply Q4; now left); try (apply Q4; now right).
    destruct e; [|exact Q1]. apply Bool.andb_true_iff. auto.
Qed.
Print Assumptions C59_doubles.

(** Finding: not-a-numbers pass, as abscissa and as voltage. *)
Theorem C59_nan_refuted :
  validOCV true [nZ 0; S754_nan; nZ 1 : f64] [nZ 3; S754_nan; nZ 4] = Ok true.
Proof. vm_compute. reflexivity. Qed.
Print Assumptions C59_nan_refuted.
(** Finding: an accepted curve need not cover the range it is meant for; a query at 0 then fails. *)
Theorem C59_tolerance_refuted :
  let xs := [5 / 1000000; 1] in validOCV true xs [4; 3] = Ok true /\ linInt true xs [4; 3] 2 0 false = Throw 1.
Proof.
  cbv zeta. split.
  - destruct (validOCV_R [5 / 1000000; 1] [4; 3] true eq_refl) as (b & E & H); [discriminate|]. rewrite E. f_equal. apply H.
    split; [apply inc_cons2; split; [lra|apply inc_one]|]. split; [intros y [<-|[<-|[]]]; lra|]. split.
    + exists (5 / 1000000). split; [reflexivity|]. apply Rabs_def1; lra.
    + intros _. exists 1. split; [reflexivity|]. apply Rabs_def1; lra.
  - apply (linInt_below [5 / 1000000; 1] [4; 3] 0 (5 / 1000000) 1 false eq_refl eq_refl). apply Rltb_true. lra.
Qed.
Print Assumptions C59_tolerance_refuted.
(** Finding: an empty curve, and a curve of one point, are not rejected: reading them is undefined. *)
Theorem C59_short_refuted : forall (A : Type) (NA : Num A) (p n cell : list A * list A) e ys,
  validOCV e [] ys = (UB : res bool) /\ ((length (fst p) < 2)%nat -> readOCVinput p n cell = UB).
Proof.
  intros A NA p n cell e ys. split; [reflexivity|]. intros H. unfold readOCVinput.
  destruct (fst p) as [|a [|b l]]; [reflexivity|reflexivity|cbn in H; lia].
Qed.
Print Assumptions C59_short_refuted.
Example C59_inhabited : validOCV true [nZ 0; nlit 1 2; nZ 1 : f64] [nZ 4; nlit 38 10; nZ 3] = Ok true /\
  validOCV true [nZ 0; nlit 1 2; nlit 1 2; nZ 1 : f64] [nZ 4; nZ 4; nlit 38 10; nZ 3] = Ok false /\
  validOCV false [0; 1; 2] [4; 3; 2] = Ok true.
Proof.
  split; [vm_compute; reflexivity|]. split; [vm_compute; reflexivity|].
  apply C59_complete; [reflexivity| |reflexivity|discriminate|intros y [<-|[<-|[<-|[]]]]; lra].
  apply inc_cons2. split; [lra|]. apply inc_cons2. split; [lra|apply inc_one].
Qed.

(** ** C60 *)

(** The three-parameter scan, in doubles: for every cost function whose values on the grid are numbers, one of them below
    the start value 1e10, the returned parameters are the first grid point of smallest cost and the reported error is
    the root mean square belonging to it. *)
Theorem C60_scan_doubles : forall (cost : par f64 -> res f64) len par0 AMp amn sp sn,
  let pts := grid3 AMp amn sp sn in
  (forall q, In q pts -> exists e, cost q = Ok e /\ number e) ->
  (exists q e, In q pts /\ cost q = Ok e /\ nltb e (nZ 10000000000) = true) ->
  exists q e, fit cost len par0 AMp amn sp sn = Ok (q, nsqrt (ndiv e (nnat len))) /\ first_best cost pts q e.
Proof.
  intros cost len par0 AMp amn sp sn pts H1 H2. apply (fit_best number cost SF_lt_le SF_asym); [vm_compute; discriminate|exact H1|exact H2].
Qed.
Print Assumptions C60_scan_doubles.

Lemma read_sound (p n cell : list R * list R) : length (fst p) = length (snd p) -> length (fst n) = length (snd n) ->
  length (fst cell) = length (snd cell) -> readOCVinput p n cell = Ok tt ->
  sound (fst p) (snd p) /\ sound (fst n) (snd n) /\ (2 <= length (fst cell))%nat.
Proof.
  intros L1 L2 L3. unfold readOCVinput.
  assert (K : forall l : list R, (exists b, check_is_fixed l = Ok b) -> (2 <= length l)%nat).
  { intros [|a [|b l]] (c & H); try discriminate. cbn. lia. }
  destruct (check_is_fixed (fst p)) as [b1|x| |] eqn:E1; try discriminate. cbn [rbind].
  destruct (check_is_fixed (fst n)) as [b2|x| |] eqn:E2; try discriminate. cbn [rbind].
  destruct (check_is_fixed (fst cell)) as [b3|x| |] eqn:E3; try discriminate. cbn [rbind].
  assert (K1 := K _ (ex_intro _ _ E1)). assert (K2 := K _ (ex_intro _ _ E2)). assert (K3 := K _ (ex_intro _ _ E3)).
  destruct (validOCV_R (fst p) (snd p) true L1) as (v1 & V1 & H1); [intros Z; rewrite Z in K1; cbn in K1; lia|].
  destruct (validOCV_R (fst n) (snd n) true L2) as (v2 & V2 & H2); [intros Z; rewrite Z in K2; cbn in K2; lia|].
  rewrite V1. cbn [rbind]. destruct v1; [|discriminate]. cbn [negb]. rewrite V2. cbn [rbind]. destruct v2; [|discriminate].
  intros _. destruct (proj1 H1 eq_refl) as (I1 & _). destruct (proj1 H2 eq_refl) as (I2 & _).
  repeat split; assumption.
Qed.
Lemma cost_total (p n cell : list R * list R) cmaxp cmaxn : sound (fst p) (snd p) -> sound (fst n) (snd n) ->
  length (fst cell) = length (snd cell) -> (2 <= length (fst cell))%nat ->
  forall q, exists e, fit_cost p n cell cmaxp cmaxn q = Ok e /\ 0 <= e.
Proof.
  intros S1 S2 L L2 [[[a b] c] d]. unfold fit_cost, cost_OCV. destruct cell as [cx cy]. cbn [fst snd] in *.
  destruct cy as [|y0 cy]; [cbn in *; lia|]. assert ((length cx <? length (y0 :: cy))%nat = false) as -> by (apply Nat.ltb_ge; lia).
  destruct (cost_rows_ok (fst p) (snd p) (fst n) (snd n) S1 S2 a b cmaxp cmaxn (last (y0 :: cy) y0) (combine cx (y0 :: cy)) (nZ 0) c d false (nZ 0)) as (e & H & P).
  exists e. split; [exact H|]. now rewrite R_nZ in P.
Qed.

Definition columns (c : list R * list R) : Prop := length (fst c) = length (snd c).

(** Over the reals, with the curves of the three files: a search of one level returns the first of the best points of the
    whole four-parameter grid, and the error it reports is the root mean square error of that point. *)
Theorem C60_level : forall s p n cell cmaxp cmaxn,
  columns p -> columns n -> columns cell -> readOCVinput p n cell = Ok tt -> (1 <= fd_n (sp_AMp s))%Z ->
  (exists q e, In q (grid s) /\ fit_cost p n cell cmaxp cmaxn q = Ok e /\ e < 10000000000) ->
  exists q e, hierarchicalOCVfit 1 s p n cell cmaxp cmaxn = Ok (q, sqrt (e / INR (length (snd cell)))) /\
    first_best (fit_cost p n cell cmaxp cmaxn) (grid s) q e.
Proof.
  intros s p n cell cmaxp cmaxn L1 L2 L3 RD N (q0 & e0 & I0 & C0 & B0). destruct (read_sound p n cell L1 L2 L3 RD) as (S1 & S2 & S3).
  pose proof (cost_total p n cell cmaxp cmaxn S1 S2 L3 S3) as T. unfold columns in L3.
  unfold hierarchicalOCVfit. rewrite RD. cbn [rbind]. rewrite levels_S.
  destruct (level_R (fit_cost p n cell cmaxp cmaxn) (length (snd cell)) ltac:(lia) T s
    (map (fun _ => (nZ 0, nZ 0, nZ 0, nZ 0)) (fd_list (sp_AMp s)))) as (r & pars & E & S & _); [rewrite map_length; lia|exact N|].
  rewrite E. cbn [rbind].
  destruct (seen_best _ _ _ _ _ _ S I0 C0) as (e & Er & F); [unfold sentinel; rewrite R_nZ; exact B0|].
  exists (fst r), e. split; [|exact F]. rewrite <- Er. now destruct r.
Qed.
Print Assumptions C60_level.

(** Refined searches never return a worse fit: one more level never increases the reported error, if every space has an
    odd number of points (at least 3, 5 for the starting points) and the starting points keep two steps from 0 and 1.
    Missing: other sizes (false, below). *)
Theorem C60_refined_partial : forall h s p n cell cmaxp cmaxn,
  columns p -> columns n -> columns cell -> readOCVinput p n cell = Ok tt ->
  odd_size (sp_AMp s) -> odd_size (sp_AMn s) -> roomy (sp_sp s) 0 1 -> roomy (sp_sn s) 0 1 ->
  (exists q e, In q (grid s) /\ fit_cost p n cell cmaxp cmaxn q = Ok e /\ e < 10000000000) ->
  exists r1 r2, hierarchicalOCVfit (S h) s p n cell cmaxp cmaxn = Ok r1 /\
    hierarchicalOCVfit (S (S h)) s p n cell cmaxp cmaxn = Ok r2 /\ snd r2 <= snd r1.
Proof.
  intros h s p n cell cmaxp cmaxn L1 L2 L3 RD O1 O2 R1 R2 (q0 & e0 & I0 & C0 & B0).
  destruct (read_sound p n cell L1 L2 L3 RD) as (S1 & S2 & S3).
  pose proof (cost_total p n cell cmaxp cmaxn S1 S2 L3 S3) as T. unfold columns in L3.
  unfold hierarchicalOCVfit. rewrite RD. cbn [rbind].
  apply (levels_improve (fit_cost p n cell cmaxp cmaxn) (length (snd cell)) ltac:(lia) T h s); [exact (conj O1 (conj O2 (conj R1 R2)))|rewrite map_length; lia|].
  exists q0, e0. split; [exact I0|]. split; [exact C0|]. unfold sentinel. now rewrite R_nZ.
Qed.
Print Assumptions C60_refined_partial.

(** The starting points stay lithium fractions: for any cost, any number of levels and any sizes. *)
Theorem C60_bounds : forall h s p n cell cmaxp cmaxn a b c d err,
  (forall x, In x (fd_list (sp_sp s)) -> 0 <= x <= 1) -> (forall x, In x (fd_list (sp_sn s)) -> 0 <= x <= 1) ->
  0 <= fd_dx (sp_sp s) -> 0 <= fd_dx (sp_sn s) -> snd cell <> [] ->
  hierarchicalOCVfit h s p n cell cmaxp cmaxn = Ok ((a, b, c, d), err) -> 0 <= c <= 1 /\ 0 <= d <= 1.
Proof.
  intros h s p n cell cmaxp cmaxn a b c d err H1 H2 D1 D2 NE. unfold hierarchicalOCVfit.
  destruct (readOCVinput p n cell) as [[]|x| |]; try discriminate. cbn [rbind]. intros E.
  assert (Hl : (0 < length (snd cell))%nat) by (destruct (snd cell); [congruence|cbn; lia]).
  apply (levels_unit _ _ Hl h s _ _ (conj D1 H1) (conj D2 H2)) in E; [exact E|].
  apply Forall_forall. intros q Hq. apply in_map_iff in Hq. destruct Hq as (x & <- & _). cbn. lra.
Qed.
Print Assumptions C60_bounds.

(** The cost is the squared distance between the measured curve and the voltage of the two-electrode cell at the same
    discharged charge, as long as both electrodes stay on curves from 0 to 1 and the simulated voltage stays above the last
    measured one until the last point. *)
Theorem C60_cost_value_partial : forall px py nx ny cx cy AMp AMn sp sn cmaxp cmaxn vs vend,
  sound px py -> sound nx ny -> length cx = length cy ->
  (exists b, nth_error px 0 = Some 0 /\ nth_error px (length px - 1) = Some b /\ 1 <= b) ->
  (exists b, nth_error nx 0 = Some 0 /\ nth_error nx (length nx - 1) = Some b /\ 1 <= b) ->
  AMp <> 0 -> AMn <> 0 -> cmaxp <> 0 -> cmaxn <> 0 ->
  Forall2 (ocv_after (px, py) (nx, ny) AMp AMn sp sn cmaxp cmaxn) cx vs ->
  nth_error cy (length cy - 1) = Some vend ->
  (forall i v, nth_error vs i = Some v -> (S i < length vs)%nat -> vend < v) ->
  cost_OCV (px, py) (nx, ny) (cx, cy) AMp AMn sp sn cmaxp cmaxn = Ok (sq_dist cy vs).
Proof.
  intros px py nx ny cx cy AMp AMn sp sn cmaxp cmaxn vs vend Sp Sn L (pb & P1 & P2 & P3) (nb & Q1 & Q2 & Q3) N1 N2 N3 N4 F V H.
  unfold cost_OCV. cbn [fst snd]. destruct cy as [|y0 cy]; [discriminate|].
  assert ((length cx <? length (y0 :: cy))%nat = false) as -> by (apply Nat.ltb_ge; lia).
  rewrite (last_nth (y0 :: cy) y0) in V by discriminate. assert (W : last (y0 :: cy) y0 = vend) by congruence. rewrite W. clear V W.
  pose proof (cost_rows_value px py nx ny Sp Sn AMp AMn cmaxp cmaxn sp sn vend
    ltac:(exists 0, pb; repeat split; auto; lra) ltac:(exists 0, nb; repeat split; auto; lra) N1 N2 N3 N4 cx (y0 :: cy) vs 0 0 L F H) as K.
  unfold frac_p, frac_n in K.
  replace (sp + 0 * 3600 / (96487 * AMp * cmaxp)) with sp in K by (unfold Rdiv; ring).
  replace (sn - 0 * 3600 / (96487 * AMn * cmaxn)) with sn in K by (unfold Rdiv; ring).
  rewrite !R_nZ. rewrite K. f_equal. ring.
Qed.
Print Assumptions C60_cost_value_partial.

(** Finding: with an even number of points (the fit uses 100) the refined grid does not contain the point it refines, and
    the refined search can return a worse fit. In doubles. *)
Definition w_cat : list f64 * list f64 := ([nZ 0; nZ 1], [nZ 4; nZ 3]).
Definition w_an : list f64 * list f64 := ([nZ 0; nZ 1], [nZ 1; nZ 0]).
Definition w_meas : list f64 * list f64 := ([nZ 0; nZ 1], [nlit 38 10; nlit 30537843 10000000]).
Definition w_space (lo hi : f64) : spaces f64 :=
  mkSp (linspace_fix lo hi 2) (linspace_fix (nlit 1 10) (nlit 1 10) 1) (linspace_fix (nlit 1 10) (nlit 1 10) 1)
       (linspace_fix (nlit 9 10) (nlit 9 10) 1).
Definition worse (r1 r2 : res (par f64 * f64)) : Prop :=
  match r1, r2 with Ok a, Ok b => nltb (snd a) (snd b) = true | _, _ => False end.
Theorem C60_even_refuted : let s := w_space (nlit 1 10) (nlit 15 100) in
  worse (hierarchicalOCVfit 1 s w_cat w_an w_meas (nZ 1) (nZ 1)) (hierarchicalOCVfit 2 s w_cat w_an w_meas (nZ 1) (nZ 1)).
Proof. vm_compute. reflexivity. Qed.
Print Assumptions C60_even_refuted.
(** Finding: the amounts of active material are not kept physical: refining around the lowest amount can make it 0, and the
    division 0/0 then leads to an out-of-range read. *)
Theorem C60_zero_material_refuted : let s := w_space (nlit 1 10) (nlit 2 10) in
  match hierarchicalOCVfit 1 s w_cat w_an w_meas (nZ 1) (nZ 1) with Ok _ => True | _ => False end /\
  hierarchicalOCVfit 2 s w_cat w_an w_meas (nZ 1) (nZ 1) = UB.
Proof. vm_compute. split; [exact Logic.I|reflexivity]. Qed.
Print Assumptions C60_zero_material_refuted.
(** Finding: without any level the uninitialised result is returned. *)
Theorem C60_no_level_refuted : forall (A : Type) (NA : Num A) s p n (cell : list A * list A) cmaxp cmaxn,
  readOCVinput p n cell = Ok tt -> hierarchicalOCVfit 0 s p n cell cmaxp cmaxn = UB.
Proof. intros A NA s p n cell cmaxp cmaxn H. unfold hierarchicalOCVfit. now rewrite H. Qed.
Print Assumptions C60_no_level_refuted.

(** Finding: so is the result of a search over an empty range of cathode amounts. *)
Theorem C60_no_point_refuted : forall (A : Type) (NA : Num A) h s p n (cell : list A * list A) cmaxp cmaxn,
  readOCVinput p n cell = Ok tt -> fd_list (sp_AMp s) = [] -> hierarchicalOCVfit h s p n cell cmaxp cmaxn = UB.
Proof.
  intros A NA h s p n cell cmaxp cmaxn H E. unfold hierarchicalOCVfit. rewrite H. cbn [rbind]. destruct h as [|h]; [reflexivity|].
  cbn [levels]. unfold level. rewrite E. reflexivity.
Qed.
Print Assumptions C60_no_point_refuted.

(** The reported error of a fit: the root mean square of the differences between the measured voltages and the simulated curve
    at the same charges. *)
Theorem C60_error : forall bound cx cy sx sy vs a b, length cx = length cy -> length sx = length sy -> (2 <= length sx)%nat -> increasing sx ->
  nth_error sx 0 = Some a -> nth_error sx (length sx - 1) = Some b -> Forall (fun x => a <= x <= b) cx ->
  Forall2 (fun x v => on_polyline sx sy x v) cx vs ->
  calculateError bound (cx, cy) (sx, sy) = Ok (sqrt (sq_dist cy vs / INR (length cy))).
Proof.
  intros bound cx cy sx sy vs a b L Ls L2 I Ha Hb F P. unfold calculateError. cbn [fst snd].
  rewrite (proj2 (Nat.ltb_ge _ _)) by lia.
  assert (G : forall acc, err_rows bound sx sy acc (combine cx cy) = Ok (acc + sq_dist cy vs)).
  { revert cy L F. induction P as [|x v cx vs Hx _ IH]; intros [|y cy] L F acc; try discriminate.
    - cbn. apply f_equal. lra.
    - inversion F as [|? ? Fx F']; subst. cbn [combine err_rows]. destruct (linInt_polyline sx sy x a b bound Ls L2 I Ha Hb Fx) as (w & E & W).
      rewrite (on_polyline_unique _ _ _ _ _ I Hx W). unfold linInt in E. rewrite <- Ls.
      destruct (linInt_noexcept bound sx sy (Z.of_nat (length sx)) x false) as [[u st]| | |]; try discriminate. cbn [rbind] in E |- *.
      destruct (_ =? 0)%Z; [|discriminate]. injection E as ->. rewrite (IH cy) by (try (cbn in L; lia); exact F'). cbn [sq_dist nadd nsub nmul RNum]. apply f_equal. ring. }
  rewrite G. cbn [rmap nsqrt ndiv RNum]. rewrite R_nZ, R_nnat, Rplus_0_l. reflexivity.
Qed.
Print Assumptions C60_error.
(** Finding: a measured curve with more voltages than charges is read out of range. *)
Theorem C60_ragged_refuted : forall (A : Type) (NA : Num A) bound (cell sim : list A * list A),
  (length (fst cell) < length (snd cell))%nat -> calculateError bound cell sim = UB.
Proof. intros A NA bound cell sim H. unfold calculateError. now rewrite (proj2 (Nat.ltb_lt _ _) H). Qed.
Print Assumptions C60_ragged_refuted.
Example C60_error_inhabited : exists vs, increasing [0; 2] /\ Forall (fun x => 0 <= x <= 2) [0; 1] /\
  Forall2 (fun x v => on_polyline [0; 2] [4; 3] x v) [0; 1] vs /\ sq_dist [4; 3] vs = 1 / 4.
Proof.
  assert (I : increasing [0; 2]) by (apply inc_cons2; split; [lra|apply inc_one]).
  exists [4; 7 / 2]. split; [exact I|]. split; [repeat constructor; lra|]. split; [|cbn; lra].
  constructor; [|constructor; [|constructor]].
  - apply (on_polyline_knot _ _ 0%nat); auto.
  - exists 0%nat, 0, 2, 4, 3. repeat split; cbn; lra.
Qed.
(** Real curves and spaces that meet the hypotheses of the theorems above. *)
Definition r_cat : list R * list R := ([0; 1], [4; 3]).
Definition r_an : list R * list R := ([0; 1], [1; 0]).
Definition r_meas : list R * list R := ([0; 1], [3; 2]).
Definition r_am : R := 1000 / 96487.
Definition r_space : spaces R :=
  mkSp (mkFD r_am (1 / 1000) 3) (mkFD r_am (1 / 1000) 3) (mkFD (2 / 10) (1 / 20) 5) (mkFD (6 / 10) (1 / 20) 5).
Lemma r_read : readOCVinput r_cat r_an r_meas = Ok tt.
Proof.
  unfold readOCVinput. cbn [fst snd r_cat r_an r_meas check_is_fixed rbind fixed_from].
  assert (I2 : increasing [0; 1]) by (apply inc_cons2; split; [lra|apply inc_one]).
  rewrite !C59_complete; try reflexivity; try exact I2; try discriminate; intros y [<-|[<-|[]]]; lra.
Qed.
(** Discharging 1 Ah moves both electrodes by one tenth; the simulated voltages are 3.4 and 3.2 V, measured are 3 and 2 V. *)
Lemma r_cost : fit_cost r_cat r_an r_meas 36 36 (r_am, r_am, 2 / 10, 6 / 10) = Ok (16 / 10).
Proof.
  destruct (read_sound r_cat r_an r_meas eq_refl eq_refl eq_refl r_read) as (S1 & S2 & _).
  replace (16 / 10) with (sq_dist [3; 2] [34 / 10; 32 / 10]) by (cbn [sq_dist]; lra).
  assert (K : forall Q, Q * 3600 / (96487 * r_am * 36) = Q / 10) by (intros Q; unfold r_am; field).
  refine (C60_cost_value_partial [0; 1] [4; 3] [0; 1] [1; 0] [0; 1] [3; 2] r_am r_am (2 / 10) (6 / 10) 36 36 [34 / 10; 32 / 10] 2 S1 S2 eq_refl _ _ _ _ _ _ _ eq_refl _); try (unfold r_am; lra).
  - exists 1. repeat split. lra.
  - exists 1. repeat split. lra.
  - constructor; [|constructor; [|constructor]]; unfold ocv_after; rewrite !K.
    + split; [lra|]. split; [lra|]. exists (38 / 10), (4 / 10). repeat split; [| |lra].
      * exists 0%nat, 0, 1, 4, 3. repeat split; lra.
      * exists 0%nat, 0, 1, 1, 0. repeat split; lra.
    + split; [lra|]. split; [lra|]. exists (37 / 10), (5 / 10). repeat split; [| |lra].
      * exists 0%nat, 0, 1, 4, 3. repeat split; lra.
      * exists 0%nat, 0, 1, 1, 0. repeat split; lra.
  - intros [|[|i]] v H L; cbn in H, L; [injection H as <-; lra|lia|lia].
Qed.
Example C60_inhabited : readOCVinput r_cat r_an r_meas = Ok tt /\ odd_size (sp_AMp r_space) /\ odd_size (sp_AMn r_space) /\
  roomy (sp_sp r_space) 0 1 /\ roomy (sp_sn r_space) 0 1 /\
  exists q e, In q (grid r_space) /\ fit_cost r_cat r_an r_meas 36 36 q = Ok e /\ e < 10000000000.
Proof.
  split; [exact r_read|]. split; [exists 1%Z; split; [lia|reflexivity]|]. split; [exists 1%Z; split; [lia|reflexivity]|].
  assert (K : forall m, 2 / 10 <= m <= 7 / 10 -> roomy (mkFD m (1 / 20) 5) 0 1).
  { intros m Hm. split; [exists 2%Z; split; [lia|reflexivity]|]. split; [cbn; lra|]. intros x Hx. apply (fd_in 1 ltac:(lia)) in Hx.
    destruct Hx as (i & Hi & ->). cbn [fd_min fd_dx fd_n] in *. assert (0 <= IZR i <= 4) by (split; apply IZR_le; lia). lra. }
  split; [apply K; lra|]. split; [apply K; lra|].
  exists (r_am, r_am, 2 / 10, 6 / 10), (16 / 10). split; [|split; [exact r_cost|lra]].
  apply grid_in. unfold r_space.
  repeat split; apply (fd_in 1 ltac:(lia)); exists 0%Z; cbn [fd_min fd_dx fd_n sp_AMp sp_AMn sp_sp sp_sn]; (split; [lia|lra]).
Qed.
