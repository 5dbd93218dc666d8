(** * Lemmas about interpolation, grids and histograms *)
From Coq Require Import Sorted Permutation.
From Verif Require Import Base RFacts UtilModel UtilSpec.
Local Open Scope num_scope.

(** ** lower_bound, for any carrier and any (even unsorted) table *)
Section AnyCarrier.
Context {A : Type} {NA : Num A}.

Lemma lower_bound_loop_spec (l : list A) (x : A) fuel : forall first len,
  (len <= fuel)%nat -> (first + len <= length l)%nat ->
  (first = 0%nat \/ exists a, nth_error l (first - 1) = Some a /\ (a <? x) = true) ->
  ((first + len)%nat = length l \/ exists a, nth_error l (first + len)%nat = Some a /\ (a <? x) = false) ->
  let i := lower_bound_loop fuel first len l x in
  (first <= i <= first + len)%nat /\
  (i = 0%nat \/ exists a, nth_error l (i - 1) = Some a /\ (a <? x) = true) /\
  (i = length l \/ exists a, nth_error l i = Some a /\ (a <? x) = false).
Proof.
  induction fuel as [|fuel IH]; intros first len Hf Hl H1 H2; cbn [lower_bound_loop].
  - assert (len = 0)%nat by lia. subst. rewrite Nat.add_0_r in H2. cbv zeta. repeat split; try lia; auto.
  - destruct len as [|len'].
    { rewrite Nat.add_0_r in H2. cbv zeta. repeat split; try lia; auto. }
    set (len := S len') in *.
    assert (Hhalf : (Nat.div2 len < len)%nat) by (apply Nat.lt_div2; unfold len; lia).
    destruct (nth_error l (first + Nat.div2 len)) as [m|] eqn:E.
    2:{ apply nth_error_None in E. lia. }
    destruct (m <? x) eqn:Em.
    + assert (Hge : (first + Nat.div2 len + 1 + (len - Nat.div2 len - 1) = first + len)%nat) by lia.
      specialize (IH (first + Nat.div2 len + 1)%nat (len - Nat.div2 len - 1)%nat).
      rewrite Hge in IH. cbv zeta in *.
      destruct IH as (I1 & I2 & I3); [lia|lia| |assumption|].
      * right. exists m. replace (first + Nat.div2 len + 1 - 1)%nat with (first + Nat.div2 len)%nat by lia. auto.
      * repeat split; try lia; assumption.
    + specialize (IH first (Nat.div2 len)). cbv zeta in *.
      destruct IH as (I1 & I2 & I3); [lia|lia|assumption| |].
      * right. exists m. auto.
      * repeat split; try lia; assumption.
Qed.

Lemma lower_bound_bracket (l : list A) (x a b : A) :
  nth_error l 0 = Some a -> nth_error l (length l - 1) = Some b ->
  (a <? x) = true -> (b <? x) = false ->
  exists i xl xr, lower_bound l (length l) x = S i /\
    nth_error l i = Some xl /\ nth_error l (S i) = Some xr /\
    (xl <? x) = true /\ (xr <? x) = false.
Proof.
  intros Ha Hb Hax Hbx. unfold lower_bound.
  assert (Hlen : (0 < length l)%nat).
  { destruct l; simpl in *; [discriminate | lia]. }
  destruct (lower_bound_loop_spec l x (length l) 0 (length l)) as (_ & H2 & H3); auto.
  set (i := lower_bound_loop (length l) 0 (length l) l x) in *.
  destruct H3 as [H3 | (xr & Hr & Hrx)].
  - (* i = length l: impossible, the last element is not below x *)
    destruct H2 as [H2 | (c & Hc & Hcx)]; [lia|].
    rewrite H3 in Hc. rewrite Hb in Hc. injection Hc as ->. congruence.
  - destruct H2 as [H2 | (xl & Hl & Hlx)].
    + rewrite H2 in Hr. rewrite Ha in Hr. injection Hr as ->. congruence.
    + destruct i as [|j] eqn:Ei.
      * simpl in Hl. rewrite Ha in *. congruence.
      * exists j, xl, xr. replace (S j - 1)%nat with j in Hl by lia. auto.
Qed.

Lemma vget_nat {B} (l : list B) (i : nat) b : nth_error l i = Some b -> vget l (Z.of_nat i) = Ok b.
Proof.
  intros H. unfold vget. destruct (Z.ltb_spec (Z.of_nat i) 0); [lia|]. now rewrite Nat2Z.id, H.
Qed.
Lemma vget_0 {B} (l : list B) b : nth_error l 0 = Some b -> vget l 0 = Ok b.
Proof. intros H. apply (vget_nat l 0 b H). Qed.
Lemma vget_1 {B} (l : list B) b : nth_error l 1 = Some b -> vget l 1 = Ok b.
Proof. intros H. apply (vget_nat l 1 b H). Qed.
Lemma vget_ok {B} (l : list B) (i : Z) b :
  vget l i = Ok b <-> (0 <= i)%Z /\ nth_error l (Z.to_nat i) = Some b.
Proof.
  unfold vget. destruct (Z.ltb_spec i 0).
  - split; [discriminate | intros []; lia].
  - destruct (nth_error l (Z.to_nat i)) eqn:E; split; intros H1.
    + split; [lia | congruence].
    + destruct H1. congruence.
    + discriminate.
    + destruct H1. congruence.
Qed.

(** Interior query, searching: for every carrier the result is the chord of a bracketing interval. *)
Lemma linInt_interior_any (bound : bool) (xs ys : list A) (x a b : A) :
  length xs = length ys ->
  nth_error xs 0 = Some a -> nth_error xs (length xs - 1) = Some b ->
  (x <? a) = false -> (b <? x) = false ->
  (x <=? a) = false -> (b <=? x) = false ->
  (a <? x) = true ->
  exists i xl xr yl yr,
    nth_error xs i = Some xl /\ nth_error xs (S i) = Some xr /\
    nth_error ys i = Some yl /\ nth_error ys (S i) = Some yr /\
    (xl <? x) = true /\ (xr <? x) = false /\
    linInt bound xs ys (Z.of_nat (length xs)) x false = Ok (chord xl yl xr yr x).
Proof.
  intros Hlen Ha Hb H1 H2 H3 H4 H5.
  assert (Hpos : (0 < length xs)%nat) by (destruct xs; simpl in *; [discriminate|lia]).
  destruct (lower_bound_bracket xs x a b Ha Hb H5 H2) as (i & xl & xr & Hi & Hl & Hr & Hlx & Hrx).
  assert (Hir : (S i < length xs)%nat) by (apply nth_error_Some; congruence).
  destruct (nth_error ys i) as [yl|] eqn:Yl; [|apply nth_error_None in Yl; lia].
  destruct (nth_error ys (S i)) as [yr|] eqn:Yr; [|apply nth_error_None in Yr; lia].
  exists i, xl, xr, yl, yr. repeat split; auto.
  unfold linInt, linInt_noexcept.
  rewrite (vget_0 xs a Ha).
  replace (Z.of_nat (length xs) - 1)%Z with (Z.of_nat (length xs - 1)) by lia.
  rewrite (vget_nat xs _ b Hb). cbn [rbind].
  rewrite H1, H2, H3, H4, !andb_false_r. cbn [rbind].
  rewrite Nat2Z.id, Hi.
  rewrite (vget_nat xs _ xr Hr), (vget_nat ys _ yr Yr). cbn [rbind].
  replace (Z.of_nat (S i) - 1)%Z with (Z.of_nat i) by lia.
  rewrite (vget_nat xs _ xl Hl), (vget_nat ys _ yl Yl). cbn [rbind].
  reflexivity.
Qed.

(** Out-of-range queries, any carrier. *)
Lemma linInt_below (xs ys : list A) (x a b : A) fx :
  nth_error xs 0 = Some a -> nth_error xs (length xs - 1) = Some b ->
  (x <? a) = true -> linInt true xs ys (Z.of_nat (length xs)) x fx = Throw 1.
Proof.
  intros Ha Hb H1. assert (Hpos : (0 < length xs)%nat) by (destruct xs; simpl in *; [discriminate|lia]).
  unfold linInt, linInt_noexcept. rewrite (vget_0 xs a Ha).
  replace (Z.of_nat (length xs) - 1)%Z with (Z.of_nat (length xs - 1)) by lia.
  rewrite (vget_nat xs _ b Hb). cbn [rbind]. rewrite H1. reflexivity.
Qed.
Lemma linInt_above (xs ys : list A) (x a b : A) fx :
  nth_error xs 0 = Some a -> nth_error xs (length xs - 1) = Some b ->
  (b <? x) = true -> linInt true xs ys (Z.of_nat (length xs)) x fx = Throw 1.
Proof.
  intros Ha Hb H1. assert (Hpos : (0 < length xs)%nat) by (destruct xs; simpl in *; [discriminate|lia]).
  unfold linInt, linInt_noexcept. rewrite (vget_0 xs a Ha).
  replace (Z.of_nat (length xs) - 1)%Z with (Z.of_nat (length xs - 1)) by lia.
  rewrite (vget_nat xs _ b Hb). cbn [rbind]. rewrite H1.
  destruct (x <? a); reflexivity.
Qed.
Lemma linInt_clamp_low (xs ys : list A) (x a b y : A) fx bound :
  nth_error xs 0 = Some a -> nth_error xs (length xs - 1) = Some b -> nth_error ys 0 = Some y ->
  (x <=? a) = true ->
  (bound = true -> (x <? a) = false /\ (b <? x) = false) ->
  linInt bound xs ys (Z.of_nat (length xs)) x fx = Ok y.
Proof.
  intros Ha Hb Hy H1 Hbd. assert (Hpos : (0 < length xs)%nat) by (destruct xs; simpl in *; [discriminate|lia]).
  unfold linInt, linInt_noexcept. rewrite (vget_0 xs a Ha).
  replace (Z.of_nat (length xs) - 1)%Z with (Z.of_nat (length xs - 1)) by lia.
  rewrite (vget_nat xs _ b Hb). cbn [rbind].
  destruct bound; cbn [andb].
  - destruct (Hbd eq_refl) as [-> ->]. rewrite H1, (vget_0 ys y Hy). reflexivity.
  - rewrite H1, (vget_0 ys y Hy). reflexivity.
Qed.
Lemma linInt_clamp_high (xs ys : list A) (x a b y : A) fx bound :
  length xs = length ys ->
  nth_error xs 0 = Some a -> nth_error xs (length xs - 1) = Some b -> nth_error ys (length ys - 1) = Some y ->
  (x <=? a) = false -> (b <=? x) = true ->
  (bound = true -> (x <? a) = false /\ (b <? x) = false) ->
  linInt bound xs ys (Z.of_nat (length xs)) x fx = Ok y.
Proof.
  intros Hlen Ha Hb Hy H1 H2 Hbd. assert (Hpos : (0 < length xs)%nat) by (destruct xs; simpl in *; [discriminate|lia]).
  unfold linInt, linInt_noexcept. rewrite (vget_0 xs a Ha).
  replace (Z.of_nat (length xs) - 1)%Z with (Z.of_nat (length xs - 1)) by lia.
  rewrite (vget_nat xs _ b Hb). cbn [rbind]. rewrite <- Hlen in Hy.
  destruct bound; cbn [andb].
  - destruct (Hbd eq_refl) as [-> ->]. rewrite H1, H2, (vget_nat ys _ y Hy). reflexivity.
  - rewrite H1, H2, (vget_nat ys _ y Hy). reflexivity.
Qed.

(** ** Histogram counts, any carrier *)
Lemma total_list_set l i c :
  nth_error l i = Some c -> total (list_set l i (c + 1)%nat) = S (total l).
Proof.
  revert i; induction l as [|a t IH]; intros [|i]; simpl; intros H; try discriminate.
  - injection H as ->. lia.
  - rewrite IH by assumption. lia.
Qed.

Lemma hist_add_total (h h' : Histogram A) x :
  hist_add h x = Ok h' ->
  total (h_bins h') = S (total (h_bins h)) /\ length (h_bins h') = length (h_bins h) /\
  h_min h' = h_min h /\ h_max h' = h_max h /\ h_dx h' = h_dx h.
Proof.
  unfold hist_add. destruct (hist_index h x) as [i| | |]; cbn [rbind]; try discriminate.
  destruct (vget (h_bins h) i) as [c| | |] eqn:E; cbn [rmap rbind]; try discriminate.
  intros H; injection H as <-; cbn [h_bins h_min h_max h_dx]. apply vget_ok in E. destruct E as [_ E].
  rewrite (total_list_set _ _ _ E), list_set_length. auto.
Qed.

Lemma hist_adds_total xs : forall (h h' : Histogram A),
  hist_adds h xs = Ok h' ->
  total (h_bins h') = (length xs + total (h_bins h))%nat /\ length (h_bins h') = length (h_bins h).
Proof.
  induction xs as [|x t IH]; simpl; intros h h' H.
  - injection H as <-. auto.
  - destruct (hist_add h x) as [h1| | |] eqn:E; cbn [rbind] in H; try discriminate.
    apply IH in H. apply hist_add_total in E. destruct E as (E1 & E2 & _). destruct H. lia.
Qed.

End AnyCarrier.

(** ** Over the reals *)
Local Open Scope R_scope.

Lemma chord_bounds xl yl xr yr x : xl <= x <= xr -> xl < xr ->
  Rmin yl yr <= chord xl yl xr yr x <= Rmax yl yr.
Proof.
  intros Hx Hlt. unfold chord; cbn [nadd nsub nmul ndiv RNum].
  set (t := (x - xl) / (xr - xl)).
  assert (Ht : 0 <= t <= 1).
  { unfold t. split.
    - apply Rmult_le_pos; [lra|]. left. apply Rinv_0_lt_compat. lra.
    - apply Rmult_le_reg_r with (xr - xl); [lra|]. unfold Rdiv. rewrite Rmult_assoc, Rinv_l by lra. lra. }
  replace (yl + (yr - yl) * (x - xl) / (xr - xl)) with (yl + (yr - yl) * t) by (unfold t; field; lra).
  unfold Rmin, Rmax. destruct (Rle_dec yl yr); nra.
Qed.

Lemma chord_at_left xl yl xr yr : xl < xr -> chord xl yl xr yr xl = yl.
Proof. intros. unfold chord; cbn. field. lra. Qed.
Lemma chord_at_right xl yl xr yr : xl < xr -> chord xl yl xr yr xr = yr.
Proof. intros. unfold chord; cbn. field. lra. Qed.

Lemma mul_cancel (u v d : R) : 0 < d -> u * d = v * d -> u = v.
Proof. intros Hd H. apply (Rmult_eq_reg_r d); lra. Qed.

Lemma increasing_index xs i j a b :
  increasing xs -> nth_error xs i = Some a -> nth_error xs j = Some b -> a < b -> (i < j)%nat.
Proof.
  intros Hi Ha Hb Hab. destruct (Nat.lt_trichotomy i j) as [|[->|H]]; auto.
  - assert (a = b) by congruence. lra.
  - specialize (Hi j i b a H Hb Ha). lra.
Qed.

Lemma nth_error_last_some {B} (l : list B) : l <> [] -> exists b, nth_error l (length l - 1) = Some b.
Proof.
  intros H. destruct (nth_error l (length l - 1)) eqn:E; eauto.
  apply nth_error_None in E. destruct l; simpl in *; [congruence|lia].
Qed.

Lemma on_polyline_unique xs ys x y y' :
  increasing xs -> on_polyline xs ys x y -> on_polyline xs ys x y' -> y = y'.
Proof.
  intros Hinc (i & xl & xr & yl & yr & A1 & A2 & A3 & A4 & A5 & A6)
              (j & xl' & xr' & yl' & yr' & B1 & B2 & B3 & B4 & B5 & B6).
  assert (Hl : xl < xr) by (eapply (Hinc i (S i)); eauto).
  assert (Hl' : xl' < xr') by (eapply (Hinc j (S j)); eauto).
  destruct (Nat.lt_trichotomy i j) as [H|[H|H]].
  - (* x must be the shared knot *)
    assert (Hle : xr <= xl').
    { destruct (Nat.eq_dec (S i) j) as [<-|Hne]; [rewrite A2 in B1; injection B1; intros; subst; lra|].
      left. apply (Hinc (S i) j); auto. lia. }
    assert (x = xr) by lra. assert (x = xl') by lra. subst.
    assert (j = S i) as ->.
    { destruct (Nat.eq_dec j (S i)); auto.
      assert (xl' < xl'); [|lra]. apply (Hinc (S i) j); auto. lia. }
    rewrite A4 in B3. injection B3 as ->.
    apply mul_cancel in A6; [|lra]. rewrite Rminus_diag_eq with (r1 := xl') in B6 by reflexivity.
    replace ((yr' - yl') * 0) with (0 * (xr' - xl')) in B6 by ring. apply mul_cancel in B6; lra.
  - subst j. rewrite A1 in B1. rewrite A2 in B2. rewrite A3 in B3. rewrite A4 in B4.
    injection B1 as ->. injection B2 as ->. injection B3 as ->. injection B4 as ->. rewrite <- B6 in A6. apply mul_cancel in A6; lra.
  - assert (Hle : xr' <= xl).
    { destruct (Nat.eq_dec (S j) i) as [<-|Hne]; [rewrite B2 in A1; injection A1; intros; subst; lra|].
      left. apply (Hinc (S j) i); auto. lia. }
    assert (x = xr') by lra. assert (x = xl) by lra. subst.
    assert (i = S j) as ->.
    { destruct (Nat.eq_dec i (S j)); auto.
      assert (xl < xl); [|lra]. apply (Hinc (S j) i); auto. lia. }
    rewrite B4 in A3. injection A3 as ->.
    apply mul_cancel in B6; [|lra]. rewrite Rminus_diag_eq with (r1 := xl) in A6 by reflexivity.
    replace ((yr - yl) * 0) with (0 * (xr - xl)) in A6 by ring. apply mul_cancel in A6; lra.
Qed.

Lemma chord_on_line xl yl xr yr x : xl < xr ->
  (chord xl yl xr yr x - yl) * (xr - xl) = (yr - yl) * (x - xl).
Proof. intros. unfold chord; cbn. field. lra. Qed.

(** In-range interpolation by search gives the value of the polyline. *)
Lemma linInt_polyline xs ys x a b bound :
  length xs = length ys -> (2 <= length xs)%nat -> increasing xs ->
  nth_error xs 0 = Some a -> nth_error xs (length xs - 1) = Some b ->
  a <= x <= b ->
  exists y, linInt bound xs ys (Z.of_nat (length xs)) x false = Ok y /\ on_polyline xs ys x y.
Proof.
  intros Hlen H2 Hinc Ha Hb Hx.
  assert (Hab : a < b) by (apply (Hinc 0%nat (length xs - 1)%nat); auto; lia).
  destruct (Req_dec x a) as [->|Hxa].
  - destruct (nth_error ys 0) as [y|] eqn:Y; [|apply nth_error_None in Y; lia].
    exists y. split.
    + apply (linInt_clamp_low xs ys a a b y); auto.
      * apply Rleb_true. lra.
      * intros _. rewrite !Rltb_false. lra.
    + destruct (nth_error xs 1) as [x1|] eqn:X1; [|apply nth_error_None in X1; lia].
      destruct (nth_error ys 1) as [y1|] eqn:Y1; [|apply nth_error_None in Y1; lia].
      exists 0%nat, a, x1, y, y1. repeat split; auto; try lra.
      left. apply (Hinc 0%nat 1%nat); auto.
  - destruct (Req_dec x b) as [->|Hxb].
    + destruct (nth_error ys (length ys - 1)) as [y|] eqn:Y; [|apply nth_error_None in Y; lia].
      exists y. split.
      * apply (linInt_clamp_high xs ys b a b y); auto.
        -- apply Rleb_false. lra.
        -- apply Rleb_true. lra.
        -- intros _. rewrite !Rltb_false. lra.
      * destruct (nth_error xs (length xs - 2)) as [x1|] eqn:X1; [|apply nth_error_None in X1; lia].
        destruct (nth_error ys (length ys - 2)) as [y1|] eqn:Y1; [|apply nth_error_None in Y1; lia].
        exists (length xs - 2)%nat, x1, b, y1, y.
        replace (S (length xs - 2)) with (length xs - 1)%nat by lia.
        rewrite Hlen in X1 |- *. repeat split; auto.
        -- rewrite <- Hlen. auto.
        -- left. apply (Hinc (length xs - 2)%nat (length xs - 1)%nat); auto; try lia. rewrite Hlen; auto.
        -- lra.
    + destruct (linInt_interior_any bound xs ys x a b) as (i & xl & xr & yl & yr & I1 & I2 & I3 & I4 & I5 & I6 & I7); auto.
      1,2: apply Rltb_false; lra.
      1,2: apply Rleb_false; lra.
      1: apply Rltb_true; lra.
      exists (chord xl yl xr yr x). split; [exact I7|].
      apply Rltb_true in I5. apply Rltb_false in I6.
      exists i, xl, xr, yl, yr. repeat split; auto; try lra.
      apply chord_on_line. apply (Hinc i (S i)); auto.
Qed.

Lemma on_polyline_knot xs ys i xk yk :
  increasing xs -> length xs = length ys -> (2 <= length xs)%nat ->
  nth_error xs i = Some xk -> nth_error ys i = Some yk -> on_polyline xs ys xk yk.
Proof.
  intros Hinc Hlen H2 Hx Hy.
  assert (Hi : (i < length xs)%nat) by (apply nth_error_Some; congruence).
  destruct (Nat.eq_dec (S i) (length xs)) as [He|Hne].
  - destruct i as [|j]; [lia|].
    destruct (nth_error xs j) as [xj|] eqn:Xj; [|apply nth_error_None in Xj; lia].
    destruct (nth_error ys j) as [yj|] eqn:Yj; [|apply nth_error_None in Yj; lia].
    exists j, xj, xk, yj, yk. repeat split; auto; try lra.
    left. apply (Hinc j (S j)); auto.
  - destruct (nth_error xs (S i)) as [xj|] eqn:Xj; [|apply nth_error_None in Xj; lia].
    destruct (nth_error ys (S i)) as [yj|] eqn:Yj; [|apply nth_error_None in Yj; lia].
    exists i, xk, xj, yk, yj. repeat split; auto; try lra.
    left. apply (Hinc i (S i)); auto.
Qed.

Lemma on_polyline_between xs ys x y lo hi :
  increasing xs -> on_polyline xs ys x y ->
  (forall v, In v ys -> lo <= v <= hi) -> lo <= y <= hi.
Proof.
  intros Hinc (i & xl & xr & yl & yr & A1 & A2 & A3 & A4 & A5 & A6) Hb.
  assert (Hl : xl < xr) by (eapply (Hinc i (S i)); eauto).
  assert (lo <= yl <= hi) by (apply Hb; eapply nth_error_In; eauto).
  assert (lo <= yr <= hi) by (apply Hb; eapply nth_error_In; eauto).
  assert (y = chord xl yl xr yr x) as ->.
  { pose proof (chord_on_line xl yl xr yr x Hl) as Hc. rewrite <- A6 in Hc. apply mul_cancel in Hc; lra. }
  pose proof (chord_bounds xl yl xr yr x A5 Hl) as [B1 B2].
  unfold Rmin, Rmax in *. destruct (Rle_dec yl yr); lra.
Qed.

(** Monotone tables give monotone interpolation. *)
Lemma on_polyline_monotone xs ys x1 y1 x2 y2 :
  increasing xs ->
  (forall i j a b, (i <= j)%nat -> nth_error ys i = Some a -> nth_error ys j = Some b -> a <= b) ->
  on_polyline xs ys x1 y1 -> on_polyline xs ys x2 y2 -> x1 <= x2 -> y1 <= y2.
Proof.
  intros Hinc Hmon (i & xl & xr & yl & yr & A1 & A2 & A3 & A4 & A5 & A6)
              (j & xl' & xr' & yl' & yr' & B1 & B2 & B3 & B4 & B5 & B6) H12.
  assert (Hl : xl < xr) by (eapply (Hinc i (S i)); eauto).
  assert (Hl' : xl' < xr') by (eapply (Hinc j (S j)); eauto).
  assert (yl <= yr) by (apply (Hmon i (S i)); auto).
  assert (yl' <= yr') by (apply (Hmon j (S j)); auto).
  assert (Hy1 : yl <= y1 <= yr) by nra.
  assert (Hy2 : yl' <= y2 <= yr') by nra.
  destruct (Nat.lt_trichotomy i j) as [H1|[H1|H1]].
  - assert (yr <= yl') by (apply (Hmon (S i) j); auto; lia). lra.
  - subst j. rewrite A1 in B1. rewrite A2 in B2. rewrite A3 in B3. rewrite A4 in B4.
    injection B1 as ->. injection B2 as ->. injection B3 as ->. injection B4 as ->. nra.
  - (* the later query lies in an earlier interval: both at the shared knot *)
    assert (Hle : xr' <= xl).
    { destruct (Nat.eq_dec (S j) i) as [<-|Hne]; [rewrite B2 in A1; injection A1; intros; subst; lra|].
      left. apply (Hinc (S j) i); auto. lia. }
    assert (x1 = xl) by lra. assert (x2 = xr') by lra. assert (xl = xr') by lra. subst x1 x2.
    assert (i = S j) as ->.
    { destruct (Nat.eq_dec i (S j)); auto.
      assert (xr' < xl); [|lra]. apply (Hinc (S j) i); auto. lia. }
    rewrite B4 in A3. injection A3 as ->.
    replace (xl - xl) with 0 in A6 by ring. replace ((yr - yl) * 0) with (0 * (xr - xl)) in A6 by ring.
    apply mul_cancel in A6; [|lra]. apply mul_cancel in B6; lra.
Qed.

(** ** Fixed-step shortcut on exactly uniform tables *)
Lemma uniform_increasing xs x0 dt : 0 < dt -> uniform xs x0 dt -> increasing xs.
Proof.
  intros Hdt Hu i j a b Hij Ha Hb. rewrite (Hu i a Ha), (Hu j b Hb).
  apply lt_INR in Hij. nra.
Qed.

Lemma linInt_fixed_eq xs ys x x0 dt bound :
  length xs = length ys -> (2 <= length xs)%nat -> (Z.of_nat (length xs) <= 2147483647)%Z ->
  0 < dt -> uniform xs x0 dt ->
  linInt bound xs ys (Z.of_nat (length xs)) x true = linInt bound xs ys (Z.of_nat (length xs)) x false.
Proof.
  intros Hlen H2 Hmax Hdt Hu.
  assert (Hinc := uniform_increasing xs x0 dt Hdt Hu).
  destruct (nth_error xs 0) as [a|] eqn:Ha; [|apply nth_error_None in Ha; lia].
  destruct (nth_error xs (length xs - 1)) as [b|] eqn:Hb; [|apply nth_error_None in Hb; lia].
  destruct (nth_error xs 1) as [x1|] eqn:H1; [|apply nth_error_None in H1; lia].
  assert (Ea := Hu _ _ Ha). assert (Eb := Hu _ _ Hb). assert (E1 := Hu _ _ H1).
  simpl in Ea, E1.
  unfold linInt, linInt_noexcept.
  rewrite (vget_0 xs a Ha).
  replace (Z.of_nat (length xs) - 1)%Z with (Z.of_nat (length xs - 1)) by lia.
  rewrite (vget_nat xs _ b Hb). cbn [rbind].
  destruct (bound && nltb x a) eqn:C1; [reflexivity|].
  destruct (bound && nltb b x) eqn:C2; [reflexivity|].
  destruct (nleb x a) eqn:C3; [reflexivity|].
  destruct (nleb b x) eqn:C4; [reflexivity|].
  apply Rleb_false in C3. apply Rleb_false in C4.
  destruct (lower_bound_bracket xs x a b) as (i & xl & xr & Hi & Hl & Hr & Hlx & Hrx); auto.
  1: apply Rltb_true; lra.
  1: apply Rltb_false; lra.
  apply Rltb_true in Hlx. apply Rltb_false in Hrx.
  rewrite Nat2Z.id, Hi. rewrite (vget_1 xs x1 H1).
  cbn [rbind]. 
  assert (Hir : (S i < length xs)%nat) by (apply nth_error_Some; congruence).
  assert (Exl := Hu _ _ Hl). assert (Exr := Hu _ _ Hr). rewrite S_INR in Exr.
  assert (Hq : (x - a) / (x1 - a) = (x - x0) / dt).
  { rewrite Ea, E1. f_equal; [lra|]. f_equal. lra. }
  change ((nsub x a / nsub x1 a)%num) with ((x - a) / (x1 - a)). rewrite Hq.
  unfold to_int. cbn [ntrunc RNum].
  assert (Hq1 : INR i < (x - x0) / dt <= INR i + 1).
  { split.
    - apply Rmult_lt_reg_r with dt; auto. unfold Rdiv. rewrite Rmult_assoc, Rinv_l by lra. lra.
    - apply Rmult_le_reg_r with dt; auto. unfold Rdiv. rewrite Rmult_assoc, Rinv_l by lra. lra. }
  assert (Hi0 : 0 <= INR i) by apply pos_INR.
  destruct (Req_dec ((x - x0) / dt) (INR i + 1)) as [Heq|Hneq].
  - (* exactly at the right knot: the shortcut uses the next interval *)
    assert (Ht : Rtrunc ((x - x0) / dt) = Z.of_nat (S i)).
    { apply Rtrunc_spec; [lra|]. rewrite <- INR_IZR_INZ, S_INR. lra. }
    rewrite Ht.
    assert (Hxr : x = xr).
    { rewrite Exr. apply (f_equal (fun z => z * dt)) in Heq.
      unfold Rdiv in Heq. rewrite Rmult_assoc, Rinv_l in Heq by lra. lra. }
    assert (HSi : (S (S i) < length xs)%nat).
    { destruct (Nat.eq_dec (S (S i)) (length xs)) as [He|]; [|lia].
      replace (length xs - 1)%nat with (S i) in Hb by lia. rewrite Hr in Hb. injection Hb as ->. lra. }
    destruct (nth_error xs (S (S i))) as [xrr|] eqn:Hrr; [|apply nth_error_None in Hrr; lia].
    destruct (nth_error ys i) as [yl|] eqn:Yl; [|apply nth_error_None in Yl; lia].
    destruct (nth_error ys (S i)) as [yr|] eqn:Yr; [|apply nth_error_None in Yr; lia].
    destruct (nth_error ys (S (S i))) as [yrr|] eqn:Yrr; [|apply nth_error_None in Yrr; lia].
    replace ((-2147483648 <=? Z.of_nat (S i)) && (Z.of_nat (S i) <=? 2147483647))%Z with true by lia.
    cbn [rmap rbind].
    replace (Z.of_nat (S i) + 1)%Z with (Z.of_nat (S (S i))) by lia.
    rewrite (vget_nat xs _ xrr Hrr), (vget_nat ys _ yrr Yrr), (vget_nat xs _ xr Hr), (vget_nat ys _ yr Yr).
    cbn [rbind].
    replace (Z.of_nat (S (S i)) - 1)%Z with (Z.of_nat (S i)) by lia.
    replace (Z.of_nat (S i) - 1)%Z with (Z.of_nat i) by lia.
    rewrite (vget_nat xs _ xr Hr), (vget_nat ys _ yr Yr), (vget_nat xs _ xl Hl), (vget_nat ys _ yl Yl).
    cbn [rbind]. cbn [Z.eqb]. f_equal. rewrite Hxr.
    rewrite chord_at_left, chord_at_right; auto.
    + apply (Hinc i (S i)); auto.
    + apply (Hinc (S i) (S (S i))); auto.
  - assert (Ht : Rtrunc ((x - x0) / dt) = Z.of_nat i).
    { apply Rtrunc_spec; [lra|]. rewrite <- INR_IZR_INZ. lra. }
    rewrite Ht. 
    replace ((-2147483648 <=? Z.of_nat i) && (Z.of_nat i <=? 2147483647))%Z with true by lia.
    cbn [rmap rbind].
    replace (Z.of_nat i + 1)%Z with (Z.of_nat (S i)) by lia. reflexivity.
Qed.

(** ** Grids *)
Lemma linspace_length (x1 x2 : R) n : length (linspace x1 x2 n) = Z.to_nat n.
Proof. unfold linspace. rewrite map_length, seq_length. lia. Qed.

Lemma linspace_nth (x1 x2 : R) n i :
  (2 <= n)%Z -> (i < Z.to_nat n)%nat ->
  nth_error (linspace x1 x2 n) i = Some (x1 + INR i * ((x2 - x1) / (IZR n - 1))).
Proof.
  intros Hn Hi. unfold linspace. rewrite Z.max_r by lia.
  destruct (Z.gtb_spec n 1); [|lia].
  rewrite nth_error_map, (nth_error_nth' _ 0%nat) by (rewrite seq_length; lia).
  rewrite seq_nth by lia. cbn [option_map]. f_equal. rewrite R_nnat, R_nZ.
  cbn [nadd nsub nmul ndiv RNum]. rewrite minus_IZR. cbn [Nat.add].
  rewrite !minus_INR by lia. rewrite (INR_IZR_INZ (Z.to_nat n)), Z2Nat.id by lia. simpl (INR 1).
  assert (2 <= IZR n) by (apply IZR_le; lia). field. lra.
Qed.

Lemma linspace_fix_at (x1 x2 : R) n i :
  (2 <= n)%Z -> fd_at (linspace_fix x1 x2 n) i = x1 + IZR i * ((x2 - x1) / (IZR n - 1)).
Proof.
  intros Hn. unfold linspace_fix. destruct (Z.ltb_spec n 1); [lia|]. destruct (Z.eqb_spec n 1); [lia|].
  unfold fd_at; cbn [fd_min fd_dx]. rewrite !R_nZ. cbn [nadd nsub nmul ndiv RNum]. now rewrite minus_IZR.
Qed.

Lemma linspace_agree (x1 x2 : R) n : linspace x1 x2 n = fd_list (linspace_fix x1 x2 n).
Proof.
  destruct (Z.lt_ge_cases n 2) as [H|H].
  - unfold linspace, linspace_fix, fd_list.
    destruct (Z.ltb_spec n 1).
    + cbn [fd_n]. rewrite Z.max_l by lia. reflexivity.
    + assert (n = 1)%Z as -> by lia. cbn [Z.eqb Pos.eqb Z.gtb Z.compare Pos.compare Pos.compare_cont Z.max fd_n].
      change (Z.to_nat 1) with 1%nat. cbn [seq map]. f_equal. unfold fd_at; cbn [fd_min fd_dx].
      rewrite !R_nZ, R_nnat. cbn. lra.
  - apply nth_ext with (d := 0) (d' := 0).
    + rewrite linspace_length. unfold fd_list. rewrite map_length, seq_length.
      unfold linspace_fix. destruct (Z.ltb_spec n 1); [lia|]. destruct (Z.eqb_spec n 1); [lia|]. reflexivity.
    + intros i Hi. rewrite linspace_length in Hi.
      assert (E : nth_error (fd_list (linspace_fix x1 x2 n)) i = Some (fd_at (linspace_fix x1 x2 n) (Z.of_nat i))).
      { unfold fd_list. rewrite nth_error_map.
        assert (fd_n (linspace_fix x1 x2 n) = n) as ->.
        { unfold linspace_fix. destruct (Z.ltb_spec n 1); [lia|]. destruct (Z.eqb_spec n 1); [lia|]. reflexivity. }
        rewrite (nth_error_nth' _ 0%nat) by (rewrite seq_length; lia). rewrite seq_nth by lia. reflexivity. }
      rewrite (nth_error_nth _ _ 0 (linspace_nth x1 x2 n i H Hi)).
      rewrite (nth_error_nth _ _ 0 E), linspace_fix_at by lia. now rewrite INR_IZR_INZ.
Qed.

(** ** Histogram over the reals *)
Section HistR.
Variables (lo hi : R) (n : nat).
Hypothesis Hlh : lo < hi.
Hypothesis Hn : (1 <= n)%nat.

Let dx := (hi - lo) / INR n.
Lemma hist_dx_pos : 0 < dx.
Proof. unfold dx. apply Rdiv_lt_0_compat; [lra|]. apply lt_0_INR. lia. Qed.

Notation edge := (UtilSpec.edge lo hi n).
Notation in_bin := (UtilSpec.in_bin lo hi n).
Notation castable := (UtilSpec.castable lo hi n).

Definition in_binb (i : nat) (x : R) : bool :=
  match i with
  | O => nltb x lo
  | S k => if Nat.ltb k n then nleb (edge k) x && nltb x (edge (S k)) else Nat.eqb k n && nleb hi x
  end.

Lemma in_binb_iff i x : in_binb i x = true <-> in_bin i x.
Proof.
  unfold in_binb, UtilSpec.in_bin. destruct i as [|k].
  - apply Rltb_true.
  - destruct (Nat.ltb k n).
    + rewrite andb_true_iff, Rleb_true, Rltb_true. tauto.
    + rewrite andb_true_iff, Nat.eqb_eq, Rleb_true. tauto.
Qed.

Lemma edge_n : edge n = hi.
Proof. unfold UtilSpec.edge. field. apply not_0_INR. lia. Qed.

Lemma hist_index_spec (h : Histogram R) x :
  h_min h = lo -> h_dx h = dx -> length (h_bins h) = (n + 2)%nat -> castable x ->
  exists i, hist_index h x = Ok (Z.of_nat i) /\ (i < n + 2)%nat /\ in_bin i x /\
            forall j, in_bin j x -> j = i.
Proof.
  intros Hm Hd Hl Hc. pose proof hist_dx_pos as Hdx.
  unfold hist_index. rewrite Hm, Hd, Hl, R_nZ. cbn [nadd nsub ndiv RNum].
  set (q := (x - lo) / dx). unfold UtilSpec.castable in Hc. fold dx in Hc. fold q in Hc.
  assert (Hx : x = lo + q * dx) by (unfold q; field; lra).
  unfold to_int. cbn [ntrunc RNum].
  assert (Huniq : forall i, in_bin i x -> forall j, in_bin j x -> j = i).
  { intros i Hi j Hj.
    assert (Hmono : forall k m, (k < m)%nat -> (m <= n)%nat -> edge k < edge m).
    { intros k m Hk _. unfold UtilSpec.edge. fold dx. apply lt_INR in Hk. nra. }
    assert (Hmono' : forall k m, (k <= m)%nat -> edge k <= edge m).
    { intros k m Hk. unfold UtilSpec.edge. fold dx. apply le_INR in Hk. nra. }
    assert (Hlo : forall k, lo <= edge k).
    { intros k. unfold UtilSpec.edge. fold dx. pose proof (pos_INR k). nra. }
    assert (Hhi : forall k, (k <= n)%nat -> edge k <= hi).
    { intros k Hk. apply Rle_trans with (edge n); [auto | right; apply edge_n]. }
    unfold UtilSpec.in_bin in Hi, Hj. destruct i as [|i], j as [|j]; auto.
    - destruct (Nat.ltb_spec j n); [pose proof (Hlo j); lra | lra].
    - destruct (Nat.ltb_spec i n); [pose proof (Hlo i); lra | lra].
    - destruct (Nat.ltb_spec i n), (Nat.ltb_spec j n).
      + f_equal. destruct (Nat.lt_trichotomy i j) as [L|[L|L]]; auto; exfalso.
        * pose proof (Hmono' (S i) j L). lra.
        * pose proof (Hmono' (S j) i L). lra.
      + pose proof (Hhi (S i) H). lra.
      + pose proof (Hhi (S j) H0). lra.
      + lia. }
  destruct (Rlt_dec q 0) as [Hq|Hq].
  - (* below the minimum *)
    assert (Hz : (-2147483648 <= Rtrunc (1 + q) <= 0)%Z).
    { destruct (Rle_dec 0 (1 + q)).
      - rewrite (Rtrunc_spec (1 + q) 0); [lia| lra | simpl; lra].
      - assert (H1 : 1 + q < 0) by lra. pose proof (Rtrunc_neg _ H1) as [T1 T2]. split.
        + assert (IZR (-2147483648) - 1 < IZR (Rtrunc (1+q))) by lra.
          rewrite <- minus_IZR in H. apply lt_IZR in H. lia.
        + assert (IZR (Rtrunc (1 + q)) < 1) by lra. apply lt_IZR in H. lia. }
    exists 0%nat. 
    replace ((-2147483648 <=? Rtrunc (1 + q)) && (Rtrunc (1 + q) <=? 2147483647))%Z with true by lia.
    cbn [rmap rbind]. assert (Hb : in_bin 0 x) by (cbn; nra).
    repeat split; auto; [f_equal; lia | lia].
  - assert (Hq0 : 0 <= q) by lra.
    pose proof (Rtrunc_nonneg q Hq0) as HT.
    set (k := Rtrunc q) in *.
    assert (Hk : (0 <= k)%Z).
    { assert (-1 < IZR k) by lra. apply (lt_IZR (-1)) in H. lia. }
    assert (Ht : Rtrunc (1 + q) = (1 + k)%Z).
    { apply Rtrunc_spec; [lra|]. rewrite plus_IZR. lra. }
    rewrite Ht.
    assert (Hkmax : (1 + k <= 2147483647)%Z).
    { assert (IZR (1 + k) < IZR 2147483648) by (rewrite plus_IZR; lra). apply lt_IZR in H. lia. }
    replace ((-2147483648 <=? 1 + k) && (1 + k <=? 2147483647))%Z with true by lia.
    cbn [rmap rbind].
    assert (HkR : IZR k = INR (Z.to_nat k)).
    { rewrite INR_IZR_INZ, Z2Nat.id by lia. reflexivity. }
    destruct (Z.lt_ge_cases k (Z.of_nat n)) as [Hkn|Hkn].
    + exists (S (Z.to_nat k)).
      assert (Hb : in_bin (S (Z.to_nat k)) x).
      { unfold UtilSpec.in_bin. destruct (Nat.ltb_spec (Z.to_nat k) n); [|lia].
        unfold UtilSpec.edge. fold dx. rewrite S_INR, <- HkR, Hx. split; [apply Rplus_le_compat_l, Rmult_le_compat_r | apply Rplus_lt_compat_l, Rmult_lt_compat_r]; lra. }
      repeat split; auto; [f_equal; lia | lia].
    + exists (S n).
      assert (Hb : in_bin (S n) x).
      { unfold UtilSpec.in_bin. destruct (Nat.ltb_spec n n); [lia|]. split; auto.
        apply Rle_trans with (edge n); [right; symmetry; apply edge_n|]. unfold UtilSpec.edge. fold dx. rewrite Hx.
        assert (INR n <= IZR k) by (rewrite INR_IZR_INZ; apply IZR_le; lia). nra. }
      repeat split; auto; [f_equal; lia | lia].
Qed.

Definition count (i : nat) (xs : list R) : nat := length (filter (in_binb i) xs).

Lemma hist_adds_spec xs : forall h : Histogram R,
  h_min h = lo -> h_max h = hi -> h_dx h = dx -> length (h_bins h) = (n + 2)%nat ->
  Forall castable xs ->
  exists h', hist_adds h xs = Ok h' /\
    h_min h' = lo /\ h_max h' = hi /\ h_dx h' = dx /\ length (h_bins h') = (n + 2)%nat /\
    forall i, (i < n + 2)%nat -> nth i (h_bins h') 0%nat = (nth i (h_bins h) 0 + count i xs)%nat.
Proof.
  induction xs as [|x t IH]; intros h Hm HM Hd Hl Hc.
  - exists h. simpl. repeat split; auto.
  - inversion Hc as [|? ? Hx Ht]; subst.
    destruct (hist_index_spec h x Hm Hd Hl Hx) as (i & Hi & Hin & Hbin & Huq).
    destruct (nth_error (h_bins h) i) as [c|] eqn:Ec; [|apply nth_error_None in Ec; lia].
    assert (Hadd : hist_add h x =
              Ok (mkHist (list_set (h_bins h) i (c + 1)%nat) (h_min h) (h_max h) (h_dx h) (h_N h))).
    { unfold hist_add. rewrite Hi. cbn [rbind]. rewrite (vget_nat _ _ _ Ec). cbn. now rewrite Nat2Z.id. }
    cbn [hist_adds]. rewrite Hadd. cbn [rbind].
    destruct (IH (mkHist (list_set (h_bins h) i (c + 1)%nat) (h_min h) (h_max h) (h_dx h) (h_N h)))
      as (h' & H' & A1 & A2 & A3 & A4 & A5); auto.
    { cbn. now rewrite list_set_length. }
    exists h'. repeat split; auto.
    intros j Hj. rewrite (A5 j Hj). cbn [h_bins]. unfold count. cbn [filter].
    destruct (Nat.eq_dec i j) as [->|Hne].
    + rewrite nth_list_set_eq by lia. 
      assert (in_binb j x = true) as -> by (now apply in_binb_iff).
      cbn [length]. rewrite (nth_error_nth _ _ 0%nat Ec). lia.
    + rewrite nth_list_set_neq by auto.
      destruct (in_binb j x) eqn:Eb; [|lia].
      apply in_binb_iff in Eb. elim Hne. symmetry. auto.
Qed.

End HistR.

(** ** Packaged statements for the property file *)
Lemma count_counts lo hi n i xs : counts (in_bin lo hi n i) xs (count lo hi n i xs).
Proof.
  induction xs as [|x t IH]; [constructor|]. unfold count in *. cbn [filter].
  destruct (in_binb lo hi n i x) eqn:E.
  - cbn [length]. constructor; auto. now apply in_binb_iff.
  - constructor; auto. intros H. apply in_binb_iff in H. congruence.
Qed.

Lemma nth_repeat0 n i : nth i (repeat 0%nat n) 0%nat = 0%nat.
Proof. revert i; induction n; destruct i; simpl; auto. Qed.

Lemma total_repeat0 n : total (repeat 0%nat n) = 0%nat.
Proof. induction n; simpl; auto. Qed.

Lemma hist_correct lo hi n xs :
  lo < hi -> (1 <= n)%nat -> Forall (castable lo hi n) xs ->
  exists h, hist_adds (hist_make lo hi n) xs = Ok h /\
    length (h_bins h) = (n + 2)%nat /\
    total (h_bins h) = length xs /\
    forall i c, nth_error (h_bins h) i = Some c -> counts (in_bin lo hi n i) xs c.
Proof.
  intros Hlh Hn Hc.
  destruct (hist_adds_spec lo hi n Hlh Hn xs (hist_make lo hi n)) as (h & H & H1 & H2 & H3 & H4 & H5); auto.
  - unfold hist_make. cbn [h_dx]. rewrite R_nnat. reflexivity.
  - cbn. now rewrite repeat_length.
  - exists h. split; [exact H|]. split; [exact H4|]. split.
    + destruct (hist_adds_total _ _ _ H) as [Ht _]. rewrite Ht. unfold hist_make. cbn [h_bins].
      rewrite total_repeat0. lia.
    + intros i c Hi. assert (Hlt : (i < n + 2)%nat) by (rewrite <- H4; apply nth_error_Some; congruence).
      specialize (H5 i Hlt). rewrite (nth_error_nth _ _ 0%nat Hi) in H5.
      unfold hist_make in H5. cbn [h_bins] in H5. rewrite nth_repeat0 in H5. simpl in H5. subst c.
      apply count_counts.
Qed.

Lemma counts_unique {X} (P : X -> Prop) l k k' : counts P l k -> counts P l k' -> k = k'.
Proof.
  intros H. revert k'. induction H; intros k' H'; inversion H'; subst; auto; try contradiction.
Qed.
Lemma counts_perm {X} (P : X -> Prop) l l' k : Permutation l l' -> counts P l k -> counts P l' k.
Proof.
  intros Hp. revert k. induction Hp; intros k Hk; auto.
  - inversion Hk; subst; constructor; auto.
  - inversion Hk as [|? ? ? ? H1|? ? ? ? H1]; subst; inversion H1; subst;
      repeat (first [apply counts_yes; [assumption|] | apply counts_no; [assumption|]]); assumption.
Qed.

Lemma Forall_perm {X} (P : X -> Prop) l l' : Permutation l l' -> Forall P l -> Forall P l'.
Proof. intros Hp H. apply Forall_forall. intros x Hx. rewrite Forall_forall in H. apply H.
  eapply Permutation_in; [apply Permutation_sym|]; eauto. Qed.

Lemma hist_order_irrelevant lo hi n xs ys :
  lo < hi -> (1 <= n)%nat -> Forall (castable lo hi n) xs -> Permutation xs ys ->
  exists hx hy, hist_adds (hist_make lo hi n) xs = Ok hx /\ hist_adds (hist_make lo hi n) ys = Ok hy /\
    h_bins hx = h_bins hy.
Proof.
  intros Hlh Hn Hc Hp.
  destruct (hist_correct lo hi n xs) as (hx & X1 & X2 & X3 & X4); auto.
  destruct (hist_correct lo hi n ys) as (hy & Y1 & Y2 & Y3 & Y4); auto.
  { eapply Forall_perm; eauto. }
  exists hx, hy. repeat split; auto.
  apply nth_ext with (d := 0%nat) (d' := 0%nat); [lia|].
  intros i Hi.
  destruct (nth_error (h_bins hx) i) as [cx|] eqn:Ex; [|apply nth_error_None in Ex; lia].
  destruct (nth_error (h_bins hy) i) as [cy|] eqn:Ey; [|apply nth_error_None in Ey; lia].
  rewrite (nth_error_nth _ _ 0%nat Ex), (nth_error_nth _ _ 0%nat Ey).
  eapply counts_unique; [|eapply Y4; eauto].
  eapply counts_perm; eauto.
Qed.

Lemma linInt_value xs ys x a b bound :
  length xs = length ys -> (2 <= length xs)%nat -> increasing xs ->
  nth_error xs 0 = Some a -> nth_error xs (length xs - 1) = Some b -> a <= x <= b ->
  exists y, linInt bound xs ys (Z.of_nat (length xs)) x false = Ok y /\
    on_polyline xs ys x y /\ (forall y', on_polyline xs ys x y' -> y' = y).
Proof.
  intros. destruct (linInt_polyline xs ys x a b bound) as (y & H5 & H6); auto.
  exists y. repeat split; auto. intros y' Hy'. eapply on_polyline_unique; eauto.
Qed.

Lemma linInt_knot xs ys i xk yk bound :
  length xs = length ys -> (2 <= length xs)%nat -> increasing xs ->
  nth_error xs i = Some xk -> nth_error ys i = Some yk ->
  linInt bound xs ys (Z.of_nat (length xs)) xk false = Ok yk.
Proof.
  intros Hl H2 Hi Hx Hy.
  destruct (nth_error xs 0) as [a|] eqn:Ha; [|apply nth_error_None in Ha; lia].
  destruct (nth_error xs (length xs - 1)) as [b|] eqn:Hb; [|apply nth_error_None in Hb; lia].
  assert (Hlt : (i < length xs)%nat) by (apply nth_error_Some; congruence).
  assert (a <= xk <= b).
  { split.
    - destruct i as [|i]; [rewrite Ha in Hx; injection Hx; lra|]. left. apply (Hi 0%nat (S i)); auto. lia.
    - destruct (Nat.eq_dec i (length xs - 1)) as [->|]; [rewrite Hb in Hx; injection Hx; lra|].
      left. apply (Hi i (length xs - 1)%nat); auto. lia. }
  destruct (linInt_value xs ys xk a b bound) as (y & E & P1 & P2); auto.
  rewrite E. f_equal. symmetry. apply P2. eapply on_polyline_knot; eauto.
Qed.

Lemma linInt_monotone xs ys x1 x2 y1 y2 a b bound :
  length xs = length ys -> (2 <= length xs)%nat -> increasing xs ->
  (forall i j u v, (i <= j)%nat -> nth_error ys i = Some u -> nth_error ys j = Some v -> u <= v) ->
  nth_error xs 0 = Some a -> nth_error xs (length xs - 1) = Some b ->
  a <= x1 -> x1 <= x2 -> x2 <= b ->
  linInt bound xs ys (Z.of_nat (length xs)) x1 false = Ok y1 ->
  linInt bound xs ys (Z.of_nat (length xs)) x2 false = Ok y2 ->
  y1 <= y2.
Proof.
  intros Hl H2 Hi Hm Ha Hb Ha1 H12 Hb2 E1 E2.
  destruct (linInt_polyline xs ys x1 a b bound) as (z1 & F1 & P1); auto; [lra|].
  destruct (linInt_polyline xs ys x2 a b bound) as (z2 & F2 & P2); auto; [lra|].
  rewrite E1 in F1. rewrite E2 in F2. injection F1 as <-. injection F2 as <-.
  eapply on_polyline_monotone; eauto.
Qed.

Lemma linInt_between xs ys x y a b lo hi bound :
  length xs = length ys -> (2 <= length xs)%nat -> increasing xs ->
  nth_error xs 0 = Some a -> nth_error xs (length xs - 1) = Some b -> a <= x <= b ->
  (forall v, In v ys -> lo <= v <= hi) ->
  linInt bound xs ys (Z.of_nat (length xs)) x false = Ok y -> lo <= y <= hi.
Proof.
  intros Hl H2 Hi Ha Hb Hx Hv E.
  destruct (linInt_polyline xs ys x a b bound) as (z & F & P); auto.
  rewrite E in F. injection F as <-. eapply on_polyline_between; eauto.
Qed.

(** clamping over the reals *)
Lemma linInt_clamped xs ys x a b fx :
  length xs = length ys -> (2 <= length xs)%nat -> increasing xs ->
  nth_error xs 0 = Some a -> nth_error xs (length xs - 1) = Some b ->
  (x <= a -> exists y0, nth_error ys 0 = Some y0 /\
     linInt false xs ys (Z.of_nat (length xs)) x fx = Ok y0) /\
  (b <= x -> exists yn, nth_error ys (length ys - 1) = Some yn /\
     linInt false xs ys (Z.of_nat (length xs)) x fx = Ok yn).
Proof.
  intros Hl H2 Hi Ha Hb. split; intros Hx.
  - destruct (nth_error ys 0) as [y0|] eqn:Y; [|apply nth_error_None in Y; lia].
    exists y0. split; auto. eapply linInt_clamp_low; eauto.
    + now apply Rleb_true.
    + discriminate.
  - destruct (nth_error ys (length ys - 1)) as [yn|] eqn:Y; [|apply nth_error_None in Y; lia].
    exists yn. split; auto. eapply linInt_clamp_high; eauto.
    + apply Rleb_false. assert (a < b) by (apply (Hi 0%nat (length xs - 1)%nat); auto; lia). lra.
    + now apply Rleb_true.
    + discriminate.
Qed.

Lemma linspace_lengths (A : Type) (NA : Num A) (x1 x2 : A) n :
  length (linspace x1 x2 n) = Z.to_nat n /\ length (fd_list (linspace_fix x1 x2 n)) = Z.to_nat n.
Proof.
  split.
  - unfold linspace. rewrite map_length, seq_length. lia.
  - unfold fd_list, linspace_fix. rewrite map_length, seq_length.
    destruct (Z.ltb_spec n 1); [simpl; lia|]. destruct (Z.eqb_spec n 1); cbn [fd_n]; lia.
Qed.

Lemma linspace_values (x1 x2 : R) n i :
  (2 <= n)%Z -> (i < Z.to_nat n)%nat ->
  nth_error (linspace x1 x2 n) i = Some (x1 + INR i * ((x2 - x1) / (IZR n - 1))) /\
  nth_error (fd_list (linspace_fix x1 x2 n)) i = Some (x1 + INR i * ((x2 - x1) / (IZR n - 1))).
Proof. intros. rewrite <- linspace_agree. split; apply linspace_nth; auto. Qed.

Lemma linspace_ends (x1 x2 : R) n : (2 <= n)%Z ->
  fd_front (linspace_fix x1 x2 n) = x1 /\ fd_back (linspace_fix x1 x2 n) = x2 /\
  nth_error (linspace x1 x2 n) 0 = Some x1 /\
  nth_error (linspace x1 x2 n) (Z.to_nat n - 1) = Some x2.
Proof.
  intros Hn. assert (2 <= IZR n) by (apply IZR_le; lia).
  unfold fd_front, fd_back. rewrite !linspace_fix_at by lia.
  assert (fd_n (linspace_fix x1 x2 n) = n) as ->.
  { unfold linspace_fix. destruct (Z.ltb_spec n 1); [lia|]. destruct (Z.eqb_spec n 1); [lia|]. reflexivity. }
  rewrite !linspace_nth by lia. rewrite minus_IZR. repeat split.
  - simpl; lra.
  - field; lra.
  - f_equal. simpl; lra.
  - f_equal. rewrite minus_INR by lia. rewrite (INR_IZR_INZ (Z.to_nat n)), Z2Nat.id by lia. simpl (INR 1). field. lra.
Qed.

Lemma fd_prev_next (d : FixedData R) i :
  fd_next d (fd_at d i) = fd_at d (i + 1) /\ fd_prev d (fd_at d i) = fd_at d (i - 1).
Proof.
  unfold fd_next, fd_prev, fd_at. cbn [fd_min fd_dx]. rewrite !R_nZ, plus_IZR, minus_IZR.
  cbn [nadd nmul RNum]. split; lra.
Qed.

Lemma hist_default_ub (x : R) :
  -2147483648 <= 1 + x < 2147483648 -> hist_add (hist_default : Histogram R) x = UB.
Proof.
  intros Hx. unfold hist_add, hist_index, hist_default. cbn [h_bins h_min h_dx length].
  rewrite !R_nZ. cbn [nadd nsub ndiv RNum].
  replace (IZR 1 + (x - IZR 0) / IZR 1) with (1 + x) by field.
  unfold to_int. cbn [ntrunc RNum].
  assert (H : (-2147483648 <= Rtrunc (1 + x) <= 2147483647)%Z).
  { destruct (Rle_dec 0 (1 + x)) as [H0|H0].
    - pose proof (Rtrunc_nonneg _ H0) as [T1 T2]. split.
      + assert (H1 : IZR (-1) < IZR (Rtrunc (1 + x))) by lra. apply lt_IZR in H1. lia.
      + assert (H1 : IZR (Rtrunc (1 + x)) < IZR 2147483648) by lra. apply lt_IZR in H1. lia.
    - assert (H1 : 1 + x < 0) by lra. pose proof (Rtrunc_neg _ H1) as [T1 T2]. split.
      + assert (H2 : IZR (-2147483648) - 1 < IZR (Rtrunc (1 + x))) by lra. rewrite <- minus_IZR in H2.
        apply lt_IZR in H2. lia.
      + assert (H2 : IZR (Rtrunc (1 + x)) < 1) by lra. apply lt_IZR in H2. lia. }
  replace ((-2147483648 <=? Rtrunc (1 + x)) && (Rtrunc (1 + x) <=? 2147483647))%Z with true by lia.
  cbn [rmap rbind]. unfold vget. set (z := Z.max 0 (Z.min (Rtrunc (1 + x)) (Z.of_nat 0 - 1))).
  destruct (Z.ltb_spec z 0); [reflexivity|]. now destruct (Z.to_nat z).
Qed.

Lemma hist_edges_spec lo hi n : lo < hi -> (1 <= n)%nat -> (Z.of_nat n <= 2147483647)%Z ->
  exists e, hist_edges (hist_make lo hi n) = Ok e /\ fd_n e = (Z.of_nat n + 1)%Z /\
    forall k, fd_at e (Z.of_nat k) = edge lo hi n k.
Proof.
  intros Hlh Hn Hmax. assert (Hn0 : 0 < INR n) by (apply lt_0_INR; lia).
  unfold hist_edges, hist_make, range_fix. cbn [h_min h_max h_dx]. rewrite R_nnat.
  cbn [nsub ndiv RNum].
  replace ((hi - lo) / ((hi - lo) / INR n)) with (INR n) by (field; lra).
  unfold to_int. cbn [ntrunc RNum].
  rewrite (Rtrunc_spec (INR n) (Z.of_nat n)) by (rewrite <- ?INR_IZR_INZ; lra).
  replace ((-2147483648 <=? Z.of_nat n) && (Z.of_nat n <=? 2147483647))%Z with true by lia.
  cbn [rmap rbind]. eexists. split; [reflexivity|]. cbn [fd_n]. split; [lia|].
  intros k. unfold fd_at, edge. cbn [fd_min fd_dx]. rewrite R_nZ, <- INR_IZR_INZ. reflexivity.
Qed.
