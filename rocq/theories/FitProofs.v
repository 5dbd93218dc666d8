(** * Lemmas about the OCV fit *)
From Coq Require Import SpecFloat Lra.
From Verif Require Import Base RFacts UtilModel UtilSpec UtilProofs FitModel FitSpec.
Local Open Scope R_scope.

(** ** Order of the doubles that are numbers *)
Lemma SF_lt_le (a b c : f64) : number a -> number b -> number c -> nltb a b = true -> nltb c b = false -> nltb a c = true.
Proof.
  unfold number. cbn [nltb SFNum]. unfold SFltb.
  destruct a as [[|]|[|]| |[|] ma ea], b as [[|]|[|]| |[|] mb eb], c as [[|]|[|]| |[|] mc ec]; cbn; try congruence;
  intros _ _ _;
  destruct (Z.compare_spec ea eb); destruct (Z.compare_spec ec eb); try discriminate;
  destruct (Z.compare_spec ea ec); try reflexivity; try lia;
  repeat match goal with |- context [Pos.compare_cont Eq ?x ?y] => change (Pos.compare_cont Eq x y) with (Pos.compare x y) end;
  try (destruct (Pos.compare_spec ma mb)); try (destruct (Pos.compare_spec mc mb)); try discriminate;
  destruct (Pos.compare_spec ma mc); cbn; intros; try reflexivity; try discriminate; try lia.
Qed.
Lemma SF_total (a b : f64) : number a -> number b -> nleb a b = false <-> nltb b a = true.
Proof.
  unfold number. cbn [nltb nleb SFNum]. unfold SFltb, SFleb.
  destruct a as [[|]|[|]| |[|] ma ea], b as [[|]|[|]| |[|] mb eb]; cbn; try (split; congruence);
  intros _ _; rewrite (Z.compare_antisym ea eb); destruct (Z.compare ea eb) eqn:E; cbn; try (split; congruence);
  change (Pos.compare_cont Eq ma mb) with (Pos.compare ma mb); change (Pos.compare_cont Eq mb ma) with (Pos.compare mb ma);
  rewrite (Pos.compare_antisym ma mb); destruct (Pos.compare ma mb); cbn; split; congruence.
Qed.
Lemma SF_total' (a b : f64) : number a -> number b -> nltb a b = false <-> nleb b a = true.
Proof.
  intros Ha Hb. pose proof (SF_total b a Hb Ha). destruct (nltb a b), (nleb b a); split; try congruence; intuition congruence.
Qed.

Lemma SF_asym (a b : f64) : number a -> number b -> nltb a b = true -> nltb b a = false.
Proof.
  unfold number. cbn [nltb nleb SFNum]. unfold SFltb, SFleb.
  destruct a as [[|]|[|]| |[|] ma ea], b as [[|]|[|]| |[|] mb eb]; cbn; try congruence;
  intros _ _; rewrite (Z.compare_antisym ea eb); destruct (Z.compare ea eb) eqn:E; cbn; try congruence;
  change (Pos.compare_cont Eq ma mb) with (Pos.compare ma mb); change (Pos.compare_cont Eq mb ma) with (Pos.compare mb ma);
  rewrite (Pos.compare_antisym ma mb); destruct (Pos.compare ma mb); cbn; congruence.
Qed.

(** ** Validation *)
Lemma inc_cons2 a b t : increasing (a :: b :: t) <-> a < b /\ increasing (b :: t).
Proof.
  split.
  - intros H. split; [exact (H 0%nat 1%nat a b ltac:(lia) eq_refl eq_refl)|].
    intros i j x y L Hx Hy. exact (H (S i) (S j) x y ltac:(lia) Hx Hy).
  - intros (L & H) i j x y Lij Hx Hy. destruct j as [|j]; [lia|]. destruct i as [|i].
    + cbn in Hx. injection Hx as <-. destruct j as [|j]; [cbn in Hy; injection Hy as <-; exact L|].
      apply (Rlt_trans _ b); [exact L|]. exact (H 0%nat (S j) b y ltac:(lia) eq_refl Hy).
    + exact (H i j x y ltac:(lia) Hx Hy).
Qed.
Lemma inc_one a : increasing [a].
Proof. intros [|[|i]] [|[|j]] x y L Hx Hy; cbn in *; try discriminate; lia. Qed.
Lemma last_nth {B} (l : list B) d : l <> [] -> nth_error l (length l - 1) = Some (last l d).
Proof.
  induction l as [|a [|b l] IH]; [congruence|reflexivity|]. intros _.
  replace (length (a :: b :: l) - 1)%nat with (S (length (b :: l) - 1)) by (cbn [length]; lia).
  cbn [nth_error]. rewrite IH by discriminate. reflexivity.
Qed.

Lemma volt_R (y : R) : negb (orb (nltb y (nZ 0)) (nltb (nZ 10) y)) = true <-> 0 <= y <= 10.
Proof.
  rewrite !R_nZ. rewrite Bool.negb_true_iff, Bool.orb_false_iff, !Rltb_false. lra.
Qed.
Lemma rows_R : forall (xs ys : list R) prev, length xs = length ys ->
  exists b, valid_rows prev xs ys = Ok b /\
    (b = true <-> increasing (prev :: xs) /\ forall y, In y ys -> 0 <= y <= 10).
Proof.
  induction xs as [|x xs IH]; intros [|y ys] prev L; cbn [length] in L; try lia.
  - exists true. cbn. split; [reflexivity|]. split; [|reflexivity]. intros _. split; [apply inc_one|tauto].
  - destruct (IH ys x ltac:(lia)) as (b & E & Hb). cbn [valid_rows]. rewrite E. cbn [rmap rbind].
    eexists. split; [reflexivity|]. rewrite !Bool.andb_true_iff, Hb, volt_R, inc_cons2, Bool.negb_true_iff.
    rewrite (Rleb_false x prev). split.
    + intros ((P & Q) & R1 & R2). repeat split; auto; destruct H as [<-|H]; try (now apply Q); now apply R2.
    + intros ((P & R1) & R2). repeat split; auto; apply R2; cbn; auto.
Qed.
Lemma validOCV_R (xs ys : list R) e : length xs = length ys -> xs <> [] ->
  exists b, validOCV e xs ys = Ok b /\ (b = true <-> usable (1 / 100000) e xs ys).
Proof.
  intros L N. destruct xs as [|x0 xs]; [congruence|]. destruct ys as [|y0 ys]; [discriminate|].
  cbn [length] in L. destruct (rows_R xs ys x0 ltac:(lia)) as (b & E & Hb).
  unfold validOCV. rewrite E. cbn [rmap rbind]. eexists. split; [reflexivity|].
  rewrite !Bool.andb_true_iff, Hb, volt_R. unfold usable. rewrite (last_nth (x0 :: xs) x0) by discriminate.
  rewrite (R_nZ 1), (R_nlit 1 100000).
  set (lst := last (x0 :: xs) x0). clearbody lst.
  assert (T : forall z, nltb (nabs z) (1 / 100000) = true <-> Rabs z < 1 / 100000) by (intros; apply Rltb_true).
  split.
  - intros (H1 & H2 & H3 & H4). split; [exact H3|]. split; [intros z [<-|H]; auto|]. split.
    + exists x0. split; [reflexivity|]. apply T. destruct e; [apply Bool.andb_true_iff in H1; tauto|exact H1].
    + intros ->. exists lst. split; [reflexivity|]. apply T. apply Bool.andb_true_iff in H1. tauto.
  - intros (H1 & H2 & (a & H3 & H4) & H5). cbn in H3. injection H3 as <-. repeat split; auto.
    + destruct e; [|now apply T]. destruct (H5 eq_refl) as (b' & H6 & H7). injection H6 as <-.
      apply Bool.andb_true_iff. split; now apply T.
    + apply H2. cbn; auto.
    + apply H2. cbn; auto.
    + apply H2. cbn; auto.
    + apply H2. cbn; auto.
Qed.

Lemma nZ_number z : (z = 0 \/ z = 10)%Z -> number (nZ z : f64).
Proof. intros [-> | ->]; vm_compute; discriminate. Qed.
Lemma rows_f64 : forall (xs ys : list f64) prev, length xs = length ys ->
  Forall number xs -> Forall number ys -> number prev ->
  exists b, valid_rows prev xs ys = Ok b /\ (b = true <-> usable_f64 (prev :: xs) ys).
Proof.
  assert (V : forall y : f64, number y -> negb (orb (nltb y (nZ 0)) (nltb (nZ 10) y)) = true <-> nleb (nZ 0) y = true /\ nleb y (nZ 10) = true).
  { intros y Hy. rewrite Bool.negb_true_iff, Bool.orb_false_iff.
    rewrite (SF_total' y (nZ 0)), (SF_total' (nZ 10) y) by (auto; apply nZ_number; auto). reflexivity. }
  induction xs as [|x xs IH]; intros [|y ys] prev L Nx Ny Np; cbn [length] in L; try lia.
  - exists true. cbn [valid_rows]. split; [reflexivity|]. split; [|reflexivity]. intros _. split; [|intros y []].
    intros [|[|i]] a b Ha Hb; discriminate.
  - inversion Nx as [|? ? N1 N2]; inversion Ny as [|? ? N3 N4]; subst.
    destruct (IH ys x ltac:(lia) N2 N4 N1) as (b & E & Hb). cbn [valid_rows]. rewrite E. cbn [rmap rbind].
    eexists. split; [reflexivity|]. rewrite !Bool.andb_true_iff, Hb, (V y N3), Bool.negb_true_iff.
    rewrite (SF_total x prev N1 Np). unfold usable_f64. split.
    + intros ((P & Q) & R1 & R2). split.
      * intros [|i] a c Ha Hc; [cbn in Ha, Hc; congruence|]. exact (R1 i a c Ha Hc).
      * intros z [<-|Hz]; [exact Q|now apply R2].
    + intros (R1 & R2). repeat split.
      * exact (R1 0%nat prev x eq_refl eq_refl).
      * apply R2. now left.
      * apply R2. now left.
      * intros i a c Ha Hc. exact (R1 (S i) a c Ha Hc).
      * apply R2. now right.
      * apply R2. now right.
Qed.

(** ** The scan *)
Section Scan.
Context {A : Type} {NA : Num A} (P : A -> Prop) (cost : par A -> res A).
Hypothesis lt_le : forall a b c, P a -> P b -> P c -> nltb a b = true -> nltb c b = false -> nltb a c = true.
Hypothesis asym : forall a b, P a -> P b -> nltb a b = true -> nltb b a = false.
Lemma irr a : P a -> nltb a a = false.
Proof. intros H. destruct (nltb a a) eqn:E; [|reflexivity]. now rewrite <- E, (asym a a). Qed.
Lemma ge_trans a b c : P a -> P b -> P c -> nltb b a = false -> nltb c b = false -> nltb c a = false.
Proof.
  intros Ha Hb Hc H1 H2. destruct (nltb c a) eqn:E; [|reflexivity].
  rewrite (lt_le c a b) in H2; auto.
Qed.

Definition costed (pts : list (par A)) : Prop := forall q, In q pts -> exists e, cost q = Ok e /\ P e.
(** what is known after a list of points *)
Definition seen (s : A) (pts : list (par A)) (b : par A * A) : Prop :=
  P (snd b) /\
  ((snd b = s /\ forall r, In r pts -> exists e, cost r = Ok e /\ nltb e s = false) \/
   (nltb (snd b) s = true /\ first_best cost pts (fst b) (snd b))).
Lemma P_of pts r e : costed pts -> In r pts -> cost r = Ok e -> P e.
Proof. intros H Hr He. destruct (H r Hr) as (e' & E & Pe). congruence. Qed.
Lemma first_in pts q e : first_best cost pts q e -> In q pts /\ cost q = Ok e.
Proof. intros (l1 & l2 & -> & H & _). split; [apply in_or_app; right; now left|exact H]. Qed.
Lemma first_all pts q e : costed pts -> first_best cost pts q e ->
  forall r, In r pts -> exists e', cost r = Ok e' /\ nltb e' e = false.
Proof.
  intros Hc F r Hr. destruct (first_in _ _ _ F) as (Iq & Hq). pose proof (P_of _ _ _ Hc Iq Hq) as Pe.
  destruct F as (l1 & l2 & -> & _ & H1 & H2). pose proof Hr as Hr'. apply in_app_or in Hr. destruct Hr as [Hr|[<-|Hr]].
  - destruct (H1 r Hr) as (e' & E & L). exists e'. split; [exact E|]. apply asym; auto. exact (P_of _ _ _ Hc Hr' E).
  - exists e. split; [exact Hq|]. now apply irr.
  - destruct (H2 r Hr) as (e' & E & L). eauto.
Qed.
Lemma costed_app l1 l2 : costed (l1 ++ l2) <-> costed l1 /\ costed l2.
Proof.
  unfold costed. split.
  - intros H. split; intros q Hq; apply H; apply in_or_app; auto.
  - intros (H1 & H2) q Hq. apply in_app_or in Hq. destruct Hq; auto.
Qed.

(** Two consecutive stretches of points. *)
Lemma seen_app s l1 l2 b1 b2 : P s -> costed l1 -> costed l2 -> seen s l1 b1 -> seen s l2 b2 ->
  seen s (l1 ++ l2) (if nltb (snd b2) (snd b1) then b2 else b1).
Proof.
  intros Ps C1 C2 (P1 & S1) (P2 & S2). destruct (nltb (snd b2) (snd b1)) eqn:L.
  - split; [exact P2|].
    assert (B : nltb (snd b2) s = true).
    { destruct S1 as [(<- & _)|(L1 & _)]; [exact L|]. apply (lt_le _ (snd b1)); auto. }
    right. split; [exact B|].
    destruct S2 as [(E & _)|(_ & F2)]; [rewrite E, irr in B by assumption; discriminate|].
    destruct F2 as (k1 & k2 & -> & Hq & K1 & K2). exists (l1 ++ k1), k2. rewrite <- app_assoc. split; [reflexivity|].
    split; [exact Hq|]. split; [|exact K2]. intros r Hr. apply in_app_or in Hr. destruct Hr as [Hr|Hr]; [|now apply K1].
    assert (X : exists e, cost r = Ok e /\ nltb e (snd b1) = false).
    { destruct S1 as [(-> & H)|(_ & F)]; [now apply H|now apply (first_all _ _ _ C1 F)]. }
    destruct X as (e & E & Le). exists e. split; [exact E|]. apply (lt_le _ (snd b1)); auto. exact (P_of _ _ _ C1 Hr E).
  - split; [exact P1|].
    assert (X : forall r, In r l2 -> exists e, cost r = Ok e /\ nltb e (snd b1) = false).
    { intros r Hr.
      assert (Y : exists e, cost r = Ok e /\ nltb e (snd b2) = false).
      { destruct S2 as [(-> & H)|(_ & F)]; [now apply H|now apply (first_all _ _ _ C2 F)]. }
      destruct Y as (e & E & Le). exists e. split; [exact E|]. apply (ge_trans _ (snd b2)); auto. exact (P_of _ _ _ C2 Hr E). }
    destruct S1 as [(E & H)|(L1 & F)].
    + left. split; [exact E|]. intros r Hr. apply in_app_or in Hr. destruct Hr as [Hr|Hr]; [now apply H|]. rewrite <- E. now apply X.
    + right. split; [exact L1|]. destruct F as (k1 & k2 & -> & Hq & K1 & K2). exists k1, (k2 ++ l2).
      rewrite <- app_assoc. split; [reflexivity|]. split; [exact Hq|]. split; [exact K1|].
      intros r Hr. apply in_app_or in Hr. destruct Hr as [Hr|Hr]; [now apply K2|now apply X].
Qed.
Lemma scan_seen s : P s -> forall pts done b, costed done -> costed pts -> seen s done b ->
  exists b', scan cost b pts = Ok b' /\ seen s (done ++ pts) b'.
Proof.
  intros Ps. induction pts as [|q pts IH]; intros dn b Cd C S.
  - exists b. rewrite app_nil_r. now split.
  - destruct (C q (or_introl eq_refl)) as (e & E & Pe). cbn [scan]. rewrite E. cbn [rbind].
    replace (dn ++ q :: pts) with ((dn ++ [q]) ++ pts) by now rewrite <- app_assoc.
    assert (C1 : costed [q]) by (intros r [<-|[]]; eauto).
    assert (Cp : costed pts) by (intros r Hr; apply C; now right).
    apply IH; [now apply costed_app|exact Cp|]. pose proof S as (P1 & S').
    destruct (nltb e (snd b)) eqn:L.
    + assert (Ls : nltb e s = true).
      { destruct S' as [(<- & _)|(L1 & _)]; [exact L|]. destruct (nltb e s) eqn:Z; [reflexivity|]. exfalso.
        (* e < b < s *) assert (nltb e s = true); [|congruence]. apply (lt_le e (snd b) s); auto. }
      pose proof (seen_app s dn [q] b (q, e) Ps Cd C1 S) as K. cbn [snd] in K. rewrite L in K. apply K.
      split; [exact Pe|]. right. split; [exact Ls|]. exists [], []. split; [reflexivity|]. split; [exact E|]. split; intros r [].
    + (* the point does not beat the best so far *)
      assert (K : forall r, In r [q] -> exists e0, cost r = Ok e0 /\ nltb e0 (snd b) = false) by (intros r [<-|[]]; eauto).
      split; [exact P1|]. destruct S' as [(Eb & H)|(L1 & F)].
      * left. split; [exact Eb|]. intros r Hr. apply in_app_or in Hr. destruct Hr as [Hr|Hr]; [now apply H|]. rewrite <- Eb. now apply K.
      * right. split; [exact L1|]. destruct F as (k1 & k2 & -> & Hq & K1 & K2). exists k1, (k2 ++ [q]).
        rewrite <- app_assoc. split; [reflexivity|]. split; [exact Hq|]. split; [exact K1|].
        intros r Hr. apply in_app_or in Hr. destruct Hr as [Hr|Hr]; [now apply K2|now apply K].
Qed.
Lemma scan_start s pts par0 : P s -> costed pts -> exists b, scan cost (par0, s) pts = Ok b /\ seen s pts b.
Proof.
  intros Ps C. apply (scan_seen s Ps pts [] (par0, s)); [intros q []|exact C|].
  split; [exact Ps|]. left. split; [reflexivity|]. intros r [].
Qed.
Lemma fit_best len par0 a amn sp sn : P sentinel -> costed (grid3 a amn sp sn) ->
  (exists r e, In r (grid3 a amn sp sn) /\ cost r = Ok e /\ nltb e sentinel = true) ->
  exists q e, fit cost len par0 a amn sp sn = Ok (q, nsqrt (ndiv e (nnat len))) /\ first_best cost (grid3 a amn sp sn) q e.
Proof.
  intros Ps C (r & e & Hr & E & L). unfold fit. destruct (scan_start sentinel _ par0 Ps C) as ((q & e') & S & (Pe & H)).
  rewrite S. cbn [rmap rbind]. exists q, e'. split; [reflexivity|]. destruct H as [(_ & H)|(_ & H)]; [|exact H].
  destruct (H r Hr) as (e0 & E0 & L0). congruence.
Qed.
End Scan.
