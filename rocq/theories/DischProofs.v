(** * Proofs about the slow discharge *)
From Verif Require Import Base RFacts UtilModel UtilSpec UtilProofs FitModel DischModel DischSpec.
Local Open Scope R_scope.

Definition pv (c : list R * list R) (x : R) : R * Z :=
  match linInt_noexcept true (fst c) (snd c) (Z.of_nat (length (snd c))) x false with Ok r => r | _ => (0, 0%Z) end.

Lemma pv_spec c x : table c ->
  linInt_noexcept true (fst c) (snd c) (Z.of_nat (length (snd c))) x false = Ok (pv c x) /\
  potential c x (fst (pv c x)) /\ (within c x -> snd (pv c x) = 0%Z) /\ (~ within c x -> snd (pv c x) <> 0%Z).
Proof.
  intros (Hl & H2 & Hi).
  destruct (nth_error (fst c) 0) as [a|] eqn:Ea.
  2:{ apply nth_error_None in Ea. lia. }
  destruct (nth_error (fst c) (length (fst c) - 1)) as [b|] eqn:Eb.
  2:{ apply nth_error_None in Eb. lia. }
  assert (W : within c x <-> a <= x <= b).
  { unfold within. split; [intros (a' & b' & E1 & E2 & H)|intros H; now exists a, b].
    rewrite E1 in Ea; rewrite E2 in Eb. injection Ea as ->. injection Eb as ->. exact H. }
  assert (V0 : vget (fst c) 0 = Ok a) by (unfold vget; change (Z.to_nat 0) with 0%nat; cbn [Z.ltb Z.compare]; now rewrite Ea).
  assert (Vn : vget (fst c) (Z.of_nat (length (snd c)) - 1) = Ok b).
  { unfold vget. destruct (Z.ltb_spec (Z.of_nat (length (snd c)) - 1) 0); [lia|].
    replace (Z.to_nat (Z.of_nat (length (snd c)) - 1)) with (length (fst c) - 1)%nat by lia. now rewrite Eb. }
  destruct (Rlt_le_dec x a) as [Hxa|Hxa].
  { assert (E : linInt_noexcept true (fst c) (snd c) (Z.of_nat (length (snd c))) x false = Ok (0, (-1)%Z)).
    { unfold linInt_noexcept. rewrite V0, Vn. cbn [rbind andb].
      assert (nltb x a = true) as -> by now apply Rltb_true. now rewrite R_nZ. }
    unfold pv. rewrite E. cbn. repeat split; auto.
    - intros Wx. apply W in Wx. lra.
    - intros Wx. apply W in Wx. lra.
    - intros _. discriminate. }
  destruct (Rlt_le_dec b x) as [Hxb|Hxb].
  { assert (E : linInt_noexcept true (fst c) (snd c) (Z.of_nat (length (snd c))) x false = Ok (0, 1%Z)).
    { unfold linInt_noexcept. rewrite V0, Vn. cbn [rbind andb].
      assert (nltb x a = false) as -> by (apply Rltb_false; lra).
      assert (nltb b x = true) as -> by now apply Rltb_true. now rewrite R_nZ. }
    unfold pv. rewrite E. cbn. repeat split; auto.
    - intros Wx. apply W in Wx. lra.
    - intros Wx. apply W in Wx. lra.
    - intros _. discriminate. }
  destruct (linInt_polyline (fst c) (snd c) x a b true Hl H2 Hi Ea Eb (conj Hxa Hxb)) as (y & E & P).
  rewrite Hl in E. unfold linInt in E.
  destruct (linInt_noexcept true (fst c) (snd c) (Z.of_nat (length (snd c))) x false) as [[yy st]| | |] eqn:L; cbn in E; try discriminate.
  destruct (Z.eqb_spec st 0); [|discriminate]. injection E as ->. subst st.
  unfold pv. rewrite L. cbn. repeat split; auto.
  - intros N. elim N. apply W. lra.
  - intros N. elim N. apply W. lra.
Qed.

Section D.
Variables (p : dpar R) (sp sn : R).
Hypothesis (Tp : table (d_p p)) (Tn : table (d_n p)).

Definition potf (j : nat) : R * R := (fst (pv (d_p p) (cath p sp j)), fst (pv (d_n p) (anod p sn j))).
Definition good (j : nat) : bool := (snd (pv (d_p p) (cath p sp j)) =? 0)%Z && (snd (pv (d_n p) (anod p sn j)) =? 0)%Z.
Fixpoint okf (j : nat) : bool := match j with O => good 0 | S i => okf i && good i end.
Definition volt (j : nat) : R := fst (potf j) - snd (potf j).
Definition endb (j : nat) : bool :=
  match j with
  | O => false
  | S i => nleb (volt i) (d_Vend p) || nleb (cath p sp j) (nZ 0) || nleb (nZ 1) (cath p sp j) ||
           nleb (anod p sn j) (nZ 0) || nleb (nZ 1) (anod p sn j)
  end.
Definition stt (j : nat) : dst R :=
  mkDs (charge p j) (cath p sp j) (anod p sn j) (endb j) (volt (pred j)) (fst (potf (pred j))) (snd (potf (pred j))) (okf j).

Lemma endb_stops j : endb (S j) = true <-> stops p sp sn potf (S j).
Proof.
  unfold endb, stops. rewrite !orb_true_iff, !Rleb_true, !R_nZ. unfold volt. cbn [pred]. tauto.
Qed.

Lemma charge_S j : charge p (S j) = charge p j + quantum p.
Proof. unfold charge. rewrite S_INR. ring. Qed.
Lemma cath_S j : cath p sp (S j) = cath p sp j + quantum p * 3600 / 96487 / (d_AMp p * d_cmaxp p).
Proof. unfold cath. rewrite charge_S. unfold Rdiv. ring. Qed.
Lemma anod_S j : anod p sn (S j) = anod p sn j - quantum p * 3600 / 96487 / (d_AMn p * d_cmaxn p).
Proof. unfold anod. rewrite charge_S. unfold Rdiv. ring. Qed.


Lemma init_eq : d_interp p (d_init sp sn) = Ok (stt 0).
Proof.
  unfold d_interp, d_init. cbn [s_sp s_sn s_Ah s_end s_ok andb].
  assert (C0 : cath p sp 0 = sp) by (unfold cath, charge; cbn; unfold Rdiv; ring).
  assert (A0 : anod p sn 0 = sn) by (unfold anod, charge; cbn; unfold Rdiv; ring).
  destruct (pv_spec (d_p p) sp Tp) as (E1 & _). destruct (pv_spec (d_n p) sn Tn) as (E2 & _).
  rewrite E1, E2. destruct (pv (d_p p) sp) as [op s1] eqn:P1, (pv (d_n p) sn) as [on s2] eqn:P2. cbn [rbind].
  unfold stt, volt, potf, okf, good. cbn [pred endb]. rewrite C0, A0, P1, P2. cbn [fst snd].
  replace (charge p 0) with 0 by (unfold charge; cbn; ring). rewrite R_nZ. reflexivity.
Qed.

Lemma Rdiv_mult_r (x a b : R) : x / a / b = x / (a * b).
Proof. unfold Rdiv. rewrite Rinv_mult. ring. Qed.

Lemma sub_eq j : d_sub p (stt j) = Ok (stt (S j)).
Proof.
  unfold d_sub, d_interp, stt at 1 2. cbn [s_sp s_sn].
  destruct (pv_spec (d_p p) (cath p sp j) Tp) as (E1 & _). destruct (pv_spec (d_n p) (anod p sn j) Tn) as (E2 & _).
  rewrite E1, E2. destruct (pv (d_p p) (cath p sp j)) as [op s1] eqn:P1, (pv (d_n p) (anod p sn j)) as [on s2] eqn:P2.
  cbn [rbind s_Ah s_sp s_sn s_v s_op s_on s_ok stt].
  assert (Q : nmul (d_I p) d_dt = quantum p * 3600).
  { unfold d_I, d_dt, quantum. rewrite R_nZ. cbn. field. }
  assert (HA : nadd (charge p j) (ndiv (nmul (d_I p) d_dt) (nZ 3600)) = charge p (S j)).
  { rewrite charge_S, Q, R_nZ. cbn. field. }
  assert (HC : nadd (cath p sp j) (ndiv (ndiv (ndiv (nmul (d_I p) d_dt) (nmul (nZ 1) FARA)) (d_AMp p)) (d_cmaxp p)) = cath p sp (S j)).
  { rewrite cath_S, Q. unfold FARA. rewrite !R_nZ. cbn [nadd ndiv nmul RNum]. rewrite Rdiv_mult_r.
    do 2 f_equal. unfold Rdiv. rewrite Rmult_1_l. reflexivity. }
  assert (HN : nsub (anod p sn j) (ndiv (ndiv (ndiv (nmul (d_I p) d_dt) (nmul (nZ 1) FARA)) (d_AMn p)) (d_cmaxn p)) = anod p sn (S j)).
  { rewrite anod_S, Q. unfold FARA. rewrite !R_nZ. cbn [nsub ndiv nmul RNum]. rewrite Rdiv_mult_r.
    do 2 f_equal. unfold Rdiv. rewrite Rmult_1_l. reflexivity. }
  rewrite HA, HC, HN.
  assert (V : nsub op on = volt j) by (unfold volt, potf; now rewrite P1, P2).
  rewrite V. unfold stt. cbn [pred endb okf]. unfold potf, good. rewrite P1, P2. reflexivity.
Qed.

(** One round of [step]: it ends at the first stop or after [k] periods. *)
Lemma step_eq k : forall j, endb j = false ->
  exists m, (j <= m <= j + k)%nat /\ d_step false p k (stt j) = Ok (stt m) /\
    (forall i, (j <= i < m)%nat -> endb i = false) /\ (endb m = true \/ m = (j + k)%nat).
Proof.
  induction k as [|k IH]; intros j Hj.
  - exists j. repeat split; try lia; try reflexivity.
  - cbn [d_step]. unfold d_go. cbn [stt s_end]. rewrite Hj. cbn [negb orb andb].
    rewrite sub_eq. cbn [rbind].
    destruct (endb (S j)) eqn:E.
    + exists (S j). repeat split; try lia.
      * destruct k; cbn [d_step]; [reflexivity|]. unfold d_go. cbn [stt s_end]. now rewrite E.
      * intros i Hi. replace i with j by lia. exact Hj.
    + destruct (IH (S j) E) as (m & H1 & H2 & H3 & H4). exists m. repeat split; try lia; auto.
      * intros i Hi. destruct (Nat.eq_dec i j) as [->|]; [exact Hj|]. apply H3. lia.
Qed.

Definition hundred (k : nat) : nat := (100 * k)%nat.

Lemma rounds_eq fuel : forall i z rows, (forall j, (j <= hundred i)%nat -> endb j = false) ->
  d_rounds fuel p (stt (hundred i)) = Ok (z, rows) ->
  exists K, (hundred i < K)%nat /\ endb K = true /\ (forall j, (j < K)%nat -> endb j = false) /\ z = stt K /\
    rows = map (fun j => d_row (stt j)) (map hundred (seq (S i) ((K - 1) / 100 - i)) ++ [K]).
Proof.
  induction fuel as [|fuel IH]; intros i z rows Hb H; cbn [d_rounds] in H; cbn [stt s_end] in H;
    rewrite (Hb _ (Nat.le_refl _)) in H; [discriminate|].
  change nstore with 100%nat in H.
  destruct (step_eq 100 (hundred i) (Hb _ (Nat.le_refl _))) as (m & H1 & H2 & H3 & H4).
  rewrite H2 in H. cbn [rbind] in H.
  destruct (endb m) eqn:Em.
  - assert (hundred i < m)%nat as Hlt.
    { destruct (Nat.eq_dec m (hundred i)) as [->|]; [|lia]. rewrite (Hb _ (Nat.le_refl _)) in Em. discriminate. }
    assert (E : d_rounds fuel p (stt m) = Ok (stt m, [])).
    { destruct fuel; cbn [d_rounds stt s_end]; now rewrite Em. }
    rewrite E in H. cbn in H. injection H as <- <-.
    exists m. repeat split; auto.
    + intros j Hj. destruct (Nat.le_gt_cases j (hundred i)); [now apply Hb|]. apply H3. lia.
    + assert ((m - 1) / 100 = i)%nat as ->.
      { symmetry. apply (Nat.div_unique (m - 1) 100 i (m - 1 - 100 * i)); unfold hundred in *; lia. }
      rewrite Nat.sub_diag. reflexivity.
  - destruct H4 as [H4|H4]; [discriminate|].
    assert (Hm : m = hundred (S i)) by (unfold hundred in *; lia). clear H4. subst m.
    destruct (d_rounds fuel p (stt (hundred (S i)))) as [[z' rows']| | |] eqn:E; try discriminate.
    unfold rmap in H. cbn [rbind] in H. injection H as <- <-.
    destruct (IH (S i) z' rows') as (K & K1 & K2 & K3 & K4 & K5); auto.
    { intros j Hj. destruct (Nat.le_gt_cases j (hundred i)); [now apply Hb|].
      destruct (Nat.eq_dec j (hundred (S i))) as [->|]; [exact Em|]. apply H3. lia. }
    exists K. repeat split; auto. { unfold hundred in *; lia. }
    assert (S i <= (K - 1) / 100)%nat.
    { apply Nat.div_le_lower_bound; [lia|]. unfold hundred in *. lia. }
    replace ((K - 1) / 100 - i)%nat with (S ((K - 1) / 100 - S i)) by lia.
    rewrite K5. reflexivity.
Qed.

Lemma rounds_ok fuel : forall i J, (forall j, (j <= hundred i)%nat -> endb j = false) ->
  endb J = true -> (J <= hundred (i + fuel))%nat ->
  exists z rows, d_rounds fuel p (stt (hundred i)) = Ok (z, rows).
Proof.
  induction fuel as [|fuel IH]; intros i J Hb HJ Hle.
  - rewrite Nat.add_0_r in Hle. rewrite (Hb _ Hle) in HJ. discriminate.
  - cbn [d_rounds]. cbn [stt s_end]. rewrite (Hb _ (Nat.le_refl _)).
    change nstore with 100%nat.
    destruct (step_eq 100 (hundred i) (Hb _ (Nat.le_refl _))) as (m & H1 & H2 & H3 & H4).
    rewrite H2. cbn [rbind].
    destruct (endb m) eqn:Em.
    + assert (E : d_rounds fuel p (stt m) = Ok (stt m, [])).
      { destruct fuel; cbn [d_rounds stt s_end]; now rewrite Em. }
      rewrite E. cbn. eauto.
    + destruct H4 as [H4|H4]; [discriminate|].
      assert (Hm : m = hundred (S i)) by (unfold hundred in *; lia). clear H4. subst m.
      destruct (IH (S i) J) as (z & rows & E); auto.
      { intros j Hj. destruct (Nat.le_gt_cases j (hundred i)); [now apply Hb|].
        destruct (Nat.eq_dec j (hundred (S i))) as [->|]; [exact Em|]. apply H3. lia. }
      { replace (S i + fuel)%nat with (i + S fuel)%nat by lia. exact Hle. }
      rewrite E. cbn. eauto.
Qed.

(** ** The other overload *)
Lemma step_strict k : forall j, (forall i, endb i = false -> good i = true) -> endb j = false -> okf j = true ->
  d_step true p k (stt j) = d_step false p k (stt j) /\ forall m, d_step false p k (stt j) = Ok m -> s_ok m = true.
Proof.
  intros j HG. revert j. induction k as [|k IH]; intros j Hj Ho; cbn [d_step].
  - split; [reflexivity|]. intros m E. injection E as <-. exact Ho.
  - unfold d_go. cbn [stt s_end s_ok]. rewrite Hj, Ho. cbn [negb orb andb]. rewrite sub_eq. cbn [rbind].
    assert (Ho' : okf (S j) = true) by (cbn [okf]; rewrite Ho; now apply HG).
    destruct (endb (S j)) eqn:E.
    + assert (X : forall b, d_step b p k (stt (S j)) = Ok (stt (S j))).
      { intros b. destruct k; cbn [d_step]; [reflexivity|]. unfold d_go. cbn [stt s_end]. now rewrite E. }
      rewrite !X. split; [reflexivity|]. intros m Em. injection Em as <-. exact Ho'.
    + apply IH; auto.
Qed.

Lemma rounds1_eq (HG : forall i, endb i = false -> good i = true) fuel : forall j, okf j = true ->
  (forall z rows, d_rounds fuel p (stt j) = Ok (z, rows) ->
     s_ok z = true /\ exists rows1, d_rounds1 fuel p (stt j) = Ok (z, rows1) /\ rows1 ++ [d_row z] = d_row (stt j) :: rows) /\
  (d_rounds fuel p (stt j) = Fuel -> d_rounds1 fuel p (stt j) = Fuel).
Proof.
  induction fuel as [|fuel IH]; intros j Ho; cbn [d_rounds d_rounds1]; unfold d_go; cbn [stt s_end s_ok]; rewrite Ho;
    destruct (endb j) eqn:E; cbn [negb orb andb].
  - split; [|discriminate]. intros z rows H. injection H as <- <-. split; [exact Ho|]. exists []. split; reflexivity.
  - split; [discriminate|reflexivity].
  - split; [|discriminate]. intros z rows H. injection H as <- <-. split; [exact Ho|]. exists []. split; reflexivity.
  - change nstore with 100%nat.
    destruct (step_eq 100 j E) as (m & H1 & H2 & H3 & H4).
    destruct (step_strict 100 j HG E Ho) as (S1 & S2). rewrite S1. specialize (S2 _ H2).
    rewrite H2. cbn [rbind]. cbn [stt s_ok] in S2. destruct (IH m S2) as (I1 & I2). split.
    + intros z rows H. destruct (d_rounds fuel p (stt m)) as [[z' rows']| | |] eqn:R; try discriminate H.
      unfold rmap in H; cbn [rbind] in H. injection H as <- <-. destruct (I1 _ _ eq_refl) as (Z1 & rows1 & R1 & R2).
      split; [exact Z1|]. exists (d_row (stt j) :: rows1). split.
      * rewrite R1. reflexivity.
      * cbn [app]. now rewrite R2.
    + intros H. destruct (d_rounds fuel p (stt m)) as [[z' rows']| | |] eqn:R; try discriminate H.
      now rewrite (I2 eq_refl).
Qed.
End D.

(** ** A discharge that never ends *)
Section Stuck.
Context {A : Type} {NA : Num A}.
Lemma rounds_stuck (p : dpar A) (Q : dst A -> Prop)
  (HQ : forall s, Q s -> s_end s = false /\ exists s', d_sub p s = Ok s' /\ Q s') fuel :
  forall s, Q s -> d_rounds fuel p s = Fuel.
Proof.
  assert (HS : forall k s, Q s -> exists s', d_step false p k s = Ok s' /\ Q s').
  { induction k as [|k IH]; intros s Hs; cbn [d_step]; [eauto|].
    destruct (HQ s Hs) as (E & s' & E' & Hs'). unfold d_go. rewrite E. cbn [negb orb andb]. rewrite E'. cbn [rbind]. auto. }
  induction fuel as [|fuel IH]; intros s Hs; cbn [d_rounds]; destruct (HQ s Hs) as (E & _); rewrite E; [reflexivity|].
  destruct (HS nstore s Hs) as (s' & E' & Hs'). rewrite E'. cbn [rbind]. now rewrite (IH s' Hs').
Qed.
End Stuck.
