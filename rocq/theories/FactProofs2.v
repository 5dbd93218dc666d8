(** * Proofs about the pack factories: sizes, resistance, names *)
From Coq Require Import String DecimalString DecimalNat Ascii Lra.
From Verif Require Import Base RFacts StatusModel CellModel CoolModel ModuleModel ModuleSpec ModuleProofs2 BattModel BattProofs
  FactModel FactSpec FactProofs.
Local Open Scope R_scope.

(** ** Aggregates over regular packs *)
Definition btw (k lo hi x : R) : Prop := k * lo <= x <= k * hi.
Lemma Rsum_btw k lo hi xs : Forall (btw k lo hi) xs -> btw (INR (length xs) * k) lo hi (Rsum xs).
Proof.
  unfold btw. induction 1 as [|x xs H _ IH]; cbn [length Rsum fold_right]; [cbn; lra|].
  rewrite S_INR. fold (Rsum xs). nra.
Qed.
Lemma in_btw k lo hi xs x : Forall (btw k lo hi) xs -> In x xs -> btw k lo hi x.
Proof. rewrite Forall_forall. auto. Qed.
Lemma mean_btw k lo hi xs : xs <> [] -> Forall (btw k lo hi) xs -> btw k lo hi (Rsum xs / INR (length xs)).
Proof.
  intros N H. apply Rsum_btw in H. unfold btw in *.
  assert (0 < INR (length xs)) by (destruct xs; [congruence|]; cbn [length]; rewrite S_INR; pose proof (pos_INR (length xs)); lra).
  set (n := INR (length xs)) in *. split.
  - apply Rmult_le_reg_r with n; [assumption|]. replace (Rsum xs / n * n) with (Rsum xs) by (field; lra). lra.
  - apply Rmult_le_reg_r with n; [assumption|]. replace (Rsum xs / n * n) with (Rsum xs) by (field; lra). lra.
Qed.

Definition cnt (sel : bool -> bool) (ls : list (level R)) : nat := fold_right (fun v a => if sel (v_ser v) then v_n v * a else a)%nat 1%nat ls.
Lemma cnt_series ls : cnt (fun b => b) ls = in_series ls. Proof. reflexivity. Qed.
Lemma cnt_parallel ls : cnt negb ls = in_parallel ls.
Proof. unfold cnt, in_parallel. induction ls as [|v ls IH]; cbn; [reflexivity|]. rewrite IH. now destruct (v_ser v). Qed.

Section Agg.
Context {C : Type} (oc : su_ops R C) (tm : Z).
Notation ops := (su_ops_at oc tm).

Lemma agg ctrl (sel : bool -> bool) (leaf : C -> R) (f : forall n, su R C n -> R) lo hi :
  (forall c, f O c = leaf c) ->
  (forall n (m : module R (su R C n)), f (S n) (inr m) =
     if sel (m_series (mm m)) then nsum (map (f n) (ms m)) else f (S n) (inr m)) ->
  (forall n (m : module R (su R C n)) k, ms m <> [] -> sel (m_series (mm m)) = false -> Forall (btw k lo hi) (map (f n) (ms m)) ->
     btw k lo hi (f (S n) (inr m))) ->
  forall ls p (u : su R C (length ls)), Forall (fun v => (1 <= v_n v)%nat) ls -> regular ctrl p ls (view _ u) ->
    Forall (fun c => lo <= leaf c <= hi) (leaves (view _ u)) -> btw (INR (cnt sel ls)) lo hi (f _ u).
Proof.
  intros H0 Hsum Hsel. induction ls as [|v ls IH]; intros p u Hn HR HL.
  - cbn [length] in *. rewrite H0. cbn in HL. inversion HL; subst. unfold btw. cbn. lra.
  - change (length (v :: ls)) with (S (length ls)) in *. destruct u as [c|m]; [inversion HR|].
    change (view (S (length ls)) (inr m)) with (mlayout (view (length ls)) m) in HR, HL.
    unfold mlayout in HR. inversion HR as [|v' ls' ps Lp Hp E1 [E2 E3 E4 E5 E6 E7 E8]]; subst.
    inversion Hn as [|? ? Hv Hn']; subst. rewrite map_length in Lp.
    assert (F : Forall (btw (INR (cnt sel ls)) lo hi) (map (f (length ls)) (ms m))).
    { rewrite Forall_forall. intros x Hx. apply in_map_iff in Hx. destruct Hx as (w & <- & Hw).
      apply (IH true); auto.
      - apply Hp. now apply in_map.
      - rewrite Forall_forall in HL |- *. intros c Hc. apply HL. cbn. apply in_flat_map. exists (view _ w). split; [now apply in_map|exact Hc]. }
    assert (Ne : ms m <> []) by (intros E; rewrite E in Lp; cbn in Lp; lia).
    cbn [cnt fold_right]. fold (cnt sel ls). rewrite Hsum. rewrite E2.
    destruct (sel (m_series (mm m))) eqn:Es.
    + rewrite R_nsum, <- Lp, mult_INR. rewrite <- (map_length (f (length ls))). now apply Rsum_btw.
    + now apply Hsel.
Qed.
End Agg.

(** ** Resistance of equal cells without contact resistances *)
Section Res.
Context {C : Type} (oc : su_ops R C) (tm : Z).
Notation ops := (su_ops_at oc tm).
Lemma rtot_s_equal {X} (o : su_ops R X) r : forall l acc, (forall u, In u l -> o_Rtot o u = Ok r) ->
  rtot_s o acc l (repeat 0 (length l)) = Ok (acc + INR (length l) * r).
Proof.
  induction l as [|u l IH]; intros acc H; cbn [rtot_s repeat length]; [cbn; f_equal; lra|].
  rewrite H by now left. cbn [rbind]. rewrite IH by (intros; apply H; now right). rewrite S_INR. f_equal. cbn. lra.
Qed.
Lemma rtot_p_equal {X} (o : su_ops R X) r : 0 < r -> forall l, l <> [] -> (forall u, In u l -> o_Rtot o u = Ok r) ->
  rtot_p o l (repeat 0 (length l)) = Ok (r / INR (length l)).
Proof.
  intros Hr. induction l as [|u l IH]; intros Ne H; [congruence|].
  destruct l as [|w l].
  - cbn. rewrite H by now left. cbn. f_equal. field.
  - assert (E : rtot_p o (w :: l) (repeat 0 (length (w :: l))) = Ok (r / INR (length (w :: l)))).
    { apply IH; [discriminate|]. intros; apply H; now right. }
    change (rbind (rtot_p o (w :: l) (repeat 0 (length (w :: l))))
      (fun rt => rmap (fun x => nadd 0 (ndiv (nmul x rt) (nadd x rt))) (o_Rtot o u)) = Ok (r / INR (length (u :: w :: l)))).
    rewrite E. cbn [rbind]. rewrite H by now left. cbn [rmap rbind]. f_equal.
    change (length (u :: w :: l)) with (S (length (w :: l))). rewrite S_INR.
    assert (0 < INR (length (w :: l))) by (apply lt_0_INR; cbn; lia). set (k := INR (length (w :: l))) in *.
    cbn [nadd nmul ndiv RNum]. field. split; [lra|]. split; [lra|]. nra.
Qed.
Lemma rtot_regular ctrl r : 0 < r -> forall ls p (u : su R C (length ls)), Forall (fun v => (1 <= v_n v)%nat /\ v_rc v = 0) ls ->
  regular ctrl p ls (view _ u) -> Forall (fun c => o_Rtot oc c = Ok r) (leaves (view _ u)) ->
  o_Rtot (ops (length ls)) u = Ok (r * INR (in_series ls) / INR (in_parallel ls)) /\
  0 < INR (in_series ls) /\ 0 < INR (in_parallel ls).
Proof.
  intros Hr. induction ls as [|v ls IH]; intros p u Hn HR HL.
  - cbn in HL. inversion HL; subst. cbn. split; [rewrite H1; f_equal; field|lra].
  - change (length (v :: ls)) with (S (length ls)) in *. destruct u as [c|m]; [inversion HR|].
    change (view (S (length ls)) (inr m)) with (mlayout (view (length ls)) m) in HR, HL.
    unfold mlayout in HR. inversion HR as [|v' ls' ps Lp Hp E1 [E2 E3 E4 E5 E6 E7 E8]]; subst.
    inversion Hn as [|? ? (Hv & Hz) Hn']; subst. rewrite map_length in Lp.
    assert (F : forall w, In w (ms m) -> o_Rtot (ops (length ls)) w = Ok (r * INR (in_series ls) / INR (in_parallel ls)) /\
                  0 < INR (in_series ls) /\ 0 < INR (in_parallel ls)).
    { intros w Hw. apply (IH true); auto.
      - apply Hp. now apply in_map.
      - rewrite Forall_forall in HL |- *. intros c Hc. apply HL. cbn. apply in_flat_map. exists (view _ w). split; [now apply in_map|exact Hc]. }
    assert (Ne : ms m <> []) by (intros E; rewrite E in Lp; cbn in Lp; lia).
    assert (PP : 0 < INR (in_series ls) /\ 0 < INR (in_parallel ls)).
    { destruct (ms m) as [|w l] eqn:Em; [congruence|]. apply (F w). now left. }
    destruct PP as [PS PP].
    change (o_Rtot (ops (S (length ls))) (inr m)) with (mod_Rtot (ops (length ls)) m).
    cbn [in_series in_parallel fold_right]. fold (in_series ls) (in_parallel ls). unfold mod_Rtot.
    rewrite <- E3, Hz, <- Lp, <- E2.
    assert (Hk : 0 < INR (length (ms m))) by (apply lt_0_INR; lia).
    destruct (v_ser v).
    + rewrite mult_INR. split; [|split; [now apply Rmult_lt_0_compat|assumption]].
      rewrite (rtot_s_equal _ (r * INR (in_series ls) / INR (in_parallel ls))) by (intros; now apply F).
      rewrite R_nZ. f_equal. field. lra.
    + rewrite mult_INR. split; [|split; [assumption|now apply Rmult_lt_0_compat]].
      destruct (ms m) as [|w l] eqn:Em; [congruence|]. rewrite <- Em in *.
      rewrite (rtot_p_equal _ (r * INR (in_series ls) / INR (in_parallel ls))); [|now apply Rdiv_lt_0_compat; [apply Rmult_lt_0_compat|]|congruence|intros; now apply F].
      f_equal. field. lra.
Qed.
End Res.

(** ** Names *)
Fixpoint digits (s : string) : Prop :=
  match s with EmptyString => True | String c t => c <> "_"%char /\ digits t end.
Lemma digits_uint d : digits (NilEmpty.string_of_uint d).
Proof. induction d; cbn; auto; split; auto; discriminate. Qed.
Lemma digits_to_string n : digits (to_string n). Proof. apply digits_uint. Qed.
Lemma to_string_inj n k : to_string n = to_string k -> n = k.
Proof.
  unfold to_string. intros H. apply (f_equal NilEmpty.uint_of_string) in H. rewrite !NilEmpty.usu in H.
  injection H as H. now apply Unsigned.to_uint_inj.
Qed.
Definition tail_ok (s : string) : Prop := match s with EmptyString => True | String c _ => c = "_"%char end.
Lemma strip s1 : forall s2 r1 r2, digits s1 -> digits s2 -> tail_ok r1 -> tail_ok r2 -> append s1 r1 = append s2 r2 -> s1 = s2.
Proof.
  induction s1 as [|c s1 IH]; intros [|c2 s2] r1 r2 D1 D2 T1 T2 E; cbn in *.
  - reflexivity.
  - subst r1. cbn in T1. subst. destruct D2 as [D2 _]. congruence.
  - subst r2. cbn in T2. subst. destruct D1 as [D1 _]. congruence.
  - injection E as -> E. f_equal. exact (IH s2 r1 r2 (proj2 D1) (proj2 D2) T1 T2 E).
Qed.
Lemma append_assoc a b c : append (append a b) c = append a (append b c).
Proof. induction a; cbn; congruence. Qed.
Lemma append_cancel a b c : append a b = append a c -> b = c.
Proof. induction a; cbn; intros H; [assumption|]. apply IHa. congruence. Qed.
Lemma append_nil_r a : append a "" = a.
Proof. induction a; cbn; congruence. Qed.

Definition head {A} (ls : list (level A)) : string := match ls with [] => "cell" | v :: _ => letter (v_ser v) end.
Lemma names_form {A} (ls : list (level A)) : forall p i x, In x (names p ls i) ->
  exists r, x = append p (append "_" (append (head ls) (append (to_string i) r))) /\ tail_ok r.
Proof.
  induction ls as [|v ls IH]; intros p i x H; cbn [names] in H.
  - destruct H as [<-|[]]. exists ""%string. rewrite append_nil_r. split; [reflexivity|exact I].
  - apply in_flat_map in H. destruct H as (j & _ & H). apply IH in H. destruct H as (r & -> & _).
    exists (append "_" (append (head ls) (append (to_string j) r))). split; [|reflexivity].
    cbn [head]. rewrite !append_assoc. reflexivity.
Qed.
Lemma names_distinct {A} (ls : list (level A)) p i j x : In x (names p ls i) -> In x (names p ls j) -> i = j.
Proof.
  intros H1 H2. apply names_form in H1. apply names_form in H2. destruct H1 as (r & -> & T1). destruct H2 as (r' & E & T2).
  apply append_cancel in E. apply append_cancel in E. apply append_cancel in E.
  apply strip in E; auto using digits_to_string. now apply to_string_inj.
Qed.
Lemma NoDup_flat {X Y} (f : X -> list Y) l : NoDup l -> (forall x, In x l -> NoDup (f x)) ->
  (forall x x' y, In x l -> In x' l -> In y (f x) -> In y (f x') -> x = x') -> NoDup (flat_map f l).
Proof.
  induction 1 as [|x l N _ IH]; intros H D; cbn; [constructor|].
  assert (APP : forall a b : list Y, NoDup a -> NoDup b -> (forall y, In y a -> ~ In y b) -> NoDup (a ++ b)).
  { induction a as [|y a IHa]; intros b Ha Hb Hd; cbn; [assumption|]. inversion Ha; subst. constructor.
    - rewrite in_app_iff. intros [C|C]; [auto|]. eapply Hd; eauto. now left.
    - apply IHa; auto. intros z Hz. apply Hd. now right. }
  apply APP.
  - apply H. now left.
  - apply IH; [intros; apply H; now right|]. intros a b y Ha Hb. apply D; now right.
  - intros y Hy C. apply in_flat_map in C. destruct C as (x' & Hx' & C). apply N.
    rewrite (D x x' y); auto; [now left|now right].
Qed.
Lemma names_NoDup {A} (ls : list (level A)) : forall p i, NoDup (names p ls i).
Proof.
  induction ls as [|v ls IH]; intros p i; cbn [names]; [repeat constructor; auto|].
  apply NoDup_flat; [apply seq_NoDup|auto|]. intros x x' y _ _. apply names_distinct.
Qed.
Lemma names_length {A} (ls : list (level A)) : forall p i, length (names p ls i) = prodn ls.
Proof.
  induction ls as [|v ls IH]; intros p i; cbn [names prodn fold_right]; [reflexivity|]. fold (prodn ls).
  set (q := append p _). clearbody q. generalize 0%nat as k. induction (v_n v) as [|n IHn]; intros k; cbn; [reflexivity|].
  rewrite app_length, IH, IHn. reflexivity.
Qed.
