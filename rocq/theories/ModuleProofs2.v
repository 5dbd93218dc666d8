(** * Proofs about modules: aggregates, equivalent resistance *)
From Coq Require Import List Lia.
From Verif Require Import Base RFacts StatusModel StatusProofs CellModel CellSpec CellProofs CoolModel ModuleModel ModuleSpec ModuleProofs.
Import ListNotations.
Local Open Scope R_scope.

Notation ops tm n := (su_ops_at (A := R) ecm_ops tm n).

Lemma Forall2_map_in {X Y} (P : X -> Y -> Prop) (f : X -> Y) l : Forall (fun x => P x (f x)) l -> Forall2 P l (map f l).
Proof. induction 1; cbn; constructor; auto. Qed.

(** ** Extremes *)
Lemma fold_nmin_spec xs : forall x, is_min (x :: xs) (fold_left nmin xs x).
Proof.
  induction xs as [|y ys IH]; intros x; cbn [fold_left].
  - split; [now left|]. intros z [-> | []]. lra.
  - destruct (IH (nmin x y)) as [I L].
    assert (M : nmin x y = x /\ x <= y \/ nmin x y = y /\ y < x) by (unfold nmin; cbn; rcase; [right|left]; split; auto; lra).
    assert (K : fold_left nmin ys (nmin x y) <= nmin x y) by (apply L; now left).
    split.
    + destruct I as [I|I]; [|right; right; exact I]. rewrite <- I. destruct M as [[-> _]|[-> _]]; [now left|right; now left].
    + intros z [-> | [-> | Hz]].
      * destruct M as [[E ?]|[E ?]]; rewrite E in *; lra.
      * destruct M as [[E ?]|[E ?]]; rewrite E in *; lra.
      * apply L; now right.
Qed.
Lemma fold_nmax_spec xs : forall x, is_max (x :: xs) (fold_left nmax xs x).
Proof.
  induction xs as [|y ys IH]; intros x; cbn [fold_left].
  - split; [now left|]. intros z [-> | []]. lra.
  - destruct (IH (nmax x y)) as [I L].
    assert (M : nmax x y = x /\ y <= x \/ nmax x y = y /\ x < y) by (unfold nmax; cbn; rcase; [right|left]; split; auto; lra).
    assert (K : nmax x y <= fold_left nmax ys (nmax x y)) by (apply L; now left).
    split.
    + destruct I as [I|I]; [|right; right; exact I]. rewrite <- I. destruct M as [[-> _]|[-> _]]; [now left|right; now left].
    + intros z [-> | [-> | Hz]].
      * destruct M as [[E ?]|[E ?]]; rewrite E in *; lra.
      * destruct M as [[E ?]|[E ?]]; rewrite E in *; lra.
      * apply L; now right.
Qed.
Lemma lmin_spec xs : xs <> [] -> is_min xs (lmin xs).
Proof. destruct xs; [congruence|]. intros _. apply fold_nmin_spec. Qed.
Lemma lmax_spec xs : xs <> [] -> is_max xs (lmax xs).
Proof. destruct xs; [congruence|]. intros _. apply fold_nmax_spec. Qed.
Lemma nsum_spec xs : is_sum xs (nsum xs).
Proof. apply R_nsum. Qed.

(** ** Aggregates *)
Lemma combined_of {C} (leaf : C -> R) (ser par : list R -> R -> Prop) (gs gp : list R -> R)
  (f : forall n, su R C n -> R) :
  (forall xs, xs <> [] -> ser xs (gs xs)) -> (forall xs, xs <> [] -> par xs (gp xs)) ->
  (forall c, f O c = leaf c) -> (forall n c, f (S n) (inl c) = leaf c) ->
  (forall n (m : module R (su R C n)), f (S n) (inr m) = if m_series (mm m) then gs (map (f n) (ms m)) else gp (map (f n) (ms m))) ->
  forall n u, well_formed n u -> combined (fun c x => x = leaf c) ser par n u (f n u).
Proof.
  intros Hs Hp H0 Hl Hm. induction n as [|n IH]; intros u W; cbn; [apply H0|].
  node u c m; [apply Hl|]. cbn in W. destruct W as [[Ne Le] W]. rewrite Hm.
  exists (map (f n) (ms m)). split.
  - apply Forall2_map_in. exact (Forall_impl _ IH W).
  - assert (map (f n) (ms m) <> []) by (intros E; apply map_eq_nil in E; auto).
    destruct (m_series (mm m)); auto.
Qed.

Lemma cap_combined tm n u : well_formed n u ->
  combined (fun c x => x = p_cap (ep (u_ecm c))) is_min is_sum n u (o_Cap (ops tm n) u).
Proof.
  apply (combined_of (fun c => p_cap (ep (u_ecm c))) is_min is_sum lmin nsum (fun n => o_Cap (ops tm n)));
    try reflexivity; intros; auto using lmin_spec, nsum_spec.
Qed.
Lemma Vmin_combined tm n u : well_formed n u ->
  combined (fun c x => x = l_Vmin (p_lim (ep (u_ecm c)))) is_sum is_max n u (l_Vmin (o_lim (ops tm n) u)).
Proof.
  apply (combined_of (fun c => l_Vmin (p_lim (ep (u_ecm c)))) is_sum is_max nsum lmax (fun n u => l_Vmin (o_lim (ops tm n) u)));
    try reflexivity; intros; auto using lmax_spec, nsum_spec.
  cbn. unfold mod_lim. destruct (m_series (mm m)); cbn; rewrite map_map; reflexivity.
Qed.
Lemma VMIN_combined tm n u : well_formed n u ->
  combined (fun c x => x = l_VMIN (p_lim (ep (u_ecm c)))) is_sum is_max n u (l_VMIN (o_lim (ops tm n) u)).
Proof.
  apply (combined_of (fun c => l_VMIN (p_lim (ep (u_ecm c)))) is_sum is_max nsum lmax (fun n u => l_VMIN (o_lim (ops tm n) u)));
    try reflexivity; intros; auto using lmax_spec, nsum_spec.
  cbn. unfold mod_lim. destruct (m_series (mm m)); cbn; rewrite map_map; reflexivity.
Qed.
Lemma Vmax_combined tm n u : well_formed n u ->
  combined (fun c x => x = l_Vmax (p_lim (ep (u_ecm c)))) is_sum is_min n u (l_Vmax (o_lim (ops tm n) u)).
Proof.
  apply (combined_of (fun c => l_Vmax (p_lim (ep (u_ecm c)))) is_sum is_min nsum lmin (fun n u => l_Vmax (o_lim (ops tm n) u)));
    try reflexivity; intros; auto using lmin_spec, nsum_spec.
  cbn. unfold mod_lim. destruct (m_series (mm m)); cbn; rewrite map_map; reflexivity.
Qed.
Lemma VMAX_combined tm n u : well_formed n u ->
  combined (fun c x => x = l_VMAX (p_lim (ep (u_ecm c)))) is_sum is_min n u (l_VMAX (o_lim (ops tm n) u)).
Proof.
  apply (combined_of (fun c => l_VMAX (p_lim (ep (u_ecm c)))) is_sum is_min nsum lmin (fun n u => l_VMAX (o_lim (ops tm n) u)));
    try reflexivity; intros; auto using lmin_spec, nsum_spec.
  cbn. unfold mod_lim. destruct (m_series (mm m)); cbn; rewrite map_map; reflexivity.
Qed.
Lemma I_current tm n : forall u, o_I (ops tm n) u = current n u.
Proof.
  induction n as [|n IH]; intros u; [reflexivity|]. node u c m; [reflexivity|]. cbn. unfold mod_I.
  destruct (m_series (mm m)); [destruct (ms m); [apply R_nZ|apply IH]|].
  rewrite R_nsum. f_equal. apply map_ext, IH.
Qed.
Lemma res_all_ok {B} (rs : list (res B)) bs : Forall2 (fun r b => r = Ok b) rs bs -> res_all rs = Ok bs.
Proof. induction 1; cbn; [reflexivity|]. subst. rewrite IHForall2. reflexivity. Qed.

Lemma OCV_combined tm n : forall u, well_formed n u -> Forall cell_ok (leaves n u) ->
  exists x, o_OCV (ops tm n) u = Ok x /\
    combined (fun c x => ecm_OCV (u_ecm c) = Ok x) is_sum is_mean n u x.
Proof.
  assert (L : forall c : ecmu R, cell_ok c -> exists x, ecm_OCV (u_ecm c) = Ok x).
  { intros c [G B]. destruct (good_ocv_interp _ _ G B) as (y & E & _). exists y. exact E. }
  induction n as [|n IH]; intros u W G.
  - inversion G; subst. destruct (L _ H1) as [x Hx]. eauto.
  - node u c m.
    { inversion G; subst. destruct (L _ H1) as [x Hx]. eauto. }
    destruct W as [[Ne Le] W]. cbn in Ne, Le, W, G. rewrite Forall_flat in G. cbn. unfold mod_OCV.
    assert (X : exists xs, Forall2 (fun r b => r = Ok b) (map (o_OCV (ops tm n)) (ms m)) xs /\
      Forall2 (combined (fun c x => ecm_OCV (u_ecm c) = Ok x) is_sum is_mean n) (ms m) xs).
    { clear Ne Le. induction (ms m) as [|s l IHl]; [exists []; split; constructor|].
      inversion W; subst. inversion G; subst. destruct (IH s H1 H3) as (x & E1 & E2).
      destruct (IHl H2 H4) as (xs & F1 & F2). exists (x :: xs). split; constructor; auto. }
    destruct X as (xs & F1 & F2). apply res_all_ok in F1. rewrite F1. cbn [rmap].
    destruct (ms m) as [|s l] eqn:El; [congruence|]. eexists. split; [reflexivity|].
    exists xs. split; [exact F2|]. destruct (m_series (mm m)); [apply R_nsum|].
    unfold is_mean. apply Forall2_len in F2. rewrite <- F2, R_nsum, R_nnat. cbn [ndiv RNum].
    field. apply not_0_INR. cbn. lia.
Qed.

(** ** Number of cells *)
Lemma fold_plus {X} (f : X -> nat) l : forall a, fold_left (fun r s => (r + f s)%nat) l a = (a + list_sum (map f l))%nat.
Proof. unfold list_sum. induction l as [|x l IH]; intros a; cbn [fold_left map fold_right]; [lia|]. rewrite IH. lia. Qed.

(** ** Equivalent resistance *)
Lemma ladder_drop_0 c rc i0 is : ladder_drop (c :: rc) (i0 :: is) 0 = c * Rsum (i0 :: is).
Proof. unfold ladder_drop, behind. cbn. lra. Qed.
Lemma ladder_drop_S c rc i0 is j :
  ladder_drop (c :: rc) (i0 :: is) (S j) = c * Rsum (i0 :: is) + ladder_drop rc is j.
Proof.
  unfold ladder_drop. change (seq 0 (S (S j))) with (0%nat :: seq 1 (S j)).
  rewrite <- seq_shift. cbn [map Rsum]. rewrite map_map. unfold behind at 1. cbn [skipn nth]. f_equal.
Qed.

Definition branch_law {X} (net : X -> R -> R -> Prop) (l : list X) (rc : list R) (i v : R) : Prop :=
  exists is, length is = length l /\ i = Rsum is /\
    forall j s ij, nth_error l j = Some s -> nth_error is j = Some ij -> net s ij (v - ladder_drop rc is j).
Lemma branch_cons {X} (net : X -> R -> R -> Prop) s l c rc i v :
  branch_law net (s :: l) (c :: rc) i v <->
  exists i0 i', i = i0 + i' /\ net s i0 (v - c * i) /\ branch_law net l rc i' (v - c * i).
Proof.
  split.
  - intros (is & Hl & Hi & H). destruct is as [|i0 is]; [discriminate|]. exists i0, (Rsum is). cbn in Hi.
    split; [exact Hi|]. split.
    + specialize (H 0%nat s i0 eq_refl eq_refl). rewrite ladder_drop_0 in H. cbn in H. rewrite Hi. exact H.
    + exists is. split; [cbn in Hl; lia|]. split; [reflexivity|]. intros j s' ij Hs Hj.
      specialize (H (S j) s' ij Hs Hj). rewrite ladder_drop_S in H. cbn [Rsum] in H. rewrite Hi.
      replace (v - c * (i0 + Rsum is) - ladder_drop rc is j) with (v - (c * (i0 + Rsum is) + ladder_drop rc is j)) by ring. exact H.
  - intros (i0 & i' & Hi & H0 & is & Hl & Hi' & H). exists (i0 :: is). split; [cbn; lia|]. split; [cbn; lra|].
    intros [|j] s' ij Hs Hj; cbn in Hs, Hj.
    + injection Hs as <-. injection Hj as <-. rewrite ladder_drop_0. cbn [Rsum]. rewrite <- Hi', <- Hi. exact H0.
    + rewrite ladder_drop_S. cbn [Rsum]. rewrite <- Hi', <- Hi.
      replace (v - (c * i + ladder_drop rc is j)) with (v - c * i - ladder_drop rc is j) by ring. exact (H j s' ij Hs Hj).
Qed.

Definition resistor {X} (net : X -> R -> R -> Prop) (rt : X -> res R) (s : X) : Prop :=
  exists r, 0 < r /\ rt s = Ok r /\ forall i v, net s i v <-> v = r * i.

Lemma rtot_p_spec {X} (o : su_ops R X) net : forall l rc, l <> [] -> length rc = length l ->
  Forall (resistor net (o_Rtot o)) l -> Forall (fun x => 0 <= x) rc ->
  exists r, 0 < r /\ rtot_p o l rc = Ok r /\ forall i v, branch_law net l rc i v <-> v = r * i.
Proof.
  induction l as [|s l IH]; intros rc Ne Hl HF Hc; [congruence|]. destruct rc as [|c rc]; [discriminate|].
  inversion HF as [|? ? (r0 & P0 & E0 & N0) HF']; subst. inversion Hc as [|? ? Pc Hc']; subst.
  destruct l as [|s' l].
  - destruct rc; [|discriminate]. exists (c + r0). split; [lra|]. split; [cbn; rewrite E0; reflexivity|].
    intros i v. rewrite branch_cons. split.
    + intros (i0 & i' & Hi & H0 & is & Hl' & Hi' & _). destruct is; [|discriminate]. cbn in Hi'. apply N0 in H0.
      replace i' with 0 in * by lra. replace i0 with i in * by lra. lra.
    + intros ->. exists i, 0. split; [lra|]. split; [apply N0; lra|].
      exists []. split; [reflexivity|]. split; [reflexivity|]. intros [|j] ? ? Hs; discriminate.
  - destruct (IH rc) as (r' & P' & E' & N'); auto; [discriminate|].
    exists (c + (r0 * r') / (r0 + r')).
    assert (Q : 0 < r0 * r' / (r0 + r')) by (apply Rdiv_lt_0_compat; [now apply Rmult_lt_0_compat|lra]).
    split; [lra|]. split.
    { cbn [rtot_p]. cbn [rtot_p] in E'. destruct rc as [|c' rc]; [discriminate|]. rewrite E'. cbn. rewrite E0. reflexivity. }
    intros i v. rewrite branch_cons. split.
    + intros (i0 & i' & Hi & H0 & H1). apply N0 in H0. apply N' in H1.
      assert (E : v - c * i = r0 * r' / (r0 + r') * i); [|lra].
      assert (i0 * r0 = i' * r') by lra.
      apply (Rmult_eq_reg_r (r0 + r')); [|lra].
      replace (r0 * r' / (r0 + r') * i * (r0 + r')) with (r0 * r' * i) by (field; lra).
      rewrite H0, Hi. nra.
    + intros ->. set (w := r0 * r' / (r0 + r') * i). exists (w / r0), (w / r').
      assert (E : c * i + w - c * i = w) by ring.
      replace ((c + r0 * r' / (r0 + r')) * i - c * i) with w by (unfold w; ring).
      split; [unfold w; field; lra|]. split; [apply N0; field; lra|]. apply N'. field; lra.
Qed.
Lemma rtot_s_spec {X} (o : su_ops R X) net : forall l rc acc, length rc = length l ->
  Forall (resistor net (o_Rtot o)) l ->
  exists rs, rtot_s o acc l rc = Ok (acc + (Rsum rs + Rsum rc)) /\ Forall (fun x => 0 < x) rs /\ length rs = length l /\
    forall i vs, Forall2 (fun s x => net s i x) l vs <-> vs = map (fun r => r * i) rs.
Proof.
  induction l as [|s l IH]; intros rc acc Hl HF.
  - destruct rc; [|discriminate]. exists []. cbn. repeat split; try constructor.
    + f_equal. lra.
    + intros H; inversion H; reflexivity.
    + intros ->. constructor.
  - destruct rc as [|c rc]; [discriminate|]. inversion HF as [|? ? (r0 & P0 & E0 & N0) HF']; subst.
    destruct (IH rc (acc + (r0 + c)) (eq_add_S _ _ Hl) HF') as (rs & E & P & Hn & N). exists (r0 :: rs).
    split; [cbn [rtot_s]; rewrite E0; cbn [rbind]; cbn [nadd RNum]; rewrite E; f_equal; cbn; lra|].
    split; [constructor; auto|]. split; [cbn; congruence|]. intros i vs. split.
    + intros H. inversion H; subst. cbn. f_equal; [now apply N0|now apply N].
    + intros ->. cbn. constructor; [now apply N0|now apply N].
Qed.
Lemma Rsum_scal_r i rs : Rsum (map (fun r => r * i) rs) = Rsum rs * i.
Proof. induction rs; cbn; lra. Qed.
Lemma Rtot_network tm n : forall u, well_formed n u -> resistive n u ->
  resistor (network n) (o_Rtot (ops tm n)) u.
Proof.
  induction n as [|n IH]; intros u W [P Q].
  - inversion P; subst. exists (p_Rdc (ep (u_ecm u))). split; [assumption|]. split; reflexivity.
  - node u c m.
    { inversion P; subst. exists (p_Rdc (ep (u_ecm c))). split; [assumption|]. split; reflexivity. }
    cbn in W, P, Q. destruct W as [[Ne Le] W]. destruct Q as [Qc Q]. rewrite Forall_flat in P.
    assert (F : Forall (resistor (network n) (o_Rtot (ops tm n))) (ms m)).
    { rewrite Forall_forall in W, P, Q |- *. intros s Hs. apply IH; [exact (W s Hs)|]. split; [exact (P s Hs)|exact (Q s Hs)]. }
    unfold resistor. cbn. unfold mod_Rtot. destruct (m_series (mm m)).
    + destruct (rtot_s_spec (ops tm n) (network n) (ms m) (m_rc (mm m)) (nZ 0) Le F) as (rs & E & Pr & Hn & N).
      exists (Rsum rs + Rsum (m_rc (mm m))). split.
      { assert (0 <= Rsum (m_rc (mm m))) by now apply Rsum_nonneg.
        destruct rs as [|r rs]; [destruct (ms m); [congruence|discriminate]|]. inversion Pr; subst. cbn.
        assert (0 <= Rsum rs) by (apply Rsum_nonneg; eapply Forall_impl; [|eassumption]; intros; cbn in *; lra). lra. }
      split; [rewrite E, R_nZ; f_equal; lra|]. intros i v. split.
      * intros (vs & H & ->). apply N in H. subst vs. rewrite Rsum_scal_r. lra.
      * intros ->. exists (map (fun r => r * i) rs). split; [now apply N|]. rewrite Rsum_scal_r. lra.
    + destruct (rtot_p_spec (ops tm n) (network n) (ms m) (m_rc (mm m)) Ne Le F Qc) as (r & Pr & E & N).
      exists r. split; [exact Pr|]. split; [destruct (ms m); [congruence|exact E]|]. exact N.
Qed.
