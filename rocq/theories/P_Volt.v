(** * C94: voltage commands on packs reach the commanded voltage *)
From Coq Require Import List Lra Lia.
From Verif Require Import Base RFacts StatusModel StatusProofs UtilModel CellModel CellSpec CellProofs CoolModel ModuleModel ModuleSpec ModuleExamples
  ConvSpec ConvProofs P_Conv VoltSpec VoltProofs.
Import ListNotations.
Local Open Scope R_scope.

Lemma near_within v D x : near v D x <-> v - D <= x <= v + D.
Proof. unfold near. split; intros H; [unfold Rabs in H; destruct (Rcase_abs (v - x)); lra|apply Rabs_le; lra]. Qed.

Lemma cell_okb v D (Hlo : 0 < v - D) : forall s b i j, cell_br (v - D) (v + D) s b i -> near v D (bvolt b j) ->
  exists s' st, o_setCurrent (ecm_ops (A := R)) j true s = (s', Ok st) /\ isStatusOK st = true /\ cell_br (v - D) (v + D) s' b j.
Proof. intros s b i j B N. apply (cell_set (v - D) (v + D) Hlo s b i j B). apply near_within, N. Qed.

Lemma start_near v D l : Forall (in_limits (v - D) (v + D)) l -> Forall (between (v - D) (v + D)) l ->
  Forall (near v D) (volts (map as_branch l) (map (fun c => e_I (es (u_ecm c))) l)).
Proof.
  intros HL W. assert (W0 : Forall (within (v - D) (v + D)) (volts (map as_branch l) (map (fun c => e_I (es (u_ecm c))) l))).
  { apply (volts_between (v - D) (v + D) l HL); [apply map_length|]. clear -W. induction W as [|c l H _ IH]; constructor; [rewrite carrying_self; exact H|auto]. }
  eapply Forall_impl; [|exact W0]. intros x X. apply near_within, X.
Qed.

(** Parallel cells without contact resistance, 200 times the resistance between [k] and [2 - k]: the command succeeds,
    changes nothing but currents, and every cell then shows the commanded voltage. *)
Theorem C94_parallel : forall k v D rc l, 0 <= k <= 1 -> 0 <= D < v -> (length l <= 100)%nat -> length rc = length l ->
  Forall (fun r => r = 0) rc -> Forall (in_limits (v - D) (v + D)) l -> Forall (between (v - D) (v + D)) l ->
  Forall (fun c => k <= 200 * p_Rdc (ep (u_ecm c)) <= 2 - k) l -> INR (length l) * D * (1 - k) ^ 49 < / 10 ^ 10 ->
  exists l', p_setVoltage ecm_ops v rc l = (l', Ok Success) /\ only_currents l l' /\ Forall (between (v - / 10 ^ 10) (v + / 10 ^ 10)) l'.
Proof.
  intros k v D rc l Hk HD N Lr Z HL W HR T.
  destruct (set_voltage ecm_ops (cell_br (v - D) (v + D)) (fun b j => near v D (bvolt b j)) (cell_V (v - D) (v + D))
     ltac:(intros s b i (_ & -> & _); reflexivity) (cell_okb v D ltac:(lra)) k v D rc l (map as_branch l)
     (map (fun c => e_I (es (u_ecm c))) l) Hk ltac:(apply Forall_map; exact HR)
     (cells_brs (v - D) (v + D) l HL) Lr Z N (proj1 HD) ltac:(apply Forall_forall; auto) (start_near v D l HL W) T) as (l' & is' & E & B & _ & Q).
  exists l'. split; [exact E|]. destruct (brs_cells _ _ l l' is' B) as (H1 & _ & H3). split; [exact H1|].
  assert (SP : Forall (fun x => Rabs (v - x) < / 10 ^ 10) (volts (map as_branch l) is')).
  { rewrite spread_R in Q. revert Q. generalize (/ 10 ^ 10). intros q. generalize (volts (map as_branch l) is'). clear.
    assert (P : forall l : list R, 0 <= Rsum (map (fun x => Rabs (v - x)) l)).
    { induction l as [|x l IH]; cbn; [lra|]. assert (0 <= Rabs (v - x)) by apply Rabs_pos. lra. }
    induction l as [|x l IH]; intros Q; constructor; cbn in Q; [specialize (P l); lra|apply IH; assert (0 <= Rabs (v - x)) by apply Rabs_pos; lra]. }
  clear -H3 SP. revert H3 SP. generalize (volts (map as_branch l) is'). intros vs H3. generalize dependent (/ 10 ^ 10). intros q.
  induction H3 as [|c x l0 l1 H _ IH]; intros W; constructor; apply Forall_cons_iff in W; destruct W as [W1 W].
  - exists x. split; [exact H|]. apply near_within. unfold near. lra.
  - apply IH, W.
Qed.
Print Assumptions C94_parallel.

(** Finding: with 10 milliohm per cell every correction mirrors the voltage at the target, and the command fails
    whatever the distance, also for a single cell. *)
Theorem C94_mirror_refuted : forall v D rc l vs, 0 <= D < v -> (length l <= 100)%nat -> length rc = length l ->
  Forall (fun r => r = 0) rc -> Forall (in_limits (v - D) (v + D)) l -> Forall (between (v - D) (v + D)) l ->
  Forall (fun c => p_Rdc (ep (u_ecm c)) = 1 / 100) l ->
  Forall2 (fun c x => ecm_V (u_ecm c) = Ok x) l vs -> / 10 ^ 10 <= Rsum (map (fun x => Rabs (v - x)) vs) ->
  exists l', p_setVoltage ecm_ops v rc l = (l', Ok RedistributeCurrent_failed).
Proof.
  intros v D rc l vs HD N Lr Z HL W HR HV T.
  apply (mirror_forever ecm_ops (cell_br (v - D) (v + D)) (fun b j => near v D (bvolt b j)) (cell_V (v - D) (v + D))
     ltac:(intros s b i (_ & -> & _); reflexivity) (cell_okb v D ltac:(lra)) v D rc l (map as_branch l)
     (map (fun c => e_I (es (u_ecm c))) l) ltac:(apply Forall_map; eapply Forall_impl; [|exact HR]; intros c E; cbn in *; rewrite E; lra)
     (cells_brs (v - D) (v + D) l HL) Lr Z N ltac:(apply Forall_forall; auto) (start_near v D l HL W)).
  rewrite spread_R. replace (volts (map as_branch l) (map (fun c => e_I (es (u_ecm c))) l)) with vs; [exact T|].
  clear -HL HV. induction HV as [|c x l vs E _ IH]; [reflexivity|]. apply Forall_cons_iff in HL. destruct HL as [HL1 HL].
  unfold volts in *. cbn [map combine]. f_equal; [|auto].
  assert (X := V_carrying c (e_I (es (u_ecm c))) (proj1 HL1)). rewrite carrying_self, E in X. injection X as ->. reflexivity.
Qed.
Print Assumptions C94_mirror_refuted.

(** ** Series modules of cells *)
Section Strings.
Context (tm : Z).
Notation tag := (modrec R * list (ecmu R))%type.
Notation sops := (su_ops_at (A := R) ecm_ops tm 1).
Definition as_chain (t : tag) : branch tag :=
  mkBr t (Rsum (map (fun c => emf (u_ecm c)) (snd t))) (string_R (m_rc (fst t)) (snd t)) (lmin (map (fun c => p_cap (ep (u_ecm c))) (snd t))).
Definition chain (t : tag) : Prop := m_series (fst t) = true /\ length (m_rc (fst t)) = length (snd t) /\ (1 <= length (snd t) <= 100)%nat /\
  Forall (fun c => exists o, ecm_OCV (u_ecm c) = Ok o) (snd t).
Definition chain_br (s : su R (ecmu R) 1) (b : branch tag) (i : R) : Prop := b = as_chain (b_t b) /\ chain (b_t b) /\
  exists r, s = inr (mkM r (map (carrying i) (snd (b_t b)))) /\ uncached r = uncached (fst (b_t b)) /\
    Forall (fun c => 0 < bvolt (as_branch c) i) (snd (b_t b)) /\ (m_Vok r = true -> m_V r = bvolt b i).
Definition chain_ok (b : branch tag) (j : R) : Prop := Forall (safe_at j) (snd (b_t b)).

Lemma chain_loop i cs : Forall (fun c => exists o, ecm_OCV (u_ecm c) = Ok o) cs -> Forall (fun c => 0 < bvolt (as_branch c) i) cs ->
  forall rc acc, length rc = length cs ->
  sV_loop ecm_ops acc (map (carrying i) cs) rc =
    (map (carrying i) cs, acc + (Rsum (map (fun c => emf (u_ecm c)) cs) - string_R rc cs * i), Ok true).
Proof.
  induction 1 as [|c cs O _ IH]; intros P [|r rc] acc L; try discriminate.
  - cbn. unfold string_R. cbn. do 2 f_equal. ring.
  - apply Forall_cons_iff in P. destruct P as [P1 P]. cbn [map sV_loop].
    change (o_V (ecm_ops (A := R)) (carrying i c)) with (carrying i c, ecm_V (u_ecm (carrying i c))). rewrite (V_carrying c i O).
    replace (nleb (bvolt (as_branch c) i) (nZ 0)) with false by (symmetry; apply Rleb_false; rewrite R_nZ; lra).
    rewrite (IH P rc) by (cbn in L; lia). do 2 f_equal.
    change (o_I ecm_ops (carrying i c)) with i. unfold string_R, bvolt, as_branch. cbn [map Rsum b_e b_r nadd nsub nmul RNum]. ring.
Qed.
Lemma unc_series r r0 : uncached r = uncached r0 -> m_series r = m_series r0 /\ m_rc r = m_rc r0.
Proof. intros H. split; [change (m_series (uncached r) = m_series (uncached r0))|change (m_rc (uncached r) = m_rc (uncached r0))]; rewrite H; reflexivity. Qed.
Lemma chain_V s b i : chain_br s b i -> exists s', o_V sops s = (s', Ok (bvolt b i)) /\ chain_br s' b i.
Proof.
  intros (Hb & K & r & -> & U & P & C). destruct (unc_series _ _ U) as [U1 U2]. destruct K as (K1 & K2 & K3 & K4).
  change (o_V sops (inr (mkM r (map (carrying i) (snd (b_t b)))))) with (on_r (X := ecmu R) (mod_V ecm_ops) (mkM r (map (carrying i) (snd (b_t b))))).
  unfold on_r, mod_V. cbn [mm ms]. rewrite U1, K1. destruct (m_Vok r) eqn:Ev.
  - rewrite (C eq_refl). eexists. split; [reflexivity|]. split; [exact Hb|]. split; [repeat split; auto; lia|]. exists r. repeat split; auto.
  - rewrite U2, (chain_loop i _ K4 P (m_rc (fst (b_t b))) _ K2).
    assert (E : nZ 0 + (Rsum (map (fun c => emf (u_ecm c)) (snd (b_t b))) - string_R (m_rc (fst (b_t b))) (snd (b_t b)) * i) = bvolt b i).
    { rewrite Hb. unfold bvolt. cbn [as_chain b_e b_r b_t]. rewrite R_nZ. ring. }
    rewrite E. eexists. split; [reflexivity|]. split; [exact Hb|]. split; [repeat split; auto; lia|].
    eexists. split; [reflexivity|]. repeat split; auto.
Qed.
Lemma safe_set i j c : safe_at j c -> exists st, o_setCurrent (ecm_ops (A := R)) j true (carrying i c) = (carrying j c, Ok st) /\ isStatusOK st = true.
Proof.
  intros (u & E & P & W).
  assert (O : exists x, ecm_OCV (u_ecm c) = Ok x).
  { unfold ecm_V in E. change (ecm_OCV (u_ecm (carrying j c))) with (ecm_OCV (u_ecm c)) in E. destruct (ecm_OCV (u_ecm c)) eqn:EO; eauto; try discriminate.
    injection E as E. exfalso. revert P. rewrite <- E. rewrite ?R_nZ. lra. }
  assert (E' := V_carrying c j O). rewrite E in E'. injection E' as E'.
  destruct (cell_set u u P (carrying i c) (as_branch c) i j) as (s' & st & E1 & E2 & (_ & -> & _)).
  { split; [reflexivity|]. split; [reflexivity|]. split; [exact O|exact W]. }
  { rewrite <- E'. lra. }
  exists st. auto.
Qed.
Lemma list_set_mid {X} (a : list X) x y b : list_set (a ++ x :: b) (length a) y = a ++ y :: b.
Proof. induction a as [|z a IH]; [reflexivity|]. cbn [app length list_set]. rewrite IH. reflexivity. Qed.
Lemma chain_set_loop i j : forall cs don olds, Forall (safe_at j) cs -> (length don + length cs <= 100)%nat ->
  s_setCurrent ecm_ops (length cs) (length don) j true olds (don ++ map (carrying i) cs) = (don ++ map (carrying j) cs, Ok Success).
Proof.
  induction cs as [|c cs IH]; intros don olds W N; cbn [map length s_setCurrent]; [reflexivity|].
  apply Forall_cons_iff in W. destruct W as [W1 W]. cbn [length] in N.
  replace (Nat.leb NSUs_MAX (length don)) with false by (symmetry; apply Nat.leb_gt; unfold NSUs_MAX; lia).
  assert (NE : nth_error (don ++ carrying i c :: map (carrying i) cs) (length don) = Some (carrying i c)).
  { rewrite nth_error_app2 by lia. rewrite Nat.sub_diag. reflexivity. }
  rewrite NE. unfold child_do. rewrite NE. destruct (safe_set i j c W1) as (st & E & S). rewrite E, list_set_mid. unfold isStatusBad. rewrite S. cbn [negb].
  replace (don ++ carrying j c :: map (carrying i) cs) with ((don ++ [carrying j c]) ++ map (carrying i) cs) by (rewrite <- app_assoc; reflexivity).
  replace (Datatypes.S (length don)) with (length (don ++ [carrying j c])) by (rewrite app_length; cbn; lia).
  rewrite IH; [rewrite <- app_assoc; reflexivity|exact W|rewrite app_length; cbn; lia].
Qed.
Lemma chain_set s b i j : chain_br s b i -> chain_ok b j ->
  exists s' st, o_setCurrent sops j true s = (s', Ok st) /\ isStatusOK st = true /\ chain_br s' b j.
Proof.
  intros (Hb & K & r & -> & U & P & C) W. destruct (unc_series _ _ U) as [U1 U2]. destruct K as (K1 & K2 & K3 & K4).
  change (o_setCurrent sops j true (inr (mkM r (map (carrying i) (snd (b_t b))))))
    with (on_r (X := ecmu R) (mod_setCurrent ecm_ops j true) (mkM r (map (carrying i) (snd (b_t b))))).
  unfold on_r, mod_setCurrent. cbn [mm ms]. rewrite U1, K1, map_length.
  assert (X := chain_set_loop i j (snd (b_t b)) [] [] W ltac:(cbn; lia)). cbn [app length] in X. rewrite X.
  exists (inr (mkM (inval r) (map (carrying j) (snd (b_t b))))), Success. split; [reflexivity|]. split; [reflexivity|].
  split; [exact Hb|]. split; [repeat split; auto; lia|]. exists (inval r). split; [reflexivity|]. split; [rewrite <- U; reflexivity|].
  split; [|cbn; discriminate].
  clear -W K4. unfold chain_ok in W. induction W as [|c l (u & E & P & _) _ IH]; constructor; apply Forall_cons_iff in K4; destruct K4 as [O K4]; auto.
  rewrite (V_carrying c j O) in E. injection E as ->. exact P.
Qed.
Lemma chain_I s b i : chain_br s b i -> o_I sops s = i.
Proof.
  intros (Hb & K & r & -> & U & P & C). destruct (unc_series _ _ U) as [U1 U2]. destruct K as (K1 & K2 & K3 & K4).
  change (o_I sops (inr (mkM r (map (carrying i) (snd (b_t b)))))) with (mod_I ecm_ops (mkM r (map (carrying i) (snd (b_t b))))).
  unfold mod_I. cbn [mm ms]. rewrite U1, K1. destruct (snd (b_t b)); [cbn in K3; lia|reflexivity].
Qed.
Lemma chain_Cap s b i : chain_br s b i -> o_Cap sops s = b_c b.
Proof.
  intros (Hb & K & r & -> & U & P & C). destruct (unc_series _ _ U) as [U1 U2]. destruct K as (K1 & K2 & K3 & K4).
  change (o_Cap sops (inr (mkM r (map (carrying i) (snd (b_t b)))))) with (mod_Cap ecm_ops (mkM r (map (carrying i) (snd (b_t b))))).
  unfold mod_Cap. cbn [mm ms]. rewrite U1, K1, map_map, Hb. reflexivity.
Qed.

(** Every string as it is given is such a branch. *)
Lemma given r cs i x : is_string r cs i x -> chain_br (inr (mkM r cs)) (as_chain (r, cs)) i /\ bvolt (as_chain (r, cs)) i = x.
Proof.
  intros (H1 & H2 & H3 & H4 & H5 & (vs & H6 & H7) & H8).
  assert (EC : map (carrying i) cs = cs).
  { clear -H4. induction H4 as [|c l E _ IH]; [reflexivity|]. cbn. rewrite IH, <- E, carrying_self. reflexivity. }
  assert (O : Forall (fun c => exists o, ecm_OCV (u_ecm c) = Ok o) cs).
  { clear -H5. eapply Forall_impl; [|exact H5]. intros c (u & E & P). unfold ecm_V in E. destruct (ecm_OCV (u_ecm c)); eauto; try discriminate.
    injection E as E. exfalso. revert P. rewrite <- E. rewrite ?R_nZ. lra. }
  assert (EV : bvolt (as_chain (r, cs)) i = x).
  { rewrite H7. clear -H6 O. unfold bvolt, as_chain, string_R. cbn [b_e b_r fst snd].
    assert (Q : Rsum vs = Rsum (map (fun c => emf (u_ecm c)) cs) - i * Rsum (map (fun c => p_Rdc (ep (u_ecm c))) cs)).
    { induction H6 as [|c u l us E _ IH]; [cbn; lra|]. apply Forall_cons_iff in O. destruct O as [O1 O].
      rewrite (V_carrying c i O1) in E. injection E as <-. cbn [map Rsum]. rewrite (IH O). unfold bvolt, as_branch. cbn [b_e b_r]. ring. }
    rewrite Q. ring. }
  split; [|exact EV]. split; [reflexivity|]. split; [repeat split; auto; apply H3|]. exists r. cbn [as_chain b_t snd fst]. rewrite EC. split; [reflexivity|].
  split; [reflexivity|]. split; [|rewrite EV; exact H8].
  clear -H4 H5 O. induction H4 as [|c l E _ IH]; constructor; apply Forall_cons_iff in O, H5; destruct O as [O1 O], H5 as [(u & E5 & P5) H5]; auto.
  assert (X := V_carrying c i O1). rewrite <- E, carrying_self, E5 in X. rewrite <- E. injection X as ->. exact P5.
Qed.
Lemma chain_volt r cs j x : Forall (fun c => exists o, ecm_OCV (u_ecm c) = Ok o) cs -> (string_V (m_rc r) cs j x <-> x = bvolt (as_chain (r, cs)) j).
Proof.
  intros O.
  assert (G : exists vs, Forall2 (fun c u => ecm_V (u_ecm (carrying j c)) = Ok u) cs vs /\ Rsum vs - j * Rsum (m_rc r) = bvolt (as_chain (r, cs)) j).
  { assert (Q : exists vs, Forall2 (fun c u => ecm_V (u_ecm (carrying j c)) = Ok u) cs vs /\
      Rsum vs = Rsum (map (fun c => emf (u_ecm c)) cs) - j * Rsum (map (fun c => p_Rdc (ep (u_ecm c))) cs)).
    { induction O as [|c l O1 _ (vs & F & S)]; [exists []; split; [constructor|cbn; lra]|].
      exists (bvolt (as_branch c) j :: vs). split; [constructor; [apply V_carrying, O1|exact F]|]. cbn [map Rsum]. rewrite S. unfold bvolt, as_branch. cbn [b_e b_r]. ring. }
    destruct Q as (vs & F & S). exists vs. split; [exact F|]. rewrite S. unfold bvolt, as_chain, string_R. cbn [b_e b_r fst snd]. ring. }
  destruct G as (vs & F & S). split.
  - intros (us & F' & ->). rewrite <- S. do 2 f_equal. clear -F F'. revert us F'. induction F as [|c u l vs E _ IH]; intros us F'; inversion F'; subst; [reflexivity|].
    f_equal; [congruence|auto].
  - intros ->. exists vs. split; [exact F|]. symmetry. exact S.
Qed.

(** A voltage command on a string of any cells and contact resistances. If the string shows [v] at the current [j], and
    the cells are within their limits at [j] and at the trial current, 1 per cent of the smallest capacity from the
    present one, the command succeeds: it leaves the string alone if it was within a microvolt, else all cells carry
    exactly [j]. *)
Theorem C94_series : forall r cs i x v j q, is_string r cs i x -> 0 < string_R (m_rc r) cs ->
  q = lmin (map (fun c => p_cap (ep (u_ecm c))) cs) -> 0 < q ->
  (x < v -> Forall (safe_at (i - 1 / 100 * q)) cs) -> (v <= x -> Forall (safe_at (i + 1 / 100 * q)) cs) ->
  Forall (safe_at j) cs -> string_V (m_rc r) cs j v ->
  exists r', uncached r' = uncached r /\
    (Rabs (v - x) < / 10 ^ 6 /\ setVoltage_iterative sops v (inr (mkM r cs)) = (inr (mkM r' cs), Ok Success) \/
     / 10 ^ 6 <= Rabs (v - x) /\ setVoltage_iterative sops v (inr (mkM r cs)) = (inr (mkM r' (map (carrying j) cs)), Ok Success)).
Proof.
  intros r cs i x v j q H HR Hq Q0 T1 T2 Sj Vj. destruct (given r cs i x H) as [B EV].
  assert (O : Forall (fun c => exists o, ecm_OCV (u_ecm c) = Ok o) cs) by apply B.
  apply (chain_volt r cs j v O) in Vj.
  assert (EJ : (b_e (as_chain (r, cs)) - v) / b_r (as_chain (r, cs)) = j).
  { rewrite Vj. unfold bvolt. field. cbn [as_chain b_r fst snd]. lra. }
  destruct (secant sops chain_br chain_ok chain_V chain_I chain_Cap chain_set v (inr (mkM r cs)) (as_chain (r, cs)) i B HR ltac:(cbn; lra))
    as (s' & j' & E & B' & D).
  - unfold chain_ok, trial. rewrite EV. cbn [as_chain b_t b_c snd fst]. rewrite <- Hq. destruct (Rlt_dec x v); [apply T1; lra|apply T2; lra].
  - rewrite EJ. exact Sj.
  - rewrite EV in D. rewrite E. destruct B' as (_ & _ & r' & -> & U & _). exists r'. split; [exact U|]. cbn [as_chain b_t snd].
    destruct D as [[D ->]|[D EJ']]; [left|right]; (split; [exact D|]).
    + assert (EC : map (carrying i) cs = cs).
      { destruct H as (_ & _ & _ & H4 & _). clear -H4. induction H4 as [|c l E _ IH]; [reflexivity|]. cbn. rewrite IH, <- E, carrying_self. reflexivity. }
      rewrite EC. reflexivity.
    + assert (j' = j); [|subst; reflexivity]. rewrite <- EJ, <- EJ'. unfold bvolt. field. cbn [as_chain b_r fst snd]. lra.
Qed.
(** ** Strings in parallel *)
Lemma chains (P : R -> Prop) v D l : Forall (fun s => exists R0, P R0 /\ string_near v D R0 s) l -> exists bs is,
  brs chain_br l bs is /\ Forall (fun b => P (b_r b)) bs /\ Forall (near v D) (volts bs is) /\
  Forall (fun b => forall j, near v D (bvolt b j) -> chain_ok b j) bs /\
  Forall2 (fun s b => exists r cs, s = inr (mkM r cs) /\ b = as_chain (r, cs)) l bs.
Proof.
  induction 1 as [|s l (R0 & H0 & r & cs & i & x & -> & HS & HD & HR & HJ) _ (bs & is & IH1 & IH2 & IH3 & IH4 & IH5)].
  - exists [], []. repeat split; constructor.
  - destruct (given r cs i x HS) as [B EV]. exists (as_chain (r, cs) :: bs), (i :: is). split; [constructor; auto|].
    split; [constructor; [cbn [as_chain b_r fst snd]; rewrite HR; exact H0|exact IH2]|].
    split; [constructor; [unfold near; rewrite EV; exact HD|exact IH3]|].
    split; constructor; eauto. intros j N. unfold chain_ok. cbn [as_chain b_t snd]. apply (HJ j (bvolt (as_chain (r, cs)) j)); [|exact N].
    apply chain_volt; [apply B|reflexivity].
Qed.

(** Strings in parallel, 200 times the resistance of a string between [k] and [2 - k]. *)
Theorem C94_strings : forall k v D rc l, 0 <= k <= 1 -> 0 <= D -> (length l <= 100)%nat -> length rc = length l -> Forall (fun r => r = 0) rc ->
  Forall (fun s => exists R0, k <= 200 * R0 <= 2 - k /\ string_near v D R0 s) l -> INR (length l) * D * (1 - k) ^ 49 < / 10 ^ 10 ->
  exists l', p_setVoltage sops v rc l = (l', Ok Success) /\ Forall2 (fun s s' => exists j, string_carrying j s s') l l' /\
    Forall (fun s' => exists s2 y, o_V sops s' = (s2, Ok y) /\ Rabs (v - y) < / 10 ^ 10) l'.
Proof.
  intros k v D rc l Hk HD N Lr Z H T. destruct (chains (fun R0 => k <= 200 * R0 <= 2 - k) v D l H) as (bs & is & B & HF & W & OK & F).
  destruct (set_voltage sops chain_br chain_ok chain_V chain_I chain_set k v D rc l bs is Hk HF B Lr Z N HD OK W T) as (l' & is' & E & B' & _ & Q).
  exists l'. split; [exact E|]. split.
  - clear -F B'. revert l' is' B'. induction F as [|s b l bs (r & cs & -> & ->) _ IH]; intros l' is' B'; inversion B' as [|? ? ? ? ? ? (_ & _ & r' & -> & U & _) B1]; subst; [constructor|].
    constructor; [|eauto]. eexists _, r, cs, r'. repeat split; auto.
  - rewrite spread_R in Q. generalize dependent (/ 10 ^ 10). intros q _ Q. clear -B' Q.
    assert (P : forall l : list R, 0 <= Rsum (map (fun x => Rabs (v - x)) l)).
    { induction l as [|x l IH]; cbn; [lra|]. assert (0 <= Rabs (v - x)) by apply Rabs_pos. lra. }
    induction B' as [|s l b bs i is H _ IH]; [constructor|]. unfold volts in *. cbn [combine map Rsum] in Q.
    constructor.
    + destruct (chain_V _ _ _ H) as (s' & E & _). exists s', (bvolt b i). split; [exact E|]. specialize (P (map (fun '(b, i) => bvolt b i) (combine bs is))). lra.
    + apply IH. assert (X := Rabs_pos (v - bvolt b i)). lra.
Qed.

(** Finding: strings of 10 milliohm, such as five default cells without contact resistance, mirror at the target. *)
Theorem C94_strings_refuted : forall v D rc l xs, (length l <= 100)%nat -> length rc = length l -> Forall (fun r => r = 0) rc ->
  Forall (string_near v D (1 / 100)) l -> Forall2 (fun s x => exists s', o_V sops s = (s', Ok x)) l xs ->
  / 10 ^ 10 <= Rsum (map (fun x => Rabs (v - x)) xs) ->
  exists l', p_setVoltage sops v rc l = (l', Ok RedistributeCurrent_failed).
Proof.
  intros v D rc l xs N Lr Z H F T. destruct (chains (fun R0 => 200 * R0 = 2) v D l) as (bs & is & B & HF & W & OK & _).
  { eapply Forall_impl; [|exact H]. intros s X. exists (1 / 100). split; [lra|exact X]. }
  apply (mirror_forever sops chain_br chain_ok chain_V chain_I chain_set v D rc l bs is HF B Lr Z N OK W).
  rewrite spread_R. replace (volts bs is) with xs; [exact T|]. clear -B F. revert xs F.
  induction B as [|s l b bs i is H _ IH]; intros xs F; inversion F as [|? x ? xs' (s' & E) F']; subst; [reflexivity|].
  unfold volts in *. cbn [combine map]. f_equal; [|auto]. destruct (chain_V _ _ _ H) as (s2 & E2 & _). congruence.
Qed.
End Strings.
Print Assumptions C94_series.
Print Assumptions C94_strings.
Print Assumptions C94_strings_refuted.

(** Concrete packs of full default cells. *)
Lemma Rsum_repeat (x : R) n : Rsum (repeat x n) = INR n * x.
Proof. induction n as [|n IH]; [cbn; lra|]. rewrite S_INR. cbn [repeat Rsum]. rewrite IH. ring. Qed.
Lemma Forall_same {X} (P : X -> Prop) x n : P x -> Forall P (repeat x n).
Proof. intros H. induction n; constructor; auto. Qed.
Lemma full_at j i : ecm_V (u_ecm (carrying j (ex_cell 10 1 i))) = Ok (chi - 2 / 1000 * j).
Proof. change (carrying j (ex_cell 10 1 i)) with (ex_cell 10 1 j). apply full_V. Qed.
Lemma full_str n j i x : string_V (repeat 0 n) (repeat (ex_cell 10 1 i) n) j x <-> x = INR n * (chi - 2 / 1000 * j).
Proof.
  assert (F : Forall2 (fun c u => ecm_V (u_ecm (carrying j c)) = Ok u) (repeat (ex_cell 10 1 i) n) (repeat (chi - 2 / 1000 * j) n)).
  { induction n; constructor; [apply full_at|auto]. }
  split.
  - intros (us & F' & ->). replace us with (repeat (chi - 2 / 1000 * j) n); [rewrite !Rsum_repeat; ring|].
    revert us F'. induction F as [|c u l vs E _ IH]; intros us F'; inversion F'; subst; [reflexivity|]. f_equal; [congruence|auto].
  - intros ->. eexists. split; [exact F|]. rewrite !Rsum_repeat. ring.
Qed.
Lemma full_safe i j : 0 <= j <= 1150 -> safe_at j (ex_cell 10 1 i).
Proof.
  intros H. exists (chi - 2 / 1000 * j). split; [apply full_at|]. destruct (full_par 10 i) as (_ & _ & E1 & E2). rewrite E1, E2. unfold chi. lra.
Qed.
Lemma full_is n i : (1 <= n <= 100)%nat -> 0 <= i <= 1000 ->
  is_string (ex_rec true (repeat 0 n) n) (repeat (ex_cell 10 1 i) n) i (INR n * (chi - 2 / 1000 * i)).
Proof.
  intros N H. repeat split.
  - cbn [ex_rec m_rc]. rewrite !repeat_length. reflexivity.
  - rewrite repeat_length. lia.
  - rewrite repeat_length. lia.
  - apply Forall_same. reflexivity.
  - apply Forall_same. eexists. split; [apply full_V|]. unfold chi. lra.
  - cbn [ex_rec m_rc]. apply full_str. reflexivity.
  - cbn. discriminate.
Qed.
Lemma full_R n i : string_R (repeat 0 n) (repeat (ex_cell 10 1 i) n) = INR n * (2 / 1000).
Proof.
  unfold string_R. rewrite Rsum_repeat. assert (X : map (fun c => p_Rdc (ep (u_ecm c))) (repeat (ex_cell (A := R) 10 1 i) n) = repeat (2 / 1000) n).
  { destruct (full_par 10 i) as (_ & E & _). induction n as [|n IH]; [reflexivity|]. cbn [repeat map]. rewrite E, IH. reflexivity. }
  rewrite X, Rsum_repeat. ring.
Qed.

Example C94_parallel_inhabited : let l := [ex_cell 10 1 1; ex_cell 10 1 3] in let v := chi - 1 / 100 in let D := 1 / 100 in
  Forall (in_limits (v - D) (v + D)) l /\ Forall (between (v - D) (v + D)) l /\ Forall (fun c => 2 / 5 <= 200 * p_Rdc (ep (u_ecm c)) <= 2 - 2 / 5) l /\
  INR (length l) * D * (1 - 2 / 5) ^ 49 < / 10 ^ 10.
Proof.
  cbv zeta. split; [|split; [|split]].
  - repeat apply Forall_cons; try apply Forall_nil; (split; [eexists; apply full_OCV|]);
      (match goal with |- context [ex_cell 10 1 ?i] => destruct (full_par 10 i) as (_ & _ & E1 & E2) end); rewrite E1, E2; unfold chi; lra.
  - repeat apply Forall_cons; try apply Forall_nil; (eexists; split; [apply full_V|]; unfold chi; lra).
  - repeat apply Forall_cons; try apply Forall_nil;
      (match goal with |- context [ex_cell 10 1 ?i] => destruct (full_par 10 i) as (_ & E & _) end); rewrite E; lra.
  - cbn [length INR]. lra.
Qed.
(** A cell with 10 milliohm. *)
Definition cell10m : ecmu R := let c := u_ecm (ex_cell 10 1 1) in
  mkEu false (mkEcm (mkEpar 10 (1 / 100) (p_Rp (ep c)) (p_itau (ep c)) (p_ocv (ep c)) (p_lim (ep c)) (p_Tmin (ep c)) (p_Tmax (ep c))) (es c)).
Example C94_mirror_inhabited : let v := chi - 2 / 100 in let D := 2 / 100 in in_limits (v - D) (v + D) cell10m /\ between (v - D) (v + D) cell10m /\
  p_Rdc (ep (u_ecm cell10m)) = 1 / 100 /\ exists x, ecm_V (u_ecm cell10m) = Ok x /\ / 10 ^ 10 <= Rabs (v - x).
Proof.
  cbv zeta. assert (O : ecm_OCV (u_ecm cell10m) = Ok chi) by (change (ecm_OCV (u_ecm cell10m)) with (ecm_OCV (u_ecm (ex_cell 10 1 1))); apply full_OCV).
  assert (V : ecm_V (u_ecm cell10m) = Ok (chi - 1 / 100)).
  { unfold ecm_V. rewrite O, sub_drops_pol. f_equal. change (p_Rdc (ep (u_ecm cell10m))) with (1 / 100). cbn [cell10m ex_cell u_ecm es e_I e_Ir]. unfold pol. cbn. lra. }
  destruct (full_par 10 1) as (_ & _ & E1 & E2). split; [|split; [|split]].
  - split; [eexists; exact O|]. change (p_lim (ep (u_ecm cell10m))) with (p_lim (ep (u_ecm (ex_cell (A := R) 10 1 1)))). rewrite E1, E2. unfold chi. lra.
  - eexists. split; [exact V|]. lra.
  - reflexivity.
  - eexists. split; [exact V|]. rewrite Rabs_left; lra.
Qed.
(** Twenty cells at 1 A, commanded to the voltage they show at 5 A; and from there the trial currents. *)
Example C94_series_inhabited : let r := ex_rec true (repeat 0 20) 20 in let cs := repeat (ex_cell 10 1 1) 20 in
  is_string r cs 1 (20 * (chi - 2 / 1000)) /\ 0 < string_R (m_rc r) cs /\ lmin (map (fun c => p_cap (ep (u_ecm c))) cs) = 10 /\
  Forall (safe_at (1 - 1 / 100 * 10)) cs /\ Forall (safe_at (1 + 1 / 100 * 10)) cs /\ Forall (safe_at 5) cs /\
  string_V (m_rc r) cs 5 (20 * (chi - 1 / 100)) /\ / 10 ^ 6 <= Rabs (20 * (chi - 1 / 100) - 20 * (chi - 2 / 1000)).
Proof.
  cbv zeta. assert (E20 : INR 20 = 20) by (cbn; ring). split; [|split; [|split; [|split; [|split; [|split; [|split]]]]]].
  - replace (20 * (chi - 2 / 1000)) with (INR 20 * (chi - 2 / 1000 * 1)) by (rewrite E20; lra). apply full_is; [lia|lra].
  - cbn [ex_rec m_rc]. rewrite full_R, E20. lra.
  - transitivity (lmin (repeat 10 20)); [|apply lmin_repeat; lia]. f_equal.
  - apply Forall_same, full_safe. lra.
  - apply Forall_same, full_safe. lra.
  - apply Forall_same, full_safe. lra.
  - cbn [ex_rec m_rc]. apply full_str. rewrite E20. lra.
  - rewrite Rabs_left; lra.
Qed.
Lemma full_near n i v D : (1 <= n <= 100)%nat -> 0 <= i <= 1000 -> Rabs (v - INR n * (chi - 2 / 1000 * i)) <= D -> INR n * 2 <= v - D -> v + D <= INR n * chi ->
  string_near v D (INR n * (2 / 1000)) (inr (mkM (ex_rec true (repeat 0 n) n) (repeat (ex_cell 10 1 i) n))).
Proof.
  intros N H HD H1 H2. eexists _, _, i, _. split; [reflexivity|]. split; [apply full_is; auto|]. split; [exact HD|]. split; [apply full_R|].
  intros j y Hy W. cbn [ex_rec m_rc] in Hy. apply full_str in Hy. subst y. apply Forall_same, full_safe.
  apply near_within in W. assert (P : 0 < INR n) by (apply lt_0_INR; lia). unfold chi in *. split; apply (Rmult_le_reg_l (INR n)); lra.
Qed.
(** Two strings of two cells in parallel settle; two strings of five do not. *)
Definition pair_of (n : nat) : list (su R (ecmu R) 1) :=
  [inr (mkM (ex_rec true (repeat 0 n) n) (repeat (ex_cell 10 1 1) n)); inr (mkM (ex_rec true (repeat 0 n) n) (repeat (ex_cell 10 1 3) n))].
Example C94_strings_inhabited : let v := 2 * (chi - 1 / 100) in let D := 2 / 100 in
  Forall (fun s => exists R0, 4 / 5 <= 200 * R0 <= 2 - 4 / 5 /\ string_near v D R0 s) (pair_of 2) /\
  INR (length (pair_of 2)) * D * (1 - 4 / 5) ^ 49 < / 10 ^ 10.
Proof.
  cbv zeta. assert (E2 : INR 2 = 2) by (cbn; ring). split; [|cbn [length pair_of INR]; lra].
  repeat apply Forall_cons; try apply Forall_nil; (exists (INR 2 * (2 / 1000)); split; [rewrite E2; lra|]);
    (apply full_near; [lia|lra| | |]); rewrite E2; try (unfold chi; lra); apply Rabs_le; lra.
Qed.
Example C94_strings_refuted_inhabited : let v := 5 * (chi - 1 / 100) in let D := 5 / 100 in
  Forall (string_near v D (1 / 100)) (pair_of 5) /\
  Forall2 (fun s x => exists s', o_V (su_ops_at ecm_ops 0 1) s = (s', Ok x)) (pair_of 5) [5 * (chi - 2 / 1000); 5 * (chi - 6 / 1000)] /\
  / 10 ^ 10 <= Rsum (map (fun x => Rabs (v - x)) [5 * (chi - 2 / 1000); 5 * (chi - 6 / 1000)]).
Proof.
  cbv zeta. assert (E5 : INR 5 = 5) by (cbn; ring). split; [|split].
  - assert (ER : 1 / 100 = INR 5 * (2 / 1000)) by (rewrite E5; lra).
    pattern (1 / 100) at 2. rewrite ER. cbv beta.
    repeat apply Forall_cons; try apply Forall_nil; (apply full_near; [lia|lra| | |]); rewrite E5; try (unfold chi; lra); apply Rabs_le; lra.
  - repeat constructor.
    + destruct (given _ _ 1 _ (full_is 5 1 ltac:(lia) ltac:(lra))) as [B E]. destruct (chain_V 0 _ _ _ B) as (s' & E' & _). exists s'. rewrite E' , E. do 2 f_equal. rewrite E5. lra.
    + destruct (given _ _ 3 _ (full_is 5 3 ltac:(lia) ltac:(lra))) as [B E]. destruct (chain_V 0 _ _ _ B) as (s' & E' & _). exists s'. rewrite E' , E. do 2 f_equal. rewrite E5. lra.
  - cbn [map Rsum]. rewrite !Rabs_left by lra. lra.
Qed.

(** Finding, in double precision: a trial current that a cell refuses destroys the state. One full cell of 160 Ah in
    series mode carries 1 A at 4.298 V; 4.2999 V is within reach, at 0.05 A. The trial current of -0.6 A would exceed the
    upper limit and is refused, the slope becomes a division by zero, and the command ends with failure and a module
    whose current and voltage are not numbers. *)
Definition refuser : su f64 (ecmu f64) 1 := inr (mkM (ex_rec true [nZ 0] 1) [ex_cell (nZ 160) (nZ 1) (nZ 1)]).
Theorem C94_trial_refuted : let o := su_ops_at (A := f64) ecm_ops 0 1 in let v := nlit 42999 10000 in
  (exists s1 s2 x, o_setCurrent o (nlit 5 100) true refuser = (s1, Ok Success) /\ o_V o s1 = (s2, Ok x) /\ (nabs (v - x) <? nlit 1 1000000)%num = true) /\
  exists s' s2, setVoltage_iterative o v refuser = (s', Ok RedistributeCurrent_failed) /\ nnan (o_I o s') = true /\ exists x, o_V o s' = (s2, Ok x) /\ nnan x = true.
Proof.
  cbv zeta. split.
  - eexists _, _, _. split; [vm_compute; reflexivity|]. split; [vm_compute; reflexivity|]. vm_compute. reflexivity.
  - eexists _, _. split; [vm_compute; reflexivity|]. split; [vm_compute; reflexivity|]. eexists. split; vm_compute; reflexivity.
Qed.
Print Assumptions C94_trial_refuted.
