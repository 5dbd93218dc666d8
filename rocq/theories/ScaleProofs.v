(** * Proofs about batteries of identical cells *)
From Coq Require Import List Lia Reals Lra.
From Verif Require Import Base RFacts StatusModel StatusProofs UtilModel CellModel CellSpec CellProofs CoolModel ModuleModel ModuleSpec ModuleProofs ModuleProofs3 ModuleProofs5 ModuleProofs6
  CyclerModel PackModel ScaleSpec.
Import ListNotations.
Local Open Scope R_scope.
Notation ops tm n := (su_ops_at (A := R) ecm_ops tm n).
Notation tree n := (su R (ecmu R) n).

(** ** Likeness *)
Lemma like_refl c : like c c.
Proof. split; [reflexivity|]. destruct c as [b [p [T s i ir t a w]]]. reflexivity. Qed.
Lemma like_V c d : like c d -> ecm_V (u_ecm d) = ecm_V (u_ecm c).
Proof. intros (E1 & E2). unfold ecm_V, ecm_OCV. rewrite E1, E2. reflexivity. Qed.
Lemma like_check c d : like c d -> ecm_checkVoltage (u_ecm d) = ecm_checkVoltage (u_ecm c).
Proof. intros L. unfold ecm_checkVoltage. rewrite (like_V c d L). destruct L as (E1 & E2). rewrite E1, E2. reflexivity. Qed.
Lemma like_I c d : like c d -> e_I (es (u_ecm d)) = e_I (es (u_ecm c)).
Proof. intros (E1 & E2). rewrite E2. reflexivity. Qed.
Lemma like_at c d j : like c d -> like (at_current c j) (at_current d j).
Proof. intros (E1 & E2). unfold like, at_current. cbn. split; [exact E1|]. rewrite E2. reflexivity. Qed.

Lemma shape_refl n (u : tree n) : same_shape n u u.
Proof. apply st_refl. auto. Qed.
Lemma shape_trans n (u v w : tree n) : same_shape n u v -> same_shape n v w -> same_shape n u w.
Proof. apply st_trans3. auto. Qed.
Lemma shape_sym n : forall u v : tree n, same_shape n u v -> same_shape n v u.
Proof.
  unfold same_shape. induction n as [|n IH]; intros u v H; [exact Logic.I|].
  node u c m; node v c' m'; cbn in *; auto. destruct H as (H1 & H2). split; [congruence|].
  induction H2; constructor; auto.
Qed.
Lemma shape_of P n (u v : tree n) : same_tree P n u v -> same_shape n u v.
Proof. apply same_tree_impl. auto. Qed.
Definition alike n (l : list (tree n)) : Prop := forall s t, In s l -> In t l -> same_shape n s t.
Lemma Forall2_in_r {X Y} (P : X -> Y -> Prop) l l' y : Forall2 P l l' -> In y l' -> exists x, In x l /\ P x y.
Proof. induction 1 as [|a b l l' H F IH]; intros Hy; [destruct Hy|]. destruct Hy as [<-|Hy]; [exists a; cbn; auto|]. destruct (IH Hy) as (x & I1 & I2). exists x. cbn. auto. Qed.
Lemma alike_step n l l' : alike n l -> Forall2 (same_shape n) l l' -> alike n l'.
Proof.
  intros A F s t Hs Ht. destruct (Forall2_in_r _ _ _ _ F Hs) as (s0 & I1 & S1). destruct (Forall2_in_r _ _ _ _ F Ht) as (t0 & I2 & S2).
  eapply shape_trans; [apply shape_sym; exact S1|]. eapply shape_trans; [apply A; [exact I1|exact I2]|exact S2].
Qed.

(** ** The battery's voltage in terms of the cell's *)
Fixpoint tv (n : nat) (v : R) : tree n -> R :=
  match n return tree n -> R with
  | O => fun _ => v
  | S n' => fun u =>
      match (u : ecmu R + module R (tree n')) with
      | inl _ => v
      | inr m => match ms m with
                 | [] => 0
                 | s :: _ => if m_series (mm m) then (if Rle_dec (tv n' v s) 0 then 0 else INR (length (ms m)) * tv n' v s) else tv n' v s
                 end
      end
  end.
Lemma tv_shape n v : forall a b : tree n, same_shape n a b -> tv n v a = tv n v b.
Proof.
  unfold same_shape. induction n as [|n IH]; intros a b H; [reflexivity|].
  node a c m; node b c' m'; cbn in H |- *; try (reflexivity || contradiction). destruct H as (H1 & H2).
  assert (L := Forall2_len _ _ _ H2). destruct H2 as [|s t l l' Hst F]; [reflexivity|]. cbn in L |- *. rewrite (IH _ _ Hst), H1. 
  replace (length l') with (length l) by lia. reflexivity.
Qed.
Lemma INR_pos k : k <> 0%nat -> 0 < INR k.
Proof. intros. apply lt_0_INR. lia. Qed.
Lemma rep_pos n : forall (u : tree n) k p c, replica n u k p c -> k <> 0%nat /\ p <> 0%nat.
Proof.
  induction n as [|n IH]; intros u k p c H; [destruct H as (-> & -> & _); lia|].
  node u d m; cbn in H; [destruct H as (-> & -> & _); lia|]. destruct H as (H1 & H2 & H3 & H4 & H5).
  destruct (ms m) as [|s l]; [congruence|]. destruct (m_series (mm m)).
  - destruct H5 as (k' & -> & F). assert (H6 := Forall_inv F). cbn beta in H6. destruct (IH _ _ _ _ H6). cbn [length]. nia.
  - destruct H5 as (p' & -> & F & _). assert (H6 := Forall_inv F). cbn beta in H6. destruct (IH _ _ _ _ H6). cbn [length]. nia.
Qed.
Lemma tv_pos n v : 0 < v -> forall (u : tree n) k p c, replica n u k p c -> tv n v u = INR k * v.
Proof.
  intros Hv. induction n as [|n IH]; intros u k p c H; [destruct H as (-> & _); cbn; lra|].
  node u d m; cbn in H |- *; [destruct H as (-> & _); cbn; lra|]. destruct H as (H1 & H2 & H3 & H4 & H5).
  destruct (ms m) as [|s l]; [congruence|]. destruct (m_series (mm m)).
  - destruct H5 as (k' & -> & F). assert (H6 := Forall_inv F). cbn beta in H6. rewrite (IH _ _ _ _ H6).
    assert (0 < INR k') by (apply INR_pos; apply rep_pos in H6; tauto).
    destruct (Rle_dec _ 0) as [L|_]; [nra|]. rewrite mult_INR. lra.
  - destruct H5 as (p' & -> & F & _). eapply IH; exact (Forall_inv F).
Qed.
Lemma tv_neg n v : v <= 0 -> forall (u : tree n), tv n v u <= 0.
Proof.
  intros Hv. induction n as [|n IH]; intros u; [exact Hv|]. node u d m; cbn; [exact Hv|].
  destruct (ms m) as [|s l]; [lra|]. destruct (m_series (mm m)); [|apply IH]. specialize (IH s). destruct (Rle_dec _ 0); lra.
Qed.

(** ** Current *)
Lemma Rsum_const {X} (f : X -> R) x l : Forall (fun s => f s = x) l -> Rsum (map f l) = INR (length l) * x.
Proof. induction 1 as [|s l H F IH]; cbn [map length Rsum fold_right]; [cbn; lra|]. rewrite S_INR. change (f s + Rsum (map f l) = (INR (length l) + 1) * x). rewrite IH, H. lra. Qed.
Lemma rep_I tm n : forall (u : tree n) k p c, replica n u k p c -> o_I (ops tm n) u = INR p * e_I (es (u_ecm c)).
Proof.
  induction n as [|n IH]; intros u k p c H.
  { destruct H as (-> & -> & L). cbn. unfold ecm_I. rewrite (like_I _ _ L). lra. }
  node u d m; cbn [replica] in H; cbn [su_ops_at sum_ops o_I both mod_ops].
  { destruct H as (-> & -> & L). cbn. unfold ecm_I. rewrite (like_I _ _ L). lra. }
  destruct H as (H1 & H2 & H3 & H4 & H5). unfold mod_I. destruct (m_series (mm m)).
  - destruct H5 as (k' & -> & F). destruct F as [|s l F1 F2]; [congruence|]. eapply IH; eassumption.
  - destruct H5 as (p' & -> & F & _). rewrite R_nsum, mult_INR.
    rewrite (Rsum_const _ (INR p' * e_I (es (u_ecm c)))); [lra|]. eapply Forall_impl; [|exact F]. intros s Hs. eapply IH; exact Hs.
Qed.

(** ** Voltage *)
Lemma rep_V tm n : forall (u u' : tree n) k p c r, replica n u k p c -> o_V (ops tm n) u = (u', r) ->
  replica n u' k p c /\ forall x, r = Ok x -> exists v, ecm_V (u_ecm c) = Ok v /\ x = tv n v u.
Proof.
  induction n as [|n IH]; intros u u' k p c r H E.
  { destruct H as (-> & -> & L). cbn in E. injection E as <- <-. split; [repeat split; apply L|]. intros x Ex. rewrite (like_V _ _ L) in Ex. exists x. auto. }
  node u d m; cbn [replica] in H; cbn [su_ops_at sum_ops o_V both mod_ops] in E.
  { destruct H as (-> & -> & L). cbn in E. unfold on_l in E. injection E as <- <-. split; [repeat split; apply L|]. intros x Ex. rewrite (like_V _ _ L) in Ex. exists x. auto. }
  destruct H as (H1 & H2 & H3 & H4 & H5). unfold on_r in E. destruct (mod_V _ m) as (m' & r') eqn:EV. injection E as <- <-.
  unfold mod_V in EV. destruct (m_series (mm m)) eqn:Es.
  - destruct H5 as (k' & Ek & F). destruct (m_Vok (mm m)) eqn:Eo.
    { injection EV as <- <-. split; [cbn [replica]; rewrite Es; repeat split; auto; exists k'; auto|]. intros x [= <-].
      destruct (H4 eq_refl eq_refl) as (v & Ev & Hv & Em). exists v. split; [exact Ev|]. rewrite Em. symmetry. eapply (tv_pos (S n)); [exact Hv|].
      cbn [replica]. rewrite Es. repeat split; eauto. }
    assert (G : forall l acc l' a e, Forall (fun s => replica n s k' p c) l -> sV_loop (ops tm n) acc l (repeat 0 (length l)) = (l', a, e) ->
      Forall (fun s => replica n s k' p c) l' /\ length l' = length l /\
      (e = Ok true -> l <> [] -> exists v, ecm_V (u_ecm c) = Ok v /\ 0 < v /\ a = acc + INR (length l) * (INR k' * v)) /\
      (e = Ok false -> exists v, ecm_V (u_ecm c) = Ok v /\ v <= 0)).
    { clear - IH. induction l as [|s l IHl]; intros acc l' a e F E; cbn [sV_loop repeat length] in E.
      { injection E as <- <- <-. repeat split; auto; congruence. }
      inversion F as [|? ? F1 F2]; subst. destruct (o_V (ops tm n) s) as (s' & r) eqn:ES. destruct (IH _ _ _ _ _ _ F1 ES) as (J1 & J2).
      destruct r as [x| | |]; try (injection E as <- <- <-; cbn; repeat split; auto; discriminate).
      destruct (J2 x eq_refl) as (v & Ev & Ex).
      assert (Hk : 0 < INR k') by (apply INR_pos; apply rep_pos in F1; tauto).
      destruct (nleb x (nZ 0)) eqn:EL.
      { injection E as <- <- <-. cbn. repeat split; auto; try discriminate. intros _. exists v. split; [exact Ev|].
        rewrite R_nZ in EL. apply Rleb_true in EL. destruct (Rle_dec v 0); [lra|]. rewrite (tv_pos n v) with (k := k') (p := p) (c := c) in Ex by (assumption || lra). nra. }
      rewrite R_nZ in EL. apply Rleb_false in EL. destruct (Rle_dec v 0) as [Hn|Hp]; [pose proof (tv_neg n v Hn s); lra|].
      rewrite (tv_pos n v) with (k := k') (p := p) (c := c) in Ex by (assumption || lra).
      destruct (sV_loop _ _ l _) as ((l'' & a'') & e'') eqn:EQ. injection E as <- <- <-.
      destruct (IHl _ _ _ _ F2 EQ) as (K1 & K2 & K3 & K4). cbn [length]. repeat split; auto.
      - intros -> _. exists v. split; [exact Ev|]. split; [lra|]. destruct l as [|s2 l2].
        + cbn in EQ. injection EQ as <- <-. cbn. lra.
        + destruct (K3 eq_refl ltac:(discriminate)) as (v' & Ev' & _ & ->). assert (v' = v) by congruence. subst v'.
          cbn [nadd nsub nmul RNum]. rewrite S_INR. rewrite Ex. lra. }
    rewrite H3 in EV. destruct (sV_loop _ _ _ _) as ((l & acc) & e) eqn:EQ. destruct (G _ _ _ _ _ F EQ) as (K1 & K2 & K3 & K4).
    assert (NE : l <> []) by (intros ->; destruct (ms m); [congruence|discriminate]).
    assert (C : forall r, m_series r = true -> m_rc r = repeat 0 (length l) -> m_Vok r = false -> replica (S n) (inr (mkM r l)) k p c).
    { intros r0 R1 R2 R3. cbn [replica mm ms]. rewrite R1, R3, K2. repeat split; auto; try congruence; try lia. exists k'. auto. }
    destruct e as [[|]| | |]; injection EV as <- <-; cbn [cast].
    + destruct (K3 eq_refl H1) as (v & Ev & Hv & Ea). rewrite R_nZ in Ea.
      assert (EV : acc = INR k * v) by (rewrite Ek, mult_INR, Ea; lra).
      split.
      * cbn [replica mm ms set_V m_series m_rc m_Vok m_V]. rewrite Es, K2. repeat split; auto; try lia. { exists v. auto. } exists k'. auto.
      * intros x [= <-]. exists v. split; [exact Ev|]. rewrite EV. symmetry. eapply (tv_pos (S n)); [exact Hv|]. cbn [replica]. rewrite Es. repeat split; eauto.
    + split; [apply C; auto; cbn; congruence|]. intros x [= <-]. destruct (K4 eq_refl) as (v & Ev & Hv). exists v. split; [exact Ev|].
      cbn [tv]. destruct (ms m) as [|s0 l0]; [congruence|]. rewrite Es. destruct (Rle_dec _ 0) as [_|N]; [lra|]. pose proof (tv_neg n v Hv s0). lra.
    + split; [apply C; auto; cbn; congruence|]. discriminate.
    + split; [apply C; auto; cbn; congruence|]. discriminate.
    + split; [apply C; auto; cbn; congruence|]. discriminate.
  - destruct H5 as (p' & Ep & F & SH). destruct (ms m) as [|s l] eqn:El; [congruence|]. rewrite H3 in EV. cbn [length repeat] in EV.
    inversion F as [|? ? F1 F2]; subst. destruct (o_V (ops tm n) s) as (s' & r0) eqn:ES. destruct (IH _ _ _ _ _ _ F1 ES) as (J1 & J2).
    assert (SS : same_shape n s s') by (eapply shape_of; exact (proj2 (V_leaves tm n _ _ _ ES))).
    assert (C : replica (S n) (inr (mkM (mm m) (s' :: l))) k (length (s :: l) * p') c).
    { cbn [replica mm ms]. rewrite Es. repeat split; auto; try discriminate. exists p'. repeat split; auto.
      eapply alike_step; [exact SH|]. constructor; [exact SS|]. apply Forall2_refl. apply shape_refl. }
    destruct r0 as [x| | |]; injection EV as <- <-; (split; [exact C|]); try discriminate.
    intros y [= <-]. destruct (J2 x eq_refl) as (v & Ev & Ex). exists v. split; [exact Ev|]. cbn [nsub nmul RNum]. rewrite Ex. cbn [tv]. rewrite El, Es. lra.
Qed.

(** Branch voltages of parallel modules *)
Lemma rep_getVall_from tm n k p c : forall (l l' : list (tree n)) r, Forall (fun s => replica n s k p c) l ->
  getVall_from (ops tm n) l (repeat 0 (length l)) = (l', r) ->
  Forall (fun s => replica n s k p c) l' /\ Forall2 (same_shape n) l l' /\
  (forall vs ic, r = Ok (vs, ic) -> exists v, (l <> [] -> ecm_V (u_ecm c) = Ok v) /\ vs = map (fun s => tv n v s) l).
Proof.
  induction l as [|s l IHl]; intros l' r F E; cbn [getVall_from repeat length] in E.
  { injection E as <- <-. split; [constructor|]. split; [constructor|]. intros vs ic [= <- <-]. exists 0. split; [congruence|reflexivity]. }
  assert (RF : Forall2 (same_shape n) l l) by (apply Forall2_refl, shape_refl).
  destruct (getVall_from _ l _) as (l2 & r2) eqn:E2. destruct (IHl _ _ (Forall_inv_tail F) eq_refl) as (K1 & K2 & K3).
  assert (K := Forall_inv F). cbn beta in K.
  destruct r2 as [[vs ic]| | |];
    try (injection E as <- <-; split; [constructor; auto|]; split; [constructor; [apply shape_refl|exact K2]|]; discriminate).
  destruct (o_V (ops tm n) s) as (s' & rv) eqn:EV. destruct (rep_V tm n _ _ _ _ _ _ K EV) as (J1 & J2).
  assert (SS : same_shape n s s') by (eapply shape_of; exact (proj2 (V_leaves tm n _ _ _ EV))).
  destruct rv as [x| | |]; injection E as <- <-; (split; [constructor; auto|]); (split; [constructor; auto|]); try discriminate.
  intros vs0 ic0 [= <- <-]. destruct (J2 x eq_refl) as (v & Ev & Ex). exists v. split; [auto|].
  destruct (K3 _ _ eq_refl) as (v' & Ev' & Evs). cbn [map nsub nmul RNum]. f_equal; [rewrite Ex; lra|].
  rewrite Evs, map_map. apply map_ext_in. intros a Ha. assert (v' = v) as -> by (destruct l; [destruct Ha|]; specialize (Ev' ltac:(discriminate)); congruence). lra.
Qed.
Lemma map_const {X} (f : X -> R) y l : (forall a, In a l -> f a = y) -> map f l = repeat y (length l).
Proof. induction l as [|a l IH]; intros H; [reflexivity|]. cbn [map length repeat]. rewrite (H a) by now left. f_equal. apply IH. intros b Hb. apply H. now right. Qed.
Lemma rep_getVall tm n k p c (l l' : list (tree n)) r : Forall (fun s => replica n s k p c) l -> alike n l -> l <> [] ->
  getVall (ops tm n) l (repeat 0 (length l)) = (l', r) ->
  Forall (fun s => replica n s k p c) l' /\ Forall2 (same_shape n) l l' /\
  (forall vs, r = Ok vs -> exists v y, ecm_V (u_ecm c) = Ok v /\ vs = repeat y (length l)).
Proof.
  intros F A NE E. unfold getVall in E. destruct (Nat.ltb _ _).
  { injection E as <- <-. split; [exact F|]. split; [apply Forall2_refl, shape_refl|discriminate]. }
  destruct (getVall_from _ l _) as (l2 & r2) eqn:E2. injection E as <- <-. destruct (rep_getVall_from _ _ _ _ _ _ _ _ F E2) as (K1 & K2 & K3).
  split; [exact K1|]. split; [exact K2|]. intros vs H. destruct r2 as [[vs0 ic]| | |]; try discriminate. injection H as <-.
  destruct (K3 _ _ eq_refl) as (v & Ev & ->). destruct l as [|s l]; [congruence|]. exists v, (tv n v s). split; [apply Ev; discriminate|].
  apply map_const. intros a Ha. apply tv_shape. apply A; [exact Ha|now left].
Qed.

Lemma Rsum_repeat x n : Rsum (repeat x n) = INR n * x.
Proof. induction n as [|n IH]; [cbn; lra|]. rewrite S_INR. change (x + Rsum (repeat x n) = (INR n + 1) * x). rewrite IH. lra. Qed.
Lemma spread_const y n : n <> 0%nat -> spread (vmean (repeat y n)) (repeat y n) = 0.
Proof.
  intros Hn. assert (0 < INR n) by now apply INR_pos. unfold spread, vmean. rewrite !R_nsum, R_nnat, repeat_length, Rsum_repeat.
  cbn [ndiv nsub nabs RNum]. replace (INR n * y / INR n) with y by (field; lra).
  rewrite (Rsum_const _ 0); [lra|]. apply Forall_forall. intros x Hx. apply repeat_spec in Hx. subst x. replace (y - y) with 0 by lra. apply Rabs_R0.
Qed.
Lemma balance_const {X} (o : su_ops R X) iter (tol : R) rc Ia y (l : list X) : iter <> 0%nat -> l <> [] -> 0 < tol ->
  p_balance o iter tol rc Ia (repeat y (length l)) l = (l, Ok (Some Ia)).
Proof.
  intros H1 H2 H3. destruct iter as [|it]; [congruence|]. cbn [p_balance]. rewrite spread_const by (destruct l; [congruence|discriminate]).
  rewrite (proj2 (Rltb_true 0 tol)) by exact H3. reflexivity.
Qed.

(** ** Heat *)
Lemma rep_rec n (m : module R (tree n)) r k p c : m_series r = m_series (mm m) -> m_rc r = m_rc (mm m) -> (m_Vok r = true -> m_Vok (mm m) = true /\ m_V r = m_V (mm m)) ->
  replica (S n) (inr m) k p c -> replica (S n) (inr (mkM r (ms m))) k p c.
Proof.
  intros E1 E2 E3 (H1 & H2 & H3 & H4 & H5). cbn [replica mm ms]. rewrite E1, E2. repeat split; auto.
  intros Hs Hr. destruct (E3 Hr) as (E4 & E5). rewrite E5. auto.
Qed.
Lemma rep_children n (m : module R (tree n)) l r k p c : m_series r = m_series (mm m) -> m_rc r = m_rc (mm m) ->
  (m_Vok r = true -> m_Vok (mm m) = true /\ m_V r = m_V (mm m)) ->
  replica (S n) (inr m) k p c -> Forall2 (fun s s' => same_shape n s s' /\ forall k p, replica n s k p c -> replica n s' k p c) (ms m) l ->
  replica (S n) (inr (mkM r l)) k p c.
Proof.
  intros E1 E2 E3 (H1 & H2 & H3 & H4 & H5) F. cbn [replica mm ms]. rewrite E1, E2. assert (L := Forall2_len _ _ _ F). rewrite <- L.
  split; [intros ->; destruct (ms m); [congruence|discriminate]|]. split; [exact H2|]. split; [exact H3|]. split.
  { intros Hs Hr. destruct (E3 Hr) as (E4 & E5). rewrite E5. auto. }
  assert (T : forall k p, Forall (fun s => replica n s k p c) (ms m) -> Forall (fun s => replica n s k p c) l).
  { clear - F. induction F as [|a b la lb (_ & Hab) F IH]; intros k p G; inversion G; subst; constructor; auto. }
  destruct (m_series (mm m)); [destruct H5 as (k' & -> & G); exists k'; auto|].
  destruct H5 as (p' & -> & G & SH). exists p'. split; [reflexivity|]. split; [auto|]. eapply alike_step; [exact SH|].
  eapply Forall2_impl; [|exact F]. intros s s' (H & _). exact H.
Qed.
Definition invis n (s s' : tree n) : Prop := same_shape n s s' /\ forall k p c, replica n s k p c -> replica n s' k p c.
Lemma invis_refl n s : invis n s s.
Proof. split; [apply shape_refl|auto]. Qed.
Lemma invis_trans n a b c : invis n a b -> invis n b c -> invis n a c.
Proof. intros (H1 & H2) (H3 & H4). split; [eapply shape_trans; eauto|auto]. Qed.
Lemma inv_setT tm n t (u u' : tree n) r : o_setT (ops tm n) t u = (u', r) -> invis n u u'.
Proof.
  assert (L : forall d d' r, o_setT ecm_ops t d = (d', r) -> forall c, like c d -> like c d').
  { intros d d' r0 E c (E1 & E2). cbn in E. injection E as <- <-. split; [exact E1|]. cbn. rewrite E2. reflexivity. }
  intros E. split; [eapply shape_of, setT_IT; exact E|]. intros k p c H. destruct n as [|n].
  - destruct H as (H1 & H2 & H3). split; [exact H1|]. split; [exact H2|]. eapply L; [exact E|exact H3].
  - node u d m; cbn [su_ops_at sum_ops o_setT both mod_ops] in E; unfold on_l, on_r in E.
    + destruct (o_setT ecm_ops t d) as (d' & r') eqn:Ed. injection E as <- <-. destruct H as (H1 & H2 & H3). split; [exact H1|]. split; [exact H2|]. eapply L; [exact Ed|exact H3].
    + unfold mod_setT in E. destruct (cool_setT t (m_cool (mm m))) as (kk & r'). injection E as <- <-. eapply rep_rec; [| | |exact H]; cbn; auto.
Qed.
Lemma inv_th tm n : (forall nb t (u u' : tree n) r, o_thermal (ops tm n) nb t u = (u', r) -> invis n u u') ->
  forall s s', th_rel (ops tm n) s s' -> invis n s s'.
Proof.
  intros K. induction 1 as [s|nb t s s' H IHr|t s s' H IHr]; [apply invis_refl| |].
  - destruct (o_thermal (ops tm n) nb t s) as [s1 r1] eqn:E1. apply K in E1. eapply invis_trans; eauto.
  - destruct (o_setT (ops tm n) t s) as [s1 r1] eqn:E1. apply inv_setT in E1. eapply invis_trans; eauto.
Qed.
Lemma inv_thermal tm n : forall nb t (u u' : tree n) r, o_thermal (ops tm n) nb t u = (u', r) -> invis n u u'.
Proof.
  induction n as [|n IH]; intros nb t u u' r H; [cbn in H; injection H as <- <-; apply invis_refl|].
  assert (SH := shape_of _ _ _ _ (thermal_IT tm (S n) nb t u u' r H)).
  node u c m; cbn [su_ops_at sum_ops o_thermal both mod_ops] in H; unfold on_l, on_r in H.
  - cbn in H. injection H as <- <-. apply invis_refl.
  - destruct (mod_thermal _ tm nb t m) as [[r' l'] x] eqn:E. injection H as <- <-. apply mod_thermal_frame in E. cbn [ms mm] in E. destruct E as [E1 F].
    split; [exact SH|]. intros k p c Hr. destruct F as (F1 & F2 & _ & _ & _ & F6 & F7 & _). eapply rep_children; [exact F1|exact F2| |exact Hr|].
    + intros Hk. split; congruence.
    + eapply Forall2_impl; [|exact E1]. intros s s' Hs. destruct (inv_th tm n (IH) s s' Hs) as (G1 & G2). split; auto.
Qed.

(** ** Time steps *)
Transparent setCurrent_iterations redistribute_iterations.
Lemma iter_r : redistribute_iterations <> 0%nat.
Proof. unfold redistribute_iterations. intros E. apply (f_equal Z.of_nat) in E. rewrite Z2Nat.id in E by lia. discriminate. Qed.
Lemma iter_s : setCurrent_iterations <> 0%nat.
Proof. unfold setCurrent_iterations. intros E. apply (f_equal Z.of_nat) in E. rewrite Z2Nat.id in E by lia. discriminate. Qed.
Opaque setCurrent_iterations redistribute_iterations.
Lemma like_steps n dt : forall c d d', like c d -> ecm_steps n dt (u_ecm d) = (u_ecm d', Ok tt) ->
  exists c', ecm_steps n dt (u_ecm c) = (u_ecm c', Ok tt) /\ like c' d' /\ u_block c' = u_block c.
Proof.
  induction n as [|n IH]; intros c d d' L E; cbn [ecm_steps] in *.
  { injection E as E. exists c. split; [reflexivity|]. split; [|reflexivity]. unfold like in *. now rewrite <- E. }
  destruct (ecm_step1 dt (u_ecm d)) as (d1 & r1) eqn:E1. destruct r1 as [[]| | |]; try discriminate.
  assert (X : exists c1, ecm_step1 dt (u_ecm c) = (c1, Ok tt) /\ like (mkEu (u_block c) c1) (mkEu (u_block d) d1)).
  { clear E IH. destruct L as (L1 & L2). destruct c as [bc [pc [Tc s i ir t a w]]], d as [bd [pd [Td sd id ird td ad wd]]]. cbn in L1, L2. subst pd.
    injection L2 as -> -> -> -> -> ->. unfold ecm_step1, ecm_V, ecm_OCV in *. cbn [u_ecm ep es e_SOC e_I e_Ir e_T e_time e_Ah e_Wh] in *.
    destruct (XYdata_interp _ _) as [ocv| | |]; try discriminate; cbn [rmap rbind] in *; injection E1 as <-; eexists; (split; [reflexivity|]); split; reflexivity. }
  destruct X as (c1 & X1 & X2). rewrite X1. destruct (IH _ _ d' X2 E) as (c' & Y1 & Y2 & Y3). exists c'. split; [exact Y1|]. split; [exact Y2|exact Y3].
Qed.
Lemma like_step dt q c d d' : like c d -> o_timeStep ecm_ops dt q d = (d', Ok tt) -> exists c', o_timeStep ecm_ops dt q c = (c', Ok tt) /\ like c' d'.
Proof.
  intros L E. cbn [o_timeStep ecm_ops] in *. unfold lift_ecm, ecm_timeStep_CC in *. destruct (nltb dt (nZ 0)); [discriminate|].
  destruct (ecm_steps _ dt (u_ecm d)) as (d1 & r) eqn:E1. injection E as <- ->.
  destruct (like_steps _ dt c d (mkEu (u_block d) d1) L E1) as (c' & X1 & X2 & X3). exists c'. rewrite X1. split; [|exact X2]. rewrite <- X3. destruct c'; reflexivity.
Qed.
Lemma rep_redistribute tm n k p c (l l' : list (tree n)) st : Forall (fun s => replica n s k p c) l -> alike n l -> l <> [] ->
  p_redistribute (ops tm n) (repeat 0 (length l)) l = (l', Ok st) -> Forall (fun s => replica n s k p c) l' /\ Forall2 (same_shape n) l l' /\ st = Success.
Proof.
  intros F A NE E. unfold p_redistribute in E. destruct (Nat.leb _ _).
  { injection E as <- <-. split; [exact F|]. split; [apply Forall2_refl, shape_refl|reflexivity]. }
  destruct (Nat.ltb _ _); [discriminate|]. destruct (getVall _ l _) as (l1 & [vs| | |]) eqn:EG; try discriminate.
  destruct (rep_getVall _ _ _ _ _ _ _ _ F A NE EG) as (K1 & K2 & K3). destruct (K3 _ eq_refl) as (v & y & Ev & ->).
  rewrite (Forall2_len _ _ _ K2) in E. rewrite balance_const in E.
  - injection E as <- <-. auto.
  - exact iter_r.
  - intros ->. inversion K2; subst. congruence.
  - rewrite R_nlit. lra.
Qed.
Lemma rep_step tm n dt q : forall (u u' : tree n) k p c, replica n u k p c -> o_timeStep (ops tm n) dt q u = (u', Ok tt) ->
  exists c', o_timeStep ecm_ops dt q c = (c', Ok tt) /\ replica n u' k p c'.
Proof.
  induction n as [|n IH]; intros u u' k p c H E.
  { destruct H as (-> & -> & L). destruct (like_step dt q c u u' L E) as (c' & E1 & E2). exists c'. split; [exact E1|]. repeat split; apply E2. }
  node u d m; cbn [su_ops_at sum_ops o_timeStep both mod_ops] in E; unfold on_l, on_r in E.
  { destruct (o_timeStep ecm_ops dt q d) as (d' & r) eqn:Ed. injection E as <- ->. destruct H as (-> & -> & L).
    destruct (like_step dt q c d d' L Ed) as (c' & E1 & E2). exists c'. split; [exact E1|]. repeat split; apply E2. }
  destruct (mod_timeStep _ tm dt q m) as (m' & r) eqn:Em. injection E as <- ->. cbn [replica] in H. destruct H as (H1 & H2 & H3 & H4 & H5).
  destruct (mod_timeStep_ok _ _ _ _ _ _ Em) as (l1 & l2 & us & G1 & G2 & G3 & r & G4 & G5 & G6).
  assert (S12 : forall k p c, Forall (fun s => replica n s k p c) l1 -> Forall (fun s => replica n s k p c) l2).
  { clear - G2. intros k p c F. induction G2 as [|a b la lb Hab G IH]; inversion F; subst; constructor; auto.
    apply (inv_th tm n (inv_thermal tm n) _ _ Hab). assumption. }
  assert (SH12 : Forall2 (same_shape n) l1 l2).
  { eapply Forall2_impl; [|exact G2]. intros s s' Hs. apply (inv_th tm n (inv_thermal tm n) _ _ Hs). }
  assert (S01 : forall k p, Forall (fun s => replica n s k p c) (ms m) -> exists c', o_timeStep ecm_ops dt q c = (c', Ok tt) /\ Forall (fun s => replica n s k p c') l1).
  { intros k0 p0 F. assert (X : forall l l1 us, l <> [] -> Forall (fun s => replica n s k0 p0 c) l -> each (o_timeStep (ops tm n) dt q) l = (l1, Ok us) ->
      exists c', o_timeStep ecm_ops dt q c = (c', Ok tt) /\ Forall (fun s => replica n s k0 p0 c') l1).
    { clear - IH. induction l as [|s l IHl]; intros l1 us NE F E; [congruence|]. cbn [each] in E.
      destruct (o_timeStep (ops tm n) dt q s) as (s' & [[]| | |]) eqn:Es; try discriminate.
      destruct (IH _ _ _ _ _ (Forall_inv F) Es) as (c' & C1 & C2).
      destruct (each _ l) as (l2 & [us2| | |]) eqn:El; try discriminate. injection E as <- <-. exists c'. split; [exact C1|]. constructor; [exact C2|].
      destruct l as [|s2 l0]; [cbn in El; injection El as <- <-; constructor|].
      destruct (IHl _ _ ltac:(discriminate) (Forall_inv_tail F) eq_refl) as (c2 & D1 & D2). assert (c2 = c') as <- by congruence. exact D2. }
    exact (X _ _ _ H1 F G1). }
  assert (SH01 : Forall2 (same_shape n) (ms m) l1).
  { clear - G1. revert l1 us G1. induction (ms m) as [|s l IHl]; intros l1 us E; cbn [each] in E; [injection E as <- <-; constructor|].
    destruct (o_timeStep (ops tm n) dt q s) as (s' & [[]| | |]) eqn:Es; try discriminate.
    destruct (each _ l) as (l2 & [us2| | |]) eqn:El; try discriminate. injection E as <- <-. constructor; [|eapply IHl; reflexivity].
    eapply shape_of, advanced_all; exact Es. }
  assert (L2 : length l2 = length (ms m)) by (rewrite <- (Forall2_len _ _ _ SH12); symmetry; exact (Forall2_len _ _ _ SH01)).
  assert (NE2 : l2 <> []) by (intros ->; destruct (ms m); [congruence|discriminate]).
  destruct G6 as (F1 & F2 & _). destruct (m_series (mm m)) eqn:Es.
  - destruct H5 as (k' & -> & F). destruct (S01 _ _ F) as (c' & C1 & C2). exists c'. split; [exact C1|]. cbn [replica]. rewrite G3, G5. cbn [m_series m_rc m_Vok inval set_V].
    rewrite F1, F2, H3, L2. repeat split; auto; try discriminate. exists k'. auto.
  - destruct H5 as (p' & -> & F & SH). destruct (S01 _ _ F) as (c' & C1 & C2). exists c'. split; [exact C1|].
    assert (A2 : alike n l2) by (eapply alike_step; [eapply alike_step; [exact SH|exact SH01]|exact SH12]).
    unfold mod_timeStep, step_children in Em. destruct (nltb dt (nZ 0)); [discriminate|]. rewrite G1, G4, Es in Em. cbn [mm ms inval set_V m_rc] in Em.
    rewrite F2, H3, <- L2 in Em. destruct (p_redistribute _ _ l2) as (l3 & [st| | |]) eqn:E3; try discriminate.
    destruct (rep_redistribute _ _ _ _ _ _ _ _ (S12 _ _ _ C2) A2 NE2 E3) as (K1 & K2 & ->). cbn [status_eqb] in Em.
    change (status_eqb Success Success) with true in Em. cbv iota in Em. injection Em as <-. assert (L3 := Forall2_len _ _ _ K2).
    cbn [replica mm ms m_series m_rc m_Vok set_V inval]. rewrite F1, F2, H3, <- L3, L2. repeat split; auto; try discriminate.
    + intros ->. destruct l2; [congruence|discriminate].
    + exists p'. repeat split; auto. eapply alike_step; [exact A2|exact K2].
Qed.

(** ** Setting the current *)
Lemma Forall_set {X} (P : X -> Prop) (l : list X) i x : Forall P l -> P x -> Forall P (list_set l i x).
Proof. revert i. induction l as [|a l IH]; intros i F H; destruct i; cbn; auto; inversion F; subst; constructor; auto. Qed.
Section Same.
Context {S : Type} (o : su_ops R S) (P : S -> Prop) (X : R).
Context (HP : forall s s' b st, P s -> o_setCurrent o X b s = (s', Ok st) -> P s') (HI : forall s, P s -> o_I o s = X).
Lemma restore_same : forall i olds l l', Forall (eq X) olds -> Forall P l -> s_restore o i olds l = (l', Ok tt) -> Forall P l'.
Proof.
  induction i as [|i IH]; intros olds l l' Ho F E; cbn [s_restore] in E; [injection E as <-; exact F|].
  destruct (nth_error olds (Datatypes.S i)) as [x|] eqn:Ex; [|discriminate]. apply nth_error_In in Ex. rewrite Forall_forall in Ho. rewrite <- (Ho _ Ex) in E.
  destruct (child_do _ _ l) as (l1 & [st| | |]) eqn:Ec; try discriminate. apply child_do_spec in Ec. destruct Ec as [(s & s' & E1 & E2 & ->)|(_ & _ & ?)]; [|discriminate].
  eapply IH; [apply Forall_forall; exact Ho| |exact E]. apply Forall_set; [exact F|]. eapply HP; [|exact E2]. rewrite Forall_forall in F. apply F. eapply nth_error_In; exact E1.
Qed.
Lemma set_same chk : forall todo i olds l l' st, Forall (eq X) olds -> Forall P l -> s_setCurrent o todo i X chk olds l = (l', Ok st) -> Forall P l'.
Proof.
  induction todo as [|todo IH]; intros i olds l l' st Ho F E; cbn [s_setCurrent] in E; [injection E as <- <-; exact F|].
  destruct (Nat.leb _ _); [discriminate|]. destruct (nth_error l i) as [s|] eqn:Es; [|discriminate].
  assert (Ps : P s) by (rewrite Forall_forall in F; apply F; eapply nth_error_In; exact Es).
  assert (Ho' : Forall (eq X) (olds ++ [o_I o s])) by (apply Forall_app; split; [exact Ho|]; constructor; [symmetry; now apply HI|constructor]).
  destruct (child_do _ i l) as (l1 & [st1| | |]) eqn:Ec; try discriminate. apply child_do_spec in Ec. destruct Ec as [(s0 & s' & E1 & E2 & ->)|(_ & _ & ?)]; [|discriminate].
  assert (s0 = s) as -> by congruence. assert (F' : Forall P (list_set l i s')) by (apply Forall_set; [exact F|eapply HP; eauto]).
  destruct (isStatusBad st1).
  - destruct (s_restore o i _ _) as (l2 & [[]| | |]) eqn:Er; try discriminate. injection E as <- <-. eapply restore_same; [exact Ho'|exact F'|exact Er].
  - eapply IH; [exact Ho'|exact F'|exact E].
Qed.
End Same.
Lemma p_first_same tm n k p c : (forall (s s' : tree n) b st, replica n s k p c -> o_setCurrent (ops tm n) (INR p * e_I (es (u_ecm c))) b s = (s', Ok st) -> replica n s' k p c) ->
  forall (l l' : list (tree n)) st r, Forall (fun s => replica n s k p c) l -> p_first (ops tm n) 0 (map (o_I (ops tm n)) l) st l = (l', Ok r) ->
  Forall (fun s => replica n s k p c) l' /\ Forall2 (same_shape n) l l'.
Proof.
  intros HP. induction l as [|s l IH]; intros l' st r F E; cbn [p_first map] in E; [injection E as <- <-; split; constructor|].
  assert (Fs := Forall_inv F). cbn beta in Fs. rewrite (rep_I tm n s k p c Fs) in E. cbn [nadd RNum] in E. rewrite Rplus_0_r in E.
  destruct (o_setCurrent _ _ true s) as (s' & rs) eqn:Es. assert (SS := shape_of _ _ _ _ (setCurrent_frame_tree tm n _ _ _ _ _ Es)).
  destruct rs as [st1| | |]; try discriminate. assert (Fs' := HP _ _ _ _ Fs Es). destruct (isStatusOK st1).
  - destruct (p_first _ _ _ _ l) as (l2 & r2) eqn:E2. destruct r2 as [[x y]| | |]; try discriminate. injection E as <- <-.
    destruct (IH _ _ _ (Forall_inv_tail F) E2) as (K1 & K2). split; constructor; auto.
  - injection E as <- <-. split; constructor; auto; [apply (Forall_inv_tail F)|apply Forall2_refl, shape_refl].
Qed.
Lemma rep_same tm n : forall (u u' : tree n) k p c chk st, replica n u k p c ->
  o_setCurrent (ops tm n) (INR p * e_I (es (u_ecm c))) chk u = (u', Ok st) -> replica n u' k p c.
Proof.
  assert (L : forall c d d' chk st, like c d -> o_setCurrent ecm_ops (1 * e_I (es (u_ecm c))) chk d = (d', Ok st) -> like c d').
  { intros c d d' chk st L E. assert (d' = d); [|now subst]. pose proof (leaf_setCurrent_frame _ _ _ _ _ E) as O. apply (only_I_eq _ _ O). clear O.
    cbn [ecm_ops o_setCurrent] in E. unfold lift_ecm, ecm_setCurrent in E. rewrite <- (like_I _ _ L), Rmult_1_l in E. destruct (ecm_checkCurrent _ _) as [s| | |]; try discriminate.
    injection E as <- <-. destruct (isStatusBad s); reflexivity. }
  induction n as [|n IH]; intros u u' k p c chk st H E.
  { destruct H as (-> & -> & Lk). split; [reflexivity|]. split; [reflexivity|]. eapply L; [exact Lk|exact E]. }
  node u d m; cbn [su_ops_at sum_ops o_setCurrent both mod_ops] in E; unfold on_l, on_r in E.
  { destruct (o_setCurrent ecm_ops _ chk d) as (d' & r) eqn:Ed. injection E as <- ->. destruct H as (-> & -> & Lk). split; [reflexivity|]. split; [reflexivity|].
    eapply L; [exact Lk|exact Ed]. }
  destruct (mod_setCurrent _ _ chk m) as (m' & r) eqn:Em. injection E as <- ->. cbn [replica] in H. destruct H as (H1 & H2 & H3 & H4 & H5).
  unfold mod_setCurrent in Em. destruct (m_series (mm m)) eqn:Es.
  - destruct H5 as (k' & -> & F). destruct (s_setCurrent _ _ _ _ _ _ _) as (l & r) eqn:El. injection Em as <- ->.
    assert (LL : length (ms m) = length l) by (eapply Forall2_len; exact (s_setCurrent_curs _ _ _ _ _ _ _ _ _ El)).
    assert (G : Forall (fun s => replica n s k' p c) l).
    { eapply (set_same (ops tm n) (fun s => replica n s k' p c) (INR p * e_I (es (u_ecm c)))); [| | |exact F|exact El].
      - intros s s' b st0 Hs E. eapply IH; [exact Hs|exact E].
      - intros s Hs. eapply rep_I; exact Hs.
      - constructor. }
    cbn [replica mm ms m_series m_rc m_Vok inval set_V]. rewrite Es, H3, <- LL. repeat split; auto; try discriminate; [intros ->; destruct (ms m); [congruence|discriminate]|exists k'; auto].
  - destruct H5 as (p' & -> & F & SH). destruct (p_setCurrent _ _ _ _) as (l & r) eqn:El. injection Em as <- ->.
    assert (G : Forall (fun s => replica n s k p' c) l /\ Forall2 (same_shape n) (ms m) l).
    { unfold p_setCurrent in El. destruct (Nat.ltb _ _); [discriminate|].
      assert (D : (((INR (length (ms m) * p') * e_I (es (u_ecm c)))%R - nsum (map (o_I (ops tm n)) (ms m))) / nnat (length (ms m)))%num = 0).
      { rewrite R_nsum, R_nnat, (Rsum_const _ (INR p' * e_I (es (u_ecm c)))).
        - cbn [nsub ndiv RNum]. rewrite mult_INR. unfold Rdiv. apply Rmult_eq_0_compat_r. ring.
        - eapply Forall_impl; [|exact F]. intros s Hs. eapply rep_I; exact Hs. }
      rewrite D in El. destruct (p_first _ _ _ _ _) as (l1 & [[Ia1 st1]| | |]) eqn:Ef; try discriminate.
      destruct (p_first_same tm n k p' c (fun s s' b st0 Hs E => IH s s' k p' c b st0 Hs E) _ _ _ _ F Ef) as (K1 & K2).
      destruct (isStatusOK st1); [|injection El as <- <-; auto].
      assert (NE1 : l1 <> []) by (intros ->; inversion K2; congruence). assert (L1 := Forall2_len _ _ _ K2).
      rewrite H3, L1 in El. destruct (getVall _ l1 _) as (l2 & [vs| | |]) eqn:EG; try discriminate.
      destruct (rep_getVall _ _ _ _ _ _ _ _ K1 (alike_step _ _ _ SH K2) NE1 EG) as (J1 & J2 & J3). destruct (J3 _ eq_refl) as (v & y & Ev & ->).
      assert (L2 := Forall2_len _ _ _ J2). rewrite L2 in El. rewrite balance_const in El; [|exact iter_s|intros ->; inversion J2; congruence|rewrite R_nlit; lra].
      injection El as <- <-. split; [exact J1|]. eapply Forall2_trans; [exact (shape_trans n)|exact K2|exact J2]. }
    destruct G as (G1 & G2). assert (LL := Forall2_len _ _ _ G2). cbn [replica mm ms]. rewrite Es, <- LL. repeat split; auto; try discriminate.
    + intros ->. destruct (ms m); [congruence|discriminate].
    + exists p'. repeat split; auto. eapply alike_step; [exact SH|exact G2].
Qed.

Section New.
Context {S : Type} (o : su_ops R S) (P Q : S -> Prop) (X : R) (chk : bool) (bad : Prop).
Context (HS : forall s s' st, P s -> o_setCurrent o X chk s = (s', Ok st) -> (st = Success /\ Q s') \/ (isStatusBad st = true /\ bad)).
Lemma set_status : forall todo i olds l l' st, s_setCurrent o todo i X chk olds l = (l', Ok st) -> st = Success \/ isStatusBad st = true.
Proof.
  induction todo as [|todo IH]; intros i olds l l' st E; cbn [s_setCurrent] in E; [injection E as <- <-; auto|].
  destruct (Nat.leb _ _); [discriminate|]. destruct (nth_error l i); [|discriminate]. destruct (child_do _ i l) as (l1 & [st1| | |]); try discriminate.
  destruct (isStatusBad st1) eqn:B; [|eapply IH; exact E]. destruct (s_restore o i _ _) as (l2 & [[]| | |]); try discriminate. injection E as <- <-. auto.
Qed.
Lemma set_bad : forall todo i olds l l' st, (forall j s, (i <= j)%nat -> nth_error l j = Some s -> P s) ->
  s_setCurrent o todo i X chk olds l = (l', Ok st) -> isStatusBad st = true -> bad.
Proof.
  induction todo as [|todo IH]; intros i olds l l' st F E B; cbn [s_setCurrent] in E; [injection E as <- <-; discriminate|].
  destruct (Nat.leb _ _); [discriminate|]. destruct (nth_error l i) as [s|] eqn:Es; [|discriminate].
  destruct (child_do _ i l) as (l1 & [st1| | |]) eqn:Ec; try discriminate. apply child_do_spec in Ec. destruct Ec as [(s0 & s' & E1 & E2 & ->)|(_ & _ & ?)]; [|discriminate].
  destruct (isStatusBad st1) eqn:B1.
  - destruct (HS s0 s' st1) as [(-> & _)|(_ & K)]; auto; [eapply F; [|exact E1]; lia|discriminate].
  - eapply IH; [|exact E|exact B]. intros j t Hj Hn. rewrite nth_error_list_set in Hn. destruct (Nat.eqb_spec i j); [lia|]. eapply F; [|exact Hn]. lia.
Qed.
Lemma set_new l l' st : Forall P l -> s_setCurrent o (length l) 0 X chk [] l = (l', Ok st) -> (st = Success /\ Forall Q l') \/ (isStatusBad st = true /\ bad).
Proof.
  intros F E. destruct (isStatusBad st) eqn:B.
  - right. split; [reflexivity|]. eapply set_bad; [|exact E|exact B]. intros j s _ Hn. rewrite Forall_forall in F. apply F. eapply nth_error_In; exact Hn.
  - left. destruct (set_status _ _ _ _ _ _ E) as [->|]; [|congruence]. split; [reflexivity|].
    destruct (s_setCurrent_ok _ _ _ _ _ _ _ _ _ E B) as (_ & LL & K). apply Forall_forall. intros s' Hs. apply In_nth_error in Hs. destruct Hs as (j & Hj).
    assert (Lj : (j < length l)%nat) by (rewrite <- LL; apply nth_error_Some; congruence).
    destruct (K j ltac:(lia)) as (s & s2 & stj & N1 & N2 & N3 & N4). assert (s2 = s') as -> by congruence.
    destruct (HS s s' stj) as [(_ & Qs)|(B2 & _)]; auto; [|congruence]. rewrite Forall_forall in F. apply F. eapply nth_error_In; exact N1.
Qed.
Lemma first_new : chk = true -> forall dI l Ia st l' r, Forall P l -> Forall2 (fun s ia => ia + dI = X) l Ia -> p_first o dI Ia st l = (l', Ok r) ->
  (Forall Q l' /\ (snd r = st \/ snd r = Success)) \/ (isStatusBad (snd r) = true /\ bad).
Proof.
  intros EC dI l. induction l as [|s l IH]; intros Ia st l' r F G E; cbn [p_first] in E; [injection E as <- <-; left; split; [constructor|now left]|].
  destruct Ia as [|ia Ia']; [inversion G|]. assert (HG : ia + dI = X /\ Forall2 (fun _ ia => ia + dI = X) l Ia') by (inversion G; auto). destruct HG as (Hia & G').
  cbn [nadd RNum] in E. rewrite Hia in E. destruct (o_setCurrent o X true s) as (s' & rs) eqn:Es.
  destruct rs as [st1| | |]; try discriminate. rewrite <- EC in Es. destruct (HS s s' st1 (Forall_inv F) Es) as [(-> & Qs)|(B & K)].
  - change (isStatusOK Success) with true in E. cbv iota in E. destruct (p_first o dI Ia' Success l) as (l2 & r2) eqn:E2. destruct r2 as [[x y]| | |]; try discriminate.
    injection E as <- <-. destruct (IH _ _ _ _ (Forall_inv_tail F) G' E2) as [(K1 & K2)|K]; [|right; exact K]. left. split; [constructor; auto|]. cbn in K2 |- *. right. tauto.
  - unfold isStatusBad in B. destruct (isStatusOK st1) eqn:B1; [discriminate|]. injection E as <- <-. right. cbn. unfold isStatusBad. rewrite B1. auto.
Qed.
End New.
Lemma rep_set tm n : forall (u u' : tree n) k p c chk j st, replica n u k p c ->
  (forall v s, ecm_checkVoltage (u_ecm (at_current c j)) = Ok (v, s) -> s = Success \/ isStatusBad s = true) ->
  o_setCurrent (ops tm n) (INR p * j) chk u = (u', Ok st) ->
  (st = Success /\ replica n u' k p (at_current c j)) \/ (isStatusBad st = true /\ ~ accepts c j).
Proof.
  assert (L : forall c d d' chk j st, like c d -> (forall v s, ecm_checkVoltage (u_ecm (at_current c j)) = Ok (v, s) -> s = Success \/ isStatusBad s = true) ->
    o_setCurrent ecm_ops (1 * j) chk d = (d', Ok st) -> (st = Success /\ like (at_current c j) d') \/ (isStatusBad st = true /\ ~ accepts c j)).
  { intros c d d' chk j st L H E. rewrite Rmult_1_l in E. cbn [ecm_ops o_setCurrent] in E. unfold lift_ecm, ecm_setCurrent in E.
    assert (La := like_at c d j L). assert (Ck := like_check _ _ La). unfold ecm_checkCurrent in E. destruct chk.
    - change (mkEcm (ep (u_ecm d)) (with_I (es (u_ecm d)) j)) with (u_ecm (at_current d j)) in E. rewrite Ck in E. destruct (ecm_checkVoltage (u_ecm (at_current c j))) as [[v s]| | |] eqn:C; try discriminate. cbn [rmap rbind snd] in E.
      injection E as <- <-. destruct (H v s eq_refl) as [->|B]; [left; split; [reflexivity|exact La]|]. right. rewrite B. split; [reflexivity|]. intros (v' & A).
      rewrite C in A. injection A as _ ->. discriminate.
    - change (isStatusBad Success) with false in E. injection E as <- <-. left. split; [reflexivity|exact La]. }
  induction n as [|n IH]; intros u u' k p c chk j st H Hs E.
  { destruct H as (-> & -> & Lk). destruct (L _ _ _ _ _ _ Lk Hs E) as [(K1 & K2)|K]; [left|right; exact K]. split; [exact K1|]. repeat split; apply K2. }
  node u d m; cbn [su_ops_at sum_ops o_setCurrent both mod_ops] in E; unfold on_l, on_r in E.
  { destruct (o_setCurrent ecm_ops _ chk d) as (d' & r) eqn:Ed. injection E as <- ->. destruct H as (-> & -> & Lk).
    destruct (L _ _ _ _ _ _ Lk Hs Ed) as [(K1 & K2)|K]; [left|right; exact K]. split; [exact K1|]. repeat split; apply K2. }
  destruct (mod_setCurrent _ _ chk m) as (m' & r) eqn:Em. injection E as <- ->. cbn [replica] in H. destruct H as (H1 & H2 & H3 & H4 & H5).
  unfold mod_setCurrent in Em. destruct (m_series (mm m)) eqn:Es.
  - destruct H5 as (k' & -> & F). destruct (s_setCurrent _ _ _ _ _ _ _) as (l & r) eqn:El. injection Em as <- ->.
    assert (LL : length (ms m) = length l) by (eapply Forall2_len; exact (s_setCurrent_curs _ _ _ _ _ _ _ _ _ El)).
    destruct (set_new (ops tm n) (fun t => replica n t k' p c) (fun t => replica n t k' p (at_current c j)) (INR p * j) chk (~ accepts c j)
      (fun t t' st0 Ht E => IH t t' k' p c chk j st0 Ht Hs E) _ _ _ F El) as [(-> & G)|K]; [left|right; exact K].
    split; [reflexivity|]. cbn [replica mm ms m_series m_rc m_Vok inval set_V]. rewrite Es, H3, <- LL.
    repeat split; auto; try discriminate; [intros ->; destruct (ms m); [congruence|discriminate]|exists k'; auto].
  - destruct H5 as (p' & -> & F & SH). destruct (p_setCurrent _ _ _ _) as (l & r) eqn:El. injection Em as <- ->.
    assert (LN : 0 < INR (length (ms m))) by (apply INR_pos; destruct (ms m); [congruence|discriminate]).
    unfold p_setCurrent in El. destruct (Nat.ltb _ _); [discriminate|]. set (dI := (_ / _)%num) in El.
    destruct (p_first _ _ _ _ _) as (l1 & [[Ia1 st1]| | |]) eqn:Ef; try discriminate.
    assert (SH1 : Forall2 (same_shape n) (ms m) l1).
    { apply p_first_curs in Ef. eapply Forall2_impl; [|exact Ef]. induction 1 as [t|t t' K IK|i b t t' K IK]; [apply shape_refl| |].
      - destruct (o_V (ops tm n) t) as [t1 r1] eqn:E1. destruct (V_leaves _ _ _ _ _ E1) as [_ J]. eapply shape_trans; [eapply shape_of; exact J|exact IK].
      - destruct (o_setCurrent (ops tm n) i b t) as [t1 r1] eqn:E1. eapply shape_trans; [eapply shape_of, setCurrent_frame_tree; exact E1|exact IK]. }
    assert (D : Forall2 (fun t ia => ia + dI = INR p' * j) (ms m) (map (o_I (ops tm n)) (ms m))).
    { assert (D : dI = INR p' * j - INR p' * e_I (es (u_ecm c))).
      { unfold dI. rewrite R_nsum, R_nnat, (Rsum_const _ (INR p' * e_I (es (u_ecm c)))).
        - cbn [nsub ndiv RNum]. rewrite mult_INR. field. lra.
        - eapply Forall_impl; [|exact F]. intros t Ht. eapply rep_I; exact Ht. }
      clearbody dI. clear - F D. induction F as [|t l Ht F IHl]; cbn [map]; [constructor|]. constructor; [|exact IHl]. rewrite (rep_I tm n t k p' c Ht), D. lra. }
    destruct (first_new (ops tm n) (fun t => replica n t k p' c) (fun t => replica n t k p' (at_current c j)) (INR p' * j) true (~ accepts c j)
      (fun t t' st0 Ht E => IH t t' k p' c true j st0 Ht Hs E) eq_refl _ _ _ _ _ _ F D Ef) as [(K1 & K2)|(B & K)].
    + cbn [snd] in K2. assert (st1 = Success) as -> by tauto. change (isStatusOK Success) with true in El. cbv iota in El. left.
      assert (NE1 : l1 <> []) by (intros ->; inversion SH1; congruence). assert (L1 := Forall2_len _ _ _ SH1).
      rewrite H3, L1 in El. destruct (getVall _ l1 _) as (l2 & [vs| | |]) eqn:EG; try discriminate.
      assert (A1 := alike_step _ _ _ SH SH1).
      destruct (rep_getVall _ _ _ _ _ _ _ _ K1 A1 NE1 EG) as (J1 & J2 & J3). destruct (J3 _ eq_refl) as (v2 & y & Ev & ->).
      assert (L2 := Forall2_len _ _ _ J2). rewrite L2 in El. rewrite balance_const in El; [|exact iter_s|intros ->; inversion J2; congruence|rewrite R_nlit; lra].
      injection El as <- <-. split; [reflexivity|]. cbn [replica mm ms]. rewrite Es, <- L2, <- L1. repeat split; auto; try discriminate.
      * intros ->. inversion J2; subst. congruence.
      * exists p'. repeat split; auto. eapply alike_step; [exact A1|exact J2].
    + right. cbn [snd] in B. unfold isStatusBad in B. destruct (isStatusOK st1) eqn:B1; [discriminate|]. injection El as <- <-. unfold isStatusBad. rewrite B1. auto.
Qed.

(** ** Checking the voltage, the lowest cell voltage *)
Definition kept n c (s s' : tree n) : Prop := same_shape n s s' /\ forall k p, replica n s k p c -> replica n s' k p c.
Lemma each_rep {n B} (f : M (tree n) B) (c : ecmu R) (Q : B -> Prop) k p :
  (forall s s' b, replica n s k p c -> f s = (s', Ok b) -> kept n c s s' /\ Q b) ->
  forall l l' bs, Forall (fun s => replica n s k p c) l -> each f l = (l', Ok bs) ->
  Forall2 (kept n c) l l' /\ Forall Q bs /\ length bs = length l.
Proof.
  intros H. induction l as [|s l IH]; intros l' bs F E; cbn [each] in E; [injection E as <- <-; repeat split; constructor|].
  destruct (f s) as (s' & [b| | |]) eqn:Ef; try discriminate. destruct (each f l) as (l2 & [bs2| | |]) eqn:El; try discriminate. injection E as <- <-.
  destruct (H _ _ _ (Forall_inv F) Ef) as (H1 & H2). destruct (IH _ _ (Forall_inv_tail F) eq_refl) as (K1 & K2 & K3).
  split; [constructor; auto|]. split; [constructor; auto|]. cbn. auto.
Qed.
Lemma rep_some n (m : module R (tree n)) k p c : replica (S n) (inr m) k p c -> ms m <> [] /\ exists k' p', Forall (fun s => replica n s k' p' c) (ms m).
Proof. intros (NE & _ & _ & _ & H). split; [exact NE|]. destruct (m_series (mm m)); [destruct H as (k' & _ & F); eauto|destruct H as (p' & _ & F & _); eauto]. Qed.
Lemma worst_same s l : (0 <= status_val s)%Z -> Forall (eq s) l -> l <> [] -> status_worst l = s.
Proof.
  intros H F NE. unfold status_worst. assert (G : forall l a, Forall (eq s) l -> a = s -> fold_left status_max l a = s).
  { induction l0 as [|x l0 IH]; intros a F0 ->; cbn; [reflexivity|]. assert (s = x) by (inversion F0; auto). subst x. apply IH; [inversion F0; auto|].
    unfold status_max. destruct (status_ltb _ _); reflexivity. }
  destruct l as [|x l]; [congruence|]. assert (s = x) by (inversion F; auto). subst x. cbn. apply G; [inversion F; auto|]. destruct s; cbn in H |- *; try reflexivity; lia.
Qed.
Lemma kept_refl n c s : kept n c s s.
Proof. split; [apply shape_refl|auto]. Qed.
Lemma kept_trans n c a b d : kept n c a b -> kept n c b d -> kept n c a d.
Proof. intros (A1 & A2) (B1 & B2). split; [eapply shape_trans; eauto|eauto]. Qed.
Lemma kept_mod n c (m : module R (tree n)) l : Forall2 (kept n c) (ms m) l -> kept (S n) c (inr m) (inr (mkM (mm m) l)).
Proof.
  intros F. split.
  - cbn. split; [reflexivity|]. eapply Forall2_impl; [|exact F]. intros s s' H. apply H.
  - intros k p H. eapply rep_children; [reflexivity|reflexivity|auto|exact H|exact F].
Qed.
Lemma kept_V tm n (u u' : tree n) c r : o_V (ops tm n) u = (u', r) -> kept n c u u'.
Proof. intros E. split; [eapply shape_of; exact (proj2 (V_leaves tm n _ _ _ E))|]. intros k p H. apply (rep_V tm n _ _ _ _ _ _ H E). Qed.
Lemma rep_checkV tm n : forall (u u' : tree n) k p c x st, replica n u k p c -> o_checkV (ops tm n) u = (u', Ok (x, st)) ->
  kept n c u u' /\ exists v, ecm_checkVoltage (u_ecm c) = Ok (v, st) /\ x = tv n v u.
Proof.
  induction n as [|n IH]; intros u u' k p c x st H E.
  { destruct H as (-> & -> & L). cbn [su_ops_at ecm_ops o_checkV] in E. injection E as <- E. split; [apply kept_refl|]. rewrite (like_check _ _ L) in E. exists x. auto. }
  node u d m; cbn [su_ops_at sum_ops o_checkV both mod_ops] in E; unfold on_l, on_r in E.
  { destruct H as (-> & -> & L). cbn [ecm_ops o_checkV] in E. injection E as <- E. split; [apply kept_refl|]. rewrite (like_check _ _ L) in E. exists x. auto. }
  destruct (mod_checkV _ m) as (m' & r) eqn:Em. injection E as <- ->. unfold mod_checkV in Em.
  destruct (mod_V _ m) as (m1 & [y| | |]) eqn:EV; try discriminate.
  assert (EV' : o_V (ops tm (S n)) (inr m) = (inr m1, Ok y)) by (cbn [su_ops_at sum_ops o_V both mod_ops]; unfold on_r; rewrite EV; reflexivity).
  assert (K1 := kept_V tm (S n) _ _ c _ EV'). destruct (rep_V tm (S n) _ _ _ _ _ _ H EV') as (H1 & Hv). destruct (Hv _ eq_refl) as (v & Ev & Ey). clear Hv.
  destruct (each _ (ms m1)) as (l & [rs| | |]) eqn:El; try discriminate. injection Em as <- <- <-.
  destruct (rep_some _ _ _ _ _ H1) as (NE & k' & p' & F).
  destruct (each_rep (o_checkV (ops tm n)) c (fun xs => exists v, ecm_checkVoltage (u_ecm c) = Ok (v, snd xs)) k' p') with (l := ms m1) (l' := l) (bs := rs) as (J1 & J2 & J3); auto.
  { intros s s' (z & sz) Hs Es. destruct (IH _ _ _ _ _ _ _ Hs Es) as (G & v' & Ev' & _). split; [exact G|]. exists v'. exact Ev'. }
  split; [eapply kept_trans; [exact K1|]; apply kept_mod; exact J1|].
  destruct rs as [|(z & sz) rs]; [destruct (ms m1); [congruence|discriminate]|]. destruct (Forall_inv J2) as (v' & C). cbn [snd] in C.
  assert (v' = v). { unfold ecm_checkVoltage in C. rewrite Ev in C. cbn in C. congruence. } subst v'. exists v. split; [|exact Ey].
  rewrite (worst_same sz); [exact C|eapply ecm_status_nonneg; exact C| |discriminate].
  apply Forall_map. eapply Forall_impl; [|exact J2]. intros (z' & s') (v' & C'). cbn [snd] in *. congruence.
Qed.

Lemma rep_lim tm n : forall (u : tree n) k p c, replica n u k p c -> l_Vmax (o_lim (ops tm n) u) = INR k * l_Vmax (p_lim (ep (u_ecm c))).
Proof.
  induction n as [|n IH]; intros u k p c H.
  { destruct H as (-> & -> & L). cbn [su_ops_at ecm_ops o_lim INR]. rewrite (proj1 L). lra. }
  node u d m; cbn [su_ops_at sum_ops o_lim mod_ops both].
  { destruct H as (-> & -> & L). cbn [INR]. change (l_Vmax (p_lim (ep (u_ecm d))) = 1 * l_Vmax (p_lim (ep (u_ecm c)))). rewrite (proj1 L). lra. }
  destruct H as (H1 & _ & _ & _ & H5). unfold mod_lim. destruct (m_series (mm m)).
  - destruct H5 as (k' & -> & F). cbn [l_Vmax]. rewrite map_map, R_nsum, (Rsum_const _ (INR k' * l_Vmax (p_lim (ep (u_ecm c))))); [rewrite mult_INR; lra|].
    eapply Forall_impl; [|exact F]. intros s Hs. eapply IH; exact Hs.
  - destruct H5 as (p' & -> & F & _). cbn [l_Vmax]. rewrite map_map. destruct (ms m) as [|s l]; [congruence|]. cbn [map lmin].
    rewrite (IH _ _ _ _ (Forall_inv F)). assert (G := Forall_inv_tail F). clear - G IH. induction G as [|s l Hs G IHl]; cbn [map fold_left]; [reflexivity|].
    rewrite (IH _ _ _ _ Hs). unfold nmin at 2. destruct (nltb _ _); exact IHl.
Qed.
Lemma fold_min (xs : list R) : forall a, (fold_left nmin xs a = a \/ In (fold_left nmin xs a) xs) /\ fold_left nmin xs a <= a /\ forall x, In x xs -> fold_left nmin xs a <= x.
Proof.
  induction xs as [|x xs IH]; intros a; cbn [fold_left].
  { split; [auto|]. split; [lra|]. intros ? []. }
  destruct (IH (nmin a x)) as (I1 & I2 & I3). assert (N : nmin a x = a \/ nmin a x = x) by (unfold nmin; destruct (nltb x a); auto).
  assert (N1 : nmin a x <= a /\ nmin a x <= x).
  { unfold nmin. destruct (nltb x a) eqn:E; [apply Rltb_true in E|apply Rltb_false in E]; lra. }
  split; [|split; [lra|]].
  - destruct I1 as [I1|I1]; [|right; now right]. rewrite I1. destruct N as [->| ->]; [now left|right; now left].
  - intros y [<-|Hy]; [lra|auto].
Qed.
Lemma rep_Vlow tm n : forall (u u' : tree n) k p c x, replica n u k p c -> 0 <= l_Vmax (p_lim (ep (u_ecm c))) -> o_Vlow (ops tm n) u = (u', Ok x) ->
  kept n c u u' /\ exists v, ecm_V (u_ecm c) = Ok v /\ x <= v /\ (x = v \/ l_Vmax (p_lim (ep (u_ecm c))) <= x).
Proof.
  induction n as [|n IH]; intros u u' k p c x H HV E.
  { destruct H as (-> & -> & L). cbn [su_ops_at ecm_ops o_Vlow] in E. injection E as <- E. split; [apply kept_refl|]. rewrite (like_V _ _ L) in E. exists x. split; [exact E|]. split; [lra|auto]. }
  node u d m; cbn [su_ops_at sum_ops o_Vlow both mod_ops] in E; unfold on_l, on_r in E.
  { destruct H as (-> & -> & L). cbn [ecm_ops o_Vlow] in E. injection E as <- E. split; [apply kept_refl|]. rewrite (like_V _ _ L) in E. exists x. split; [exact E|]. split; [lra|auto]. }
  destruct (mod_Vlow _ m) as (m' & r) eqn:Em. injection E as <- ->. unfold mod_Vlow in Em.
  destruct (each _ (ms m)) as (l & [rs| | |]) eqn:El; try discriminate. cbn [rmap rbind] in Em. injection Em as <- <-.
  destruct (rep_some _ _ _ _ _ H) as (NE & k' & p' & F).
  destruct (each_rep (o_Vlow (ops tm n)) c (fun x => exists v, ecm_V (u_ecm c) = Ok v /\ x <= v /\ (x = v \/ l_Vmax (p_lim (ep (u_ecm c))) <= x)) k' p') with (l := ms m) (l' := l) (bs := rs) as (J1 & J2 & J3); auto.
  { intros s s' z Hs Es. exact (IH _ _ _ _ _ _ Hs HV Es). }
  split; [apply kept_mod; exact J1|]. rewrite Forall_forall in J2.
  assert (LM := rep_lim tm (S n) _ _ _ _ H). cbn [su_ops_at sum_ops o_lim mod_ops both] in LM. rewrite LM.
  assert (Hk : 1 <= INR k). { apply rep_pos in H. replace 1 with (INR 1) by reflexivity. apply le_INR. lia. }
  set (V0 := INR k * _). assert (HV0 : l_Vmax (p_lim (ep (u_ecm c))) <= V0) by (unfold V0; nra). clearbody V0.
  destruct (fold_min rs V0) as (I1 & I2 & I3). set (y := fold_left nmin rs V0) in *. clearbody y.
  destruct rs as [|z rs]; [destruct (ms m); [congruence|discriminate]|].
  destruct I1 as [->|I1]; [|exact (J2 _ I1)]. destruct (J2 z (or_introl eq_refl)) as (v & Ev & Lv & _). exists v. split; [exact Ev|].
  specialize (I3 z (or_introl eq_refl)). split; [lra|auto].
Qed.
