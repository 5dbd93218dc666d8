(** * Proofs about the coupled thermal model of modules *)
From Coq Require Import List Reals Lra Lia.
From Verif Require Import Base RFacts StatusModel CellModel CoolModel CoolSpec CoolProofs ModuleModel ModuleSpec ModuleProofs SpmModel SpmUnitModel PhysSpec PhysProofs
  ThermSpec P_Cool P_Phys.
Import ListNotations.
Local Open Scope R_scope.

(** ** The exchange of a row of units with each other and with the module around them *)
Section Chain.
Context (Tm Am h k tim : R).
Definition toR (x y : R * R) : R := k * Rmin (snd x) (snd y) * (fst x - fst y) * tim.
Definition toM (y : R * R) : R := h * Rmin Am (snd y) * (Tm - fst y) * tim.
Definition right_of (l : list (R * R)) : R * R := match l with [] => (Tm, Am) | x :: _ => x end.
Fixpoint chain (left : R * R) (l : list (R * R)) : R :=
  match l with
  | [] => 0
  | y :: l' => toM y + toR left y + toR (right_of l') y + chain y l'
  end.
Lemma toR_anti x y : toR x y = - toR y x.
Proof. unfold toR. rewrite (Rmin_comm (snd x)). ring. Qed.
Lemma chain_sum : forall l left y, chain left (y :: l) = toR left y + Rsum (map toM (y :: l)) + toR (Tm, Am) (last l y).
Proof.
  induction l as [|z l IH]; intros left y.
  - cbn [chain right_of map Rsum last]. lra.
  - assert (E : chain left (y :: z :: l) = toM y + toR left y + toR z y + chain y (z :: l)) by reflexivity.
    rewrite E, IH. cbn [map Rsum]. rewrite (toR_anti y z). replace (last (z :: l) y) with (last l z); [lra|].
    destruct l as [|w l]; [reflexivity|]. change (last (z :: w :: l) y) with (last (w :: l) y). clear. revert w. induction l as [|v l IH]; intros w; [reflexivity|]. apply IH.
Qed.
End Chain.

Section Tree.
Context (F : fns R).
Notation Op n := (su_ops_at (spm_ops F 2) 2 n).

Definition own (n : nat) : STree n -> R :=
  match n return STree n -> R with
  | O => heat_capacity
  | S n' => fun u => match (u : spm R + module R (STree n')) with inl c => heat_capacity c | inr m => coolant_capacity (m_cool (mm m)) end
  end.
Definition TA n (u : STree n) : R * R := (o_T (Op n) u, o_area (Op n) u).

Lemma Rsum_flat {X Y : Type} (f : Y -> R) (g : X -> list Y) l : Rsum (map f (flat_map g l)) = Rsum (map (fun x => Rsum (map f (g x))) l).
Proof. induction l as [|x l IH]; [reflexivity|]. cbn [flat_map map Rsum]. now rewrite map_app, Rsum_app, IH. Qed.
Lemma Rsum_flat' {X : Type} (g : X -> list R) l : Rsum (flat_map g l) = Rsum (map (fun x => Rsum (g x)) l).
Proof. induction l as [|x l IH]; [reflexivity|]. cbn [flat_map map Rsum]. now rewrite Rsum_app, IH. Qed.
Lemma Rsum_plus {X : Type} (f g : X -> R) l : Rsum (map (fun x => f x + g x) l) = Rsum (map f l) + Rsum (map g l).
Proof. induction l as [|x l IH]; cbn [map Rsum]; lra. Qed.
Lemma content_S n (m : module R (STree n)) :
  heat_content (S n) (inr m) = Rsum (map (heat_content n) (ms m)) + coolant_capacity (m_cool (mm m)) * k_T (m_cool (mm m)).
Proof.
  unfold heat_content. cbn [leaves coolers over_modules map Rsum]. unfold coolers at 1. cbn [over_modules map Rsum].
  rewrite !Rsum_flat, Rsum_plus. unfold coolers. lra.
Qed.
Lemma pending_S n (m : module R (STree n)) : heat_pending (S n) (inr m) = Rsum (map (heat_pending n) (ms m)) + m_Qc (mm m).
Proof.
  unfold heat_pending. cbn [leaves over_modules Rsum]. rewrite Rsum_flat, Rsum_plus. 
  rewrite Rsum_flat'. lra.
Qed.
Lemma removed_S n (m : module R (STree n)) : heat_removed (S n) (inr m) = Rsum (map (heat_removed n) (ms m)) + ac_power (m_cool (mm m)).
Proof. unfold heat_removed, coolers. cbn [over_modules map Rsum]. rewrite Rsum_flat. lra. Qed.
Lemma content_l n c : heat_content (S n) (inl c) = heat_capacity c * s_T (cs c) /\ heat_pending (S n) (inl c) = c_Q c /\ heat_removed (S n) (inl c) = 0.
Proof. unfold heat_content, heat_pending, heat_removed, coolers. cbn [leaves over_modules map Rsum]. lra. Qed.
Lemma content_0 c : heat_content 0 c = heat_capacity c * s_T (cs c) /\ heat_pending 0 c = c_Q c /\ heat_removed 0 c = 0.
Proof. unfold heat_content, heat_pending, heat_removed, coolers. cbn [leaves over_modules map Rsum]. lra. Qed.

(** *** Setting the temperature of a unit *)
Lemma leaf_set t (c : spm R) : heat_capacity (spm_setT t c) = heat_capacity c /\ s_T (cs (spm_setT t c)) = t /\ c_Q (spm_setT t c) = c_Q c.
Proof. repeat split. Qed.
Lemma cool_set t (k k' : cool R) r : cool_setT t k = (k', Ok r) -> k' = with_kT k t.
Proof. unfold cool_setT. destruct (_ || _); [discriminate|]. intros H. now injection H as <-. Qed.
Lemma setT_content n t (u u' : STree n) x : o_setT (Op n) t u = (u', Ok x) ->
  heat_content n u' = heat_content n u + own n u * (t - o_T (Op n) u) /\ heat_pending n u' = heat_pending n u.
Proof.
  destruct n as [|n].
  - cbn [su_ops_at spm_ops o_setT o_T own]. intros H. injection H as <- <-. destruct (content_0 u) as (-> & -> & _), (content_0 (spm_setT t u)) as (-> & -> & _).
    destruct (leaf_set t u) as (-> & -> & ->). split; [ring|reflexivity].
  - node u c m; cbn [su_ops_at sum_ops both o_setT o_T own]; unfold on_l, on_r; cbn [spm_ops mod_ops o_setT o_T]; intros H.
    + injection H as <- <-. destruct (content_l n c) as (X1 & X2 & _), (content_l n (spm_setT t c)) as (Y1 & Y2 & _).
      destruct (leaf_set t c) as (Z1 & Z2 & Z3). rewrite Z1, Z2 in Y1. rewrite Z3 in Y2. split; [refine (eq_trans Y1 _); refine (eq_trans _ (f_equal (fun x => x + _) (eq_sym X1))); ring|exact (eq_trans Y2 (eq_sym X2))].
    + unfold mod_setT in H. destruct (cool_setT t (m_cool (mm m))) as [k [y| | |]] eqn:E; try discriminate. injection H as <- <-.
      apply cool_set in E. subst k. rewrite !content_S, !pending_S. cbn [mm ms set_cool m_cool m_Qc with_kT k_T]. unfold coolant_capacity, mod_T. cbn [with_kT k_rho k_cp k_V k_T].
      split; [ring|reflexivity].
Qed.
Lemma set_temps_content n : forall (l l' : list (STree n)) ts x, set_temps (Op n) ts l = (l', Ok x) -> length ts = length l ->
  Rsum (map (heat_content n) l') = Rsum (map (heat_content n) l) + Rsum (map (fun '(u, t) => own n u * (t - o_T (Op n) u)) (combine l ts)) /\
  Rsum (map (heat_pending n) l') = Rsum (map (heat_pending n) l).
Proof.
  induction l as [|u l IH]; intros l' ts x H HL; cbn [set_temps] in H.
  - destruct ts; injection H as <- <-; cbn; lra.
  - destruct ts as [|t ts]; [discriminate|]. destruct (o_setT (Op n) t u) as [u' [y| | |]] eqn:E; try discriminate.
    destruct (set_temps (Op n) ts l) as [l2 r2] eqn:E2. injection H as <- ->. injection HL as HL. destruct (IH _ _ _ E2 HL) as [I1 I2].
    destruct (setT_content _ _ _ _ _ E) as [J1 J2]. cbn [map Rsum combine]. rewrite I1, I2, J1, J2. split; lra.
Qed.

(** *** One thermal update *)
Definition balances n tim nb (u u' : STree n) t : Prop :=
  TA n u' = TA n u /\ own n u' = own n u /\ heat_pending n u' = 0 /\
  own n u * (t - o_T (Op n) u) + heat_content n u' - heat_content n u =
    heat_pending n u + gained (o_T (Op n) u) (o_area (Op n) u) tim nb - heat_removed n u * tim /\
  exists u'', o_setT (Op n) t u' = (u'', Ok tt).
Definition lawful n : Prop := forall nb tim (u u' : STree n) t, tim <> 0 -> waited tim n u -> o_thermal (Op n) nb tim u = (u', Ok t) -> balances n tim nb u u' t.

Lemma leaf_law nb tim (c c' : spm R) t : heat_capacity c <> 0 -> c_tth c = tim -> spm_thermal 2 nb tim c = (c', Ok t) ->
  s_T (cs c') = s_T (cs c) /\ q_Acell (cp c') = q_Acell (cp c) /\ heat_capacity c' = heat_capacity c /\ c_Q c' = 0 /\
  heat_capacity c * (t - s_T (cs c)) = c_Q c + gained (s_T (cs c)) (q_Acell (cp c)) tim nb.
Proof.
  intros HC Ht H. destruct (C73_balance nb tim c c' t HC) as (_ & B & C). destruct (B H) as [B1 _]. destruct (C 2%Z (or_intror eq_refl) H) as (_ & C2 & _ & C4).
  assert (P : cp c' = cp c). { unfold spm_thermal in H. now injection H as <- _. }
  unfold heat_capacity in *. rewrite C4, P. repeat split; auto. rewrite B1. unfold received, gained. now rewrite Ht.
Qed.

Section Module.
Context (n : nat) (IH : lawful n) (tim : R) (tim0 : tim <> 0).
Context (r : modrec R).
Notation Tm := (k_T (m_cool r)).
Notation Am := (m_area r).
Notation hc := (cool_getH (m_cool r)).
Definition nbs (left y right : R * R) : list (R * R * R) := [(Tm, hc, Am); (fst left, m_k r, snd left); (fst right, m_k r, snd right)].
Lemma gained_nbs left y right : gained (fst y) (snd y) tim (nbs left y right) =
  toM Tm Am hc tim y + toR (m_k r) tim left y + toR (m_k r) tim right y.
Proof. unfold gained, nbs, toM, toR. cbn [map Rsum]. lra. Qed.

Lemma neighbours_at ms0 (pre : list (STree n)) u post :
  neighbours (Op n) (mkM r ms0) (length pre) (pre ++ u :: post) =
  Some (nbs (last (map (TA n) pre) (Tm, Am)) (TA n u) (right_of Tm Am (map (TA n) post))).
Proof.
  unfold neighbours, nbs, mod_T, mod_area. cbn [mm].
  assert (L : match length pre with O => Some (Tm, m_k r, Am) | S i' => option_map (fun s => (o_T (Op n) s, m_k r, o_area (Op n) s)) (nth_error (pre ++ u :: post) i') end
            = Some (fst (last (map (TA n) pre) (Tm, Am)), m_k r, snd (last (map (TA n) pre) (Tm, Am)))).
  { destruct pre as [|x pre] using rev_ind; [reflexivity|]. clear IHpre. rewrite app_length, map_app. cbn [length map]. rewrite last_last, PeanoNat.Nat.add_1_r.
    rewrite <- app_assoc. cbn [app]. rewrite nth_error_app2, PeanoNat.Nat.sub_diag by lia. reflexivity. }
  rewrite L.
  assert (Rt : (if Nat.ltb (length pre + 1) (length (pre ++ u :: post)) then option_map (fun s => (o_T (Op n) s, m_k r, o_area (Op n) s)) (nth_error (pre ++ u :: post) (length pre + 1)) else Some (Tm, m_k r, Am))
            = Some (fst (right_of Tm Am (map (TA n) post)), m_k r, snd (right_of Tm Am (map (TA n) post)))).
  { rewrite app_length. cbn [length]. destruct post as [|v post].
    - replace (Nat.ltb _ _) with false by (symmetry; apply PeanoNat.Nat.ltb_ge; cbn; lia). reflexivity.
    - replace (Nat.ltb _ _) with true by (symmetry; apply PeanoNat.Nat.ltb_lt; cbn; lia). rewrite nth_error_app2 by lia.
      replace (length pre + 1 - length pre)%nat with 1%nat by lia. reflexivity. }
  rewrite Rt. reflexivity.
Qed.

Lemma children_law ms0 : forall post pre l' ts, th_children (Op n) (length post) (length pre) (mkM r ms0) tim (pre ++ post) = (l', Ok ts) ->
  Forall (waited tim n) post ->
  exists post', l' = pre ++ post' /\ map (TA n) post' = map (TA n) post /\ map (own n) post' = map (own n) post /\ length ts = length post' /\
    Rsum (map (heat_pending n) post') = 0 /\
    Rsum (map (fun '(u, t) => own n u * (t - o_T (Op n) u)) (combine post' ts)) + Rsum (map (heat_content n) post') - Rsum (map (heat_content n) post) =
    Rsum (map (heat_pending n) post) + chain Tm Am hc (m_k r) tim (last (map (TA n) pre) (Tm, Am)) (map (TA n) post) - Rsum (map (heat_removed n) post) * tim.
Proof.
  induction post as [|u post IP]; intros pre l' ts H HW; cbn [th_children length] in H.
  - injection H as <- <-. exists []. cbn. repeat split; lra.
  - rewrite neighbours_at in H. unfold child_do in H.
    replace (nth_error (pre ++ u :: post) (length pre)) with (Some u) in H by (symmetry; clear; induction pre; cbn; auto).
    set (nb := nbs _ _ _) in H. destruct (o_thermal (Op n) nb tim u) as [u' [t| | |]] eqn:E; try discriminate.
    replace (list_set (pre ++ u :: post) (length pre) u') with ((pre ++ [u']) ++ post) in H.
    2:{ rewrite <- app_assoc. cbn [app]. clear. induction pre; cbn; congruence. }
    replace (S (length pre)) with (length (pre ++ [u'])) in H by (rewrite app_length; cbn; lia).
    destruct (th_children _ _ _ _ _ ((pre ++ [u']) ++ post)) as [l2 r2] eqn:E2. destruct r2 as [ts2| | |]; try discriminate. cbn [rmap] in H. injection H as <- <-.
    inversion HW as [|? ? W1 W2]; subst. destruct (IP _ _ _ E2 W2) as (post' & -> & P1 & P2 & P3 & P4 & P5).
    destruct (IH _ _ _ _ _ tim0 W1 E) as (B1 & B2 & B3 & B4 & _).
    exists (u' :: post'). rewrite <- app_assoc. cbn [app map combine Rsum length]. repeat split; [congruence|congruence|congruence|lra|].
    assert (T1 : o_T (Op n) u' = o_T (Op n) u) by (unfold TA in B1; congruence).
    rewrite B2, T1. rewrite map_app in P5. cbn [map] in P5. rewrite last_last, B1 in P5. cbn [chain].
    assert (G : gained (o_T (Op n) u) (o_area (Op n) u) tim nb =
      toM Tm Am hc tim (TA n u) + toR (m_k r) tim (last (map (TA n) pre) (Tm, Am)) (TA n u) + toR (m_k r) tim (right_of Tm Am (map (TA n) post)) (TA n u)).
    { exact (gained_nbs (last (map (TA n) pre) (Tm, Am)) (TA n u) (right_of Tm Am (map (TA n) post))). }
    rewrite G in B4. lra.
Qed.

(** what the module books as received from its children *)
Lemma heat_tail ms0 N : forall (l : list (STree n)) i acc, (i + length l = N)%nat -> (0 < i)%nat ->
  th_heat (Op n) i N (mkM r ms0) tim acc l = acc - Rsum (map (toM Tm Am hc tim) (map (TA n) l)) -
    match l with [] => 0 | _ => toR (m_k r) tim (Tm, Am) (last (map (TA n) l) (Tm, Am)) end.
Proof.
  induction l as [|u l IL]; intros i acc HN Hi; [cbn; lra|]. cbn [th_heat length] in *.
  replace (Nat.eqb i 0) with false by (symmetry; apply PeanoNat.Nat.eqb_neq; lia). rewrite (IL (S i)) by lia. rewrite nmin_R. unfold mod_T, mod_area. cbn [mm].
  cbn [map Rsum]. unfold toM at 2. cbn [TA fst snd nadd nsub nmul RNum]. destruct l as [|v l].
  - cbn [length] in HN. replace (Nat.eqb i (N - 1)) with true by (symmetry; apply PeanoNat.Nat.eqb_eq; lia). cbn [map last Rsum]. unfold toR. cbn [TA fst snd]. lra.
  - cbn [length] in HN. replace (Nat.eqb i (N - 1)) with false by (symmetry; apply PeanoNat.Nat.eqb_neq; lia).
    change (last (TA n u :: map (TA n) (v :: l)) (Tm, Am)) with (last (map (TA n) (v :: l)) (Tm, Am)). lra.
Qed.
Lemma heat_law ms0 (l : list (STree n)) : l <> [] ->
  th_heat (Op n) 0 (length l) (mkM r ms0) tim 0 l = - chain Tm Am hc (m_k r) tim (Tm, Am) (map (TA n) l).
Proof.
  intros Hl. destruct l as [|u l]; [easy|]. cbn [map]. rewrite chain_sum. cbn [th_heat Nat.eqb length]. rewrite (heat_tail ms0 (S (length l))) by (cbn; lia).
  rewrite nmin_R. unfold mod_T, mod_area. cbn [mm map Rsum nadd nsub nmul RNum]. unfold toM at 2, toR at 2. cbn [TA fst snd]. destruct l as [|v l].
  - cbn [length map last Rsum]. cbn [Nat.sub Nat.eqb]. unfold toR. cbn [TA fst snd]. lra.
  - cbn [length Nat.sub].
    assert (X : forall d d', last (map (TA n) (v :: l)) d = last (map (TA n) (v :: l)) d').
    { intros d d'. cbn [map]. generalize (TA n v), (map (TA n) l). clear. intros x q. revert x. induction q as [|w q IQ]; intros x; [reflexivity|]. apply (IQ w). }
    rewrite (X (Tm, Am) (TA n u)). lra.
Qed.

Lemma neigh_gained T a0 : forall nb acc, th_neigh T a0 tim acc nb = acc + gained T a0 tim nb.
Proof.
  unfold gained. induction nb as [|[[t k] a] nb IN]; intros acc; cbn [th_neigh map Rsum]; [lra|]. rewrite IN, nmin_R. cbn [nadd nsub nmul RNum]. lra.
Qed.
Lemma dstate_keeps qt qc (k k' : cool R) T : cool_dstate qt qc tim k = (k', Ok T) ->
  k_T k' = k_T k /\ coolant_capacity k' = coolant_capacity k /\ (coolant_capacity k <> 0 -> coolant_capacity k * (T - k_T k) = qt - ac_power k * tim).
Proof.
  intros H. assert (B : coolant_capacity k <> 0 -> coolant_capacity k * (T - k_T k) = qt - ac_power k * tim).
  { intros HC. destruct (C43_coolant_balance _ _ _ _ _ _ HC H) as (B & _). unfold coolant_capacity. rewrite B. unfold ac_power. destruct (k_kind k); lra. }
  split; [|split; [|exact B]]; clear B; unfold cool_dstate, coolant_capacity in *; destruct (k_kind k); try (destruct (nltb _ _); [discriminate|]); injection H as <- <-; reflexivity.
Qed.

Lemma module_law nb (m m' : module R (STree n)) t : mm m = r -> waited tim (S n) (inr m) -> mod_thermal (Op n) 2 nb tim m = (m', Ok t) ->
  balances (S n) tim nb (inr m) (inr m') t.
Proof.
  intros Em HW H. destruct m as [r0 l0]. cbn [mm] in Em. subst r0. unfold mod_thermal in H. cbn [Z.eqb] in H.
  destruct (th_coupled _ nb tim _) as [m1 r1] eqn:E. destruct r1 as [t1| | |]; try discriminate. injection H as <- <-.
  unfold th_coupled in E. cbn [mm ms] in E. destruct (nltb _ _); [discriminate|].
  destruct (neqb tim (nZ 0)) eqn:Ez; [exfalso; apply Reqb_true in Ez; rewrite R_nZ in Ez; cbn in Ez; lra|].
  destruct (Nat.ltb _ _); [discriminate|]. destruct (th_children _ _ _ _ _ _) as [l1 [ts| | |]] eqn:EC; try discriminate.
  assert (W : Forall (waited tim n) l0 /\ coolant_capacity (m_cool r) <> 0).
  { destruct HW as [W1 W2]. unfold coolers in W2. cbn [over_modules ms mm leaves] in *. inversion W2 as [|? ? W3 W4]; subst. split; [|exact W3].
    apply Forall_forall. intros u Hu. split; apply Forall_forall; intros x Hx; [rewrite Forall_forall in W1; apply W1|rewrite Forall_forall in W4; apply W4];
      apply in_flat_map; exists u; auto. }
  destruct W as [W1 W2].
  destruct (children_law l0 l0 [] l1 ts EC W1) as (post' & -> & P1 & P2 & P3 & P4 & P5). cbn [app map last] in *.
  rewrite neigh_gained in E. set (Ech := th_heat _ _ _ _ _ _ _ + _) in E || set (Ech := nadd (th_heat _ _ _ _ _ _ _) _) in E.
  destruct (cool_dstate _ _ _ _) as [k [Tc| | |]] eqn:ED; try discriminate. destruct (dstate_keeps _ _ _ _ _ ED) as (D1 & D2 & D3). specialize (D3 W2).
  destruct (set_temps _ _ _) as [l2 [y| | |]] eqn:ES; try discriminate. destruct (nltb Tc (degC 0) || nltb (degC 75) Tc || nisnan Tc)%bool eqn:EO; [discriminate|].
  injection E as <- <-. destruct (set_temps_content _ _ _ _ _ ES P3) as [S1 S2].
  split; [unfold TA; cbn; unfold mod_T, mod_area; cbn; now rewrite D1|]. split; [cbn; exact D2|]. split; [|split].
  - refine (eq_trans (pending_S _ _) _). cbn [ms mm ModuleModel.set_therm set_cool m_Qc]. rewrite S2, P4. change (0 + nZ 0 = 0). rewrite R_nZ. lra.
  - assert (X : heat_content (S n) (inr (mkM (ModuleModel.set_therm (ModuleModel.set_therm (set_cool r k) (m_Qc (set_cool r k)) (nZ 0)) (nZ 0) (nZ 0)) l2) : STree (S n)) =
      Rsum (map (heat_content n) l2) + coolant_capacity (m_cool r) * k_T (m_cool r)).
    { refine (eq_trans (content_S _ _) _). cbn [ms mm ModuleModel.set_therm set_cool m_cool]. now rewrite D1, D2. }
    cbn [mm ms] in *.
    pose proof (content_S n (mkM r l0)) as Y1. pose proof (pending_S n (mkM r l0)) as Y2. pose proof (removed_S n (mkM r l0)) as Y3. cbn [mm ms] in Y1, Y2, Y3.
    match goal with |- _ + ?z - ?a = ?b + _ - ?c * tim => replace z with (Rsum (map (heat_content n) l2) + coolant_capacity (m_cool r) * k_T (m_cool r)) by (symmetry; exact X); replace a with (Rsum (map (heat_content n) l0) + coolant_capacity (m_cool r) * k_T (m_cool r)) by (symmetry; exact Y1);
      replace b with (Rsum (map (heat_pending n) l0) + m_Qc r) by (symmetry; exact Y2); replace c with (Rsum (map (heat_removed n) l0) + ac_power (m_cool r)) by (symmetry; exact Y3) end.
    cbn [own mm]. change (o_T (Op (S n)) (inr (mkM r l0))) with (k_T (m_cool r)). change (o_area (Op (S n)) (inr (mkM r l0))) with (m_area r).
    rewrite D3, S1.
    assert (HE : Ech = - chain (k_T (m_cool r)) (m_area r) (cool_getH (m_cool r)) (m_k r) tim (k_T (m_cool r), m_area r) (map (TA n) l0) + m_Qc r).
    { unfold Ech. cbn [nadd RNum mm]. f_equal. rewrite <- P1. destruct post' as [|u post']; [change (nZ 0 = - 0); rewrite R_nZ; lra|].
      rewrite <- (heat_law l0 (u :: post')) by discriminate. rewrite R_nZ. reflexivity. }
    rewrite HE. unfold mod_T, mod_area. cbn [mm]. lra.
  - cbn [su_ops_at sum_ops both o_setT]. unfold on_r. cbn [mod_ops o_setT]. unfold mod_setT, cool_setT. cbn [mm ms ModuleModel.set_therm set_cool m_cool]. rewrite EO. eexists. reflexivity.
Qed.
End Module.

Lemma thermal_lawful : forall n, lawful n.
Proof.
  induction n as [|n IH]; intros nb tim u u' t Ht HW H.
  - cbn [su_ops_at spm_ops o_thermal] in H. destruct HW as [HW _]. cbn [leaves] in HW. inversion HW as [|? ? [W1 W2] _]; subst.
    destruct (leaf_law _ _ _ _ _ W1 eq_refl H) as (L1 & L2 & L3 & L4 & L5). unfold balances, TA. cbn [su_ops_at spm_ops o_T o_area own o_setT].
    destruct (content_0 u) as (-> & -> & ->), (content_0 u') as (-> & -> & _). rewrite L1, L2, L3, L4, L5. repeat split; [lra|]. eexists. reflexivity.
  - node u c m; cbn [su_ops_at sum_ops o_thermal both mod_ops] in H; unfold on_l, on_r in H.
    + destruct (o_thermal (spm_ops F 2) nb tim c) as [c' r'] eqn:E. injection H as <- ->. destruct HW as [HW _]. cbn [leaves] in HW. inversion HW as [|? ? [W1 W2] _]; subst.
      destruct (leaf_law _ _ _ _ _ W1 eq_refl E) as (L1 & L2 & L3 & L4 & L5). unfold balances, TA. cbn [su_ops_at sum_ops both spm_ops o_T o_area own o_setT].
      destruct (content_l n c) as (X1 & X2 & X3), (content_l n c') as (Y1 & Y2 & _).
      split; [congruence|]. split; [exact L3|]. split; [exact (eq_trans Y2 L4)|]. split.
      * rewrite L5. rewrite L3, L1 in Y1.
        match goal with |- _ + ?a - ?b = ?p + _ - ?q * _ => replace a with (heat_capacity c * s_T (cs c)) by (symmetry; exact Y1);
          replace b with (heat_capacity c * s_T (cs c)) by (symmetry; exact X1); replace p with (c_Q c) by (symmetry; exact X2); replace q with 0 by (symmetry; exact X3) end. lra.
      * eexists. reflexivity.
    + destruct (mod_thermal (Op n) 2 nb tim m) as [m' r'] eqn:E. injection H as <- ->. exact (module_law n IH tim Ht (mm m) nb m m' t eq_refl HW E).
Qed.
End Tree.
