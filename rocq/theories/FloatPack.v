(** * Proofs for C89: totals of packs in double arithmetic *)
From Coq Require Import Reals Lra Lia SpecFloat ZArith List Bool Permutation.
Import ListNotations.
From Flocq Require Import Core BinarySingleNaN.
From Verif Require Import Base RFacts StatusModel UtilModel CellModel CoolModel ModuleModel ModuleSpec FloatSpec FloatFacts FloatEcm FloatCyc FloatInt FloatPackSpec.
Local Open Scope R_scope.

Lemma eps_2_52 k : (Z.of_nat k <= 2 ^ 52)%Z -> INR k * (2 * eps) <= 1.
Proof.
  intros H. rewrite INR_IZR_INZ. apply IZR_le in H. unfold eps. change (2 ^ 52)%Z with 4503599627370496%Z in H. lra.
Qed.

Definition bound : R := bpow radix2 1000.
Lemma bound_huge x : Rabs x <= 2 * bound -> Rabs x <= huge.
Proof.
  intros H. apply Rle_trans with (1 := H). unfold bound, huge. change 2 with (bpow radix2 1) at 1. rewrite <- bpow_plus. apply bpow_le. lia.
Qed.

(** One more addition. *)
Lemma close_add k x y e f m p : close k x e m -> close k y f p -> Rabs e <= m -> Rabs f <= p -> (Z.of_nat (S k) <= 2 ^ 52)%Z -> m + p <= bound ->
  close (S k) (nadd x y) (e + f) (m + p).
Proof.
  intros [Fx Hx] [Fy Hy] He Hf Hk Hb. pose proof eps_pos as EP. pose proof (pos_INR k) as PK.
  assert (K1 : INR k * (2 * eps) <= 1) by (apply eps_2_52; lia). assert (E : Rabs (fval x + fval y - (e + f)) <= INR k * (2 * eps) * (m + p)).
  { replace (fval x + fval y - (e + f)) with ((fval x - e) + (fval y - f)) by ring. eapply Rle_trans; [apply Rabs_triang|]. lra. }
  assert (PM : 0 <= m + p) by (pose proof (Rabs_pos e); pose proof (Rabs_pos f); lra).
  assert (EF : Rabs (e + f) <= m + p) by (eapply Rle_trans; [apply Rabs_triang|]; lra).
  assert (B : Rabs (fval x + fval y) <= 2 * (m + p)).
  { replace (fval x + fval y) with ((e + f) + (fval x + fval y - (e + f))) by ring. eapply Rle_trans; [apply Rabs_triang|].
    assert (INR k * (2 * eps) * (m + p) <= 1 * (m + p)) by (apply Rmult_le_compat_r; lra). lra. }
  destruct (fadd x y Fx Fy) as [F V]. { apply bound_huge. lra. }
  change (SFadd prec64 emax64 x y) with (nadd x y) in *. split; [exact F|]. rewrite V, S_INR.
  replace (rnd (fval x + fval y) - (e + f)) with ((rnd (fval x + fval y) - (fval x + fval y)) + (fval x + fval y - (e + f))) by ring.
  eapply Rle_trans; [apply Rabs_triang|]. pose proof (add_err _ _ (fmt_val _ Fx) (fmt_val _ Fy)) as R1.
  assert (eps * Rabs (fval x + fval y) <= eps * (2 * (m + p))) by (apply Rmult_le_compat_l; lra). lra.
Qed.
Lemma close_more k j x e m : close k x e m -> (k <= j)%nat -> 0 <= m -> close j x e m.
Proof.
  intros [F H] L M. split; [exact F|]. apply Rle_trans with (1 := H). apply le_INR in L. pose proof eps_pos. apply Rmult_le_compat_r; [exact M|].
  apply Rmult_le_compat_r; lra.
Qed.
Lemma close_exact x : fin x -> close 0 x (fval x) (Rabs (fval x)).
Proof. intros F. split; [exact F|]. rewrite Rminus_diag_eq by reflexivity. rewrite Rabs_R0. cbn [INR]. lra. Qed.

(** Sums from left to right. *)
Lemma sum_close {X : Type} (f : X -> f64) (g h : X -> R) k l : Forall (fun s => close k (f s) (g s) (h s) /\ Rabs (g s) <= h s) l -> forall j a e m,
  close (k + j) a e m -> Rabs e <= m -> (Z.of_nat (k + j + length l) <= 2 ^ 52)%Z -> m + Rsum (map h l) <= bound ->
  close (k + j + length l) (fold_left (fun s x => nadd s x) (map f l) a) (e + Rsum (map g l)) (m + Rsum (map h l)) /\
  Rabs (e + Rsum (map g l)) <= m + Rsum (map h l).
Proof.
  induction 1 as [|s l [Hs Gs] Hl IH]; intros j a e m Ha He Hk Hb; cbn [map fold_left Rsum length] in *.
  - rewrite !Rplus_0_r, Nat.add_0_r. auto.
  - assert (P : 0 <= Rsum (map h l)).
    { apply Rsum_nonneg. rewrite Forall_map. apply Forall_impl with (2 := Hl). intros t [_ B]. pose proof (Rabs_pos (g t)). lra. }
    assert (Ps : 0 <= h s) by (pose proof (Rabs_pos (g s)); lra). assert (Pm : 0 <= m) by (pose proof (Rabs_pos e); lra).
    rewrite <- !Rplus_assoc. replace (k + j + S (length l))%nat with (k + S j + length l)%nat by lia. apply IH.
    + replace (k + S j)%nat with (S (k + j)) by lia. apply close_add; [exact Ha|apply (close_more k); [exact Hs|lia|exact Ps]|exact He|exact Gs|lia|lra].
    + eapply Rle_trans; [apply Rabs_triang|]. lra.
    + lia.
    + lra.
Qed.
Lemma nsum_close {X : Type} (f : X -> f64) (g h : X -> R) k l : Forall (fun s => close k (f s) (g s) (h s) /\ Rabs (g s) <= h s) l ->
  (Z.of_nat (k + length l) <= 2 ^ 52)%Z -> Rsum (map h l) <= bound ->
  close (k + length l) (nsum (map f l)) (Rsum (map g l)) (Rsum (map h l)) /\ Rabs (Rsum (map g l)) <= Rsum (map h l).
Proof.
  intros H Hk Hb. destruct (fnZ 0) as [F V]; [easy|]. assert (Z0 : close (k + 0) (nZ 0) 0 0).
  { split; [exact F|]. rewrite V, Rminus_0_r, Rabs_R0, Rmult_0_r. lra. }
  destruct (sum_close f g h k l H 0 (nZ 0) 0 0 Z0) as [A B]; [rewrite Rabs_R0; lra|rewrite Nat.add_0_r; exact Hk|lra|].
  rewrite !Rplus_0_l in A, B. rewrite Nat.add_0_r in A. auto.
Qed.

(** Sums in any order. *)
Lemma Rsum_perm l l' : Permutation l l' -> Rsum l = Rsum l'.
Proof. induction 1; cbn [Rsum]; lra. Qed.
Lemma Rsum_abs l : Rabs (Rsum l) <= Rsum (map Rabs l).
Proof. induction l as [|x l IH]; cbn [map Rsum]; [rewrite Rabs_R0; lra|]. eapply Rle_trans; [apply Rabs_triang|]. lra. Qed.
Lemma any_order xs s : dsum xs s -> Forall fin xs -> (Z.of_nat (length xs) <= 2 ^ 52)%Z -> Rsum (map (fun x => Rabs (fval x)) xs) <= bound ->
  close (length xs - 1) s (Rsum (map fval xs)) (Rsum (map (fun x => Rabs (fval x)) xs)) /\ (1 <= length xs)%nat.
Proof.
  induction 1 as [x|xs ys zs a b A IA B IB P]; intros F L T.
  - split; [|cbn; lia]. cbn [map Rsum length Nat.sub]. rewrite !Rplus_0_r. apply close_exact. now inversion F.
  - pose proof (Permutation_length P) as PL. rewrite app_length in PL. assert (F2 : Forall fin (xs ++ ys)).
    { rewrite Forall_forall in *. intros x Hx. apply F. now apply (Permutation_in _ (Permutation_sym P)). }
    apply Forall_app in F2. destruct F2 as [Fx Fy].
    assert (Q : forall h : f64 -> R, Rsum (map h zs) = Rsum (map h xs) + Rsum (map h ys)).
    { intros h. rewrite (Rsum_perm _ _ (Permutation_map h P)), map_app. apply Rsum_app. }
    rewrite Q in T. assert (N : forall l, 0 <= Rsum (map (fun x => Rabs (fval x)) l)).
    { intros l. apply Rsum_nonneg. rewrite Forall_map, Forall_forall. intros. apply Rabs_pos. }
    pose proof (N xs) as Nx. pose proof (N ys) as Ny.
    destruct (IA Fx) as [Ca La]; [lia|lra|]. destruct (IB Fy) as [Cb Lb]; [lia|lra|]. split; [|lia].
    rewrite !Q. replace (length zs - 1)%nat with (S (length zs - 2)) by lia.
    apply close_add; [apply (close_more _ _ _ _ _ Ca); [lia|exact Nx]|apply (close_more _ _ _ _ _ Cb); [lia|exact Ny]| | |lia|exact T].
    + rewrite <- (map_map fval Rabs). apply Rsum_abs.
    + rewrite <- (map_map fval Rabs). apply Rsum_abs.
Qed.

(** Lowest and highest. *)
Lemma nmin_val x y : fin x -> fin y -> fin (nmin x y) /\ fval (nmin x y) = Rmin (fval x) (fval y).
Proof.
  intros Fx Fy. unfold nmin. change (nltb y x) with (SFltb y x). destruct (SFltb y x) eqn:E.
  - apply (fltb _ _ Fy Fx) in E. split; [exact Fy|]. now rewrite Rmin_right by lra.
  - apply (fltb_false _ _ Fy Fx) in E. split; [exact Fx|]. now rewrite Rmin_left by lra.
Qed.
Lemma nmax_val x y : fin x -> fin y -> fin (nmax x y) /\ fval (nmax x y) = Rmax (fval x) (fval y).
Proof.
  intros Fx Fy. unfold nmax. change (nltb x y) with (SFltb x y). destruct (SFltb x y) eqn:E.
  - apply (fltb _ _ Fx Fy) in E. split; [exact Fy|]. now rewrite Rmax_right by lra.
  - apply (fltb_false _ _ Fx Fy) in E. split; [exact Fx|]. now rewrite Rmax_left by lra.
Qed.
Definition rel (k : nat) (x : f64) (e : R) : Prop := close k x e e /\ 0 <= e.
Lemma rel_iff k x e : rel k x e <-> fin x /\ 0 <= e /\ (1 - INR k * (2 * eps)) * e <= fval x <= (1 + INR k * (2 * eps)) * e.
Proof.
  unfold rel, close. split.
  - intros [[F H] P]. apply Rabs_le_inv in H. split; [exact F|]. split; [exact P|]. lra.
  - intros (F & P & H). split; [|exact P]. split; [exact F|]. apply Rabs_le. lra.
Qed.
Lemma rel_min k x y e f : (Z.of_nat k <= 2 ^ 52)%Z -> rel k x e -> rel k y f -> rel k (nmin x y) (Rmin e f).
Proof.
  intros Hk. rewrite !rel_iff. intros (Fx & Pe & L1 & L2) (Fy & Pf & L3 & L4). destruct (nmin_val x y Fx Fy) as [F V]. pose proof (eps_2_52 k Hk) as K. pose proof eps_pos. pose proof (pos_INR k).
  assert (K0 : 0 <= INR k * (2 * eps)) by (apply Rmult_le_pos; lra). set (d := INR k * (2 * eps)) in *. split; [exact F|]. rewrite V.
  unfold Rmin. destruct (Rle_dec e f) as [E|E];
    [pose proof (Rmult_le_compat_l (1 - d) e f ltac:(lra) E); pose proof (Rmult_le_compat_l (1 + d) e f ltac:(lra) E)
    |assert (E' : f <= e) by lra; pose proof (Rmult_le_compat_l (1 - d) f e ltac:(lra) E'); pose proof (Rmult_le_compat_l (1 + d) f e ltac:(lra) E')];
    destruct (Rle_dec (fval x) (fval y)) as [G|G]; (split; [assumption|split; lra]).
Qed.
Lemma rel_max k x y e f : (Z.of_nat k <= 2 ^ 52)%Z -> rel k x e -> rel k y f -> rel k (nmax x y) (Rmax e f).
Proof.
  intros Hk. rewrite !rel_iff. intros (Fx & Pe & L1 & L2) (Fy & Pf & L3 & L4). destruct (nmax_val x y Fx Fy) as [F V]. pose proof (eps_2_52 k Hk) as K. pose proof eps_pos. pose proof (pos_INR k).
  assert (K0 : 0 <= INR k * (2 * eps)) by (apply Rmult_le_pos; lra). set (d := INR k * (2 * eps)) in *. split; [exact F|]. rewrite V.
  unfold Rmax. destruct (Rle_dec e f) as [E|E];
    [pose proof (Rmult_le_compat_l (1 - d) e f ltac:(lra) E); pose proof (Rmult_le_compat_l (1 + d) e f ltac:(lra) E)
    |assert (E' : f <= e) by lra; pose proof (Rmult_le_compat_l (1 - d) f e ltac:(lra) E'); pose proof (Rmult_le_compat_l (1 + d) f e ltac:(lra) E')];
    destruct (Rle_dec (fval x) (fval y)) as [G|G]; (split; [assumption|split; lra]).
Qed.
Lemma rel_0 k : rel k (nZ 0) 0.
Proof. destruct (fnZ 0) as [F V]; [easy|]. split; [|lra]. split; [exact F|]. rewrite V, Rminus_0_r, Rabs_R0, Rmult_0_r. lra. Qed.
Lemma lmin_rel {X : Type} (f : X -> f64) (g : X -> R) k l : (Z.of_nat k <= 2 ^ 52)%Z -> Forall (fun s => rel k (f s) (g s)) l -> rel k (lmin (map f l)) (lowest (map g l)).
Proof.
  intros Hk H. destruct H as [|s l Hs Hl]; [apply rel_0|]. cbn [map lmin lowest]. revert Hs. generalize (f s), (g s). induction Hl as [|t l Ht _ IH]; intros x e Hs; cbn [map fold_left]; [exact Hs|].
  apply IH. now apply rel_min.
Qed.
Lemma lmax_rel {X : Type} (f : X -> f64) (g : X -> R) k l : (Z.of_nat k <= 2 ^ 52)%Z -> Forall (fun s => rel k (f s) (g s)) l -> rel k (lmax (map f l)) (highest (map g l)).
Proof.
  intros Hk H. destruct H as [|s l Hs Hl]; [apply rel_0|]. cbn [map lmax highest]. revert Hs. generalize (f s), (g s). induction Hl as [|t l Ht _ IH]; intros x e Hs; cbn [map fold_left]; [exact Hs|].
  apply IH. now apply rel_max.
Qed.

(** ** Trees *)
Lemma Rsum_flat {X Y : Type} (w : Y -> R) (lv : X -> list Y) l : Rsum (map w (flat_map lv l)) = Rsum (map (fun s => Rsum (map w (lv s))) l).
Proof. induction l as [|s l IH]; cbn [flat_map map Rsum]; [reflexivity|]. now rewrite map_app, Rsum_app, IH. Qed.
Lemma Rsum_mono {X : Type} (f g : X -> R) l : Forall (fun s => f s <= g s) l -> Rsum (map f l) <= Rsum (map g l).
Proof. induction 1; cbn [map Rsum]; lra. Qed.
Lemma Rsum_in {X : Type} (f : X -> R) l s : Forall (fun s => 0 <= f s) l -> In s l -> f s <= Rsum (map f l).
Proof.
  induction 1 as [|t l Ht Hl IH]; intros []; cbn [map Rsum].
  - subst t. assert (0 <= Rsum (map f l)) by (apply Rsum_nonneg; now rewrite Forall_map). lra.
  - specialize (IH H). lra.
Qed.
Lemma list_max_in {X : Type} (f : X -> nat) l s : In s l -> (f s <= list_max (map f l))%nat.
Proof. intros H. pose proof (proj1 (list_max_le (map f l) _) (le_n _)) as K. rewrite Forall_forall in K. apply K. now apply in_map. Qed.

(** What a way of combining values has to satisfy. *)
Definition sound (f : list f64 -> f64) (g : list R -> R) : Prop := forall (X : Type) (a : X -> f64) (b : X -> R) k l,
  Forall (fun s => rel k (a s) (b s)) l -> (Z.of_nat (k + length l) <= 2 ^ 52)%Z -> Rsum (map b l) <= bound ->
  rel (k + length l) (f (map a l)) (g (map b l)) /\ g (map b l) <= Rsum (map b l).
Lemma rel_more k j x e : rel k x e -> (k <= j)%nat -> rel j x e.
Proof. intros [C P] L. split; [now apply (close_more k)|exact P]. Qed.
Lemma sound_sum : sound nsum Rsum.
Proof.
  intros X a b k l H Hk Hb. destruct (nsum_close a b b k l) as [A B].
  - apply Forall_impl with (2 := H). intros s [C P]. split; [exact C|]. rewrite Rabs_pos_eq by exact P. lra.
  - exact Hk.
  - exact Hb.
  - split; [|lra]. split; [exact A|]. pose proof (Rabs_pos (Rsum (map b l))). lra.
Qed.
Lemma lowest_in x t : In (fold_left Rmin t x) (x :: t).
Proof. revert x. induction t as [|y t IH]; intros x; cbn [fold_left]; [now left|]. destruct (IH (Rmin x y)) as [E|E]; [rewrite <- E; unfold Rmin; destruct (Rle_dec x y); cbn; auto|cbn; auto]. Qed.
Lemma highest_in x t : In (fold_left Rmax t x) (x :: t).
Proof. revert x. induction t as [|y t IH]; intros x; cbn [fold_left]; [now left|]. destruct (IH (Rmax x y)) as [E|E]; [rewrite <- E; unfold Rmax; destruct (Rle_dec x y); cbn; auto|cbn; auto]. Qed.
Lemma Rsum_in_R l x : Forall (fun y => 0 <= y) l -> In x l -> x <= Rsum l.
Proof. intros H I. rewrite <- (map_id l) at 1. apply (Rsum_in (fun y => y)); assumption. Qed.
Lemma sound_min : sound lmin lowest.
Proof.
  intros X a b k l H Hk Hb. split; [apply (rel_more k); [apply lmin_rel; [lia|exact H]|lia]|].
  assert (P : Forall (fun y => 0 <= y) (map b l)) by (rewrite Forall_map; apply Forall_impl with (2 := H); now intros s []).
  destruct l as [|s l]; [cbn; lra|]. apply Rsum_in_R; [exact P|]. apply lowest_in.
Qed.
Lemma sound_max : sound lmax highest.
Proof.
  intros X a b k l H Hk Hb. split; [apply (rel_more k); [apply lmax_rel; [lia|exact H]|lia]|].
  assert (P : Forall (fun y => 0 <= y) (map b l)) by (rewrite Forall_map; apply Forall_impl with (2 := H); now intros s []).
  destruct l as [|s l]; [cbn; lra|]. apply Rsum_in_R; [exact P|]. apply highest_in.
Qed.

Section Trees.
Context {C : Type} (leafv : C -> f64).
Notation leafr := (fun c => fval (leafv c)).
Notation mass := (fun n (u : su f64 C n) => Rsum (map leafr (leaves n u))).

Lemma tree_rel (val : forall n, su f64 C n -> f64) fs fp gs gp :
  (forall c, val 0%nat c = leafv c) -> (forall n c, val (S n) (inl c) = leafv c) ->
  (forall n (m : module f64 (su f64 C n)), val (S n) (inr m) = (if m_series (mm m) then fs else fp) (map (val n) (ms m))) -> sound fs gs -> sound fp gp ->
  forall n u, Forall (fun c => fin (leafv c) /\ 0 <= fval (leafv c)) (leaves n u) -> mass n u <= bound -> (Z.of_nat (adds n u) <= 2 ^ 52)%Z ->
  rel (adds n u) (val n u) (total leafr gs gp n u) /\ total leafr gs gp n u <= mass n u.
Proof.
  intros V0 V1 V2 Ss Sp. assert (L : forall c, fin (leafv c) /\ 0 <= fval (leafv c) -> rel 0 (leafv c) (fval (leafv c)) /\ fval (leafv c) <= fval (leafv c) + 0).
  { intros c [F P]. split; [|lra]. split; [|exact P]. pose proof (close_exact _ F) as E. now rewrite Rabs_pos_eq in E. }
  induction n as [|n IH]; intros u Hl Hm Hk.
  - cbn [leaves adds total map Rsum] in *. rewrite V0. apply L. now inversion Hl.
  - destruct u as [c|m].
    + cbn [leaves adds total map Rsum] in *. rewrite V1. apply L. now inversion Hl.
    + cbn [leaves adds total] in *. rewrite V2. rewrite Rsum_flat in Hm |- *. set (K := list_max (map (adds n) (ms m))) in *.
      assert (Hl' : Forall (fun s => Forall (fun c => fin (leafv c) /\ 0 <= fval (leafv c)) (leaves n s)) (ms m)).
      { rewrite Forall_forall in *. intros s Hs. rewrite Forall_forall. intros c Hc. apply Hl. apply in_flat_map. eauto. }
      assert (P : Forall (fun s => 0 <= mass n s) (ms m)).
      { apply Forall_impl with (2 := Hl'). intros s Hs. apply Rsum_nonneg. rewrite Forall_map. apply Forall_impl with (2 := Hs). now intros c []. }
      assert (G : Forall (fun s => rel K (val n s) (total leafr gs gp n s) /\ total leafr gs gp n s <= mass n s) (ms m)).
      { rewrite Forall_forall in *. intros s Hs. assert (D : (adds n s <= K)%nat) by (apply list_max_in; exact Hs).
        destruct (IH s) as [A B]; [apply Hl'; exact Hs| |lia|split; [apply (rel_more _ _ _ _ A D)|exact B]].
        apply Rle_trans with (2 := Hm). apply (Rsum_in (fun s => mass n s)); [rewrite Forall_forall; exact P|exact Hs]. }
      assert (T : Rsum (map (total leafr gs gp n) (ms m)) <= Rsum (map (fun s => mass n s) (ms m))) by (apply Rsum_mono; apply Forall_impl with (2 := G); now intros s []).
      assert (GR : Forall (fun s => rel K (val n s) (total leafr gs gp n s)) (ms m)) by (apply Forall_impl with (2 := G); now intros s []).
      cbv beta in *. pose proof (Rle_trans _ _ _ T Hm) as TB.
      destruct (m_series (mm m)); [destruct (Ss _ (val n) (total leafr gs gp n) K (ms m) GR Hk TB) as [A B]|destruct (Sp _ (val n) (total leafr gs gp n) K (ms m) GR Hk TB) as [A B]];
        (split; [exact A|exact (Rle_trans _ _ _ B T)]).
Qed.

(** Currents: of the first child in series, the sum in parallel. *)
Lemma tree_current (val : forall n, su f64 C n -> f64) :
  (forall c, val 0%nat c = leafv c) -> (forall n c, val (S n) (inl c) = leafv c) ->
  (forall n (m : module f64 (su f64 C n)), val (S n) (inr m) = if m_series (mm m) then match ms m with [] => nZ 0 | s :: _ => val n s end else nsum (map (val n) (ms m))) ->
  forall n u, Forall (fun c => fin (leafv c)) (leaves n u) -> Rsum (map (fun c => Rabs (fval (leafv c))) (leaves n u)) <= bound -> (Z.of_nat (adds n u) <= 2 ^ 52)%Z ->
  let e := total leafr first Rsum n u in let m := total (fun c => Rabs (fval (leafv c))) first Rsum n u in
  close (adds n u) (val n u) e m /\ Rabs e <= m <= Rsum (map (fun c => Rabs (fval (leafv c))) (leaves n u)).
Proof.
  intros V0 V1 V2. cbv zeta. set (la := fun c => Rabs (fval (leafv c))).
  assert (L : forall c, fin (leafv c) -> close 0 (leafv c) (fval (leafv c)) (la c) /\ Rabs (fval (leafv c)) <= la c <= la c + 0).
  { intros c F. unfold la. split; [now apply close_exact|]. lra. }
  induction n as [|n IH]; intros u Hl Hm Hk.
  - cbn [leaves adds total map Rsum] in *. rewrite V0. apply L. now inversion Hl.
  - destruct u as [c|m].
    + cbn [leaves adds total map Rsum] in *. rewrite V1. apply L. now inversion Hl.
    + cbn [leaves adds total] in *. rewrite V2. rewrite Rsum_flat in Hm |- *. set (K := list_max (map (adds n) (ms m))) in *.
      assert (P : Forall (fun s => 0 <= Rsum (map la (leaves n s))) (ms m)).
      { rewrite Forall_forall. intros s _. apply Rsum_nonneg. rewrite Forall_map, Forall_forall. intros c _. apply Rabs_pos. }
      assert (G : Forall (fun s => close K (val n s) (total leafr first Rsum n s) (total la first Rsum n s) /\
                                   Rabs (total leafr first Rsum n s) <= total la first Rsum n s <= Rsum (map la (leaves n s))) (ms m)).
      { rewrite Forall_forall in *. intros s Hs. assert (D : (adds n s <= K)%nat) by (apply list_max_in; exact Hs).
        destruct (IH s) as [A B].
        - rewrite Forall_forall. intros c Hc. apply Hl. apply in_flat_map. eauto.
        - apply Rle_trans with (2 := Hm). apply (Rsum_in (fun s => Rsum (map la (leaves n s)))); [rewrite Forall_forall; exact P|exact Hs].
        - lia.
        - split; [|exact B]. apply (close_more _ _ _ _ _ A D). pose proof (Rabs_pos (total leafr first Rsum n s)). lra. }
      assert (T : Rsum (map (total la first Rsum n) (ms m)) <= Rsum (map (fun s => Rsum (map la (leaves n s))) (ms m))) by (apply Rsum_mono; apply Forall_impl with (2 := G); now intros s (_ & _ & ?)).
      destruct (m_series (mm m)).
      * destruct (ms m) as [|s l] eqn:Ems.
        { cbn [map first Rsum length]. rewrite Rabs_R0. split; [|lra]. destruct (rel_0 (K + 0)) as [Z0 _]. exact Z0. }
        inversion G as [|? ? [G1 G2] _]; subst. inversion P as [|? ? P1 P2]; subst. cbn [map first Rsum].
        assert (0 <= Rsum (map (fun s => Rsum (map la (leaves n s))) l)) by (apply Rsum_nonneg; now rewrite Forall_map). split; [|lra].
        apply (close_more _ _ _ _ _ G1); [lia|]. pose proof (Rabs_pos (total leafr first Rsum n s)). lra.
      * destruct (nsum_close (val n) (total leafr first Rsum n) (total la first Rsum n) K (ms m)) as [A B].
        { apply Forall_impl with (2 := G). intros s (G1 & G2 & _). auto. }
        { exact Hk. }
        { lra. }
        split; [exact A|]. lra.
Qed.
End Trees.

(** ** The voltage of a series module *)
Lemma drop_close z : reading_ok z -> size z <= bound -> let '(v, r, i) := z in close 2 (nsub v (nmul r i)) (drop z) (size z) /\ Rabs (drop z) <= size z.
Proof.
  destruct z as [[v r] i]. cbn [reading_ok drop size]. intros (Fv & Fr & Fi & B) Hs. pose proof (bpow_gt_0 radix2 (-960)) as P0. pose proof (bpow_gt_0 radix2 (-1021)) as P1. pose proof eps_pos as EP.
  assert (E1 : eps <= 1 / 100) by (unfold eps; lra).
  destruct (fmul r i Fr Fi) as [Fm Vm]. { apply Rle_trans with (1 := B). apply bpow_le. lia. }
  change (SFmul prec64 emax64 r i) with (nmul r i) in *. pose proof (rnd_abs (fval r * fval i)) as R1. rewrite <- Vm in R1.
  set (p := fval (nmul r i)) in *. set (q := fval r * fval i) in *. set (u := bpow radix2 (-1021)) in *. set (w := bpow radix2 (-960)) in *.
  assert (UW : u <= eps * w). { unfold u, w. rewrite eps_bpow, <- bpow_plus. apply bpow_le. lia. }
  assert (EW : eps * w <= w / 100) by (replace (w / 100) with (1 / 100 * w) by field; apply Rmult_le_compat_r; lra).
  pose proof (Rabs_pos q) as Pq. pose proof (Rabs_pos (fval v)) as Pv.
  assert (EQ : eps * Rabs q <= Rabs q / 100) by (replace (Rabs q / 100) with (1 / 100 * Rabs q) by field; apply Rmult_le_compat_r; lra).
  assert (Hp : Rabs p <= Rabs q + (eps * Rabs q + u)). { replace p with (q + (p - q)) by ring. eapply Rle_trans; [apply Rabs_triang|]. lra. }
  assert (VP : Rabs (fval v - p) <= Rabs (fval v) + Rabs q + (eps * Rabs q + u)). { unfold Rminus. eapply Rle_trans; [apply Rabs_triang|]. rewrite Rabs_Ropp. lra. }
  destruct (fsub v (nmul r i) Fv Fm) as [Fs Vs]. { apply bound_huge. unfold bound in *. fold p. lra. }
  change (SFsub prec64 emax64 v (nmul r i)) with (nsub v (nmul r i)) in *. fold p in Vs.
  pose proof (sub_err _ _ (fmt_val _ Fv) (fmt_val _ Fm)) as R2. fold p in R2. split; [split; [exact Fs|]|].
  - rewrite Vs. replace (rnd (fval v - p) - (fval v - q)) with ((rnd (fval v - p) - (fval v - p)) + (q - p)) by ring.
    eapply Rle_trans; [apply Rabs_triang|]. rewrite (Rabs_minus_sym q p). cbn [INR].
    assert (eps * Rabs (fval v - p) <= eps * (Rabs (fval v) + Rabs q + (Rabs q / 100 + w / 100))) by (apply Rmult_le_compat_l; lra).
    assert (0 <= eps * Rabs q) by (apply Rmult_le_pos; lra). assert (0 <= eps * Rabs (fval v)) by (apply Rmult_le_pos; lra). assert (0 <= eps * w) by (apply Rmult_le_pos; lra). lra.
  - unfold Rminus. eapply Rle_trans; [apply Rabs_triang|]. rewrite Rabs_Ropp. lra.
Qed.
Definition term (z : f64 * f64 * f64) : f64 := let '(v, r, i) := z in nsub v (nmul r i).
Lemma sV_reads {S : Type} (o : su_ops f64 S) l : forall acc rc l' a, sV_loop o acc l rc = (l', a, Ok true) ->
  exists zs, reads o l rc l' zs /\ a = fold_left (fun s x => nadd s x) (map term zs) acc.
Proof.
  induction l as [|s l IH]; intros acc rc l' a H; cbn [sV_loop] in H.
  - injection H as <- <-. exists []. split; [constructor|reflexivity].
  - destruct (o_V o s) as [s' [v| | |]] eqn:E; try discriminate. destruct (nleb v (nZ 0)); [discriminate|]. destruct rc as [|r rc]; [discriminate|].
    destruct (sV_loop o _ l rc) as [[l1 a1] e1] eqn:E1. injection H as <- <- ->. destruct (IH _ _ _ _ E1) as (zs & R & ->).
    exists ((v, r, o_I o s') :: zs). split; [now constructor|reflexivity].
Qed.
Lemma series_V {S : Type} (o : su_ops f64 S) (m m' : module f64 S) x : m_series (mm m) = true -> m_Vok (mm m) = false -> mod_V o m = (m', Ok x) ->
  (m_Vok (mm m') = false /\ x = nZ 0) \/
  exists zs, reads o (ms m) (m_rc (mm m)) (ms m') zs /\
    (Forall reading_ok zs -> Rsum (map size zs) <= bound -> (Z.of_nat (length zs) <= 2 ^ 51)%Z ->
     close (length zs + 2) x (Rsum (map drop zs)) (Rsum (map size zs))).
Proof.
  intros Hs Hv H. unfold mod_V in H. rewrite Hs, Hv in H. destruct (sV_loop o (nZ 0) (ms m) (m_rc (mm m))) as [[l a] e] eqn:E.
  destruct e as [[]| | |]; try discriminate; injection H as <- <-; [right|left; auto].
  destruct (sV_reads _ _ _ _ _ _ E) as (zs & R & ->). exists zs. split; [exact R|]. intros Hz Hb Hn.
  assert (Pz : Forall (fun z => 0 <= size z) zs).
  { rewrite Forall_forall. intros [[v r] i] _. cbn [size]. pose proof (Rabs_pos (fval v)). pose proof (Rabs_pos (fval r * fval i)). pose proof (bpow_gt_0 radix2 (-960)). lra. }
  destruct (nsum_close term drop size 2 zs) as [A _].
  - rewrite Forall_forall in *. intros z Iz. assert (B : size z <= bound) by (apply Rle_trans with (2 := Hb); apply Rsum_in; [now rewrite Forall_forall|exact Iz]).
    pose proof (drop_close z (Hz z Iz) B) as D. destruct z as [[v r] i]. exact D.
  - lia.
  - exact Hb.
  - rewrite Nat.add_comm. exact A.
Qed.
