(** * C89: totals of packs in double arithmetic *)
From Coq Require Import Reals Lra Lia SpecFloat ZArith List Bool Permutation.
Import ListNotations.
From Flocq Require Import Core BinarySingleNaN.
From Verif Require Import Base RFacts StatusModel UtilModel CellModel CoolModel ModuleModel ModuleSpec FloatSpec FloatFacts FloatEcm FloatPackSpec FloatPack.
Local Open Scope R_scope.

(** The code leaves the order of its sums to the library: in any order a sum of at most 2^52 finite doubles, whose magnitudes add up to
    at most 2^1000, is finite and within two rounding units of these magnitudes per addition of the exact sum. *)
Theorem C89_any_order : forall xs s, dsum xs s -> Forall fin xs -> (Z.of_nat (length xs) <= 2 ^ 52)%Z ->
  Rsum (map (fun x => Rabs (fval x)) xs) <= bpow radix2 1000 ->
  fin s /\ Rabs (fval s - Rsum (map fval xs)) <= INR (length xs - 1) * (2 * eps) * Rsum (map (fun x => Rabs (fval x)) xs).
Proof. intros xs s D F L B. destruct (any_order xs s D F L B) as [C _]. exact C. Qed.
Print Assumptions C89_any_order.

(** The model's order is one of them. *)
Theorem C89_model_order : forall xs : list f64, dsum (nZ 0 :: xs) (nsum xs).
Proof.
  assert (H : forall (xs l : list f64) a, dsum l a -> dsum (l ++ xs) (fold_left (fun s x => nadd s x) xs a)).
  { induction xs as [|x xs IH]; intros l a D; cbn [fold_left]; [now rewrite app_nil_r|]. replace (l ++ x :: xs) with ((l ++ [x]) ++ xs) by now rewrite <- app_assoc.
    apply IH. apply (dsum_add l [x]); [exact D|constructor|reflexivity]. }
  intros xs. exact (H xs [nZ 0] (nZ 0) (dsum_one _)).
Qed.
Print Assumptions C89_model_order.

(** Capacity of any tree of modules of any cells: the lowest in series, the sum in parallel, of the cells' exact capacities, up to two
    rounding units of it per addition on the way. *)
Theorem C89_capacity : forall (C : Type) (oc : su_ops f64 C) tm n (u : su f64 C n),
  let cap c := fval (o_Cap oc c) in
  Forall (fun c => fin (o_Cap oc c) /\ 0 <= cap c) (leaves n u) -> Rsum (map cap (leaves n u)) <= bpow radix2 1000 -> (Z.of_nat (adds n u) <= 2 ^ 52)%Z ->
  let e := total cap lowest Rsum n u in
  close (adds n u) (o_Cap (su_ops_at oc tm n) u) e e.
Proof.
  intros C oc tm n u cap H1 H2 H3 e.
  destruct (tree_rel (fun c => o_Cap oc c) (fun n u => o_Cap (su_ops_at oc tm n) u) lmin nsum lowest Rsum) with (n := n) (u := u) as [[A _] _]; try exact A; try reflexivity; try assumption.
  - intros k m. change (mod_Cap (su_ops_at oc tm k) m = (if m_series (mm m) then lmin else nsum) (map (fun u0 => o_Cap (su_ops_at oc tm k) u0) (ms m))). unfold mod_Cap. now destruct (m_series (mm m)).
  - exact sound_min.
  - exact sound_sum.
Qed.
Print Assumptions C89_capacity.

(** Voltage limits likewise: sums in series, the tightest in parallel. *)
Theorem C89_limits : forall (C : Type) (oc : su_ops f64 C) tm n (u : su f64 C n) (lim : limits f64 -> f64),
  let v c := fval (lim (o_lim oc c)) in
  Forall (fun c => fin (lim (o_lim oc c)) /\ 0 <= v c) (leaves n u) -> Rsum (map v (leaves n u)) <= bpow radix2 1000 -> (Z.of_nat (adds n u) <= 2 ^ 52)%Z ->
  (lim = l_Vmin \/ lim = l_VMIN -> let e := total v Rsum highest n u in close (adds n u) (lim (o_lim (su_ops_at oc tm n) u)) e e) /\
  (lim = l_Vmax \/ lim = l_VMAX -> let e := total v Rsum lowest n u in close (adds n u) (lim (o_lim (su_ops_at oc tm n) u)) e e).
Proof.
  intros C oc tm n u lim v H1 H2 H3.
  assert (U : forall fp gp, sound fp gp -> (forall (k : nat) (m : module f64 (su f64 C k)), lim (mod_lim (su_ops_at oc tm k) m) =
      (if m_series (mm m) then nsum else fp) (map (fun s => lim (o_lim (su_ops_at oc tm k) s)) (ms m))) ->
    close (adds n u) (lim (o_lim (su_ops_at oc tm n) u)) (total v Rsum gp n u) (total v Rsum gp n u)).
  { intros fp gp Sp E. destruct (tree_rel (fun c => lim (o_lim oc c)) (fun n u => lim (o_lim (su_ops_at oc tm n) u)) nsum fp Rsum gp) with (n := n) (u := u) as [[A _] _]; try exact A; try reflexivity; try assumption.
    exact sound_sum. }
  assert (E : forall (k : nat) (m : module f64 (su f64 C k)) (f : limits f64 -> f64), map f (map (o_lim (su_ops_at oc tm k)) (ms m)) = map (fun s => f (o_lim (su_ops_at oc tm k) s)) (ms m)) by (intros; apply map_map).
  split; intros L; cbv zeta.
  - apply (U lmax highest sound_max). intros k m. unfold mod_lim. destruct L as [-> | ->]; destruct (m_series (mm m)); cbn [l_Vmin l_VMIN]; now rewrite E.
  - apply (U lmin lowest sound_min). intros k m. unfold mod_lim. destruct L as [-> | ->]; destruct (m_series (mm m)); cbn [l_Vmax l_VMAX]; now rewrite E.
Qed.
Print Assumptions C89_limits.

(** Current: of the first child in series, the sum in parallel. *)
Theorem C89_current : forall (C : Type) (oc : su_ops f64 C) tm n (u : su f64 C n),
  let cur c := fval (o_I oc c) in
  Forall (fun c => fin (o_I oc c)) (leaves n u) -> Rsum (map (fun c => Rabs (cur c)) (leaves n u)) <= bpow radix2 1000 -> (Z.of_nat (adds n u) <= 2 ^ 52)%Z ->
  close (adds n u) (o_I (su_ops_at oc tm n) u) (total cur first Rsum n u) (total (fun c => Rabs (cur c)) first Rsum n u).
Proof.
  intros C oc tm n u cur H1 H2 H3.
  destruct (tree_current (fun c => o_I oc c) (fun n u => o_I (su_ops_at oc tm n) u)) with (n := n) (u := u) as [A _]; try exact A; try reflexivity; assumption.
Qed.
Print Assumptions C89_current.

(** Voltage of a series module of any units: what its children report less the drops over their contacts, each product and difference
    counted as an addition. *)
Theorem C89_series_voltage : forall (S : Type) (o : su_ops f64 S) (m m' : module f64 S) x,
  m_series (mm m) = true -> m_Vok (mm m) = false -> mod_V o m = (m', Ok x) -> m_Vok (mm m') = true ->
  exists zs, reads o (ms m) (m_rc (mm m)) (ms m') zs /\
    (Forall reading_ok zs -> Rsum (map size zs) <= bpow radix2 1000 -> (Z.of_nat (length zs) <= 2 ^ 51)%Z ->
     close (length zs + 2) x (Rsum (map drop zs)) (Rsum (map size zs))).
Proof. intros S o m m' x Hs Hv H K. destruct (series_V o m m' x Hs Hv H) as [[E _]|R]; [congruence|exact R]. Qed.
Print Assumptions C89_series_voltage.

(** The bounds are not zero: three cells of 0.1 Ah in parallel have more than 0.3 Ah; and the order matters. *)
Definition tenth_cell : ecmu f64 := Eval vm_compute in mkEu true (match ecm_make 0 (nlit 1 10) (nlit 1 2) with Ok c => c | _ => ecm_default 0 end).
Definition bank (series : bool) (k : nat) (c : ecmu f64) : res (module f64 (ecmu f64)) :=
  rmap (fun m => mod_setSUs ecm_ops (repeat c k) m) (mod_make (ecmu f64) series (nZ 288) false k 1 0 false).
Theorem C89_exact_refuted : exists m : module f64 (ecmu f64), bank false 3 tenth_cell = Ok m /\ nltb (nlit 3 10) (mod_Cap ecm_ops m) = true.
Proof. eexists. split; vm_compute; reflexivity. Qed.
Print Assumptions C89_exact_refuted.
Theorem C89_order_refuted : exists (xs : list f64) s t, dsum xs s /\ dsum xs t /\ neqb s t = false.
Proof.
  exists [nlit 1 10; nlit 2 10; nlit 3 10], (nadd (nadd (nlit 1 10) (nlit 2 10)) (nlit 3 10)), (nadd (nlit 1 10) (nadd (nlit 2 10) (nlit 3 10))). split; [|split].
  - apply (dsum_add [nlit 1 10; nlit 2 10] [nlit 3 10]); [|constructor|reflexivity]. apply (dsum_add [nlit 1 10] [nlit 2 10]); [constructor|constructor|reflexivity].
  - apply (dsum_add [nlit 1 10] [nlit 2 10; nlit 3 10]); [constructor| |reflexivity]. apply (dsum_add [nlit 2 10] [nlit 3 10]); [constructor|constructor|reflexivity].
  - vm_compute. reflexivity.
Qed.
Print Assumptions C89_order_refuted.

(** Two banks of three default cells in parallel, in series: 48 Ah, with at most five additions. *)
Definition big_cell : ecmu f64 := mkEu true (ecm_default 0).
Definition bank_rec (series : bool) (l : list f64) : modrec f64 :=
  match mod_make (ecmu f64) series (nZ 288) false 3 1 0 false with Ok m => set_rc (mm m) l | _ => set_rc (mm (mkM (mkMod series [] (cool_make 1 1) (nZ 0) (nZ 0) (nZ 0) (nZ 0) 0 (nZ 0) false false false false) (@nil (ecmu f64)))) l end.
Definition two_banks : su f64 (ecmu f64) 2 :=
  inr (mkM (bank_rec true [nZ 0; nZ 0]) (repeat (inr (mkM (bank_rec false [nZ 0; nZ 0; nZ 0]) (repeat big_cell 3)) : su f64 (ecmu f64) 1) 2)).
Example C89_inhabited : close 5 (o_Cap (su_ops_at ecm_ops 0 2) two_banks) 48 48 /\ close 5 (l_Vmax (o_lim (su_ops_at ecm_ops 0 2) two_banks)) (2 * fval (nlit 42 10)) (2 * fval (nlit 42 10)).
Proof.
  assert (V42 : fin (nlit 42 10) /\ 4 <= fval (nlit 42 10) <= 5).
  { assert (E : (nlit 42 10 : f64) = S754_finite false 4728779608739021 (-50)) by (vm_compute; reflexivity). rewrite E. split; [split; vm_compute; reflexivity|].
    unfold fval, SF2R, F2R. cbn [Defs.Fnum Defs.Fexp cond_Zopp]. change (bpow radix2 (-50)) with (/ 1125899906842624). split; lra. }
  destruct (fnZ 16) as [F V]; [easy|]. split.
  - pose proof (C89_capacity (ecmu f64) ecm_ops 0 2 two_banks) as H. cbv zeta in H.
    assert (L : leaves 2 two_banks = repeat big_cell 6) by reflexivity. assert (N : adds 2 two_banks = 5%nat) by reflexivity.
    assert (T : total (fun c => fval (o_Cap ecm_ops c)) lowest Rsum 2 two_banks = 48).
    { change (Rmin (fval (nZ 16) + (fval (nZ 16) + (fval (nZ 16) + 0))) (fval (nZ 16) + (fval (nZ 16) + (fval (nZ 16) + 0))) = 48). rewrite V. rewrite Rmin_left; lra. }
    rewrite L, N, T in H. apply H.
    + apply Forall_forall. intros c Hc. apply repeat_spec in Hc. subst c. change (fin (nZ 16) /\ 0 <= fval (nZ 16)). rewrite V. split; [exact F|lra].
    + change (fval (nZ 16) + (fval (nZ 16) + (fval (nZ 16) + (fval (nZ 16) + (fval (nZ 16) + (fval (nZ 16) + 0))))) <= bpow radix2 1000). rewrite V. apply Rle_trans with (bpow radix2 7); [change (bpow radix2 7) with 128; lra|apply bpow_le; lia].
    + lia.
  - destruct (C89_limits (ecmu f64) ecm_ops 0 2 two_banks l_Vmax) as [_ H].
    + apply Forall_forall. intros c Hc. change (In c (repeat big_cell 6)) in Hc. apply repeat_spec in Hc. subst c. change (fin (nlit 42 10) /\ 0 <= fval (nlit 42 10)). split; [apply V42|destruct V42; lra].
    + destruct V42 as [_ V42]. set (x := fval (nlit 42 10)) in *. change (x + (x + (x + (x + (x + (x + 0))))) <= bpow radix2 1000). apply Rle_trans with (bpow radix2 7); [change (bpow radix2 7) with 128; lra|apply bpow_le; lia].
    + vm_compute. discriminate.
    + cbv zeta in H. set (x := fval (nlit 42 10)) in *.
      assert (T : total (fun c : ecmu f64 => fval (l_Vmax (o_lim ecm_ops c))) Rsum lowest 2 two_banks = 2 * x).
      { change (Rmin (Rmin x x) x + (Rmin (Rmin x x) x + 0) = 2 * x). rewrite !(Rmin_left x x) by lra. ring. }
      rewrite T in H. apply H. now left.
Qed.

(** Two default cells in series. *)
Definition half_volt : f64 := Eval vm_compute in match ecm_V (u_ecm big_cell) with Ok v => v | _ => nZ 0 end.
Example C89_voltage_inhabited : exists m m' x, bank true 2 big_cell = Ok m /\ mod_V ecm_ops m = (m', Ok x) /\ m_Vok (mm m) = false /\ m_Vok (mm m') = true /\
  nltb (nZ 6) x = true /\ close 4 x (fval half_volt + fval half_volt) (Rabs (fval half_volt) + bpow radix2 (-960) + (Rabs (fval half_volt) + bpow radix2 (-960))).
Proof.
  destruct (bank true 2 big_cell) as [m| | |] eqn:E; try (vm_compute in E; discriminate E). destruct (mod_V ecm_ops m) as [m' r] eqn:EV.
  assert (Em : m = match bank true 2 big_cell with Ok m => m | _ => m end) by now rewrite E.
  assert (K : m_series (mm m) = true /\ m_Vok (mm m) = false /\ ms m = [big_cell; big_cell] /\ m_rc (mm m) = [nZ 0; nZ 0]) by (rewrite Em; vm_compute; repeat split; reflexivity).
  destruct K as (K1 & K2 & K3 & K4). assert (EV2 : mod_V ecm_ops (match bank true 2 big_cell with Ok m => m | _ => m end) = (m', r)) by now rewrite <- Em.
  assert (X : exists x, r = Ok x /\ m_Vok (mm m') = true /\ nltb (nZ 6) x = true).
  { rewrite E in Em. clear E Em. vm_compute in EV2. injection EV2 as <- <-. eexists. split; [reflexivity|]. split; vm_compute; reflexivity. }
  destruct X as (x & -> & X1 & X2). exists m, m', x. split; [reflexivity|]. split; [exact EV|]. split; [exact K2|]. split; [exact X1|]. split; [exact X2|].
  destruct (C89_series_voltage _ ecm_ops m m' x K1 K2 EV X1) as (zs & R & H). rewrite K3, K4 in R.
  assert (VV : o_V ecm_ops big_cell = (big_cell, Ok half_volt)) by (vm_compute; reflexivity). assert (VI : o_I ecm_ops big_cell = nZ 0) by reflexivity.
  assert (Z : zs = [(half_volt, nZ 0, nZ 0); (half_volt, nZ 0, nZ 0)]).
  { inversion R as [|? ? ? ? ? ? ? ? G1 G2]; subst. rewrite VV in G1. injection G1 as <- <-. inversion G2 as [|? ? ? ? ? ? ? ? G3 G4]; subst. rewrite VV in G3. injection G3 as <- <-. inversion G4; subst. rewrite VI. reflexivity. }
  subst zs. clear - H. destruct (fnZ 0) as [F0 V0]; [easy|]. assert (Fh : fin half_volt) by (split; vm_compute; reflexivity).
  assert (Bh : Rabs (fval half_volt) <= 4).
  { unfold half_volt, fval, SF2R, F2R. cbn [Defs.Fnum Defs.Fexp cond_Zopp]. match goal with |- Rabs (_ * bpow radix2 ?k) <= _ => change (bpow radix2 k) with (/ IZR (2 ^ (- k))); cbn [Z.opp] end. change (2 ^ 51)%Z with 2251799813685248%Z. rewrite Rabs_pos_eq by lra. lra. }
  cbn [map size drop Rsum length Nat.add] in H. rewrite V0, !Rmult_0_l, !Rabs_R0, !Rminus_0_r, !Rplus_0_r in H. apply H.
  - assert (G : reading_ok (half_volt, nZ 0, nZ 0)) by (split; [exact Fh|]; split; [exact F0|]; split; [exact F0|]; rewrite V0, Rmult_0_l, Rabs_R0; apply bpow_ge_0).
    exact (Forall_cons _ G (Forall_cons _ G (Forall_nil _))).
  - assert (bpow radix2 (-960) <= bpow radix2 0) by (apply bpow_le; lia). change (bpow radix2 0) with 1 in *. apply Rle_trans with (bpow radix2 4); [change (bpow radix2 4) with 16; lra|apply bpow_le; lia].
  - vm_compute. discriminate.
Qed.
