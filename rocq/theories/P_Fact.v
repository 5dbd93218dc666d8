(** * C69: the pack factories build the pack their name says *)
From Coq Require Import String Lra.
From Verif Require Import Base RFacts StatusModel UtilModel CellModel CoolModel ModuleModel ModuleSpec ModuleProofs2 BattModel BattProofs
  SpmModel SpmUnitModel FactModel FactSpec FactProofs FactProofs2.

(** Cells that can always be built and count as one cell. *)
Definition buildable {A C : Type} (mk : string -> A -> A -> A -> A -> res C) (oc : su_ops A C) : Prop :=
  (forall s a b c d, exists x, mk s a b c d = Ok x) /\ (forall x, o_N oc x = 1%nat).
(** The outermost module of a battery, which must exist, satisfies [P]; the battery's cooling system [K]. *)
Definition module_of {A S : Type} (b : batt A S) (P : module A S -> cool A -> Prop) : Prop :=
  exists m k, bt_body b = Some (m, k) /\ P m k.

(** Every regular nesting of levels with plain or open cooling, any number of levels and parts, any random engine and spreads,
    doubles and reals: the battery is built; its modules have the given connections, contact resistances, cooling and control at
    every level; the cells are made in order, each with its own draws; the battery's own cooling is an HVAC system for all cells. *)
Theorem C69_layout : forall (A : Type) (NA : Num A) G (dc dr dd : G -> A * G) C (mk : string -> A -> A -> A -> A -> res C) oc tm f ctrl top ls g,
  carrier_ok A -> buildable mk oc -> Forall (fun v => v_cool v = 0%Z \/ v_cool v = 2%Z) (top :: ls) ->
  exists b g', pack dc dr dd mk oc tm f ctrl top ls g = Ok (b, g') /\
    module_of b (fun m k =>
      regular ctrl true (top :: ls) (mlayout (view (length ls)) m) /\
      made dc dr dd mk f (flat_map (indices ls) (seq 0 (v_n top))) g (leaves (mlayout (view (length ls)) m)) g' /\
      cooling_type k = 1%Z /\ k_N k = prodn (top :: ls) /\ k_ctrl k = ctrl).
Proof.
  intros A NA G dc dr dd C mk oc tm f ctrl top ls g OK [HT H1] HP.
  destruct (pack_fine OK dc dr dd mk oc tm HT H1 f ctrl top ls g HP) as (b & g' & m & k & h & E & Hb & _ & _ & _ & HR & HM & Hk & HN & HC).
  exists b, g'. split; [exact E|]. exists m, k. split; [exact Hb|]. split; [exact HR|]. split; [|split; [|split; assumption]].
  - change (leaves (mlayout (view (length ls)) m)) with (flat_map leaves (map (view (length ls)) (ms m))).
    rewrite (flat_map_concat_map leaves), map_map, <- flat_map_concat_map. exact HM.
  - unfold cooling_type. now rewrite Hk.
Qed.
Print Assumptions C69_layout.
(** Both carriers qualify. *)
Theorem C69_carriers : carrier_ok f64 /\ carrier_ok R.
Proof. exact (conj carrier_f64 carrier_R). Qed.
Print Assumptions C69_carriers.

(** The six factories, whatever the flags, the control strategy and the resistance multiplier: number of cells, and the numbers
    of parts in series or parallel per level. *)
Definition built {A C G : Type} {NA : Num A} (oc : su_ops A C) (tm : Z) (ctrl : Z) {n : nat} (r : res (batt A (su A C n) * G))
  (cells : Z) (shape : list (bool * nat * A * Z * bool)) : Prop :=
  exists b g', r = Ok (b, g') /\ batt_N (su_ops_at oc tm n) tm b = Ok cells /\
    module_of b (fun m _ => exists ls, regular ctrl true ls (mlayout (view n) m) /\ map (fun v => (v_ser v, v_n v, v_rc v, v_cool v, v_par v)) ls = shape).
Theorem C69_factories : forall (A : Type) (NA : Num A) G (dc dr dd : G -> A * G) C (mk : string -> A -> A -> A -> A -> res C) oc tm f (contact : bool) ctrl RM g,
  carrier_ok A -> buildable mk oc ->
  (* contact resistances: between parallel strings and between cells in series; of modules and of cells, times the multiplier *)
  let on (x : A) := if contact then x else nZ 0 in
  let rp := on (ndiv (nlit 1 1000) (nZ 5)) in let rs := on (nlit 1 10000) in
  let rm := on (nmul (nmul (nlit 1 4) (nlit 1 1000)) RM) in let rc := on (nmul (nmul (nlit 75 10000) (nlit 1 1000)) RM) in
  let rm' := on (nmul (nlit 25 100000) RM) in let rc' := on (nmul (nlit 75 10000000) RM) in
  built oc tm ctrl (makeBattery dc dr dd mk oc tm f contact ctrl g) 2700
    [(false, 9%nat, rp, 2%Z, true); (true, 15%nat, rs, 2%Z, false); (true, 20%nat, rs, 0%Z, false)] /\
  built oc tm ctrl (makeBattery2 dc dr dd mk oc tm f contact ctrl g) 2700
    [(true, 20%nat, rs, 2%Z, true); (true, 15%nat, rs, 2%Z, false); (false, 9%nat, rp, 0%Z, false)] /\
  built oc tm ctrl (makeBattery_EPFL_smaller dc dr dd mk oc tm f contact ctrl RM g) 126
    [(false, 2%nat, rm, 2%Z, true); (true, 3%nat, rm, 2%Z, false); (true, 3%nat, rc, 0%Z, false); (false, 7%nat, rc, 2%Z, false)] /\
  built oc tm ctrl (makeBattery_EPFL dc dr dd mk oc tm f contact ctrl RM g) 18900
    [(false, 9%nat, rm', 2%Z, true); (true, 15%nat, rm', 2%Z, false); (true, 20%nat, rc', 0%Z, false); (false, 7%nat, rc', 2%Z, false)] /\
  built oc tm ctrl (makeBattery_Test dc dr dd mk oc tm f contact ctrl RM g) 72
    [(false, 3%nat, rm, 2%Z, true); (true, 2%nat, rm, 2%Z, false); (true, 4%nat, rc, 0%Z, false); (false, 3%nat, rc, 2%Z, false)] /\
  built oc tm ctrl (makeBattery_TestParallel dc dr dd mk oc tm f contact ctrl RM g) 3 [(false, 3%nat, rc, 2%Z, false)].
Proof.
  intros A NA G dc dr dd C mk oc tm f contact ctrl RM g OK [HT H1]. cbv zeta.
  assert (X : forall top ls cells shape, Forall plain (top :: ls) -> Z.of_nat (prodn (top :: ls)) = cells ->
     map (fun v => (v_ser v, v_n v, v_rc v, v_cool v, v_par v)) (top :: ls) = shape -> built oc tm ctrl (pack dc dr dd mk oc tm f ctrl top ls g) cells shape).
  { intros top ls cells shape HP Hc Hs.
    destruct (pack_fine OK dc dr dd mk oc tm HT H1 f ctrl top ls g HP) as (b & g' & m & k & h & E & Hb & S1 & S2 & HN & HR & _).
    exists b, g'. split; [exact E|]. split; [|exists m, k; split; [exact Hb|]; exists (top :: ls); split; [exact HR|exact Hs]].
    unfold batt_N, read_cells. rewrite Hb, S1, S2. change (o_N (mod_ops (su_ops_at oc tm (length ls)) tm) m) with (m_N (mm m)).
    rewrite HN, Hc, !Z.mul_1_r. reflexivity. }
  assert (P0 : forall s n rc p, plain (mkLev (A := A) s n rc 0 p)) by (now left).
  assert (P2 : forall s n rc p, plain (mkLev (A := A) s n rc 2 p)) by (now right).
  assert (N4 : forall a b c d : level A, Z.of_nat (prodn [a; b; c; d]) = (Z.of_nat (v_n a) * Z.of_nat (v_n b) * Z.of_nat (v_n c) * Z.of_nat (v_n d))%Z)
    by (intros; cbn [prodn fold_right]; rewrite !Nat2Z.inj_mul; cbn [Z.of_nat]; ring).
  assert (N3 : forall a b c : level A, Z.of_nat (prodn [a; b; c]) = (Z.of_nat (v_n a) * Z.of_nat (v_n b) * Z.of_nat (v_n c))%Z)
    by (intros; cbn [prodn fold_right]; rewrite !Nat2Z.inj_mul; cbn [Z.of_nat]; ring).
  split; [|split; [|split; [|split; [|split]]]]; apply X;
    try reflexivity; try (rewrite N4; reflexivity); try (rewrite N3; reflexivity); repeat (apply Forall_cons; auto).
Qed.
Print Assumptions C69_factories.

(** Without spreads every cell is made with factors 1 and the random engine is not used. *)
Theorem C69_no_spread : forall (A : Type) (NA : Num A) G (dc dr dd : G -> A * G) C (mk : string -> A -> A -> A -> A -> res C) is g xs g',
  made dc dr dd mk (mkSpr false false false) is g xs g' ->
  g' = g /\ Forall2 (fun i x => mk (append "cell" (to_string i)) (nZ 1) (nZ 1) (nZ 1) (nZ 1) = Ok x) is xs.
Proof.
  intros *. remember (mkSpr false false false) as f. induction 1 as [|i is g g1 g2 g3 g4 g' a b c d x xs D1 D2 D3 D4 E _ [-> IH]]; [auto|].
  subst f. cbn in D1, D2, D3, D4. destruct D1 as [-> ->], D2 as [-> ->], D3 as [-> ->], D4 as [-> ->]. split; [reflexivity|].
  constructor; auto.
Qed.
Print Assumptions C69_no_spread.

(** Names: all cells of a pack have different full names, and there is one per cell. *)
Theorem C69_names : forall (A : Type) bat (top : level A) ls,
  NoDup (pack_names bat top ls) /\ length (pack_names bat top ls) = prodn (top :: ls).
Proof.
  intros A bat top ls. split.
  - apply NoDup_flat; [apply seq_NoDup|intros; apply names_NoDup|]. intros x x' y _ _. apply names_distinct.
  - unfold pack_names. cbn [prodn fold_right]. fold (prodn ls). generalize 0%nat as k. induction (v_n top) as [|n IH]; intros k; cbn; [reflexivity|].
    rewrite app_length, names_length, IH. reflexivity.
Qed.
Print Assumptions C69_names.

(** ** Size of a pack (reals) *)
Local Open Scope R_scope.

(** Any regular pack: if every cell's capacity and voltage limits lie in given intervals, those of the
    pack lie in the intervals scaled by the number of cells in parallel, respectively in series. *)
Definition between (k : nat) (lo hi x : R) : Prop := INR k * lo <= x <= INR k * hi.
Theorem C69_sizes : forall C (oc : su_ops R C) tm ctrl ls p (u : su R C (length ls)),
  Forall (fun v => (1 <= v_n v)%nat) ls -> regular ctrl p ls (view _ u) ->
  (forall lo hi, Forall (fun c => lo <= o_Cap oc c <= hi) (leaves (view _ u)) -> between (in_parallel ls) lo hi (o_Cap (su_ops_at oc tm _) u)) /\
  (forall lo hi, Forall (fun c => lo <= l_Vmin (o_lim oc c) <= hi) (leaves (view _ u)) -> between (in_series ls) lo hi (l_Vmin (o_lim (su_ops_at oc tm _) u))) /\
  (forall lo hi, Forall (fun c => lo <= l_Vmax (o_lim oc c) <= hi) (leaves (view _ u)) -> between (in_series ls) lo hi (l_Vmax (o_lim (su_ops_at oc tm _) u))) /\
  (forall lo hi, Forall (fun c => lo <= l_VMIN (o_lim oc c) <= hi) (leaves (view _ u)) -> between (in_series ls) lo hi (l_VMIN (o_lim (su_ops_at oc tm _) u))) /\
  (forall lo hi, Forall (fun c => lo <= l_VMAX (o_lim oc c) <= hi) (leaves (view _ u)) -> between (in_series ls) lo hi (l_VMAX (o_lim (su_ops_at oc tm _) u))).
Proof.
  intros C oc tm ctrl ls p u Hn HR.
  assert (MIN : forall k lo hi xs, xs <> [] -> Forall (btw k lo hi) xs -> btw k lo hi (lmin xs)).
  { intros k lo hi xs N F. destruct (lmin_spec xs N) as [HI _]. exact (in_btw _ _ _ _ _ F HI). }
  assert (MAX : forall k lo hi xs, xs <> [] -> Forall (btw k lo hi) xs -> btw k lo hi (lmax xs)).
  { intros k lo hi xs N F. destruct (lmax_spec xs N) as [HI _]. exact (in_btw _ _ _ _ _ F HI). }
  assert (NE : forall X Y (h : X -> Y) l, l <> [] -> map h l <> []) by (intros X Y h l N E; apply map_eq_nil in E; auto).
  repeat split; intros; unfold between.
  1,2: rewrite <- cnt_parallel.
  3-10: rewrite <- cnt_series.
  1,2: apply (agg ctrl negb (o_Cap oc) (fun n u => o_Cap (su_ops_at oc tm n) u) lo hi) with (p := p); auto;
    [intros n m; cbn; unfold mod_Cap; destruct (m_series (mm m)); reflexivity
    |intros n m k N E F; cbn; unfold mod_Cap; destruct (m_series (mm m)); [apply MIN; auto|discriminate]].
  1,2: apply (agg ctrl (fun b => b) (fun c => l_Vmin (o_lim oc c)) (fun n u => l_Vmin (o_lim (su_ops_at oc tm n) u)) lo hi) with (p := p); auto.
  5,6: apply (agg ctrl (fun b => b) (fun c => l_Vmax (o_lim oc c)) (fun n u => l_Vmax (o_lim (su_ops_at oc tm n) u)) lo hi) with (p := p); auto.
  9,10: apply (agg ctrl (fun b => b) (fun c => l_VMIN (o_lim oc c)) (fun n u => l_VMIN (o_lim (su_ops_at oc tm n) u)) lo hi) with (p := p); auto.
  13,14: apply (agg ctrl (fun b => b) (fun c => l_VMAX (o_lim oc c)) (fun n u => l_VMAX (o_lim (su_ops_at oc tm n) u)) lo hi) with (p := p); auto.
  all: try (intros n m; cbn; unfold mod_lim; destruct (m_series (mm m)); [cbn; rewrite map_map; reflexivity|reflexivity]).
  all: intros n m k N E F; cbn in E |- *; unfold mod_lim; rewrite E; cbn [l_Vmin l_Vmax l_VMIN l_VMAX]; rewrite map_map;
    first [apply MAX; auto | apply MIN; auto].
Qed.
Print Assumptions C69_sizes.

(** Equal cells without contact resistances: the resistance of the pack is that of a cell times series over parallel. *)
Theorem C69_resistance : forall C (oc : su_ops R C) tm ctrl r ls p (u : su R C (length ls)), 0 < r ->
  Forall (fun v => (1 <= v_n v)%nat /\ v_rc v = 0) ls -> regular ctrl p ls (view _ u) ->
  Forall (fun c => o_Rtot oc c = Ok r) (leaves (view _ u)) ->
  o_Rtot (su_ops_at oc tm _) u = Ok (r * INR (in_series ls) / INR (in_parallel ls)).
Proof. intros. now apply (rtot_regular oc tm ctrl r) with (p := p). Qed.
Print Assumptions C69_resistance.

(** The same for the open-circuit voltage, which is known when those of the cells are. *)
Theorem C69_ocv : forall C (oc : su_ops R C) tm ctrl lo hi ls p (u : su R C (length ls)),
  Forall (fun v => (1 <= v_n v)%nat) ls -> regular ctrl p ls (view _ u) ->
  Forall (fun c => exists v, o_OCV oc c = Ok v /\ lo <= v <= hi) (leaves (view _ u)) ->
  exists v, o_OCV (su_ops_at oc tm _) u = Ok v /\ between (in_series ls) lo hi v.
Proof.
  intros C oc tm ctrl lo hi. unfold between. induction ls as [|v ls IH]; intros p u Hn HR HL.
  - cbn in HL. inversion HL as [|? ? (v & E & Hv) _]; subst. exists v. cbn. split; [exact E|]. lra.
  - change (length (v :: ls)) with (S (length ls)) in *. destruct u as [c|m]; [inversion HR|].
    change (view (S (length ls)) (inr m)) with (mlayout (view (length ls)) m) in HR, HL.
    unfold mlayout in HR. inversion HR as [|v' ls' ps Lp Hp E1 [E2 E3 E4 E5 E6 E7 E8]]; subst.
    inversion Hn as [|? ? Hv Hn']; subst. rewrite map_length in Lp.
    assert (F : forall w, In w (ms m) -> exists v, o_OCV (su_ops_at oc tm (length ls)) w = Ok v /\ btw (INR (in_series ls)) lo hi v).
    { intros w Hw. apply (IH true); auto.
      - apply Hp. now apply in_map.
      - rewrite Forall_forall in HL |- *. intros c Hc. apply HL. cbn. apply in_flat_map. exists (view _ w). split; [now apply in_map|exact Hc]. }
    assert (Q : exists vs, res_all (map (o_OCV (su_ops_at oc tm (length ls))) (ms m)) = Ok vs /\ length vs = length (ms m) /\
                  Forall (btw (INR (in_series ls)) lo hi) vs).
    { clear - F. induction (ms m) as [|w l IHl]; cbn; [exists []; auto|]. destruct (F w (or_introl eq_refl)) as (x & -> & Hx). cbn [rbind].
      destruct IHl as (vs & -> & L & Fv); [intros; apply F; now right|]. exists (x :: vs). cbn. auto. }
    destruct Q as (vs & Ev & Lv & Fv).
    assert (Ne : ms m <> []) by (intros E; rewrite E in Lp; cbn in Lp; lia).
    assert (Nv : vs <> []) by (intros E; rewrite E in Lv; cbn in Lv; lia).
    change (o_OCV (su_ops_at oc tm (S (length ls))) (inr m)) with (mod_OCV (su_ops_at oc tm (length ls)) m). unfold mod_OCV.
    destruct (ms m) as [|w l] eqn:Em; [congruence|]. rewrite <- Em in *. rewrite Ev. cbn [rmap rbind].
    cbn [in_series fold_right]. fold (in_series ls). rewrite <- E2. eexists. split; [reflexivity|].
    destruct (v_ser v).
    + rewrite R_nsum, mult_INR, <- Lp, <- Lv. now apply Rsum_btw.
    + rewrite R_nsum, R_nnat, <- Lv. now apply mean_btw.
Qed.
Print Assumptions C69_ocv.

(** ** The packs of single-particle cells (reals, no spread) *)

(** Matrices whose index of the uniform eigenvector is one of the nodes, so that cells can be built. *)
Definition usable (m : spm_mat R) : Prop := exists i, nth 3 (m_input m) 0 = IZR i /\ (0 <= i < Z.of_nat (length (m_xch m)))%Z.
Lemma setC_builds (fp fn : R) (c : spm R) : usable (q_M (cp c)) -> 0 <= fp <= 1 -> 0 <= fn <= 1 ->
  exists c1, spm_setC fp fn c = (c1, Ok tt) /\ cp c1 = cp c.
Proof.
  intros (i & Hi & Hr) P N. unfold spm_setC. rewrite !R_nZ.
  match goal with |- context [if ?q then _ else _] => destruct q eqn:Q end.
  { exfalso. rewrite !orb_true_iff, !Rltb_true in Q. lra. }
  rewrite Hi. assert (ntrunc (IZR i) = Some i) as ->.
  { cbn [ntrunc RNum]. f_equal. assert (0 <= IZR i) by (apply IZR_le; lia). apply Rtrunc_spec; lra. }
  assert (((0 <=? i)%Z && (i <? Z.of_nat (length (m_xch (q_M (cp c)))))%Z)%bool = true) as -> by lia.
  eexists. split; [reflexivity|]. reflexivity.
Qed.
Lemma spm_builds m p n dn dt d a b c e : usable m -> exists x : spm R, spm_make m p n dn dt d a b c e = Ok x /\
  q_cap (cp x) = 16 * a /\ q_lim (cp x) = defaultLimits.
Proof.
  intros U. unfold spm_make, spm_default.
  match goal with |- context [spm_setC ?x ?y ?z] => destruct (setC_builds x y z) as (c1 & E & Ec) end.
  { exact U. }
  1,2: rewrite R_nlit; lra.
  rewrite E. cbn [rbind]. change (cp (set_st c1 (st_SOC (cs c1) (nlit 1 2)))) with (cp c1). rewrite Ec. cbn [cp].
  destruct (q_var (spm_default_par m p n dn dt)) as [[[? ?] ?] ?].
  eexists. split; [reflexivity|].
  cbn [cp set_st set_par q_cap q_lim par_var spm_default_par]. rewrite R_nZ. split; reflexivity.
Qed.
Definition spm_pack {n : nat} (F : fns R) (tm : Z) {G : Type} (g : G) (r : res (batt R (su R (spm R) n) * G)) (ser par : nat) : Prop :=
  exists b, r = Ok (b, g) /\ batt_Cap (su_ops_at (spm_ops F tm) tm n) tm b = Ok (INR par * 16) /\
    batt_lim (su_ops_at (spm_ops F tm) tm n) tm b = Ok (mkLim (INR ser * (27 / 10)) (INR ser * (42 / 10)) (INR ser * 2) (INR ser * (43 / 10))).
Theorem C69_spm : forall F tm G (dc dr dd : G -> R * G) m p n dn dt d contact ctrl RM g, usable m ->
  let mk := fun (_ : string) => spm_make m p n dn dt d in let none := mkSpr false false false in let o := spm_ops F tm in
  spm_pack F tm g (makeBattery dc dr dd mk o tm none contact ctrl g) 300 9 /\
  spm_pack F tm g (makeBattery2 dc dr dd mk o tm none contact ctrl g) 300 9 /\
  spm_pack F tm g (makeBattery_EPFL_smaller dc dr dd mk o tm none contact ctrl RM g) 9 14 /\
  spm_pack F tm g (makeBattery_EPFL dc dr dd mk o tm none contact ctrl RM g) 300 63 /\
  spm_pack F tm g (makeBattery_Test dc dr dd mk o tm none contact ctrl RM g) 8 9 /\
  spm_pack F tm g (makeBattery_TestParallel dc dr dd mk o tm none contact ctrl RM g) 1 3.
Proof.
  intros F tm G dc dr dd m p n dn dt d contact ctrl RM g U mk none o.
  assert (X : forall top ls ser par, Forall plain (top :: ls) -> Forall (fun v => (1 <= v_n v)%nat) (top :: ls) ->
     in_series (top :: ls) = ser -> in_parallel (top :: ls) = par -> spm_pack F tm g (pack dc dr dd mk o tm none ctrl top ls g) ser par).
  { intros top ls ser par HP Hn <- <-.
    destruct (pack_fine carrier_R dc dr dd mk o tm) with (f := none) (ctrl := ctrl) (top := top) (ls := ls) (g := g)
      as (b & g' & mo & k & h & E & Hb & S1 & S2 & HN & HR & HM & _); auto.
    { intros s a b c e. destruct (spm_builds m p n dn dt d a b c e U) as (x & Ex & _). now exists x. }
    apply C69_no_spread in HM. destruct HM as [-> HM].
    set (u := inr mo : su R (spm R) (length (top :: ls))).
    assert (HR' : regular ctrl true (top :: ls) (view _ u)) by exact HR.
    assert (HL : forall c, In c (leaves (view _ u)) -> q_cap (cp c) = 16 /\ q_lim (cp c) = defaultLimits).
    { intros c Hc. change (leaves (view _ u)) with (flat_map leaves (map (view (length ls)) (ms mo))) in Hc.
      rewrite (flat_map_concat_map leaves), map_map, <- flat_map_concat_map in Hc.
      clear - HM Hc U. induction HM as [|i x is xs Hx _ IH]; [destruct Hc|]. destruct Hc as [<-|Hc]; [|now apply IH].
      destruct (spm_builds m p n dn dt d (nZ 1) (nZ 1) (nZ 1) (nZ 1) U) as (y & Ey & Ec & El).
      unfold mk in Hx. rewrite Ey in Hx. injection Hx as ->. split; [|exact El]. rewrite Ec, R_nZ. lra. }
    destruct (C69_sizes (spm R) o tm ctrl (top :: ls) true u Hn HR') as (Z1 & Z2 & Z3 & Z4 & Z5).
    assert (EQ : forall k x y, between k x x y -> y = INR k * x) by (unfold between; intros; lra).
    assert (FA : forall P : spm R -> Prop, (forall c, q_cap (cp c) = 16 -> q_lim (cp c) = defaultLimits -> P c) -> Forall P (leaves (view _ u))).
    { intros P H. apply Forall_forall. intros c Hc. destruct (HL c Hc). auto. }
    assert (L1 : @l_Vmin R defaultLimits = 27 / 10) by (unfold defaultLimits; cbn [l_Vmin]; now rewrite R_nlit).
    assert (L2 : @l_Vmax R defaultLimits = 42 / 10) by (unfold defaultLimits; cbn [l_Vmax]; now rewrite R_nlit).
    assert (L3 : @l_VMIN R defaultLimits = 2) by (unfold defaultLimits; cbn [l_VMIN]; rewrite R_nlit; lra).
    assert (L4 : @l_VMAX R defaultLimits = 43 / 10) by (unfold defaultLimits; cbn [l_VMAX]; now rewrite R_nlit).
    assert (Y1 := EQ _ _ _ (Z1 16 16 (FA (fun c => 16 <= o_Cap o c <= 16) (fun c H _ => conj (Req_le_sym _ _ H) (Req_le _ _ H))))).
    assert (Y2 : l_Vmin (o_lim (su_ops_at o tm (length (top :: ls))) u) = INR (in_series (top :: ls)) * (27 / 10)).
    { apply EQ, Z2, FA. intros c _ H. change (o_lim o c) with (q_lim (cp c)). rewrite H, L1. lra. }
    assert (Y3 : l_Vmax (o_lim (su_ops_at o tm (length (top :: ls))) u) = INR (in_series (top :: ls)) * (42 / 10)).
    { apply EQ, Z3, FA. intros c _ H. change (o_lim o c) with (q_lim (cp c)). rewrite H, L2. lra. }
    assert (Y4 : l_VMIN (o_lim (su_ops_at o tm (length (top :: ls))) u) = INR (in_series (top :: ls)) * (2)).
    { apply EQ, Z4, FA. intros c _ H. change (o_lim o c) with (q_lim (cp c)). rewrite H, L3. lra. }
    assert (Y5 : l_VMAX (o_lim (su_ops_at o tm (length (top :: ls))) u) = INR (in_series (top :: ls)) * (43 / 10)).
    { apply EQ, Z5, FA. intros c _ H. change (o_lim o c) with (q_lim (cp c)). rewrite H, L4. lra. }
    exists b. split; [exact E|]. unfold batt_Cap, batt_lim, read_cells, ns, np. rewrite Hb, S1, S2. rewrite !R_nZ.
    change (o_Cap (mod_ops (su_ops_at (spm_ops F tm) tm (length ls)) tm) mo) with (o_Cap (su_ops_at o tm (length (top :: ls))) u).
    change (o_lim (mod_ops (su_ops_at (spm_ops F tm) tm (length ls)) tm) mo) with (o_lim (su_ops_at o tm (length (top :: ls))) u).
    rewrite Y1, Y2, Y3, Y4, Y5. cbn [nmul RNum]. split; [|f_equal]; f_equal; lra. }
  assert (P0 : forall s n rc p, plain (mkLev (A := R) s n rc 0 p)) by (now left).
  assert (P2 : forall s n rc p, plain (mkLev (A := R) s n rc 2 p)) by (now right).
  split; [|split; [|split; [|split; [|split]]]]; apply X; try reflexivity; repeat (apply Forall_cons; auto); cbn; try lia; auto.
Qed.
Print Assumptions C69_spm.

(** ** What does not hold *)

(** [makeBattery_TestParallel] announces 72 cells and builds 3. *)
Theorem C69_announced_refuted : forall (A : Type) (NA : Num A) G (dc dr dd : G -> A * G) C (mk : string -> A -> A -> A -> A -> res C) oc tm f contact ctrl RM g,
  carrier_ok A -> buildable mk oc ->
  exists b g', makeBattery_TestParallel dc dr dd mk oc tm f contact ctrl RM g = Ok (b, g') /\
    batt_N (su_ops_at oc tm 0) tm b = Ok 3%Z /\ TestParallel_printed = 72%nat.
Proof.
  intros *. intros OK B.
  destruct (C69_factories A NA G dc dr dd C mk oc tm f contact ctrl RM g OK B) as (_ & _ & _ & _ & _ & b & g' & E & N & _).
  exists b, g'. split; [exact E|]. split; [exact N|reflexivity].
Qed.
Print Assumptions C69_announced_refuted.

(** With single-particle cells the degradation spread changes no cell: each is the one with degradation factors 1. *)
Theorem C69_degradation_spread_refuted : forall (A : Type) (NA : Num A) G (dc dr dd : G -> A * G) m p n dn dt d f is g xs g',
  made dc dr dd (fun _ => spm_make m p n dn dt d) f is g xs g' ->
  Forall (fun x : spm A => exists a b, spm_make m p n dn dt d a b (nZ 1) (nZ 1) = Ok x) xs.
Proof.
  intros *. induction 1 as [|i is g g1 g2 g3 g4 g' a b c e x xs D1 D2 D3 D4 E _ IH]; constructor; [|exact IH].
  exists a, b. rewrite <- E. reflexivity.
Qed.
Print Assumptions C69_degradation_spread_refuted.

(** ** Cases that meet the hypotheses *)
Definition toy_mat : spm_mat R := mkMat [0; 0; 0; 1] [1; 2] [] [] [] [] [] [] [] [] [] [] [] [].
Definition toy_xy : XYdata R := mkXY [] [] false.
Example C69_inhabited :
  usable toy_mat /\
  buildable (fun _ : string => spm_make toy_mat toy_xy toy_xy toy_xy toy_xy (mkDeg [] 0 [] 0 [] 0)) (spm_ops (mkFns exp (fun x => x) (fun x _ => x)) 0) /\
  exists ls : list (level R), Forall (fun v => (1 <= v_n v)%nat /\ v_rc v = 0) ls /\ Forall plain ls /\ (in_series ls, in_parallel ls) = (6, 2)%nat.
Proof.
  assert (U : usable toy_mat) by (exists 1%Z; cbn; split; [reflexivity|lia]).
  split; [exact U|]. split.
  - split; [|reflexivity]. intros _ a b c e. destruct (spm_builds toy_mat toy_xy toy_xy toy_xy toy_xy (mkDeg [] 0 [] 0 [] 0) a b c e U) as (x & E & _). now exists x.
  - exists [mkLev true 3 0 2 false; mkLev false 2 0 0 false; mkLev true 2 0 2 true].
    split; [|split; [|reflexivity]].
    + repeat (apply Forall_cons; [cbn; split; [lia|reflexivity]|]). auto.
    + apply Forall_cons; [now right|]. apply Forall_cons; [now left|]. apply Forall_cons; [now right|auto].
Qed.
