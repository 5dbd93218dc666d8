(** * C43: the coupled thermal model of a tree of single-particle cells neither makes nor loses heat *)
From Coq Require Import List Reals Lra Lia.
From Verif Require Import Base RFacts StatusModel CellModel CoolModel CoolSpec CoolProofs ModuleModel ModuleSpec ModuleProofs SpmModel SpmUnitModel PhysSpec PhysProofs
  PhysToy ThermSpec ThermProofs P_Cool P_Phys.
Import ListNotations.
Local Open Scope R_scope.

Notation SOps F n := (su_ops_at (spm_ops F 2) 2 n).

(** One coupled update ([settings::T_MODEL] 2) of any tree, with any neighbours: when the returned temperature is set, which is always possible, the
    heat in all cells and coolants has grown by what had been generated in cells and contacts and by what came from the neighbours, less what
    the air conditioning removed. Everything the units exchange with each other cancels. Nothing is left pending. *)
Theorem C43_tree : forall F n nb tim (u u' : STree n) t, tim <> 0 -> waited tim n u -> o_thermal (SOps F n) nb tim u = (u', Ok t) ->
  exists u'', o_setT (SOps F n) t u' = (u'', Ok tt) /\ heat_pending n u'' = 0 /\
    heat_content n u'' = heat_content n u + heat_pending n u + gained (o_T (SOps F n) u) (o_area (SOps F n) u) tim nb - heat_removed n u * tim.
Proof.
  intros F n nb tim u u' t H1 H2 H3. destruct (thermal_lawful F n nb tim u u' t H1 H2 H3) as (B1 & B2 & B3 & B4 & u'' & B5).
  exists u''. split; [exact B5|]. destruct (setT_content F n _ _ _ _ B5) as [C1 C2]. split; [congruence|]. rewrite C1, B2.
  replace (o_T (SOps F n) u') with (o_T (SOps F n) u) by (unfold TA in B1; congruence). lra.
Qed.
Print Assumptions C43_tree.

(** A tree on its own, without air conditioning: heat is conserved. *)
Theorem C43_isolated : forall F n tim (u u' : STree n) t, tim <> 0 -> waited tim n u -> Forall (fun k => ac_power k = 0) (coolers n u) ->
  o_thermal (SOps F n) [] tim u = (u', Ok t) ->
  exists u'', o_setT (SOps F n) t u' = (u'', Ok tt) /\ heat_content n u'' + heat_pending n u'' = heat_content n u + heat_pending n u.
Proof.
  intros F n tim u u' t H1 H2 HA H3. destruct (C43_tree F n [] tim u u' t H1 H2 H3) as (u'' & E1 & E2 & E3). exists u''. split; [exact E1|].
  rewrite E2, E3. assert (Z : heat_removed n u = 0) by (unfold heat_removed; induction HA as [|k l Hk _ IH]; cbn [map Rsum]; lra).
  rewrite Z. unfold gained. cbn [map Rsum]. lra.
Qed.
Print Assumptions C43_isolated.

(** Two cells at 310 K and 300 K in a module with coolant at 300 K, of 1 J/K each. *)
Definition warm : spm R := SpmModel.set_therm (toy plain 1 true) 0 0 (1 / 4).
Definition cold : spm R := spm_setT 300 warm.
Definition air : cool R := mkCool CBase 300 0 1 1 1 2 1 310 300 1 300 1 1 1 cum0.
Definition row : modrec R := mkMod true [0; 0] air 1 1 0 (1 / 4) 2 0 false false false false.
Definition pair : STree 1 := inr (mkM row [warm; cold]).
Lemma cell_runs c nb tim : Rabs (c_tth c - tim) <= 1 ->
  q_Tmin (cp c) <= s_T (cs c) + (c_Q c + received c nb) / heat_capacity c <= q_Tmax (cp c) ->
  spm_thermal 2 nb tim c = (SpmModel.set_therm c 0 (c_Qtot c + c_Q c) 0, Ok (s_T (cs c) + (c_Q c + received c nb) / heat_capacity c)).
Proof.
  intros H1 H2. unfold spm_thermal. f_equal; [now rewrite !R_nZ|]. cbv iota beta. replace (nltb (nZ 1) _) with false by (symmetry; apply Rltb_false; rewrite R_nZ; exact H1).
  rewrite neigh_received. apply tnew_spec. split; [reflexivity|exact H2].
Qed.
Lemma pair_runs F : exists u', o_thermal (SOps F 1) [] (1 / 4) pair = (u', Ok (300 + 5 / 2)).
Proof.
  unfold pair. cbn [su_ops_at sum_ops o_thermal both mod_ops]. unfold on_r. unfold mod_thermal. cbn [Z.eqb]. unfold th_coupled. cbn [mm ms].
  match goal with |- context [nltb (nZ 1) ?b] => replace (nltb (nZ 1) b) with false end.
  2:{ symmetry; apply Rltb_false; rewrite R_nZ. cbn [row m_time nabs nsub RNum]. rewrite Rminus_diag_eq, Rabs_R0 by reflexivity. lra. }
  match goal with |- context [neqb ?a (nZ 0)] => replace (neqb a (nZ 0)) with false end.
  2:{ symmetry; apply Reqb_false; rewrite R_nZ. lra. }
  change (Nat.ltb NSUs_MAX (length [warm; cold])) with false. cbv iota.
  assert (H0 : cool_getH air = 0).
  { unfold cool_getH. cbn [air k_kind k_flow]. replace (neqb (0 : R) (nZ 0)) with true by (symmetry; apply Reqb_true; now rewrite R_nZ). now rewrite R_nZ. }
  assert (R1 : forall a, received a [(300, 0, 1); (300, 1, 1); (s_T (cs cold), 1, 1)] = ((300 - s_T (cs a)) + (300 - s_T (cs a))) * Rmin 1 (q_Acell (cp a)) * c_tth a).
  { intros a. unfold received. cbn [map Rsum]. change (s_T (cs cold)) with 300. ring. }
  assert (R2 : forall a, received a [(300, 0, 1); (310, 1, 1); (300, 1, 1)] = ((310 - s_T (cs a)) + (300 - s_T (cs a))) * Rmin 1 (q_Acell (cp a)) * c_tth a).
  { intros a. unfold received. cbn [map Rsum]. ring. }
  assert (E1 : spm_thermal 2 [(300, 0, 1); (300, 1, 1); (s_T (cs cold), 1, 1)] (1 / 4) warm = (SpmModel.set_therm warm 0 (0 + 0) 0, Ok 305)).
  { rewrite cell_runs.
    - rewrite R1. f_equal. f_equal. unfold heat_capacity. cbn. rewrite Rmin_left by lra. lra.
    - cbn. rewrite Rminus_diag_eq, Rabs_R0 by reflexivity. lra.
    - rewrite R1. unfold heat_capacity. cbn. rewrite Rmin_left by lra. lra. }
  assert (E2 : spm_thermal 2 [(300, 0, 1); (310, 1, 1); (300, 1, 1)] (1 / 4) cold = (SpmModel.set_therm cold 0 (0 + 0) 0, Ok (300 + 5 / 2))).
  { rewrite cell_runs.
    - rewrite R2. f_equal. f_equal. unfold heat_capacity. cbn. rewrite Rmin_left by lra. lra.
    - cbn. rewrite Rminus_diag_eq, Rabs_R0 by reflexivity. lra.
    - rewrite R2. unfold heat_capacity. cbn. rewrite Rmin_left by lra. lra. }
  assert (C : th_children (spm_ops F 2) 2 0 (mkM row [warm; cold]) (1 / 4) [warm; cold] =
    ([SpmModel.set_therm warm 0 (0 + 0) 0; SpmModel.set_therm cold 0 (0 + 0) 0], Ok [305; 300 + 5 / 2])).
  { cbn [th_children]. unfold neighbours, mod_T, mod_area. cbn [mm row m_cool m_k m_area Nat.ltb Nat.leb Nat.add length nth_error option_map spm_ops o_T o_area].
    change (k_T air) with 300. rewrite H0. unfold child_do at 1. cbn [nth_error o_thermal]. change (q_Acell (cp cold)) with 1.
    change (o_thermal (spm_ops F 2)) with (fun nb t => spm_thermal (A := R) 2 nb t). cbv beta. rewrite E1. cbn [list_set length Nat.ltb Nat.leb Nat.add].
    cbn [nth_error option_map]. change (s_T (cs (SpmModel.set_therm warm 0 (0 + 0) 0))) with 310. change (q_Acell (cp (SpmModel.set_therm warm 0 (0 + 0) 0))) with 1.
    unfold child_do at 1. cbn [nth_error]. rewrite E2. reflexivity. }
  cbn [su_ops_at]. match goal with |- context [th_children ?o ?k 0 ?m ?t ?l] => change (th_children o k 0 m t l) with (th_children (spm_ops F 2) 2 0 (mkM row [warm; cold]) (1 / 4) [warm; cold]) end.
  rewrite C. cbn [length].
  match goal with |- context [cool_dstate ?a ?b _ _] => assert (Ha : a = 5 / 2) end.
  { cbn [th_heat th_neigh Nat.eqb Nat.sub nadd nmul nsub RNum]. unfold mod_T, mod_area. cbn [mm row m_cool m_k m_area m_Qc]. rewrite H0, !nmin_R, R_nZ. cbn. rewrite Rmin_left by lra. lra. }
  rewrite Ha. unfold cool_dstate. cbn [mm row m_cool air k_kind].
  match goal with |- context [nltb ?x (degC 0)] => assert (Hx : x = 300 + 5 / 2) by (cbn; field) end. rewrite Hx.
  cbn [set_temps o_setT spm_ops].
  match goal with |- context [orb (orb (nltb ?a (degC 0)) ?b) ?c] => replace (orb (orb (nltb a (degC 0)) b) c) with false end.
  2:{ symmetry. unfold degC. rewrite !Bool.orb_false_iff. repeat split; [apply Rltb_false; rewrite R_nZ; cbn; lra|apply Rltb_false; rewrite R_nZ; cbn; lra|].
      unfold nisnan. apply Bool.negb_false_iff. now apply Reqb_true. }
  eexists. reflexivity.
Qed.
Example C43_tree_inhabited : 1 / 4 <> 0 /\ waited (1 / 4) 1 pair /\ Forall (fun k => ac_power k = 0) (coolers 1 pair) /\
  (forall F, exists u', o_thermal (SOps F 1) [] (1 / 4) pair = (u', Ok (300 + 5 / 2))) /\ heat_content 1 pair = 310 + 300 + 300.
Proof.
  split; [lra|]. split; [|split; [|split; [exact pair_runs|]]].
  - split; cbn [pair leaves coolers over_modules flat_map ms mm app]; unfold coolers; cbn; repeat constructor; unfold heat_capacity, coolant_capacity; cbn; lra.
  - unfold coolers; cbn. repeat constructor.
  - unfold heat_content, coolers, heat_capacity, coolant_capacity. cbn. lra.
Qed.
