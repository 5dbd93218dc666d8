(** * C93 and C94: parallel strings with contact resistances between them *)
From Coq Require Import List Lra Lia.
From Verif Require Import Base RFacts StatusModel StatusProofs UtilModel CellModel CellSpec CellProofs CoolModel ModuleModel ModuleSpec ModuleExamples
  ConvSpec ConvProofs P_Conv VoltSpec VoltProofs P_Volt P_ConvStr LadderSpec LadderProofs P_Ladder LadderStrSpec.
Import ListNotations.
Local Open Scope R_scope.

Section Strings.
Context (tm : Z) (lo hi : R).
Notation tag := (modrec R * list (ecmu R))%type.
Notation sops := (su_ops_at (A := R) ecm_ops tm 1).
Notation kept := (kept_br lo hi).

Lemma reads l (bs : list (branch tag)) is : brs kept l bs is -> forall xs, Forall2 (fun s x => exists s2, o_V sops s = (s2, Ok x)) l xs <-> xs = volts bs is.
Proof.
  induction 1 as [|s l b bs i is H _ IH]; intros xs; unfold volts in *; cbn [combine map]; split.
  - intros F. inversion F. reflexivity.
  - intros ->. constructor.
  - intros F. inversion F as [|? x ? xs' (s2 & E) F']; subst. destruct (kept_V tm lo hi s b i H) as (s' & E' & _). rewrite E in E'. injection E' as _ ->. f_equal. apply IH, F'.
  - intros ->. constructor; [|apply IH; reflexivity]. destruct (kept_V tm lo hi s b i H) as (s' & E' & _). eauto.
Qed.
Lemma reads_between m M l (bs : list (branch tag)) is : brs kept l bs is -> Forall (string_between tm m M) l <-> Forall (within m M) (volts bs is).
Proof.
  induction 1 as [|s l b bs i is H _ IH]; unfold volts in *; cbn [combine map]; [split; constructor|].
  rewrite !Forall_cons_iff, IH. apply and_iff_compat_r. destruct (kept_V tm lo hi s b i H) as (s' & E' & _). unfold string_between, within. split.
  - intros (s2 & x & E & W). rewrite E in E'. injection E' as _ ->. exact W.
  - intros W. eauto.
Qed.
Lemma string_terminals_seen rc l (bs : list (branch tag)) is : brs kept l bs is -> length rc = length l -> forall ts, string_terminals tm rc l ts <-> ts = seen rc bs is.
Proof.
  intros B Lr ts. destruct (brs_len _ _ _ _ B) as [L1 L2]. assert (LS := seen_len bs rc is ltac:(lia) L2).
  assert (SN := seen_nth bs rc is ltac:(lia) L2). unfold string_terminals. rewrite (brs_I sops kept (kept_I tm lo hi) _ _ _ B). split.
  - intros (xs & F & L & T). apply (reads _ _ _ B) in F. subst xs. symmetry. apply nth_ext'; [lia|]. intros j x Hx.
    destruct (nth_error (volts bs is) j) as [v|] eqn:E.
    + rewrite (SN j v E) in Hx. rewrite (T j v E). exact Hx.
    + exfalso. apply nth_error_None in E. assert (j < length (seen rc bs is))%nat by (apply nth_error_Some; congruence).
      assert (length (volts bs is) = length bs) by (unfold volts; rewrite map_length, combine_length; lia). lia.
  - intros ->. exists (volts bs is). split; [apply (reads _ _ _ B); reflexivity|]. split; [lia|exact SN].
Qed.
Lemma ok_kept (P : R -> R -> Prop) l : Forall (string_ok lo hi P) l -> exists bs is, brs kept l bs is /\ Forall (fun b => P (b_c b) (b_r b)) bs /\
  Forall2 (fun s b => exists r cs, s = inr (mkM r cs) /\ b = as_chain (r, cs)) l bs.
Proof.
  induction 1 as [|s l (r & cs & i & x & -> & HS & HP & HJ) _ (bs & is & IH1 & IH2 & IH3)].
  - exists [], []. repeat split; constructor.
  - destruct (given r cs i x HS) as [B EV]. exists (as_chain (r, cs) :: bs), (i :: is).
    split; [constructor; [split; [exact B|]|exact IH1]|].
    { intros j N. unfold chain_ok. cbn [as_chain b_t snd]. apply (HJ j (bvolt (as_chain (r, cs)) j)); [|exact N]. apply chain_volt; [apply B|reflexivity]. }
    split; [constructor; [exact HP|exact IH2]|]. constructor; eauto.
Qed.
Lemma carried l (bs : list (branch tag)) l' is' : Forall2 (fun s b => exists r cs, s = inr (mkM r cs) /\ b = as_chain (r, cs)) l bs -> brs kept l' bs is' ->
  Forall2 (fun s s' => exists j, string_carrying j s s') l l'.
Proof.
  intros F B'. revert l' is' B'. induction F as [|s b l bs (r & cs & -> & ->) _ IH]; intros l' is' B';
    inversion B' as [|? ? ? ? ? ? ((_ & _ & r' & -> & U & _) & _) B1]; subst; [constructor|].
  constructor; [|eauto]. eexists _, r, cs, r'. repeat split; auto.
Qed.
End Strings.

(** Parallel strings of one capacity, with any cells and contact resistances inside the strings. *)
Theorem C93_strings_contact : forall tm c k R0 lo hi rc l ts y G, 0 < k <= 1 -> 0 < R0 -> 0 < c -> (2 <= length l <= 100)%nat ->
  length rc = length l -> Forall (fun r => 0 <= r) rc -> c * (R0 + ladder rc) <= 1 ->
  Forall (string_ok lo hi (fun cap res => cap = c /\ k <= c * res /\ res <= R0)) l ->
  string_terminals tm rc l ts -> 0 <= G -> squares y ts <= G * G -> Forall (string_between tm (lo + G / k) (hi - G / k)) l ->
  INR (length l) * (G * (1 - k) ^ 2499 * (G * (1 - k) ^ 2499)) < / 10 ^ 20 ->
  let ops := su_ops_at ecm_ops tm 1 in
  exists l' ts' y', p_redistribute ops rc l = (l', Ok Success) /\ Forall2 (fun s s' => exists j, string_carrying j s s') l l' /\
    Forall (string_between tm lo hi) l' /\ Rsum (map (o_I ops) l') = Rsum (map (o_I ops) l) /\ string_terminals tm rc l' ts' /\ deviations y' ts' < / 10 ^ 10.
Proof.
  intros tm c k R0 lo hi rc l ts y G Hk HR0 Hc N Lr HR HL HF HT HG Q W T. cbv zeta. destruct (ok_kept lo hi _ l HF) as (bs & is & B & HB & F).
  apply (string_terminals_seen _ _ _ _ _ _ _ B Lr) in HT. subst ts. apply (reads_between _ _ _ _ _ _ _ _ B) in W.
  destruct (redistribute_seen (su_ops_at ecm_ops tm 1) (kept_br lo hi) lo hi (kept_V tm lo hi) (kept_I tm lo hi) (kept_Cap tm lo hi) (kept_set tm lo hi)
    c k R0 rc l bs is G y Hk HR0 Hc HB HR HL Lr N B HG Q W T) as (l' & is' & E & B' & W' & S & Z).
  assert (Lr' : length rc = length l') by (destruct (brs_len _ _ _ _ B); destruct (brs_len _ _ _ _ B'); lia).
  eexists l', _, _. split; [exact E|]. split; [exact (carried _ _ _ _ _ _ F B')|]. split; [apply (reads_between _ _ _ _ _ _ _ _ B'); exact W'|].
  split; [rewrite (brs_I _ _ (kept_I tm lo hi) _ _ _ B), (brs_I _ _ (kept_I tm lo hi) _ _ _ B'); exact Z|].
  split; [apply (string_terminals_seen _ _ _ _ _ _ _ B' Lr'); reflexivity|]. rewrite <- spread_deviations. exact S.
Qed.
Print Assumptions C93_strings_contact.

Theorem C94_strings_contact : forall tm k R0 v lo hi rc l ts G, 0 < k <= 1 -> 0 < R0 -> (length l <= 100)%nat ->
  length rc = length l -> Forall (fun r => 0 <= r) rc -> 200 * (R0 + ladder rc) <= 1 ->
  Forall (string_ok lo hi (fun _ res => k <= 200 * res /\ res <= R0)) l ->
  string_terminals tm rc l ts -> 0 <= G -> squares v ts <= G * G -> Forall (string_between tm (lo + G / k) (hi - G / k)) l ->
  INR (length l) * (G * (1 - k) ^ 49 * (G * (1 - k) ^ 49)) < / 10 ^ 20 ->
  exists l' ts', p_setVoltage (su_ops_at ecm_ops tm 1) v rc l = (l', Ok Success) /\ Forall2 (fun s s' => exists j, string_carrying j s s') l l' /\
    Forall (string_between tm lo hi) l' /\ string_terminals tm rc l' ts' /\ deviations v ts' < / 10 ^ 10.
Proof.
  intros tm k R0 v lo hi rc l ts G Hk HR0 N Lr HR HL HF HT HG Q W T. destruct (ok_kept lo hi _ l HF) as (bs & is & B & HB & F).
  apply (string_terminals_seen _ _ _ _ _ _ _ B Lr) in HT. subst ts. apply (reads_between _ _ _ _ _ _ _ _ B) in W.
  destruct (set_voltage_seen (su_ops_at ecm_ops tm 1) (kept_br lo hi) lo hi (kept_V tm lo hi) (kept_I tm lo hi) (kept_set tm lo hi)
    k R0 v rc l bs is G Hk HR0 HB HR HL Lr N B HG Q W T) as (l' & is' & E & B' & W' & S).
  assert (Lr' : length rc = length l') by (destruct (brs_len _ _ _ _ B); destruct (brs_len _ _ _ _ B'); lia).
  eexists l', _. split; [exact E|]. split; [exact (carried _ _ _ _ _ _ F B')|]. split; [apply (reads_between _ _ _ _ _ _ _ _ B'); exact W'|].
  split; [apply (string_terminals_seen _ _ _ _ _ _ _ B' Lr'); reflexivity|]. rewrite <- spread_deviations. exact S.
Qed.
Print Assumptions C94_strings_contact.

(** Two strings of two full default cells of 10 Ah at 100 A and 101 A, behind contacts of 20 microohm. *)
Notation str2 i := (inr (mkM (ex_rec true (repeat 0 2) 2) (repeat (ex_cell 10 1 i) 2)) : su R (ecmu R) 1).
Lemma str2_ok (P : R -> R -> Prop) i : 0 <= i <= 1000 -> P 10 (4 / 1000) -> string_ok 4 (2 * chi) P (str2 i).
Proof.
  intros Hi HP. assert (E2 : INR 2 = 2) by (cbn; ring). eexists _, _, i, _. split; [reflexivity|]. split; [apply full_is; [lia|lra]|]. split.
  - cbn [ex_rec m_rc]. rewrite full_R, E2. replace (2 * (2 / 1000)) with (4 / 1000) by lra.
    replace (lmin (map (fun c => p_cap (ep (u_ecm c))) (repeat (ex_cell 10 1 i) 2))) with 10; [exact HP|].
    symmetry. transitivity (lmin (repeat 10 2)); [reflexivity|apply lmin_repeat; lia].
  - intros j y Hy W. cbn [ex_rec m_rc] in Hy. apply full_str in Hy. subst y. apply Forall_same, full_safe. rewrite E2 in W. unfold chi in W. lra.
Qed.
Lemma str2_V i : 0 <= i <= 1000 -> exists s2, o_V (su_ops_at (A := R) ecm_ops 0 1) (str2 i) = (s2, Ok (2 * (chi - 2 / 1000 * i))).
Proof.
  intros Hi. assert (E2 : INR 2 = 2) by (cbn; ring). destruct (given _ _ i _ (full_is 2 i ltac:(lia) Hi)) as [B EV].
  destruct (chain_V 0 _ _ _ B) as (s2 & E & _). exists s2. rewrite EV, E2 in E. exact E.
Qed.
Lemma str2_I i : o_I (su_ops_at (A := R) ecm_ops 0 1) (str2 i) = i.
Proof. reflexivity. Qed.
Definition seen22 : list R := [2 * chi - 40402 / 100000; 2 * chi - 41004 / 100000].
Lemma str2_terminals : string_terminals 0 contacts2 [str2 100; str2 101] seen22.
Proof.
  exists [2 * (chi - 2 / 1000 * 100); 2 * (chi - 2 / 1000 * 101)]. split; [|split; [reflexivity|]].
  - apply Forall2_cons; [apply str2_V; lra|]. apply Forall2_cons; [apply str2_V; lra|]. apply Forall2_nil.
  - cbn [map]. rewrite !str2_I. intros [|[|j]] v H; cbn [nth_error] in H; try (destruct j; discriminate); injection H as <-; unfold contact_drop, contacts2, seen22; cbn; f_equal; lra.
Qed.
Lemma str2_between D : 0 <= D <= 2 / 5 -> Forall (string_between 0 (4 + D) (2 * chi - D)) [str2 100; str2 101].
Proof.
  intros H. repeat apply Forall_cons; try apply Forall_nil;
    (match goal with |- string_between _ _ _ (str2 ?i) => destruct (str2_V i ltac:(lra)) as (s2 & E); exists s2, (2 * (chi - 2 / 1000 * i)); split; [exact E|unfold chi; lra] end).
Qed.
Example C93_strings_contact_inhabited : let l := [str2 100; str2 101] in let G := 1 / 200 in
  Forall (string_ok 4 (2 * chi) (fun cap res => cap = 10 /\ 4 / 100 <= 10 * res /\ res <= 4 / 1000)) l /\ 10 * (4 / 1000 + ladder contacts2) <= 1 /\
  string_terminals 0 contacts2 l seen22 /\ squares (2 * chi - 40703 / 100000) seen22 <= G * G /\
  Forall (string_between 0 (4 + G / (4 / 100)) (2 * chi - G / (4 / 100))) l.
Proof.
  cbv zeta. split; [|split; [rewrite two_ladder; lra|split; [apply str2_terminals|split; [unfold squares, seen22; cbn [map Rsum]; lra|apply str2_between; lra]]]].
  repeat apply Forall_cons; try apply Forall_nil; apply str2_ok; lra.
Qed.
Example C94_strings_contact_inhabited : let l := [str2 100; str2 101] in let v := 2 * chi - 41 / 100 in let G := 1 / 100 in
  Forall (string_ok 4 (2 * chi) (fun _ res => 4 / 5 <= 200 * res /\ res <= 4 / 1000)) l /\ 200 * (4 / 1000 + ladder contacts2) <= 1 /\
  string_terminals 0 contacts2 l seen22 /\ squares v seen22 <= G * G /\ Forall (string_between 0 (4 + G / (4 / 5)) (2 * chi - G / (4 / 5))) l /\
  INR (length l) * (G * (1 - 4 / 5) ^ 49 * (G * (1 - 4 / 5) ^ 49)) < / 10 ^ 20.
Proof.
  cbv zeta. split; [|split; [rewrite two_ladder; lra|split; [apply str2_terminals|split; [unfold squares, seen22; cbn [map Rsum]; lra|split; [apply str2_between; lra|]]]]].
  - repeat apply Forall_cons; try apply Forall_nil; apply str2_ok; lra.
  - assert (X : 0 <= (1 - 4 / 5) ^ 49 <= / 10 ^ 12) by lra. revert X. generalize ((1 - 4 / 5) ^ 49). intros x X.
    apply (small_product _ _ _ (/ 10 ^ 12)); [lra|exact X|]. cbn [length INR]. lra.
Qed.
