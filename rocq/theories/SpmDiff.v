(** * Lemmas about the single-particle cell: diffusion *)
From Coq Require Import Lra.
From Verif Require Import Base RFacts StatusModel UtilModel CellModel CellSpec SpmModel SpmSpec SpmProofs SpmReal.

Section Diff.
Variable F : fns R.
Implicit Types (c : spm R) (s : spm_st R).
Local Open Scope R_scope.

(** ** One pass, element by element *)
Lemma z_step_nth dt d j a b z k : (k < length a)%nat -> (k < length b)%nat -> (k < length z)%nat ->
  nth k (z_step dt z (dz_diff d j a b z)) 0 = nth k z 0 + dt * (d * nth k a 0 * nth k z 0 + nth k b 0 * j).
Proof.
  revert a b z. induction k as [|k IH]; intros [|x a] [|y b] [|u z] H1 H2 H3; cbn [length] in *; try lia.
  - reflexivity.
  - cbn [z_step dz_diff nth]. apply IH; lia.
Qed.
Lemma z_step_length dt (z dz : list R) : length (z_step dt z dz) = length z.
Proof. revert dz. induction z as [|u z IH]; intros [|d dz]; cbn; auto. Qed.

Lemma z_step_lin al be dt d j1 j2 a b z1 z2 : length z1 = length z2 ->
  z_step dt (lin al be z1 z2) (dz_diff d (al * j1 + be * j2) a b (lin al be z1 z2)) =
  lin al be (z_step dt z1 (dz_diff d j1 a b z1)) (z_step dt z2 (dz_diff d j2 a b z2)).
Proof.
  revert a b z2. induction z1 as [|u z1 IH]; intros a b [|v z2] H; try discriminate; [reflexivity|].
  destruct a as [|x a]; [reflexivity|]. destruct b as [|y b]; [reflexivity|].
  unfold lin in *. cbn [combine map z_step dz_diff]. rewrite IH by (cbn in H; lia).
  f_equal. cbn [nadd nmul RNum]. ring.
Qed.

(** The effect of a diffusion-only time step on the transformed concentrations. *)
Fixpoint pass_iter (n : nat) dt d j (a b z : list R) : list R :=
  match n with O => z | S n' => pass_iter n' dt d j a b (z_step dt z (dz_diff d j a b z)) end.
Definition Dp_of c : R := fst (calcDiffConstant F c).
Definition Dn_of c : R := snd (calcDiffConstant F c).
Definition jp_of c : R := snd (fst (calcMolarFlux c)).
Definition jn_of c : R := snd (calcMolarFlux c).

Lemma build_D c c' : same_build c c' -> Dp_of c' = Dp_of c /\ Dn_of c' = Dn_of c.
Proof.
  intros (P & T & G & _). unfold Dp_of, Dn_of, calcDiffConstant, arrh. rewrite P, T.
  unfold ageing in G. injection G. intros. cbn [fst snd]. split; congruence.
Qed.
Lemma build_j c c' : same_build c c' -> s_I (cs c') = s_I (cs c) -> jp_of c' = jp_of c /\ jn_of c' = jn_of c.
Proof.
  intros (P & T & G & _) HI. unfold jp_of, jn_of, calcMolarFlux. rewrite P, HI.
  unfold ageing in G. injection G. intros. cbn [fst snd]. split; congruence.
Qed.
Lemma build_j_lin al be c1 c2 c3 : same_build c1 c2 -> same_build c1 c3 ->
  s_I (cs c3) = al * s_I (cs c1) + be * s_I (cs c2) ->
  jp_of c3 = al * jp_of c1 + be * jp_of c2 /\ jn_of c3 = al * jn_of c1 + be * jn_of c2.
Proof.
  intros (P & T & G & _) (P' & T' & G' & _) HI. unfold jp_of, jn_of, calcMolarFlux. rewrite P, P', HI.
  unfold ageing in G, G'. injection G. injection G'. intros. cbn [fst snd].
  repeat match goal with H : ?x (cs _) = ?x (cs c1) |- _ => rewrite H; clear H end.
  cbn [ndiv nmul nopp RNum]. unfold Rdiv. split; ring.
Qed.

Lemma build_refl c : same_build c c.
Proof. repeat split. Qed.
Lemma build_sym c c' : same_build c c' -> same_build c' c.
Proof. intros (H1 & H2 & H3 & H4). repeat split; congruence. Qed.
Lemma build_trans c c' c'' : same_build c c' -> same_build c' c'' -> same_build c c''.
Proof. intros (H1 & H2 & H3 & H4) (K1 & K2 & K3 & K4). repeat split; congruence. Qed.

Lemma steps_z n dt : forall c c', spm_steps F n dt c = (c', Ok tt) ->
  same_build c c' /\ s_I (cs c') = s_I (cs c) /\ c_parent c' = c_parent c /\
  s_zp (cs c') = pass_iter n dt (Dp_of c) (jp_of c) (m_Ap (q_M (cp c))) (m_Bp (q_M (cp c))) (s_zp (cs c)) /\
  s_zn (cs c') = pass_iter n dt (Dn_of c) (jn_of c) (m_An (q_M (cp c))) (m_Bn (q_M (cp c))) (s_zn (cs c)).
Proof.
  induction n as [|n IH]; intros c c' H.
  - injection H as <-. repeat split.
  - rewrite steps_S in H. pose proof (step1_passed F dt c) as P. destruct (spm_step1 F dt c) as [c1 r]. cbn [fst] in P.
    destruct r as [[]|e| |]; try discriminate. destruct (IH _ _ H) as (K1 & K2 & K3 & K4 & K5).
    destruct P as [P1 P2 P3 P4 P5 P6 P7 P8 _ _ _ _ _].
    assert (B : same_build c c1) by (repeat split; assumption).
    destruct (build_D _ _ B) as (D1 & D2). destruct (build_j _ _ B P4) as (J1 & J2).
    rewrite D1, J1, P1 in K4. rewrite D2, J2, P1 in K5.
    split; [exact (build_trans _ _ _ B K1)|]. split; [congruence|]. split; [congruence|].
    cbn [pass_iter]. rewrite P7 in K4. rewrite P8 in K5. split; assumption.
Qed.

Lemma timeStep_z tm dt n c c' : diffusion_only tm c ->
  spm_timeStep_CC F tm dt (Z.of_nat n) c = (c', Ok tt) ->
  same_build c c' /\ s_I (cs c') = s_I (cs c) /\ c_parent c' = c_parent c /\ 0 <= dt /\
  s_zp (cs c') = pass_iter n dt (Dp_of c) (jp_of c) (m_Ap (q_M (cp c))) (m_Bp (q_M (cp c))) (s_zp (cs c)) /\
  s_zn (cs c') = pass_iter n dt (Dn_of c) (jn_of c) (m_An (q_M (cp c))) (m_Bn (q_M (cp c))) (s_zn (cs c)).
Proof.
  intros Hd H. destruct (timeStep_inv _ _ _ _ _ _ H) as (D & c2 & E & C). rewrite Nat2Z.id in E.
  destruct (steps_z _ _ _ _ E) as (B & I2 & P2 & Z1 & Z2).
  match type of E with spm_steps _ _ _ ?x = _ => set (c1 := x) in * end.
  assert (Bc : same_build c c1) by (repeat split).
  change (Dp_of c1) with (Dp_of c) in Z1. change (Dn_of c1) with (Dn_of c) in Z2.
  change (jp_of c1) with (jp_of c) in Z1. change (jn_of c1) with (jn_of c) in Z2.
  change (cp c1) with (cp c) in Z1, Z2. change (cs c1) with (cs c) in Z1, Z2, I2. change (c_parent c1) with (c_parent c) in P2.
  assert (B2 : same_build c c2) by exact (build_trans _ _ _ Bc B).
  destruct C as [[_ ->]|[NB C]]; [repeat (split; [assumption|]); assumption|].
  destruct (heat_age_spec _ _ _ _ _ _ _ C) as ([Ra Rb Rc _] & t & Ht & K).
  destruct Hd as [Hd|[Hn Ht']].
  { exfalso. destruct B2 as (_ & _ & _ & B2). congruence. }
  assert (t = s_T (cs c2)) as ->.
  { apply Ht. destruct Ht'; [now left|right; congruence]. }
  rewrite st_T_id in K. destruct K as [[_ K]|(d & c4 & K1 & _ & _ & _ & _ & K6 & K7 & _)]; [congruence|].
  assert (cs c' = cs c2) as Ec.
  { rewrite K7. apply (age_none F c4); [|exact K6]. apply (nodeg_cp c); [|exact Hn].
    destruct B2 as (Q & _). congruence. }
  rewrite Ec. split.
  - destruct B2 as (Q1 & Q2 & Q3 & Q4). unfold same_build, ageing. rewrite Ec, Ra, Rb. repeat split; assumption.
  - repeat (split; [assumption || congruence|]). assumption.
Qed.

(** ** Superposition *)
Lemma pass_iter_length n dt d j a b z : length (pass_iter n dt d j a b z) = length z.
Proof. revert z. induction n as [|n IH]; intros z; [reflexivity|]. cbn [pass_iter]. now rewrite IH, z_step_length. Qed.
Lemma pass_iter_lin al be n dt d j1 j2 a b : forall z1 z2, length z1 = length z2 ->
  pass_iter n dt d (al * j1 + be * j2) a b (lin al be z1 z2) =
  lin al be (pass_iter n dt d j1 a b z1) (pass_iter n dt d j2 a b z2).
Proof.
  induction n as [|n IH]; intros z1 z2 H; [reflexivity|]. cbn [pass_iter]. rewrite z_step_lin by exact H.
  apply IH. now rewrite !z_step_length.
Qed.

Lemma setI_build c i : let c1 := fst (spm_setCurrent F i false c) in
  same_build c c1 /\ s_I (cs c1) = i /\ s_zp (cs c1) = s_zp (cs c) /\ s_zn (cs c1) = s_zn (cs c) /\ c_parent c1 = c_parent c.
Proof. cbn. repeat split. Qed.
Lemma build_diffusion tm c c' : same_build c c' -> c_parent c' = c_parent c -> diffusion_only tm c -> diffusion_only tm c'.
Proof.
  intros (H1 & H2 & H3 & H4) HP [H|[H K]]; [left; congruence|right]. split.
  - now apply (nodeg_cp c).
  - destruct K; [now left|right; congruence].
Qed.

Lemma driven_superposed tm al be l1 l2 l3 : superposed al be l1 l2 l3 ->
  forall c1 c2 c3 d1 d2 d3, same_build c1 c2 -> same_build c1 c3 ->
  diffusion_only tm c1 -> diffusion_only tm c2 -> diffusion_only tm c3 ->
  length (s_zp (cs c1)) = length (s_zp (cs c2)) -> length (s_zn (cs c1)) = length (s_zn (cs c2)) ->
  s_zp (cs c3) = lin al be (s_zp (cs c1)) (s_zp (cs c2)) -> s_zn (cs c3) = lin al be (s_zn (cs c1)) (s_zn (cs c2)) ->
  driven F tm c1 l1 d1 -> driven F tm c2 l2 d2 -> driven F tm c3 l3 d3 ->
  s_zp (cs d3) = lin al be (s_zp (cs d1)) (s_zp (cs d2)) /\ s_zn (cs d3) = lin al be (s_zn (cs d1)) (s_zn (cs d2)).
Proof.
  induction 1 as [|i1 i2 dt n l1 l2 l HS IH]; intros c1 c2 c3 d1 d2 d3 B2 B3 O1 O2 O3 L1 L2 Zp Zn H1 H2 H3.
  - inversion H1; inversion H2; inversion H3; subst. now split.
  - inversion H1 as [|k1 x1 x2 x3 e1 x4 x5 T1 R1]; subst. inversion H2 as [|k2 y1 y2 y3 e2 y4 y5 T2 R2]; subst.
    inversion H3 as [|k3 w1 w2 w3 e3 w4 w5 T3 R3]; subst. clear H1 H2 H3.
    destruct (setI_build c1 i1) as (S1 & I1 & P1 & N1 & Q1). destruct (setI_build c2 i2) as (S2 & I2 & P2 & N2 & Q2).
    destruct (setI_build c3 (al * i1 + be * i2)) as (S3 & I3 & P3 & N3 & Q3).
    remember (fst (spm_setCurrent F i1 false c1)) as a1. remember (fst (spm_setCurrent F i2 false c2)) as a2.
    remember (fst (spm_setCurrent F (al * i1 + be * i2) false c3)) as a3. clear Heqa1 Heqa2 Heqa3.
    assert (A12 : same_build a1 a2) by (eapply build_trans; [apply build_sym, S1|]; eapply build_trans; [exact B2|exact S2]).
    assert (A13 : same_build a1 a3) by (eapply build_trans; [apply build_sym, S1|]; eapply build_trans; [exact B3|exact S3]).
    assert (U1 : diffusion_only tm a1) by exact (build_diffusion tm c1 a1 S1 Q1 O1).
    assert (U2 : diffusion_only tm a2) by exact (build_diffusion tm c2 a2 S2 Q2 O2).
    assert (U3 : diffusion_only tm a3) by exact (build_diffusion tm c3 a3 S3 Q3 O3).
    destruct (timeStep_z _ _ _ _ _ U1 T1) as (G1 & J1 & V1 & _ & X1 & Y1).
    destruct (timeStep_z _ _ _ _ _ U2 T2) as (G2 & J2 & V2 & _ & X2 & Y2).
    destruct (timeStep_z _ _ _ _ _ U3 T3) as (G3 & J3 & V3 & _ & X3 & Y3).
    destruct (build_D _ _ A12) as (Da & Db). destruct (build_D _ _ A13) as (Dc & Dd).
    destruct (build_j_lin al be _ _ _ A12 A13) as (Ja & Jb); [now rewrite I3, I1, I2|].
    assert (Ca : cp a2 = cp a1) by apply A12. assert (Cb : cp a3 = cp a1) by apply A13.
    apply (IH e1 e2 e3).
    + eapply build_trans; [apply build_sym, G1|]. eapply build_trans; [exact A12|exact G2].
    + eapply build_trans; [apply build_sym, G1|]. eapply build_trans; [exact A13|exact G3].
    + exact (build_diffusion tm a1 e1 G1 V1 U1).
    + exact (build_diffusion tm a2 e2 G2 V2 U2).
    + exact (build_diffusion tm a3 e3 G3 V3 U3).
    + rewrite X1, X2, !pass_iter_length. congruence.
    + rewrite Y1, Y2, !pass_iter_length. congruence.
    + rewrite X3, X1, X2, Da, Dc, Ja, Ca, Cb, P3, Zp, P1, P2. now apply pass_iter_lin.
    + rewrite Y3, Y1, Y2, Db, Dd, Jb, Ca, Cb, N3, Zn, N1, N2. now apply pass_iter_lin.
    + exact R1.
    + exact R2.
    + exact R3.
Qed.

(** ** The uniform mode carries the charge *)
Lemma pass_iter_null n dt d j a b : forall z k, (k < length a)%nat -> (k < length b)%nat -> (k < length z)%nat ->
  nth k a 0 = 0 -> nth k (pass_iter n dt d j a b z) 0 = nth k z 0 + INR n * dt * (nth k b 0 * j).
Proof.
  induction n as [|n IH]; intros z k H1 H2 H3 H4; cbn [pass_iter].
  - cbn [INR]. ring.
  - rewrite IH by (rewrite ?z_step_length; assumption). rewrite z_step_nth by assumption. rewrite H4, S_INR. ring.
Qed.
Lemma driven_mode tm k c l c' : driven F tm c l c' -> diffusion_only tm c ->
  (k < length (s_zp (cs c)))%nat -> (k < length (s_zn (cs c)))%nat ->
  let m := q_M (cp c) in
  (k < length (m_Ap m))%nat -> (k < length (m_Bp m))%nat -> (k < length (m_An m))%nat -> (k < length (m_Bn m))%nat ->
  nth k (m_Ap m) 0 = 0 -> nth k (m_An m) 0 = 0 ->
  same_build c c' /\
  nth k (s_zp (cs c')) 0 = nth k (s_zp (cs c)) 0
     - nth k (m_Bp m) 0 * (net_charge l / (q_surf (cp c) * (s_ap (cs c) * q_n (cp c) * 96487 * s_thickp (cs c)))) /\
  nth k (s_zn (cs c')) 0 = nth k (s_zn (cs c)) 0
     + nth k (m_Bn m) 0 * (net_charge l / (q_surf (cp c) * (s_an (cs c) * q_n (cp c) * 96487 * s_thickn (cs c)))).
Proof.
  induction 1 as [c|c i dt n c1 l c' T R IH]; intros O L1 L2 m M1 M2 M3 M4 A1 A2.
  - split; [apply build_refl|]. unfold net_charge. cbn [map Rsum]. unfold Rdiv. split; ring.
  - destruct (setI_build c i) as (S1 & I1 & P1 & N1 & Q1). remember (fst (spm_setCurrent F i false c)) as a1. clear Heqa1.
    assert (U1 : diffusion_only tm a1) by exact (build_diffusion tm c a1 S1 Q1 O).
    destruct (timeStep_z _ _ _ _ _ U1 T) as (G1 & J1 & V1 & _ & X1 & Y1).
    assert (B1 : same_build c c1) by exact (build_trans _ _ _ S1 G1).
    assert (Ca : cp a1 = cp c) by apply S1. rewrite Ca in X1, Y1. fold m in X1, Y1.
    destruct IH as (B' & Ip & In).
    + apply (build_diffusion tm c); [exact B1|congruence|exact O].
    + rewrite X1, pass_iter_length, P1. exact L1.
    + rewrite Y1, pass_iter_length, N1. exact L2.
    + destruct B1 as (-> & _). exact M1.
    + destruct B1 as (-> & _). exact M2.
    + destruct B1 as (-> & _). exact M3.
    + destruct B1 as (-> & _). exact M4.
    + destruct B1 as (-> & _). exact A1.
    + destruct B1 as (-> & _). exact A2.
    + split; [exact (build_trans _ _ _ B1 B')|].
      destruct B1 as (E1 & E2 & E3 & E4). rewrite E1 in Ip, In. fold m in Ip, In.
      assert (Hj : jp_of a1 = - (i / (q_surf (cp c) * (s_ap (cs c) * q_n (cp c) * 96487 * s_thickp (cs c)))) /\
                   jn_of a1 = i / (q_surf (cp c) * (s_an (cs c) * q_n (cp c) * 96487 * s_thickn (cs c)))).
      { unfold jp_of, jn_of, calcMolarFlux, FARADAY. cbn [fst snd]. rewrite I1, Ca, R_nZ.
        destruct S1 as (_ & _ & G & _). unfold ageing in G. injection G. intros.
        repeat match goal with H : ?x (cs a1) = ?x (cs c) |- _ => rewrite H; clear H end.
        cbn [ndiv nmul nopp RNum]. unfold Rdiv. rewrite !Rinv_mult. split; ring. }
      destruct Hj as (Hp & Hn). unfold ageing in E3. injection E3. intros.
      repeat match goal with H : ?x (cs c1) = ?x (cs c) |- _ => try rewrite H in Ip; try rewrite H in In; clear H end.
      rewrite Ip, In, X1, Y1, !pass_iter_null, P1, N1, Hp, Hn by (rewrite ?P1, ?N1; assumption).
      unfold net_charge. cbn [map Rsum]. unfold Rdiv. split; ring.
Qed.

(** ** Rest *)
Lemma pass_iter_zero n dt d a b : forall z, length a = length z -> length b = length z ->
  (forall k, (k < length z)%nat -> nth k a 0 = 0 \/ nth k z 0 = 0) -> pass_iter n dt d 0 a b z = z.
Proof.
  intros z. revert a b. induction n as [|n IH]; intros a b L1 L2 H; [reflexivity|]. cbn [pass_iter].
  assert (E : z_step dt z (dz_diff d 0 a b z) = z); [|rewrite E; now apply IH].
  clear IH. revert a b L1 L2 H. induction z as [|u z IH]; intros [|x a] [|y b] L1 L2 H; try discriminate; [reflexivity|].
  cbn [z_step dz_diff]. rewrite IH by (cbn in L1, L2; try lia; intros k Hk; apply (H (S k)); cbn; lia).
  f_equal. cbn [nadd nmul RNum]. destruct (H O) as [H0|H0]; [cbn; lia|cbn in H0; rewrite H0; ring..].
Qed.
Lemma pass_iter_relax n dt d a b : forall z k, (k < length a)%nat -> (k < length b)%nat -> (k < length z)%nat ->
  -2 <= dt * (d * nth k a 0) <= 0 -> Rabs (nth k (pass_iter n dt d 0 a b z) 0) <= Rabs (nth k z 0).
Proof.
  induction n as [|n IH]; intros z k H1 H2 H3 H4; cbn [pass_iter]; [lra|].
  eapply Rle_trans; [apply IH; rewrite ?z_step_length; assumption|].
  rewrite z_step_nth by assumption.
  replace (nth k z 0 + dt * (d * nth k a 0 * nth k z 0 + nth k b 0 * 0)) with ((1 + dt * (d * nth k a 0)) * nth k z 0) by ring.
  rewrite Rabs_mult. pose proof (Rabs_pos (nth k z 0)) as P.
  assert (Rabs (1 + dt * (d * nth k a 0)) <= 1) by (apply Rabs_le; lra). nra.
Qed.
End Diff.
