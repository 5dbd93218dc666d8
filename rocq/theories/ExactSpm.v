(** * Accuracy of the diffusion modes of a single-particle cell *)
From Coq Require Import Lra Lia.
From Verif Require Import Base RFacts StatusModel UtilModel CellModel CellSpec SpmModel SpmSpec SpmProofs SpmReal
  SpmDiff ExactSpec ExactProofs.
Local Open Scope R_scope.

Section Modes.
Context (F : fns R) (k : nat) (H m : R) (H1 : H <= 1).

Lemma pass_exact dt d j (a b : list R) : (k < length a)%nat -> (k < length b)%nat ->
  let kap := - (d * nth k a 0) in let e := nth k b 0 * j / kap in
  0 < kap -> 0 <= dt -> dt * kap <= H -> Rabs e <= m ->
  forall n z y, (k < length z)%nat -> Rabs y <= m -> Rabs (nth k z 0 - y) <= H * m ->
  Rabs (nth k (pass_iter n dt d j a b z) 0 - response kap e y (INR n * dt)) <= H * m /\
  Rabs (response kap e y (INR n * dt)) <= m.
Proof.
  intros La Lb kap e Hk Hdt Hh He. induction n as [|n IH]; intros z y Lz Hy Hd.
  - cbn [pass_iter INR]. rewrite Rmult_0_l, response_0. auto.
  - cbn [pass_iter].
    assert (E : nth k (z_step dt z (dz_diff d j a b z)) 0 = nth k z 0 + dt * kap * (e - nth k z 0)).
    { rewrite z_step_nth by assumption. unfold e.
      replace (dt * kap * (nth k b 0 * j / kap - nth k z 0)) with (dt * (nth k b 0 * j - kap * nth k z 0))
        by (field; lra).
      unfold kap. ring. }
    assert (Q := one_step kap e (nth k z 0) y dt H m ltac:(lra) Hdt Hh H1 He Hy Hd).
    assert (Q2 := response_bounded kap e y dt m ltac:(apply Rmult_le_pos; lra) He Hy).
    rewrite <- E in Q.
    destruct (IH (z_step dt z (dz_diff d j a b z)) (response kap e y dt)) as (R1 & R2); auto.
    { rewrite z_step_length. exact Lz. }
    rewrite response_add in R1, R2. rewrite S_INR.
    replace ((INR n + 1) * dt) with (dt + INR n * dt) by ring. auto.
Qed.

Lemma driven_exact tm : forall c l c', driven F tm c l c' -> diffusion_only tm c -> forall y,
  (k < length (s_zn (cs c)))%nat -> let M := q_M (cp c) in
  (k < length (m_An M))%nat -> (k < length (m_Bn M))%nat ->
  let kap := - (Dn_of F c * nth k (m_An M) 0) in
  let g := nth k (m_Bn M) 0 / (kap * (q_surf (cp c) * (s_an (cs c) * q_n (cp c) * 96487 * s_thickn (cs c)))) in
  0 < kap -> Forall (fun '(i, dt, _) => Rabs (g * i) <= m /\ dt * kap <= H) l ->
  Rabs y <= m -> Rabs (nth k (s_zn (cs c)) 0 - y) <= H * m ->
  Rabs (nth k (s_zn (cs c')) 0 - ideal kap y (scaled g l)) <= H * m.
Proof.
  induction 1 as [c|c i dt n c1 l c' T R IH]; intros O y L M La Lb kap g Hk Hl Hy Hd; [exact Hd|].
  apply Forall_cons_iff in Hl. destruct Hl as [[Hi Hh] Hl].
  destruct (setI_build F c i) as (S1 & I1 & P1 & N1 & Q1).
  remember (fst (spm_setCurrent F i false c)) as a1. clear Heqa1.
  assert (U1 : diffusion_only tm a1) by exact (build_diffusion tm c a1 S1 Q1 O).
  destruct (timeStep_z F _ _ _ _ _ U1 T) as (G1 & J1 & V1 & Dt & _ & Y1).
  assert (B1 : same_build c c1) by exact (build_trans _ _ _ S1 G1).
  assert (Ca : cp a1 = cp c) by apply S1. rewrite Ca in Y1. fold M in Y1.
  assert (Da : Dn_of F a1 = Dn_of F c) by apply (build_D F c a1 S1).
  assert (Dc : Dn_of F c1 = Dn_of F c) by apply (build_D F c c1 B1).
  assert (Hn : jn_of a1 = i / (q_surf (cp c) * (s_an (cs c) * q_n (cp c) * 96487 * s_thickn (cs c)))).
  { unfold jn_of, calcMolarFlux, FARADAY. cbn [fst snd]. rewrite I1, Ca, R_nZ.
    destruct S1 as (_ & _ & G & _). unfold ageing in G. injection G. intros.
    repeat match goal with H : ?x (cs a1) = ?x (cs c) |- _ => rewrite H; clear H end.
    cbn [ndiv nmul nopp RNum]. unfold Rdiv. rewrite !Rinv_mult. ring. }
  assert (He : nth k (m_Bn M) 0 * jn_of a1 / kap = g * i).
  { rewrite Hn. unfold g, Rdiv. rewrite !Rinv_mult. ring. }
  rewrite Da, N1 in Y1.
  destruct (pass_exact dt (Dn_of F c) (jn_of a1) (m_An M) (m_Bn M) La Lb) with (n := n) (z := s_zn (cs c)) (y := y)
    as (R1 & R2); auto.
  { fold kap. rewrite He. exact Hi. }
  fold kap in R1, R2. rewrite He in R1, R2. rewrite <- Y1 in R1.
  assert (Oc : diffusion_only tm c1) by (apply (build_diffusion tm c); [exact B1|congruence|exact O]).
  assert (Lc : (k < length (s_zn (cs c1)))%nat) by (rewrite Y1, pass_iter_length; exact L).
  specialize (IH Oc (response kap (g * i) y (INR n * dt)) Lc).
  destruct B1 as (E1 & E2 & E3 & E4). unfold ageing in E3. injection E3. intros.
  cbv zeta in IH. rewrite E1, Dc in IH.
  repeat match goal with H : ?x (cs c1) = ?x (cs c) |- _ => try rewrite H in IH; clear H end.
  apply IH; auto.
Qed.

Lemma driven_exact_p tm : forall c l c', driven F tm c l c' -> diffusion_only tm c -> forall y,
  (k < length (s_zp (cs c)))%nat -> let M := q_M (cp c) in
  (k < length (m_Ap M))%nat -> (k < length (m_Bp M))%nat ->
  let kap := - (Dp_of F c * nth k (m_Ap M) 0) in
  let g := - (nth k (m_Bp M) 0 / (kap * (q_surf (cp c) * (s_ap (cs c) * q_n (cp c) * 96487 * s_thickp (cs c))))) in
  0 < kap -> Forall (fun '(i, dt, _) => Rabs (g * i) <= m /\ dt * kap <= H) l ->
  Rabs y <= m -> Rabs (nth k (s_zp (cs c)) 0 - y) <= H * m ->
  Rabs (nth k (s_zp (cs c')) 0 - ideal kap y (scaled g l)) <= H * m.
Proof.
  induction 1 as [c|c i dt n c1 l c' T R IH]; intros O y L M La Lb kap g Hk Hl Hy Hd; [exact Hd|].
  apply Forall_cons_iff in Hl. destruct Hl as [[Hi Hh] Hl].
  destruct (setI_build F c i) as (S1 & I1 & P1 & N1 & Q1).
  remember (fst (spm_setCurrent F i false c)) as a1. clear Heqa1.
  assert (U1 : diffusion_only tm a1) by exact (build_diffusion tm c a1 S1 Q1 O).
  destruct (timeStep_z F _ _ _ _ _ U1 T) as (G1 & J1 & V1 & Dt & Y1 & _).
  assert (B1 : same_build c c1) by exact (build_trans _ _ _ S1 G1).
  assert (Ca : cp a1 = cp c) by apply S1. rewrite Ca in Y1. fold M in Y1.
  assert (Da : Dp_of F a1 = Dp_of F c) by apply (build_D F c a1 S1).
  assert (Dc : Dp_of F c1 = Dp_of F c) by apply (build_D F c c1 B1).
  assert (Hn : jp_of a1 = - (i / (q_surf (cp c) * (s_ap (cs c) * q_n (cp c) * 96487 * s_thickp (cs c))))).
  { unfold jp_of, calcMolarFlux, FARADAY. cbn [fst snd]. rewrite I1, Ca, R_nZ.
    destruct S1 as (_ & _ & G & _). unfold ageing in G. injection G. intros.
    repeat match goal with H : ?x (cs a1) = ?x (cs c) |- _ => rewrite H; clear H end.
    cbn [ndiv nmul nopp RNum]. unfold Rdiv. rewrite !Rinv_mult. ring. }
  assert (He : nth k (m_Bp M) 0 * jp_of a1 / kap = g * i).
  { rewrite Hn. unfold g, Rdiv. rewrite !Rinv_mult. ring. }
  rewrite Da, P1 in Y1.
  destruct (pass_exact dt (Dp_of F c) (jp_of a1) (m_Ap M) (m_Bp M) La Lb) with (n := n) (z := s_zp (cs c)) (y := y)
    as (R1 & R2); auto.
  { fold kap. rewrite He. exact Hi. }
  fold kap in R1, R2. rewrite He in R1, R2. rewrite <- Y1 in R1.
  assert (Oc : diffusion_only tm c1) by (apply (build_diffusion tm c); [exact B1|congruence|exact O]).
  assert (Lc : (k < length (s_zp (cs c1)))%nat) by (rewrite Y1, pass_iter_length; exact L).
  specialize (IH Oc (response kap (g * i) y (INR n * dt)) Lc).
  destruct B1 as (E1 & E2 & E3 & E4). unfold ageing in E3. injection E3. intros.
  cbv zeta in IH. rewrite E1, Dc in IH.
  repeat match goal with H : ?x (cs c1) = ?x (cs c) |- _ => try rewrite H in IH; clear H end.
  apply IH; auto.
Qed.
End Modes.
