(** * Voltage commands to a single unit converge if the slope of its voltage varies by less than a factor 2 *)
From Coq Require Import List Lra Lia.
From Verif Require Import Base RFacts StatusModel StatusProofs CellModel ModuleModel ConvProofs VoltProofs MonoSpec MonoProofs.
Import ListNotations.
Local Open Scope R_scope.

Section Secant.
Context {Tag : Type}.
Notation rbranch := (rbranch Tag).
Context {U : Type} (o : su_ops R U) (br : U -> rbranch -> R -> Prop) (lo hi : R).
Context (HV : forall s b i, br s b i -> exists s', o_V o s = (s', Ok (n_f b i)) /\ br s' b i).
Context (HC : forall s b i, br s b i -> o_Cap o s = n_c b).
Context (HS : forall s b i j, br s b i -> ncarry b j -> lo <= n_f b j <= hi ->
  exists s' st, o_setCurrent o j true s = (s', Ok st) /\ isStatusOK st = true /\ br s' b j).
Context (b : rbranch) (s1 s2 q v E : R).
Context (S1 : 0 < s1) (S2 : s1 <= s2 <= (1 + q) * s1) (Q : 0 <= q <= 1) (C : 0 < n_c b).
Context (HF : slopes s1 s2 (n_f b) (n_a b) (n_b b)).
Let G := s2 * (n_c b / 100).
Context (HA : v + (E + G) <= n_f b (n_a b)) (HB : n_f b (n_b b) <= v - (E + G)).
Context (HL : lo <= v - (E + G)) (HH : v + (E + G) <= hi).

Lemma G_pos : 0 < G.
Proof. unfold G. apply Rmult_lt_0_compat; lra. Qed.
(** The trial current: 1% of the capacity towards the target. *)
Lemma trial i : ncarry b i -> Rabs (v - n_f b i) <= E ->
  let j := if Rlt_dec (n_f b i) v then i - n_c b / 100 else i + n_c b / 100 in
  ncarry b j /\ lo <= n_f b j <= hi.
Proof.
  intros [I1 I2] W. set (x := n_f b i) in *. assert (Gp := G_pos).
  assert (Wx : - E <= v - x <= E) by (revert W; unfold Rabs; destruct (Rcase_abs (v - x)); lra).
  cbv zeta. destruct (Rlt_dec x v) as [D|D].
  - assert (A : n_a b <= i - n_c b / 100).
    { apply Rnot_lt_le. intros K. destruct (HF (n_a b) i) as [_ X]; try lra. fold x in X.
      assert (s2 * (i - n_a b) < G) by (unfold G; apply Rmult_lt_compat_l; lra). lra. }
    split; [split; lra|]. destruct (HF (i - n_c b / 100) i) as [X1 X2]; try lra. fold x in X1, X2.
    replace (i - (i - n_c b / 100)) with (n_c b / 100) in X1, X2 by ring. fold G in X2.
    assert (0 <= s1 * (n_c b / 100)) by (apply Rmult_le_pos; lra). lra.
  - assert (A : i + n_c b / 100 <= n_b b).
    { apply Rnot_lt_le. intros K. destruct (HF i (n_b b)) as [_ X]; try lra. fold x in X.
      assert (s2 * (n_b b - i) < G) by (unfold G; apply Rmult_lt_compat_l; lra). lra. }
    split; [split; lra|]. destruct (HF i (i + n_c b / 100)) as [X1 X2]; try lra. fold x in X1, X2.
    replace (i + n_c b / 100 - i) with (n_c b / 100) in X1, X2 by ring. fold G in X2.
    assert (0 <= s1 * (n_c b / 100)) by (apply Rmult_le_pos; lra). lra.
Qed.
(** The step with a slope [S] between [s1] and [s2]. *)
Lemma newton i S D : ncarry b i -> s1 <= S <= s2 -> Rabs (v - n_f b i) <= D -> D <= E ->
  let j := i + (n_f b i - v) / S in ncarry b j /\ Rabs (v - n_f b j) <= q * D.
Proof.
  intros [I1 I2] HSl W HD. set (x := n_f b i) in *. cbv zeta. assert (Gp := G_pos).
  assert (Wx : - D <= v - x <= D) by (revert W; unfold Rabs; destruct (Rcase_abs (v - x)); lra). clear W.
  set (t := (x - v) / S). assert (Et : t * S = x - v) by (unfold t; field; lra).
  assert (D0 : 0 <= D) by lra.
  destruct (Rle_dec v x) as [K|K].
  - assert (T0 : 0 <= t) by (unfold t; apply Rmult_le_pos; [lra|left; apply Rinv_0_lt_compat; lra]).
    assert (B1 : i + t <= n_b b).
    { apply Rnot_lt_le. intros Z. destruct (HF i (n_b b)) as [_ X]; try lra. fold x in X.
      assert (s2 * (n_b b - i) <= s2 * t) by (apply Rmult_le_compat_l; lra).
      assert (s2 * t <= 2 * s1 * t) by (apply Rmult_le_compat_r; nra).
      assert (s1 * t <= S * t) by (apply Rmult_le_compat_r; lra). lra. }
    split; [split; lra|]. destruct (HF i (i + t)) as [X1 X2]; try lra. fold x in X1, X2. replace (i + t - i) with t in X1, X2 by ring.
    assert (s2 * t <= (1 + q) * (S * t)).
    { apply Rle_trans with ((1 + q) * s1 * t); [apply Rmult_le_compat_r; lra|]. rewrite Rmult_assoc. apply Rmult_le_compat_l; [lra|]. apply Rmult_le_compat_r; lra. }
    assert (S * t <= (1 + q) * (s1 * t)).
    { apply Rle_trans with (s2 * t); [apply Rmult_le_compat_r; lra|]. rewrite <- Rmult_assoc. apply Rmult_le_compat_r; lra. }
    assert (s1 * t <= S * t) by (apply Rmult_le_compat_r; lra).
    assert (q * (s1 * t) <= q * (S * t)) by (apply Rmult_le_compat_l; lra).
    assert (q * (S * t) <= q * D) by (apply Rmult_le_compat_l; lra). apply Rabs_le. lra.
  - set (u := - t). assert (Eu : u * S = v - x) by (unfold u; lra).
    assert (T0 : 0 <= u). { replace u with ((v - x) / S) by (unfold u, t; field; lra). apply Rmult_le_pos; [lra|left; apply Rinv_0_lt_compat; lra]. }
    replace (i + t) with (i - u) by (unfold u; ring).
    assert (B1 : n_a b <= i - u).
    { apply Rnot_lt_le. intros Z. destruct (HF (n_a b) i) as [_ X]; try lra. fold x in X.
      assert (s2 * (i - n_a b) <= s2 * u) by (apply Rmult_le_compat_l; lra).
      assert (s2 * u <= 2 * s1 * u) by (apply Rmult_le_compat_r; nra).
      assert (s1 * u <= S * u) by (apply Rmult_le_compat_r; lra). lra. }
    split; [split; lra|]. destruct (HF (i - u) i) as [X1 X2]; try lra. fold x in X1, X2. replace (i - (i - u)) with u in X1, X2 by ring.
    assert (s2 * u <= (1 + q) * (S * u)).
    { apply Rle_trans with ((1 + q) * s1 * u); [apply Rmult_le_compat_r; lra|]. rewrite Rmult_assoc. apply Rmult_le_compat_l; [lra|]. apply Rmult_le_compat_r; lra. }
    assert (S * u <= (1 + q) * (s1 * u)).
    { apply Rle_trans with (s2 * u); [apply Rmult_le_compat_r; lra|]. rewrite <- Rmult_assoc. apply Rmult_le_compat_r; lra. }
    assert (s1 * u <= S * u) by (apply Rmult_le_compat_r; lra).
    assert (q * (s1 * u) <= q * (S * u)) by (apply Rmult_le_compat_l; lra).
    assert (q * (S * u) <= q * D) by (apply Rmult_le_compat_l; lra). apply Rabs_le. lra.
Qed.

Lemma secant_loop it : forall D s i, br s b i -> ncarry b i -> Rabs (v - n_f b i) <= D -> D <= E -> D * q ^ it < / 10 ^ 6 ->
  exists s' j, setVoltage_loop o (Datatypes.S it) v i s = (s', Ok Success) /\ br s' b j /\ Rabs (v - n_f b j) < / 10 ^ 6.
Proof.
  assert (TL : nlit (A := R) 1 1000000 = / 10 ^ 6) by (rewrite R_nlit; field).
  induction it as [|it IH]; intros D s i B K W HD T; destruct (HV _ _ _ B) as (sa & EA & BA).
  - cbn [setVoltage_loop]. rewrite EA, TL. replace (nltb (nabs (nsub v (n_f b i))) (/ 10 ^ 6)) with true; [exists sa, i|].
    + split; [reflexivity|]. split; [exact BA|]. cbn [pow] in T. lra.
    + symmetry. apply Rltb_true. cbn [pow] in T. cbn [nabs nsub RNum]. lra.
  - set (it1 := Datatypes.S it) in *.
    change (setVoltage_loop o (Datatypes.S it1) v i s) with
      (match o_V o s with
       | (z1, Ok va) =>
          if (nabs (v - va) <? nlit 1 1000000)%num then (z1, Ok Success)
          else
            let ib := if (v >? va)%num then (i - nlit 1 100 * o_Cap o z1)%num else (i + nlit 1 100 * o_Cap o z1)%num in
            match o_setCurrent o ib true z1 with
            | (z2, Ok _) =>
                match o_V o z2 with
                | (z3, Ok vb) =>
                    let slope := ((i - ib) / (va - vb))%num in
                    let ia' := (ib - (vb - v) * slope)%num in
                    match o_setCurrent o ia' true z3 with
                    | (z4, Ok _) => setVoltage_loop o it1 v ia' z4
                    | (z4, e) => (z4, cast e)
                    end
                | (z3, e) => (z3, cast e)
                end
            | (z2, e) => (z2, cast e)
            end
       | (z1, e) => (z1, cast e)
       end).
    rewrite EA, TL. destruct (nltb (nabs (nsub v (n_f b i))) (/ 10 ^ 6)) eqn:Es.
    { exists sa, i. split; [reflexivity|]. split; [exact BA|]. apply Rltb_true in Es. exact Es. }
    cbv zeta. rewrite (HC _ _ _ BA).
    set (j := if Rlt_dec (n_f b i) v then i - n_c b / 100 else i + n_c b / 100).
    replace (if nltb (n_f b i) v then _ else _) with j.
    2:{ unfold j. rewrite R_nlit. destruct (Rlt_dec (n_f b i) v) as [X|X].
        - rewrite (proj2 (Rltb_true _ _) X). cbn [nsub nmul RNum]. field.
        - rewrite (proj2 (Rltb_false _ _)) by lra. cbn [nadd nmul RNum]. field. }
    destruct (trial i K ltac:(lra)) as [J1 J2]. fold j in J1, J2.
    destruct (HS _ _ _ _ BA J1 J2) as (sb & st & EB & _ & BB). rewrite EB.
    destruct (HV _ _ _ BB) as (sc & EC & BC). rewrite EC.
    assert (NJ : i - j <> 0) by (unfold j; destruct (Rlt_dec (n_f b i) v); lra).
    set (Sl := (n_f b i - n_f b j) / (j - i)).
    assert (HSl : s1 <= Sl <= s2).
    { unfold Sl. destruct (Rle_dec i j) as [X|X].
      - destruct (HF i j) as [Y1 Y2]; try apply K; try apply J1; try lra.
        split; apply Rmult_le_reg_r with (j - i); try lra; unfold Rdiv; rewrite ?Rmult_assoc, Rinv_l by lra; lra.
      - destruct (HF j i) as [Y1 Y2]; try apply K; try apply J1; try lra.
        replace ((n_f b i - n_f b j) / (j - i)) with ((n_f b j - n_f b i) / (i - j)) by (field; lra).
        split; apply Rmult_le_reg_r with (i - j); try lra; unfold Rdiv; rewrite ?Rmult_assoc, Rinv_l by lra; lra. }
    assert (ND : n_f b i - n_f b j <> 0).
    { intros Z. assert (Sl = 0) by (unfold Sl; rewrite Z; unfold Rdiv; ring). lra. }
    match goal with |- context [o_setCurrent o ?y true sc] => replace y with (i + (n_f b i - v) / Sl) end.
    2:{ cbn [nsub nmul ndiv RNum]. unfold Sl. assert (NJ2 : j - i <> 0) by (intros Z; apply NJ; lra). field. repeat split; auto. }
    destruct (newton i Sl D K HSl W HD) as [N1 N2].
    set (y := i + (n_f b i - v) / Sl) in *.
    assert (D0 : 0 <= D) by (assert (0 <= Rabs (v - n_f b i)) by apply Rabs_pos; lra).
    assert (QD : q * D <= D) by (rewrite <- (Rmult_1_l D) at 2; apply Rmult_le_compat_r; lra).
    assert (Gp := G_pos).
    destruct (HS _ _ _ y BC N1) as (sd & st' & ED & _ & BD).
    { revert N2. unfold Rabs. destruct (Rcase_abs (v - n_f b y)); lra. }
    rewrite ED. apply (IH (q * D) sd y BD N1 N2); [lra|].
    replace (q * D * q ^ it) with (D * q ^ it1) by (unfold it1; cbn [pow]; ring). exact T.
Qed.
End Secant.
