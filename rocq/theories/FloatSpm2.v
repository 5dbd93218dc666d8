(** * Proofs: the energy counter of a single-particle cell never runs backwards in double arithmetic *)
From Coq Require Import Reals Lra Lia SpecFloat ZArith List Bool.
Import ListNotations.
From Flocq Require Import Core BinarySingleNaN.
From Verif Require Import Base RFacts StatusModel UtilModel CellModel CellSpec SpmModel SpmSpec SpmProofs SpmReal CyclerModel CyclerSpec.
From Verif Require Import FloatSpec FloatFacts FloatEcm FloatSpmSpec FloatSpm.

Lemma dopp (x : f64) : double x -> double (nopp x).
Proof. destruct x; intros H; exact H. Qed.
Lemma dlit p q : double (nlit p q).
Proof. exact (ddiv _ _ (dint p) (dint (Zpos q))). Qed.
Lemma dot_double : forall row z acc, double acc -> Forall double row -> Forall double z -> double (dot (A := f64) acc row z).
Proof.
  induction row as [|r row IH]; intros z acc Ha Fr Fz; [exact Ha|]. destruct z as [|x z]; [exact Ha|]. inversion Fr; inversion Fz; subst. cbn [dot].
  apply IH; try assumption. apply dadd; [assumption|now apply dmul].
Qed.
Lemma dz_double d j : double d -> double j -> forall a b z, Forall double a -> Forall double b -> Forall double z -> Forall double (dz_diff (A := f64) d j a b z).
Proof.
  intros Hd Hj. induction a as [|x a IH]; intros b z Fa Fb Fz; [constructor|]. destruct b as [|y b]; [constructor|]. destruct z as [|u z]; [constructor|].
  inversion Fa; inversion Fb; inversion Fz; subst. cbn [dz_diff]. constructor; [|now apply IH]. apply dadd; [|now apply dmul]. apply dmul; [now apply dmul|assumption].
Qed.
Lemma zstep_double dt : double dt -> forall z dz, Forall double z -> Forall double dz -> Forall double (z_step (A := f64) dt z dz).
Proof.
  intros Hd. induction z as [|u z IH]; intros dz Fz Fd; [constructor|]. destruct dz as [|d dz]; [assumption|]. inversion Fz; inversion Fd; subst. cbn [z_step].
  constructor; [|now apply IH]. apply dadd; [assumption|now apply dmul].
Qed.
Lemma nth_double k : forall l d, double d -> Forall double l -> double (nth k l d).
Proof. induction k as [|k IH]; intros l d Hd Fl; destruct Fl; cbn; auto. Qed.
Lemma nth_doubles k : forall l, Forall (Forall double) l -> Forall double (nth k l []).
Proof. induction k as [|k IH]; intros l Fl; destruct Fl; cbn; auto. Qed.
Lemma interp_double (o : XYdata f64) x fx y : Forall double (xy_x o) /\ Forall double (xy_y o) -> double x -> XYdata_interp o x fx = Ok y -> double y.
Proof. intros [Fx Fy] Hx H. unfold XYdata_interp in H. now apply linInt_double in H. Qed.

Ltac dbl := repeat match goal with
  | |- double (nadd _ _) => apply dadd | |- double (nsub _ _) => apply dsub | |- double (nmul _ _) => apply dmul | |- double (ndiv _ _) => apply ddiv
  | |- double (nopp _) => apply dopp | |- double (nabs _) => apply dabs | |- double (nZ _) => apply dnZ | |- double (nlit _ _) => apply dlit
  | H : double ?x |- double ?x => exact H end.

Section Spm.
Variable F : fns f64.
Hypothesis HF : double_fns F.
Implicit Types (c : spm f64).

Lemma D_double c : double_spm c -> double (fst (calcDiffConstant F c)) /\ double (snd (calcDiffConstant F c)).
Proof.
  intros (H & _). repeat (apply Forall_cons_iff in H; destruct H as [? H]). unfold calcDiffConstant. cbn [fst snd]. split; apply dmul; try assumption; apply HF.
Qed.
Lemma J_double c : double_spm c -> double (fst (fst (calcMolarFlux c))) /\ double (snd (fst (calcMolarFlux c))) /\ double (snd (calcMolarFlux c)).
Proof.
  intros (H & _). repeat (apply Forall_cons_iff in H; destruct H as [? H]). unfold calcMolarFlux, FARADAY. cbn [fst snd]. repeat split; dbl.
Qed.
Lemma calcV_double c v : double_spm c -> calcV F c = Ok (Some v) -> double v.
Proof.
  intros D. destruct (D_double c D) as [D1 D2]. destruct (J_double c D) as (J1 & J2 & J3).
  destruct D as (H & Z1 & Z2 & M1 & M2 & M3 & M4 & M5 & M6 & M7 & M8 & O). repeat (apply Forall_cons_iff in H; destruct H as [? H]).
  repeat (apply Forall_cons_iff in O; destruct O as [? O]).
  unfold calcV, getCSurf. destruct (calcDiffConstant F c) as [dpt dnt]. destruct (calcMolarFlux c) as [[ia jp] jn]. cbn [fst snd] in *.
  unfold calcSurfaceConcentration. set (cps := nadd (dot (nZ 0) (nth 0 (m_Cp (q_M (cp c))) []) (s_zp (cs c))) _). set (cns := nadd (dot (nZ 0) (nth 0 (m_Cn (q_M (cp c))) []) (s_zn (cs c))) _).
  assert (C1 : double cps).
  { apply dadd; [apply dot_double; [apply dnZ|now apply nth_doubles|assumption]|]. apply ddiv; [|assumption]. apply dmul; [|assumption]. apply nth_double; [apply dnZ|assumption]. }
  assert (C2 : double cns).
  { apply dadd; [apply dot_double; [apply dnZ|now apply nth_doubles|assumption]|]. apply ddiv; [|assumption]. apply dmul; [|assumption]. apply nth_double; [apply dnZ|assumption]. }
  clearbody cps cns. destruct (conc_bad c cps cns); cbn [negb]; [discriminate|].
  destruct (XYdata_interp (q_dOCVtot (cp c)) _ true) as [dO| | |] eqn:I1; try discriminate. cbn [rbind].
  destruct (XYdata_interp (q_OCVn (cp c)) _ true) as [on| | |] eqn:I2; try discriminate. cbn [rbind].
  destruct (XYdata_interp (q_OCVp (cp c)) _ true) as [op| | |] eqn:I3; try discriminate. cbn [rbind].
  apply (interp_double _ _ _ _ H21) in I1; [|dbl]. apply (interp_double _ _ _ _ H20) in I2; [|dbl]. apply (interp_double _ _ _ _ H19) in I3; [|dbl].
  unfold calcOverPotential, getRdc, RGAS, FARADAY. cbv beta iota zeta. intros K. pose proof (fun x => proj2 (HF x)) as HA.
  match type of K with Ok (Some ?t) = _ => assert (Dt : double t); [dbl; apply HA|]; assert (E : t = v) by congruence; rewrite E in Dt; exact Dt end.
Qed.
Lemma V_double c c1 v : double_spm c -> c_valid c = false -> spm_V F c = (c1, Ok v) -> double v /\ double_spm c1.
Proof.
  intros D Hv H. split.
  - revert H. unfold spm_V. rewrite Hv. destruct (calcV F c) as [[w|]| | |] eqn:E; try discriminate; intros H; injection H as <- <-; [now apply calcV_double in E|reflexivity].
  - destruct (V_same _ _ _ _ H) as (P & (w & Q) & _). unfold double_spm in *. rewrite P, Q. exact D.
Qed.
Lemma V_spm c c1 r : double_spm c -> spm_V F c = (c1, r) -> double_spm c1.
Proof. intros D H. destruct (V_same _ _ _ _ H) as (P & (w & Q) & _). unfold double_spm in *. rewrite P, Q. exact D. Qed.
Lemma step1_Wh dt c : double dt -> double_spm c -> let c1 := fst (spm_step1 F dt c) in double_spm c1 /\ never_less (s_Wh (cs c)) (s_Wh (cs c1)).
Proof.
  intros Dd D. cbv zeta. destruct (D_double c D) as [D1 D2]. destruct (J_double c D) as (J1 & J2 & J3). unfold spm_step1.
  destruct (calcDiffConstant F c) as [dpt dnt]. destruct (calcMolarFlux c) as [[ia jp] jn]. cbn [fst snd] in *.
  match goal with |- context [spm_V F ?d] => set (c0 := d) end.
  assert (D0 : double_spm c0).
  { destruct D as (H & Z1 & Z2 & M1 & M2 & M3 & M4 & M5 & M6 & M7 & M8 & O). split; [exact H|].
    split; [apply zstep_double; [assumption..|now apply dz_double]|]. split; [apply zstep_double; [assumption..|now apply dz_double]|]. repeat (split; [assumption|]). assumption. }
  assert (V0 : c_valid c0 = false) by reflexivity. assert (W0 : s_Wh (cs c0) = s_Wh (cs c)) by reflexivity.
  assert (DI : double (s_I (cs c))) by (destruct D as (H & _); now inversion H). clearbody c0.
  destruct (spm_V F c0) as [c2 r] eqn:E. assert (D3 := V_spm _ _ _ D0 E). destruct (V_same _ _ _ _ E) as (_ & (w & Q) & _). assert (W2 : s_Wh (cs c2) = s_Wh (cs c)) by (rewrite Q, <- W0; reflexivity).
  destruct r as [v| | |]; cbn [fst]; try (split; [exact D3|rewrite W2; apply never_less_refl]).
  destruct (V_double _ _ _ D0 V0 E) as [Dv _].
  assert (DW : double (s_Wh (cs c2))) by (destruct D3 as (H & _); do 12 apply Forall_inv_tail in H; now apply Forall_inv in H).
  assert (DA : double (nabs (nmul (nmul (s_I (cs c)) (ndiv dt (nZ 3600))) v))) by dbl.
  split.
  - destruct D3 as (H & R). split; [|exact R]. repeat (apply Forall_cons_iff in H; destruct H as [? H]).
    repeat (apply Forall_cons; [first [assumption | now apply dadd]|]). constructor.
  - rewrite <- W2. apply never_less_add; [exact DW|exact DA|apply abs_not_neg].
Qed.
Lemma double_Wh c : double_spm c -> double (s_Wh (cs c)).
Proof. intros (H & _). do 12 apply Forall_inv_tail in H. now apply Forall_inv in H. Qed.
Lemma steps_Wh dt : double dt -> forall n c, double_spm c -> let c1 := fst (spm_steps F n dt c) in double_spm c1 /\ never_less (s_Wh (cs c)) (s_Wh (cs c1)).
Proof.
  intros Dd. induction n as [|n IH]; intros c D; cbv zeta; [split; [exact D|apply never_less_refl]|].
  rewrite steps_S. destruct (step1_Wh dt c Dd D) as [D1 N1]. destruct (spm_step1 F dt c) as [c1 r]. cbn [fst] in *.
  destruct r as [[]| | |]; try (split; assumption). destruct (IH c1 D1) as [D2 N2]. split; [exact D2|].
  apply (never_less_trans _ (s_Wh (cs c1))); try assumption; now apply double_Wh.
Qed.
Theorem call_Wh tm dt n c : double dt -> double_spm c -> never_less (s_Wh (cs c)) (s_Wh (cs (fst (spm_timeStep_CC F tm dt n c)))).
Proof.
  intros Dd D. unfold spm_timeStep_CC. destruct (nltb dt (nZ 0)); [apply never_less_refl|].
  match goal with |- context [spm_steps F _ _ ?d] => set (c0 := d) end. assert (D0 : double_spm c0) by exact D.
  change (s_Wh (cs c)) with (s_Wh (cs c0)). clearbody c0.
  destruct (steps_Wh dt Dd (Z.to_nat n) c0 D0) as [D1 N1]. destruct (spm_steps F (Z.to_nat n) dt c0) as [c2 r]. cbn [fst] in *.
  destruct r as [[]| | |]; try exact N1. destruct (c_block c2); [exact N1|].
  destruct (spm_heat_age F tm dt n c2) as [c3 r3] eqn:E. destruct (heat_books _ _ _ _ _ _ _ E) as (_ & K). cbv zeta in K. cbn [fst].
  destruct K as [(K & _)|(_ & _ & _ & K & _)].
  - unfold books in K. injection K as _ _ _ K. now rewrite K.
  - rewrite K. destruct (zero_prod dt (nZ n)) as [Z1 Z2]. apply (never_less_trans _ (s_Wh (cs c2))); try assumption; try now apply double_Wh.
    + apply dadd; [now apply double_Wh|exact Z1].
    + apply never_less_add; [now apply double_Wh|exact Z1|exact Z2].
Qed.
End Spm.
