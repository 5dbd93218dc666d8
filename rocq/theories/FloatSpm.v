(** * Proofs about a single-particle cell in double arithmetic *)
From Coq Require Import Reals Lra Lia SpecFloat ZArith List Bool.
Import ListNotations.
From Flocq Require Import Core BinarySingleNaN.
From Verif Require Import Base RFacts StatusModel UtilModel CellModel CellSpec SpmModel SpmSpec SpmProofs SpmReal CyclerModel CyclerSpec.
From Verif Require Import FloatSpec FloatFacts FloatEcm FloatSpmSpec.
Local Open Scope R_scope.

(** ** Adding zero *)
Lemma plus_zero (x z : f64) : double x -> fin z -> fval z = 0 -> fin (nadd x z) -> fin x /\ fval (nadd x z) = fval x.
Proof.
  intros D Fz Vz Fs. cbn [nadd SFNum] in *. destruct (is_finite_SF x) eqn:E.
  - assert (Fx : fin x) by (split; assumption). split; [exact Fx|].
    destruct (add_cases x z Fx Fz) as [(A & B)|[(A & _)|(A & _)]].
    + rewrite B, Vz, Rplus_0_r. apply rnd_id. now apply fmt_val.
    + rewrite A in Fs. destruct Fs as [_ Fs]. discriminate.
    + rewrite A in Fs. destruct Fs as [_ Fs]. discriminate.
  - exfalso. destruct Fs as [_ Fs], Fz as [_ Fz]. destruct x as [s|s| |s m e]; try discriminate; destruct z as [t|t| |t m' e']; discriminate.
Qed.
Lemma zero_times (x : f64) : nmul (nZ 0) x = S754_nan \/ exists s, nmul (nZ 0) x = S754_zero s.
Proof. destruct x as [s|s| |s m e]; [right; eexists; reflexivity|left; reflexivity|left; reflexivity|right; eexists; reflexivity]. Qed.
Lemma zero_mul (s : bool) (x : f64) : nmul (S754_zero s : f64) x = S754_nan \/ exists t, nmul (S754_zero s : f64) x = S754_zero t.
Proof. destruct x as [t|t| |t m e]; [right; eexists; reflexivity|left; reflexivity|left; reflexivity|right; eexists; reflexivity]. Qed.
Lemma zero_prod (dt n : f64) : let z := nmul (nmul (nZ 0) dt) n in double z /\ SFltb z zf = false.
Proof.
  cbv zeta. destruct (zero_times dt) as [->|(s & ->)].
  - split; reflexivity.
  - destruct (zero_mul s n) as [->|(t & ->)]; [split; reflexivity|]. destruct t; split; reflexivity.
Qed.
Lemma zero_fin (dt : f64) n : fin dt -> (0 <= n <= 2 ^ 53)%Z -> let z := nmul (nmul (nZ 0) dt) (nZ n) in fin z /\ fval z = 0.
Proof.
  intros Fd Hn. cbv zeta. destruct (fnZ 0) as [F0 V0]; [easy|]. destruct (fnZ n) as [Fn Vn]; [lia|]. cbn [nmul SFNum] in *.
  destruct (fmul _ _ F0 Fd) as [F1 V1]; [rewrite V0, Rmult_0_l, Rabs_R0; apply Rlt_le, huge_pos|]. rewrite V0, Rmult_0_l, rnd_0 in V1.
  destruct (fmul _ _ F1 Fn) as [F2 V2]; [rewrite V1, Rmult_0_l, Rabs_R0; apply Rlt_le, huge_pos|]. rewrite V1, Rmult_0_l, rnd_0 in V2. auto.
Qed.

(** ** Rounding errors of the state of charge *)
Lemma soc_err i dt cap : moderate i -> moderate dt -> moderate cap -> fval cap <> 0 ->
  let y := nmul dt (nadd (nZ 0) (ndiv (nopp i) (nmul cap (nZ 3600)))) in let b := fval i * (fval dt / 3600) / fval cap in
  fin y /\ Rabs (fval y - - b) <= 4 * eps * Rabs b /\ Rabs (fval y) <= bpow radix2 902.
Proof.
  intros (Fi & Mi) (Fd & Md) (Fc & Mc) Pc. cbv zeta. destruct (fnZ 3600) as [F36 V36]; [easy|]. pose proof eps_pos as EP. pose proof eps_small as ES.
  destruct Mc as [Mc|Mc]; [now destruct Pc|].
  assert (A0 : apx 0 0 12 (nZ 3600) 3600).
  { split; [exact F36|]. split; [right; rewrite Rabs_pos_eq by lra; cbn; lra|]. exists 0. rewrite Rabs_R0, V36. split; [lra|ring]. }
  assert (A1 := apx_mul 0 (-300) 300 0 12 cap _ _ Fc (or_intror Mc) ltac:(lra) A0 ltac:(lia) ltac:(lia)).
  assert (N1 : fval cap * 3600 <> 0) by (apply Rmult_integral_contrapositive_currified; [exact Pc|lra]).
  assert (K1 : 0 <= 0 + 1.1 <= 8) by lra. assert (R1 := apx_range _ _ _ _ _ K1 A1 N1).
  destruct A1 as (F1 & _ & d & Hd & E1). set (D := nmul cap (nZ 3600)) in *.
  destruct (fopp i Fi) as [Fo Vo].
  assert (A2 : apx 0 (-300) 300 (nopp i) (- fval i)).
  { split; [exact Fo|]. split; [destruct Mi as [->|Mi]; [left; ring|right; now rewrite Rabs_Ropp]|]. exists 0. rewrite Rabs_R0. split; [lra|]. cbn [nopp SFNum]. rewrite Vo. ring. }
  apply (apx_div 0 (-300) 300 (-300 + 0 - 1) (300 + 12 + 1) (nopp i) D) in A2; [|exact F1|exact R1|lra|lia|lia].
  set (q := ndiv (nopp i) D) in *.
  assert (A3 : apx (0 + 1.1) (-300 - (300 + 12 + 1)) (300 - (-300 + 0 - 1)) (nadd (nZ 0) q) (- fval i / fval D)).
  { destruct A2 as (F2 & R2 & d2 & H2 & E2). destruct (fnZ 0) as [F0 V0]; [easy|]. cbn [nadd SFNum].
    destruct (add_cases _ _ F0 F2) as [(F3 & V3)|[(_ & H & _)|(_ & H & _)]].
    - split; [exact F3|]. split; [exact R2|]. exists d2. split; [exact H2|]. rewrite V3, V0, Rplus_0_l, rnd_id by (now apply fmt_val). exact E2.
    - exfalso. rewrite V0 in H. lra.
    - exfalso. rewrite V0 in H. lra. }
  assert (A4 := apx_mul (0 + 1.1) (-300) 300 _ _ dt _ _ Fd Md K1 A3 ltac:(lia) ltac:(lia)).
  assert (K4 : 0 <= 0 + 1.1 + 1.1 <= 8) by lra. destruct (apx_le _ _ _ _ _ K4 A4) as [B1 B2]. split; [exact (proj1 A4)|].
  split; [|apply Rle_trans with (1 := B2); apply bpow_le; lia].
  set (y := nmul dt (nadd (nZ 0) q)) in *. set (b := fval i * (fval dt / 3600) / fval cap).
  assert (Hd' : Rabs d <= / 1000) by nra. apply Rabs_le_inv in Hd'.
  assert (EV : fval dt * (- fval i / fval D) = - b * / (1 + d)). { rewrite E1. unfold b. field. repeat split; try assumption; lra. }
  rewrite EV in B1. assert (Q : Rabs (/ (1 + d)) <= 1.01). { rewrite Rabs_pos_eq; [|apply Rlt_le, Rinv_0_lt_compat; lra]. apply Rmult_le_reg_r with (1 + d); [lra|]. rewrite Rinv_l by lra. lra. }
  rewrite Rabs_mult, Rabs_Ropp in B1. pose proof (Rabs_pos b) as PB.
  assert (B3 : Rabs (- b * / (1 + d) - - b) <= 1.2 * eps * Rabs b).
  { replace (- b * / (1 + d) - - b) with (b * (d * / (1 + d))) by (field; lra). rewrite !Rabs_mult.
    assert (Rabs d * Rabs (/ (1 + d)) <= (1.1 * eps) * 1.01) by (apply Rmult_le_compat; try apply Rabs_pos; lra). nra. }
  assert (B4 := Rabs_add_le _ _ _ _ _ B1 B3). apply Rle_trans with (1 := B4).
  assert (Rabs b * Rabs (/ (1 + d)) <= Rabs b * 1.01) by (apply Rmult_le_compat_l; assumption).
  assert ((0 + 1.1 + 1.1) * eps * (Rabs b * Rabs (/ (1 + d))) <= (0 + 1.1 + 1.1) * eps * (Rabs b * 1.01)) by (apply Rmult_le_compat_l; lra). 
  assert (0 <= eps * Rabs b) by (apply Rmult_le_pos; lra). nra.
Qed.

Section Spm.
Variable F : fns f64.
Implicit Types (c : spm f64).

(** ** Commands leave the books alone *)
Definition books c : f64 * f64 * f64 * f64 := (s_SOC (cs c), s_time (cs c), s_Ah (cs c), s_Wh (cs c)).
Lemma cmd_books tm o c : operating o -> (forall dt n, o <> OpStep dt n) ->
  cp (after F tm o c) = cp c /\ books (after F tm o c) = books c /\ (double_args o -> double (s_I (cs c)) -> double (s_I (cs (after F tm o c)))).
Proof.
  intros O N. destruct o; cbn [operating] in O; try contradiction; cbn [after double_args] in *.
  - destruct (spm_V F c) as [c' r] eqn:E. destruct (V_same _ _ _ _ E) as (P & (v & Q) & _). cbn [fst].
    unfold books. now rewrite P, Q.
  - unfold spm_setCurrent, spm_checkCurrent, spm_checkVoltage. destruct chk; [|now repeat split].
    match goal with |- context [spm_V F ?d] => set (c1 := d) end.
    destruct (spm_V F c1) as [c2 v] eqn:Ev. destruct (V_same _ _ _ _ Ev) as (P & (w & Q) & _).
    assert (K : cp c2 = cp c /\ books c2 = books c /\ (double i -> double (s_I (cs c)) -> double (s_I (cs c2)))).
    { unfold books. now rewrite P, Q. }
    destruct (check_voltage v (SpmModel.q_lim (cp c1)) (s_I (cs c1))) as [[u st]|k| |]; try exact K.
    change (rmap snd (Ok (u, st))) with (Ok st). cbv iota beta. destruct (isStatusBad st); [|exact K].
    destruct K as (K1 & K2 & K3). split; [exact K1|]. split; [exact K2|]. auto.
  - unfold spm_setC. destruct (_ || _ || _); [now repeat split|]. destruct (ntrunc _) as [iz|]; [|now repeat split].
    destruct (_ && _); now repeat split.
  - unfold spm_setTenv. destruct (_ || _); now repeat split.
  - now repeat split.
  - exfalso. now apply (N dt n).
  - now repeat split.
  - now repeat split.
  - now repeat split.
Qed.

(** ** The loop and the call *)
Definition d_soc c dt : f64 := nmul dt (nadd (nZ 0) (ndiv (nopp (s_I (cs c))) (nmul (q_cap (cp c)) (nZ 3600)))).
Definition d_ah c dt : f64 := nmul (s_I (cs c)) (ndiv dt (nZ 3600)).
Lemma steps_books dt n : forall c c1 r, spm_steps F n dt c = (c1, r) ->
  cp c1 = cp c /\ s_I (cs c1) = s_I (cs c) /\ c_block c1 = c_block c /\
  exists m, (r = Ok tt -> m = n) /\ s_SOC (cs c1) = adds m (s_SOC (cs c)) (d_soc c dt) /\ s_time (cs c1) = adds m (s_time (cs c)) dt /\
    s_Ah (cs c1) = adds m (s_Ah (cs c)) (nabs (d_ah c dt)).
Proof.
  induction n as [|n IH]; intros c c1 r H.
  - cbn [spm_steps] in H. injection H as <- <-. repeat (split; [reflexivity|]). exists 0%nat. repeat split.
  - rewrite steps_S in H. pose proof (step1_passed F dt c) as P. destruct (spm_step1 F dt c) as [c2 r2]. cbn [fst] in P.
    destruct P as [P1 P2 _ P4 P5 P6 _ _ P9 P10 P11 _ _].
    assert (ES : d_soc c2 dt = d_soc c dt) by (unfold d_soc; now rewrite P1, P4). assert (EA : d_ah c2 dt = d_ah c dt) by (unfold d_ah; now rewrite P4).
    destruct r2 as [[]|e| |].
    1: { destruct (IH _ _ _ H) as (K1 & K2 & K3 & m & K4 & K5 & K6 & K7). rewrite ES in K5. rewrite EA in K7. rewrite P9 in K5. rewrite P10 in K6. rewrite P11 in K7.
         split; [congruence|]. split; [congruence|]. split; [congruence|]. exists (Datatypes.S m). split; [intros Hr; f_equal; auto|]. repeat split; assumption. }
    all: injection H as <- <-; split; [exact P1|]; split; [exact P4|]; split; [exact P2|]; exists 1%nat; split; [discriminate|]; repeat split; assumption.
Qed.
(** After the loop: nothing, or zero added to every counter. *)
Lemma heat_books tm dt n c c1 r : spm_heat_age F tm dt n c = (c1, r) ->
  let z := nmul (nmul (nZ 0) dt) (nZ n) in
  cp c1 = cp c /\
  ((books c1 = books c /\ s_I (cs c1) = s_I (cs c)) \/
   (s_SOC (cs c1) = nadd (s_SOC (cs c)) z /\ s_time (cs c1) = nadd (s_time (cs c)) z /\ s_Ah (cs c1) = nadd (s_Ah (cs c)) z /\
    s_Wh (cs c1) = nadd (s_Wh (cs c)) z /\ s_I (cs c1) = nadd (s_I (cs c)) z)).
Proof.
  intros E. cbv zeta. destruct (heat_age_spec _ _ _ _ _ _ _ E) as ([Ra _ _ _] & t & _ & C). split; [exact Ra|].
  destruct C as [[C _]|(d & c2 & _ & _ & _ & _ & _ & _ & C & _)]; [left|right].
  - unfold books. rewrite C. split; reflexivity.
  - rewrite C. repeat split; reflexivity.
Qed.
Lemma call_books tm dt n c c1 r : spm_timeStep_CC F tm dt n c = (c1, r) ->
  let z := nmul (nmul (nZ 0) dt) (nZ n) in
  cp c1 = cp c /\
  ((c1 = c /\ r <> Ok tt) \/
   nltb dt (nZ 0) = false /\
   exists m (f : f64 -> f64), (r = Ok tt -> m = Z.to_nat n) /\ ((forall x, f x = x) \/ (forall x, f x = nadd x z)) /\
     s_I (cs c1) = f (s_I (cs c)) /\ s_SOC (cs c1) = f (adds m (s_SOC (cs c)) (d_soc c dt)) /\ s_time (cs c1) = f (adds m (s_time (cs c)) dt) /\
     s_Ah (cs c1) = f (adds m (s_Ah (cs c)) (nabs (d_ah c dt)))).
Proof.
  cbv zeta. unfold spm_timeStep_CC. destruct (nltb dt (nZ 0)) eqn:L.
  { intros H. injection H as <- <-. split; [reflexivity|]. left. split; [reflexivity|discriminate]. }
  match goal with |- context [spm_steps F _ _ ?d] => set (c0 := d) end.
  destruct (spm_steps F (Z.to_nat n) dt c0) as [c2 r2] eqn:E. destruct (steps_books _ _ _ _ _ E) as (K1 & K2 & K3 & m & K4 & K5 & K6 & K7).
  change (d_soc c0 dt) with (d_soc c dt) in K5. change (d_ah c0 dt) with (d_ah c dt) in K7. change (cs c0) with (cs c) in *. change (cp c0) with (cp c) in *.
  assert (S : forall r', (r' = Ok tt -> r2 = Ok tt) -> cp c2 = cp c /\ ((c2 = c /\ r' <> Ok tt) \/ false = false /\
     exists m (f : f64 -> f64), (r' = Ok tt -> m = Z.to_nat n) /\ ((forall x, f x = x) \/ (forall x, f x = nadd x (nmul (nmul (nZ 0) dt) (nZ n)))) /\
     s_I (cs c2) = f (s_I (cs c)) /\ s_SOC (cs c2) = f (adds m (s_SOC (cs c)) (d_soc c dt)) /\ s_time (cs c2) = f (adds m (s_time (cs c)) dt) /\
     s_Ah (cs c2) = f (adds m (s_Ah (cs c)) (nabs (d_ah c dt))))).
  { intros r' Hr. split; [exact K1|]. right. split; [reflexivity|]. exists m, (fun x => x). repeat split; auto. }
  destruct r2 as [[]|e| |].
  2-4: intros H; injection H as <- <-; apply S; discriminate.
  destruct (c_block c2); [intros H; injection H as <- <-; apply S; auto|].
  intros H. destruct (heat_books _ _ _ _ _ _ H) as (J1 & J2). cbv zeta in J2. split; [congruence|]. right. split; [reflexivity|].
  destruct J2 as [(J2 & J3)|(J2 & J3 & J4 & J5 & J6)].
  - unfold books in J2. injection J2 as J2 J4 J5 J6. exists m, (fun x => x). split; [auto|]. split; [now left|]. rewrite J2, J3, J4, J5. repeat split; assumption.
  - exists m, (fun x => nadd x (nmul (nmul (nZ 0) dt) (nZ n))). split; [auto|]. split; [now right|]. rewrite J2, J3, J4, J6, K2, K5, K6, K7. repeat split; reflexivity.
Qed.

(** ** Counters never run backwards *)
Definition never_less (x y : f64) : Prop := nnan y = false -> nnan x = false /\ nleb x y = true.
Lemma never_less_refl x : never_less x x.
Proof. intros H. split; [exact H|]. now apply leb_refl. Qed.
Lemma never_less_trans x y z : double x -> double y -> double z -> never_less x y -> never_less y z -> never_less x z.
Proof. intros Dx Dy Dz A B N. destruct (B N) as [B1 B2]. destruct (A B1) as [A1 A2]. split; [exact A1|]. now apply (leb_trans x y z). Qed.
Lemma never_less_add x y : double x -> double y -> SFltb y zf = false -> never_less x (nadd x y).
Proof. intros Dx Dy P N. split; [now apply nan_add_l in N|now apply add_up]. Qed.
Lemma never_less_adds n y : double y -> SFltb y zf = false -> forall x, double x -> double (adds n x y) /\ never_less x (adds n x y).
Proof. intros Dy P x Dx. split; [now apply adds_double|]. intros N. split; [now apply adds_nan in N|now apply adds_up]. Qed.
Lemma op_never_less tm o c : operating o -> double_args o -> double_books c ->
  let d := after F tm o c in double_books d /\ never_less (s_time (cs c)) (s_time (cs d)) /\ never_less (s_Ah (cs c)) (s_Ah (cs d)).
Proof.
  intros O DA (D1 & D2 & D3). cbv zeta. assert (D : (exists dt n, o = OpStep dt n) \/ (forall dt n, o <> OpStep dt n)).
  { destruct o; try (right; discriminate). left; eauto. }
  destruct D as [(dt & n & ->)|N].
  - cbn [after double_args] in *. destruct (spm_timeStep_CC F tm dt n c) as [c1 r] eqn:E. cbn [fst].
    destruct (call_books _ _ _ _ _ _ E) as (_ & [(-> & _)|(L & m & f & _ & Hf & K1 & _ & K3 & K4)]).
    { split; [repeat split; assumption|]. split; apply never_less_refl. }
    change (SFltb dt zf = false) in L.
    assert (Df : forall x, double x -> double (f x) /\ never_less x (f x)).
    { intros x Dx. destruct Hf as [Hf|Hf]; rewrite Hf; [split; [exact Dx|apply never_less_refl]|].
      destruct (zero_prod dt (nZ n)) as [Z1 Z2]. split; [now apply dadd|now apply never_less_add]. }
    assert (Da : double (nabs (d_ah c dt))) by (apply dabs, dmul; [assumption|]; apply ddiv; [assumption|apply dnZ]).
    destruct (never_less_adds m dt DA L _ D2) as [T1 T2]. destruct (never_less_adds m _ Da (abs_not_neg _) _ D3) as [A1 A2].
    unfold double_books. rewrite K1, K3, K4. split; [repeat split; now apply Df|].
    split.
    + apply (never_less_trans _ (adds m (s_time (cs c)) dt)); [exact D2|exact T1|now apply Df|exact T2|now apply Df].
    + apply (never_less_trans _ (adds m (s_Ah (cs c)) (nabs (d_ah c dt)))); [exact D3|exact A1|now apply Df|exact A2|now apply Df].
  - destruct (cmd_books tm o c O N) as (_ & B & DI). unfold books in B. injection B as _ B1 B2 _. unfold double_books. rewrite B1, B2.
    split; [auto|]. split; apply never_less_refl.
Qed.
Lemma hist_never_less tm c l c' : history F tm (fun _ o => operating o /\ double_args o) c l c' -> double_books c ->
  double_books c' /\ never_less (s_time (cs c)) (s_time (cs c')) /\ never_less (s_Ah (cs c)) (s_Ah (cs c')).
Proof.
  induction 1 as [c|c o l c' [O DA] _ IH]; intros D; [split; [exact D|]; split; apply never_less_refl|].
  destruct (op_never_less tm o c O DA D) as (D1 & T & A). destruct (IH D1) as (D2 & T2 & A2). split; [exact D2|].
  destruct D as (_ & ? & ?), D1 as (_ & ? & ?), D2 as (_ & ? & ?). split; [apply (never_less_trans _ _ _ H H1 H3 T T2)|apply (never_less_trans _ _ _ H0 H2 H4 A A2)].
Qed.

(** ** Rounding errors of a call and of a history *)
Lemma call_spm_err tm dt n c c1 : sound_spm c -> moderate (s_I (cs c)) -> moderate dt -> (Z.of_nat n < 2 ^ 31)%Z -> moderate (q_cap (cp c)) -> fval (q_cap (cp c)) <> 0 ->
  spm_timeStep_CC F tm dt (Z.of_nat n) c = (c1, Ok tt) -> sound_spm c1 ->
  let a := Rabs (fval (s_I (cs c))) * (INR n * fval dt) / 3600 in
  cp c1 = cp c /\ 0 <= fval dt /\ fval (s_time (cs c)) <= fval (s_time (cs c1)) /\ fval (s_Ah (cs c)) <= fval (s_Ah (cs c1)) /\
  Rabs (fval (s_time (cs c1)) - (fval (s_time (cs c)) + INR n * fval dt)) <= INR n * (2 * eps * fval (s_time (cs c1))) /\
  Rabs (fval (s_Ah (cs c1)) - (fval (s_Ah (cs c)) + a)) <= INR n * (2 * eps * fval (s_Ah (cs c1))) + 3 * eps * a /\
  Rabs (fval (s_SOC (cs c1)) - (fval (s_SOC (cs c)) - fval (s_I (cs c)) * (INR n * fval dt) / 3600 / fval (q_cap (cp c)))) <=
    INR n * (4 * eps) + 4 * eps * (a / Rabs (fval (q_cap (cp c)))).
Proof.
  intros (S1 & S2 & S3 & S4 & S5 & S6) Mi Md Bn Mc Nc H (T1 & T2 & T3 & T4 & T5 & T6). cbv zeta.
  destruct (call_books _ _ _ _ _ _ H) as (E5 & [(_ & N)|(L & m & f & Hm & Hf & _ & E1 & E2 & E3)]); [now destruct N|].
  specialize (Hm eq_refl). rewrite Nat2Z.id in Hm. subst m. change (SFltb dt zf = false) in L.
  assert (Fd := proj1 Md). destruct (zero_fin dt (Z.of_nat n) Fd) as [Fz Vz]; [lia|]. cbv zeta in Hf.
  assert (Pd : 0 <= fval dt) by (pose proof (proj1 (fltb_false dt zf Fd (proj1 fin_zf)) L) as P; now rewrite (proj2 fin_zf) in P).
  destruct (charge_err _ _ _ Mi Md Mc Nc) as (Fa & Ea & Ba & _). destruct (soc_err _ _ _ Mi Md Mc Nc) as (Fq & Eq & Bq). cbv zeta in *.
  change (nmul (s_I (cs c)) (ndiv dt (nZ 3600))) with (d_ah c dt) in *. change (nmul dt _) with (d_soc c dt) in Fq, Eq, Bq.
  set (dAh := d_ah c dt) in *. set (q := d_soc c dt) in *.
  destruct (fabs dAh Fa) as [Fab Eab]. change (nabs dAh) with (SFabs dAh) in E3.
  assert (Nab : SFltb (SFabs dAh) zf = false) by apply abs_not_neg. assert (IN := pos_INR n). assert (EP := eps_pos).
  assert (UF : forall x y, double x -> y = f x -> fin y -> fin x /\ fval y = fval x).
  { intros x y Dx -> Fy. destruct Hf as [Hf|Hf]; rewrite Hf in *; [auto|]. now apply plus_zero. }
  destruct (UF _ _ (adds_double n _ (proj1 Fq) _ (proj1 S1)) E1 T1) as [U1 V1]. destruct (UF _ _ (adds_double n _ (proj1 Fd) _ (proj1 S3)) E2 T3) as [U2 V2].
  destruct (UF _ _ (adds_double n _ (proj1 Fab) _ (proj1 S5)) E3 T5) as [U3 V3]. clear UF. rewrite V1 in *. rewrite V2 in *. rewrite V3 in *.
  assert (P1 : bpow radix2 1000 <= bpow radix2 1001) by now apply bpow_le. assert (P2 : 2 <= bpow radix2 1001) by (apply Rle_trans with (bpow radix2 1); [cbn; lra|now apply bpow_le]).
  assert (P3 : bpow radix2 300 <= bpow radix2 1001) by now apply bpow_le. assert (P4 : bpow radix2 602 <= bpow radix2 1001) by now apply bpow_le.
  assert (P5 : bpow radix2 902 <= bpow radix2 1001) by now apply bpow_le.
  assert (MT : fval (s_time (cs c)) <= fval (adds n (s_time (cs c)) dt)).
  { apply fleb; [assumption..|]. apply adds_up; [apply Fd|exact L|apply S3|now apply fin_nan]. }
  assert (MA : fval (s_Ah (cs c)) <= fval (adds n (s_Ah (cs c)) (SFabs dAh))).
  { apply fleb; [assumption..|]. apply adds_up; [apply Fab|exact Nab|apply S5|now apply fin_nan]. }
  split; [exact E5|]. split; [exact Pd|]. split; [exact MT|]. split; [exact MA|].
  assert (BT : Rabs (fval dt) <= bpow radix2 1001) by (destruct Md as [_ [->|Md]]; [rewrite Rabs_R0; lra|lra]).
  split; [|split].
  - apply adds_err; try assumption; rewrite ?(Rabs_pos_eq (fval (s_time (cs c)))), ?(Rabs_pos_eq (fval (adds n (s_time (cs c)) dt))) by lra; lra.
  - set (i := fval (s_I (cs c))) in *. replace (Rabs i * (INR n * fval dt) / 3600) with (INR n * Rabs (i * (fval dt / 3600))).
    2: { rewrite Rabs_mult, (Rabs_pos_eq (fval dt / 3600)) by lra. field. }
    apply Rabs_add_le with (fval (s_Ah (cs c)) + INR n * Rabs (fval dAh)).
    + rewrite <- Eab. apply adds_err; try assumption; rewrite ?Eab, ?Rabs_Rabsolu, ?(Rabs_pos_eq (fval (s_Ah (cs c)))), ?(Rabs_pos_eq (fval (adds n (s_Ah (cs c)) (SFabs dAh)))) by lra; lra.
    + match goal with |- Rabs ?x <= _ => replace x with (INR n * (Rabs (fval dAh) - Rabs (i * (fval dt / 3600)))) by ring end.
      rewrite Rabs_mult, (Rabs_pos_eq (INR n)) by exact IN. replace (3 * eps * (INR n * Rabs (i * (fval dt / 3600)))) with (INR n * (3 * eps * Rabs (i * (fval dt / 3600)))) by ring.
      apply Rmult_le_compat_l; [exact IN|]. eapply Rle_trans; [apply Rabs_triang_inv2|exact Ea].
  - set (i := fval (s_I (cs c))) in *. set (cap := fval (q_cap (cp c))) in *.
    replace (i * (INR n * fval dt) / 3600 / cap) with (INR n * (i * (fval dt / 3600) / cap)) by (field; exact Nc).
    replace (Rabs i * (INR n * fval dt) / 3600 / Rabs cap) with (INR n * Rabs (i * (fval dt / 3600) / cap)).
    2: { unfold Rdiv at 1. rewrite !Rabs_mult, Rabs_inv, (Rabs_pos_eq (fval dt / 3600)) by lra. unfold Rdiv. ring. }
    apply Rabs_add_le with (fval (s_SOC (cs c)) + INR n * fval q).
    + replace (4 * eps) with (2 * eps * 2) by ring. apply adds_err; try assumption; lra.
    + match goal with |- Rabs ?x <= _ => replace x with (INR n * (fval q - - (i * (fval dt / 3600) / cap))) by ring end.
      rewrite Rabs_mult, (Rabs_pos_eq (INR n)) by exact IN. replace (4 * eps * (INR n * Rabs (i * (fval dt / 3600) / cap))) with (INR n * (4 * eps * Rabs (i * (fval dt / 3600) / cap))) by ring.
      apply Rmult_le_compat_l; [exact IN|exact Eq].
Qed.

Theorem spm_hist_err tm c log d : spm_double_hist F tm c log d -> moderate (q_cap (cp c)) -> fval (q_cap (cp c)) <> 0 ->
  cp d = cp c /\ fval (s_time (cs c)) <= fval (s_time (cs d)) /\ fval (s_Ah (cs c)) <= fval (s_Ah (cs d)) /\ 0 <= abs_charge (log_val log) /\
  Rabs (fval (s_time (cs d)) - (fval (s_time (cs c)) + total_time (log_val log))) <= log_steps log * (2 * eps * fval (s_time (cs d))) /\
  Rabs (fval (s_Ah (cs d)) - (fval (s_Ah (cs c)) + abs_charge (log_val log) / 3600)) <= log_steps log * (2 * eps * fval (s_Ah (cs d))) + 3 * eps * (abs_charge (log_val log) / 3600) /\
  Rabs (fval (s_SOC (cs d)) - (fval (s_SOC (cs c)) - net_charge (log_val log) / 3600 / fval (q_cap (cp c)))) <=
    log_steps log * (4 * eps) + 4 * eps * (abs_charge (log_val log) / 3600 / Rabs (fval (q_cap (cp c)))).
Proof.
  unfold total_time, abs_charge, net_charge, log_steps.
  induction 1 as [c|c o log c2 O N _ IH|c dt n c1 log c2 S1 Mi Md Bn H S2 _ IH]; intros Mc Nc.
  - cbn. unfold Rdiv. repeat split; try lra; match goal with |- Rabs ?x <= _ => replace x with 0 by ring end; rewrite Rabs_R0; lra.
  - destruct (cmd_books tm o c O N) as (B1 & B & _). unfold books in B. injection B as B2 B3 B4 _. rewrite B1, B2, B3, B4 in IH. exact (IH Mc Nc).
  - destruct (call_spm_err tm dt n c c1 S1 Mi Md Bn Mc Nc H S2) as (C1 & C2 & C3 & C4 & C5 & C6 & C7). cbv zeta in *. rewrite C1 in IH. destruct (IH Mc Nc) as (I1 & I2 & I3 & I4 & I5 & I6 & I7).
    unfold log_val in *. cbn [map Rsum snd list_sum fold_right]. change (fold_right Nat.add 0%nat (map snd log)) with (list_sum (map snd log)). rewrite plus_INR.
    assert (EP := eps_pos). assert (IN := pos_INR n). set (N := INR (list_sum (map snd log))) in *. set (r := INR n) in *. clearbody r N.
    set (TT := Rsum _) in I5 |- *. set (QA := Rsum _) in I4, I6, I7 |- *. set (QN := Rsum _) in I7 |- *.
    assert (PA : 0 <= Rabs (fval (s_I (cs c))) * (r * fval dt)) by (apply Rmult_le_pos; [apply Rabs_pos|now apply Rmult_le_pos]).
    split; [exact I1|]. split; [lra|]. split; [lra|]. split; [lra|]. split; [|split].
    + replace (fval (s_time (cs c)) + (r * fval dt + TT)) with ((fval (s_time (cs c)) + r * fval dt) + TT) by ring.
      replace ((r + N) * (2 * eps * fval (s_time (cs c2)))) with (N * (2 * eps * fval (s_time (cs c2))) + r * (2 * eps * fval (s_time (cs c2)))) by ring.
      apply Rabs_add_le with (fval (s_time (cs c1)) + TT); [exact I5|].
      match goal with |- Rabs ?x <= _ => replace x with (fval (s_time (cs c1)) - (fval (s_time (cs c)) + r * fval dt)) by ring end.
      apply Rle_trans with (1 := C5). apply Rmult_le_compat_l; [exact IN|]. apply Rmult_le_compat_l; lra.
    + set (a := Rabs (fval (s_I (cs c))) * (r * fval dt)) in *.
      replace ((r + N) * (2 * eps * fval (s_Ah (cs c2))) + 3 * eps * ((a + QA) / 3600)) with
        ((N * (2 * eps * fval (s_Ah (cs c2))) + 3 * eps * (QA / 3600)) + (r * (2 * eps * fval (s_Ah (cs c2))) + 3 * eps * (a / 3600))) by field.
      apply Rabs_add_le with (fval (s_Ah (cs c1)) + QA / 3600); [exact I6|].
      match goal with |- Rabs ?x <= _ => replace x with (fval (s_Ah (cs c1)) - (fval (s_Ah (cs c)) + a / 3600)) by field end.
      apply Rle_trans with (1 := C6). apply Rplus_le_compat_r. apply Rmult_le_compat_l; [exact IN|]. apply Rmult_le_compat_l; lra.
    + set (a := Rabs (fval (s_I (cs c))) * (r * fval dt)) in *. set (ca := fval (q_cap (cp c))) in *. assert (NA : Rabs ca <> 0) by now apply Rabs_no_R0.
      replace ((r + N) * (4 * eps) + 4 * eps * ((a + QA) / 3600 / Rabs ca)) with
        ((N * (4 * eps) + 4 * eps * (QA / 3600 / Rabs ca)) + (r * (4 * eps) + 4 * eps * (a / 3600 / Rabs ca))) by (field; exact NA).
      apply Rabs_add_le with (fval (s_SOC (cs c1)) - QN / 3600 / ca); [exact I7|].
      match goal with |- Rabs ?x <= _ => replace x with (fval (s_SOC (cs c1)) - (fval (s_SOC (cs c)) - fval (s_I (cs c)) * (r * fval dt) / 3600 / ca)) by (field; exact Nc) end.
      exact C7.
Qed.
End Spm.
