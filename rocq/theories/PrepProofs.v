(** * Prepared cells and recorded curves *)
From Coq Require Import Reals Lra Lia.
From Verif Require Import Base RFacts StatusModel UtilModel CellModel ModuleModel SpmModel SpmUnitModel SpmSpec SpmProofs SpmReal SpmAge
  PhysSpec PhysProofs DriveModel DriveSpec DriveProofs DriveGitt PrepModel PrepSpec.

Section Any.
Context {A : Type} {NA : Num A} {S : Type} (o : su_ops A S).
Lemma until_ok fuel up vlim d q : forall w u u' w', until o fuel up vlim d q w u = (u', Ok w') ->
  exists n v, (n <= fuel)%nat /\ rides o up vlim d n u u' v.
Proof.
  induction fuel as [|f IH]; intros w u u' w' H; cbn [until] in H; apply mbind_ok in H; destruct H as (u1 & v & H1 & H).
  - change (if up then _ else _) with (short_of up vlim v) in H. destruct (short_of up vlim v) eqn:E; [discriminate|].
    injection H as <- _. exists 0%nat, v. split; [lia|]. now apply rides_end.
  - change (if up then nltb v vlim else _) with (short_of up vlim v) in H. destruct (short_of up vlim v) eqn:E.
    + apply mbind_ok in H. destruct H as (u2 & [] & H2 & H). apply mbind_ok in H. destruct H as (u3 & v' & H3 & H).
      destruct (IH _ _ _ _ H) as (n & x & L & R). exists (Datatypes.S n), x. split; [lia|]. econstructor; eauto.
    + injection H as <- _. exists 0%nat, v. split; [lia|]. now apply rides_end.
Qed.
Lemma rides_ends up vlim d n u u' v : rides o up vlim d n u u' v -> short_of up vlim v = false.
Proof. induction 1; auto. Qed.
End Any.

Section Curve.
Context {A : Type} {NA : Num A} (F : fns A) (tm : Z).
Lemma V_again (c c' : spm A) v : spm_V F c = (c', Ok v) -> spm_V F c' = (c', Ok v).
Proof.
  intros H. destruct (spm_V_cases _ _ _ _ H) as [(-> & _)|[(-> & _)|(w & -> & _ & E & _)]]; auto. injection E as <-. reflexivity.
Qed.
Lemma getCSurf_V (c : spm A) v b : getCSurf F (set_valid (set_st c (st_V (cs c) v)) b) = getCSurf F c.
Proof. reflexivity. Qed.

Lemma point_seen k cmp cmn v c : point_of F k cmp cmn v c = seen F k cmp cmn v c.
Proof. unfold point_of, fractions, seen. now destruct (getCSurf F c) as [[cps cns] ok]. Qed.
Lemma sweep_alone k cmp cmn thr vend : forall fuel old c c' l, sweep F tm fuel k cmp cmn thr vend old c = (c', Ok l) ->
  exists ps w, alone F tm k cmp cmn vend c ps c' w /\ subseq l ps /\
    (forall ps1 q ps2, ps = ps1 ++ q :: ps2 -> exists l1 r l2, old :: l = l1 ++ r :: l2 /\ subseq (l1 ++ [r]) (old :: ps1 ++ [q]) /\ (moved_on thr r q = false \/ r = q)) /\
    (forall l1 r1 r2 l2, old :: l = l1 ++ r1 :: r2 :: l2 -> moved_on thr r1 r2 = true).
Proof.
  induction fuel as [|f IH]; intros old c c' l H; cbn [sweep] in H; apply mbind_ok in H; destruct H as (c1 & v & H1 & H).
  - destruct (nltb v vend) eqn:E; [discriminate|]. injection H as <- <-. exists [], v. split; [now apply alone_end|]. split; [constructor|].
    split; [intros [|? ?]; discriminate|]. intros [|? [|? ?]]; discriminate.
  - destruct (nltb v vend) eqn:E.
    2:{ injection H as <- <-. exists [], v. split; [now apply alone_end|]. split; [constructor|].
        split; [intros [|? ?]; discriminate|]. intros [|? [|? ?]]; discriminate. }
    cbn zeta in H. rewrite point_seen in H. set (new := seen F k cmp cmn v c1) in *. apply mbind_ok in H. destruct H as (c2 & [] & H2 & H). destruct (moved_on thr old new) eqn:E2.
    + apply mbind_ok in H. destruct H as (c3 & l' & H3 & H). injection H as <- <-. destruct (IH _ _ _ _ H3) as (ps & w & A1 & A2 & A3 & A4).
      exists (new :: ps), w. split; [econstructor; eauto|]. split; [now constructor|]. split.
      * intros [|x ps1] q ps2 Hp; injection Hp as -> Hp.
        -- exists [old], q, l'. split; [reflexivity|]. split; [cbn; now repeat constructor|now right].
        -- destruct (A3 _ _ _ Hp) as (l1 & r & l2 & B1 & B2 & B3). exists (old :: l1), r, l2. cbn [app]. rewrite <- B1. split; [reflexivity|]. split; [now constructor|exact B3].
      * intros [|x l1] r1 r2 l2 Hl; [injection Hl; intros _ <- <-; exact E2|]. injection Hl as _ Hl. exact (A4 _ _ _ _ Hl).
    + destruct (IH _ _ _ _ H) as (ps & w & A1 & A2 & A3 & A4). exists (new :: ps), w. split; [econstructor; eauto|]. split; [now constructor|]. split; [|exact A4].
      intros [|x ps1] q ps2 Hp; injection Hp as -> Hp.
      * exists [], old, l. split; [reflexivity|]. split; [cbn; now repeat constructor|now left].
      * destruct (A3 _ _ _ Hp) as (l1 & r & l2 & B1 & B2 & B3). exists l1, r, l2. split; [exact B1|]. split; [|exact B3].
        cbn [app]. inversion B2 as [|y m1 m2 M|y m1 m2 M]; subst; constructor; [constructor; exact M|]. now constructor.
Qed.
End Curve.

Section Log.
Context {A : Type} {NA : Num A} (F : fns A) (tm : Z).
(** A line of the log and what follows. *)
Lemma log_cons fuel tend vmin dt t c c' r l : log_run F tm fuel tend vmin dt t c = (c', Ok (r :: l)) ->
  exists f c1 v ocv c2, fuel = S f /\ nleb t tend = true /\ spm_V F c = (c1, Ok v) /\ nltb vmin v = true /\ spm_OCV F c1 = Ok ocv /\
    r = mkLL t v (s_SOC (cs c1)) (s_T (cs c1)) (s_time (cs c1)) (s_Ah (cs c1)) (s_Wh (cs c1)) ocv /\
    spm_timeStep_CC F tm dt 2 c1 = (c2, Ok tt) /\ log_run F tm f tend vmin dt (nadd t (nmul dt (nZ 2))) c2 = (c', Ok l).
Proof.
  intros H. destruct fuel as [|f]; cbn [log_run] in H; (destruct (nleb t tend) eqn:E; [|discriminate]);
    apply mbind_ok in H; destruct H as (c1 & v & H1 & H); (destruct (nltb vmin v) eqn:E1; [|discriminate]); [discriminate|].
  destruct (spm_OCV F c1) as [ocv| | |] eqn:E2; try discriminate. cbn zeta in H. apply mbind_ok in H. destruct H as (c2 & [] & H2 & H).
  apply mbind_ok in H. destruct H as (c3 & l' & H3 & H). injection H as -> <- <-. exists f, c1, v, ocv, c2. repeat (split; auto).
Qed.
Lemma log_nil fuel tend vmin dt t c c' : log_run F tm fuel tend vmin dt t c = (c', Ok []) ->
  nleb t tend = false \/ exists v, spm_V F c = (c', Ok v) /\ nltb vmin v = false.
Proof.
  intros H. destruct fuel as [|f]; cbn [log_run] in H; (destruct (nleb t tend) eqn:E; [|now left]); right;
    apply mbind_ok in H; destruct H as (c1 & v & H1 & H); (destruct (nltb vmin v) eqn:E1; [|injection H as <-; now exists v]); [discriminate|].
  destruct (spm_OCV F c1) as [ocv| | |] eqn:E2; try discriminate. cbn zeta in H. apply mbind_ok in H. destruct H as (c2 & [] & H2 & H).
  apply mbind_ok in H. destruct H as (c3 & l' & H3 & H). discriminate.
Qed.
(** Where the time of each line comes from. *)
Lemma log_time tend vmin dt : nmul dt (nZ 2) = nZ 1 -> forall l fuel t c c', log_run F tm fuel tend vmin dt t c = (c', Ok l) ->
  map ll_t l = clock (length l) t /\ Forall (fun r => nleb (ll_t r) tend = true /\ nltb vmin (ll_V r) = true) l /\
  (nleb (clock_end (length l) t) tend = false \/ exists x v, spm_V F x = (c', Ok v) /\ nltb vmin v = false).
Proof.
  intros D. induction l as [|r l IH]; intros fuel t c c' H.
  - split; [reflexivity|]. split; [constructor|]. destruct (log_nil _ _ _ _ _ _ _ H) as [K|(v & K1 & K2)]; [now left|right; now exists c, v].
  - destruct (log_cons _ _ _ _ _ _ _ _ _ H) as (f & c1 & v & ocv & c2 & _ & L1 & L2 & L3 & _ & -> & _ & L6). rewrite D in L6.
    destruct (IH _ _ _ _ L6) as (K1 & K2 & K3). cbn [map length clock clock_end ll_t]. rewrite K1. split; [reflexivity|]. split; [now constructor|exact K3].
Qed.
Lemma log_line tend vmin dt : forall l fuel t (c c' : spm A), log_run F tm fuel tend vmin dt t c = (c', Ok l) -> forall j r, nth_error l j = Some r ->
  exists d d1, seconds_on F tm dt j c d /\ spm_V F d = (d1, Ok (ll_V r)) /\ spm_OCV F d1 = Ok (ll_OCV r) /\ ll_SOC r = s_SOC (cs d1) /\ ll_T r = s_T (cs d1) /\
    ll_time r = s_time (cs d1) /\ ll_Ah r = s_Ah (cs d1) /\ ll_Wh r = s_Wh (cs d1).
Proof.
  induction l as [|r0 l IH]; intros fuel t c c' H j r Hj; [destruct j; discriminate|].
  destruct (log_cons _ _ _ _ _ _ _ _ _ H) as (f & c1 & v & ocv & c2 & _ & _ & L2 & _ & L4 & E & L5 & L6). destruct j as [|j]; cbn [nth_error] in Hj.
  - injection Hj as <-. exists c, c1. rewrite E. cbn [ll_V ll_OCV ll_SOC ll_T ll_time ll_Ah ll_Wh]. split; [constructor|]. repeat (split; auto).
  - destruct (IH _ _ _ _ L6 _ _ Hj) as (d & d1 & K1 & K2). exists d, d1. split; [exact (on_S _ _ _ _ _ _ _ _ _ L2 L5 K1)|exact K2].
Qed.
End Log.

Section LogR.
Variables (F : fns R) (tm : Z).
Local Open Scope R_scope.
Lemma log_counters tend vmin dt : forall l fuel t (c c' : spm R), log_run F tm fuel tend vmin dt t c = (c', Ok l) ->
  forall j r, nth_error l j = Some r -> ll_t r = t + INR j * (dt * 2) /\ ll_time r = s_time (cs c) + INR j * (dt * 2) /\
    ll_Ah r = s_Ah (cs c) + Rabs (s_I (cs c)) * (INR j * (dt * 2)) / 3600 /\
    ll_SOC r = s_SOC (cs c) - s_I (cs c) * (INR j * (dt * 2)) / (q_cap (cp c) * 3600).
Proof.
  induction l as [|r0 l IH]; intros fuel t c c' H j r Hj; [destruct j; discriminate|].
  destruct (log_cons _ _ _ _ _ _ _ _ _ _ _ H) as (f & c1 & v & ocv & c2 & _ & L1 & L2 & L3 & _ & E & L5 & L6).
  destruct (V_ok _ _ _ _ L2) as (P1 & _ & _ & (w & S1) & _).
  assert (T : s_time (cs c1) = s_time (cs c) /\ s_Ah (cs c1) = s_Ah (cs c) /\ s_SOC (cs c1) = s_SOC (cs c) /\ s_I (cs c1) = s_I (cs c)) by (rewrite S1; repeat split).
  destruct T as (T1 & T2 & T3 & T4). destruct j as [|j]; cbn [nth_error] in Hj.
  - injection Hj as <-. rewrite E. cbn [ll_t ll_time ll_Ah ll_SOC INR]. rewrite T1, T2, T3. repeat split; unfold Rdiv; ring.
  - change 2%Z with (Z.of_nat 2) in L5. destruct (timeStep_counters _ _ _ _ _ _ L5) as (_ & P3 & I3 & C3 & T5 & A3).
    destruct (IH _ _ _ _ L6 _ _ Hj) as (K1 & K2 & K3 & K4). rewrite K1, K2, K3, K4, P3, I3, C3, T5, A3, P1, T1, T2, T3, T4, S_INR, R_nZ.
    cbn [nadd nmul RNum]. change (INR 2) with 2. repeat split; unfold Rdiv; ring.
Qed.
End LogR.
