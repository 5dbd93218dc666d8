(** * Lemmas about the cooling systems *)
From Verif Require Import Base RFacts CoolModel CoolSpec.

Section Any.
Context {A : Type} {NA : Num A}.

Lemma fan_control_T tl tg (k : cool A) : k_T (fan_control tl tg k) = k_T k /\ k_ctrl (fan_control tl tg k) = k_ctrl k /\
  k_kind (fan_control tl tg k) = k_kind k /\ k_cum (fan_control tl tg k) = k_cum k /\ k_gain (fan_control tl tg k) = k_gain k.
Proof.
  unfold fan_control. destruct (k_ctrl k) as [|p|p] eqn:C; try (repeat split; auto; fail).
  destruct p as [[[]|[]|]|[[]|[]|]|]; repeat split; auto.
Qed.

Lemma cool_control_T tl tg (k : cool A) : k_T (cool_control tl tg k) = k_T k.
Proof. unfold cool_control. destruct (k_kind k); auto; apply fan_control_T. Qed.

Lemma cool_dstate_T qt qc t (k : cool A) : k_T (fst (cool_dstate qt qc t k)) = k_T k.
Proof. unfold cool_dstate. destruct (k_kind k); auto. destruct (nltb _ _); auto. Qed.

Lemma setT_cases t (k : cool A) :
  (T_allowed t /\ cool_setT t k = (with_kT k t, Ok tt)) \/ (~ T_allowed t /\ cool_setT t k = (k, Throw 99)).
Proof.
  unfold cool_setT, T_allowed, nisnan.
  destruct (nltb t (degC 0)) eqn:E1; [right; split; [intros (H & _); discriminate|reflexivity]|].
  destruct (nltb (degC 75) t) eqn:E2; [right; split; [intros (_ & H & _); discriminate|reflexivity]|].
  destruct (neqb t t) eqn:E3; [left; auto|right; split; [intros (_ & _ & H); discriminate|reflexivity]].
Qed.

Lemma run_T_allowed ops : forall k : cool A, T_allowed (k_T k) -> T_allowed (k_T (cool_run ops k)).
Proof.
  induction ops as [|o ops IH]; intros k H; [exact H|]. cbn. apply IH.
  destruct o; cbn [cool_exec].
  - destruct (setT_cases t k) as [[Ha ->]|[_ ->]]; [exact Ha|exact H].
  - rewrite cool_control_T. exact H.
  - rewrite cool_dstate_T. exact H.
  - exact H.
  - exact H.
Qed.
End Any.

Local Open Scope R_scope.

Lemma thermostat_snoc Ton Toff P hist t : Toff < Ton ->
  (thermostat_on Ton Toff P (hist ++ [t]) <->
   (Ton <= t \/ (Toff < t /\ thermostat_on Ton Toff P hist))).
Proof.
  intros HT. unfold thermostat_on. split.
  - intros [(b & u & a & E & Hu & Ha)|[HP Ha]].
    + destruct a as [|a0 a1] using rev_ind.
      * apply app_inj_tail in E. destruct E as [_ ->]. left; exact Hu.
      * clear IHa1. rewrite app_comm_cons, app_assoc in E. apply app_inj_tail in E. destruct E as [-> ->].
        right. split; [apply Ha; apply in_or_app; right; left; reflexivity|].
        left. exists b, u, a1. split; [reflexivity|]. split; [exact Hu|]. intros v Hv. apply Ha. apply in_or_app; auto.
    + right. split; [apply Ha; apply in_or_app; right; left; reflexivity|].
      right. split; [exact HP|]. intros u Hu. apply Ha. apply in_or_app; auto.
  - intros [H|[H [(b & u & a & -> & Hu & Ha)|[HP Ha]]]].
    + left. exists hist, t, []. split; [reflexivity|]. split; [exact H|]. intros u [].
    + left. exists b, u, (a ++ [t]). split; [rewrite <- app_assoc; reflexivity|]. split; [exact Hu|].
      intros v Hv. apply in_app_or in Hv. destruct Hv as [Hv|[<-|[]]]; auto.
    + right. split; [exact HP|]. intros v Hv. apply in_app_or in Hv. destruct Hv as [Hv|[<-|[]]]; auto.
Qed.

Lemma fan_params tl tg (k : cool R) :
  k_Ton (cool_control tl tg k) = k_Ton k /\ k_Toff (cool_control tl tg k) = k_Toff k /\
  k_flr (cool_control tl tg k) = k_flr k /\ k_ctrl (cool_control tl tg k) = k_ctrl k /\
  (k_kind (cool_control tl tg k) = COpen <-> k_kind k = COpen) /\
  k_gain (cool_control tl tg k) = k_gain k /\ k_propT (cool_control tl tg k) = k_propT k.
Proof.
  unfold cool_control. destruct (k_kind k) eqn:K; unfold fan_control.
  - destruct (k_ctrl k) as [|p|p] eqn:C; try (rewrite ?K; cbn; rewrite ?C, ?K; repeat split; try tauto; try congruence; fail).
    destruct p as [[[]|[]|]|[[]|[]|]|]; cbn; rewrite ?C, ?K; repeat split; try tauto; try congruence.
  - cbn. rewrite K. repeat split; tauto.
  - destruct (k_ctrl k) as [|p|p] eqn:C; try (cbn; rewrite ?C; repeat split; try tauto; try congruence; fail).
    destruct p as [[[]|[]|]|[[]|[]|]|]; cbn; rewrite ?C; repeat split; try tauto; try congruence.
Qed.

Lemma control_onoff_flow (k : cool R) tl tg : k_kind k <> COpen -> (k_ctrl k = 2 \/ k_ctrl k = 3)%Z ->
  k_flow (cool_control tl tg k) = fan_onoff k (control_temp (k_ctrl k) (tl, tg)).
Proof.
  intros HK HC. unfold cool_control. destruct (k_kind k) eqn:K; [|congruence|];
    destruct HC as [C|C]; unfold fan_control; rewrite C; reflexivity.
Qed.
Lemma control_prop_flow (k : cool R) tl tg : k_kind k <> COpen -> (k_ctrl k = 4 \/ k_ctrl k = 5)%Z ->
  k_flow (cool_control tl tg k) = fan_prop k (control_temp (k_ctrl k) (tl, tg)).
Proof.
  intros HK HC. unfold cool_control. destruct (k_kind k) eqn:K; [|congruence|];
    destruct HC as [C|C]; unfold fan_control; rewrite C; reflexivity.
Qed.

Lemma controls_app h1 h2 : controls (h1 ++ h2) = controls h1 ++ controls h2.
Proof. apply map_app. Qed.
Lemma cool_run_app (o1 o2 : list (cool_op R)) k : cool_run (o1 ++ o2) k = cool_run o2 (cool_run o1 k).
Proof. apply fold_left_app. Qed.

Lemma hysteresis (k : cool R) hist : k_kind k <> COpen -> (k_ctrl k = 2 \/ k_ctrl k = 3)%Z ->
  k_Toff k < k_Ton k -> (k_flow k = 0 \/ k_flow k = k_flr k) -> k_flr k <> 0 ->
  let k' := cool_run (controls hist) k in
  let on := thermostat_on (k_Ton k) (k_Toff k) (k_flow k = k_flr k) (map (control_temp (k_ctrl k)) hist) in
  (on /\ k_flow k' = k_flr k) \/ (~ on /\ k_flow k' = 0).
Proof.
  intros HK HC HT HF HR. cbv zeta.
  assert (G : forall h, let k' := cool_run (controls h) k in
     k_kind k' <> COpen /\ k_ctrl k' = k_ctrl k /\ k_Ton k' = k_Ton k /\ k_Toff k' = k_Toff k /\ k_flr k' = k_flr k /\
     ((thermostat_on (k_Ton k) (k_Toff k) (k_flow k = k_flr k) (map (control_temp (k_ctrl k)) h) /\ k_flow k' = k_flr k) \/
      (~ thermostat_on (k_Ton k) (k_Toff k) (k_flow k = k_flr k) (map (control_temp (k_ctrl k)) h) /\ k_flow k' = 0))).
  { induction h as [|[tl tg] h IH] using rev_ind.
    - cbn. repeat split; auto. unfold thermostat_on.
      destruct HF as [E|E].
      + right. split; [|exact E]. intros [(b & t & a & Ea & _)|[E2 _]]; [destruct b; discriminate Ea|congruence].
      + left. split; [right; split; [exact E|intros u []]|exact E].
    - cbv zeta in *. rewrite controls_app, cool_run_app. set (k1 := cool_run (controls h) k) in *.
      destruct IH as (I1 & I2 & I3 & I4 & I5 & I6). cbn [controls map cool_run fold_left cool_exec fst snd].
      destruct (fan_params tl tg k1) as (P1 & P2 & P3 & P4 & P5 & _ & _).
      split; [rewrite P5; exact I1|]. split; [congruence|]. split; [congruence|]. split; [congruence|]. split; [congruence|].
      rewrite map_app. cbn [map]. rewrite (thermostat_snoc _ _ _ _ _ HT).
      rewrite (control_onoff_flow k1 tl tg I1) by (rewrite I2; exact HC). rewrite I2.
      set (t := control_temp (k_ctrl k) (tl, tg)). unfold fan_onoff. cbn [nleb RNum]. rewrite I3, I4, I5.
      rewrite R_nZ. cbn [IZR].
      rcase; try (exfalso; lra).
      + right. split; [intros [?|[? _]]; lra|reflexivity].
      + left. split; [left; lra|reflexivity].
      + destruct I6 as [[O F]|[O F]]; [left; split; [right; split; [lra|exact O]|exact F]|
                                      right; split; [intros [?|[_ ?]]; [lra|tauto]|exact F]]. }
  apply G.
Qed.

(** ** AC *)
Definition ac_ok (k : cool R) : Prop :=
  match k_kind k with CHvac h => 0 <= h_Q h /\ 0 <= h_Qac h <= h_Q h /\ 0 <= h_gain h | _ => True end.

Lemma R_degC z : degC z = 273 + IZR z.
Proof. unfold degC. rewrite R_nZ, plus_IZR. reflexivity. Qed.
Lemma nmax_R a b : nmax a b = Rmax a b.
Proof. unfold nmax. cbn [nltb RNum]. unfold Rmax. rcase; destruct (Rle_dec a b); lra. Qed.
Lemma nmin_R a b : nmin a b = Rmin a b.
Proof. unfold nmin. cbn [nltb RNum]. unfold Rmin. rcase; destruct (Rle_dec a b); lra. Qed.

Lemma ac_prop_bound k h t : 0 <= h_Q h -> 0 <= h_gain h -> 0 <= ac_prop k h t <= h_Q h.
Proof.
  intros HQ Hg. unfold ac_prop. rewrite nmax_R, nmin_R, !R_nZ. cbn [nleb nltb nmul RNum].
  set (e := Rmax (nsub t (h_propT h)) 0). assert (He : 0 <= e) by apply Rmax_r.
  rcase; try lra.
  assert (0 <= h_gain h * e) by (apply Rmult_le_pos; assumption).
  assert (0 <= Rmin (h_gain h * e) 1) by (apply Rmin_glb; lra).
  assert (Rmin (h_gain h * e) 1 <= 1) by apply Rmin_r.
  split; [apply Rmult_le_pos; assumption|].
  rewrite <- (Rmult_1_r (h_Q h)) at 2. apply Rmult_le_compat_l; assumption.
Qed.
Lemma ac_control_bound k h tg : 0 <= h_Q h -> 0 <= h_gain h -> 0 <= h_Qac h <= h_Q h -> 0 <= ac_control tg k h <= h_Q h.
Proof.
  intros HQ Hg Hq. unfold ac_control.
  assert (P1 := ac_prop_bound k h (k_T k) HQ Hg). assert (P2 := ac_prop_bound k h tg HQ Hg).
  destruct (k_ctrl k) as [|p|p]; try lra.
  destruct p as [[[]|[]|]|[[]|[]|]|]; try exact P1; try exact P2; try lra; cbn [nleb nltb RNum]; rewrite ?R_nZ; rcase; lra.
Qed.
Lemma ac_invariant ops : forall k : cool R, ac_ok k -> ac_ok (cool_run ops k).
Proof.
  induction ops as [|o ops IH]; intros k H; [exact H|]. cbn. apply IH. clear IH.
  destruct o; cbn [cool_exec].
  - destruct (setT_cases t k) as [[_ ->]|[_ ->]]; exact H.
  - unfold cool_control, ac_ok in *. destruct (k_kind k) eqn:K.
    + destruct (fan_control_T Tlocal Tglobal k) as (_ & _ & -> & _). rewrite K. exact I.
    + cbn. rewrite K. exact I.
    + cbn. destruct H as (H1 & H2 & H3). split; [exact H1|]. split; [|exact H3]. apply ac_control_bound; assumption.
  - unfold cool_dstate, ac_ok in *. destruct (k_kind k) eqn:K; [cbn; rewrite K; exact I|cbn; rewrite K; exact I|].
    match goal with |- context [if ?b then _ else _] => destruct b end; cbn; rewrite ?K; exact H.
  - exact H.
  - exact H.
Qed.
