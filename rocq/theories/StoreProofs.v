(** * Proofs about the usage statistics *)
From Verif Require Import Base RFacts UtilModel CoolModel ModuleModel StoreModel StoreSpec.
Local Open Scope R_scope.

Lemma hist_adds_snoc {A} {NA : Num A} (h : Histogram A) (xs : list A) x :
  hist_adds h (xs ++ [x]) = rbind (hist_adds h xs) (fun h' => hist_add h' x).
Proof.
  revert h. induction xs as [|y xs IH]; intros h; cbn [app hist_adds].
  - cbn [rbind]. destruct (hist_add h x); reflexivity.
  - destruct (hist_add h y); cbn [rbind]; auto.
Qed.

Definition hQ0 : @Histogram R := hist_make (nZ 0) (nZ 5) DATASTORE_NHIST.
Definition hf0 : @Histogram R := hist_make (nZ 0) (nlit 11 10 * flowrate_perCell)%num DATASTORE_NHIST.
Definition hE0 : @Histogram R := hist_make (nZ 0)
  (let v := (nlit 11 10 * flowrate_perCell / per_cell_Across)%num in (nlit 1225 1000 * per_cell_Across * v * v * v / nlit 1 2)%num) DATASTORE_NHIST.
Definition hT0 : @Histogram R := hist_make (degC 0) (degC 100) DATASTORE_NHIST.

Record inv (n : nat) (es : list (cevent R)) (ss : list sample) (x : crec R) : Prop := mkInv {
  i_n : k_N (r_cool x) = n;
  i_data : exists Q flr E T, r_data x = THist Q flr E T /\
     hist_adds hQ0 (map s_Q ss) = Ok Q /\ hist_adds hf0 (map s_f ss) = Ok flr /\
     hist_adds hE0 (map s_E ss) = Ok E /\ hist_adds hT0 (map s_T ss) = Ok T;
  i_hvac : r_hvac x = hvac_init 1;
  i_heat : Rsum (map (fun s => s_Q s * s_tau s * INR n) ss) + u_Qevac (k_cum (r_cool x)) = heat_of es;
  i_life : u_Qevac_life (k_cum (r_cool x)) = heat_of es;
  i_time : Rsum (map s_tau ss) + u_time (k_cum (r_cool x)) = time_of es;
  i_tlife : u_time_life (k_cum (r_cool x)) = time_of es;
  i_fan : Rsum (map (fun s => s_E s * s_tau s * INR n) ss) + u_E (k_cum (r_cool x)) = u_Eop (k_cum (r_cool x)) - ac_total (r_cool x);
  i_len : (length ss <= stores es)%nat;
  i_tau : Forall (fun s => s_tau s <> 0) ss }.

Lemma heat_app a b : heat_of (a ++ b) = heat_of a + heat_of b.
Proof. induction a as [|[] a IH]; cbn; rewrite ?IH; lra. Qed.
Lemma time_app a b : time_of (a ++ b) = time_of a + time_of b.
Proof. induction a as [|[] a IH]; cbn; rewrite ?IH; lra. Qed.
Lemma stores_app a b : stores (a ++ b) = (stores a + stores b)%nat.
Proof. induction a as [|[] a IH]; cbn; rewrite ?IH; lia. Qed.

Lemma inv_frame n es ss x k e : inv n es ss x -> heat_of [e] = 0 -> time_of [e] = 0 ->
  k_N k = k_N (r_cool x) -> k_cum k = k_cum (r_cool x) -> ac_total k = ac_total (r_cool x) ->
  inv n (es ++ [e]) ss (mkCr k (r_data x) (r_hvac x)).
Proof.
  intros [] H1 H2 HN HC HA. constructor; cbn [r_cool r_data r_hvac]; rewrite ?HC, ?HN, ?HA, ?heat_app, ?time_app, ?H1, ?H2, ?Rplus_0_r; auto.
  rewrite stores_app. lia.
Qed.

Lemma exchange_cum q c t k k' T' : cool_dstate q c t k = (k', Ok T') ->
  k_N k' = k_N k /\ u_Qevac (k_cum k') = u_Qevac (k_cum k) + c /\ u_Qevac_life (k_cum k') = u_Qevac_life (k_cum k) + c /\
  u_time (k_cum k') = u_time (k_cum k) + t /\ u_time_life (k_cum k') = u_time_life (k_cum k) + t /\
  u_E (k_cum k') - u_E (k_cum k) = (u_Eop (k_cum k') - ac_total k') - (u_Eop (k_cum k) - ac_total k).
Proof.
  unfold cool_dstate, ac_total. destruct (k_kind k) as [| |h] eqn:K.
  - intros [= <- _]. cbn. rewrite K. repeat split; lra.
  - intros [= <- _]. cbn. rewrite K. repeat split; lra.
  - destruct (nltb _ _); [discriminate|]. intros [= <- _]. cbn. repeat split; lra.
Qed.

Lemma control_frame l g (k : cool R) : k_N (cool_control l g k) = k_N k /\ k_cum (cool_control l g k) = k_cum k /\
  ac_total (cool_control l g k) = ac_total k.
Proof.
  unfold cool_control, ac_total.
  assert (forall k : cool R, k_N (fan_control l g k) = k_N k /\ k_cum (fan_control l g k) = k_cum k /\ k_kind (fan_control l g k) = k_kind k) as F.
  { intros k0. unfold fan_control. destruct (k_ctrl k0) as [|p|p]; [now auto| |now auto]. do 3 (destruct p as [p|p|]; try now auto). }
  destruct (F k) as (F1 & F2 & F3).
  destruct (k_kind k) eqn:K; cbn [with_flow with_kind k_N k_cum k_kind h_Eac]; rewrite ?F1, ?F2, ?F3, ?K; auto.
Qed.

Lemma setT_frame t (k k' : cool R) r : cool_setT t k = (k', Ok r) -> k_N k' = k_N k /\ k_cum k' = k_cum k /\ ac_total k' = ac_total k.
Proof. unfold cool_setT. destruct (_ || _)%bool; [discriminate|]. intros [= <- _]. repeat split. Qed.

Lemma data_store_inv n es ss x x' : inv n es ss x -> n <> 0%nat -> data_store x = (x', Ok tt) ->
  exists ss', inv n (es ++ [EStore]) ss' x' /\ k_kind (r_cool x') = k_kind (r_cool x).
Proof.
  intros IV Hn. pose proof IV as [Hk (Q & flr & E & T & Hd & HQ & Hf & HE & HT) Hh Hheat Hlife Htime Htlife Hfan Hlen Htau].
  unfold data_store. destruct (neqb (u_time (k_cum (r_cool x))) (nZ 0)) eqn:Z.
  - intros [= <-]. exists ss. split; [|reflexivity].
    replace x with (mkCr (r_cool x) (r_data x) (r_hvac x)) by (destruct x; reflexivity).
    apply inv_frame; auto.
  - apply Reqb_false in Z. rewrite R_nZ in Z. rewrite Hd.
    destruct (hist_add E _) as [E'| | |] eqn:AE; try discriminate.
    destruct (hist_add T _) as [T'| | |] eqn:AT; try discriminate.
    destruct (hist_add Q _) as [Q'| | |] eqn:AQ; try discriminate.
    destruct (hist_add flr _) as [f'| | |] eqn:AF; try discriminate.
    intros [= <-].
    assert (INR n <> 0) as HN by (apply not_0_INR; exact Hn).
    set (k := r_cool x) in *. set (u := k_cum k) in *.
    exists (ss ++ [mkS (u_Qevac u / u_time u / nnat (k_N k))%num (u_E u / u_time u / nnat (k_N k))%num (k_T k) (k_flow k / nnat (k_N k))%num (u_time u)]).
    split; [|reflexivity].
    constructor; cbn [r_cool r_data r_hvac].
    + exact Hk.
    + exists Q', f', E', T'. split; [reflexivity|]. rewrite !map_app. cbn [map s_Q s_E s_T s_f].
      rewrite !hist_adds_snoc, HQ, Hf, HE, HT. cbn [rbind]. auto.
    + exact Hh.
    + rewrite map_app, Rsum_app. cbn [map Rsum s_Q s_tau with_period k_cum with_cum u_Qevac].
      rewrite heat_app. cbn [heat_of]. rewrite <- Hheat, Hk, R_nnat. cbn [ndiv RNum]. fold u. field. auto.
    + cbn [with_period k_cum with_cum u_Qevac_life]. rewrite heat_app. cbn [heat_of]. fold u. rewrite Hlife. lra.
    + rewrite map_app, Rsum_app. cbn [map Rsum s_tau with_period k_cum with_cum u_time].
      rewrite time_app. cbn [time_of]. rewrite <- Htime. fold u. lra.
    + cbn [with_period k_cum with_cum u_time_life]. rewrite time_app. cbn [time_of]. fold u. rewrite Htlife. lra.
    + rewrite map_app, Rsum_app. cbn [map Rsum s_E s_tau with_period k_cum with_cum u_E u_Eop].
      change (ac_total (with_period k (0 / 1) (0 / 1) (0 / 1))) with (ac_total k).
      fold u. rewrite <- Hfan, Hk, R_nnat. cbn [ndiv RNum]. fold u. field. auto.
    + rewrite app_length, stores_app. cbn. lia.
    + apply Forall_app. split; [exact Htau|]. constructor; [exact Z|constructor].
Qed.

Lemma event_inv n es ss x e x' : inv n es ss x -> n <> 0%nat -> cevent_do 1 n e x = (x', Ok tt) ->
  exists ss', inv n (es ++ [e]) ss' x'.
Proof.
  intros IV Hn H. destruct e as [q c t|l g|t| |]; cbn [cevent_do] in H.
  - unfold on_cool in H. destruct (cool_dstate q c t (r_cool x)) as [k' [T'| | |]] eqn:E; try discriminate.
    injection H as <-. apply exchange_cum in E as (E1 & E2 & E3 & E4 & E5 & E6). exists ss.
    destruct IV. constructor; cbn [r_cool r_data r_hvac]; rewrite ?heat_app, ?time_app, ?E1, ?E2, ?E3, ?E4, ?E5; cbn [heat_of time_of]; auto; try lra.
    rewrite stores_app. lia.
  - injection H as <-. exists ss. destruct (control_frame l g (r_cool x)) as (F1 & F2 & F3). apply inv_frame; auto.
  - unfold on_cool in H. destruct (cool_setT t (r_cool x)) as [k' [T'| | |]] eqn:E; try discriminate.
    injection H as <-. apply setT_frame in E as (F1 & F2 & F3). exists ss. apply inv_frame; auto.
  - unfold cool_store in H. destruct (store_check 1 n (r_cool x)) as [[]| | |]; try discriminate.
    destruct (k_kind (r_cool x)) as [| |h].
    + destruct (data_store_inv n es ss x x' IV Hn H) as (ss' & I' & _). eauto.
    + destruct (data_store_inv n es ss x x' IV Hn H) as (ss' & I' & _). eauto.
    + assert (hvac_store h x = (x, Ok tt)) as E.
      { unfold hvac_store. rewrite (i_hvac _ _ _ _ IV). destruct (neqb _ _); reflexivity. }
      rewrite E in H. destruct (data_store_inv n es ss x x' IV Hn H) as (ss' & I' & _). eauto.
  - injection H as <-. exists ss. unfold cool_write. destruct (i_data _ _ _ _ IV) as (Q & f & E & T & Hd & _). rewrite Hd. cbn [fst].
    replace x with (mkCr (r_cool x) (r_data x) (r_hvac x)) by (destruct x; reflexivity).
    apply inv_frame; auto.
Qed.

Lemma events_inv n es : n <> 0%nat -> forall done ss x x', inv n done ss x -> cevents_do 1 n es x = (x', Ok tt) ->
  exists ss', inv n (done ++ es) ss' x'.
Proof.
  intros Hn. induction es as [|e es IH]; intros done ss x x' IV H; cbn [cevents_do] in H.
  - injection H as <-. rewrite app_nil_r. eauto.
  - destruct (cevent_do 1 n e x) as [x1 [[]| | |]] eqn:E; try discriminate.
    destruct (event_inv n done ss x e x1 IV Hn E) as (ss1 & I1).
    destruct (IH (done ++ [e]) ss1 x1 x' I1 H) as (ss2 & I2). rewrite <- app_assoc in I2. eauto.
Qed.

Lemma start_inv k n : unused k -> k_N k = n -> inv n [] [] (record_make 1 k).
Proof.
  intros [U1 U2] Hn. constructor; cbn [r_cool r_data r_hvac record_make map Rsum heat_of time_of length stores];
    rewrite ?U1, ?U2; unfold cum0; cbn [u_Qevac u_Qevac_life u_time u_time_life u_E u_Eop]; rewrite ?R_nZ; auto; try lra.
  eexists _, _, _, _. split; [reflexivity|]. repeat split.
Qed.

(** ** No AC data *)
Lemma hvac_never {A} {NA : Num A} lvl n (e : cevent A) x x' r :
  (r_hvac x = hvac_init lvl) -> cevent_do lvl n e x = (x', r) -> r_hvac x' = hvac_init lvl.
Proof.
  intros H0 H.
  assert (forall y y' q, r_hvac y = hvac_init lvl -> data_store y = (y', q) -> r_hvac y' = hvac_init lvl) as D.
  { intros y y' q Hy. unfold data_store. destruct (neqb _ _); [intros [= <- _]; exact Hy|].
    destruct (r_data y); try (intros [= <- _]; exact Hy).
    destruct (hist_add E _); try (intros [= <- _]; exact Hy).
    destruct (hist_add T _); try (intros [= <- _]; exact Hy).
    destruct (hist_add Q _); try (intros [= <- _]; exact Hy).
    destruct (hist_add flr _); intros [= <- _]; exact Hy. }
  assert (forall h y, r_hvac y = hvac_init lvl -> hvac_store h y = (y, Ok tt)) as N.
  { intros h y Hy. unfold hvac_store. rewrite Hy. unfold hvac_init.
    destruct (neqb _ _); [reflexivity|]. destruct (lvl =? 1)%Z; [reflexivity|]. destruct (lvl =? 2)%Z; reflexivity. }
  destruct e as [q c t|l g|t| |]; cbn [cevent_do] in H.
  - unfold on_cool in H. destruct (cool_dstate _ _ _ _). injection H as <- _. exact H0.
  - injection H as <- _. exact H0.
  - unfold on_cool in H. destruct (cool_setT _ _). injection H as <- _. exact H0.
  - unfold cool_store in H. destruct (store_check _ _ _); try (injection H as <- _; exact H0).
    destruct (k_kind (r_cool x)) as [| |h]; [eapply D; eauto|eapply D; eauto|].
    rewrite (N h x H0) in H. eapply D; eauto.
  - injection H as <- _. unfold cool_write. destruct (r_data x); exact H0.
Qed.
Lemma hvac_never_all {A} {NA : Num A} lvl n (es : list (cevent A)) : forall x x' r,
  r_hvac x = hvac_init lvl -> cevents_do lvl n es x = (x', r) -> r_hvac x' = hvac_init lvl.
Proof.
  induction es as [|e es IH]; intros x x' r H0 H; cbn [cevents_do] in H.
  - injection H as <- _. exact H0.
  - destruct (cevent_do lvl n e x) as [x1 q] eqn:E. pose proof (hvac_never lvl n e x x1 q H0 E) as H1.
    destruct q; try (injection H as <- _; exact H1). eapply IH; eauto.
Qed.
