(** * C71: usage statistics of the cooling systems and storing data of a pack *)
From Coq Require Import String.
From Verif Require Import Base RFacts UtilModel UtilSpec UtilProofs StatusModel CellModel CoolModel ModuleModel BattModel StoreModel StoreSpec StoreProofs FactModel FactSpec FactProofs.
Local Open Scope R_scope.

(** Histogram statistics lose no heat, time or energy. After any history of heat exchanges, control actions, temperature
    changes, storage requests and writes, the four histograms contain one sample per stored period; the samples' mean powers
    times lengths, plus what is pending in the running period, are the total heat taken from the children, the total time and
    the total energy of the fans. *)
Theorem C71_periods : forall k n es x,
  unused k -> k_N k = n -> n <> 0%nat -> cevents_do 1 n es (record_make 1 k) = (x, Ok tt) ->
  exists ss Q flr E T, r_data x = THist Q flr E T /\
    hist_adds (hist_make 0 5 100) (map s_Q ss) = Ok Q /\
    hist_adds (hist_make (273) (373) 100) (map s_T ss) = Ok T /\
    (exists fmax, fmax = 55 / 100000 /\ hist_adds (hist_make 0 fmax 100) (map s_f ss) = Ok flr) /\
    (exists Emax, Emax = 65219 / 100000 /\ hist_adds (hist_make 0 Emax 100) (map s_E ss) = Ok E) /\
    (List.length ss <= stores es)%nat /\ Forall (fun s => s_tau s <> 0) ss /\
    Rsum (map (fun s => s_Q s * s_tau s * INR n) ss) + u_Qevac (k_cum (r_cool x)) = heat_of es /\
    Rsum (map s_tau ss) + u_time (k_cum (r_cool x)) = time_of es /\
    Rsum (map (fun s => s_E s * s_tau s * INR n) ss) + u_E (k_cum (r_cool x)) = u_Eop (k_cum (r_cool x)) - ac_total (r_cool x) /\
    u_Qevac_life (k_cum (r_cool x)) = heat_of es /\ u_time_life (k_cum (r_cool x)) = time_of es.
Proof.
  intros k n es x HU HN Hn H.
  destruct (events_inv n es Hn [] [] _ _ (start_inv k n HU HN) H) as (ss & IV). cbn [app] in IV.
  destruct IV as [_ (Q & flr & E & T & Hd & HQ & Hf & HE & HT) _ Hheat Hlife Htime Htlife Hfan Hlen Htau].
  exists ss, Q, flr, E, T. split; [exact Hd|].
  assert (hQ0 = hist_make 0 5 100) as E1 by (unfold hQ0; now rewrite !R_nZ).
  assert (hT0 = hist_make 273 373 100) as E2 by (unfold hT0, degC; rewrite !R_nZ; reflexivity).
  rewrite E1 in HQ. rewrite E2 in HT. split; [exact HQ|]. split; [exact HT|].
  split; [|split; [|repeat split; auto]].
  - exists (55 / 100000). split; [reflexivity|]. rewrite <- Hf. unfold hf0. rewrite R_nZ. f_equal. f_equal.
    unfold flowrate_perCell. cbn. lra.
  - exists (65219 / 100000). split; [reflexivity|]. rewrite <- HE. unfold hE0. rewrite R_nZ. f_equal. f_equal.
    unfold flowrate_perCell, per_cell_Across. cbn. lra.
Qed.

(** Storing changes nothing but the counters of the running period. *)
Theorem C71_frame : forall (A : Type) (NA : Num A) lvl n (x x' : crec A) r, r_hvac x = hvac_init lvl -> cool_store lvl n x = (x', r) ->
  exists q e t, r_cool x' = with_period (r_cool x) q e t.
Proof.
  intros A NA lvl n x x' r H0 H.
  assert (forall k : cool A, k = with_period k (u_Qevac (k_cum k)) (u_E (k_cum k)) (u_time (k_cum k))) as Same.
  { intros []. unfold with_period. cbn. destruct k_cum; reflexivity. }
  assert (forall y y' q, data_store y = (y', q) -> exists q' e t, r_cool y' = with_period (r_cool y) q' e t) as D.
  { intros y y' q. unfold data_store.
    assert (exists q' e t, r_cool y = with_period (r_cool y) q' e t) as S by (eexists _, _, _; apply Same).
    destruct (neqb _ _); [intros [= <- _]; exact S|].
    destruct (r_data y); try (intros [= <- _]; exact S).
    destruct (hist_add E _); try (intros [= <- _]; exact S).
    destruct (hist_add T _); try (intros [= <- _]; exact S).
    destruct (hist_add Q _); try (intros [= <- _]; exact S).
    destruct (hist_add flr _); intros [= <- _]; try exact S. eexists _, _, _; reflexivity. }
  assert (exists q' e t, r_cool x = with_period (r_cool x) q' e t) as S by (eexists _, _, _; apply Same).
  unfold cool_store in H. destruct (store_check _ _ _); try (injection H as <- _; exact S).
  destruct (k_kind (r_cool x)) as [| |h]; [eapply D; eauto|eapply D; eauto|].
  assert (hvac_store h x = (x, Ok tt)) as N.
  { unfold hvac_store. rewrite H0. unfold hvac_init.
    destruct (neqb _ _); [reflexivity|]. destruct (lvl =? 1)%Z; [reflexivity|]. destruct (lvl =? 2)%Z; reflexivity. }
  rewrite N in H. eapply D; eauto.
Qed.

(** The energy in the statistics file is not the total operating energy: written right after a stored point it is zero, whatever
    the fans have used. *)
Theorem C71_written_energy_refuted : forall n (x x' : crec R) Q flr E T, r_data x = THist Q flr E T ->
  u_time (k_cum (r_cool x)) <> 0 -> k_kind (r_cool x) = CBase -> cool_store 1 n x = (x', Ok tt) ->
  exists N hT hQ hf hE, snd (cool_write x') = [LStats N 0 hT hQ hf hE] /\ u_Eop (k_cum (r_cool x')) = u_Eop (k_cum (r_cool x)).
Proof.
  intros n x x' Q flr E T Hd Ht K H. unfold cool_store in H. destruct (store_check _ _ _); try discriminate. rewrite K in H.
  unfold data_store in H. replace (neqb (u_time (k_cum (r_cool x))) (nZ 0)) with false in H.
  2:{ symmetry. apply Reqb_false. rewrite R_nZ. exact Ht. }
  rewrite Hd in H. destruct (hist_add E _); try discriminate. destruct (hist_add T _); try discriminate.
  destruct (hist_add Q _); try discriminate. destruct (hist_add flr _); try discriminate. injection H as <-.
  unfold cool_write. cbn [r_data snd r_cool]. eexists _, _, _, _, _. split; [|reflexivity].
  cbn. replace (0 / 1) with 0 by lra. reflexivity.
Qed.

(** Time series: the counters are not reset, so every row gives the mean since the first exchange and not that of the past period. *)
Definition two_periods : list (cevent R) := [EExchange 100 100 1; EStore; EExchange 0 0 1; EStore].
Theorem C71_series_refuted : exists x r1 r2,
  cevents_do 2 1 two_periods (record_make 2 (cool_make 1 1)) = (x, Ok tt) /\ r_data x = TInst [r1; r2] /\
  c_Q r1 = 100 /\ c_Q r2 = 50 /\ c_time r2 = 2.
Proof.
  eexists _, _, _. unfold two_periods, record_make, data_init, hvac_init. cbn -[nZ neqb fan_power].
  assert (neqb (nZ 0 + 1) (nZ 0) = false) as E1 by (apply Reqb_false; rewrite R_nZ; lra).
  assert (neqb (nZ 0 + 1 + 1) (nZ 0) = false) as E2 by (apply Reqb_false; rewrite R_nZ; lra).
  unfold data_store. cbn -[nZ neqb fan_power]. rewrite E1. cbn -[nZ neqb fan_power]. rewrite E2.
  split; [reflexivity|]. split; [reflexivity|]. cbn -[nZ]. rewrite !R_nZ. repeat split; field.
Qed.

(** The AC unit of an HVAC never records anything, at any storage level. *)
Theorem C71_hvac_refuted : forall (A : Type) (NA : Num A) lvl n es (k : cool A) x r,
  cevents_do lvl n es (record_make lvl k) = (x, r) -> r_hvac x = hvac_init lvl.
Proof. intros A NA lvl n es k x r H. eapply hvac_never_all; [|exact H]. reflexivity. Qed.

(** Were the data member of the right type, the AC unit would record the energy since the last sample, per cell and second, and start
    again at zero. *)
Theorem C71_hvac_sample : forall (A : Type) (NA : Num A) (h : hvac A) (x x' : crec A) Q E, r_hvac x = THvacHist Q E ->
  k_kind (r_cool x) = CHvac h -> neqb (u_time (k_cum (r_cool x))) (nZ 0) = false -> hvac_store h x = (x', Ok tt) ->
  exists Q' E' h', r_hvac x' = THvacHist Q' E' /\ k_kind (r_cool x') = CHvac h' /\
    hist_add E (ndiv (ndiv (h_Eac h) (u_time (k_cum (r_cool x)))) (nnat (k_N (r_cool x)))) = Ok E' /\
    hist_add Q (ndiv (h_Qac h) (nnat (k_N (r_cool x)))) = Ok Q' /\
    h_Eac h' = nZ 0 /\ h_Qac h' = h_Qac h /\ h_QcoolAC h' = h_QcoolAC h /\ k_cum (r_cool x') = k_cum (r_cool x) /\ r_data x' = r_data x.
Proof.
  intros A NA h x x' Q E Hd K T H. unfold hvac_store in H. rewrite T, Hd in H.
  destruct (hist_add E _) as [E'| | |] eqn:EE; try discriminate. destruct (hist_add Q _) as [Q'| | |] eqn:EQ; try discriminate.
  apply pair_equal_spec in H. destruct H as [<- _]. unfold hvac_set_Eac. rewrite K. eexists _, _, _.
  cbn [r_hvac r_cool r_data with_kind k_kind k_cum h_Eac h_Qac h_QcoolAC]. repeat split; eassumption || reflexivity.
Qed.

(** Time series on disk: over any history the rows in the file followed by the rows in memory are exactly the rows recorded, each
    once and in order; write requests change nothing else. *)
Lemma event_data {A} {NA : Num A} n e (x y : crec A) l : e <> EWrite -> r_cool y = r_cool x -> r_hvac y = r_hvac x ->
  r_hvac x = TInst [] -> r_data x = TInst l ->
  exists new, forall l', r_data y = TInst l' ->
    match cevent_do 2 n e x, cevent_do 2 n e y with
    | (x', r), (y', r') => r' = r /\ r_cool y' = r_cool x' /\ r_hvac y' = r_hvac x' /\ r_hvac x' = TInst [] /\
                           r_data x' = TInst (l ++ new) /\ r_data y' = TInst (l' ++ new)
    end.
Proof.
  intros He EC EH HI HD. destruct e; [| | | |easy]; cbn [cevent_do].
  1: exists []; intros l' HL; unfold on_cool; rewrite EC; destruct (cool_dstate _ _ _ _) as [k r].
  2: exists []; intros l' HL; rewrite EC.
  3: exists []; intros l' HL; unfold on_cool; rewrite EC; destruct (cool_setT _ _) as [k r].
  1-3: cbn [r_cool r_hvac r_data]; rewrite !app_nil_r; repeat split; assumption.
  unfold cool_store. rewrite EC. change (store_check 2 n (r_cool x)) with (Ok tt).
  assert (D : exists new, forall l', r_data y = TInst l' ->
    match data_store x, data_store y with
    | (x', r), (y', r') => r' = r /\ r_cool y' = r_cool x' /\ r_hvac y' = r_hvac x' /\ r_hvac x' = TInst [] /\
                           r_data x' = TInst (l ++ new) /\ r_data y' = TInst (l' ++ new)
    end).
  { unfold data_store. rewrite EC, HD. destruct (neqb _ _).
    - exists []. intros l' HL. rewrite !app_nil_r. repeat split; assumption.
    - eexists. intros l' HL. rewrite HL. cbn [r_cool r_hvac r_data]. repeat split; assumption. }
  destruct (k_kind (r_cool x)); try exact D. unfold hvac_store. rewrite EC, EH, HI. destruct (neqb _ _); exact D.
Qed.
Theorem C71_rows : forall (A : Type) (NA : Num A) n es (k : cool A) x, cevents_do 2 n es (record_make 2 k) = (x, Ok tt) ->
  exists x' all rows, cevents_do 2 n (unwritten es) (record_make 2 k) = (x', Ok tt) /\ r_cool x = r_cool x' /\
    r_data x' = TInst all /\ r_data x = TInst rows /\
    written 2 n es (record_make 2 k) ++ map LRow rows = map LRow all.
Proof.
  intros A NA n es k x H.
  assert (G : forall es (y z : crec A) l l' x, r_cool y = r_cool z -> r_hvac y = r_hvac z -> r_hvac z = TInst [] -> r_data y = TInst l ->
     r_data z = TInst l' -> cevents_do 2 n es z = (x, Ok tt) ->
     exists x' all rows more, cevents_do 2 n (unwritten es) y = (x', Ok tt) /\ r_cool x = r_cool x' /\
       r_data x' = TInst (l ++ more) /\ r_data x = TInst rows /\ all = l' ++ more /\ written 2 n es z ++ map LRow rows = map LRow all).
  { clear. induction es as [|e es IH]; intros y z l l' x EC EH HI Hl Hl' H.
    - cbn in H. injection H as <-. exists y, l', l', []. cbn. rewrite !app_nil_r. repeat split; auto.
    - destruct (match e with EWrite => true | _ => false end) eqn:W.
      + destruct e; try discriminate. cbn [cevents_do cevent_do written unwritten filter] in *. unfold cool_write in *. rewrite Hl' in *. cbn [fst snd] in *.
        destruct (IH y (mkCr (r_cool z) (TInst []) (r_hvac z)) l [] x EC EH HI Hl eq_refl H) as (x' & all & rows & more & E1 & E2 & E3 & E4 & E5 & E6).
        exists x', (l' ++ more), rows, more. split; [exact E1|]. split; [exact E2|]. split; [exact E3|]. split; [exact E4|]. split; [reflexivity|].
        rewrite <- app_assoc, E6, E5. cbn [app]. now rewrite map_app.
      + assert (He : e <> EWrite) by (intros ->; discriminate).
        destruct (event_data n e z y l' He EC EH HI Hl') as [new N]. specialize (N l Hl).
        cbn [cevents_do written] in *. assert (unwritten (e :: es) = e :: unwritten es) as -> by (unfold unwritten; cbn [filter]; destruct e; try reflexivity; discriminate).
        cbn [cevents_do]. destruct (cevent_do 2 n e z) as [z' r]. destruct (cevent_do 2 n e y) as [y' r'].
        destruct N as (-> & N1 & N2 & N3 & N4 & N5). destruct r as [[]| | |]; try discriminate.
        destruct (IH y' z' _ _ x N1 N2 N3 N5 N4 H) as (x' & all & rows & more & E1 & E2 & E3 & E4 & E5 & E6).
        exists x', all, rows, (new ++ more). rewrite !app_assoc. repeat split; try assumption.
        assert ((match e with EWrite => snd (cool_write z) | _ => [] end) = []) as -> by (destruct e; reflexivity || discriminate). exact E6. }
  destruct (G es (record_make 2 k) (record_make 2 k) [] [] x eq_refl eq_refl eq_refl eq_refl eq_refl H) as (x' & all & rows & more & E1 & E2 & E3 & E4 & E5 & E6).
  exists x', all, rows. cbn in E5. subst all. repeat split; assumption.
Qed.

(** Storing the data of a tree: every cell stores exactly once, in order, and it succeeds exactly if (with statistics switched on)
    every module was announced with the number of cells it has; else it throws 10. *)
Lemma store_visits_app {A C} {NA : Num A} lvl (a b : list (visit A C)) :
  store_visits lvl (a ++ b) = match store_visits lvl a with
    | (cs, Ok _) => let '(ds, r) := store_visits lvl b in (cs ++ ds, r) | r => r end.
Proof.
  induction a as [|[c|n k] a IH]; cbn [app store_visits].
  - destruct (store_visits lvl b); reflexivity.
  - rewrite IH. destruct (store_visits lvl a) as [cs [[]| | |]]; try reflexivity. destruct (store_visits lvl b). reflexivity.
  - destruct (store_check lvl n k); auto.
Qed.
Lemma check_cases {A} {NA : Num A} lvl n (k : cool A) :
  (store_check lvl n k = Ok tt /\ (lvl = 1%Z -> n = k_N k /\ k_N k <> 0%nat)) \/
  (store_check lvl n k = Throw 10 /\ lvl = 1%Z /\ ~ (n = k_N k /\ k_N k <> 0%nat)).
Proof.
  unfold store_check. destruct (Z.eqb_spec lvl 1) as [->|]; [|left; split; [reflexivity|lia]].
  destruct (Nat.eqb_spec n (k_N k)); cbn [negb]; [|right; repeat split; tauto].
  destruct (Nat.eqb_spec (k_N k) 0); [right; repeat split; tauto|left; split; auto].
Qed.

Lemma agree_dec {A C} n : forall s : su A C n, numbers_agree n s \/ ~ numbers_agree n s.
Proof.
  induction n as [|n IH]; intros s; [left; exact Logic.I|]. destruct s as [c|m]; [left; exact Logic.I|].
  cbn [numbers_agree].
  assert ((forall p, In p (ms m) -> numbers_agree n p) \/ ~ (forall p, In p (ms m) -> numbers_agree n p)) as L.
  { induction (ms m) as [|p l IHl]; [left; intros p []|].
    destruct (IH p) as [Y|N]; [|right; intros X; apply N, X; left; reflexivity].
    destruct IHl as [Y'|N']; [left; intros z [<-|Hz]; auto|right; intros X; apply N'; intros z Hz; apply X; right; exact Hz]. }
  destruct L as [L|L]; [|right; tauto].
  destruct (Nat.eq_dec (m_N (mm m)) (k_N (m_cool (mm m)))), (Nat.eq_dec (k_N (m_cool (mm m))) 0); tauto.
Qed.
Theorem C71_tree : forall (A : Type) (NA : Num A) (C : Type) lvl n (s : su A C n),
  (lvl <> 1%Z \/ numbers_agree n s -> store_visits lvl (visits n s) = (leaves (view n s), Ok tt)) /\
  (lvl = 1%Z -> ~ numbers_agree n s -> snd (store_visits lvl (visits n s)) = Throw 10).
Proof.
  intros A NA C lvl n. induction n as [|n IH]; intros s.
  - split; [reflexivity|]. intros _ H. contradict H. exact Logic.I.
  - destruct s as [c|m].
    + split; [reflexivity|]. intros _ H. contradict H. exact Logic.I.
    + change (visits (S n) (inr m)) with (flat_map (visits n) (ms m) ++ [VCool (m_N (mm m)) (m_cool (mm m))]).
      change (leaves (view (S n) (inr m))) with (flat_map (fun l => leaves l) (map (view n) (ms m))).
      rewrite store_visits_app.
      assert (forall l : list (su A C n),
        ((lvl <> 1%Z \/ forall p, In p l -> numbers_agree n p) -> store_visits lvl (flat_map (visits n) l) = (flat_map (fun l => leaves l) (map (view n) l), Ok tt)) /\
        (lvl = 1%Z -> ~ (forall p, In p l -> numbers_agree n p) -> snd (store_visits lvl (flat_map (visits n) l)) = Throw 10)) as L.
      { induction l as [|p l IHl]; cbn [flat_map map].
        - split; [reflexivity|]. intros _ H. contradict H. intros p [].
        - rewrite store_visits_app. destruct (IH p) as [P1 P2]. destruct IHl as [L1 L2]. split.
          + intros H. rewrite P1, L1; [reflexivity| |].
            * destruct H as [H|H]; [left; exact H|right; intros; apply H; right; assumption].
            * destruct H as [H|H]; [left; exact H|right; apply H; left; reflexivity].
          + intros E H.
            destruct (store_visits lvl (visits n p)) as [cs r] eqn:V. cbn [snd] in P2.
            destruct r as [[]| | |]; cbn [snd].
            * destruct (store_visits lvl (flat_map (visits n) l)) as [ds q] eqn:W. cbn [snd] in *.
              apply L2; [exact E|]. intros X. apply H. intros z [<-|Hz]; [|auto].
              destruct (agree_dec n p) as [Y|Y]; [exact Y|]. specialize (P2 E Y). discriminate.
            * apply P2; [exact E|]. intros Y. specialize (P1 (or_intror Y)). discriminate.
            * apply P2; [exact E|]. intros Y. specialize (P1 (or_intror Y)). discriminate.
            * apply P2; [exact E|]. intros Y. specialize (P1 (or_intror Y)). discriminate. }
      destruct (L (ms m)) as [L1 L2]. cbn [store_visits].
      destruct (check_cases lvl (m_N (mm m)) (m_cool (mm m))) as [[E1 E2]|(E1 & E2 & E3)]; rewrite E1.
      * split.
        -- intros H. rewrite L1; [cbv beta iota; rewrite app_nil_r; reflexivity|].
           destruct H as [H|(_ & _ & H)]; [left; exact H|right; exact H].
        -- intros E H. assert (~ (forall p, In p (ms m) -> numbers_agree n p)) as X.
           { intros X. apply H. destruct (E2 E). repeat split; auto. }
           specialize (L2 E X). destruct (store_visits lvl _) as [cs [[]| | |]]; cbn [snd] in L2; try discriminate. exact L2.
      * split.
        -- intros [H|(H1 & H2 & _)]; [contradiction|]. exfalso. apply E3. auto.
        -- intros E _. destruct (store_visits lvl (flat_map (visits n) (ms m))) as [cs r] eqn:V.
           destruct r as [[]| | |]; [reflexivity| | |]; cbn [snd] in L2 |- *;
             (apply L2; [exact E|]; intros X; specialize (L1 (or_intror X)); discriminate).
Qed.

(** Every pack of the factories can store its statistics: each module was announced with the number of cells it got. *)
Section Agree.
Context {A : Type} {NA : Num A} {G : Type} (dc dr dd : G -> A * G) {C : Type} (mk : string -> A -> A -> A -> A -> res C) (oc : su_ops A C) (tm : Z).
Hypothesis one : forall x, o_N oc x = 1%nat.
Lemma adopt_agree n (u : su A C n) : numbers_agree n u -> numbers_agree n (adopt u).
Proof. destruct n; [auto|]. destruct u; auto. Qed.
Lemma mod_make_N X (ser : bool) (T : A) par nc ctrl ct top (m : module A X) : mod_make X ser T par nc ctrl ct top = Ok m -> k_N (m_cool (mm m)) = nc.
Proof.
  unfold mod_make. set (k := if (ct =? 1)%Z then _ else _).
  assert (k_N k = nc) as Hk by (unfold k; destruct (ct =? 1)%Z; [reflexivity|destruct (ct =? 2)%Z; reflexivity]).
  unfold cool_setT. destruct (_ || _)%bool; [discriminate|]. intros [= <-]. exact Hk.
Qed.
Lemma assemble_agree n v nc ctrl l (m : module A (su A C n)) q : assemble oc tm v nc ctrl l = Ok m ->
  (forall u, In u l -> o_N (su_ops_at oc tm n) u = q /\ numbers_agree n u) -> (List.length l * q)%nat = nc -> nc <> 0%nat ->
  numbers_agree (S n) (inr m) /\ m_N (mm m) = nc.
Proof.
  unfold assemble. destruct (mod_make _ _ _ _ _ _ _ _) as [m0| | |] eqn:E; try discriminate. apply mod_make_N in E.
  intros [= <-] H Hq Hn.
  change (numbers_agree (S n) (inr ?z)) with (m_N (mm z) = k_N (m_cool (mm z)) /\ k_N (m_cool (mm z)) <> 0%nat /\ forall p, In p (ms z) -> numbers_agree n p).
  cbn [mod_setRcontact mod_setSUs inval set_N set_rc set_V mm ms m_series m_rc m_cool m_N m_top numbers_agree]. rewrite E.
  assert (F : fold_left (fun r s => (r + o_N (su_ops_at oc tm n) s)%nat) (map adopt l) 0%nat = nc).
  { rewrite (fold_N _ _ q).
    - rewrite map_length. exact Hq.
    - intros x Hx. apply in_map_iff in Hx as (u & <- & Hu). rewrite adopt_N. apply H, Hu. }
  rewrite F. repeat split; auto. intros p Hp. apply in_map_iff in Hp as (u & <- & Hu). apply adopt_agree, H, Hu.
Qed.
Lemma times_ok {T} (f : nat -> G -> res (T * G)) (P : T -> Prop) : (forall i g t g', f i g = Ok (t, g') -> P t) ->
  forall n i g l g', times n i f g = Ok (l, g') -> List.length l = n /\ forall t, In t l -> P t.
Proof.
  intros H. induction n as [|n IH]; intros i g l g' E; cbn [times] in E.
  - injection E as <- _. split; [reflexivity|]. intros t [].
  - destruct (f i g) as [[t g1]| | |] eqn:F; try discriminate. cbn [rbind] in E.
    destruct (times n (S i) f g1) as [[l1 g2]| | |] eqn:X; try discriminate. injection E as <- _.
    destruct (IH _ _ _ _ X) as [L P1]. split; [cbn; lia|]. intros z [<-|Hz]; [eapply H; eauto|auto].
Qed.
Lemma prodn_pos (ls : list (level A)) : Forall (fun v => v_n v <> 0%nat) ls -> prodn ls <> 0%nat.
Proof. induction 1; cbn [prodn fold_right] in *; [lia|]. unfold prodn in IHForall. nia. Qed.
Lemma stack_agree f ctrl ls : Forall (fun v => v_n v <> 0%nat) ls -> forall i g u g', stack dc dr dd mk oc tm f ctrl ls i g = Ok (u, g') ->
  o_N (su_ops_at oc tm (List.length ls)) u = prodn ls /\ numbers_agree (List.length ls) u.
Proof.
  intros HF. pose proof (prodn_pos _ HF) as HP. revert HP. induction HF as [|v ls Hv HF IH]; intros HP i g u g' E; cbn [stack] in E.
  - destruct (factors _ _ _ _ _) as [[[[a b] c] d] g1]. destruct (mk _ _ _ _ _) as [x| | |]; try discriminate. injection E as <- _.
    split; [apply one|exact Logic.I].
  - destruct (times (v_n v) 0 _ g) as [[l g1]| | |] eqn:T; try discriminate. cbn [rbind] in E.
    destruct (assemble _ _ _ _ _ l) as [m| | |] eqn:X; try discriminate. injection E as <- _.
    assert (prodn ls <> 0%nat) as HP' by (apply prodn_pos; exact HF).
    destruct (times_ok _ (fun u => o_N (su_ops_at oc tm (List.length ls)) u = prodn ls /\ numbers_agree (List.length ls) u)
                (fun i g t g' E => IH HP' i g t g' E) _ _ _ _ _ T) as [L H].
    destruct (assemble_agree _ _ _ _ _ _ (prodn ls) X H) as [S1 S2].
    + rewrite L. reflexivity.
    + exact HP.
    + split; [exact S2|exact S1].
Qed.
End Agree.

Theorem C71_factories : forall (A : Type) (NA : Num A) G (dc dr dd : G -> A * G) C (mk : string -> A -> A -> A -> A -> res C) oc tm f ctrl top ls g b g' m k,
  (forall x, o_N oc x = 1%nat) -> Forall (fun v => v_n v <> 0%nat) (top :: ls) ->
  pack dc dr dd mk oc tm f ctrl top ls g = Ok (b, g') -> bt_body b = Some (m, k) ->
  store_visits 1 (batt_visits (List.length ls) (prodn (top :: ls)) m k) = (leaves (mlayout (view (List.length ls)) m), Ok tt).
Proof.
  intros A NA G dc dr dd C mk oc tm f ctrl top ls g b g' m k one HF E Hb. pose proof (prodn_pos _ HF) as HP.
  inversion HF as [|? ? Ht HF']; subst. unfold pack in E.
  destruct (times (v_n top) 0 _ g) as [[l g1]| | |] eqn:T; try discriminate. cbn [rbind] in E.
  destruct (assemble _ _ _ _ _ l) as [m0| | |] eqn:X; try discriminate. cbn [rbind] in E.
  destruct (times_ok _ _ (fun i g t g' E => stack_agree dc dr dd mk oc tm one f ctrl ls HF' i g t g' E) _ _ _ _ _ T) as [L H].
  destruct (assemble_agree oc tm _ _ _ _ _ _ (prodn ls) X H) as [S1 S2]; [rewrite L; reflexivity|exact HP|].
  destruct (batt_setModule _ _ m0 batt_make) as [b0 [[]| | |]] eqn:B; try discriminate. injection E as <- _.
  assert (ms m = ms m0 /\ m_N (mm m) = m_N (mm m0) /\ m_cool (mm m) = m_cool (mm m0) /\ k_N k = m_N (mm m0)) as (M1 & M2 & M3 & HK).
  { unfold batt_setModule in B. revert B Hb. generalize m0. clear. intros m0 B Hb.
    destruct (negb (m_top (mm m0))); [discriminate|].
    assert (forall q, k_N (hvac_make (Z.to_nat (Z.of_nat (m_N (mm m0)) * 1 * 1)) (k_ctrl (m_cool (mm m0))) q) = m_N (mm m0)) as N1.
    { intros q. change (k_N (hvac_make ?z ?c q)) with z. lia. }
    destruct (k_kind (m_cool (mm m0))); try discriminate; cbn [batt_make bt_body] in B;
      (destruct (conv_losses _ _ _) as [q| | |]; try discriminate; injection B as <-; cbn [bt_body] in Hb; injection Hb as <- <-;
       repeat split; apply N1). }
  assert (numbers_agree (S (List.length ls)) (inr m)) as S1'.
  { change (numbers_agree (S (List.length ls)) (inr ?z)) with (m_N (mm z) = k_N (m_cool (mm z)) /\ k_N (m_cool (mm z)) <> 0%nat /\ forall p, In p (ms z) -> numbers_agree (List.length ls) p) in *.
    rewrite M1, M2, M3. exact S1. }
  unfold batt_visits. change (mvisits (visits (List.length ls)) m) with (visits (S (List.length ls)) (inr m : su A C (S (List.length ls)))).
  rewrite store_visits_app. destruct (C71_tree A NA C 1 (S (List.length ls)) (inr m)) as [T1 _].
  rewrite T1 by (right; exact S1'). cbn [store_visits]. unfold store_check. rewrite HK, S2, Nat.eqb_refl. cbn [negb Z.eqb Pos.eqb].
  destruct (Nat.eqb_spec (prodn (top :: ls)) 0); [contradiction|]. rewrite app_nil_r. reflexivity.
Qed.

(** Not vacuous: a fresh system of two cells exchanges heat for 2 s, stores, exchanges again and writes; the hypotheses of
    [C71_periods] hold and one sample is stored. *)
Example C71_inhabited :
  unused (cool_make 2 1) /\
  exists x, cevents_do 1 2 [EExchange 6 6 2; EStore; EControl 300 300; EExchange 1 1 1; EWrite] (record_make 1 (cool_make 2 1)) = (x, Ok tt) /\
    u_Qevac_life (k_cum (r_cool x)) = 7 /\ u_Qevac (k_cum (r_cool x)) = 1.
Proof.
  assert (forall lo hi y, lo < hi -> lo <= y <= hi -> exists h', hist_add (hist_make lo hi 100) y = Ok h') as Add.
  { intros lo hi y Hlo Hy.
    destruct (hist_adds_spec lo hi 100 Hlo ltac:(lia) [y] (hist_make lo hi 100)) as (h' & E & _);
      [reflexivity|reflexivity|unfold hist_make; cbn [h_dx nsub ndiv RNum]; now rewrite R_nnat|unfold hist_make; cbn [h_bins]; now rewrite repeat_length| |].
    - constructor; [|constructor]. unfold UtilSpec.castable.
      assert (0 <= (y - lo) / ((hi - lo) / INR 100) <= 100) as B.
      { replace ((y - lo) / ((hi - lo) / INR 100)) with ((y - lo) / (hi - lo) * INR 100) by (rewrite INR_IZR_INZ; cbn; field; lra).
        assert (0 <= (y - lo) / (hi - lo) <= 1) as B1.
        { split; [apply Rmult_le_pos; [lra|left; apply Rinv_0_lt_compat; lra]|].
          apply (Rmult_le_reg_r (hi - lo)); [lra|]. unfold Rdiv. rewrite Rmult_assoc, Rinv_l; lra. }
        rewrite INR_IZR_INZ. cbn [Z.of_nat Pos.of_succ_nat Pos.succ]. lra. }
      lra.
    - cbn [hist_adds rbind] in E. destruct (hist_add _ y) as [h| | |] eqn:A; try discriminate. eauto. }
  split; [split; reflexivity|].
  set (k0 := cool_make 2 1). cbn [cevents_do cevent_do].
  assert (k_kind k0 = CBase) as K by reflexivity.
  set (E := (fan_power k0 * 2)%num).
  set (k1 := with_cum k0 (cum_add cum0 6 6 2 E E)).
  assert (on_cool (cool_dstate 6 6 2) (record_make 1 k0) = (mkCr k1 (data_init 1) (hvac_init 1), Ok tt)) as -> by reflexivity.
  cbv beta iota.
  assert (exists d, cool_store 1 2 (mkCr k1 (data_init 1) (hvac_init 1)) = (mkCr (with_period k1 (nZ 0) (nZ 0) (nZ 0)) d (hvac_init 1), Ok tt) /\ exists a b c d', d = THist a b c d') as (d & -> & a & b & c & d' & ->).
  { unfold cool_store. change (store_check 1 2 (r_cool (mkCr k1 (data_init 1) (hvac_init 1)))) with (@Ok unit tt). cbv beta iota.
    change (k_kind (r_cool (mkCr k1 (data_init 1) (hvac_init 1)))) with (@CBase R). cbv beta iota.
    unfold data_store. cbn [r_cool r_data r_hvac].
    change (u_time (k_cum k1)) with (nZ 0 + 2). change (u_Qevac (k_cum k1)) with (nZ 0 + 6). change (u_E (k_cum k1)) with (nZ 0 + E).
    change (k_N k1) with 2%nat. change (k_flow k1) with (flowrate_perCell * nnat 2)%num. change (k_T k1) with (@T_ENV R _).
    replace (neqb (nZ 0 + 2) (nZ 0)) with false by (symmetry; apply Reqb_false; rewrite R_nZ; lra).
    assert (@nnat R _ 2 = 2) as N2 by (rewrite R_nnat; cbn; lra).
    assert (E = 98 / 100) as HE.
    { unfold E, fan_power. rewrite K. change (k_flow k0) with (flowrate_perCell * nnat 2)%num.
      change (k_Across k0) with (nlit 25 1000000 * nnat 2)%num. change (k_rho k0) with (@nlit R _ 1225 1000). change (k_eta k0) with (@nlit R _ 1 2).
      rewrite N2. unfold flowrate_perCell. rewrite !R_nlit, R_nZ. cbn [nmul ndiv RNum]. field. }
    unfold data_init. cbn [Z.eqb Pos.eqb]. unfold DATASTORE_NHIST.
    match goal with |- context [hist_add (hist_make ?lo ?hi 100) ?y] => destruct (Add lo hi y) as (h1 & H1) end.
    { rewrite R_nZ. unfold per_cell_Across, flowrate_perCell. cbn. lra. }
    { rewrite !R_nZ, N2, HE. unfold per_cell_Across, flowrate_perCell. cbn. lra. }
    rewrite H1.
    match goal with |- context [hist_add (hist_make ?lo ?hi 100) ?y] => destruct (Add lo hi y) as (h2 & H2) end.
    { unfold degC. rewrite !R_nZ. cbn. lra. }
    { unfold T_ENV, degC. rewrite !R_nZ. cbn. lra. }
    rewrite H2.
    match goal with |- context [hist_add (hist_make ?lo ?hi 100) ?y] => destruct (Add lo hi y) as (h3 & H3) end.
    { rewrite !R_nZ. lra. }
    { rewrite !R_nZ, N2. cbn. lra. }
    rewrite H3.
    match goal with |- context [hist_add (hist_make ?lo ?hi 100) ?y] => destruct (Add lo hi y) as (h4 & H4) end.
    { rewrite !R_nZ. unfold flowrate_perCell. cbn. lra. }
    { rewrite !R_nZ, N2. unfold flowrate_perCell. cbn. lra. }
    rewrite H4. eexists. split; [reflexivity|]. eauto. }
  cbv beta iota. eexists. split; [reflexivity|]. cbn [fst cool_write r_data r_cool].
  split; cbn -[nZ]; rewrite ?R_nZ; lra.
Qed.

Print Assumptions C71_periods.
Print Assumptions C71_tree.
Print Assumptions C71_factories.
Print Assumptions C71_hvac_sample.
Print Assumptions C71_rows.
