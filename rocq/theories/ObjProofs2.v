(** * Proofs about ownership: destroying and taking units *)
From Coq Require Import List String Ascii Lia FinFun.
From Verif Require Import Base ObjModel ObjSpec ObjProofs.
Import ListNotations.

Section Own.
Context {X : Type}.
Implicit Types (h : heap X) (t : pic X).

(** *** Destroying *)
(** [h'] is [h] without some objects, each of which was in [ks] or held by one of them. *)
Definition less (h : heap X) (ks : list (option nat)) (h' : heap X) : Prop :=
  (forall r o, get h' r = Some o -> get h r = Some o) /\
  (forall r o, get h r = Some o -> get h' r = None -> In (Some r) ks \/ exists m, holds h m r /\ get h' m = None).
Lemma less_refl h ks : less h ks h.
Proof. split; [auto|]. intros; congruence. Qed.
Lemma less_trans h ks h1 ks1 h2 : less h ks h1 -> less h1 ks1 h2 -> incl ks1 ks -> less h ks h2.
Proof.
  intros (A1 & B1) (A2 & B2) I. split; [auto|]. intros r o G N. destruct (get h1 r) as [o1|] eqn:E.
  - destruct (B2 _ _ E N) as [Hin|(m & (om & Gm & Im) & Nm)]; [left; auto|]. right. exists m. split; [|assumption]. exists om. auto.
  - destruct (B1 _ _ G E) as [Hin|(m & Hm & Nm)]; [auto|]. right. exists m. split; [assumption|].
    destruct (get h2 m) eqn:E2; [|reflexivity]. apply A2 in E2. congruence.
Qed.
Lemma destroy_kids_less (ds : heap X -> nat -> res (heap X)) : (forall h r h', ds h r = Ok h' -> less h [Some r] h') ->
  forall ks h h', destroy_kids ds h ks = Ok h' -> less h ks h'.
Proof.
  intros Hd. induction ks as [|[k|] ks IH]; intros h h' E; cbn in E.
  - injection E as <-. apply less_refl.
  - destruct (ds h k) as [h1| | |] eqn:Ek; cbn in E; try discriminate. apply Hd in Ek. apply IH in E.
    eapply less_trans; [|exact E|intros x Hx; now right]. destruct Ek as [A B]. split; [exact A|]. intros r o G N. destruct (B r o G N) as [[H|[]]|H]; [left; now left|auto].
  - apply IH in E. destruct E as [A B]. split; [exact A|]. intros r o G N. destruct (B r o G N) as [H|H]; [left; now right|auto].
Qed.
Lemma destroy_less : forall fuel h r h', destroy fuel h r = Ok h' -> less h [Some r] h' /\ get h' r = None.
Proof.
  induction fuel as [|f IH]; intros h r h' E; cbn in E; (destruct (get h r) as [o|] eqn:G; [|discriminate]); [discriminate|].
  destruct (destroy_kids (destroy f) h (b_kids o)) as [h1| | |] eqn:Ek; cbn in E; try discriminate. injection E as <-.
  apply destroy_kids_less in Ek; [|intros; now apply IH]. destruct Ek as [A B].
  assert (Gr : get (set h1 r None) r = None).
  { destruct (get h1 r) eqn:E1; [eapply get_set_same; eassumption|]. unfold get, set in *. rewrite nth_list_set.
    destruct (Nat.eqb r r && Nat.ltb r (List.length h1)); [reflexivity|exact E1]. }
  split; [|exact Gr]. split.
  - intros k o' H. destruct (Nat.eq_dec k r) as [->|N]; [congruence|]. rewrite get_set_other in H by assumption. auto.
  - intros k o' Gk Nk. destruct (Nat.eq_dec k r) as [->|N]; [left; now left|]. rewrite get_set_other in Nk by assumption.
    right. destruct (B k o' Gk Nk) as [Hin|(m & Hm & Nm)].
    + exists r. split; [exists o; auto|exact Gr].
    + exists m. split; [exact Hm|]. destruct (Nat.eq_dec m r) as [->|Nmr]; [exact Gr|]. now rewrite get_set_other.
Qed.
Lemma destroy_all_less fuel ks h h' : destroy_kids (destroy fuel) h ks = Ok h' -> less h ks h'.
Proof. apply destroy_kids_less. intros. now apply (destroy_less fuel). Qed.

Lemma nodup_split {B} (a b : list B) : NoDup (a ++ b) -> NoDup a /\ NoDup b.
Proof.
  induction a as [|x a IH]; cbn; intros N; [split; [constructor|exact N]|]. inversion N as [|? ? N1 N2]; subst. destruct (IH N2) as [A C].
  split; [|exact C]. constructor; [|exact A]. intros H. apply N1, in_app_iff. auto.
Qed.
(** A well-described unit can be destroyed, and only its parts go. *)
Lemma destroy_kids_described f : forall l h,
  (forall t, In t l -> forall h, describes h t -> NoDup (refs t) -> exists h', destroy f h (p_ref t) = Ok h' /\ forall r, ~ In r (refs t) -> get h' r = get h r) ->
  Forall (describes h) l -> NoDup (flat_map refs l) ->
  exists h', destroy_kids (destroy f) h (map (fun t => Some (p_ref t)) l) = Ok h' /\ forall r, ~ In r (flat_map refs l) -> get h' r = get h r.
Proof.
  induction l as [|t l IH]; intros h Ht D N; cbn.
  - exists h. auto.
  - cbn in N. destruct (nodup_split _ _ N) as [Nt Nl].
    inversion D as [|? ? Dt Dl]; subst. destruct (Ht t (or_introl eq_refl) h Dt Nt) as (h1 & E1 & F1). rewrite E1. cbn.
    destruct (IH h1) as (h2 & E2 & F2); [intros; apply Ht; auto; now right| |exact Nl|].
    + rewrite Forall_forall in *. intros x Hx. eapply describes_ext; [|exact (Dl x Hx)]. intros r Hr. apply F1. intros Hr'.
      assert (In r (flat_map refs l)) by (apply in_flat_map; eauto). clear - N Hr' H. induction (refs t) as [|a b IHb]; [destruct Hr'|].
      cbn in N. inversion N as [|? ? N1 N2]; subst. destruct Hr' as [->|Hr']; [apply N1, in_app_iff; auto|auto].
    + exists h2. split; [exact E2|]. intros r Hr. rewrite in_app_iff in Hr. rewrite F2 by tauto. apply F1. tauto.
Qed.
Lemma destroy_described : forall f t h, height t <= f -> describes h t -> NoDup (refs t) ->
  exists h', destroy f h (p_ref t) = Ok h' /\ forall r, ~ In r (refs t) -> get h' r = get h r.
Proof.
  induction f as [|f IH]; intros [r s rc n v l] h Hh D N; [cbn in Hh; lia|]. inversion D as [r0 s0 p rc0 n0 v0 l0 G F]; subst. cbn. rewrite G. cbn [b_kids].
  cbn in N. inversion N as [|? ? N1 N2]; subst. destruct (destroy_kids_described f l h) as (h1 & E1 & F1); [|exact F|exact N2|].
  - intros t Ht h0 D0 N0. apply IH; auto. cbn in Hh. apply le_S_n in Hh. etransitivity; [|exact Hh]. clear - Ht. induction l as [|a l IHl]; [destruct Ht|]. cbn. destruct Ht as [->|Ht]; [lia|]. specialize (IHl Ht). lia.
  - rewrite E1. cbn. eexists. split; [reflexivity|]. intros k Hk. rewrite get_set_other by (intros ->; apply Hk; now left). apply F1. tauto.
Qed.

(** *** Taking *)
Definition cells_of h (l : list nat) : nat := list_sum (map (fun u => match get h u with Some o => b_N o | None => 0 end) l).
Lemma take_spec m : forall l h n h' n', NoDup l -> take h m (map Some l) n = Ok (h', n') ->
  n' = n + cells_of h l /\ (forall r, ~ In r l -> get h' r = get h r) /\
  (forall u, In u l -> exists o, get h u = Some o /\ get h' u = Some (with_parent o (Some m))).
Proof.
  induction l as [|u l IH]; intros h n h' n' N E; cbn in E.
  - injection E as <- <-. cbn. split; [lia|]. split; [auto|]. intros u [].
  - destruct (get h u) as [o|] eqn:G; [|discriminate]. inversion N as [|? ? N1 N2]; subst. apply IH in E; [|exact N2]. destruct E as (E1 & E2 & E3). split; [|split].
    + rewrite E1. assert (cells_of (set h u (Some (with_parent o (Some m)))) l = cells_of h l) as ->.
      { unfold cells_of. f_equal. apply map_ext_in. intros k Hk. rewrite get_set_other; [reflexivity|]. intros ->. contradiction. }
      change (cells_of h (u :: l)) with ((match get h u with Some o => b_N o | None => 0 end) + cells_of h l). rewrite G. lia.
    + intros r Hr. rewrite E2 by (intros H; apply Hr; now right). apply get_set_other. intros ->. apply Hr. now left.
    + intros k [<-|Hk].
      * exists o. split; [exact G|]. rewrite E2 by exact N1. eapply get_set_same. exact G.
      * destruct (E3 k Hk) as (o' & G' & G''). exists o'. split; [|exact G'']. rewrite get_set_other in G'; [exact G'|]. intros ->. contradiction.
Qed.
Lemma take_ok m : forall l h n, (forall u, In u l -> get h u <> None) -> NoDup l -> exists r, take h m (map Some l) n = Ok r.
Proof.
  induction l as [|u l IH]; intros h n Hl N; cbn; [eauto|]. destruct (get h u) as [o|] eqn:G; [|exfalso; apply (Hl u); [now left|exact G]].
  inversion N; subst. apply IH; [|assumption]. intros k Hk. rewrite get_set_other; [apply Hl; now right|]. intros ->. contradiction.
Qed.

(** *** The check *)
Lemma check_ok fuel print h m : forall l, check_parents fuel print h m (map Some l) = Ok tt <->
  forall u, In u l -> exists o, get h u = Some o /\ (b_parent o = None \/ b_parent o = Some m).
Proof.
  induction l as [|u l IH]; cbn.
  - split; [intros _ u []|auto].
  - destruct (get h u) as [o|] eqn:G.
    + destruct (b_parent o) as [p|] eqn:P; [destruct (Nat.eqb_spec p m) as [->|Np]|].
      * rewrite IH. split; intros H; [intros k [<-|Hk]; eauto|intros; apply H; auto].
      * split; [|intros H; destruct (H u (or_introl eq_refl)) as (o' & G' & [Q|Q]); congruence].
        destruct print; [|discriminate]. destruct (get h m) as [om|]; [|discriminate]. destruct (b_parent om); [|discriminate]. destruct (full_id fuel h n); discriminate.
      * rewrite IH. split; intros H; [intros k [<-|Hk]; eauto|intros; apply H; auto].
    + split; [discriminate|]. intros H. destruct (H u (or_introl eq_refl)) as (o & G' & _). congruence.
Qed.
Lemma full_id_throwless h : forall fuel q z, full_id fuel h q <> Throw z.
Proof.
  induction fuel as [|f IH]; intros q z; cbn; (destruct (get h q) as [o|]; [|discriminate]); (destruct (b_parent o) as [p|]; [|discriminate]); [discriminate|].
  destruct (full_id f h p) eqn:E2; cbn; try discriminate. exfalso. eapply IH. exact E2.
Qed.
Lemma check_throw fuel print h m : forall l n, check_parents fuel print h m (map Some l) = Throw n -> n = 10%Z /\ exists u, In u l /\ foreign h m u.
Proof.
  induction l as [|u l IH]; cbn; [discriminate|]. intros n E. destruct (get h u) as [o|] eqn:G; [|discriminate].
  destruct (b_parent o) as [p|] eqn:P; [destruct (Nat.eqb_spec p m) as [->|Np]|].
  - apply IH in E. destruct E as (-> & u' & H & F). split; [reflexivity|]. exists u'. auto.
  - assert (F : foreign h m u) by (exists o, p; auto). split; [|exists u; auto].
    destruct print; [|congruence]. destruct (get h m) as [om|]; [|discriminate]. destruct (b_parent om) as [q|]; [|discriminate].
    destruct (full_id fuel h q) eqn:E'; cbn in E; try discriminate; [congruence|].
    exfalso. eapply full_id_throwless. exact E'.
  - apply IH in E. destruct E as (-> & u' & H & F). split; [reflexivity|]. exists u'. auto.
Qed.
Lemma check_foreign fuel print h m : forall l, (forall u, In u l -> exists o, get h u = Some o) -> (exists u, In u l /\ foreign h m u) ->
  (print = true -> exists om q s, get h m = Some om /\ b_parent om = Some q /\ full_id fuel h q = Ok s) ->
  check_parents fuel print h m (map Some l) = Throw 10.
Proof.
  induction l as [|u l IH]; intros Hl (k & Hk & F) Hp; [destruct Hk|]. cbn. destruct (Hl u (or_introl eq_refl)) as (o & G). rewrite G.
  assert (IHt : (exists u, In u l /\ foreign h m u) -> check_parents fuel print h m (map Some l) = Throw 10) by (intros; apply IH; auto; intros; apply Hl; now right).
  assert (Hcase : (b_parent o = None \/ b_parent o = Some m) -> exists u, In u l /\ foreign h m u).
  { intros C. destruct Hk as [<-|Hk]; [|eauto]. exfalso. destruct F as (o' & p & G' & P & N). destruct C; congruence. }
  destruct (b_parent o) as [p|]; [destruct (Nat.eqb_spec p m) as [->|Np]|]; auto.
  destruct print; [|reflexivity]. destruct (Hp eq_refl) as (om & q & s & -> & -> & ->). reflexivity.
Qed.

(** *** setSUs on pointers held by the caller *)
Lemma take_throwless m : forall l h n z, take h m l n <> Throw z.
Proof. induction l as [|[u|] l IH]; intros h n z; cbn; try discriminate. destruct (get h u); [apply IH|discriminate]. Qed.
Lemma destroy_kids_throwless (ds : heap X -> nat -> res (heap X)) : (forall h r z, ds h r <> Throw z) -> forall ks h z, destroy_kids ds h ks <> Throw z.
Proof.
  intros Hd. induction ks as [|[k|] ks IH]; intros h z; cbn; [discriminate| |apply IH]. destruct (ds h k) eqn:E; cbn; try discriminate; [apply IH|]. exfalso. eapply Hd. exact E.
Qed.
Lemma destroy_throwless : forall fuel h r z, destroy (X := X) fuel h r <> Throw z.
Proof.
  induction fuel as [|f IH]; intros h r z; cbn; (destruct (get h r) as [o|]; [|discriminate]); [discriminate|].
  destruct (destroy_kids (destroy f) h (b_kids o)) eqn:E; cbn; try discriminate. exfalso. eapply destroy_kids_throwless; [|exact E]. exact IH.
Qed.

Lemma setSUs_throw fuel print h m l h' n : setSUs fuel print h m (Held l) = (h', Throw n) -> h' = h /\ n = 10%Z /\ exists u, In u l /\ foreign h m u.
Proof.
  unfold setSUs. cbn [items]. destruct (check_parents fuel print h m (map Some l)) as [[]| | |] eqn:Ec; cbn [recast].
  - destruct (get h m) as [om|]; [|intros E; discriminate]. destruct (destroy_kids (destroy fuel) h (b_kids om)) as [h1| | |] eqn:Ed; cbn [recast]; try (intros E; discriminate).
    + destruct (get h1 m) as [om1|]; [|intros E; discriminate]. cbv zeta.
      destruct (take (set h1 m (Some (with_kids om1 [] [] (b_N om1)))) m (map Some l) 0) as [[h3 k]| | |] eqn:Et; cbn [recast]; try (intros E; discriminate).
      * destruct (get h3 m); intros E; discriminate.
      * exfalso. eapply take_throwless. exact Et.
    + exfalso. eapply destroy_kids_throwless; [|exact Ed]. apply destroy_throwless.
  - intros E. apply pair_equal_spec in E. destruct E as [<- E]. injection E as ->. apply check_throw in Ec. tauto.
  - intros E; discriminate.
  - intros E; discriminate.
Qed.

Lemma setSUs_held_ok fuel print h m l h' : owned h -> loose h l -> ~ In m l -> setSUs fuel print h m (Held l) = (h', Ok tt) ->
  owned h' /\
  (exists om om', get h m = Some om /\ get h' m = Some om' /\ b_kids om' = map Some l /\ b_rc om' = map (fun _ => 0%Z) l /\ b_N om' = cells_of h l /\
     b_id om' = b_id om /\ b_parent om' = b_parent om /\ b_val om' = b_val om) /\
  (forall u, In u l -> exists o, get h u = Some o /\ (b_parent o = None \/ b_parent o = Some m) /\ get h' u = Some (with_parent o (Some m))) /\
  (forall r o, r <> m -> ~ In r l -> get h' r = Some o -> get h r = Some o) /\
  (forall r o, get h r = Some o -> get h' r = None -> exists k, holds h k r /\ (k = m \/ get h' k = None)).
Proof.
  intros OW [ND LO] Nm. unfold setSUs. cbn [items]. destruct (check_parents fuel print h m (map Some l)) as [[]| | |] eqn:Ec; cbn [recast]; try (intros E; discriminate).
  rewrite check_ok in Ec.
  destruct (get h m) as [om|] eqn:Gm; [|intros E; discriminate]. destruct (destroy_kids (destroy fuel) h (b_kids om)) as [h1| | |] eqn:Ed; cbn [recast]; try (intros E; discriminate).
  apply destroy_all_less in Ed. destruct Ed as [LA LB].
  destruct (get h1 m) as [om1|] eqn:G1; [|intros E; discriminate]. cbv zeta.
  assert (om1 = om) as -> by (apply LA in G1; congruence).
  set (h2 := set h1 m (Some (with_kids om [] [] (b_N om)))).
  assert (G2m : get h2 m = Some (with_kids om [] [] (b_N om))) by (eapply get_set_same; exact G1).
  assert (G2o : forall r, r <> m -> get h2 r = get h1 r) by (intros; apply get_set_other; assumption).
  destruct (take h2 m (map Some l) 0) as [[h3 k]| | |] eqn:Et; cbn [recast]; try (intros E; discriminate).
  apply take_spec in Et; [|exact ND]. destruct Et as (T1 & T2 & T3). assert (G3 : get h3 m = Some (with_kids om [] [] (b_N om))) by (rewrite T2; assumption).
  rewrite G3. intros E. apply pair_equal_spec in E. destruct E as [<- _].
  set (fin := Some (with_kids (with_kids om [] [] (b_N om)) (map Some l) (map (fun _ => 0%Z) (map Some l)) k)).
  assert (GFm : get (set h3 m fin) m = fin) by (eapply get_set_same; exact G3).
  assert (GFo : forall r, r <> m -> get (set h3 m fin) r = get h3 r) by (intros; apply get_set_other; assumption).
  assert (Gu : forall u, In u l -> exists o, get h u = Some o /\ get (set h3 m fin) u = Some (with_parent o (Some m))).
  { intros u Hu. destruct (T3 u Hu) as (o & A & B). exists o. assert (u <> m) by congruence. rewrite G2o in A by assumption. split; [auto|]. now rewrite GFo. }
  assert (Old : forall r o, r <> m -> ~ In r l -> get (set h3 m fin) r = Some o -> get h r = Some o).
  { intros r o N1 N2 H. rewrite GFo, T2, G2o in H by assumption. auto. }
  assert (Keep : forall r o, get h r = Some o -> get (set h3 m fin) r = None -> get h1 r = None).
  { intros r o H H'. destruct (Nat.eq_dec r m) as [->|N]; [rewrite GFm in H'; discriminate|]. destruct (in_dec Nat.eq_dec r l) as [Hin|Nin].
    - destruct (Gu r Hin) as (o' & _ & Q). congruence.
    - rewrite GFo, T2, G2o in H' by assumption. exact H'. }
  split; [|split; [|split; [|split]]].
  - split.
    + intros q u (oq & Gq & Hu). destruct (Nat.eq_dec q m) as [->|Nq].
      * rewrite GFm in Gq. injection Gq as <-. cbn in Hu. apply in_map_iff in Hu. destruct Hu as (u' & E & Hu). injection E as ->. destruct (Gu u Hu) as (o & _ & Q). exists (with_parent o (Some m)). auto.
      * assert (exists oq0, get h q = Some oq0 /\ b_kids oq0 = b_kids oq) as (oq0 & Gq0 & Ek).
        { destruct (in_dec Nat.eq_dec q l) as [Hin|Nin]; [|exists oq; split; [eapply Old; eauto|reflexivity]]. destruct (Gu q Hin) as (o & A & B). rewrite B in Gq. injection Gq as <-. exists o. auto. }
        assert (Hh : holds h q u) by (exists oq0; split; [assumption|now rewrite Ek]).
        assert (Nu : ~ In u l) by (intros Hin; destruct (LO u Hin) as [_ Z]; exact (Z q Hh)).
        destruct (held_linked _ OW q u Hh) as (ou & Gou & Pou).
        destruct (Nat.eq_dec u m) as [->|Num].
        -- rewrite GFm. exists (with_kids (with_kids om [] [] (b_N om)) (map Some l) (map (fun _ => 0%Z) (map Some l)) k). split; [reflexivity|]. cbn. congruence.
        -- exists ou. split; [|exact Pou]. rewrite GFo, T2, G2o by assumption. destruct (get h1 u) as [o1|] eqn:E1; [rewrite (LA _ _ E1) in Gou; congruence|].
           exfalso. destruct (LB _ _ Gou E1) as [Hin|(w & Hw & Nw)].
           ++ assert (Hm : holds h m u) by (exists om; auto). destruct (held_linked _ OW m u Hm) as (o' & G' & P'). congruence.
           ++ destruct (held_linked _ OW w u Hw) as (o' & G' & P'). assert (w = q) by congruence. subst w.
              destruct (in_dec Nat.eq_dec q l) as [Hin|Nin]; [destruct (T3 q Hin) as (oz & Gz & _); rewrite G2o in Gz by assumption; congruence|].
              rewrite GFo, T2, G2o in Gq by assumption. congruence.
    + intros q oq Gq. destruct (Nat.eq_dec q m) as [->|Nq].
      * rewrite GFm in Gq. injection Gq as <-. cbn. assert (filter (fun k0 : option nat => match k0 with Some _ => true | None => false end) (map Some l) = map Some l) as -> by (clear; induction l; cbn; congruence).
        apply Injective_map_NoDup; [intros a b Hab; congruence|exact ND].
      * destruct (in_dec Nat.eq_dec q l) as [Hin|Nin].
        -- destruct (Gu q Hin) as (o & A & B). rewrite B in Gq. injection Gq as <-. exact (held_once _ OW q o A).
        -- exact (held_once _ OW q oq (Old q oq Nq Nin Gq)).
  - exists om, (with_kids (with_kids om [] [] (b_N om)) (map Some l) (map (fun _ => 0%Z) (map Some l)) k). split; [reflexivity|]. split; [exact GFm|]. cbn.
    split; [reflexivity|]. split; [now rewrite map_map|]. split; [|auto]. rewrite T1. cbn. unfold cells_of. f_equal. apply map_ext_in. intros u Hu.
    destruct (T3 u Hu) as (o & A & _). rewrite A. assert (u <> m) by congruence. rewrite G2o in A by assumption. now rewrite (LA _ _ A).
  - intros u Hu. destruct (Gu u Hu) as (o & A & B). destruct (Ec u Hu) as (o' & A' & C). exists o. assert (o' = o) by congruence. subst o'. auto.
  - exact Old.
  - intros r o A B. assert (C := Keep r o A B). destruct (LB _ _ A C) as [Hin|(w & Hw & Nw)].
    + exists m. split; [exists om; auto|auto].
    + exists w. split; [exact Hw|]. right. destruct (get (set h3 m fin) w) as [ow|] eqn:Ew; [|reflexivity]. exfalso.
      destruct (Nat.eq_dec w m) as [->|Nwm]; [congruence|]. destruct (in_dec Nat.eq_dec w l) as [Hin|Nin].
      * destruct (T3 w Hin) as (oz & Gz & _). rewrite G2o in Gz by assumption. congruence.
      * rewrite GFo, T2, G2o in Ew by assumption. congruence.
Qed.

(** It does not fail otherwise. *)
Lemma setSUs_held_total fuel print h m l om old : loose h l -> get h m = Some om -> b_kids om = map (fun t => Some (p_ref t)) old ->
  Forall (describes h) old -> NoDup (m :: flat_map refs old) -> (forall u, In u l -> ~ In u (m :: flat_map refs old)) -> Forall (fun t => height t <= fuel) old ->
  (forall u, In u l -> ~ foreign h m u) -> exists h', setSUs fuel print h m (Held l) = (h', Ok tt).
Proof.
  intros [ND LO] Gm Ek D N Dis Hh NF. unfold setSUs. cbn [items].
  assert (check_parents fuel print h m (map Some l) = Ok tt) as ->.
  { apply check_ok. intros u Hu. destruct (LO u Hu) as [(o & G) _]. exists o. split; [exact G|]. destruct (b_parent o) as [p|] eqn:P; [|auto]. right. f_equal.
    destruct (Nat.eq_dec p m); [assumption|]. exfalso. apply (NF u Hu). exists o, p. auto. }
  rewrite Gm, Ek. inversion N as [|? ? N1 N2]; subst. destruct (destroy_kids_described fuel old h) as (h1 & E1 & F1); [|exact D|exact N2|].
  - intros t Ht h0 D0 N0. apply destroy_described; auto. rewrite Forall_forall in Hh. auto.
  - rewrite E1, F1, Gm by exact N1. cbv zeta. set (h2 := set h1 m _). destruct (take_ok m l h2 0) as ([h3 n] & E3); [|exact ND|].
    + intros u Hu. assert (u <> m) by (intros ->; apply (Dis m Hu); now left). unfold h2. rewrite get_set_other by assumption. rewrite F1.
      * destruct (LO u Hu) as [(o & ->) _]. discriminate.
      * intros H'. apply (Dis u Hu). now right.
    + rewrite E3. destruct (take_spec m l h2 0 h3 n ND E3) as (_ & T2 & _). rewrite T2 by (intros H; apply (Dis m H); now left).
      unfold h2. erewrite get_set_same by (rewrite F1 by exact N1; exact Gm). eauto.
Qed.
End Own.
