(** * C10, C38, C62: copies, names and ownership of storage units *)
From Coq Require Import List String Ascii Lia.
From Verif Require Import Base ObjModel ObjSpec ObjProofs ObjProofs2.
Import ListNotations.

(** ** C10 *)

(** A copy of a unit (with all its parts) is alike in every member, lives in memory of its own, and whatever is then done to
    the parts of either, in any order, each is what its own operations make of it. Missing for C10: the identifiers of the
    parts, see below. *)
Theorem C10_independent_partial : forall (X : Type) (h : heap X) (t : pic X) (fuel : nat),
  describes h t -> NoDup (refs t) -> height t <= fuel ->
  exists h' t', copy fuel h (p_ref t) = Ok (h', p_ref t') /\ alike t t' /\
    (forall r, In r (refs t) -> ~ In r (refs t')) /\
    (forall r o, get h r = Some o -> get h' r = Some o) /\
    forall ops, let h2 := run2 (p_ref t) (p_ref t') ops h' in
      describes h2 (changes (ops_of false ops) t) /\ describes h2 (changes (ops_of true ops) t').
Proof.
  intros X h t fuel D N H. destruct (copy_spec t fuel h D H) as (h' & t' & E & Dt' & A & (e & ->) & Fr & N'). exists (h ++ e), t'.
  assert (Dis : forall r, In r (refs t) -> ~ In r (refs t')).
  { intros r Hr Hr'. pose proof (describes_lt _ _ D) as L. rewrite Forall_forall in L, Fr. specialize (L r Hr). specialize (Fr r Hr'). lia. }
  split; [exact E|]. split; [exact A|]. split; [exact Dis|]. split; [intros; now apply get_app|].
  intros ops. apply run2_spec; auto. now apply describes_app.
Qed.
Print Assumptions C10_independent_partial.
(** The same operations make the same of the copy as of the original. *)
Theorem C10_same_behaviour : forall (X : Type) (t t' : pic X) (ops : list (list nat * (X -> X))), alike t t' -> alike (changes ops t) (changes ops t').
Proof. intros. now apply alike_changes. Qed.
Print Assumptions C10_same_behaviour.

(** A module with two cells, as made by the constructors and [setSUs]. *)
Definition two_cells : heap nat :=
  let h := fst (new [] "mod"%string None 0 0) in
  let h := fst (new h "a"%string None 1 7) in
  let h := fst (new h "b"%string None 1 8) in
  fst (setSUs 3 true h 0 (Held [1; 2])).
Definition two_pic : pic nat := Unit 0 "mod"%string [0%Z; 0%Z] 2 0 [Unit 1 "a"%string [] 1 7 []; Unit 2 "b"%string [] 1 8 []].
Example C10_inhabited : describes two_cells two_pic /\ NoDup (refs two_pic) /\ height two_pic <= 3 /\
  exists h', copy 3 two_cells 0 = Ok (h', 5) /\
    run2 0 5 [(true, ([1], fun v => v * 2)); (false, ([0], fun v => v + 1))] h' <> h'.
Proof.
  split; [|split; [|split]].
  - econstructor; [reflexivity|]. constructor; [econstructor; [reflexivity|constructor]|]. constructor; [econstructor; [reflexivity|constructor]|constructor].
  - repeat constructor; cbn; intuition discriminate.
  - cbn. lia.
  - eexists. split; [reflexivity|]. cbn. discriminate.
Qed.

(** The identifiers of the copy's parts are not those of the copy: after renaming the copy, its cells still carry the name of
    the original; and once the original is gone, asking for them is undefined. *)
Theorem C10_identifiers_refuted : exists (h h' h'' : heap nat) (c k : nat),
  describes h two_pic /\ copy 3 h 0 = Ok (h', c) /\ follow h' c [0] = Some k /\
  full_id 3 (rename h' c [] "copy"%string) c = Ok "copy"%string /\
  full_id 3 (rename h' c [] "copy"%string) k = Ok "mod_a"%string /\
  destroy 3 h' 0 = Ok h'' /\ full_id 3 h'' k = UB.
Proof.
  exists two_cells. do 2 eexists. exists 5, 3. split; [apply C10_inhabited|]. split; [reflexivity|]. split; [reflexivity|]. split; [reflexivity|].
  split; [reflexivity|]. split; reflexivity.
Qed.
Print Assumptions C10_identifiers_refuted.

(** ** C38 *)

(** In a unit whose parent pointers are as [setSUs] sets them, every part's full name spells the way from the root ... *)
Theorem C38_path : forall (X : Type) (h : heap X) (t : pic X) (names : list string) (k fuel : nat),
  describes h t -> linked h None t -> part_of t names k -> List.length names <= fuel -> full_id fuel h k = Ok (path_name names).
Proof.
  intros X h t names k fuel D L P Hf. replace fuel with (List.length names + (fuel - List.length names)) by lia.
  rewrite (part_name h t None names k L D P [] (fuel - List.length names) eq_refl). reflexivity.
Qed.
Print Assumptions C38_path.
(** ... and if siblings have different names, none of which contains the separator, then different parts have different full
    names. *)
Theorem C38_unique : forall (X : Type) (h : heap X) (t : pic X) (names names' : list string) (k k' fuel : nat),
  describes h t -> linked h None t -> distinct_names t -> part_of t names k -> part_of t names' k' ->
  List.length names <= fuel -> List.length names' <= fuel -> full_id fuel h k = full_id fuel h k' -> names = names' /\ k = k'.
Proof.
  intros X h t names names' k k' fuel D L DN P P' H H' E. rewrite (C38_path _ _ _ _ _ _ D L P H), (C38_path _ _ _ _ _ _ D L P' H') in E.
  injection E as E. apply path_name_inj in E; try (eapply part_nonempty; eassumption); try (eapply part_names_ok; eassumption).
  split; [exact E|]. subst names'. eapply part_unique; eassumption.
Qed.
Print Assumptions C38_unique.
Example C38_inhabited : linked two_cells None two_pic /\ distinct_names two_pic /\ part_of two_pic ["mod"; "b"]%string 2 /\
  full_id 2 two_cells 2 = Ok "mod_b"%string.
Proof.
  split; [|split; [|split]].
  - econstructor; [reflexivity|reflexivity|]. constructor; [econstructor; [reflexivity|reflexivity|constructor]|]. constructor; [econstructor; [reflexivity|reflexivity|constructor]|constructor].
  - assert (S : forall s, existsb (Ascii.eqb "_") (list_ascii_of_string s) = false -> no_separator s).
    { intros s E H. enough (existsb (Ascii.eqb "_") (list_ascii_of_string s) = true) by congruence. apply existsb_exists. exists "_"%char. auto. }
    constructor; [apply S; reflexivity| |].
    + constructor; [cbn; intuition discriminate|]. constructor; [cbn; tauto|constructor].
    + constructor; [|constructor; [|constructor]]; (constructor; [apply S; reflexivity|constructor|constructor]).
  - eapply part_below; [|apply part_self]. cbn. auto.
  - reflexivity.
Qed.
(** Without the condition on the separator names do collide: a child "b" of "m_a" and a grandchild "b" of "m" under "a". *)
Theorem C38_separator_needed : exists (h : heap nat) (k k' : nat) (s : string), k <> k' /\ full_id 9 h k = Ok s /\ full_id 9 h k' = Ok s.
Proof.
  exists (let h := fst (new [] "m"%string None 0 0) in let h := fst (new h "a"%string None 0 0) in let h := fst (new h "b"%string None 1 0) in
          let h := fst (new h "a_b"%string None 1 0) in let h := fst (setSUs 9 true h 1 (Held [2])) in fst (setSUs 9 true h 0 (Held [1; 3]))).
  exists 2, 3, "m_a_b"%string. split; [discriminate|]. split; reflexivity.
Qed.

(** ** C62 *)

(** Success: the module holds exactly the given units, in order, each of which was free (or already said to be this
    module's) and now has the module as parent and is otherwise unchanged; one contact resistance each; the cells are
    counted; no other unit changes, and those that disappear are former parts of the module. Ownership stays unique. *)
Theorem C62_taken : forall (X : Type) (fuel : nat) (print : bool) (h h' : heap X) (m : nat) (l : list nat),
  owned h -> loose h l -> ~ In m l -> setSUs fuel print h m (Held l) = (h', Ok tt) ->
  owned h' /\
  (exists om om', get h m = Some om /\ get h' m = Some om' /\ b_kids om' = map Some l /\ b_rc om' = map (fun _ => 0%Z) l /\
     b_N om' = list_sum (map (fun u => match get h u with Some o => b_N o | None => 0 end) l) /\
     b_id om' = b_id om /\ b_parent om' = b_parent om /\ b_val om' = b_val om) /\
  (forall u, In u l -> exists o, get h u = Some o /\ (b_parent o = None \/ b_parent o = Some m) /\
     get h' u = Some (mkObj (b_id o) (Some m) (b_kids o) (b_rc o) (b_N o) (b_val o))) /\
  (forall r o, r <> m -> ~ In r l -> get h' r = Some o -> get h r = Some o) /\
  (forall r o, get h r = Some o -> get h' r = None -> exists k, holds h k r /\ (k = m \/ get h' k = None)).
Proof. intros X fuel print h h' m l O L N E. exact (setSUs_held_ok fuel print h m l h' O L N E). Qed.
Print Assumptions C62_taken.
(** Refusal: [throw 10], nothing has changed, and one of the units belongs to another module. *)
Theorem C62_refused : forall (X : Type) (fuel : nat) (print : bool) (h h' : heap X) (m : nat) (l : list nat) (n : Z),
  setSUs fuel print h m (Held l) = (h', Throw n) -> h' = h /\ n = 10%Z /\ exists u, In u l /\ foreign h m u.
Proof. intros X fuel print h h' m l n E. exact (setSUs_throw fuel print h m l h' n E). Qed.
Print Assumptions C62_refused.
(** One of the two happens: a list without foreign units is taken; one with a foreign unit is refused, provided the message
    about it can be printed. Missing for C62: a module without parent cannot print it, see below. *)
Theorem C62_decides_partial : forall (X : Type) (fuel : nat) (print : bool) (h : heap X) (m : nat) (l : list nat) (om : obj X) (old : list (pic X)),
  loose h l -> get h m = Some om -> b_kids om = map (fun t => Some (p_ref t)) old ->
  Forall (describes h) old -> NoDup (m :: flat_map refs old) -> (forall u, In u l -> ~ In u (m :: flat_map refs old)) ->
  Forall (fun t => height t <= fuel) old ->
  (print = true -> exists q s, b_parent om = Some q /\ full_id fuel h q = Ok s) ->
  ((forall u, In u l -> ~ foreign h m u) -> exists h', setSUs fuel print h m (Held l) = (h', Ok tt)) /\
  ((exists u, In u l /\ foreign h m u) -> setSUs fuel print h m (Held l) = (h, Throw 10)).
Proof.
  intros X fuel print h m l om old LO Gm Ek D N Dis Hh Hp. split.
  - intros NF. eapply setSUs_held_total; eauto.
  - intros F. unfold setSUs. cbn [items]. rewrite (check_foreign fuel print h m l); [reflexivity| |exact F|].
    + intros u Hu. destruct LO as [_ LO]. apply (LO u Hu).
    + intros Hb. destruct (Hp Hb) as (q & s & P & E). exists om, q, s. auto.
Qed.
Print Assumptions C62_decides_partial.
(** Whatever sequence of constructions and calls, no unit is ever held by two modules, or twice, and its parent is its
    holder. *)
Theorem C62_one_owner : forall (X : Type) (h : heap X), built h ->
  owned h /\ forall m m' u, holds h m u -> holds h m' u -> m = m'.
Proof.
  intros X h B. assert (O : owned h).
  { induction B as [|h id n v B IH|h fuel print m l h' B IH LO Nm E|h fuel print m l h' n B IH LO E].
    - split; intros m; [intros u (o & G & _)|intros o G]; unfold get in G; destruct m; discriminate.
    - assert (Hg : forall r o, get (fst (new h id None n v)) r = Some o -> get h r = Some o \/ b_kids o = []).
      { intros r o G. unfold new in G. cbn in G. unfold get in *. destruct (Nat.lt_trichotomy r (List.length h)) as [Hr|[Hr|Hr]].
        - rewrite nth_error_app1 in G by assumption. auto.
        - subst r. rewrite nth_error_app2, Nat.sub_diag in G by lia. cbn in G. injection G as <-. auto.
        - rewrite nth_error_app2 in G by lia. destruct (r - List.length h) as [|[|k]] eqn:Ek; [lia|discriminate|discriminate]. }
      split.
      + intros m u (o & G & Hin). destruct (Hg m o G) as [G'|K]; [|rewrite K in Hin; destruct Hin].
        destruct (held_linked _ IH m u) as (ou & Gu & Pu); [exists o; auto|]. exists ou. split; [|exact Pu]. unfold new. cbn. now apply get_app.
      + intros m o G. destruct (Hg m o G) as [G'|K]; [exact (held_once _ IH m o G')|rewrite K; constructor].
    - exact (proj1 (C62_taken _ _ _ _ _ _ _ IH LO Nm E)).
    - destruct (C62_refused _ _ _ _ _ _ _ _ E) as [-> _]. exact IH. }
  split; [exact O|]. intros m m' u H H'. destruct (held_linked _ O m u H) as (o & G & P). destruct (held_linked _ O m' u H') as (o' & G' & P'). congruence.
Qed.
Print Assumptions C62_one_owner.
Lemma nothing_held (h : heap nat) : forallb (fun o => match o with Some o => match b_kids o with [] => true | _ => false end | None => true end) h = true ->
  forall m u, ~ holds h m u.
Proof.
  intros F m u (o & G & Hin). unfold get in G. destruct (nth_error h m) as [[o'|]|] eqn:E; try discriminate. injection G as ->.
  rewrite forallb_forall in F. specialize (F _ (nth_error_In _ _ E)). cbn in F. destruct (b_kids o); [destruct Hin|discriminate].
Qed.
Example C62_inhabited : built two_cells /\ holds two_cells 0 2.
Proof.
  split; [|eexists; split; [reflexivity|cbn; auto]].
  eapply (built_set (fst (new (fst (new (fst (new [] "mod"%string None 0 0)) "a"%string None 1 7)) "b"%string None 1 8)) 3 true 0 [1; 2]).
  - do 3 apply built_new. constructor.
  - split; [repeat constructor; cbn; intuition discriminate|]. intros u [<-|[<-|[]]]; (split; [eexists; reflexivity|refine (fun m => nothing_held _ _ m _); reflexivity]).
  - cbn. intuition discriminate.
  - reflexivity.
Qed.
(** A third unit, taken by another module with a parent, is refused; the hypotheses of the decision theorem hold. *)
Example C62_decides_inhabited : exists (h : heap nat) om, loose h [3] /\ get h 0 = Some om /\ b_kids om = map (fun t => Some (p_ref t)) (p_parts two_pic) /\
  Forall (describes h) (p_parts two_pic) /\ exists h', setSUs 3 true h 0 (Held [3]) = (h', Ok tt) /\ get h' 1 = None.
Proof.
  exists (fst (new two_cells "c"%string None 1 9)). eexists. split; [|split; [reflexivity|split; [reflexivity|split]]].
  - split; [repeat constructor; cbn; tauto|]. intros u [<-|[]]. split; [eexists; reflexivity|]. intros m (o & G & Hin).
    destruct m as [|[|[|[|[|m]]]]]; cbn in G; try (injection G as <-; cbn in Hin; intuition discriminate); discriminate.
  - constructor; [econstructor; [reflexivity|constructor]|]. constructor; [econstructor; [reflexivity|constructor]|constructor].
  - eexists. split; reflexivity.
Qed.

(** *** Where C62 fails *)
(** A foreign unit handed to a module that has itself no parent: the message dereferences a null pointer (the program prints
    critical errors by default, settings.hpp). *)
Theorem C62_message_refuted : exists (h : heap nat) (m u : nat), built h /\ (exists o, get h m = Some o /\ b_parent o = None) /\ foreign h m u /\
  setSUs 9 true h m (Held [u]) = (h, UB).
Proof.
  exists (fst (new two_cells "other"%string None 0 0)), 3, 2. split; [apply built_new, C62_inhabited|]. split; [eexists; split; reflexivity|].
  split; [eexists; exists 0; split; [reflexivity|split; [reflexivity|discriminate]]|]. reflexivity.
Qed.
Print Assumptions C62_message_refuted.
(** Units of a copied module are not protected: their parent is the original, so the original may take them, and the copy is
    left with null pointers. *)
Theorem C62_copy_refuted : exists (h h' : heap nat) (c : nat) (oc : obj nat),
  copy 9 two_cells 0 = Ok (h, c) /\ holds h c 3 /\ setSUs 9 true h 0 (Kids_of c) = (h', Ok tt) /\ get h' c = Some oc /\ b_kids oc = [None; None].
Proof. do 2 eexists. exists 5. eexists. split; [reflexivity|]. split; [eexists; split; [reflexivity|cbn; auto]|]. split; [reflexivity|]. split; reflexivity. Qed.
Print Assumptions C62_copy_refuted.
(** A module handed its own child vector destroys its units and then uses them. *)
Theorem C62_own_units_refuted : snd (setSUs 9 true two_cells 0 (Kids_of 0)) = UB.
Proof. reflexivity. Qed.
(** A unit that has been destroyed can be neither copied nor destroyed again: both are undefined, whatever else is alive. *)
Theorem C62_dead_refuted : forall (X : Type) (h h' : heap X) (u fuel fuel' : nat), destroy fuel h u = Ok h' ->
  copy fuel' h' u = UB /\ destroy fuel' h' u = UB.
Proof.
  intros X h h' u fuel fuel' E.
  assert (G : get h' u = None).
  { destruct fuel as [|f]; cbn [destroy] in E; destruct (get h u) as [o|] eqn:Eo; try discriminate.
    destruct (destroy_kids (destroy f) h (b_kids o)) as [h1| | |]; try discriminate. injection E as <-.
    destruct (get h1 u) eqn:E1; [eapply get_set_same; eassumption|]. unfold get, set in *. rewrite nth_list_set.
    destruct (_ && _)%bool; [reflexivity|exact E1]. }
  split; destruct fuel'; cbn [copy destroy]; rewrite G; reflexivity.
Qed.
Print Assumptions C62_dead_refuted.
(** Destroying a module of two cells, for instance. *)
Example C62_dead_inhabited : exists h', destroy 9 two_cells 0 = Ok h' /\ get h' 1 = None /\ get h' 2 = None.
Proof. eexists. split; [reflexivity|]. split; reflexivity. Qed.
