(** * Proofs about ownership, copies and names *)
From Coq Require Import List String Ascii Lia.
From Verif Require Import Base ObjModel ObjSpec.
Import ListNotations.

Section Proofs.
Context {X : Type}.
Implicit Types (h : heap X) (t : pic X).

Lemma pic_rect' (P : pic X -> Prop) : (forall r s rc n v l, Forall P l -> P (Unit r s rc n v l)) -> forall t, P t.
Proof.
  intros H. fix IH 1. intros [r s rc n v l]. apply H. induction l as [|a l IHl]; constructor; [apply IH|exact IHl].
Qed.

Lemma list_set_length {B} (l : list B) : forall i b, List.length (list_set l i b) = List.length l.
Proof. induction l; intros [|i] b; cbn; auto. Qed.
Lemma nth_list_set {B} (l : list B) : forall i b k, nth_error (list_set l i b) k = if Nat.eqb k i && Nat.ltb i (List.length l) then Some b else nth_error l k.
Proof.
  induction l as [|a l IH]; intros [|i] b [|k]; cbn; try reflexivity.
  - now rewrite Bool.andb_false_r.
  - rewrite IH. reflexivity.
Qed.
Lemma get_lt h r o : get h r = Some o -> r < List.length h.
Proof. unfold get. destruct (nth_error h r) eqn:E; [|discriminate]. intros _. apply nth_error_Some. congruence. Qed.
Lemma get_set_same h r o o' : get h r = Some o' -> get (set h r o) r = o.
Proof. intros H. apply get_lt in H. unfold get, set. rewrite nth_list_set, Nat.eqb_refl. destruct (Nat.ltb_spec r (List.length h)); [|lia]. destruct o; reflexivity. Qed.
Lemma get_set_other h r o k : k <> r -> get (set h r o) k = get h k.
Proof. intros H. unfold get, set. rewrite nth_list_set. destruct (Nat.eqb_spec k r); [contradiction|]. reflexivity. Qed.
Lemma get_app h e r o : get h r = Some o -> get (h ++ e) r = Some o.
Proof. intros H. assert (L := get_lt _ _ _ H). unfold get in *. now rewrite nth_error_app1. Qed.

(** *** Describing *)
Lemma describes_get h t : describes h t -> exists p, get h (p_ref t) = Some (mkObj (p_id t) p (map (fun t => Some (p_ref t)) (p_parts t))
  (let '(Unit _ _ rc _ _ _) := t in rc) (let '(Unit _ _ _ n _ _) := t in n) (p_val t)).
Proof. intros H. inversion H; subst. exists p. cbn. assumption. Qed.
Lemma describes_ext h h' : forall t, (forall r, In r (refs t) -> get h' r = get h r) -> describes h t -> describes h' t.
Proof.
  induction t as [r s rc n v l IH] using pic_rect'. intros E D. inversion D; subst. econstructor.
  - rewrite E by now left. eassumption.
  - rewrite Forall_forall in *. intros x Hx. apply IH; auto. intros k Hk. apply E. right. apply in_flat_map. eauto.
Qed.
Lemma describes_app h e t : describes h t -> describes (h ++ e) t.
Proof.
  revert t. induction t as [r s rc n v l IH] using pic_rect'. intros D. inversion D; subst. econstructor; [eapply get_app; eassumption|].
  rewrite Forall_forall in *. intros x Hx. apply IH; auto.
Qed.
Lemma describes_lt h : forall t, describes h t -> Forall (fun r => r < List.length h) (refs t).
Proof.
  induction t as [r s rc n v l IH] using pic_rect'. intros D. inversion D as [r0 s0 q rc0 n0 v0 l0 G F]; subst. cbn. constructor; [eapply get_lt; eassumption|].
  apply Forall_forall. intros k Hk. apply in_flat_map in Hk. destruct Hk as (x & Hx & Hk). rewrite Forall_forall in *.
  specialize (IH x Hx (F x Hx)). rewrite Forall_forall in IH. auto.
Qed.

(** *** Copying *)
Definition copied (h : heap X) (t : pic X) h' (t' : pic X) : Prop :=
  describes h' t' /\ alike t t' /\ (exists e, h' = h ++ e) /\ Forall (fun r => List.length h <= r) (refs t') /\ NoDup (refs t').
Definition copied_list (h : heap X) (l : list (pic X)) h' (l' : list (pic X)) : Prop :=
  Forall (describes h') l' /\ Forall2 alike l l' /\ (exists e, h' = h ++ e) /\ Forall (fun r => List.length h <= r) (flat_map refs l') /\ NoDup (flat_map refs l').

Lemma NoDup_app_intro {B} (a b : list B) : NoDup a -> NoDup b -> (forall x, In x a -> ~ In x b) -> NoDup (a ++ b).
Proof. induction 1 as [|x a Hx _ IH]; cbn; intros Hb Hd; [exact Hb|]. constructor; [rewrite in_app_iff; intros [H|H]; [auto|exact (Hd x (or_introl eq_refl) H)]|]. apply IH; auto. Qed.
Lemma copy_kids_spec cp : (forall h t, describes h t -> True) -> forall l h,
  (forall t, In t l -> forall h, describes h t -> exists h' t', cp h (p_ref t) = Ok (h', p_ref t') /\ copied h t h' t') ->
  Forall (describes h) l ->
  exists h' l', copy_kids cp h (map (fun t => Some (p_ref t)) l) = Ok (h', map (fun t => Some (p_ref t)) l') /\ copied_list h l h' l'.
Proof.
  intros _. induction l as [|t l IH]; intros h C D.
  - exists h, []. split; [reflexivity|]. repeat split; try constructor. exists []. now rewrite app_nil_r.
  - inversion D as [|? ? D1 D2]; subst. destruct (C t (or_introl eq_refl) h D1) as (h1 & t1 & E1 & G1 & A1 & (e1 & X1) & F1 & N1).
    destruct (IH h1) as (h2 & l2 & E2 & G2 & A2 & (e2 & X2) & F2 & N2).
    + intros x Hx. apply C. now right.
    + subst h1. revert D2. apply Forall_impl. intros a. apply describes_app.
    + exists h2, (t1 :: l2). cbn [map copy_kids]. rewrite E1. cbn [rbind]. rewrite E2. cbn [rmap rbind]. split; [reflexivity|]. subst h1 h2.
      split; [|split; [|split; [|split]]].
      * constructor; [now apply describes_app|exact G2].
      * now constructor.
      * exists (e1 ++ e2). now rewrite app_assoc.
      * cbn. apply Forall_app. split; [exact F1|]. revert F2. apply Forall_impl. intros a. rewrite app_length. lia.
      * cbn. apply NoDup_app_intro; auto. intros x Hx Hy. apply describes_lt in G1. rewrite Forall_forall in G1, F2. specialize (G1 x Hx). specialize (F2 x Hy). lia.
Qed.
Lemma copy_spec : forall t fuel h, describes h t -> height t <= fuel ->
  exists h' t', copy fuel h (p_ref t) = Ok (h', p_ref t') /\ copied h t h' t'.
Proof.
  induction t as [r s rc n v l IH] using pic_rect'. intros [|f] h D Hh; [cbn in Hh; lia|].
  inversion D as [r0 s0 p rc0 n0 v0 l0 G F]; subst. cbn [p_ref copy]. rewrite G.
  destruct (copy_kids_spec (copy f) (fun _ _ _ => I) l h) as (h1 & l1 & E1 & G1 & A1 & (e1 & X1) & F1 & N1); [|exact F|].
  - intros t Ht h0 D0. rewrite Forall_forall in IH. apply (IH t Ht f h0 D0). cbn [height] in Hh.
    assert (M : forall k, In k (map height l) -> k <= fold_right Nat.max 0 (map height l)).
    { clear. induction (map height l) as [|a m IHm]; cbn; [tauto|]. intros k [->|Hk]; [lia|]. specialize (IHm k Hk). lia. }
    specialize (M (height t) (in_map _ _ _ Ht)). lia.
  - cbn [b_kids]. rewrite E1. cbn [rmap rbind b_id b_parent b_rc b_N b_val].
    exists (h1 ++ [Some (mkObj s p (map (fun t => Some (p_ref t)) l1) rc n v)]), (Unit (List.length h1) s rc n v l1).
    split; [reflexivity|]. subst h1. split; [|split; [|split; [|split]]].
    + econstructor.
      * unfold get. rewrite nth_error_app2 by lia. rewrite Nat.sub_diag. reflexivity.
      * revert G1. apply Forall_impl. intros a. apply describes_app.
    + now constructor.
    + exists (e1 ++ [Some (mkObj s p (map (fun t => Some (p_ref t)) l1) rc n v)]). now rewrite app_assoc.
    + cbn [refs]. constructor; [rewrite app_length; lia|exact F1].
    + cbn [refs]. constructor; [|exact N1]. intros H. apply in_flat_map in H. destruct H as (x & Hx & Hk).
      rewrite Forall_forall in G1. specialize (G1 x Hx). apply describes_lt in G1. rewrite Forall_forall in G1. specialize (G1 _ Hk). lia.
Qed.

(** *** Operations on parts *)
Lemma change_ref path f t : p_ref (change path f t) = p_ref t.
Proof. destruct t, path; reflexivity. Qed.
Lemma flat_map_set (l : list (pic X)) : forall i k k', nth_error l i = Some k -> refs k' = refs k -> flat_map refs (list_set l i k') = flat_map refs l.
Proof. induction l as [|a l IH]; intros [|i] k k' H E; cbn in *; try discriminate; [injection H as ->; now rewrite E|]. now rewrite (IH i k k'). Qed.
Lemma change_refs : forall path f t, refs (change path f t) = refs t.
Proof.
  induction path as [|i p IH]; intros f [r s rc n v l]; [reflexivity|]. cbn [change refs]. f_equal. destruct (nth_error l i) eqn:E; [|reflexivity].
  eapply flat_map_set; [exact E|apply IH].
Qed.
Lemma alike_change : forall path f t t', alike t t' -> alike (change path f t) (change path f t').
Proof.
  induction path as [|i p IH]; intros f t t' A; inversion A as [r r' s rc n v l l' F]; subst; [constructor; assumption|].
  cbn [change]. constructor. clear A. revert i. induction F as [|a b l l' Hab F IHF]; intros [|i]; cbn; try constructor; auto.
  specialize (IHF i). destruct (nth_error l i), (nth_error l' i); cbn; (constructor; [exact Hab|exact IHF]).
Qed.
Lemma alike_changes ops : forall t t', alike t t' -> alike (changes ops t) (changes ops t').
Proof. induction ops as [|o ops IH]; intros t t' A; [exact A|]. cbn. apply IH, alike_change, A. Qed.
Lemma changes_ref ops : forall t, p_ref (changes ops t) = p_ref t.
Proof. induction ops as [|o ops IH]; intros t; [reflexivity|]. cbn. unfold changes in IH. now rewrite IH, change_ref. Qed.

Lemma refs_self t : In (p_ref t) (refs t).
Proof. destruct t. now left. Qed.
Lemma follow_in h : forall path t k, describes h t -> follow h (p_ref t) path = Some k -> In k (refs t).
Proof.
  induction path as [|i p IH]; intros t k D H; cbn in H.
  - destruct (get h (p_ref t)); [|discriminate]. injection H as <-. apply refs_self.
  - inversion D as [r s q rc n v l G F]; subst. cbn [p_ref] in H. rewrite G in H. cbn [b_kids] in H. rewrite nth_error_map in H.
    destruct (nth_error l i) as [x|] eqn:E; cbn in H; [|discriminate]. apply nth_error_In in E. cbn [refs]. right. apply in_flat_map.
    exists x. split; [exact E|]. rewrite Forall_forall in F. eauto.
Qed.
Lemma on_part_frame h t path f r : describes h t -> ~ In r (refs t) -> get (on_part h (p_ref t) path f) r = get h r.
Proof.
  intros D N. unfold on_part. destruct (follow h (p_ref t) path) as [k|] eqn:E; [|reflexivity]. destruct (get h k); [|reflexivity].
  apply get_set_other. intros ->. apply N. eapply follow_in; eauto.
Qed.
Lemma on_part_length h r path f : List.length (on_part h r path f) = List.length h.
Proof. unfold on_part. destruct (follow h r path); [|reflexivity]. destruct (get h n); [|reflexivity]. apply list_set_length. Qed.

Lemma NoDup_app_l {B} (a b : list B) : NoDup (a ++ b) -> NoDup a /\ NoDup b /\ forall x, In x a -> ~ In x b.
Proof.
  induction a as [|x a IH]; cbn; intros H; [repeat split; [constructor|exact H|intros ? []]|]. inversion H as [|? ? Hx H']; subst. destruct (IH H') as (Ha & Hb & Hd).
  rewrite in_app_iff in Hx. repeat split; [constructor; tauto|exact Hb|]. intros y [->|Hy] Hy2; [tauto|exact (Hd y Hy Hy2)].
Qed.
Lemma NoDup_parts (l : list (pic X)) : forall i x j y, NoDup (flat_map refs l) -> nth_error l i = Some x -> nth_error l j = Some y -> i <> j ->
  forall r, In r (refs x) -> ~ In r (refs y).
Proof.
  induction l as [|a l IH]; intros [|i] x [|j] y N Hi Hj D r Hr Hs; cbn in *; try discriminate; try lia.
  - injection Hi as ->. apply NoDup_app_l in N. destruct N as (_ & _ & N). apply (N r Hr). apply in_flat_map. exists y. split; [eapply nth_error_In; eauto|exact Hs].
  - injection Hj as ->. apply NoDup_app_l in N. destruct N as (_ & _ & N). apply (N r Hs). apply in_flat_map. exists x. split; [eapply nth_error_In; eauto|exact Hr].
  - apply NoDup_app_l in N. destruct N as (_ & N & _). exact (IH i x j y N Hi Hj ltac:(lia) r Hr Hs).
Qed.
Lemma NoDup_part (l : list (pic X)) i x : NoDup (flat_map refs l) -> nth_error l i = Some x -> NoDup (refs x).
Proof.
  revert i. induction l as [|a l IH]; intros [|i] N H; cbn in *; try discriminate; apply NoDup_app_l in N; destruct N as (N1 & N2 & _); [now injection H as <-|eauto].
Qed.

Lemma on_part_describes : forall path f h t, describes h t -> NoDup (refs t) -> describes (on_part h (p_ref t) path f) (change path f t).
Proof.
  induction path as [|i p IH]; intros f h t D N; inversion D as [r s q rc n v l G F]; subst.
  - cbn [change p_ref]. unfold on_part. cbn [follow]. rewrite G, G. cbn. econstructor.
    + erewrite get_set_same by exact G. reflexivity.
    + cbn [refs] in N. inversion N as [|? ? Hr Hn]; subst. rewrite Forall_forall in *. intros x Hx. eapply describes_ext; [|exact (F x Hx)].
      intros k Hk. apply get_set_other. intros ->. apply Hr. apply in_flat_map. eauto.
  - cbn [p_ref]. cbn [refs] in N. inversion N as [|? ? Hr Hn]; subst.
    assert (E : on_part h r (i :: p) f = match nth_error l i with Some x => on_part h (p_ref x) p f | None => h end).
    { unfold on_part at 1. cbn [follow]. rewrite G. cbn [b_kids]. rewrite nth_error_map. destruct (nth_error l i); reflexivity. }
    rewrite E. cbn [change]. destruct (nth_error l i) as [x|] eqn:Ex; [|exact D].
    assert (Hx := nth_error_In _ _ Ex). assert (Dx : describes h x) by (rewrite Forall_forall in F; auto).
    assert (Nx : NoDup (refs x)) by (eapply NoDup_part; eauto).
    econstructor.
    + rewrite on_part_frame; [|exact Dx|intros H; apply Hr; apply in_flat_map; eauto]. rewrite G. f_equal. f_equal.
      clear - Ex. revert i Ex. induction l as [|a l IHl]; intros [|i] Ex; cbn in *; try discriminate; [injection Ex as ->; now rewrite change_ref|].
      now rewrite <- (IHl i Ex).
    + apply Forall_forall. intros y Hy. apply In_nth_error in Hy. destruct Hy as [j Hj]. rewrite nth_list_set in Hj.
      destruct (Nat.eqb_spec j i) as [Eij|Hij]; cbn [andb] in Hj; [subst j|].
      * destruct (Nat.ltb_spec i (List.length l)); [|apply nth_error_None in H; congruence]. injection Hj as <-. apply IH; assumption.
      * eapply describes_ext; [|rewrite Forall_forall in F; apply F; eapply nth_error_In; exact Hj].
        intros k Hk. apply on_part_frame; [exact Dx|]. intros Hk'. exact (NoDup_parts l i x j y Hn Ex Hj (fun e => Hij (eq_sym e)) k Hk' Hk).
Qed.

Lemma run2_spec ops : forall h t u, describes h t -> describes h u -> NoDup (refs t) -> NoDup (refs u) -> (forall r, In r (refs t) -> ~ In r (refs u)) ->
  describes (run2 (p_ref t) (p_ref u) ops h) (changes (ops_of false ops) t) /\ describes (run2 (p_ref t) (p_ref u) ops h) (changes (ops_of true ops) u).
Proof.
  induction ops as [|[b [path f]] ops IH]; intros h t u Dt Du Nt Nu Dis; [split; assumption|].
  unfold run2. cbn [fold_left fst snd]. unfold ops_of. cbn [filter fst]. destruct b; cbn [Bool.eqb].
  - cbn [map changes fold_left fst snd]. specialize (IH (on_part h (p_ref u) path f) t (change path f u)). rewrite change_ref in IH. apply IH.
    + eapply describes_ext; [|exact Dt]. intros r Hr. apply on_part_frame; [exact Du|]. exact (Dis r Hr).
    + apply on_part_describes; assumption.
    + exact Nt.
    + rewrite change_refs. exact Nu.
    + intros r Hr. rewrite change_refs. exact (Dis r Hr).
  - cbn [map changes fold_left fst snd]. specialize (IH (on_part h (p_ref t) path f) (change path f t) u). rewrite change_ref in IH. apply IH.
    + apply on_part_describes; assumption.
    + eapply describes_ext; [|exact Du]. intros r Hr. apply on_part_frame; [exact Dt|]. intros Hr'. exact (Dis r Hr' Hr).
    + rewrite change_refs. exact Nt.
    + exact Nu.
    + intros r Hr. rewrite change_refs in Hr. exact (Dis r Hr).
Qed.

(** *** Names *)
Lemma in_app_sep (a b : string) : list_ascii_of_string (a ++ b) = list_ascii_of_string a ++ list_ascii_of_string b.
Proof. induction a as [|c a IH]; cbn; [reflexivity|]. now rewrite IH. Qed.
Lemma ascii_inj a b : list_ascii_of_string a = list_ascii_of_string b -> a = b.
Proof. intros H. rewrite <- (string_of_list_ascii_of_string a), <- (string_of_list_ascii_of_string b). now rewrite H. Qed.
Lemma sep_split (x y a b : list ascii) : ~ In "_"%char x -> ~ In "_"%char y -> x ++ "_"%char :: a = y ++ "_"%char :: b -> x = y /\ a = b.
Proof.
  revert y. induction x as [|c x IH]; intros [|d y] Hx Hy E; cbn in *.
  - injection E as ->. auto.
  - injection E as <- _. tauto.
  - injection E as -> _. tauto.
  - injection E as <- E. destruct (IH y) as [-> ->]; tauto.
Qed.
Lemma no_sep_ne (x y a : list ascii) : ~ In "_"%char x -> x = y ++ "_"%char :: a -> False.
Proof. intros H ->. apply H, in_app_iff. right. now left. Qed.
Lemma path_name_cons s a l : path_name (s :: a :: l) = (s ++ "_" ++ path_name (a :: l))%string.
Proof. reflexivity. Qed.
Lemma path_name_inj : forall a b, a <> [] -> b <> [] -> Forall no_separator a -> Forall no_separator b -> path_name a = path_name b -> a = b.
Proof.
  induction a as [|s [|s2 a] IH]; intros [|t [|t2 b]] Na Nb Fa Fb E; try congruence.
  - cbn in E. congruence.
  - exfalso. rewrite path_name_cons in E. cbn in E. apply (f_equal list_ascii_of_string) in E. inversion Fa; subst. rewrite in_app_sep in E. cbn in E. eapply no_sep_ne; eassumption.
  - exfalso. rewrite path_name_cons in E. cbn in E. apply (f_equal list_ascii_of_string) in E. inversion Fb; subst. rewrite in_app_sep in E. cbn in E. symmetry in E. eapply no_sep_ne; eassumption.
  - rewrite !path_name_cons in E. apply (f_equal list_ascii_of_string) in E. rewrite !in_app_sep in E. cbn [list_ascii_of_string List.app] in E. inversion Fa as [|? ? Fs Fa']; inversion Fb as [|? ? Ft Fb']; subst.
    apply sep_split in E; [|exact Fs|exact Ft]. destruct E as [E1 E2]. apply ascii_inj in E1, E2. subst t. f_equal. apply IH; auto; discriminate.
Qed.
Lemma path_name_snoc : forall names s, names <> [] -> path_name (names ++ [s]) = (path_name names ++ "_" ++ s)%string.
Proof.
  assert (Ass : forall a b c, ((a ++ b) ++ c)%string = (a ++ (b ++ c))%string) by (induction a; intros; cbn; congruence).
  induction names as [|a [|b l] IH]; intros s H; [congruence|reflexivity|].
  change ((a :: b :: l) ++ [s]) with (a :: b :: (l ++ [s])). rewrite !path_name_cons. change (b :: l ++ [s]) with ((b :: l) ++ [s]).
  rewrite IH by discriminate. rewrite !Ass. reflexivity.
Qed.

(** The name of a part, given the name of what the whole hangs from. *)
Lemma part_name h : forall t p names k, linked h p t -> describes h t -> part_of t names k ->
  forall pre fuel, match p with None => pre = [] | Some q => pre <> [] /\ full_id fuel h q = Ok (path_name pre) end ->
  full_id (List.length names + fuel) h k = Ok (path_name (pre ++ names)).
Proof.
  induction t as [r s rc n v l IH] using pic_rect'. intros p names k L D P pre fuel Hp.
  inversion L as [p0 r0 s0 rc0 n0 v0 l0 o Go Po Fo]; subst. inversion D as [r0 s0 q rc0 n0 v0 l0 G F]; subst.
  rewrite G in Go. injection Go as <-. cbn [b_parent] in *.
  assert (Self : full_id (S fuel) h r = Ok (path_name (pre ++ [s]))).
  { cbn [full_id]. rewrite G. cbn [b_parent b_id]. destruct q as [q|]; [|now subst pre]. destruct Hp as [Hp1 Hp2].
    rewrite Hp2. cbn [rmap rbind]. now rewrite path_name_snoc. }
  inversion P as [|r0 s0 rc0 n0 v0 l0 t names' k0 Hin Ht]; subst.
  - exact Self.
  - rewrite Forall_forall in *. specialize (IH t Hin (Some r) names' k (Fo t Hin) (F t Hin) Ht (pre ++ [s]) (S fuel)).
    rewrite <- app_assoc in IH. cbn [List.app] in IH. cbn [List.length]. replace (S (List.length names') + fuel) with (List.length names' + S fuel) by lia.
    apply IH. split; [destruct pre; discriminate|exact Self].
Qed.
Lemma part_nonempty t names k : part_of t names k -> names <> [].
Proof. destruct 1; discriminate. Qed.
Lemma part_names_ok : forall t names k, distinct_names t -> part_of t names k -> Forall no_separator names.
Proof.
  induction t as [r s rc n v l IH] using pic_rect'. intros names k D P. inversion D; subst. inversion P; subst; [repeat constructor; assumption|].
  constructor; [assumption|]. rewrite Forall_forall in IH. eapply IH; eauto. match goal with H : Forall distinct_names l |- _ => rewrite Forall_forall in H; auto end.
Qed.
Lemma part_names_head t names k : part_of t names k -> exists l, names = p_id t :: l.
Proof. destruct 1; cbn; eauto. Qed.
Lemma part_unique : forall t names k k', distinct_names t -> part_of t names k -> part_of t names k' -> k = k'.
Proof.
  induction t as [r s rc n v l IH] using pic_rect'. intros names k k' D P P'. inversion D as [r0 s0 rc0 n0 v0 l0 Hs Hd Hf]; subst.
  inversion P as [|r1 s1 rc1 n1 v1 l1 t names1 k1 Hin Ht]; subst; inversion P' as [|r2 s2 rc2 n2 v2 l2 t' names2 k2 Hin' Ht']; subst.
  - reflexivity.
  - exfalso. eapply part_nonempty; eauto.
  - exfalso. eapply part_nonempty; eauto.
  - assert (t = t').
    { destruct (part_names_head _ _ _ Ht) as [a Ea]. destruct (part_names_head _ _ _ Ht') as [b Eb]. rewrite Ea in Eb. injection Eb as Eb _.
      clear - Hd Hin Hin' Eb. induction l as [|x l IHl]; [destruct Hin|]. cbn in Hd. inversion Hd as [|? ? Nx Nd]; subst.
      destruct Hin as [->|Hin], Hin' as [->|Hin']; auto; exfalso; apply Nx; [rewrite Eb|rewrite <- Eb]; now apply in_map. }
    subst t'. rewrite Forall_forall in *. eapply IH; eauto.
Qed.
End Proofs.
