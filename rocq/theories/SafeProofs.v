(** * Proofs for C75: no call leaves its arrays *)
From Verif Require Import Base StatusModel UtilModel CellModel CoolModel ModuleModel SpmModel SpmUnitModel SafeSpec.
From Coq Require Import List Lia.
Import ListNotations.

Lemma returns_defined {B} (r : res B) : returns r -> defined r.
Proof. destruct r; simpl; auto. Qed.
Lemma defined_rmap {B C} (f : B -> C) r : defined r -> defined (rmap f r).
Proof. destruct r; simpl; auto. Qed.
Lemma returns_rmap {B C} (f : B -> C) r : returns r -> returns (rmap f r).
Proof. destruct r; simpl; auto. Qed.
Lemma defined_rbind {B C} (f : B -> res C) r : defined r -> (forall b, r = Ok b -> defined (f b)) -> defined (rbind r f).
Proof. destruct r; simpl; auto. Qed.
Lemma returns_rbind {B C} (f : B -> res C) r : returns r -> (forall b, r = Ok b -> returns (f b)) -> returns (rbind r f).
Proof. destruct r; simpl; auto; tauto. Qed.
Lemma defined_cast {B C} (r : res B) : defined r -> (forall b, r <> Ok b) -> defined (@cast B C r).
Proof. destruct r; simpl; auto. intros _ H. exact (H b eq_refl). Qed.

Section Safe.
Context {A : Type} {NA : Num A}.

Section Unit.
Context {S : Type} (o : su_ops A S) (wf : S -> Prop) (sh : S -> shape).
Definition upost {B : Type} (s : S) (p : S * res B) : Prop := wf (fst p) /\ sh (fst p) = sh s /\ defined (snd p).
Definition upost1 {B : Type} (s : S) (p : S * res B) : Prop := wf (fst p) /\ sh (fst p) = sh s /\ returns (snd p).

Record safe_unit : Prop := {
  sf_len : forall s, wf s -> length (o_getStates o s) = size (sh s);
  sf_OCV : forall s, wf s -> defined (o_OCV o s);
  sf_Rtot : forall s, wf s -> defined (o_Rtot o s);
  sf_V : forall s, wf s -> upost1 s (o_V o s);
  sf_checkV : forall s, wf s -> upost1 s (o_checkV o s);
  sf_Vhigh : forall s, wf s -> upost s (o_Vhigh o s);
  sf_Vlow : forall s, wf s -> upost s (o_Vlow o s);
  sf_set : forall i b s, wf s -> upost s (o_setCurrent o i b s);
  sf_step : forall dt n s, wf s -> upost s (o_timeStep o dt n s);
  sf_calm : forall dt n s, wf s -> calm (sh s) -> (dt <? nZ 0)%num = false -> returns (snd (o_timeStep o dt n s));
  sf_thermal : forall nb t s, wf s -> upost s (o_thermal o nb t s);
  sf_setT : forall t s, wf s -> upost s (o_setT o t s);
  sf_flag : forall b s, wf s -> wf (o_setFlag o b s) /\ sh (o_setFlag o b s) = sh s;
  sf_cool : forall s, wf s -> upost s (o_coolload o s);
  sf_states : forall l b s, wf s -> evenly (sh s) -> (size (sh s) <= length l)%nat ->
     upost s (o_setStates o l b s) /\
     forall rest st, snd (o_setStates o l b s) = Ok (rest, st) -> (length l <= length rest + size (sh s))%nat }.

Lemma post1_post {B} s (p : S * res B) : upost1 s p -> upost s p.
Proof. intros (H1 & H2 & H3). split; [|split]; auto using returns_defined. Qed.

(** lists of children *)
Definition lwf (l : list S) : Prop := Forall wf l.
Definition lpost {B : Type} (l : list S) (p : list S * res B) : Prop :=
  lwf (fst p) /\ map sh (fst p) = map sh l /\ defined (snd p).
Definition lpost1 {B : Type} (l : list S) (p : list S * res B) : Prop :=
  lwf (fst p) /\ map sh (fst p) = map sh l /\ returns (snd p).
Lemma lpost1_lpost {B} l (p : list S * res B) : lpost1 l p -> lpost l p.
Proof. intros (H1 & H2 & H3). split; [|split]; auto using returns_defined. Qed.
Lemma lpost_len {B} l (p : list S * res B) : map sh (fst p) = map sh l -> length (fst p) = length l.
Proof. intros H. apply (f_equal (@length _)) in H. now rewrite !map_length in H. Qed.

Lemma each_post {B} (f : M S B) l : (forall s, wf s -> upost s (f s)) -> lwf l ->
  lpost l (each f l) /\ forall rs, snd (each f l) = Ok rs -> length rs = length l.
Proof.
  intros Hf. induction l as [|s l IH]; intros Hl; cbn [each].
  - split; [split; [|split]; simpl; auto|]. cbn. intros rs E; injection E as <-; auto.
  - inversion Hl as [|? ? Hs Hl']; subst. specialize (IH Hl').
    destruct (Hf s Hs) as (H1 & H2 & H3). destruct (f s) as [s' [b|e| |]]; cbn [fst snd] in *; try (simpl in H3; tauto).
    + destruct (each f l) as [l'' r]. destruct IH as [(I1 & I2 & I3) I4]. cbn [fst snd] in *.
      split; [split; [|split]; cbn [fst snd]|cbn [fst snd]].
      * constructor; auto.
      * cbn [map]. now rewrite H2, I2.
      * now apply defined_rmap.
      * intros rs E. destruct r; try discriminate. cbn in E. injection E as <-. cbn [length]. f_equal. auto.
    + split; [split; [|split]; cbn [fst snd]|cbn [fst snd]; intros ? E; discriminate].
      * constructor; auto. * cbn [map]. now rewrite H2. * exact Logic.I.
Qed.
Lemma each_post1 {B} (f : M S B) l : (forall s, In s l -> wf s -> upost1 s (f s)) -> lwf l -> lpost1 l (each f l).
Proof.
  induction l as [|s l IH]; intros Hf Hl; cbn [each].
  - split; [|split]; simpl; auto.
  - inversion Hl as [|? ? Hs Hl']; subst. specialize (IH (fun x Hx => Hf x (or_intror Hx)) Hl').
    destruct (Hf s (or_introl eq_refl) Hs) as (H1 & H2 & H3). destruct (f s) as [s' [b|e| |]]; cbn [fst snd] in *; try (simpl in H3; tauto).
    destruct (each f l) as [l'' r]. destruct IH as (I1 & I2 & I3). cbn [fst snd] in *.
    split; [|split]; cbn [fst snd].
    + constructor; auto. + cbn [map]. now rewrite H2, I2. + now apply returns_rmap.
Qed.

Lemma list_set_map {X Y} (f : X -> Y) (l : list X) i x y : nth_error l i = Some y -> f x = f y ->
  map f (list_set l i x) = map f l.
Proof.
  revert i. induction l as [|z l IH]; intros [|i] H E; simpl in *; try discriminate.
  - injection H as ->. now rewrite E.
  - now rewrite (IH i).
Qed.
Lemma list_set_Forall {X} (P : X -> Prop) (l : list X) i x : Forall P l -> P x -> Forall P (list_set l i x).
Proof.
  revert i. induction l as [|z l IH]; intros [|i] H Hx; simpl; auto; inversion H; subst; constructor; auto.
Qed.
Lemma child_do_post {B} (f : M S B) i l s : nth_error l i = Some s -> upost s (f s) -> lwf l ->
  lpost l (child_do f i l).
Proof.
  intros E (H1 & H2 & H3) Hl. unfold child_do. rewrite E. destruct (f s) as [s' r]. cbn [fst snd] in *.
  split; [|split]; cbn [fst snd]; auto.
  - now apply list_set_Forall.
  - now apply list_set_map with (y := s).
Qed.
Lemma lwf_nth l i s : lwf l -> nth_error l i = Some s -> wf s.
Proof. intros H E. apply nth_error_In in E. unfold lwf in H. rewrite Forall_forall in H. auto. Qed.
Lemma nth_some {X} (l : list X) i : (i < length l)%nat -> exists x, nth_error l i = Some x.
Proof. intros H. destruct (nth_error l i) eqn:E; eauto. apply nth_error_None in E. lia. Qed.

Hypothesis Hu : safe_unit.

(** *** voltage *)
Lemma sV_loop_post l : forall acc rc, lwf l -> (length l <= length rc)%nat ->
  let '(l', _, r) := sV_loop o acc l rc in lwf l' /\ map sh l' = map sh l /\ returns r.
Proof.
  induction l as [|s l IH]; intros acc rc Hl Hc; cbn [sV_loop]; [simpl; auto|].
  inversion Hl as [|? ? Hs Hl']; subst.
  destruct (sf_V Hu s Hs) as (H1 & H2 & H3).
  destruct (o_V o s) as [s' [v|e| |]]; cbn [fst snd] in *; try (simpl in H3; tauto).
  destruct (v <=? nZ 0)%num.
  - split; [|split]; simpl; auto. constructor; auto. now rewrite H2.
  - destruct rc as [|r rc]; [simpl in Hc; lia|]. simpl in Hc.
    specialize (IH (nadd acc (nsub v (nmul r (o_I o s')))) rc Hl' ltac:(lia)).
    destruct (sV_loop o _ l rc) as [[l'' a] e]. destruct IH as (I1 & I2 & I3).
    split; [|split]; simpl; auto. constructor; auto. now rewrite H2, I2.
Qed.

Definition mwf (m : module A S) : Prop :=
  (length (ms m) <= NSUs_MAX)%nat /\ length (ms m) = length (m_rc (mm m)) /\
  (m_par (mm m) = true -> Forall (fun s => calm (sh s)) (ms m)) /\ lwf (ms m).
Definition msh (m : module A S) : shape := Node (map sh (ms m)).

Lemma mwf_change (m m' : module A S) : mwf m -> lwf (ms m') -> map sh (ms m') = map sh (ms m) ->
  m_rc (mm m') = m_rc (mm m) -> m_par (mm m') = m_par (mm m) -> mwf m' /\ msh m' = msh m.
Proof.
  intros (H1 & H2 & H3 & H4) Hl Hm Hr Hp.
  assert (E : length (ms m') = length (ms m)) by (rewrite <- (map_length sh), Hm; apply map_length).
  split; [|unfold msh; now rewrite Hm]. unfold mwf. rewrite E, Hr, Hp. repeat split; auto.
  intros Q. specialize (H3 Q).
  assert (F : Forall calm (map sh (ms m'))) by (rewrite Hm; now apply Forall_map).
  now rewrite Forall_map in F.
Qed.
End Unit.
Arguments post1_post {S wf sh B s p}.

Section Module.
Context {S : Type} (o : su_ops A S) (wf : S -> Prop) (sh : S -> shape) (Hu : safe_unit o wf sh) (tm : Z).
Local Notation post := (upost (mwf wf sh) (msh sh)).
Local Notation post1 := (upost1 (mwf wf sh) (msh sh)).
Local Notation lpost := (lpost wf sh).
Local Notation lpost1 := (lpost1 wf sh).
Local Notation lwf := (lwf wf).
Implicit Types (m : module A S) (l : list S).

Lemma post_mk {B} m m' (r : res B) : mwf wf sh m -> lwf (ms m') -> map sh (ms m') = map sh (ms m) ->
  m_rc (mm m') = m_rc (mm m) -> m_par (mm m') = m_par (mm m) -> defined r -> post m (m', r).
Proof. intros. destruct (mwf_change wf sh m m'); auto. split; [|split]; auto. Qed.
Lemma post1_mk {B} m m' (r : res B) : mwf wf sh m -> lwf (ms m') -> map sh (ms m') = map sh (ms m) ->
  m_rc (mm m') = m_rc (mm m) -> m_par (mm m') = m_par (mm m) -> returns r -> post1 m (m', r).
Proof. intros. destruct (mwf_change wf sh m m'); auto. split; [|split]; auto. Qed.

Lemma mod_len m : mwf wf sh m -> length (mod_getStates o m) = size (msh sh m).
Proof.
  intros (_ & _ & _ & H). unfold mod_getStates, msh. rewrite app_length. cbn [length size].
  rewrite Nat.add_1_r. f_equal. induction (ms m) as [|s l IH]; cbn [flat_map map list_sum fold_right]; auto.
  inversion H; subst. rewrite app_length, (sf_len _ _ _ Hu), IH; auto.
Qed.

Lemma mod_V_post m : mwf wf sh m -> post1 m (mod_V o m).
Proof.
  intros W. pose proof W as (H1 & H2 & H3 & H4). unfold mod_V. destruct (m_series (mm m)).
  - destruct (m_Vok (mm m)); [apply post1_mk; simpl; auto|].
    pose proof (sV_loop_post o wf sh Hu (ms m) (nZ 0) (m_rc (mm m)) H4 (Nat.eq_le_incl _ _ H2)) as P.
    destruct (sV_loop o (nZ 0) (ms m) (m_rc (mm m))) as [[l a] [[|]|e| |]]; destruct P as (P1 & P2 & P3); simpl in P3; try tauto;
      apply post1_mk; simpl; auto.
  - destruct (ms m) as [|s l'] eqn:El.
    { apply post1_mk; simpl; auto; rewrite ?El; auto. }
    destruct (m_rc (mm m)) as [|r rc] eqn:Er; [simpl in H2; lia|].
    inversion H4 as [|? ? Hs Hl']; subst.
    destruct (sf_V _ _ _ Hu s Hs) as (V1 & V2 & V3).
    destruct (o_V o s) as [s' [v|e| |]]; cbn [fst snd] in *; try (simpl in V3; tauto).
    apply post1_mk; cbn [ms mm]; auto; try exact Logic.I.
    + constructor; auto. + rewrite El. cbn [map]. now rewrite V2.
Qed.

Lemma mod_checkV_post m : mwf wf sh m -> post1 m (mod_checkV o m).
Proof.
  intros W. unfold mod_checkV. destruct (mod_V_post m W) as (V1 & V2 & V3).
  destruct (mod_V o m) as [m1 [v|e| |]] eqn:Em; cbn [fst snd] in *; try (simpl in V3; tauto).
  assert (Q : m_rc (mm m1) = m_rc (mm m) /\ m_par (mm m1) = m_par (mm m)).
  { unfold mod_V in Em. destruct (m_series (mm m)).
    - destruct (m_Vok (mm m)); [injection Em as <- _; auto|].
      destruct (sV_loop _ _ _ _) as [[l a] [[|]|e| |]]; injection Em as <- _; auto.
    - destruct (ms m); [injection Em as <- _; auto|]. destruct (m_rc (mm m)) eqn:Er; [discriminate|].
      destruct (o_V o _) as [? [?|?| |]]; injection Em as <- _; cbn; auto. }
  pose proof V1 as (_ & _ & _ & L).
  destruct (each_post1 wf sh (o_checkV o) (ms m1) (fun s _ Hs => sf_checkV _ _ _ Hu s Hs) L) as (E1 & E2 & E3).
  destruct (each (o_checkV o) (ms m1)) as [l [rs|e| |]]; cbn [fst snd] in *; try (simpl in E3; tauto).
  injection V2 as V2. apply post1_mk; cbn [ms mm]; auto; try tauto; try exact Logic.I. now rewrite E2.
Qed.

Lemma mod_each {B C} (f : M S B) m (g : list B -> C) : (forall s, wf s -> upost wf sh s (f s)) -> mwf wf sh m ->
  post m (let '(l, r) := each f (ms m) in (mkM (mm m) l, rmap g r)).
Proof.
  intros Hf W. pose proof W as (_ & _ & _ & L).
  destruct (each_post wf sh f (ms m) Hf L) as [(E1 & E2 & E3) _]. destruct (each f (ms m)) as [l r]. cbn [fst snd] in *.
  apply post_mk; cbn [ms mm]; auto using defined_rmap.
Qed.

Lemma mod_OCV_def m : mwf wf sh m -> defined (mod_OCV o m).
Proof.
  intros (_ & _ & _ & L). unfold mod_OCV. destruct (ms m) as [|s l] eqn:E; [exact Logic.I|].
  apply defined_rmap. clear E. revert L. generalize (s :: l). clear s l.
  induction l as [|s l IH]; intros L; cbn [map res_all]; [exact Logic.I|]. inversion L; subst.
  apply defined_rbind; [now apply (sf_OCV _ _ _ Hu)|]. intros. apply defined_rmap. auto.
Qed.
Lemma mod_Rtot_def m : mwf wf sh m -> defined (mod_Rtot o m).
Proof.
  intros (_ & H & _ & L). unfold mod_Rtot. destruct (m_series (mm m)).
  - revert H L. generalize (m_rc (mm m)) (nZ 0). induction (ms m) as [|s l IH]; intros rc acc H L; cbn [rtot_s]; [exact Logic.I|].
    destruct rc as [|r rc]; [simpl in H; lia|]. inversion L; subst. simpl in H.
    apply defined_rbind; [now apply (sf_Rtot _ _ _ Hu)|]. intros. apply IH; auto; lia.
  - destruct (ms m) as [|s l] eqn:E; [exact Logic.I|]. clear E.
    assert (N : s :: l <> []) by discriminate. revert H L N. generalize (m_rc (mm m)). generalize (s :: l). clear s l.
    induction l as [|s l IH]; intros rc H L N; [tauto|]. clear N. inversion L; subst.
    destruct rc as [|r rc]; [simpl in H; lia|]. simpl in H.
    destruct l as [|s2 l].
    + destruct rc; cbn [rtot_p].
      * apply defined_rmap. now apply (sf_Rtot _ _ _ Hu).
      * simpl in H; lia.
    + change (rtot_p o (s :: s2 :: l) (r :: rc)) with
        (rbind (rtot_p o (s2 :: l) rc) (fun rt => rmap (fun x => nadd r (ndiv (nmul x rt) (nadd x rt))) (o_Rtot o s))).
      apply defined_rbind; [apply IH; auto; try discriminate; simpl in *; lia|].
      intros. apply defined_rmap. now apply (sf_Rtot _ _ _ Hu).
Qed.

(** *** parallel branches *)
Lemma getVall_from_post l : forall rc, lwf l -> length l = length rc ->
  lpost1 l (getVall_from o l rc) /\
  forall vs ic, snd (getVall_from o l rc) = Ok (vs, ic) -> length vs = length l.
Proof.
  induction l as [|s l IH]; intros rc L H; cbn [getVall_from].
  - split; [split; [|split]; simpl; auto|]. cbn. intros vs ic E. injection E as <- <-. auto.
  - destruct rc as [|r rc]; [simpl in H; lia|]. inversion L as [|? ? Hs L']; subst. simpl in H.
    destruct (IH rc L' ltac:(lia)) as [(I1 & I2 & I3) I4].
    destruct (getVall_from o l rc) as [l'' [[vs ic]|e| |]]; cbn [fst snd] in *; try (simpl in I3; tauto).
    destruct (sf_V _ _ _ Hu s Hs) as (V1 & V2 & V3).
    destruct (o_V o s) as [s' [v|e| |]]; cbn [fst snd] in *; try (simpl in V3; tauto).
    split; [split; [|split]; cbn [fst snd]; try exact Logic.I|cbn [snd]].
    + constructor; auto.
    + cbn [map]. now rewrite V2, I2.
    + intros ws jc E. injection E as <- _. cbn [map length]. rewrite map_length. f_equal. eapply I4; eauto.
Qed.
Lemma getVall_post l rc : lwf l -> length l = length rc -> (length l <= NSUs_MAX)%nat ->
  lpost1 l (getVall o l rc) /\ forall vs, snd (getVall o l rc) = Ok vs -> length vs = length l.
Proof.
  intros L H N. unfold getVall. apply Nat.ltb_ge in N. rewrite N.
  destruct (getVall_from_post l rc L H) as [(P1 & P2 & P3) P4].
  destruct (getVall_from o l rc) as [l' [[vs ic]|e| |]]; cbn [fst snd] in *; try (simpl in P3; tauto).
  split; [split; [|split]; cbn [fst snd]; auto; exact Logic.I|cbn]. intros ws E. injection E as <-. eauto.
Qed.

Lemma p_adjust_post l : forall vm Ia Va, lwf l -> length Ia = length l -> length Va = length l ->
  lpost l (p_adjust o vm Ia Va l) /\ forall Ia', snd (p_adjust o vm Ia Va l) = Ok Ia' -> length Ia' = length l.
Proof.
  induction l as [|s l IH]; intros vm Ia Va L H1 H2; cbn [p_adjust].
  - split; [split; [|split]; simpl; auto|]. cbn. intros x E. injection E as <-. auto.
  - destruct Ia as [|ia Ia]; [simpl in H1; lia|]. destruct Va as [|va Va]; [simpl in H2; lia|]. simpl in H1, H2.
    inversion L as [|? ? Hs L']; subst.
    destruct (sf_set _ _ _ Hu (nsub ia (nmul (nsub vm va) (o_Cap o s))) true s Hs) as (V1 & V2 & V3).
    destruct (o_setCurrent o _ true s) as [s' [st|e| |]]; cbn [fst snd] in *; try (simpl in V3; tauto).
    + destruct (IH vm Ia Va L' ltac:(lia) ltac:(lia)) as [(I1 & I2 & I3) I4].
      destruct (p_adjust o vm Ia Va l) as [l'' r]. cbn [fst snd] in *.
      split; [split; [|split]; cbn [fst snd]|cbn [snd]].
      * constructor; auto. * cbn [map]. now rewrite V2, I2. * now apply defined_rmap.
      * intros x E. destruct r; try discriminate. cbn in E. injection E as <-. cbn [length]. f_equal. auto.
    + split; [split; [|split]; cbn [fst snd]; try exact Logic.I|cbn [snd]; intros ? E; discriminate].
      * constructor; auto. * cbn [map]. now rewrite V2.
Qed.
Lemma p_balance_post iter : forall tol rc Ia Va l, lwf l -> length l = length rc -> (length l <= NSUs_MAX)%nat ->
  length Ia = length l -> length Va = length l -> lpost l (p_balance o iter tol rc Ia Va l).
Proof.
  induction iter as [|it IH]; intros tol rc Ia Va l L H N H1 H2; cbn [p_balance].
  - split; [|split]; simpl; auto.
  - destruct (spread (vmean Va) Va <? tol)%num; [split; [|split]; simpl; auto|].
    destruct (p_adjust_post l (vmean Va) Ia Va L H1 H2) as [(P1 & P2 & P3) P4].
    destruct (p_adjust o (vmean Va) Ia Va l) as [l1 [Ia'|e| |]]; cbn [fst snd] in *; try (simpl in P3; tauto).
    2: { split; [|split]; simpl; auto. }
    assert (E1 : length l1 = length l) by (rewrite <- (map_length sh), P2; apply map_length).
    destruct (getVall_post l1 rc P1 ltac:(lia) ltac:(lia)) as [(Q1 & Q2 & Q3) Q4].
    destruct (getVall o l1 rc) as [l2 [Va'|e| |]]; cbn [fst snd] in *; try (simpl in Q3; tauto).
    assert (E2 : length l2 = length l) by (rewrite <- (map_length sh), Q2, P2; apply map_length).
    destruct (IH tol rc Ia' Va' l2 Q1 ltac:(lia) ltac:(lia)) as (R1 & R2 & R3).
    { rewrite (P4 Ia' eq_refl). lia. } { rewrite (Q4 Va' eq_refl). lia. }
    split; [|split]; auto. now rewrite R2, Q2.
Qed.
Lemma p_first_post l : forall dI Ia st, lwf l -> length Ia = length l ->
  lpost l (p_first o dI Ia st l) /\
  forall Ia' st', snd (p_first o dI Ia st l) = Ok (Ia', st') -> isStatusOK st = true -> isStatusOK st' = true -> length Ia' = length l.
Proof.
  induction l as [|s l IH]; intros dI Ia st L H; cbn [p_first].
  - split; [split; [|split]; simpl; auto|]. cbn. intros x y E. injection E as <- <-. auto.
  - destruct Ia as [|ia Ia]; [simpl in H; lia|]. simpl in H. inversion L as [|? ? Hs L']; subst.
    destruct (sf_set _ _ _ Hu (nadd ia dI) true s Hs) as (V1 & V2 & V3).
    destruct (o_setCurrent o _ true s) as [s' [st1|e| |]]; cbn [fst snd] in *; try (simpl in V3; tauto).
    + destruct (isStatusOK st1) eqn:E1.
      * destruct (IH dI Ia st1 L' ltac:(lia)) as [(I1 & I2 & I3) I4].
        destruct (p_first o dI Ia st1 l) as [l'' r]. cbn [fst snd] in *.
        split; [split; [|split]; cbn [fst snd]|cbn [snd]].
        -- constructor; auto. -- cbn [map]. now rewrite V2, I2. -- now apply defined_rmap.
        -- intros x y E S1 S2. destruct r as [[x1 y1]|e| |]; try discriminate. cbn in E. injection E as <- <-. cbn [length]. f_equal. eauto.
      * split; [split; [|split]; cbn [fst snd]; try exact Logic.I|cbn [snd]].
        -- constructor; auto. -- cbn [map]. now rewrite V2.
        -- intros x y E. injection E as <- <-. intros _ Q. rewrite Q in E1. discriminate.
    + split; [split; [|split]; cbn [fst snd]; try exact Logic.I|cbn [snd]; intros ? ? E; discriminate].
      * constructor; auto. * cbn [map]. now rewrite V2.
Qed.
Lemma len_of l l' : map sh l' = map sh l -> length l' = length l.
Proof. intros E. rewrite <- (map_length sh), E. apply map_length. Qed.
Lemma lpost_of {B C} l l1 (p : list S * res B) (r : res C) :
  lpost l1 p -> map sh l1 = map sh l -> defined r -> lpost l (fst p, r).
Proof. intros (H1 & H2 & H3) E D. split; [|split]; cbn; auto. now rewrite H2. Qed.

Lemma p_setCurrent_post i rc l : lwf l -> length l = length rc -> (length l <= NSUs_MAX)%nat -> lpost l (p_setCurrent o i rc l).
Proof.
  intros L H N. unfold p_setCurrent. pose proof N as N'. apply Nat.ltb_ge in N'. rewrite N'. clear N'.
  set (dI := ndiv (nsub i (nsum (map (o_I o) l))) (nnat (length l))). clearbody dI.
  destruct (p_first_post l dI (map (o_I o) l) Success L (map_length _ _)) as [(P1 & P2 & P3) P4].
  destruct (p_first o dI (map (o_I o) l) Success l) as [l1 [[Ia1 st]|e| |]]; cbn [fst snd] in *; try (simpl in P3; tauto).
  2: { split; [|split]; simpl; auto. }
  destruct (isStatusOK st) eqn:Es; [|split; [|split]; simpl; auto].
  assert (E1 := len_of _ _ P2).
  destruct (getVall_post l1 rc P1 ltac:(lia) ltac:(lia)) as [(Q1 & Q2 & Q3) Q4].
  destruct (getVall o l1 rc) as [l2 [Va|e| |]]; cbn [fst snd] in *; try (simpl in Q3; tauto).
  assert (E2 := len_of _ _ Q2).
  destruct (p_balance_post setCurrent_iterations (nlit 1 1000000000) rc Ia1 Va l2 Q1 ltac:(lia) ltac:(lia)) as (R1 & R2 & R3).
  { rewrite (P4 _ _ eq_refl eq_refl Es). lia. } { rewrite (Q4 _ eq_refl). lia. }
  destruct (p_balance o setCurrent_iterations _ rc Ia1 Va l2) as [l3 [[x|]|e| |]]; cbn [fst snd] in *; try (simpl in R3; tauto);
    (split; [|split]; simpl; auto; now rewrite R2, Q2).
Qed.
Lemma p_redistribute_post rc l : lwf l -> length l = length rc -> (length l <= NSUs_MAX)%nat -> lpost l (p_redistribute o rc l).
Proof.
  intros L H N. unfold p_redistribute. destruct (Nat.leb (length l) 1); [split; [|split]; simpl; auto|].
  pose proof N as N'. apply Nat.ltb_ge in N'. rewrite N'. clear N'.
  destruct (getVall_post l rc L H N) as [(Q1 & Q2 & Q3) Q4].
  destruct (getVall o l rc) as [l1 [Va|e| |]]; cbn [fst snd] in *; try (simpl in Q3; tauto).
  assert (E2 := len_of _ _ Q2).
  destruct (p_balance_post redistribute_iterations (nlit 1 10000000000) rc (map (o_I o) l1) Va l1 Q1 ltac:(lia) ltac:(lia)) as (R1 & R2 & R3).
  { apply map_length. } { rewrite (Q4 _ eq_refl). lia. }
  destruct (p_balance o redistribute_iterations _ rc _ Va l1) as [l3 [[x|]|e| |]]; cbn [fst snd] in *; try (simpl in R3; tauto);
    (split; [|split]; simpl; auto; now rewrite R2, Q2).
Qed.
Lemma p_vadjust_post l : forall v Ia Va, lwf l -> length Ia = length l -> length Va = length l ->
  lpost l (p_vadjust o v Ia Va l) /\ forall Ia', snd (p_vadjust o v Ia Va l) = Ok Ia' -> length Ia' = length l.
Proof.
  induction l as [|s l IH]; intros v Ia Va L H1 H2; cbn [p_vadjust].
  - split; [split; [|split]; simpl; auto|]. cbn. intros x E. injection E as <-. auto.
  - destruct Ia as [|ia Ia]; [simpl in H1; lia|]. destruct Va as [|va Va]; [simpl in H2; lia|]. simpl in H1, H2.
    inversion L as [|? ? Hs L']; subst.
    match goal with |- context [o_setCurrent o ?x true s] => set (ia' := x); clearbody ia' end.
    destruct (sf_set _ _ _ Hu ia' true s Hs) as (V1 & V2 & V3).
    destruct (o_setCurrent o _ true s) as [s' [st|e| |]]; cbn [fst snd] in *; try (simpl in V3; tauto).
    + destruct (IH v Ia Va L' ltac:(lia) ltac:(lia)) as [(I1 & I2 & I3) I4].
      destruct (p_vadjust o v Ia Va l) as [l'' r]. cbn [fst snd] in *.
      split; [split; [|split]; cbn [fst snd]|cbn [snd]].
      * constructor; auto. * cbn [map]. now rewrite V2, I2. * now apply defined_rmap.
      * intros x E. destruct r; try discriminate. cbn in E. injection E as <-. cbn [length]. f_equal. auto.
    + split; [split; [|split]; cbn [fst snd]; try exact Logic.I|cbn [snd]; intros ? E; discriminate].
      * constructor; auto. * cbn [map]. now rewrite V2.
Qed.
Lemma p_setVoltage_post v rc l : lwf l -> length l = length rc -> (length l <= NSUs_MAX)%nat -> lpost l (p_setVoltage o v rc l).
Proof.
  intros L H N. unfold p_setVoltage. pose proof N as N'. apply Nat.ltb_ge in N'. rewrite N'. clear N'.
  assert (Hl : length (map (o_I o) l) = length l) by apply map_length. revert Hl. generalize (map (o_I o) l).
  revert l L H N. generalize 50%nat. induction n as [|it IH]; intros l L H N Ia Hl; cbn [p_vloop].
  - split; [|split]; simpl; auto.
  - destruct (getVall_post l rc L H N) as [(Q1 & Q2 & Q3) Q4].
    destruct (getVall o l rc) as [l1 [Va|e| |]]; cbn [fst snd] in *; try (simpl in Q3; tauto).
    assert (E1 := len_of _ _ Q2).
    destruct (spread v Va <? _)%num; [split; [|split]; simpl; auto|].
    destruct (p_vadjust_post l1 v Ia Va Q1 ltac:(lia)) as [(P1 & P2 & P3) P4]. { rewrite (Q4 _ eq_refl). lia. }
    destruct (p_vadjust o v Ia Va l1) as [l2 [Ia'|e| |]]; cbn [fst snd] in *; try (simpl in P3; tauto).
    2: { split; [|split]; simpl; auto. now rewrite P2. }
    assert (E2 := len_of _ _ P2).
    destruct (IH l2 P1 ltac:(lia) ltac:(lia) Ia') as (R1 & R2 & R3). { rewrite (P4 _ eq_refl). lia. }
    split; [|split]; auto. now rewrite R2, P2.
Qed.

(** *** series current *)
Lemma s_restore_post i : forall olds l, lwf l -> (i < length l)%nat -> (i < length olds)%nat -> lpost l (s_restore o i olds l).
Proof.
  induction i as [|i IH]; intros olds l L H1 H2; cbn [s_restore].
  - split; [|split]; simpl; auto.
  - destruct (nth_some olds (Datatypes.S i) H2) as [io ->].
    destruct (nth_some l (Datatypes.S i) H1) as [s Es].
    destruct (child_do_post wf sh (o_setCurrent o io false) (Datatypes.S i) l s Es (sf_set _ _ _ Hu io false s (lwf_nth wf _ _ _ L Es)) L) as (P1 & P2 & P3).
    destruct (child_do _ _ l) as [l' [st|e| |]]; cbn [fst snd] in *; try (simpl in P3; tauto).
    + assert (E := len_of _ _ P2). destruct (IH olds l' P1 ltac:(lia) ltac:(lia)) as (R1 & R2 & R3).
      split; [|split]; auto. now rewrite R2.
    + split; [|split]; simpl; auto.
Qed.
Lemma s_setCurrent_post todo : forall i x b olds l, lwf l -> (i + todo = length l)%nat -> length olds = i -> (length l <= NSUs_MAX)%nat ->
  lpost l (s_setCurrent o todo i x b olds l).
Proof.
  induction todo as [|t IH]; intros i x b olds l L H Ho N; cbn [s_setCurrent].
  - split; [|split]; simpl; auto.
  - assert (Q : Nat.leb NSUs_MAX i = false) by (apply Nat.leb_gt; lia). rewrite Q.
    destruct (nth_some l i ltac:(lia)) as [s Es]. rewrite Es.
    destruct (child_do_post wf sh (o_setCurrent o x b) i l s Es (sf_set _ _ _ Hu x b s (lwf_nth wf _ _ _ L Es)) L) as (P1 & P2 & P3).
    destruct (child_do _ _ l) as [l' [st|e| |]]; cbn [fst snd] in *; try (simpl in P3; tauto).
    2: { split; [|split]; simpl; auto. }
    assert (E := len_of _ _ P2).
    destruct (isStatusBad st).
    + destruct (s_restore_post i (olds ++ [o_I o s]) l' P1 ltac:(lia)) as (R1 & R2 & R3). { rewrite app_length; simpl; lia. }
      destruct (s_restore o i _ l') as [l'' [u|e| |]]; cbn [fst snd] in *; try (simpl in R3; tauto);
        (split; [|split]; simpl; auto; now rewrite R2).
    + destruct (IH (Datatypes.S i) x b (olds ++ [o_I o s]) l' P1 ltac:(lia)) as (R1 & R2 & R3). { rewrite app_length; simpl; lia. } { lia. }
      split; [|split]; auto. now rewrite R2.
Qed.
Lemma mod_setCurrent_post x b m : mwf wf sh m -> post m (mod_setCurrent o x b m).
Proof.
  intros W. pose proof W as (N & H & _ & L). unfold mod_setCurrent. destruct (m_series (mm m)).
  - destruct (s_setCurrent_post (length (ms m)) 0 x b [] (ms m) L eq_refl eq_refl N) as (P1 & P2 & P3).
    destruct (s_setCurrent _ _ _ _ _ _ _) as [l r]. apply post_mk; auto.
  - destruct (p_setCurrent_post x (m_rc (mm m)) (ms m) L H N) as (P1 & P2 & P3).
    destruct (p_setCurrent _ _ _ _) as [l r]. apply post_mk; auto.
Qed.

(** *** states *)
Lemma ss_restore_post count : forall i orig l s, lwf l -> nth_error l i = Some s -> evenly (sh s) ->
  (count * size (sh s) <= length orig)%nat -> lpost l (ss_restore_from o count i orig l).
Proof.
  induction count as [|c IH]; intros i orig l s L Es Ev H; cbn [ss_restore_from].
  - split; [|split]; simpl; auto.
  - destruct (sf_states _ _ _ Hu orig false s (lwf_nth wf _ _ _ L Es) Ev ltac:(simpl in H; lia)) as [P Q].
    pose proof (child_do_post wf sh _ i l s Es P L) as (P1 & P2 & P3).
    assert (Er : snd (child_do (o_setStates o orig false) i l) = snd (o_setStates o orig false s)).
    { unfold child_do. rewrite Es. now destruct (o_setStates o orig false s). }
    assert (Ef : fst (child_do (o_setStates o orig false) i l) = list_set l i (fst (o_setStates o orig false s))).
    { unfold child_do. rewrite Es. now destruct (o_setStates o orig false s). }
    destruct (child_do _ i l) as [l' [[rest st]|e| |]]; cbn [fst snd] in *; try (simpl in P3; tauto).
    2: { split; [|split]; simpl; auto. }
    specialize (Q rest st (eq_sym Er)).
    assert (Es' : nth_error l' i = Some (fst (o_setStates o orig false s))).
    { rewrite Ef. clear - Es. revert i Es. induction l as [|z l IHl]; intros [|i] Es; simpl in *; try discriminate; auto. }
    destruct P as (_ & Psh & _).
    destruct (IH i rest l' _ P1 Es') as (R1 & R2 & R3). { now rewrite Psh. } { rewrite Psh. simpl in H. lia. }
    split; [|split]; auto. now rewrite R2.
Qed.
Fixpoint sizes l : nat := match l with [] => 0%nat | s :: t => (size (sh s) + sizes t)%nat end.
Lemma sizes_sh l l' : map sh l' = map sh l -> sizes l' = sizes l.
Proof.
  revert l'. induction l as [|s l IH]; intros [|s' l'] E; simpl in *; try discriminate; auto.
  injection E as E1 E2. rewrite E1, (IH l'); auto.
Qed.
Lemma list_sum_sizes l : list_sum (map size (map sh l)) = sizes l.
Proof. induction l; simpl; auto. Qed.
Lemma skipn_nth l i s : nth_error l i = Some s -> skipn i l = s :: skipn (Datatypes.S i) l.
Proof. revert i. induction l as [|z l IH]; intros [|i] E; simpl in *; try discriminate; [now injection E as ->|auto]. Qed.
Lemma sizes_k l k : Forall (fun s => size (sh s) = k) l -> sizes l = (length l * k)%nat.
Proof. induction 1; simpl; lia. Qed.
Lemma nth_map_sh l l' i s : map sh l' = map sh l -> nth_error l i = Some s ->
  exists s', nth_error l' i = Some s' /\ sh s' = sh s.
Proof.
  intros E H. assert (H' : nth_error (map sh l') i = Some (sh s)) by (rewrite E; now apply map_nth_error).
  destruct (nth_error l' i) as [s'|] eqn:E'.
  - exists s'. split; auto. rewrite (map_nth_error sh i l' E') in H'. now injection H'.
  - apply nth_error_None in E'. assert (nth_error (map sh l') i = None) by (apply nth_error_None; now rewrite map_length).
    rewrite H' in H0. discriminate.
Qed.
Lemma skipn_map_sh l l' i : map sh l' = map sh l -> sizes (skipn i l') = sizes (skipn i l).
Proof. intros E. apply sizes_sh. now rewrite <- !skipn_map, E. Qed.

Lemma ss_loop_post todo : forall i s orig b l k, lwf l -> (i + todo = length l)%nat ->
  Forall (fun s => evenly (sh s) /\ size (sh s) = k) l -> (length l * k <= length orig)%nat ->
  (sizes (skipn i l) < length s)%nat ->
  lpost l (ss_loop o todo i s orig b l) /\
  forall rest st, snd (ss_loop o todo i s orig b l) = Ok (rest, st) -> (length s <= length rest + sizes (skipn i l))%nat.
Proof.
  induction todo as [|t IH]; intros i s orig b l k L H Ev Ho Hs; cbn [ss_loop].
  - split; [split; [|split]; simpl; auto|]. cbn. intros rest st E. injection E as <- <-. lia.
  - destruct (nth_some l i ltac:(lia)) as [c Ec].
    assert (Hc : evenly (sh c) /\ size (sh c) = k). { rewrite Forall_forall in Ev. apply Ev. eapply nth_error_In; eauto. }
    destruct Hc as [Evc Kc]. rewrite (skipn_nth l i c Ec) in Hs |- *. cbn [sizes] in Hs |- *.
    destruct (sf_states _ _ _ Hu s b c (lwf_nth wf _ _ _ L Ec) Evc ltac:(lia)) as [P Q].
    pose proof (child_do_post wf sh _ i l c Ec P L) as (P1 & P2 & P3).
    assert (Er : snd (child_do (o_setStates o s b) i l) = snd (o_setStates o s b c)).
    { unfold child_do. rewrite Ec. now destruct (o_setStates o s b c). }
    destruct (child_do _ i l) as [l' [[rest st]|e| |]]; cbn [fst snd] in *; try (simpl in P3; tauto).
    2: { split; [split; [|split]; simpl; auto|cbn; intros ? ? E; discriminate]. }
    specialize (Q rest st (eq_sym Er)). assert (El := len_of _ _ P2).
    assert (Ev' : Forall (fun s => evenly (sh s) /\ size (sh s) = k) l').
    { rewrite Forall_forall in Ev |- *. intros x Hx. apply In_nth_error in Hx. destruct Hx as [j Hj].
      destruct (nth_map_sh l' l j x (eq_sym P2) Hj) as (x' & Hx' & Ex). rewrite <- Ex. apply Ev. eapply nth_error_In; eauto. }
    destruct (isStatusBad st).
    + destruct (nth_map_sh l l' i c P2 Ec) as (c' & Ec' & Esh).
      destruct (ss_restore_post (Datatypes.S i) i orig l' c' P1 Ec') as (R1 & R2 & R3). { now rewrite Esh. }
      { rewrite Esh, Kc. nia. }
      destruct (ss_restore_from o _ i orig l') as [l'' [u|e| |]]; cbn [fst snd] in *; try (simpl in R3; tauto).
      * split; [split; [|split]; simpl; auto; now rewrite R2|]. cbn [snd]. intros ? ? E. injection E as <- <-. lia.
      * split; [split; [|split]; simpl; auto; now rewrite R2|]. cbn [snd]. intros ? ? E. discriminate.
    + assert (Hsk : sizes (skipn (Datatypes.S i) l') = sizes (skipn (Datatypes.S i) l)) by now apply skipn_map_sh.
      destruct (IH (Datatypes.S i) rest orig b l' k P1 ltac:(lia) Ev' ltac:(lia) ltac:(lia)) as [(R1 & R2 & R3) R4].
      split; [split; [|split]; auto; now rewrite R2|]. intros rest' st' E. specialize (R4 rest' st' E). lia.
Qed.
Lemma cool_setT_defined (t : A) k : defined (snd (cool_setT t k)).
Proof. unfold cool_setT. repeat (match goal with |- context [if ?b then _ else _] => destruct b end; simpl; auto). Qed.

Lemma evenly_node (L : list shape) : evenly (Node L) -> exists k, Forall (fun c => evenly c /\ size c = k) L.
Proof.
  cbn [evenly]. intros [(k & Hk) Ha]. exists k. induction L as [|c L IH]; constructor; inversion Hk; subst; destruct Ha; auto.
Qed.
Lemma mod_setStates_post s b m : mwf wf sh m -> evenly (msh sh m) -> (size (msh sh m) <= length s)%nat ->
  post m (mod_setStates o s b m) /\
  forall rest st, snd (mod_setStates o s b m) = Ok (rest, st) -> (length s <= length rest + size (msh sh m))%nat.
Proof.
  intros W Ev H. pose proof W as (N & Hr & _ & L).
  destruct (evenly_node _ Ev) as [k Hk]. rewrite Forall_map in Hk.
  assert (Hsz : size (msh sh m) = Datatypes.S (sizes (ms m))) by (unfold msh; cbn [size]; now rewrite list_sum_sizes).
  assert (Hg := mod_len m W).
  assert (Hk' : sizes (ms m) = (length (ms m) * k)%nat) by (apply sizes_k; eapply Forall_impl; [|exact Hk]; cbn; tauto).
  destruct (ss_loop_post (length (ms m)) 0 s (mod_getStates o m) b (ms m) k L eq_refl Hk ltac:(lia)) as [(P1 & P2 & P3) P4].
  { cbn [skipn]. lia. }
  cbn [skipn] in P4. unfold mod_setStates.
  destruct (ss_loop o _ 0 s _ b (ms m)) as [l [[rest st]|e| |]]; cbn [fst snd] in *; try (simpl in P3; tauto).
  2: { split; [apply post_mk; auto; exact Logic.I|cbn; intros ? ? E; discriminate]. }
  specialize (P4 rest st eq_refl).
  destruct (isStatusBad st).
  { split; [apply post_mk; auto; exact Logic.I|]. cbn [snd]. intros ? ? E. injection E as <- <-. rewrite Hsz. lia. }
  destruct rest as [|t rest]; [simpl in P4; lia|].
  pose proof (cool_setT_defined t (m_cool (mm (mkM (inval (mm m)) l)))) as D.
  destruct (cool_setT t _) as [kk [u|e| |]]; cbn [snd] in D; try (simpl in D; tauto).
  - split; [apply post_mk; auto; exact Logic.I|]. cbn [snd]. intros ? ? E. injection E as <- <-. rewrite Hsz. simpl in P4. lia.
  - split; [apply post_mk; auto; exact Logic.I|]. cbn. intros ? ? E. discriminate.
Qed.

(** *** thermal model *)
Lemma neighbours_some m i l : (i < length l)%nat -> exists nb, neighbours o m i l = Some nb.
Proof.
  intros H. unfold neighbours.
  assert (Q : exists a, match i with O => Some (mod_T m, m_k (mm m), mod_area m)
     | Datatypes.S i' => option_map (fun s => (o_T o s, m_k (mm m), o_area o s)) (nth_error l i') end = Some a).
  { destruct i as [|i]; eauto. destruct (nth_some l i ltac:(lia)) as [x ->]. cbn. eauto. }
  destruct Q as [a ->]. destruct (Nat.ltb (i + 1) (length l)) eqn:E; eauto.
  apply Nat.ltb_lt in E. destruct (nth_some l (i + 1) E) as [x ->]. cbn. eauto.
Qed.
Lemma th_children_post todo : forall i m tim l, lwf l -> (i + todo = length l)%nat ->
  lpost l (th_children o todo i m tim l) /\ forall ts, snd (th_children o todo i m tim l) = Ok ts -> length ts = todo.
Proof.
  induction todo as [|t IH]; intros i m tim l L H; cbn [th_children].
  - split; [split; [|split]; simpl; auto|]. cbn. intros ts E. injection E as <-. auto.
  - destruct (neighbours_some m i l ltac:(lia)) as [nb ->].
    destruct (nth_some l i ltac:(lia)) as [c Ec].
    pose proof (child_do_post wf sh _ i l c Ec (sf_thermal _ _ _ Hu nb tim c (lwf_nth wf _ _ _ L Ec)) L) as (P1 & P2 & P3).
    destruct (child_do _ i l) as [l' [x|e| |]]; cbn [fst snd] in *; try (simpl in P3; tauto).
    2: { split; [split; [|split]; simpl; auto|cbn; intros ? E; discriminate]. }
    assert (El := len_of _ _ P2).
    destruct (IH (Datatypes.S i) m tim l' P1 ltac:(lia)) as [(R1 & R2 & R3) R4].
    destruct (th_children o t _ m tim l') as [l'' r]. cbn [fst snd] in *.
    split; [split; [|split]; cbn [fst snd]; auto using defined_rmap; now rewrite R2|].
    cbn [snd]. intros ts E. destruct r; try discriminate. cbn in E. injection E as <-. cbn [length]. f_equal. auto.
Qed.
Lemma set_temps_post l : forall ts, lwf l -> length ts = length l -> lpost l (set_temps o ts l).
Proof.
  induction l as [|s l IH]; intros ts L H; cbn [set_temps]; [split; [|split]; simpl; auto|].
  destruct ts as [|t ts]; [simpl in H; lia|]. simpl in H. inversion L as [|? ? Hs L']; subst.
  destruct (sf_setT _ _ _ Hu t s Hs) as (V1 & V2 & V3).
  destruct (o_setT o t s) as [s' [st|e| |]]; cbn [fst snd] in *; try (simpl in V3; tauto).
  - destruct (IH ts L' ltac:(lia)) as (I1 & I2 & I3). destruct (set_temps o ts l) as [l'' r]. cbn [fst snd] in *.
    split; [|split]; cbn [fst snd]; auto. constructor; auto. cbn [map]. now rewrite V2, I2.
  - split; [|split]; cbn [fst snd]; try exact Logic.I. constructor; auto. cbn [map]. now rewrite V2.
Qed.
Lemma cool_dstate_defined (a b t : A) k : defined (snd (cool_dstate a b t k)).
Proof.
  unfold cool_dstate. destruct (k_kind k); try exact Logic.I. destruct (nabs _ >? _)%num; exact Logic.I.
Qed.
Lemma th_coupled_post nb t m : mwf wf sh m -> post m (th_coupled o nb t m).
Proof.
  intros W. pose proof W as (N & Hr & _ & L). unfold th_coupled.
  destruct (nabs _ >? nZ 1)%num; [apply post_mk; auto; exact Logic.I|].
  destruct (neqb t (nZ 0)); [apply post_mk; auto; exact Logic.I|].
  pose proof N as N'. apply Nat.ltb_ge in N'. rewrite N'. clear N'.
  destruct (th_children_post (length (ms m)) 0 m t (ms m) L eq_refl) as [(P1 & P2 & P3) P4].
  destruct (th_children o _ 0 m t (ms m)) as [l [Tn|e| |]]; cbn [fst snd] in *; try (simpl in P3; tauto).
  2: { apply post_mk; auto; exact Logic.I. }
  assert (El := len_of _ _ P2).
  set (e1 := nadd _ (m_Qc (mm m))). set (e2 := th_neigh _ _ _ _ nb). clearbody e2. clearbody e1.
  pose proof (cool_dstate_defined e2 e1 t (m_cool (mm m))) as D.
  destruct (cool_dstate e2 e1 t _) as [kk [Tc|e| |]]; cbn [snd] in D; try (simpl in D; tauto).
  2: { apply post_mk; auto; exact Logic.I. }
  destruct (set_temps_post l Tn P1) as (R1 & R2 & R3). { rewrite (P4 _ eq_refl). auto. }
  destruct (set_temps o Tn l) as [l' [u|e| |]]; cbn [fst snd] in *; try (simpl in R3; tauto).
  - match goal with |- context [if ?b then _ else _] => destruct b end; apply post_mk; cbn [ms mm]; auto; try exact Logic.I; now rewrite R2.
  - apply post_mk; cbn [ms mm]; auto; try exact Logic.I; now rewrite R2.
Qed.
Lemma th_cell_post m : mwf wf sh m -> post m (th_cell o m).
Proof.
  intros W. pose proof W as (N & Hr & _ & L). unfold th_cell.
  pose proof N as N'. apply Nat.ltb_ge in N'. rewrite N'. clear N'.
  destruct (each_post wf sh (o_thermal o [(nZ 0, nZ 0, nZ 0)] (nZ 0)) (ms m) (fun s Hs => sf_thermal _ _ _ Hu _ _ s Hs) L) as [(P1 & P2 & P3) P4].
  destruct (each _ (ms m)) as [l [Tn|e| |]]; cbn [fst snd] in *; try (simpl in P3; tauto).
  2: { apply post_mk; auto; exact Logic.I. }
  assert (El := len_of _ _ P2).
  destruct (set_temps_post l Tn P1) as (R1 & R2 & R3). { rewrite (P4 _ eq_refl). auto. }
  destruct (set_temps o Tn l) as [l' [u|e| |]]; cbn [fst snd] in *; try (simpl in R3; tauto);
    apply post_mk; cbn [ms mm]; auto; try exact Logic.I; now rewrite R2.
Qed.
Lemma msh_of m m' : msh sh m' = msh sh m -> map sh (ms m') = map sh (ms m).
Proof. unfold msh. intros E. now injection E. Qed.
(** keeps what [formed] looks at *)
Definition kept m m' : Prop := m_rc (mm m') = m_rc (mm m) /\ m_par (mm m') = m_par (mm m).
Lemma th_coupled_kept nb t m : kept m (fst (th_coupled o nb t m)).
Proof.
  unfold th_coupled, kept. destruct (nabs _ >? nZ 1)%num; [auto|]. destruct (neqb t (nZ 0)); [auto|].
  destruct (Nat.ltb _ _); [auto|]. destruct (th_children _ _ _ _ _ _) as [l [Tn|e| |]]; auto.
  destruct (cool_dstate _ _ _ _) as [kk [Tc|e| |]]; auto. destruct (set_temps _ _ _) as [l' [u|e| |]]; auto.
  match goal with |- context [if ?b then _ else _] => destruct b end; auto.
Qed.
Lemma th_cell_kept m : kept m (fst (th_cell o m)).
Proof.
  unfold th_cell, kept. destruct (Nat.ltb _ _); [auto|]. destruct (each _ _) as [l [Tn|e| |]]; auto.
  destruct (set_temps _ _ _) as [l' [u|e| |]]; auto.
Qed.
Lemma mod_thermal_post nb t m : mwf wf sh m -> post m (mod_thermal o tm nb t m) /\ kept m (fst (mod_thermal o tm nb t m)).
Proof.
  intros W. pose proof W as (_ & _ & _ & L). unfold mod_thermal.
  assert (Q : let p := if (tm =? 0)%Z then (m, Ok (mod_T m)) else if (tm =? 1)%Z then th_cell o m else th_coupled o nb t m in
              post m p /\ kept m (fst p)).
  { cbv zeta. destruct (tm =? 0)%Z; [|destruct (tm =? 1)%Z].
    - split; [apply post_mk; auto; exact Logic.I|split; auto].
    - split; [now apply th_cell_post|apply th_cell_kept].
    - split; [now apply th_coupled_post|apply th_coupled_kept]. }
  cbv zeta in Q. destruct (if (tm =? 0)%Z then _ else _) as [m1 r]. destruct Q as [(Q1 & Q2 & Q3) [Q4 Q5]]. cbn [fst snd] in *.
  apply msh_of in Q2. pose proof Q1 as (_ & _ & _ & L1).
  destruct r; try (simpl in Q3; tauto); (split; [apply post_mk; auto|split; auto]).
Qed.
Lemma mod_setT_post t m : mwf wf sh m -> post m (mod_setT t m) /\ kept m (fst (mod_setT t m)).
Proof.
  intros W. pose proof W as (_ & _ & _ & L). unfold mod_setT. pose proof (cool_setT_defined t (m_cool (mm m))) as D.
  destruct (cool_setT t _) as [k r]. split; [apply post_mk; auto|split; auto].
Qed.

(** *** time step *)
Lemma step_children_post par dt n l : lwf l -> (par = true -> Forall (fun s => calm (sh s)) l) -> (dt <? nZ 0)%num = false ->
  lpost l (step_children o par dt n l).
Proof.
  intros L Hp Hdt. unfold step_children. destruct par.
  - specialize (Hp eq_refl).
    destruct (each_post1 wf sh (o_timeStep o dt n) l) as (P1 & P2 & P3); auto.
    { intros s Hin Hs. destruct (sf_step _ _ _ Hu dt n s Hs) as (A1 & A2 & A3). split; [|split]; auto.
      apply (sf_calm _ _ _ Hu); auto. rewrite Forall_forall in Hp. now apply Hp. }
    destruct (each _ l) as [l' [u|e| |]]; cbn [fst snd] in *; try (simpl in P3; tauto). split; [|split]; simpl; auto.
  - destruct (each_post wf sh (o_timeStep o dt n) l (fun s Hs => sf_step _ _ _ Hu dt n s Hs) L) as [(P1 & P2 & P3) _].
    destruct (each _ l) as [l' [u|e| |]]; cbn [fst snd] in *; try (simpl in P3; tauto); (split; [|split]; simpl; auto).
Qed.
Lemma mod_heat_step_post dt n m : mwf wf sh m -> post m (mod_heat_step o tm dt n m) /\ kept m (fst (mod_heat_step o tm dt n m)).
Proof.
  intros W. pose proof W as (N & Hr & Hp & L). unfold mod_heat_step.
  destruct (m_block (mm m)); [split; [apply post_mk; auto; exact Logic.I|split; auto]|].
  set (q := if m_series (mm m) then _ else _). clearbody q.
  set (m1 := mkM (ModuleModel.set_therm (mm m) q _) (ms m)).
  assert (W1 : mwf wf sh m1 /\ msh sh m1 = msh sh m) by (apply mwf_change; auto).
  destruct W1 as [W1 S1].
  assert (K1 : m_rc (mm m1) = m_rc (mm m)) by reflexivity. assert (K2 : m_par (mm m1) = m_par (mm m)) by reflexivity.
  set (tt1 := m_time (mm m1)). clearbody tt1. clearbody m1.
  assert (Q : let p := if m_top (mm m) then
        match k_kind (m_cool (mm m)) with
        | CHvac _ => match mod_thermal o tm [] tt1 m1 with (m2, Ok t) => mod_setT t m2 | (m2, e) => (m2, cast e) end
        | _ => (m1, Throw 14) end else (m1, Ok tt) in
      (mwf wf sh (fst p) /\ msh sh (fst p) = msh sh m /\ defined (snd p)) /\ kept m (fst p)).
  { cbv zeta. unfold kept. destruct (m_top (mm m)); [|cbn [fst snd]; simpl; auto 7]. destruct (k_kind (m_cool (mm m))); try (cbn [fst snd]; simpl; auto 7; fail).
    destruct (mod_thermal_post [] tt1 m1 W1) as [(T1 & T2 & T3) [T4 T5]].
    destruct (mod_thermal o tm [] tt1 m1) as [m2 [t|e| |]]; cbn [fst snd] in *; try (simpl in T3; tauto).
    - destruct (mod_setT_post t m2 T1) as [(U1 & U2 & U3) [U4 U5]].
      split; [split; [|split]; auto|split]; congruence.
    - split; [split; [|split]; auto; try exact Logic.I|split]; congruence. }
  cbv zeta in Q. destruct (if m_top (mm m) then _ else _) as [m2 r]. destruct Q as [(Q1 & Q2 & Q3) [Q4 Q5]]. cbn [fst snd] in *.
  apply msh_of in Q2. pose proof Q1 as (_ & _ & _ & L2).
  destruct r; try (simpl in Q3; tauto); (split; [apply post_mk; auto; exact Logic.I|split; auto]).
Qed.
Lemma mod_timeStep_post dt n m : mwf wf sh m -> post m (mod_timeStep o tm dt n m).
Proof.
  intros W. pose proof W as (N & Hr & Hp & L). unfold mod_timeStep.
  destruct (dt <? nZ 0)%num eqn:Hdt; [apply post_mk; auto; exact Logic.I|].
  destruct (step_children_post (m_par (mm m)) dt n (ms m) L Hp Hdt) as (P1 & P2 & P3).
  destruct (step_children o _ dt n (ms m)) as [l [u|e| |]]; cbn [fst snd] in *; try (simpl in P3; tauto).
  2: { apply post_mk; auto; exact Logic.I. }
  destruct (mwf_change wf sh m (mkM (mm m) l) W P1 P2 eq_refl eq_refl) as [W1 S1].
  destruct (mod_heat_step_post dt n (mkM (mm m) l) W1) as [(T1 & T2 & T3) [T4 T5]].
  destruct (mod_heat_step o tm dt n (mkM (mm m) l)) as [m1 [u1|e| |]]; cbn [fst snd] in *; try (simpl in T3; tauto).
  2: { split; [|split]; cbn [fst snd]; auto; congruence. }
  apply msh_of in T2. cbn [ms mm] in *. pose proof T1 as (N1 & R1 & _ & L1).
  destruct (m_series (mm m)).
  { apply post_mk; cbn [ms mm]; auto; try exact Logic.I; try (now rewrite T2). }
  destruct (p_redistribute_post (m_rc (mm m1)) (ms m1) L1 R1 N1) as (A1 & A2 & A3).
  change (m_rc (inval (mm m1))) with (m_rc (mm m1)).
  destruct (p_redistribute o (m_rc (mm m1)) (ms m1)) as [l2 [st|e| |]]; cbn [fst snd] in *; try (simpl in A3; tauto).
  2: { apply post_mk; cbn [ms mm]; auto; try exact Logic.I; try (now rewrite A2, T2). }
  destruct (status_eqb st Success). { apply post_mk; cbn [ms mm]; auto; try exact Logic.I; try (now rewrite A2, T2). }
  assert (El := len_of _ _ A2).
  destruct (p_redistribute_post (m_rc (mm m1)) l2 A1 ltac:(lia) ltac:(lia)) as (B1 & B2 & B3).
  destruct (p_redistribute o (m_rc (mm m1)) l2) as [l3 [st3|e| |]]; cbn [fst snd] in *; try (simpl in B3; tauto);
    (apply post_mk; cbn [ms mm]; auto; try exact Logic.I; try (now rewrite B2, A2, T2)).
Qed.
Lemma cl_children_post l : forall acc, lwf l -> lpost l (cl_children o acc l).
Proof.
  induction l as [|s l IH]; intros acc L; cbn [cl_children]; [split; [|split]; simpl; auto|].
  inversion L as [|? ? Hs L']; subst. destruct (sf_cool _ _ _ Hu s Hs) as (V1 & V2 & V3).
  destruct (o_coolload o s) as [s' [[x|]|e| |]]; cbn [fst snd] in *; try (simpl in V3; tauto).
  - destruct (IH (nadd acc x) L') as (I1 & I2 & I3). destruct (cl_children o _ l) as [l'' r]. cbn [fst snd] in *.
    split; [|split]; cbn [fst snd]; auto. constructor; auto. cbn [map]. now rewrite V2, I2.
  - destruct (IH acc L') as (I1 & I2 & I3). destruct (cl_children o _ l) as [l'' r]. cbn [fst snd] in *.
    split; [|split]; cbn [fst snd]; auto. constructor; auto. cbn [map]. now rewrite V2, I2.
  - split; [|split]; cbn [fst snd]; try exact Logic.I. constructor; auto. cbn [map]. now rewrite V2.
Qed.

Theorem mod_safe : safe_unit (mod_ops o tm) (mwf wf sh) (msh sh).
Proof.
  constructor; cbn [mod_ops o_getStates o_OCV o_Rtot o_V o_checkV o_Vhigh o_Vlow o_setCurrent o_timeStep o_thermal o_setT o_setFlag o_coolload o_setStates].
  - apply mod_len.
  - apply mod_OCV_def.
  - apply mod_Rtot_def.
  - apply mod_V_post.
  - apply mod_checkV_post.
  - intros m W. apply (mod_each (o_Vhigh o) m); auto. apply (sf_Vhigh _ _ _ Hu).
  - intros m W. apply (mod_each (o_Vlow o) m); auto. apply (sf_Vlow _ _ _ Hu).
  - intros. now apply mod_setCurrent_post.
  - intros. now apply mod_timeStep_post.
  - intros dt n m W []. 
  - intros. now apply mod_thermal_post.
  - intros. now apply mod_setT_post.
  - intros b m W. pose proof W as (_ & _ & _ & L). apply mwf_change; auto.
  - intros m W. pose proof W as (_ & _ & _ & L). unfold mod_coolload.
    destruct (cl_children_post (ms m) (cool_Eop (m_cool (mm m))) L) as (P1 & P2 & P3).
    destruct (cl_children o _ (ms m)) as [l r]. cbn [fst snd] in *. apply post_mk; cbn [ms mm]; auto using defined_rmap.
  - intros. now apply mod_setStates_post.
Qed.
End Module.

(** ** dynamic dispatch and trees *)
Lemma sum_safe {X Y} (ox : su_ops A X) (oy : su_ops A Y) wx wy hx hy :
  safe_unit ox wx hx -> safe_unit oy wy hy -> safe_unit (sum_ops ox oy) (both wx wy) (both hx hy).
Proof.
  intros HX HY. constructor; cbn [sum_ops o_getStates o_OCV o_Rtot o_V o_checkV o_Vhigh o_Vlow o_setCurrent o_timeStep o_thermal o_setT o_setFlag o_coolload o_setStates];
  try (intros [s|s]; cbn [both]; [apply HX|apply HY]).
  all: try (intros [s|s] W; cbn [both on_l on_r] in *; unfold on_l, on_r;
    [pose proof (sf_V _ _ _ HX s W) as P; destruct (o_V ox s)|pose proof (sf_V _ _ _ HY s W) as P; destruct (o_V oy s)]; exact P).
  all: try (intros [s|s] W; cbn [both on_l on_r] in *; unfold on_l, on_r;
    [pose proof (sf_checkV _ _ _ HX s W) as P; destruct (o_checkV ox s)|pose proof (sf_checkV _ _ _ HY s W) as P; destruct (o_checkV oy s)]; exact P).
  all: try (intros [s|s] W; cbn [both on_l on_r] in *; unfold on_l, on_r;
    [pose proof (sf_Vhigh _ _ _ HX s W) as P; destruct (o_Vhigh ox s)|pose proof (sf_Vhigh _ _ _ HY s W) as P; destruct (o_Vhigh oy s)]; exact P).
  all: try (intros [s|s] W; cbn [both on_l on_r] in *; unfold on_l, on_r;
    [pose proof (sf_Vlow _ _ _ HX s W) as P; destruct (o_Vlow ox s)|pose proof (sf_Vlow _ _ _ HY s W) as P; destruct (o_Vlow oy s)]; exact P).
  all: try (intros [s|s] W; cbn [both on_l on_r] in *; unfold on_l, on_r;
    [pose proof (sf_cool _ _ _ HX s W) as P; destruct (o_coolload ox s)|pose proof (sf_cool _ _ _ HY s W) as P; destruct (o_coolload oy s)]; exact P).
  - intros i b [s|s] W; cbn [both on_l on_r] in *; unfold on_l, on_r;
    [pose proof (sf_set _ _ _ HX i b s W) as P; destruct (o_setCurrent ox i b s)|pose proof (sf_set _ _ _ HY i b s W) as P; destruct (o_setCurrent oy i b s)]; exact P.
  - intros i b [s|s] W; cbn [both on_l on_r] in *; unfold on_l, on_r;
    [pose proof (sf_step _ _ _ HX i b s W) as P; destruct (o_timeStep ox i b s)|pose proof (sf_step _ _ _ HY i b s W) as P; destruct (o_timeStep oy i b s)]; exact P.
  - intros i b [s|s] W C D; cbn [both on_l on_r] in *; unfold on_l, on_r;
    [pose proof (sf_calm _ _ _ HX i b s W C D) as P; destruct (o_timeStep ox i b s)|pose proof (sf_calm _ _ _ HY i b s W C D) as P; destruct (o_timeStep oy i b s)]; exact P.
  - intros i b [s|s] W; cbn [both on_l on_r] in *; unfold on_l, on_r;
    [pose proof (sf_thermal _ _ _ HX i b s W) as P; destruct (o_thermal ox i b s)|pose proof (sf_thermal _ _ _ HY i b s W) as P; destruct (o_thermal oy i b s)]; exact P.
  - intros i [s|s] W; cbn [both on_l on_r] in *; unfold on_l, on_r;
    [pose proof (sf_setT _ _ _ HX i s W) as P; destruct (o_setT ox i s)|pose proof (sf_setT _ _ _ HY i s W) as P; destruct (o_setT oy i s)]; exact P.
  - intros b [s|s] W; cbn [both] in *; [apply (sf_flag _ _ _ HX b s W)|apply (sf_flag _ _ _ HY b s W)].
  - intros i b [s|s] W E H; cbn [both on_l on_r] in *; unfold on_l, on_r;
    [pose proof (sf_states _ _ _ HX i b s W E H) as P; destruct (o_setStates ox i b s)|pose proof (sf_states _ _ _ HY i b s W E H) as P; destruct (o_setStates oy i b s)]; exact P.
Qed.

Lemma safe_ext {S} (o : su_ops A S) (w w' : S -> Prop) (h h' : S -> shape) :
  (forall s, w s <-> w' s) -> (forall s, h s = h' s) -> safe_unit o w h -> safe_unit o w' h'.
Proof.
  intros Hw Hh [].
  constructor; intros; rewrite <- ?Hh in *; try (apply Hw in H);
    unfold upost, upost1 in *; rewrite <- ?Hh; rewrite <- ?Hw; eauto.
Qed.

Theorem tree_safe {C} (oc : su_ops A C) leaf lsh (tm : Z) n :
  safe_unit oc leaf lsh -> safe_unit (su_ops_at oc tm n) (formed leaf lsh n) (shape_of lsh n).
Proof.
  intros HC. induction n as [|n IH]; [exact HC|].
  cbn [su_ops_at]. eapply safe_ext; [| |apply (sum_safe _ _ _ _ _ _ HC (mod_safe _ _ _ IH tm))].
  - intros [c|m]; cbn [both formed]; unfold mwf, lwf; tauto.
  - intros [c|m]; reflexivity.
Qed.

(** ** histories *)
Section Hist.
Context {S : Type} (o : su_ops A S) (wf : S -> Prop) (sh : S -> shape) (Hu : safe_unit o wf sh).
Lemma setVoltage_loop_post it : forall v ia s, wf s -> upost wf sh s (setVoltage_loop o it v ia s).
Proof.
  induction it as [|it IH]; intros v ia s W; cbn [setVoltage_loop]; [split; [|split]; simpl; auto|].
  destruct (sf_V _ _ _ Hu s W) as (V1 & V2 & V3).
  destruct (o_V o s) as [s1 [va|e| |]]; cbn [fst snd] in *; try (simpl in V3; tauto).
  destruct (_ <? _)%num; [split; [|split]; simpl; auto|].
  set (ib := if (v >? va)%num then _ else _). clearbody ib.
  destruct (sf_set _ _ _ Hu ib true s1 V1) as (A1 & A2 & A3).
  destruct (o_setCurrent o ib true s1) as [s2 [st|e| |]]; cbn [fst snd] in *; try (simpl in A3; tauto).
  2: { split; [|split]; simpl; auto. congruence. }
  destruct (sf_V _ _ _ Hu s2 A1) as (B1 & B2 & B3).
  destruct (o_V o s2) as [s3 [vb|e| |]]; cbn [fst snd] in *; try (simpl in B3; tauto).
  set (ia' := nsub ib _). clearbody ia'.
  destruct (sf_set _ _ _ Hu ia' true s3 B1) as (C1 & C2 & C3).
  destruct (o_setCurrent o ia' true s3) as [s4 [st4|e| |]]; cbn [fst snd] in *; try (simpl in C3; tauto).
  2: { split; [|split]; simpl; auto. congruence. }
  destruct (IH v ia' s4 C1) as (D1 & D2 & D3). split; [|split]; auto. congruence.
Qed.
Lemma forget_post {B} s (p : S * res B) : upost wf sh s p -> upost wf sh s (forget p).
Proof. intros (H1 & H2 & H3). split; [|split]; cbn; auto. destruct (snd p); simpl in *; auto. Qed.
Lemma do_call_post c s : wf s -> admissible (sh s) c -> upost wf sh s (do_call o c s).
Proof.
  intros W Ad. destruct c; cbn [do_call]; try apply forget_post.
  - apply post1_post. now apply (sf_V _ _ _ Hu).
  - apply post1_post. now apply (sf_checkV _ _ _ Hu).
  - now apply (sf_Vhigh _ _ _ Hu).
  - now apply (sf_Vlow _ _ _ Hu).
  - split; [|split]; auto. now apply (sf_OCV _ _ _ Hu).
  - split; [|split]; auto. now apply (sf_Rtot _ _ _ Hu).
  - now apply (sf_set _ _ _ Hu).
  - now apply setVoltage_loop_post.
  - destruct Ad. now apply (sf_states _ _ _ Hu).
  - now apply (sf_step _ _ _ Hu).
  - now apply (sf_thermal _ _ _ Hu).
  - now apply (sf_setT _ _ _ Hu).
  - destruct (sf_flag _ _ _ Hu b s W). split; [|split]; auto; exact Logic.I.
  - now apply (sf_cool _ _ _ Hu).
Qed.
Theorem history_safe cs : forall s, wf s -> Forall (admissible (sh s)) cs ->
  Forall defined (outcomes o cs s) /\ wf (after o cs s) /\ sh (after o cs s) = sh s.
Proof.
  induction cs as [|c cs IH]; intros s W Ad; cbn [outcomes after]; [auto|].
  inversion Ad as [|? ? Ac Ad']; subst.
  destruct (do_call_post c s W Ac) as (P1 & P2 & P3). destruct (do_call o c s) as [s' r]. cbn [fst snd] in *.
  rewrite <- P2 in Ad'. destruct (IH s' P1 Ad') as (Q1 & Q2 & Q3). split; [|split]; auto. congruence.
Qed.
End Hist.
End Safe.
