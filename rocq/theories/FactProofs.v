(** * Proofs about the pack factories *)
From Coq Require Import String DecimalString DecimalNat Ascii.
From Verif Require Import Base RFacts StatusModel CellModel CoolModel ModuleModel BattModel BattProofs FactModel FactSpec.

(** What the construction needs of the carrier: 15 degrees is an allowed temperature and a new converter has one inverter. *)
Definition carrier_ok (A : Type) {NA : Num A} : Prop :=
  (forall k : cool A, cool_setT T_ENV k = (with_kT k T_ENV, Ok tt)) /\
  (forall v i : A, exists q, conv_losses conv_make v i = Ok q).

Lemma carrier_f64 : carrier_ok f64.
Proof.
  split.
  - intros k. unfold cool_setT.
    match goal with |- (if ?q then _ else _) = _ => assert (E : q = false) by (vm_compute; reflexivity); rewrite E end. reflexivity.
  - intros v i. unfold conv_losses.
    match goal with |- exists q, rmap _ ?t = _ => assert (E : t = Ok 1%Z) by (vm_compute; reflexivity); rewrite E end.
    cbn [rmap rbind]. eexists. reflexivity.
Qed.
Lemma carrier_R : carrier_ok R.
Proof.
  split.
  - intros k. unfold cool_setT, T_ENV, degC, nisnan. rewrite !R_nZ.
    match goal with |- (if ?q then _ else _) = _ => assert (E : q = false); [|now rewrite E] end.
    apply orb_false_iff. split; [apply orb_false_iff; split|].
    + apply Rltb_false. apply IZR_le. lia.
    + apply Rltb_false. apply IZR_le. lia.
    + apply negb_false_iff. now apply Reqb_true.
  - intros v i. destruct (inverters (v_pnom (conv_make (A := R)))) as (n & E & _).
    + unfold conv_make. cbn [v_pnom]. rewrite R_nZ. lra.
    + unfold conv_make. cbn [v_pnom]. rewrite R_nZ. lra.
    + eexists. apply conv_losses_formula. exact E.
Qed.

Section F.
Context {A : Type} {NA : Num A} (OK : carrier_ok A) {G : Type} (draw_c draw_r draw_d : G -> A * G).
Context {C : Type} (mk : string -> A -> A -> A -> A -> res C) (oc : su_ops A C) (tm : Z).
Hypothesis total : forall s a b c d, exists x, mk s a b c d = Ok x.
Hypothesis one : forall x, o_N oc x = 1%nat.
Notation stack := (stack draw_c draw_r draw_d mk oc tm).
Notation assemble := (assemble oc tm).
Notation made := (made draw_c draw_r draw_d mk).
Notation ops := (su_ops_at oc tm).

Definition plain (v : level A) : Prop := v_cool v = 0%Z \/ v_cool v = 2%Z.

Lemma made_app f is1 is2 g g1 g2 xs1 xs2 : made f is1 g xs1 g1 -> made f is2 g1 xs2 g2 -> made f (is1 ++ is2) g (xs1 ++ xs2) g2.
Proof. induction 1; intros; cbn; [assumption|]. econstructor; eauto. Qed.

Lemma adopt_N n (u : su A C n) : o_N (ops n) (adopt u) = o_N (ops n) u.
Proof. destruct n; cbn; [reflexivity|]. now destruct u. Qed.
Lemma adopt_leaves n (u : su A C n) : leaves (view n (adopt u)) = leaves (view n u).
Proof. destruct n; cbn; [reflexivity|]. now destruct u. Qed.

Lemma fold_N {X} (h : X -> nat) l k : (forall x, In x l -> h x = k) -> forall a, fold_left (fun r s => (r + h s)%nat) l a = (a + length l * k)%nat.
Proof.
  induction l as [|x l IH]; intros H a; cbn; [lia|]. rewrite (H x) by now left. rewrite IH; [lia|]. intros; apply H; now right.
Qed.

Lemma assemble_ok n v ncells ctrl (l : list (su A C n)) k : plain v -> (forall u, In u l -> o_N (ops n) u = k) ->
  exists m, assemble v ncells ctrl l = Ok m /\ ms m = map adopt l /\ m_series (mm m) = v_ser v /\
    m_rc (mm m) = repeat (v_rc v) (length l) /\ cooling_type (m_cool (mm m)) = v_cool v /\ k_ctrl (m_cool (mm m)) = ctrl /\
    m_N (mm m) = (length l * k)%nat /\ m_top (mm m) = true /\ m_par (mm m) = v_par v /\
    (match k_kind (m_cool (mm m)) with CHvac _ => False | _ => True end).
Proof.
  intros P HN. unfold assemble, FactModel.assemble, mod_make. rewrite (proj1 OK). cbn [rmap rbind].
  eexists. split; [reflexivity|].
  cbn [mod_setRcontact mod_setSUs inval set_N set_rc set_V mm ms m_series m_rc m_cool m_N m_top m_par].
  assert (E : fold_left (fun r s => (r + o_N (ops n) s)%nat) (map adopt l) 0%nat = (length l * k)%nat).
  { rewrite (fold_N _ _ k), map_length; [lia|]. intros x Hx. apply in_map_iff in Hx. destruct Hx as (u & <- & Hu).
    rewrite adopt_N. now apply HN. }
  rewrite E. destruct P as [P|P]; rewrite P; cbn [Z.eqb Pos.eqb]; repeat split; reflexivity.
Qed.

Lemma factors_draws f g a b c d g' : factors draw_c draw_r draw_d f g = ((a, b, c, d), g') ->
  exists g1 g2 g3, draws (f_cap f) draw_c g a g1 /\ draws (f_R f) draw_r g1 b g2 /\
    draws (f_deg f) draw_d g2 c g3 /\ draws (f_deg f) draw_d g3 d g'.
Proof.
  unfold factors. intros H.
  destruct (if f_cap f then draw_c g else (nZ 1, g)) as [x1 g1] eqn:E1.
  destruct (if f_R f then draw_r g1 else (nZ 1, g1)) as [x2 g2] eqn:E2.
  destruct (if f_deg f then draw_d g2 else (nZ 1, g2)) as [x3 g3] eqn:E3.
  destruct (if f_deg f then draw_d g3 else (nZ 1, g3)) as [x4 g4] eqn:E4.
  injection H as <- <- <- <- <-. exists g1, g2, g3. unfold draws.
  split; [|split; [|split]].
  - destruct (f_cap f); [exact E1|]. now injection E1 as <- <-.
  - destruct (f_R f); [exact E2|]. now injection E2 as <- <-.
  - destruct (f_deg f); [exact E3|]. now injection E3 as <- <-.
  - destruct (f_deg f); [exact E4|]. now injection E4 as <- <-.
Qed.

(** What [stack] returns. *)
Definition fine (f : spread) (ctrl : Z) (ls : list (level A)) (i : nat) : Prop :=
  forall g, exists u g', stack f ctrl ls i g = Ok (u, g') /\
    regular ctrl true ls (view _ (adopt u)) /\ o_N (ops (length ls)) u = prodn ls /\
    made f (indices ls i) g (leaves (view _ u)) g'.

Lemma times_fine f ctrl ls : (forall i, fine f ctrl ls i) -> forall n i g,
  exists l g', times n i (stack f ctrl ls) g = Ok (l, g') /\ length l = n /\
    (forall u, In u l -> regular ctrl true ls (view _ (adopt u)) /\ o_N (ops (length ls)) u = prodn ls) /\
    made f (flat_map (indices ls) (seq i n)) g (flat_map (fun u => leaves (view _ u)) l) g'.
Proof.
  intros H. induction n as [|n IH]; intros i g; cbn [times].
  - exists [], g. repeat split; auto; try contradiction. constructor.
  - destruct (H i g) as (u & g1 & E & R & N & M). rewrite E. cbn [rbind].
    destruct (IH (S i) g1) as (l & g2 & E2 & L & HL & M2). rewrite E2. cbn.
    exists (u :: l), g2. split; [reflexivity|]. split; [cbn; lia|]. split.
    + intros w [<-|Hw]; auto.
    + cbn. eapply made_app; eauto.
Qed.

Lemma flat_leaves n (l : list (su A C n)) : flat_map leaves (map (view n) (map adopt l)) = flat_map (fun u => leaves (view n u)) l.
Proof. rewrite !flat_map_concat_map, !map_map. f_equal. apply map_ext. intros u. apply adopt_leaves. Qed.

Lemma stack_fine f ctrl ls : Forall plain ls -> forall i, fine f ctrl ls i.
Proof.
  induction 1 as [|v ls P _ IH]; intros i g.
  - cbn [FactModel.stack]. destruct (factors draw_c draw_r draw_d f g) as [[[[a b] c] d] g'] eqn:E.
    destruct (total (append "cell" (to_string i)) a b c d) as (x & Ex). rewrite Ex. cbn.
    exists x, g'. split; [reflexivity|]. split; [constructor|]. split; [apply one|].
    destruct (factors_draws _ _ _ _ _ _ _ E) as (g1 & g2 & g3 & D1 & D2 & D3 & D4).
    econstructor; eauto. constructor.
  - cbn [FactModel.stack].
    destruct (times_fine f ctrl ls IH (v_n v) 0 g) as (l & g' & E & L & HL & M). rewrite E. cbn [rbind].
    destruct (assemble_ok (length ls) v (prodn (v :: ls)) ctrl l (prodn ls) P) as (m & Em & M1 & M2 & M3 & M4 & M5 & M6 & M7 & M9 & M8).
    { intros u Hu. now apply HL. }
    fold stack in Em |- *. rewrite Em. cbn [rmap rbind]. exists (inr m), g'. split; [reflexivity|]. split; [|split].
    + change (regular ctrl true (v :: ls)
        (LMod (m_series (mm m)) (m_rc (mm m)) (cooling_type (m_cool (mm m))) (k_ctrl (m_cool (mm m))) (m_N (mm m)) true (m_par (mm m))
           (map (view (length ls)) (ms m)))).
      rewrite M1, M2, M3, M4, M5, M6, M9, L.
      change (v_n v * prodn ls)%nat with (prodn (v :: ls)).
      apply reg_mod; [now rewrite !map_length|]. intros p Hp. apply in_map_iff in Hp. destruct Hp as (w & <- & Hw).
      apply in_map_iff in Hw. destruct Hw as (u & <- & Hu). now apply HL.
    + change (m_N (mm m) = prodn (v :: ls)). rewrite M6, L. reflexivity.
    + change (made f (flat_map (indices ls) (seq 0 (v_n v))) g (flat_map leaves (map (view (length ls)) (ms m))) g'). rewrite M1, flat_leaves. exact M.
Qed.

(** The battery. *)
Lemma pack_fine f ctrl top ls g : Forall plain (top :: ls) ->
  exists b g' m k h, pack draw_c draw_r draw_d mk oc tm f ctrl top ls g = Ok (b, g') /\ bt_body b = Some (m, k) /\
    bt_ns b = 1%Z /\ bt_np b = 1%Z /\ m_N (mm m) = prodn (top :: ls) /\
    regular ctrl true (top :: ls) (mlayout (view (length ls)) m) /\
    made f (flat_map (indices ls) (seq 0 (v_n top))) g (flat_map (fun u => leaves (view _ u)) (ms m)) g' /\
    k_kind k = CHvac h /\ k_N k = prodn (top :: ls) /\ k_ctrl k = ctrl.
Proof.
  intros HP. inversion HP as [|? ? P HP']; subst. unfold pack.
  destruct (times_fine f ctrl ls (stack_fine f ctrl ls HP') (v_n top) 0 g) as (l & g' & E & L & HL & M).
  rewrite E. cbn [rbind].
  destruct (assemble_ok (length ls) top (prodn (top :: ls)) ctrl l (prodn ls) P) as (m & Em & M1 & M2 & M3 & M4 & M5 & M6 & M7 & M9 & M8).
  { intros u Hu. now apply HL. }
  rewrite Em. cbn [rbind]. unfold batt_setModule. rewrite M7. cbn [negb].
  assert (HM : flat_map (fun u => leaves (view (length ls) u)) (ms m) = flat_map (fun u => leaves (view _ u)) l).
  { rewrite M1, !flat_map_concat_map, map_map. f_equal. apply map_ext. intros u. apply adopt_leaves. }
  assert (HR : regular ctrl true (top :: ls) (LMod (m_series (mm m)) (m_rc (mm m)) (cooling_type (m_cool (mm m))) (k_ctrl (m_cool (mm m)))
                 (m_N (mm m)) true (m_par (mm m)) (map (view (length ls)) (ms m)))).
  { rewrite M1, M2, M3, M4, M5, M6, M9, L. change (v_n top * prodn ls)%nat with (prodn (top :: ls)).
    apply reg_mod; [now rewrite !map_length|]. intros p Hp. apply in_map_iff in Hp. destruct Hp as (w & <- & Hw).
    apply in_map_iff in Hw. destruct Hw as (u & <- & Hu). now apply HL. }
  assert (HN : m_N (mm m) = prodn (top :: ls)) by (rewrite M6, L; reflexivity).
  assert (X : forall B (e : B), match k_kind (m_cool (mm m)) with CHvac _ => e | _ => e end = e) by (intros; destruct (k_kind (m_cool (mm m))); reflexivity).
  destruct (k_kind (m_cool (mm m))) eqn:EK; [| |destruct M8].
  all: cbn [batt_make bt_body bt_conv bt_ns bt_np];
    match goal with |- context [conv_losses ?c ?v ?i] => destruct (proj2 OK v i) as (q & Eq); change c with (conv_make (A := A)); rewrite Eq end.
  all: eexists _, g', _, _, _; split; [reflexivity|]; cbn [bt_body bt_ns bt_np]; split; [reflexivity|];
    cbn [mm ms m_N m_series m_rc m_cool m_top m_par mlayout]; split; [reflexivity|]; split; [reflexivity|]; split; [exact HN|];
    split; [exact HR|]; split; [rewrite HM; exact M|]; split; [reflexivity|]; split.
  all: cbn; try exact M5.
  all: unfold mod_N; cbn; rewrite HN; rewrite !Z.mul_1_r, Nat2Z.id; reflexivity.
Qed.
End F.
