(** * Lemmas: the throughput records of cycle ageing *)
From Coq Require Import Reals Lra.
From Verif Require Import Base RFacts StatusModel StatusProofs CellModel DataModel CoolModel ModuleModel CyclerModel CyclerProofs ProcModel ProcSpec ProcProofs ProcProofs2.
Local Open Scope R_scope.

(** ** The cycler never lowers the charge throughput *)
Section Mono.
Context {S : Type}.
Notation W := (cyc R S).
Definition mono {B : Type} (m : M W B) : Prop := forall w, th_Ah (c_th w) <= th_Ah (c_th (fst (m w))).
Lemma mo_res {B : Type} (f : W -> res B) : mono (fun w => (w, f w)).
Proof. intros w. apply Rle_refl. Qed.
Lemma mo_ret {B : Type} (b : B) : mono (mret b).
Proof. intros w. apply Rle_refl. Qed.
Lemma mo_throw {B : Type} c : mono (B := B) (mthrow c).
Proof. intros w. apply Rle_refl. Qed.
Lemma mo_bind {B C : Type} (m : M W B) (f : B -> M W C) : mono m -> (forall b, mono (f b)) -> mono (mbind m f).
Proof.
  intros Hm Hf w. specialize (Hm w). unfold mbind. destruct (m w) as [w' r]. cbn in Hm. destruct r; try exact Hm.
  eapply Rle_trans; [exact Hm|apply Hf].
Qed.
Lemma mo_call {B : Type} (f : M S B) : mono (call f).
Proof. intros w. unfold call. destruct (f (c_su w)). apply Rle_refl. Qed.
Lemma mo_try {B : Type} (m h : M W B) : mono m -> mono h -> mono (try m h).
Proof.
  intros Hm Hh w. specialize (Hm w). unfold try. destruct (m w) as [w' r]. cbn in Hm. destruct r; try exact Hm.
  eapply Rle_trans; [exact Hm|apply Hh].
Qed.
Lemma mo_th (a b c : R) : 0 <= b -> mono (add_th a b c).
Proof. intros Hb w. cbn. lra. Qed.
Lemma mo_charge (b c : R) : 0 <= b -> mono (add_charge b c).
Proof. intros Hb w. cbn. lra. Qed.
Context (o : unit_if R S) (nmax : nat) (diag : bool).
Lemma mo_write : mono (writeData o).
Proof. intros w. unfold writeData. destruct (q_write o (c_su w)) as [s' r]. destruct r; apply Rle_refl. Qed.
Lemma mo_store : mono (storeData o nmax).
Proof.
  unfold storeData. apply mo_bind; [apply mo_res|]. intros i. apply mo_bind; [destruct (Nat.leb nmax i); [apply mo_write|apply mo_ret]|]. intros _.
  apply mo_bind; [apply mo_call|]. intros _ w. apply Rle_refl.
Qed.
Lemma mo_store_if b : mono (store_if o nmax b).
Proof. destruct b; [apply mo_store|apply mo_ret]. Qed.
Lemma mo_store_due idat ndt : mono (store_due o nmax idat ndt).
Proof. unfold store_due. destruct (_ && _); [|apply mo_ret]. apply mo_bind; [apply mo_store|intros; apply mo_ret]. Qed.
Ltac mo1 :=
  lazymatch goal with
  | |- forall _, _ => intros
  | |- mono (mbind _ _) => apply mo_bind
  | |- mono (mret _) => apply mo_ret
  | |- mono (mthrow _) => apply mo_throw
  | |- mono (call _) => apply mo_call
  | |- mono (try _ _) => apply mo_try
  | |- mono (store_if _ _ _) => apply mo_store_if
  | |- mono (store_due _ _ _ _) => apply mo_store_due
  | |- mono (if ?b then _ else _) => destruct b
  | |- mono (match ?x with _ => _ end) => destruct x
  | |- mono (let _ := _ in _) => cbv zeta
  end.
Ltac mo := repeat mo1.
Lemma mo_setCurrent I vlim : mono (cyc_setCurrent o diag I vlim).
Proof. unfold cyc_setCurrent. mo. Qed.
Lemma mo_adapt I vlim vo vi n up : mono (cc_adapt o I vlim vo vi n up).
Proof. unfold cc_adapt. mo. Qed.
Lemma zclamp_ge v lo hi : (lo <= hi -> lo <= zclamp v lo hi)%Z.
Proof. intros H. unfold zclamp. destruct (v <? lo)%Z eqn:E; [lia|]. apply Z.ltb_ge in E. destruct (hi <? v)%Z; lia. Qed.
Lemma mo_cc_loop fuel : forall I vlim tlim ndt nm dti ttot idat nOnce vo vi up, 0 < dti -> (1 <= nOnce)%Z -> (1 <= nm)%Z ->
  mono (cc_loop o nmax diag fuel I vlim tlim ndt nm dti ttot idat nOnce vo vi up).
Proof.
  induction fuel as [|f IH]; intros I vlim tlim ndt nm dti ttot idat nOnce vo vi up Hd Hn Hm; cbn [cc_loop].
  - destruct (negb _); [apply mo_ret|apply mo_res].
  - destruct (nltb ttot tlim) eqn:E; cbn [negb]; [|apply mo_ret]. apply Rltb_true in E.
    assert (Hd' : 0 < cut_dt dti (nsub tlim ttot)).
    { unfold cut_dt. match goal with |- context [if ?b then _ else _] => destruct b end; [cbn; lra|exact Hd]. }
    assert (Hn' : (1 <= cut_n nOnce dti (nsub tlim ttot))%Z).
    { unfold cut_n. match goal with |- context [if ?b then _ else _] => destruct b end; lia. }
    set (d := cut_dt dti (nsub tlim ttot)) in *. set (n := cut_n nOnce dti (nsub tlim ttot)) in *. clearbody d n.
    apply mo_bind; [apply mo_setCurrent|]. intros _. cbv zeta.
    apply mo_bind; [mo|]. intros st. destruct (negb st); [apply mo_ret|].
    apply mo_bind; [mo|]. intros [x|x]; [apply mo_ret|].
    apply mo_bind; [mo|]. intros _. apply mo_bind.
    + apply mo_th. rewrite !R_nZ. cbn. apply Rmult_le_pos; [|lra]. apply Rmult_le_pos; [apply Rabs_pos|].
      apply Rmult_le_pos; [lra|]. apply IZR_le. lia.
    + intros _. apply mo_bind; [apply mo_store_due|]. intros id'. destruct (beyond _ _ _); [apply mo_ret|].
      apply mo_bind; [apply mo_adapt|]. intros nu. apply IH; [exact Hd'|now apply zclamp_ge|exact Hm].
Qed.
Lemma mo_CC fuel I vlim tlim dt ndt : 0 < dt -> mono (CC o nmax diag fuel I vlim tlim dt ndt).
Proof.
  intros Hd. unfold CC. apply mo_bind; [apply mo_store_if|]. intros _. apply mo_bind; [apply mo_setCurrent|]. intros s.
  destruct (negb _); [apply mo_ret|]. apply mo_bind; [apply mo_call|]. intros v0. destruct (beyond _ _ _); [apply mo_ret|].
  apply mo_bind; [|mo]. apply mo_cc_loop; [exact Hd|lia|]. destruct (0 <? ndt)%Z eqn:E; [apply Z.ltb_lt in E|]; lia.
Qed.
Lemma mo_cv_loop todo : forall i nt Vset Ilim tlim dt ndt ttot, mono (cv_loop o nmax todo i nt Vset Ilim tlim dt ndt ttot).
Proof.
  induction todo as [|td IH]; intros; cbn [cv_loop]; [apply mo_ret|].
  apply mo_bind; [apply mo_call|]. intros _. cbv zeta. apply mo_bind; [mo|]. intros st. destruct (negb st); [apply mo_ret|].
  apply mo_bind; [apply mo_call|]. intros i1. apply mo_bind; [apply mo_call|]. intros vi'.
  apply mo_bind; [apply mo_charge, Rabs_pos|]. intros _. mo. apply IH.
Qed.
Lemma mo_CV Vset Ilim tlim dt ndt : mono (CV o nmax Vset Ilim tlim dt ndt).
Proof.
  unfold CV. apply mo_bind; [apply mo_store_if|]. intros _. apply mo_bind; [apply mo_call|]. intros vp.
  apply mo_bind; [apply mo_call|]. intros i0. match goal with |- mono (if ?b then _ else _) => destruct b end; [apply mo_ret|].
  apply mo_bind; [apply mo_res|]. intros nt. apply mo_bind; [apply mo_cv_loop|mo].
Qed.
Lemma mo_rest_loop fuel : forall tlim ndt nm dti ttot idat nOnce ninc, mono (rest_loop o nmax fuel tlim ndt nm dti ttot idat nOnce ninc).
Proof.
  induction fuel as [|f IH]; intros; cbn [rest_loop].
  - destruct (negb _); [apply mo_ret|apply mo_res].
  - destruct (negb _); [apply mo_ret|]. apply mo_bind; [apply mo_call|]. intros st. destruct (isStatusBad st); [apply mo_ret|]. cbv zeta.
    apply mo_bind; [apply mo_call|]. intros _. apply mo_bind; [apply mo_store_due|]. intros id'.
    destruct (rest_adapt _ _ _ _) as [n' ni']. apply IH.
Qed.
Lemma mo_rest fuel tlim dt ndt : mono (rest o nmax fuel tlim dt ndt).
Proof.
  unfold rest. apply mo_bind; [apply mo_store_if|]. intros _. apply mo_bind; [apply mo_rest_loop|]. intros [st|tt0]; [apply mo_ret|].
  match goal with |- mono (if ?b then _ else _) => destruct b end; [|apply mo_throw].
  apply mo_bind; [apply mo_call|]. intros _. apply mo_bind; [apply mo_store_if|]. intros _.
  apply mo_bind; [apply mo_th; rewrite R_nZ; apply Rle_refl|]. intros _. apply mo_ret.
Qed.
End Mono.

(** ** What each call does to the running total, the records and the file *)
Section Effects.
Context {S : Type} (p : proc_if R S) (nmax fuel : nat) (ndata : Z) (unitTest : bool) (dt : R).
Hypothesis Hdt : 0 < dt.
Notation RN := (age_steps p nmax fuel ndata unitTest dt).
Notation PS := (pstate R S).
Definition ah (w : PS) : R := th_Ah (c_th (ps_cyc w)).
Definition same (w w' : PS) : Prop := ps_rec w' = ps_rec w /\ ps_file w' = ps_file w.
Lemma inC_same {B : Type} (m : M (cyc R S) B) w : same w (fst (inC m w)).
Proof. unfold inC. destruct (m (ps_cyc w)). split; reflexivity. Qed.
Lemma inC_mono {B : Type} (m : M (cyc R S) B) w : mono m -> ah w <= ah (fst (inC m w)).
Proof. intros H. specialize (H (ps_cyc w)). unfold inC. destruct (m (ps_cyc w)). exact H. Qed.
Lemma inC_call {B : Type} (m : M S B) (w : PS) : c_th (ps_cyc (fst (inC (call m) w))) = c_th (ps_cyc w).
Proof. unfold inC, call. destruct (m _). reflexivity. Qed.
Lemma store_does (w w' : PS) : storeThroughput p w = (w', Ok tt) ->
  c_th (ps_cyc w') = c_th (ps_cyc w) /\ ps_file w' = ps_file w /\
  exists a b, ps_rec w' = ps_rec w ++ [mkRec (ah w') (th_Wh (c_th (ps_cyc w'))) a b].
Proof.
  unfold storeThroughput. intros H. ok H w1 x. ok H w2 y.
  assert (T1 := inC_call (pq_load p) w). assert (S1 := inC_same (call (pq_load p)) w). rewrite E in T1, S1.
  assert (T2 := inC_call (pq_conv p) w1). assert (S2 := inC_same (call (pq_conv p)) w1). rewrite E0 in T2, S2.
  destruct S1 as [R1 F1], S2 as [R2 F2]. cbn in *. injection H as <-. cbn.
  split; [congruence|]. split; [congruence|]. exists (ndiv x (nZ 3600)), (ndiv y (nZ 3600)). unfold ah. cbn. rewrite R2, R1. reflexivity.
Qed.
Lemma prep_keeps (w : PS) : c_th (ps_cyc (fst (inC (checkUp_prep p nmax fuel) w))) = c_th (ps_cyc w).
Proof.
  unfold inC, checkUp_prep. destruct (mbind _ _ _) as [w1 x]. reflexivity.
Qed.
Lemma checkUp_does w w' : checkUp p nmax fuel w = (w', Ok tt) -> c_th (ps_cyc w') = c_th (ps_cyc w) /\ same w w'.
Proof.
  unfold checkUp. intros H. ok H w1 u. assert (T := prep_keeps w). assert (Sm := inC_same (checkUp_prep p nmax fuel) w). rewrite E in T, Sm. cbn in T, Sm.
  injection H as <- _. auto.
Qed.
Lemma write_does a w w' : writeThroughput (S := S) a w = (w', Ok tt) ->
  ps_cyc w' = ps_cyc w /\ ps_rec w' = [] /\ ps_file w' = (if neqb a (nZ 0) then [] else ps_file w) ++ ps_rec w.
Proof. intros [= <-]. auto. Qed.

Lemma event_does e w w' : does RN e w w' ->
  match e with
  | KStore => ah w' = ah w /\ ps_file w' = ps_file w /\ exists a b, ps_rec w' = ps_rec w ++ [mkRec (ah w') (th_Wh (c_th (ps_cyc w'))) a b]
  | KChk _ | KFinal _ => ah w' = ah w /\ ps_rec w' = [] /\ ps_file w' = (if neqb (ah w) (nZ 0) then [] else ps_file w) ++ ps_rec w
  | KAh a => w' = w /\ a = ah w
  | KThrew => True
  | KShow | KCap _ | KBal => ah w' = ah w /\ same w w'
  | _ => ah w <= ah w' /\ same w w'
  end.
Proof.
  destruct e as [|c|a|i v st|v il st|t st| | |i|n|]; cbn [does age_steps r_show r_cap r_Ah r_CC r_CV r_rest r_store r_balance r_check r_final]; intros H.
  - destruct unitTest; [injection H as <-; repeat split|]. ok H w1 x. injection H as <-.
    assert (T := inC_call (q_V (pq p)) w). assert (Q := inC_same (call (q_V (pq p))) w). rewrite E in T, Q. cbn in T, Q. split; [|exact Q]. unfold ah. now rewrite T.
  - assert (T := inC_call (q_Cap (pq p)) w). assert (Q := inC_same (call (q_Cap (pq p))) w). rewrite H in T, Q. cbn in T, Q. split; [|exact Q]. unfold ah. now rewrite T.
  - injection H as <- <-. auto.
  - assert (T := inC_mono (CC (pq p) nmax true fuel i v TIME_INF dt ndata) w (mo_CC _ _ _ _ _ _ _ _ _ Hdt)).
    assert (Q := inC_same (CC (pq p) nmax true fuel i v TIME_INF dt ndata) w). rewrite H in T, Q. auto.
  - assert (T := inC_mono (CV (pq p) nmax v il TIME_INF dt ndata) w (mo_CV _ _ _ _ _ _ _)).
    assert (Q := inC_same (CV (pq p) nmax v il TIME_INF dt ndata) w). rewrite H in T, Q. auto.
  - assert (T := inC_mono (rest (pq p) nmax fuel t dt ndata) w (mo_rest _ _ _ _ _ _)).
    assert (Q := inC_same (rest (pq p) nmax fuel t dt ndata) w). rewrite H in T, Q. auto.
  - destruct (store_does _ _ H) as (T & F & R0). split; [unfold ah; now rewrite T|]. auto.
  - set (m1 := fun c : cyc R S => _) in H. set (m2 := fun c : cyc R S => _) in H.
    destruct (inC m1 w) as [w1 x1] eqn:E1. destruct (inC (call (pq_rebalance p)) w1) as [w2 x2] eqn:E2. destruct x2; try discriminate.
    assert (Q1 := inC_same m1 w). assert (Q2 := inC_same (call (pq_rebalance p)) w1). assert (Q3 := inC_same m2 w2).
    assert (T2 := inC_call (pq_rebalance p) w1).
    rewrite E1 in Q1. rewrite E2 in Q2, T2. rewrite H in Q3. cbn in *.
    assert (T1 : c_th (ps_cyc w1) = c_th (ps_cyc w)) by (injection E1 as <- _; reflexivity).
    assert (T3 : c_th (ps_cyc w') = c_th (ps_cyc w2)) by (injection H as <-; reflexivity).
    destruct Q1, Q2, Q3. split; [unfold ah; now rewrite T3, T2, T1|]. split; congruence.
  - ok H w1 a. injection E as <- <-. ok H w2 u. ok H w3 v.
    assert (G : c_th (ps_cyc w2) = c_th (ps_cyc w) /\ same w w2).
    { match type of E with (if ?b then _ else _) _ = _ => destruct b end.
      - assert (T := inC_call (q_write (pq p)) w). assert (Q := inC_same (call (q_write (pq p))) w). rewrite E in T, Q. auto.
      - injection E as <- _. repeat split. }
    destruct u, v. destruct (write_does _ _ _ E0) as (C & R0 & F). destruct (checkUp_does _ _ H) as (T & Q1 & Q2).
    destruct G as (G1 & G2 & G3). split; [unfold ah; now rewrite T, C, G1|]. split; [congruence|]. rewrite Q2, F, G2, G3. reflexivity.
  - ok H w1 a. injection E as <- <-. ok H w2 u. ok H w3 v.
    destruct u, v. destruct (write_does _ _ _ E) as (C & R0 & F). destruct (checkUp_does _ _ E0) as (T & Q1 & Q2).
    assert (T' := inC_call (q_write (pq p)) w3). assert (Q := inC_same (call (q_write (pq p))) w3). rewrite H in T', Q. cbn in T', Q. destruct Q as [Q3 Q4].
    split; [unfold ah; now rewrite T', T, C|]. split; [congruence|]. rewrite Q4, Q2, F. reflexivity.
  - exact Logic.I.
Qed.

(** The books kept along a trace: [l] is what was stored so far. *)
Definition kept (l : list (threc R)) (w : PS) : Prop := ps_file w ++ ps_rec w = l /\ 0 <= ah w.
Lemma stored_app (a b : list (pev R * PS)) : stored (a ++ b) = stored a ++ stored b.
Proof. apply flat_map_app. Qed.
Lemma stored_one e w w' : does RN e w w' -> stored [(e, w')] = match e with KStore => skipn (length (ps_rec w)) (ps_rec w') | _ => [] end.
Proof.
  intros H. apply event_does in H. destruct e; try reflexivity. destruct H as (_ & _ & a & b & R0). cbn. rewrite R0, app_nil_r, app_length. cbn.
  now rewrite Nat.add_sub.
Qed.
(** Within a stretch without check-ups nothing is lost. *)
Definition calm (e : pev R) : Prop := match e with KChk _ | KFinal _ | KThrew => False | _ => True end.
Lemma calm_runs tr : forall w w', runs RN w tr w' -> Forall calm (map fst tr) -> forall l, kept l w -> kept (l ++ stored tr) w' /\ ah w <= ah w' /\ ps_file w' = ps_file w.
Proof.
  induction tr as [|[e w1] tr IH]; intros w w' H HC l HK.
  - inversion H; subst. unfold stored. cbn [flat_map]. rewrite app_nil_r. repeat split; try apply HK. apply Rle_refl.
  - inversion H as [|? ? ? ? ? D H']; subst. cbn [map fst] in HC. inversion HC as [|? ? C1 C2]; subst.
    assert (G : kept (l ++ stored [(e, w1)]) w1 /\ ah w <= ah w1 /\ ps_file w1 = ps_file w).
    { rewrite (stored_one e w w1 D). apply event_does in D. destruct HK as [K1 K2].
      destruct e; try contradiction; try (rewrite app_nil_r).
      all: try (destruct D as (D1 & D2 & D3); split; [split; [congruence|lra]|]; split; [lra|congruence]).
      - destruct D as [-> _]. repeat split; auto. apply Rle_refl.
      - destruct D as (D1 & D2 & a & b & D3). rewrite D3, skipn_app, skipn_all, Nat.sub_diag. cbn [skipn app]. split; [split|].
        + rewrite D2, D3, app_assoc, K1. reflexivity.
        + lra.
        + split; [lra|exact D2]. }
    destruct G as (G1 & G2 & G3). destruct (IH _ _ H' C2 _ G1) as (I1 & I2 & I3).
    change ((e, w1) :: tr) with ([(e, w1)] ++ tr). rewrite stored_app, app_assoc. split; [exact I1|]. split; [lra|congruence].
Qed.
(** A check-up keeps the books if the file is empty or charge has flowed. *)
Lemma check_keeps e w w' l : (exists i, e = KChk i) \/ (exists n, e = KFinal n) -> does RN e w w' -> kept l w -> (0 < ah w \/ ps_file w = []) ->
  kept l w' /\ ah w' = ah w /\ ps_rec w' = [] /\ (ah w = 0 -> ps_rec w = [] -> ps_file w' = []).
Proof.
  intros He D [K1 K2] HP. apply event_does in D.
  assert (D' : ah w' = ah w /\ ps_rec w' = [] /\ ps_file w' = (if neqb (ah w) (nZ 0) then [] else ps_file w) ++ ps_rec w)
    by (destruct He as [[i ->]|[n ->]]; exact D).
  destruct D' as (D1 & D2 & D3). rewrite R_nZ in D3.
  split; [split|split; [exact D1|split; [exact D2|]]].
  - rewrite D2, app_nil_r, D3. destruct HP as [HP|HP].
    + rewrite (proj2 (Reqb_false (ah w) 0)) by lra. exact K1.
    + rewrite HP in *. now destruct (neqb (ah w) 0).
  - lra.
  - intros A0 R0. rewrite D3, (proj2 (Reqb_true (ah w) 0)) by exact A0. now rewrite R0.
Qed.

Definition fine (l : list (threc R)) (w : PS) : Prop := kept l w /\ (0 < ah w \/ ps_file w = []).
Lemma stored_none (tr : list (pev R * PS)) : Forall (fun e => e <> KStore) (map fst tr) -> stored tr = [].
Proof.
  induction tr as [|[e w] tr IH]; [reflexivity|]. cbn [map fst]. intros H. inversion H; subst.
  change ((e, w) :: tr) with ([(e, w)] ++ tr). rewrite stored_app, IH by assumption. destruct e; try reflexivity. contradiction.
Qed.
Lemma map_split {X Y : Type} (f : X -> Y) l a b : map f l = a ++ b -> exists x y, l = x ++ y /\ map f x = a /\ map f y = b.
Proof. intros H. apply map_eq_app in H. destruct H as (x & y & E & <- & <-). now exists x, y. Qed.
Ltac cut_at H R0 x y w E1 E3 := apply map_split in H; destruct H as (x & y & -> & E1 & H); apply runs_split in R0; destruct R0 as (w & E3 & R0).
Lemma one_runs w tr w' e : runs RN w tr w' -> map fst tr = [e] -> does RN e w w'.
Proof. intros H E. destruct tr as [|[e0 w0] [|? ?]]; try discriminate. injection E as ->. inversion H; subst. inversion H6; subst. assumption. Qed.
Lemma none_runs w tr w' : runs RN w tr w' -> map fst tr = [] -> w' = w /\ tr = [].
Proof. intros H E. destruct tr; [|discriminate]. inversion H. auto. Qed.
Context (bal : bool) (Ncheck Nbal : Z) (testCV : bool) (Icha Idis Vmax Vmin : R).
Lemma lead_quiet i : Forall (fun e : pev R => e <> KStore) (lead bal Ncheck Nbal i).
Proof.
  unfold lead. repeat (apply Forall_app; split); try (destruct (bal && _)); try (destruct (_ =? 0)%Z); repeat constructor; discriminate.
Qed.
Lemma lead_first w w1 tr : runs RN w tr w1 -> map fst tr = lead bal Ncheck Nbal 0 -> ah w = 0 -> ps_rec w = [] -> fine [] w1 /\ stored tr = [].
Proof.
  intros Ru0 H A0 C0. assert (Q : stored tr = []) by (apply stored_none; rewrite H; apply lead_quiet). split; [|exact Q]. clear Q.
  unfold lead in H. rewrite Zmod_0_l in H. cbn [sure Z.eqb] in H.
  cut_at H Ru0 ta1 tb1 w2 MA Ru1. cut_at H Ru0 ta2 tb2 w3 M0 Ru2.
  apply one_runs with (e := KShow) in Ru1; [|exact MA]. apply event_does in Ru1. destruct Ru1 as (B1 & B2 & B3).
  apply one_runs with (e := KChk 0) in Ru0; [|exact H]. apply event_does in Ru0. destruct Ru0 as (D1 & D2 & D3).
  assert (G : ah w3 = 0 /\ ps_rec w3 = []).
  { destruct (bal && _); cbn [sure] in M0.
    - apply one_runs with (e := KBal) in Ru2; [|exact M0]. apply event_does in Ru2. destruct Ru2 as (E1 & E2 & E3). split; [lra|congruence].
    - apply none_runs in Ru2; [|exact M0]. destruct Ru2 as [-> _]. split; [lra|congruence]. }
  destruct G as [G1 G2]. rewrite R_nZ, (proj2 (Reqb_true (ah w3) 0)), G2 in D3 by exact G1. cbn in D3.
  split; [split; [now rewrite D2, D3|lra]|now right].
Qed.
Lemma lead_next i w w1 tr l : runs RN w tr w1 -> map fst tr = lead bal Ncheck Nbal i -> kept l w -> 0 < ah w -> kept l w1 /\ 0 < ah w1 /\ stored tr = [].
Proof.
  intros Ru0 H K A0. assert (Q : stored tr = []) by (apply stored_none; rewrite H; apply lead_quiet).
  enough (kept l w1 /\ 0 < ah w1) by tauto. clear Q.
  unfold lead in H. cut_at H Ru0 ta1 tb1 w2 MA Ru1. cut_at H Ru0 ta2 tb2 w3 M0 Ru2.
  assert (G : kept l w3 /\ 0 < ah w3).
  { apply one_runs with (e := KShow) in Ru1; [|exact MA]. apply event_does in Ru1. destruct Ru1 as (B1 & B2 & B3). destruct K as [K1 K2].
    destruct (bal && _); cbn [sure] in M0.
    - apply one_runs with (e := KBal) in Ru2; [|exact M0]. apply event_does in Ru2. destruct Ru2 as (E1 & E2 & E3). unfold kept. rewrite E2, E3, B2, B3, K1. repeat split; lra.
    - apply none_runs in Ru2; [|exact M0]. destruct Ru2 as [-> _]. unfold kept. rewrite B2, B3, K1. repeat split; lra. }
  destruct G as [G1 G2]. destruct (i mod Ncheck =? 0)%Z; cbn [sure] in H.
  - apply one_runs with (e := KChk i) in Ru0; [|exact H].
    destruct (check_keeps _ _ _ l (or_introl (ex_intro _ i eq_refl)) Ru0 G1 (or_introl G2)) as (P1 & P2 & _). split; [exact P1|lra].
  - apply none_runs in Ru0; [|exact H]. destruct Ru0 as [-> _]. auto.
Qed.
Lemma calm_fine tr w w' l : runs RN w tr w' -> Forall calm (map fst tr) -> fine l w -> fine (l ++ stored tr) w'.
Proof.
  intros H C [K F]. destruct (calm_runs _ _ _ H C _ K) as (P1 & P2 & P3). split; [exact P1|].
  destruct F as [F|F]; [left; lra|right; congruence].
Qed.
Ltac calm_tac := repeat match goal with |- Forall _ (_ ++ _) => apply Forall_app; split | |- Forall _ (sure ?b _) => destruct b; cbn [sure] | |- Forall _ (_ :: _) => constructor; [exact Logic.I|] | |- Forall _ [] => constructor end.
(** Everything of a cycle after its lead. *)
Lemma body_full i x w w' tr l : runs RN w tr w' -> full_cycle bal Ncheck Nbal testCV Icha Idis Vmax Vmin i (lead bal Ncheck Nbal i ++ x) ->
  map fst tr = x -> fine l w -> kept (l ++ stored tr) w' /\ 0 < ah w'.
Proof.
  intros Ru0 (a & b & NL & E) H F. apply app_inv_head in E. subst x.
  assert (CA : Forall calm (map fst tr)) by (rewrite H; unfold charge, hold, discharge; calm_tac).
  assert (P := calm_fine _ _ _ _ Ru0 CA F). split; [apply P|]. clear P.
  rewrite H in CA. cbn [charge app] in H, CA.
  change (?e1 :: ?e2 :: ?e3 :: ?e4 :: ?z) with ([e1] ++ [e2; e3] ++ [e4] ++ z) in H, CA.
  apply Forall_app in CA. destruct CA as [_ CA]. apply Forall_app in CA. destruct CA as [C1 CA]. apply Forall_app in CA. destruct CA as [_ C2].
  cut_at H Ru0 ta1 tb1 wa MA Ru1. cut_at H Ru0 ta2 tb2 wb M0 Ru2. cut_at H Ru0 ta3 tb3 wc M1 Ru3.
  apply one_runs with (e := KAh a) in Ru1; [|exact MA]. apply event_does in Ru1. destruct Ru1 as [-> ->].
  apply one_runs with (e := KAh b) in Ru3; [|exact M1]. apply event_does in Ru3. destruct Ru3 as [-> ->].
  rewrite <- M0 in C1. destruct (calm_runs _ _ _ Ru2 C1 _ (proj1 F)) as (P1 & P2 & P3).
  rewrite <- H in C2. destruct (calm_runs _ _ _ Ru0 C2 _ P1) as (Q1 & Q2 & Q3).
  unfold little in NL. destruct (nltb (nsub (ah wb) (ah w)) (nlit 1 100000)) eqn:E; [congruence|]. apply Rltb_false in E. rewrite R_nlit in E. cbn in E.
  destruct F as [[_ F] _]. lra.
Qed.
Lemma body_up i x w w' tr l : runs RN w tr w' -> given_up bal Ncheck Nbal testCV Icha Idis Vmax Vmin i (lead bal Ncheck Nbal i ++ x) ->
  map fst tr = x -> fine l w -> fine (l ++ stored tr) w'.
Proof.
  intros Ru0 G H F. apply (calm_fine _ _ _ _ Ru0); [|exact F]. rewrite H. clear - G.
  inversion G as [? ? ? E|? ? ? E|? ? ? ? ? ? E|? ? ? ? ? E|? ? ? ? ? ? E]; apply app_inv_head in E; subst x; unfold charge, hold, discharge; calm_tac.
Qed.
Lemma full_lead i c : full_cycle bal Ncheck Nbal testCV Icha Idis Vmax Vmin i c -> exists x, c = lead bal Ncheck Nbal i ++ x.
Proof. intros (a & b & _ & ->). eauto. Qed.
Lemma up_lead i c : given_up bal Ncheck Nbal testCV Icha Idis Vmax Vmin i c -> exists x, c = lead bal Ncheck Nbal i ++ x.
Proof. intros []; eauto. Qed.
Lemma cycles_books ls last : forall k w w' tr l, (0 < k)%Z -> runs RN w tr w' -> map fst tr = concat ls ++ last ->
  (forall j c, nth_error ls j = Some c -> full_cycle bal Ncheck Nbal testCV Icha Idis Vmax Vmin (k + Z.of_nat j) c) ->
  (last = [] \/ given_up bal Ncheck Nbal testCV Icha Idis Vmax Vmin (k + Z.of_nat (length ls)) last) ->
  kept l w -> 0 < ah w -> fine (l ++ stored tr) w'.
Proof.
  induction ls as [|c ls IH]; intros k w w' tr l Hk Ru0 H HF HL K A0.
  - cbn [concat app] in H. destruct HL as [->|HL].
    + apply none_runs in Ru0; [|exact H]. destruct Ru0 as [-> ->]. unfold stored. cbn. rewrite app_nil_r. split; [exact K|now left].
    + destruct (up_lead _ _ HL) as [x ->]. cbn [length] in *. rewrite Z.add_0_r in *. cut_at H Ru0 ta1 tb1 w1 MA Ru1.
      destruct (lead_next _ _ _ _ _ Ru1 MA K A0) as (K1 & A1 & S1). rewrite stored_app, S1. cbn [app].
      apply (body_up k x w1); [exact Ru0|exact HL|exact H|]. split; [exact K1|now left].
  - cbn [concat] in H. rewrite <- app_assoc in H. cut_at H Ru0 ta2 tb2 w2 MA Ru1.
    assert (F0 := HF 0%nat c eq_refl). rewrite Z.add_0_r in F0. destruct (full_lead _ _ F0) as [x ->]. cut_at MA Ru1 ta3 tb3 w1 M0 Ru2.
    destruct (lead_next _ _ _ _ _ Ru2 M0 K A0) as (K1 & A1 & S1).
    destruct (body_full k x w1 w2 _ l Ru1 F0 MA (conj K1 (or_introl A1))) as (K2 & A2).
    rewrite !stored_app, S1. cbn [app]. rewrite app_assoc. apply (IH (k + 1)%Z w2); auto; [lia| |].
    + intros j c Hj. replace (k + 1 + Z.of_nat j)%Z with (k + Z.of_nat (Datatypes.S j))%Z by lia. now apply HF.
    + destruct HL as [HL|HL]; [now left|right]. cbn [length] in HL. now replace (k + 1 + Z.of_nat (length ls))%Z with (k + Z.of_nat (Datatypes.S (length ls)))%Z by lia.
Qed.
Lemma aged_books N n w w' tr l : runs RN w tr w' -> map fst tr = l ++ [KFinal n] ->
  aged bal Ncheck Nbal testCV Icha Idis Vmax Vmin N l -> ah w = 0 -> ps_rec w = [] -> ps_rec w' = [] /\ ps_file w' = stored tr.
Proof.
  intros Ru0 H (ls & last & -> & HF & HE) A0 C0. cut_at H Ru0 ta1 tb1 wf MA Ru1.
  apply one_runs with (e := KFinal n) in Ru0; [|exact H].
  assert (SF : stored tb1 = []) by (apply stored_none; rewrite H; repeat constructor; discriminate).
  rewrite stored_app, SF, app_nil_r.
  assert (G : fine (stored ta1) wf -> ps_rec w' = [] /\ ps_file w' = stored ta1).
  { intros [K F]. destruct (check_keeps _ _ _ _ (or_intror (ex_intro _ n eq_refl)) Ru0 K F) as ([P1 _] & _ & P3 & _).
    split; [exact P3|]. now rewrite P3, app_nil_r in P1. }
  destruct ls as [|c ls].
  - cbn [concat app length] in *. destruct HE as [[_ ->]|[_ HG]].
    + apply none_runs in Ru1; [|exact MA]. destruct Ru1 as [-> ->]. apply event_does in Ru0. destruct Ru0 as (D1 & D2 & D3).
      rewrite R_nZ, (proj2 (Reqb_true (ah w) 0)), C0 in D3 by exact A0. auto.
    + destruct (up_lead _ _ HG) as [x ->]. cut_at MA Ru1 ta2 tb2 w1 M0 Ru2. apply G.
      destruct (lead_first _ _ _ Ru2 M0 A0 C0) as (F1 & S1). rewrite stored_app, S1. apply (body_up 0 x w1 wf _ []); auto.
  - apply G. cbn [concat] in MA. rewrite <- app_assoc in MA. cut_at MA Ru1 ta3 tb3 w2 M0 Ru2.
    assert (F0 := HF 0%nat c eq_refl). cbn in F0. destruct (full_lead _ _ F0) as [x ->]. cut_at M0 Ru2 ta4 tb4 w1 M1 Ru3.
    destruct (lead_first _ _ _ Ru3 M1 A0 C0) as (F1 & S1).
    destruct (body_full 0 x w1 w2 _ [] Ru2 F0 M0 F1) as (K2 & A2).
    rewrite !stored_app, S1. cbn [app] in *. apply (cycles_books ls last 1%Z w2); auto; [lia| |].
    + intros j c Hj. replace (1 + Z.of_nat j)%Z with (Z.of_nat (Datatypes.S j)) by lia. now apply HF.
    + destruct HE as [[_ ->]|[_ HG]]; [now left|right]. cbn [length] in HG. now replace (1 + Z.of_nat (length ls))%Z with (Z.of_nat (Datatypes.S (length ls))) by lia.
Qed.
Lemma records_total w tr w' : runs RN w tr w' -> Forall2 (fun t x => tr_Ah t = fst x /\ tr_Wh t = snd x) (stored tr) (totals tr).
Proof.
  induction 1 as [|w e w1 l w2 D H IH]; [constructor|].
  change ((e, w1) :: l) with ([(e, w1)] ++ l). rewrite stored_app, (stored_one e w w1 D). unfold totals. rewrite flat_map_app. apply Forall2_app; [|exact IH].
  apply event_does in D. destruct e; try constructor. destruct D as (D1 & D2 & a & b & D3). rewrite D3, skipn_app, skipn_all, Nat.sub_diag. cbn.
  repeat constructor.
Qed.
End Effects.
