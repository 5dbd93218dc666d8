(** * Proofs about the reports of a check-up *)
From Coq Require Import String Lia.
From Verif Require Import Base StatusModel CellModel DataModel CoolModel ModuleModel CyclerModel ProcModel ReportModel ReportSpec.

(** Induction over trees of units. *)
Lemma sut_induction {X : Type} (P : sut X -> Prop) :
  (forall x, P (TCell x)) -> (forall x l, Forall P l -> P (TMod x l)) -> (forall x, P (TBat x None)) -> (forall x c, P c -> P (TBat x (Some c))) ->
  forall t, P t.
Proof.
  intros H1 H2 H3 H4. fix IH 1. intros [x|x l|x [c|]]; [apply H1| |apply H4, IH|apply H3]. apply H2. induction l as [|c l IHl]; constructor; [apply IH|exact IHl].
Qed.

Section Split.
Context {A : Type}.
Implicit Types (l r : list (wtok A)).
Lemma split_sep sep l s r : forallb (fun t => negb (sep t)) l = true -> sep s = true -> split_at sep (l ++ s :: r) = l :: split_at sep r.
Proof.
  intros H Hs. induction l as [|t l IH]; cbn [app split_at]; [now rewrite Hs|]. cbn [forallb] in H. apply andb_prop in H. destruct H as [H1 H2].
  destruct (sep t); [discriminate|]. now rewrite IH.
Qed.
Lemma split_vars (vs : list A) r : split_at is_comma (flat_map (fun v => [num v; WComma]) vs ++ r) = map fnum vs ++ split_at is_comma r.
Proof. induction vs as [|v vs IH]; [reflexivity|]. cbn [flat_map app split_at is_comma num map]. rewrite IH. reflexivity. Qed.
Lemma split_states (ss : list A) a : split_at is_comma (num a :: flat_map (fun s => [WComma; num s]) ss) = fnum a :: map fnum ss.
Proof. revert a. induction ss as [|s ss IH]; intros a; [reflexivity|]. cbn [map]. rewrite <- IH. exact (split_sep is_comma [num a] WComma _ eq_refl eq_refl). Qed.
Lemma no_end_vars (vs : list A) : forallb (fun t => negb (is_end t)) (flat_map (fun v => [num v; WComma]) vs) = true.
Proof. induction vs as [|v vs IH]; [reflexivity|exact IH]. Qed.
Lemma no_end_states (vs : list A) : forallb (fun t => negb (is_end t)) (flat_map (fun v => [WComma; num v]) vs) = true.
Proof. induction vs as [|v vs IH]; [reflexivity|exact IH]. Qed.
End Split.

Section Visit.
Context {A C : Type}.
Lemma typed_mod m (l : list (sut (unode A C))) : typed (TMod (UMod m) l) -> Forall typed l.
Proof. cbn [typed]. induction l as [|c l IH]; [constructor|]. intros [H1 H2]. constructor; [exact H1|now apply IH]. Qed.
Lemma visit_cells (t : sut (unode A C)) : typed t -> forall w, visit_SUs copy_cell t w = w ++ cells_of t.
Proof.
  induction t as [x|x l IH|x|x c IH] using sut_induction; intros T w.
  - destruct x; [reflexivity|destruct T|destruct T].
  - destruct x as [|m|]; [destruct T| |destruct T]. apply typed_mod in T. cbn [visit_SUs cells_of copy_cell]. revert w. induction l as [|c l IHl]; intros w; [now rewrite app_nil_r|].
    inversion IH as [|? ? P1 P2]; inversion T as [|? ? T1 T2]; subst. cbn [flat_map]. rewrite P1, app_assoc by exact T1. now apply IHl.
  - destruct x; [destruct T|destruct T|]. cbn. now rewrite app_nil_r.
  - destruct x; [destruct T|destruct T|]. cbn [visit_SUs cells_of copy_cell]. apply IH, T.
Qed.
Lemma visit_mods (t : sut (unode A C)) : typed t -> forall w, visit_SUs mod_visit t w = fold_left (fun w m => mod_row m w) (modules_of t) w.
Proof.
  induction t as [x|x l IH|x|x c IH] using sut_induction; intros T w.
  - destruct x; [reflexivity|destruct T|destruct T].
  - destruct x as [|m|]; [destruct T| |destruct T]. apply typed_mod in T. cbn [visit_SUs modules_of mod_visit fold_left]. generalize (mod_row m w). clear w. intros w. revert w. induction l as [|c l IHl]; intros w; [reflexivity|].
    inversion IH as [|? ? P1 P2]; inversion T as [|? ? T1 T2]; subst. cbn [flat_map]. rewrite P1, fold_left_app by exact T1. now apply IHl.
  - destruct x; [destruct T|destruct T|]. reflexivity.
  - destruct x; [destruct T|destruct T|]. cbn [visit_SUs modules_of mod_visit fold_left]. apply IH, T.
Qed.
End Visit.

Section Rows.
Context {A : Type} {NA : Num A} {C : Type} (o : rep_if A C) (nmax fuel : nat).
Lemma row_ok Ah nr start n c w x : check_row o nmax fuel Ah nr start (n, c) = (w, Ok x) ->
  exists cap c', tested o nmax fuel c cap c' /\ forall r, lines (w ++ r) = cell_line o Ah nr start n c cap c' :: blank :: lines r.
Proof.
  unfold check_row. destruct (testCapacity (rq o) nmax false fuel (mkCyc c 0 th0)) as [v [[[cap a] tm]|k| |]] eqn:E; intros H; try discriminate.
  exists cap, (c_su v). split; [exists v, a, tm; now split|]. intros r.   cbv beta zeta iota in H.
  set (f1 := [txt n; WComma] ++ flat_map (fun v0 : A => [num v0; WComma]) (rq_var o c) ++ [num Ah; WComma; int nr; WComma]) in H.
  set (f2 := [num (th_time (rq_th o c)); WComma; num (th_Ah (rq_th o c)); WComma; num (th_Wh (rq_th o c)); WComma; num cap]) in H.
  set (f3 := flat_map (fun s : A => [WComma; num s]) (skipn start (rq_states o (c_su v)))) in H.
  assert (W : w = f1 ++ f2 ++ f3 ++ [WEnd; WEnd]) by congruence. rewrite W. unfold lines.
  replace ((f1 ++ f2 ++ f3 ++ [WEnd; WEnd]) ++ r) with ((f1 ++ f2 ++ f3) ++ WEnd :: [] ++ WEnd :: r) by (rewrite <- !app_assoc; reflexivity).
  rewrite split_sep; [rewrite (split_sep is_end []); [|reflexivity|reflexivity]| |reflexivity].
  - cbn [map]. f_equal. unfold cell_line, f1. rewrite <- !app_assoc. change ([txt n; WComma] ++ ?q) with ([txt n] ++ WComma :: q). rewrite split_sep by reflexivity. rewrite split_vars.
    assert (K : split_at is_comma ([num Ah; WComma; int nr; WComma] ++ f2 ++ f3) = [fnum Ah; fint nr; fnum (th_time (rq_th o c)); fnum (th_Ah (rq_th o c)); fnum (th_Wh (rq_th o c)); fnum cap] ++ map fnum (skipn start (rq_states o (c_su v)))); [|now rewrite K].
    change ([num Ah; WComma; int nr; WComma] ++ f2 ++ f3) with ([num Ah] ++ WComma :: [int nr] ++ WComma :: [num (th_time (rq_th o c))] ++ WComma :: [num (th_Ah (rq_th o c))] ++ WComma :: [num (th_Wh (rq_th o c))] ++ WComma :: num cap :: f3).
    rewrite !split_sep by reflexivity. unfold f3. rewrite split_states. reflexivity.
  - unfold f1, f2, f3. rewrite !forallb_app, no_end_vars, no_end_states. reflexivity.
Qed.
Lemma row_bad Ah nr start n c w e : check_row o nmax fuel Ah nr start (n, c) = (w, e) -> e <> Ok tt ->
  (exists v x, testCapacity (rq o) nmax false fuel (mkCyc c 0 th0) = (v, x) /\ e = cast x /\ forall y, x <> Ok y) /\ lines w = [broken_line o Ah nr n c].
Proof.
  unfold check_row. destruct (testCapacity (rq o) nmax false fuel (mkCyc c 0 th0)) as [v x] eqn:E. intros H Hn.
  assert (K : (forall y, x <> Ok y) /\ e = cast x /\ w = [txt n; WComma] ++ flat_map (fun v => [num v; WComma]) (rq_var o c) ++ [num Ah; WComma; int nr; WComma]).
  { destruct x as [[[cap a] tm]|k| |]; [exfalso; apply Hn; congruence| | |]; (split; [intros y; discriminate|]; split; congruence). }
  destruct K as (K1 & K2 & K3). split; [exists v, x; now split|]. rewrite K3. unfold lines.
  assert (S1 : forall l, forallb (fun t : wtok A => negb (is_end t)) l = true -> split_at is_end l = [l]).
  { induction l as [|t l IH]; [reflexivity|]. cbn [forallb split_at]. intros F. apply andb_prop in F. destruct F as [F1 F2]. destruct (is_end t); [discriminate|]. now rewrite (IH F2). }
  rewrite S1 by (rewrite !forallb_app, no_end_vars; reflexivity). cbn [map]. f_equal. unfold broken_line. change ([txt n; WComma] ++ ?q) with ([txt n] ++ WComma :: q).
  rewrite split_sep by reflexivity. rewrite split_vars. reflexivity.
Qed.
Lemma rows_ok Ah nr start : forall l w x, check_rows o nmax fuel Ah nr start l = (w, Ok x) ->
  exists outs, all_tested o nmax fuel l outs /\ forall r, lines (w ++ r) = flat_map (two_lines o Ah nr start) (combine l outs) ++ lines r.
Proof.
  induction l as [|[n c] l IH]; intros w x H; cbn [check_rows] in H.
  - exists []. split; [constructor|]. intros r. assert (w = []) by congruence. subst. reflexivity.
  - destruct (check_row o nmax fuel Ah nr start (n, c)) as [w1 [y|k| |]] eqn:E1; try discriminate. destruct (check_rows o nmax fuel Ah nr start l) as [w2 r2] eqn:E2.
    assert (w = w1 ++ w2) by congruence. assert (r2 = Ok x) by congruence. subst. destruct (IH w2 x eq_refl) as (outs & F & L). destruct (row_ok _ _ _ _ _ _ _ E1) as (cap & c' & T & L1).
    exists ((cap, c') :: outs). split; [constructor; [exact T|exact F]|]. intros r. rewrite <- app_assoc, L1, L. reflexivity.
Qed.
Lemma rows_bad Ah nr start : forall l w e, check_rows o nmax fuel Ah nr start l = (w, e) -> e <> Ok tt ->
  exists l1 n c l2 outs, l = l1 ++ (n, c) :: l2 /\ all_tested o nmax fuel l1 outs /\
    (exists v x, testCapacity (rq o) nmax false fuel (mkCyc c 0 th0) = (v, x) /\ e = cast x /\ forall y, x <> Ok y) /\
    lines w = flat_map (two_lines o Ah nr start) (combine l1 outs) ++ [broken_line o Ah nr n c].
Proof.
  induction l as [|[n c] l IH]; intros w e H Hn; cbn [check_rows] in H; [exfalso; apply Hn; congruence|].
  destruct (check_row o nmax fuel Ah nr start (n, c)) as [w1 r1] eqn:E1. destruct r1 as [[]|k| |].
  - destruct (check_rows o nmax fuel Ah nr start l) as [w2 r2] eqn:E2. assert (w = w1 ++ w2) by congruence. assert (r2 = e) by congruence. subst.
    destruct (IH w2 e eq_refl Hn) as (l1 & n' & c' & l2 & outs & -> & F & X & L). destruct (row_ok _ _ _ _ _ _ _ E1) as (cap & c1 & T & L1).
    exists ((n, c) :: l1), n', c', l2, ((cap, c1) :: outs). split; [reflexivity|]. split; [constructor; [exact T|exact F]|]. split; [exact X|]. rewrite L1, L. reflexivity.
  - assert (w = w1) by congruence. assert (e = Throw k) by congruence. subst. destruct (row_bad _ _ _ _ _ _ _ E1) as [X L]; [exact Hn|]. exists [], n, c, l, []. split; [reflexivity|]. split; [constructor|]. now split.
  - assert (w = w1) by congruence. assert (e = UB) by congruence. subst. destruct (row_bad _ _ _ _ _ _ _ E1) as [X L]; [exact Hn|]. exists [], n, c, l, []. split; [reflexivity|]. split; [constructor|]. now split.
  - assert (w = w1) by congruence. assert (e = Fuel) by congruence. subst. destruct (row_bad _ _ _ _ _ _ _ E1) as [X L]; [exact Hn|]. exists [], n, c, l, []. split; [reflexivity|]. split; [constructor|]. now split.
Qed.
End Rows.

Section Whole.
Context {A : Type} {NA : Num A}.
Lemma lines_header (r : list (wtok A)) : lines (check_header ++ r) = headings :: lines r.
Proof.
  unfold lines, check_header. rewrite <- app_assoc.
  match goal with |- context [split_at is_end (?h ++ ?h2 ++ r)] => change (h ++ h2 ++ r) with ((h ++ removelast h2) ++ WEnd :: r) end.
  rewrite split_sep by reflexivity. reflexivity.
Qed.
Lemma lines_mod_header (r : list (wtok A)) : lines (mod_header ++ r) = module_headings :: lines r.
Proof.
  unfold lines. change (mod_header ++ r) with (removelast mod_header ++ @WEnd A :: r). rewrite split_sep by reflexivity. reflexivity.
Qed.
Lemma report_ok {C : Type} (o : rep_if A C) nmax fuel nch Ah nr t w x : typed t -> check_report o nmax fuel nch Ah nr t = (w, Ok x) ->
  exists first rest outs, cells_of t = first :: rest /\ all_tested o nmax fuel (cells_of t) outs /\
    lines w = headings :: flat_map (two_lines o Ah nr (if rq_spm o (snd first) then (2 * nch)%nat else 0%nat)) (combine (cells_of t) outs) ++ [blank].
Proof.
  intros T H. unfold check_report, copy_cells in H. rewrite (visit_cells t T) in H. cbn [app] in H. destruct (cells_of t) as [|[n c] l] eqn:E; [discriminate|].
  cbn [snd] in H |- *. set (st := if rq_spm o c then (2 * nch)%nat else 0%nat) in *. destruct (check_rows o nmax fuel Ah nr st ((n, c) :: l)) as [w1 r1] eqn:E1.
  assert (w = check_header ++ w1) by congruence. assert (r1 = Ok x) by congruence. subst. destruct (rows_ok o nmax fuel _ _ _ _ _ _ E1) as (outs & F & L).
  exists (n, c), l, outs. split; [reflexivity|]. split; [exact F|]. rewrite lines_header. f_equal. rewrite <- (app_nil_r w1), L. reflexivity.
Qed.
Lemma report_bad {C : Type} (o : rep_if A C) nmax fuel nch Ah nr t w e : typed t -> check_report o nmax fuel nch Ah nr t = (w, e) -> e <> Ok tt -> cells_of t <> [] ->
  exists l1 n c l2 outs start, cells_of t = l1 ++ (n, c) :: l2 /\ all_tested o nmax fuel l1 outs /\
    (exists v x, testCapacity (rq o) nmax false fuel (mkCyc c 0 th0) = (v, x) /\ e = cast x /\ forall y, x <> Ok y) /\
    lines w = headings :: flat_map (two_lines o Ah nr start) (combine l1 outs) ++ [broken_line o Ah nr n c].
Proof.
  intros T H He N. unfold check_report, copy_cells in H. rewrite (visit_cells t T) in H. cbn [app] in H. destruct (cells_of t) as [|[n c] l] eqn:E; [now destruct N|].
  set (st := if rq_spm o c then (2 * nch)%nat else 0%nat) in *. destruct (check_rows o nmax fuel Ah nr st ((n, c) :: l)) as [w1 r1] eqn:E1.
  assert (w = check_header ++ w1) by congruence. assert (r1 = e) by congruence. subst. destruct (rows_bad o nmax fuel _ _ _ _ _ _ E1 He) as (l1 & n1 & c1 & l2 & outs & E2 & F & X & L).
  exists l1, n1, c1, l2, outs, st. split; [exact E2|]. split; [exact F|]. split; [exact X|]. now rewrite lines_header, L.
Qed.

(** ** The module report *)
Lemma mod_row_lines (m : modinfo A) k w : mi_cool m = Some k -> exists s, mod_row m (w, Ok tt) = (w ++ s, Ok tt) /\ forall r, lines (s ++ r) = module_line m k :: lines r.
Proof.
  intros H. unfold mod_row. cbn [fst snd]. rewrite H. eexists. split; [reflexivity|]. intros r. unfold lines.
  match goal with |- context [split_at is_end (?h ++ r)] => change (h ++ r) with (removelast h ++ WEnd :: r) end. rewrite split_sep by reflexivity. reflexivity.
Qed.
Lemma mod_rows_lines : forall (ms : list (modinfo A)) w ks, map mi_cool ms = map Some ks ->
  exists s, fold_left (fun w m => mod_row m w) ms (w, Ok tt) = (w ++ s, Ok tt) /\ forall r, lines (s ++ r) = map (fun x => module_line (fst x) (snd x)) (combine ms ks) ++ lines r.
Proof.
  induction ms as [|m ms IH]; intros w ks H.
  - exists []. split; [now rewrite app_nil_r|]. reflexivity.
  - destruct ks as [|k ks]; [discriminate|]. cbn [map] in H. assert (H1 : mi_cool m = Some k) by congruence. assert (H2 : map mi_cool ms = map Some ks) by congruence.
    destruct (mod_row_lines m k w H1) as (s1 & E1 & L1). cbn [fold_left]. rewrite E1. destruct (IH (w ++ s1) ks H2) as (s2 & E2 & L2). exists (s1 ++ s2).
    split; [now rewrite E2, app_assoc|]. intros r. rewrite <- app_assoc, L1, L2. reflexivity.
Qed.
Lemma mod_stuck : forall (ms : list (modinfo A)) (w : list (wtok A) * res unit), snd w <> Ok tt -> fold_left (fun w m => mod_row m w) ms w = w.
Proof.
  induction ms as [|m ms IH]; intros w H; [reflexivity|]. cbn [fold_left]. assert (E : mod_row m w = w) by (destruct w as [l [[]|k| |]]; [now destruct H|reflexivity|reflexivity|reflexivity]). rewrite E. now apply IH.
Qed.
Lemma mod_null : forall (ms : list (modinfo A)) (w : list (wtok A)), In None (map mi_cool ms) -> snd (fold_left (fun w m => mod_row m w) ms (w, Ok tt)) = UB.
Proof.
  induction ms as [|m ms IH]; intros w H; [destruct H|]. cbn [fold_left]. destruct (mi_cool m) as [k|] eqn:E.
  - destruct (mod_row_lines m k w E) as (s & E1 & _). rewrite E1. apply IH. destruct H as [H|H]; [congruence|exact H].
  - assert (E1 : snd (mod_row m (w, Ok tt)) = UB) by (unfold mod_row; cbn [fst snd]; now rewrite E). rewrite mod_stuck; [exact E1|]. now rewrite E1.
Qed.
End Whole.
