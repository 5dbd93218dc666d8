(** * Proofs about the CSV readers *)
From Verif Require Import Base CsvModel CsvSpec.
Open Scope Z_scope.

Definition isnil {B} (l : list B) : bool := match l with [] => true | _ => false end.
Definition blank (w : list Z) : Prop := Forall (fun c => isspace c = true) w.
Definition stops (r : list Z) : Prop := match r with [] => True | c :: _ => c = 44 \/ c = 10 \/ c = 13 end.

Lemma drop_ws_blank w l : blank w -> drop_ws (w ++ l) = drop_ws l.
Proof. induction 1 as [|c w H _ IH]; [reflexivity|]. cbn. now rewrite H. Qed.
Lemma digit_is c : isdigit c = true <-> 48 <= c <= 57.
Proof. unfold isdigit. rewrite andb_true_iff, !Z.leb_le. tauto. Qed.
Lemma digit_space c : 45 <= c <= 57 -> isspace c = false.
Proof. intros H. unfold isspace. lia. Qed.

Lemma collect_digits : forall d m dec sci r, digits d ->
  collect m dec sci (d ++ r) = let '(t, r') := collect (m || negb (isnil d)) dec sci r in (d ++ t, r').
Proof.
  induction d as [|c d IH]; intros m dec sci r H.
  - cbn [app isnil negb]. rewrite orb_false_r. now destruct (collect m dec sci r).
  - inversion H as [|? ? Hc Hd]; subst. cbn [app collect]. assert (isdigit c = true) as -> by now apply digit_is.
    rewrite IH by assumption. cbn [orb isnil negb]. rewrite orb_true_r. now destruct (collect true dec sci r).
Qed.
Lemma collect_stop m dec sci r : stops r -> collect m dec sci r = ([], r).
Proof.
  destruct r as [|c r]; [reflexivity|]. intros H. cbn [collect].
  assert (isdigit c = false) as -> by (unfold isdigit; destruct H as [->|[->| ->]]; reflexivity).
  destruct H as [->|[->| ->]]; reflexivity.
Qed.
Lemma collect_exp dec r ex : stops r -> exp_part ex -> collect true dec false (ex ++ r) = (ex, r).
Proof.
  intros Hs [->|(sg & d & -> & Hg & Hd & N)]; [now apply collect_stop|]. cbn [app collect].
  change (isdigit 101) with false. cbv iota. cbn [Z.eqb andb orb negb Pos.eqb].
  destruct Hg as [->|[->| ->]]; cbn [app].
  - destruct d as [|c d]; [congruence|]. inversion Hd as [|? ? Hc Hd']; subst. cbn [app].
    assert ((c =? 43) || (c =? 45) = false) as -> by lia. rewrite app_comm_cons, collect_digits, collect_stop by assumption.
    now rewrite app_nil_r.
  - cbn [Z.eqb orb Pos.eqb]. rewrite collect_digits, collect_stop by assumption. now rewrite app_nil_r.
  - cbn [Z.eqb orb Pos.eqb]. rewrite collect_digits, collect_stop by assumption. now rewrite app_nil_r.
Qed.
Lemma collect_numeral ip fp ex r : digits ip -> ip <> [] -> frac_part fp -> exp_part ex -> stops r ->
  collect false false false (ip ++ fp ++ ex ++ r) = (ip ++ fp ++ ex, r).
Proof.
  intros Hi N Hf He Hs. rewrite collect_digits by assumption. assert (negb (isnil ip) = true) as -> by now destruct ip.
  cbn [orb]. destruct Hf as [->|(d & -> & Hd)].
  - cbn [app]. now rewrite collect_exp.
  - cbn [app collect]. change (isdigit 46) with false. cbv iota. cbn [Z.eqb andb orb negb Pos.eqb].
    rewrite collect_digits by assumption. cbn [orb]. now rewrite collect_exp.
Qed.
Lemma num_text_numeral t r : numeral t -> stops r -> num_text (t ++ r) = (t, r).
Proof.
  intros (sg & ip & fp & ex & -> & Hg & Hi & N & Hf & He) Hs. rewrite <- !app_assoc.
  destruct Hg as [->| ->]; cbn [app].
  - destruct ip as [|c ip]; [congruence|]. inversion Hi as [|? ? Hc Hd]; subst. cbn [app num_text].
    assert ((c =? 43) || (c =? 45) = false) as -> by lia. exact (collect_numeral (c :: ip) fp ex r Hi N Hf He Hs).
  - cbn [num_text Z.eqb orb Pos.eqb]. now rewrite collect_numeral.
Qed.
Lemma numeral_head t : numeral t -> exists c t', t = c :: t' /\ 45 <= c <= 57.
Proof.
  intros (sg & ip & fp & ex & -> & Hg & Hi & N & _). destruct Hg as [->| ->].
  - destruct ip as [|c ip]; [congruence|]. inversion Hi; subst. exists c, (ip ++ fp ++ ex). split; [reflexivity|lia].
  - exists 45, (ip ++ fp ++ ex). split; [reflexivity|lia].
Qed.
Definition numchar (c : Z) : Prop := 48 <= c <= 57 \/ c = 43 \/ c = 45 \/ c = 46 \/ c = 101.
Lemma numeral_chars t : numeral t -> Forall numchar t.
Proof.
  intros (sg & ip & fp & ex & -> & Hg & Hi & _ & Hf & He).
  assert (D : forall d, digits d -> Forall numchar d) by (intros d; apply Forall_impl; intros a Ha; left; exact Ha).
  repeat (apply Forall_app; split).
  - destruct Hg as [->| ->]; [constructor|constructor; [unfold numchar; lia|constructor]].
  - auto.
  - destruct Hf as [->|(d & -> & Hd)]; [constructor|]; constructor; [unfold numchar; lia|auto].
  - destruct He as [->|(s & d & -> & Hs & Hd & _)]; [constructor|]; constructor; [unfold numchar; lia|]. apply Forall_app. split; [|auto].
    destruct Hs as [->|[->| ->]]; [constructor|constructor; [unfold numchar; lia|constructor]..].
Qed.

Section Read.
Context {A : Type} (conv : list Z -> A * bool).

Lemma get_num_ok v0 w t r v : writes conv t v -> blank w -> stops r ->
  get_num conv v0 (mkIn (w ++ t ++ r) false false) = (mkIn r false (isnil r), v).
Proof.
  intros (N & C) Hw Hs. unfold get_num, sentry, good. cbn [bad eof negb andb rest]. rewrite drop_ws_blank by assumption.
  destruct (numeral_head t N) as (c & t' & E & Hc).
  assert (D : drop_ws (t ++ r) = t ++ r) by (rewrite E; cbn [app drop_ws]; now rewrite digit_space).
  rewrite D. rewrite E. cbn [app rest]. rewrite (app_comm_cons t' r c), <- E. rewrite num_text_numeral, C by assumption. now destruct r.
Qed.
Lemma get_num_end v0 w e : blank w -> (e = true -> w = []) -> bad (fst (get_num conv v0 (mkIn w false e))) = true.
Proof.
  intros Hw He. unfold get_num, sentry, good. cbn [bad eof negb andb rest]. destruct e; [reflexivity|]. cbn [negb].
  rewrite <- (app_nil_r w), drop_ws_blank by assumption. reflexivity.
Qed.
Lemma get_num_bad v0 s : bad s = true -> bad (fst (get_num conv v0 s)) = true.
Proof. intros H. unfold get_num, sentry, good. rewrite H. reflexivity. Qed.
Lemma get_char_bad c s : bad s = true -> bad (fst (get_char c s)) = true.
Proof. intros H. unfold get_char, sentry, good. rewrite H. reflexivity. Qed.
Lemma get_comma c0 r : get_char c0 (mkIn (44 :: r) false false) = (mkIn r false false, 44).
Proof. reflexivity. Qed.

Lemma nl_blank nl : newline nl -> blank nl.
Proof. intros [->| ->]; repeat constructor. Qed.
Lemma nl_stops nl r : newline nl -> stops (nl ++ r).
Proof. intros [->| ->]; cbn; auto. Qed.
Lemma tail_blank nl fin : newline nl -> blank (if fin : bool then nl else []).
Proof. intros H. destruct fin; [now apply nl_blank|constructor]. Qed.
Lemma tail_stops nl fin : newline nl -> stops (if fin : bool then nl else []).
Proof. intros H. destruct fin; [|exact Logic.I]. rewrite <- (app_nil_r nl). now apply nl_stops. Qed.

(** What follows the first row: [sep] and the other rows. *)
Lemma file_split nl fin r rs : newline nl -> exists sep, blank sep /\ stops (sep ++ file_text nl fin rs) /\
  file_text nl fin (r :: rs) = row_text r ++ sep ++ file_text nl fin rs.
Proof.
  intros H. destruct rs as [|r2 rs].
  - exists (if fin then nl else []). split; [now apply tail_blank|]. cbn [file_text]. rewrite app_nil_r. split; [now apply tail_stops|reflexivity].
  - exists nl. split; [now apply nl_blank|]. split; [now apply nl_stops|reflexivity].
Qed.

Definition upto {B} (n : Z) (l : list B) : list B := if n =? 0 then l else firstn (Z.to_nat n) l.
Definition from {B} (n j : Z) (l : list B) : list B := if n =? 0 then l else firstn (Z.to_nat (n - j)) l.

Definition pair_row (r : list (list Z)) (v : A * A) : Prop := exists t1 t2, r = [t1; t2] /\ writes conv t1 (fst v) /\ writes conv t2 (snd v).
Lemma rows2_ok nl fin v0 n : newline nl -> forall rows vals, Forall2 pair_row rows vals ->
  forall fuel j w e, (length rows < fuel)%nat -> 0 <= j -> blank w -> (e = true -> w ++ file_text nl fin rows = []) ->
  rows2 conv fuel v0 n j (mkIn (w ++ file_text nl fin rows) false e) = Ok (from n j vals).
Proof.
  intros Hn rows vals H. induction H as [|r v rows vals Hr Ht IH]; intros fuel j w e Hf Hj Hw He.
  - destruct fuel as [|fuel]; [lia|]. cbn [rows2 file_text]. rewrite app_nil_r. unfold from. destruct (n =? 0) eqn:E0; cbn [orb].
    + cbn [file_text] in He. rewrite app_nil_r in He. pose proof (get_num_end v0 w e Hw He) as K.
      destruct (get_num conv v0 (mkIn w false e)) as [s1 x]. cbn [fst] in K. pose proof (get_char_bad 46 s1 K) as K2.
      destruct (get_char 46 s1) as [s2 c]. cbn [fst] in K2. pose proof (get_num_bad v0 s2 K2) as K3.
      destruct (get_num conv v0 s2) as [s3 y]. cbn [fst] in K3. now rewrite K3.
    + rewrite firstn_nil. destruct (j <? n); [|reflexivity].
      cbn [file_text] in He. rewrite app_nil_r in He. pose proof (get_num_end v0 w e Hw He) as K.
      destruct (get_num conv v0 (mkIn w false e)) as [s1 x]. cbn [fst] in K. pose proof (get_char_bad 46 s1 K) as K2.
      destruct (get_char 46 s1) as [s2 c]. cbn [fst] in K2. pose proof (get_num_bad v0 s2 K2) as K3.
      destruct (get_num conv v0 s2) as [s3 y]. cbn [fst] in K3. now rewrite K3.
  - destruct fuel as [|fuel]; [cbn in Hf; lia|]. cbn [length] in Hf. destruct Hr as (t1 & t2 & -> & W1 & W2).
    destruct (file_split nl fin [t1; t2] rows Hn) as (sep & Hb & Hs & E). cbn [row_text] in E.
    assert (e = false) as ->.
    { destruct e; [|reflexivity]. specialize (He eq_refl). apply app_eq_nil in He. destruct He as (_ & He). rewrite E in He.
      destruct (numeral_head t1 (proj1 W1)) as (c & t' & -> & _). discriminate. }
    cbn [rows2]. rewrite E. destruct ((n =? 0) || (j <? n)) eqn:C.
    + rewrite <- app_assoc. rewrite <- app_comm_cons. rewrite (get_num_ok v0 w t1 (44 :: t2 ++ sep ++ file_text nl fin rows) (fst v) W1 Hw) by (left; reflexivity).
      cbn [isnil]. rewrite get_comma. pose proof (get_num_ok v0 [] t2 (sep ++ file_text nl fin rows) (snd v) W2 (Forall_nil _) Hs) as G. cbn [app] in G. rewrite G.
      cbn [bad]. rewrite IH; [|lia|lia|exact Hb|].
      * cbn [rmap rbind]. f_equal. rewrite <- surjective_pairing. unfold from. destruct (n =? 0) eqn:E0; [reflexivity|].
        replace (Z.to_nat (n - j)) with (S (Z.to_nat (n - (j + 1)))) by lia. reflexivity.
      * intros I. now destruct (sep ++ file_text nl fin rows).
    + unfold from. apply orb_false_iff in C. destruct C as (-> & C2). replace (Z.to_nat (n - j)) with O by lia. reflexivity.
Qed.

(** *** The mark at the start of the file *)
Lemma ignoreBOM_ok b c l fuel : 45 <= c <= 57 -> (4 <= fuel)%nat ->
  ignoreBOM fuel (opened (mark b ++ c :: l)) = Ok (mkIn (c :: l) false false).
Proof.
  intros Hc Hf. assert (K : forall k c0, ignoreBOM_loop (S k) c0 (mkIn (c :: l) false false) = Ok (mkIn (c :: l) false false)).
  { intros k c0. cbn [ignoreBOM_loop]. unfold get_char, sentry, good. cbn [bad eof negb andb rest drop_ws]. rewrite digit_space by assumption.
    cbn [rest]. unfold signed. assert (c <? 128 = true) as -> by lia. assert (c <? 45 = false) as -> by lia.
    unfold putback, unsigned. cbn [bad rest]. assert (c <? 0 = false) as -> by lia. reflexivity. }
  destruct fuel as [|[|[|[|fuel]]]]; try lia. unfold ignoreBOM, opened. destruct b; cbn [mark BOM app].
  - do 3 (cbn [ignoreBOM_loop get_char sentry good bad eof negb andb rest drop_ws isspace orb Z.leb Z.compare Pos.compare Pos.compare_cont Z.eqb Pos.eqb signed Z.ltb Z.sub Z.add Z.opp Z.pos_sub Pos.sub Pos.sub_mask Pos.succ_double_mask Pos.double_mask Pos.double_pred_mask Pos.pred_double]).
    apply K.
  - apply K.
Qed.

(** *** Matrices *)
Lemma row_head t ts l : numeral t -> exists c l', row_text (t :: ts) ++ l = c :: l' /\ 45 <= c <= 57.
Proof.
  intros N. destruct (numeral_head t N) as (c & t' & -> & Hc). destruct ts; cbn [row_text app]; eexists; eexists; (split; [reflexivity|exact Hc]).
Qed.
Lemma mat_row_ok : forall ts vs, Forall2 (writes conv) ts vs -> ts <> [] -> forall old w r, length old = length ts -> blank w -> stops r ->
  mat_row conv old (mkIn (w ++ row_text ts ++ r) false false) = (mkIn r false (isnil r), vs).
Proof.
  intros ts vs H. induction H as [|t v ts vs Ht Hs IH]; intros NE old w r L Hw Hr; [congruence|].
  destruct old as [|o old]; [discriminate|]. destruct ts as [|t2 ts].
  - inversion Hs; subst. destruct old; [|discriminate]. cbn [mat_row row_text]. now rewrite (get_num_ok o w t r v Ht Hw Hr).
  - destruct old as [|o2 old]; [discriminate|]. change (row_text (t :: t2 :: ts)) with (t ++ 44 :: row_text (t2 :: ts)). rewrite <- app_assoc, <- app_comm_cons.
    change (mat_row conv (o :: o2 :: old) ?s) with
      (let '(s1, x) := get_num conv o s in let '(s2, _) := get_char 46 s1 in let '(s3, xs) := mat_row conv (o2 :: old) s2 in (s3, x :: xs)).
    rewrite (get_num_ok o w t _ v Ht Hw) by (left; reflexivity). cbn [isnil]. rewrite get_comma.
    specialize (IH ltac:(discriminate) (o2 :: old) [] r ltac:(cbn in *; lia) (Forall_nil _) Hr). cbn [app] in IH. now rewrite IH.
Qed.
Lemma mat_rows_ok nl fin : newline nl -> forall rows vals, writes_rows conv rows vals ->
  forall old w e, (length old <= length rows)%nat -> Forall (fun r => r <> []) rows ->
  (forall i o r, nth_error old i = Some o -> nth_error rows i = Some r -> length o = length r) ->
  blank w -> (e = true -> w ++ file_text nl fin rows = []) ->
  snd (mat_rows conv old (mkIn (w ++ file_text nl fin rows) false e)) = firstn (length old) vals.
Proof.
  intros Hn rows vals H. induction H as [|r v rows vals Hr Ht IH]; intros old w e L NE LL Hw He.
  - destruct old; [reflexivity|cbn in L; lia].
  - destruct old as [|o old]; [reflexivity|]. inversion NE as [|? ? N1 N2]; subst.
    destruct (file_split nl fin r rows Hn) as (sep & Hb & Hs & E).
    assert (e = false) as ->.
    { destruct e; [|reflexivity]. specialize (He eq_refl). apply app_eq_nil in He. destruct He as (_ & He). rewrite E in He.
      destruct r as [|t r]; [congruence|]. inversion Hr as [|? ? ? ? W]; subst.
      destruct (row_head t r (sep ++ file_text nl fin rows) (proj1 W)) as (c & l & E2 & _). congruence. }
    rewrite E. cbn [mat_rows]. rewrite (mat_row_ok r v Hr N1 o w (sep ++ file_text nl fin rows) (LL O o r eq_refl eq_refl) Hw Hs).
    specialize (IH old sep (isnil (sep ++ file_text nl fin rows)) ltac:(cbn in L; lia) N2 (fun i => LL (S i)) Hb).
    destruct (mat_rows conv old _) as [s2 xs]. cbn [snd length firstn] in *. rewrite IH; [reflexivity|].
    intros K. now destruct (sep ++ file_text nl fin rows).
Qed.
Lemma mat_skip_ok c l fuel : 45 <= c <= 57 -> (1 <= fuel)%nat -> mat_skip fuel (opened (c :: l)) = Ok (opened (c :: l)).
Proof.
  intros Hc Hf. destruct fuel as [|k]; [lia|]. unfold opened. cbn [mat_skip peek good bad eof negb andb rest].
  assert (c <=? 32 = false) as -> by lia. reflexivity.
Qed.

(** *** Files with any number of columns *)
Lemma split_plain l r : Forall (fun c => c <> 10) l -> split_line (l ++ 10 :: r) = (l, Some r).
Proof.
  induction 1 as [|c l Hc _ IH]; [reflexivity|]. cbn [app split_line]. assert (c =? 10 = false) as -> by lia. now rewrite IH.
Qed.
Lemma split_last l : Forall (fun c => c <> 10) l -> split_line l = (l, None).
Proof. induction 1 as [|c l Hc _ IH]; [reflexivity|]. cbn [split_line]. assert (c =? 10 = false) as -> by lia. now rewrite IH. Qed.
Lemma row_plain : forall ts, Forall numeral ts -> Forall (fun c => c <> 10) (row_text ts).
Proof.
  assert (P : forall t, numeral t -> Forall (fun c => c <> 10) t).
  { intros t N. apply numeral_chars in N. revert N. apply Forall_impl. intros c H. unfold numchar in H. lia. }
  induction 1 as [|t ts Ht Hs IH]; [constructor|]. destruct ts as [|t2 ts]; [cbn; auto|].
  change (row_text (t :: t2 :: ts)) with (t ++ 44 :: row_text (t2 :: ts)). apply Forall_app. split; [auto|]. constructor; [lia|exact IH].
Qed.
Definition cr (l : list Z) : Prop := l = [] \/ l = [13].
Lemma cr_blank l : cr l -> blank l.
Proof. intros [->| ->]; repeat constructor. Qed.
Lemma cr_stops l : cr l -> stops l.
Proof. intros [->| ->]; cbn; auto. Qed.
Lemma line_nums_bad fuel v0 s : (0 < fuel)%nat -> bad s = true -> line_nums conv fuel v0 s = Ok [].
Proof.
  intros Hf Hb. destruct fuel as [|k]; [lia|]. cbn [line_nums]. pose proof (get_num_bad v0 s Hb) as K.
  destruct (get_num conv v0 s) as [s1 x]. cbn [fst] in K. now rewrite K.
Qed.
Lemma get_char_end c0 w : blank w -> bad (fst (get_char c0 (mkIn w false (isnil w)))) = true.
Proof.
  intros Hw. unfold get_char, sentry, good. cbn [bad eof negb andb rest]. destruct w as [|c w]; [reflexivity|]. cbn [isnil negb].
  rewrite <- (app_nil_r (c :: w)), drop_ws_blank by assumption. reflexivity.
Qed.
Lemma line_nums_ok v0 : forall ts vs, Forall2 (writes conv) ts vs -> ts <> [] -> forall fuel w, (length ts < fuel)%nat -> cr w ->
  line_nums conv fuel v0 (mkIn (row_text ts ++ w) false false) = Ok vs.
Proof.
  intros ts vs H. induction H as [|t v ts vs Ht Hs IH]; intros NE fuel w L Hw; [congruence|].
  destruct fuel as [|k]; [cbn in L; lia|]. cbn [length] in L. cbn [line_nums]. destruct ts as [|t2 ts].
  - inversion Hs; subst. cbn [row_text].
    pose proof (get_num_ok v0 [] t w v Ht (Forall_nil _) (cr_stops _ Hw)) as G. cbn [app] in G. rewrite G. cbn [bad].
    rewrite line_nums_bad; [reflexivity|lia|]. apply get_char_end. now apply cr_blank.
  - change (row_text (t :: t2 :: ts)) with (t ++ 44 :: row_text (t2 :: ts)). rewrite <- app_assoc, <- app_comm_cons.
    pose proof (get_num_ok v0 [] t (44 :: row_text (t2 :: ts) ++ w) v Ht (Forall_nil _) (or_introl eq_refl)) as G. cbn [app] in G. rewrite G.
    cbn [bad isnil]. rewrite get_comma. cbn [fst]. rewrite IH; [reflexivity|discriminate|lia|exact Hw].
Qed.
Lemma writes_numerals ts vs : Forall2 (writes conv) ts vs -> Forall numeral ts.
Proof. induction 1 as [|t v ts vs (N & _) _ IH]; constructor; auto. Qed.
Lemma getline_ok nl fin r rows vs : newline nl -> Forall2 (writes conv) r vs -> r <> [] -> exists w e,
  cr w /\ getline (mkIn (file_text nl fin (r :: rows)) false false) = Some (row_text r ++ w, mkIn (file_text nl fin rows) false e) /\
  (e = true -> file_text nl fin rows = []).
Proof.
  intros Hn Hr NE. assert (P := row_plain r (writes_numerals _ _ Hr)).
  destruct r as [|t r]; [congruence|]. assert (N : numeral t) by (inversion Hr as [|? ? ? ? W]; apply W).
  assert (K : forall l, getline (mkIn (row_text (t :: r) ++ l) false false) = match split_line (row_text (t :: r) ++ l) with
     | (a, Some q) => Some (a, mkIn q false false) | (a, None) => Some (a, mkIn [] false true) end).
  { intros l. unfold getline, good. cbn [bad eof negb andb rest]. destruct (row_head t r l N) as (c & l' & E & _). now rewrite E. }
  assert (Q : file_text nl fin ((t :: r) :: rows) = row_text (t :: r) /\ rows = [] \/
              file_text nl fin ((t :: r) :: rows) = row_text (t :: r) ++ nl ++ file_text nl fin rows).
  { destruct rows; [|now right]. cbn [file_text]. destruct fin; [right; now rewrite app_nil_r|left; split; [apply app_nil_r|reflexivity]]. }
  destruct Q as [(-> & ->)| ->].
  - exists [], true. split; [now left|]. split; [|reflexivity]. specialize (K []). rewrite app_nil_r in *. rewrite K.
    rewrite split_last by assumption. reflexivity.
  - destruct Hn as [->| ->].
    + exists [], false. split; [now left|]. split; [|discriminate]. cbn [app]. rewrite K, split_plain by assumption. now rewrite app_nil_r.
    + exists [13], false. split; [now right|]. split; [|discriminate]. rewrite K. cbn [app].
      change (13 :: 10 :: ?q) with ([13] ++ 10 :: q). rewrite app_assoc, split_plain; [reflexivity|]. apply Forall_app. split; [exact P|]. constructor; [lia|constructor].
Qed.
Lemma file_rows_ok nl fin v0 n w : newline nl -> (0 < w)%nat -> forall rows vals, writes_rows conv rows vals -> width w rows ->
  forall fuel i e, (length rows + w < fuel)%nat -> 0 <= i -> (e = true -> file_text nl fin rows = []) ->
  file_rows conv fuel v0 n i (mkIn (file_text nl fin rows) false e) = Ok (from n i vals).
Proof.
  intros Hn Hw rows vals H. induction H as [|r v rows vals Hr Ht IH]; intros W fuel i e Hf Hi He.
  - destruct fuel as [|k]; [lia|]. cbn [file_rows file_text]. unfold getline, good. cbn [bad eof negb andb rest]. unfold from.
    rewrite firstn_nil. destruct ((n =? 0) || (i <? n)); destruct (n =? 0); destruct e; reflexivity.
  - inversion W as [|? ? W1 W2]; subst. destruct fuel as [|k]; [lia|].
    assert (NE : r <> []) by (intros ->; cbn in Hw; lia). cbn [length] in Hf.
    assert (e = false) as ->.
    { destruct e; [|reflexivity]. specialize (He eq_refl). destruct r as [|t r]; [congruence|]. inversion Hr as [|? ? ? ? W0]; subst.
      destruct (file_split nl fin (t :: r) rows Hn) as (sep & _ & _ & E). rewrite E in He.
      destruct (row_head t r (sep ++ file_text nl fin rows) (proj1 W0)) as (c & l & E2 & _). congruence. }
    destruct (getline_ok nl fin r rows v Hn Hr NE) as (q & e' & Hq & G & He').
    cbn [file_rows]. rewrite G. destruct ((n =? 0) || (i <? n)) eqn:C.
    + unfold opened. rewrite (line_nums_ok v0 r v Hr NE (S k) q ltac:(lia) Hq). cbn [rbind]. rewrite IH; [|exact W2|lia|lia|exact He'].
      cbn [rmap rbind]. f_equal. unfold from. destruct (n =? 0) eqn:E0; [reflexivity|].
      replace (Z.to_nat (n - i)) with (S (Z.to_nat (n - (i + 1)))) by lia. reflexivity.
    + unfold from. apply orb_false_iff in C. destruct C as (-> & C2). replace (Z.to_nat (n - i)) with O by lia. reflexivity.
Qed.
End Read.

Lemma concat_length {B} w (rs : list (list B)) : width w rs -> length (concat rs) = (length rs * w)%nat.
Proof. induction 1 as [|r rs H _ IH]; [reflexivity|]. cbn [concat length]. rewrite app_length. lia. Qed.
Lemma concat_nth {B} w : forall (rs : list (list B)) i j r, width w rs -> nth_error rs i = Some r -> (j < w)%nat ->
  nth_error (concat rs) (j + i * w) = nth_error r j.
Proof.
  induction rs as [|r0 rs IH]; intros i j r W H Hj; [now destruct i|]. inversion W as [|? ? W1 W2]; subst. cbn [concat]. destruct i as [|i].
  - injection H as ->. rewrite Nat.mul_0_l, Nat.add_0_r. apply nth_error_app1. lia.
  - cbn [nth_error] in H. rewrite nth_error_app2 by lia. replace (j + S i * length r0 - length r0)%nat with (j + i * length r0)%nat by lia.
    now apply (IH i j r).
Qed.
