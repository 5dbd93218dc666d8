(** * C63: CSV files are read back as written *)
From Verif Require Import Base CsvModel CsvSpec CsvProofs.
Open Scope Z_scope.

(** Two columns, any number of rows, any numerals, with or without byte order mark, line feeds or carriage returns, with or without
    final newline: the two columns in order; with [n > 0] the first [n] rows. *)
Theorem C63_two_columns : forall (A : Type) (conv : list Z -> A * bool) v0 bom nl fin rows vals n fuel,
  newline nl -> writes_rows conv rows (map (fun p => [fst p; snd p]) vals) -> rows <> [] -> 0 <= n ->
  (length rows + 4 <= fuel)%nat ->
  loadCSV_2col conv fuel v0 (Some (mark bom ++ file_text nl fin rows)) n =
    Ok (map fst (if n =? 0 then vals else firstn (Z.to_nat n) vals), map snd (if n =? 0 then vals else firstn (Z.to_nat n) vals)).
Proof.
  intros A conv v0 bom nl fin rows vals n fuel Hn W NE H0 Hf.
  assert (P : Forall2 (pair_row conv) rows vals).
  { clear NE Hf. revert vals W. induction rows as [|r rows IH]; intros [|v vals] W; inversion W as [|? ? ? ? W1 W2]; subst; constructor; auto.
    inversion W1 as [|? ? ? ? Q1 W3]; subst. inversion W3 as [|? ? ? ? Q2 W4]; subst. inversion W4; subst. eexists. eexists. split; [reflexivity|]. split; assumption. }
  unfold loadCSV_2col. cbn [open_file rbind]. destruct rows as [|r rows]; [congruence|]. destruct vals as [|v vals]; [inversion P|].
  assert (exists c l, file_text nl fin (r :: rows) = c :: l /\ 45 <= c <= 57) as (c & l & E & Hc).
  { inversion P as [|? ? ? ? (t1 & t2 & -> & W1 & _)]; subst. destruct (file_split nl fin [t1; t2] rows Hn) as (sep & _ & _ & ->).
    apply row_head. apply W1. }
  rewrite E. rewrite ignoreBOM_ok by (auto; lia). cbn [rbind]. rewrite <- E.
  pose proof (rows2_ok conv nl fin v0 n Hn (r :: rows) (v :: vals) P fuel 0 [] false ltac:(lia) ltac:(lia) (Forall_nil _) ltac:(discriminate)) as K.
  cbn [app] in K. rewrite K. cbn [rmap rbind]. unfold from. now rewrite Z.sub_0_r.
Qed.
Print Assumptions C63_two_columns.

(** Matrices of a fixed size (file without byte order mark, at least as many rows as the matrix, the matrix's number of columns): every
    element is the one of its row and column. *)
Theorem C63_matrix : forall (A : Type) (conv : list Z -> A * bool) nl fin rows vals old w fuel,
  newline nl -> writes_rows conv rows vals -> (0 < w)%nat -> width w rows -> width w old -> (length old <= length rows)%nat ->
  rows <> [] -> (1 <= fuel)%nat ->
  loadCSV_mat conv fuel (Some (file_text nl fin rows)) old = Ok (firstn (length old) vals).
Proof.
  intros A conv nl fin rows vals old w fuel Hn W Hw W1 W2 L NE Hf. unfold loadCSV_mat. cbn [open_file rbind].
  assert (N0 : Forall (fun r => r <> []) rows).
  { revert W1. apply Forall_impl. intros r Hr ->. cbn in Hr. lia. }
  assert (exists c l, file_text nl fin rows = c :: l /\ 45 <= c <= 57) as (c & l & E & Hc).
  { destruct rows as [|r rows]; [congruence|]. destruct (file_split nl fin r rows Hn) as (sep & _ & _ & ->).
    inversion N0 as [|? ? N1 N2]; subst. destruct r as [|t r]; [congruence|]. inversion W as [|? ? ? ? W0]; subst. inversion W0 as [|? ? ? ? (N & _)]; subst.
    now apply row_head. }
  rewrite E, mat_skip_ok by assumption. cbn [rbind]. rewrite <- E. f_equal.
  refine (mat_rows_ok conv nl fin Hn rows vals W old [] false L N0 _ (Forall_nil _) ltac:(discriminate)).
  intros i o r Ho Hr. apply nth_error_In in Ho, Hr. unfold width in *. rewrite Forall_forall in W1, W2. now rewrite W1, W2.
Qed.
Print Assumptions C63_matrix.

Theorem C63_one_column : forall (A : Type) (conv : list Z -> A * bool) v0 nl fin texts vals fuel,
  newline nl -> Forall2 (writes conv) texts vals -> texts <> [] -> (1 <= fuel)%nat ->
  loadCSV_1col conv fuel v0 (Some (file_text nl fin (map (fun t => [t]) texts))) (length texts) = Ok vals.
Proof.
  intros A conv v0 nl fin texts vals fuel Hn W NE Hf. unfold loadCSV_1col.
  rewrite (C63_matrix A conv nl fin (map (fun t => [t]) texts) (map (fun v => [v]) vals) (repeat [v0] (length texts)) 1 fuel Hn).
  - cbn [rmap rbind]. f_equal. rewrite repeat_length, firstn_all2.
    + clear. induction vals; cbn; congruence.
    + rewrite map_length. clear -W. induction W; cbn; lia.
  - clear -W. induction W as [|t v ts vs H _ IH]; constructor; auto.
  - lia.
  - clear. induction texts; constructor; auto.
  - clear. induction texts; constructor; auto.
  - rewrite repeat_length, map_length. lia.
  - destruct texts; [congruence|discriminate].
  - exact Hf.
Qed.
Print Assumptions C63_one_column.

(** Files with any number of columns: the element of line [i] and column [j] is [x(j, i)]. *)
Theorem C63_any_columns : forall (A : Type) (conv : list Z -> A * bool) v0 bom nl fin rows vals w fuel,
  newline nl -> writes_rows conv rows vals -> (0 < w)%nat -> width w rows -> rows <> [] -> (length rows + w + 4 <= fuel)%nat ->
  exists x, loadCSV_Ncol conv fuel v0 (Some (mark bom ++ file_text nl fin rows)) 0 = Ok x /\
    dm_m x = Z.of_nat w /\ dm_n x = Z.of_nat (length rows) /\
    forall i j r v, nth_error vals i = Some r -> nth_error r j = Some v -> dm_at x (Z.of_nat j) (Z.of_nat i) = Ok v.
Proof.
  intros A conv v0 bom nl fin rows vals w fuel Hn W Hw W1 NE Hf. unfold loadCSV_Ncol. cbn [open_file rbind].
  assert (exists c l, file_text nl fin rows = c :: l /\ 45 <= c <= 57) as (c & l & E & Hc).
  { destruct rows as [|r rows]; [congruence|]. destruct (file_split nl fin r rows Hn) as (sep & _ & _ & ->).
    inversion W1 as [|? ? L1 _]; subst. destruct r as [|t r]; [cbn in Hw; lia|]. inversion W as [|? ? ? ? W0]; subst. inversion W0 as [|? ? ? ? (N & _)]; subst.
    now apply row_head. }
  rewrite E, ignoreBOM_ok by (auto; lia). cbn [rbind]. rewrite <- E.
  pose proof (file_rows_ok conv nl fin v0 0 w Hn Hw rows vals W W1 fuel 0 false ltac:(lia) ltac:(lia) ltac:(discriminate)) as K.
  rewrite K. cbn [rbind from Z.eqb].
  assert (L : length vals = length rows) by (clear -W; induction W; cbn; lia).
  assert (W2 : width w vals).
  { clear -W W1. revert W1. induction W as [|r v rows vals H _ IH]; intros W1; inversion W1; subst; constructor; [|now apply IH].
    clear -H. induction H; cbn; lia. }
  destruct vals as [|v vals]; [destruct rows; [congruence|discriminate]|]. eexists. split; [reflexivity|]. cbn [dm_m dm_n dm_data].
  rewrite (concat_length w _ W2).
  assert (D : Z.of_nat (length (v :: vals) * w) / Z.of_nat (length (v :: vals)) = Z.of_nat w).
  { rewrite Nat2Z.inj_mul, Z.mul_comm. apply Z.div_mul. cbn. lia. }
  rewrite D. split; [reflexivity|]. split; [now rewrite L|]. intros i j r x Hi Hj. unfold dm_at. cbn [dm_m dm_data].
  assert (Lr : length r = w) by (unfold width in W2; rewrite Forall_forall in W2; apply W2; now apply nth_error_In in Hi).
  assert (Hjw : (j < w)%nat) by (rewrite <- Lr; apply nth_error_Some; congruence).
  assert (Z.of_nat j + Z.of_nat i * Z.of_nat w <? 0 = false) as -> by lia.
  replace (Z.to_nat (Z.of_nat j + Z.of_nat i * Z.of_nat w)) with (j + i * w)%nat by lia.
  rewrite (concat_nth w _ i j r W2 Hi Hjw), Hj. reflexivity.
Qed.
Print Assumptions C63_any_columns.

(** A file that cannot be opened is reported by every reader, whatever the arguments. *)
Theorem C63_missing_file : forall (A : Type) (conv : list Z -> A * bool) fuel v0 n old k xs ys,
  loadCSV_2col conv fuel v0 None n = Throw 2 /\ loadCSV_2col_array conv fuel None n xs ys = Throw 2 /\
  loadCSV_mat conv fuel None old = Throw 2 /\ loadCSV_1col conv fuel v0 None k = Throw 2 /\ loadCSV_Ncol conv fuel v0 None n = Throw 2.
Proof. intros. repeat split. Qed.
Print Assumptions C63_missing_file.

(** Shared columns: once a name has been read, every later reading of that name gives the same columns, whatever was loaded and
    whatever happened to the files in between. *)
Fixpoint loads {A} (conv : list Z -> A * bool) fuel v0 (ops : list ((Z -> option (list Z)) * Z * Z)) (c : cache) : cache :=
  match ops with
  | [] => c
  | (files, name, n) :: ops' => loads conv fuel v0 ops' (fst (loadCSV_2col_span conv fuel v0 files name n c))
  end.
Theorem C63_shared_stable : forall (A : Type) (conv : list Z -> A * bool) fuel v0 files name c c1 xs ys ops files',
  loadCSV_2col_span conv fuel v0 files name 0 c = (c1, Ok (xs, ys)) ->
  let c2 := loads conv fuel v0 ops c1 in loadCSV_2col_span conv fuel v0 files' name 0 c2 = (c2, Ok (xs, ys)).
Proof.
  intros A conv fuel v0 files name c c1 xs ys ops files' H. cbv zeta.
  assert (K : lookup name c1 = Some (xs, ys)).
  { unfold loadCSV_2col_span in H. destruct (lookup name c) as [[a b]|] eqn:E.
    - cbn in H. injection H as <- <- <-. exact E.
    - destruct (loadCSV_2col conv fuel v0 (files name) 0) as [[a b]|k| |]; try discriminate. cbn in H. injection H as <- <- <-.
      cbn [lookup]. now rewrite Z.eqb_refl. }
  clear H c. revert c1 K. induction ops as [|[[f m] n] ops IH]; intros c1 K; cbn [loads].
  - unfold loadCSV_2col_span. now rewrite K.
  - apply IH. unfold loadCSV_2col_span. destruct (lookup m c1) as [[a b]|] eqn:E; [exact K|].
    destruct (loadCSV_2col conv fuel v0 (f m) 0) as [[a b]|k| |]; try exact K. cbn [fst lookup].
    destruct (name =? m) eqn:Q; [|exact K]. apply Z.eqb_eq in Q. congruence.
Qed.
Print Assumptions C63_shared_stable.

(** ** Findings. A reader of decimal integers for concrete files. *)
Fixpoint w_digits (acc : Z) (t : list Z) : option Z :=
  match t with
  | [] => Some acc
  | c :: t' => if isdigit c then w_digits (10 * acc + (c - 48)) t' else None
  end.
Definition w_conv (t : list Z) : Z * bool :=
  match t with
  | [] => (0, true)
  | c :: t' => match (if c =? 45 then option_map Z.opp (match t' with [] => None | _ => w_digits 0 t' end) else w_digits 0 t) with
               | Some v => (v, false)
               | None => (0, true)
               end
  end.
Definition w_old : list (list Z) := [[7; 7]; [7; 7]].
(** A matrix file that starts with a byte order mark is not read: the first element becomes 0, the rest stays as it was. *)
Theorem C63_matrix_mark_refuted :
  loadCSV_mat w_conv 50 (Some (BOM ++ [49; 44; 50; 10; 51; 44; 52; 10])) w_old = Ok [[0; 7]; [7; 7]].
Proof. reflexivity. Qed.
(** A short file is accepted: the missing elements keep their old (for one column: indeterminate) values. *)
Theorem C63_short_refuted : loadCSV_mat w_conv 50 (Some [49; 44; 50; 10; 51]) w_old = Ok [[1; 2]; [3; 7]].
Proof. reflexivity. Qed.
(** A file with more columns than the matrix is misread. *)
Theorem C63_wide_refuted :
  loadCSV_mat w_conv 50 (Some [49; 44; 50; 44; 51; 10; 52; 44; 53; 44; 54; 10]) w_old = Ok [[1; 2]; [0; 7]].
Proof. reflexivity. Qed.
(** White space before a matrix costs its first digit: newline, 15, 2. *)
Theorem C63_leading_blank_refuted :
  loadCSV_mat w_conv 50 (Some [10; 49; 53; 44; 50; 10; 51; 44; 52; 10]) w_old = Ok [[5; 2]; [3; 4]].
Proof. reflexivity. Qed.
(** One column read as two: every second number is taken for a comma. *)
Theorem C63_narrow_refuted : loadCSV_2col w_conv 50 0 (Some [49; 10; 50; 10; 51; 10]) 0 = Ok ([1], [3]).
Proof. reflexivity. Qed.
(** A header line hides the whole file. *)
Theorem C63_header_refuted : loadCSV_2col w_conv 50 0 (Some [116; 44; 86; 10; 49; 44; 50; 10]) 0 = Ok ([], []).
Proof. reflexivity. Qed.
(** A file cut within its last number is accepted: 1,25 becomes 1,2. *)
Theorem C63_cut_refuted : loadCSV_2col w_conv 50 0 (Some (firstn 3 [49; 44; 50; 53])) 0 = Ok ([1], [2]).
Proof. reflexivity. Qed.
(** Lines of different lengths are accepted and regrouped: 1,2 / 3 / 4,5,6 has element 4 in line 1. *)
Theorem C63_ragged_refuted : exists x,
  loadCSV_Ncol w_conv 50 0 (Some [49; 44; 50; 10; 51; 10; 52; 44; 53; 44; 54; 10]) 0 = Ok x /\ dm_m x = 2 /\ dm_at x 1 1 = Ok 4.
Proof. eexists. split; [reflexivity|split; reflexivity]. Qed.
(** An empty line at the end changes the shape of the matrix: 1,2 / 3,4 / (empty). *)
Theorem C63_empty_line_refuted : exists x,
  loadCSV_Ncol w_conv 50 0 (Some [49; 44; 50; 10; 51; 44; 52; 10; 10]) 0 = Ok x /\ dm_m x = 1 /\ dm_at x 0 1 = Ok 2.
Proof. eexists. split; [reflexivity|split; reflexivity]. Qed.
(** Empty files: undefined for any number of columns, an endless loop for matrices; a file with only a byte order mark makes the
    two-column reader loop for ever. *)
Lemma mat_skip_empty : forall fuel s, rest s = [] -> mat_skip fuel s = Fuel.
Proof.
  induction fuel as [|k IH]; intros s H; [reflexivity|]. cbn [mat_skip]. unfold peek. rewrite H.
  destruct (good s); cbn [Z.leb Z.compare]; apply IH; unfold get_char, sentry, good; cbn [bad eof rest negb andb]; rewrite ?andb_false_r; try reflexivity.
Qed.
Lemma ignoreBOM_empty : forall fuel c s, rest s = [] -> c < 45 -> ignoreBOM_loop fuel c s = Fuel.
Proof.
  induction fuel as [|k IH]; intros c s H Hc; [reflexivity|]. cbn [ignoreBOM_loop].
  assert (K : exists s', get_char c s = (s', c) /\ rest s' = []).
  { unfold get_char, sentry. rewrite H. destruct (good s); eexists; (split; [reflexivity|]); reflexivity. }
  destruct K as (s' & -> & Hs). assert (c <? 45 = true) as -> by lia. now apply IH.
Qed.
Theorem C63_empty_refuted : forall (A : Type) (conv : list Z -> A * bool) v0 old n,
  (forall fuel, loadCSV_mat conv fuel (Some []) old = Fuel) /\ (forall fuel, loadCSV_2col conv fuel v0 (Some BOM) n = Fuel) /\
  loadCSV_Ncol conv 3 v0 (Some []) 0 = UB.
Proof.
  intros A conv v0 old n. split; [|split; [|reflexivity]].
  - intros fuel. unfold loadCSV_mat. cbn [open_file rbind]. now rewrite mat_skip_empty.
  - intros fuel. unfold loadCSV_2col, ignoreBOM. cbn [open_file rbind]. destruct fuel as [|[|[|fuel]]]; try reflexivity.
    change (ignoreBOM_loop (S (S (S fuel))) 46 (opened BOM)) with (ignoreBOM_loop fuel (-65) (mkIn [] false false)).
    rewrite ignoreBOM_empty by (auto; lia). reflexivity.
Qed.
Print Assumptions C63_empty_refuted.
(** Arrays as long as the file: with [n = 0] the reader goes on behind the last element. *)
Theorem C63_array_refuted : loadCSV_2col_array w_conv 50 (Some [49; 44; 50; 10]) 0 [7] [7] = UB /\
  loadCSV_2col_array w_conv 50 (Some [49; 44; 50; 10]) 1 [7] [7] = Ok ([1], [2]).
Proof. split; reflexivity. Qed.
(** Shared columns: a span longer than the file is undefined. *)
Theorem C63_span_refuted : snd (loadCSV_2col_span w_conv 50 0 (fun _ => Some [49; 44; 50; 10]) 1 2 []) = UB.
Proof. reflexivity. Qed.

(** -12 and 305 and 7 are numerals, and the concrete reader reads them. *)
Example C63_inhabited : writes_rows w_conv [[[45; 49; 50]; [51; 48; 53]]; [[55]; [55]]] [[-12; 305]; [7; 7]] /\
  loadCSV_2col w_conv 50 0 (Some (mark true ++ file_text [13; 10] false [[[45; 49; 50]; [51; 48; 53]]; [[55]; [55]]])) 0 = Ok ([-12; 7], [305; 7]) /\
  numeral [45; 49; 46; 53; 101; 43; 48; 55].
Proof.
  assert (D : forall d, digits d -> d <> [] -> numeral d).
  { intros d Hd N. exists [], d, [], []. rewrite !app_nil_r. split; [reflexivity|]. split; [now left|]. split; [exact Hd|]. split; [exact N|]. split; now left. }
  split; [|split; [reflexivity|]].
  - repeat constructor; try reflexivity.
    + exists [45], [49; 50], [], []. split; [reflexivity|]. split; [now right|]. split; [repeat constructor; lia|]. split; [discriminate|]. split; now left.
    + apply D; [repeat constructor; lia|discriminate].
    + apply D; [repeat constructor; lia|discriminate].
    + apply D; [repeat constructor; lia|discriminate].
  - exists [45], [49], [46; 53], [101; 43; 48; 55]. split; [reflexivity|]. split; [now right|]. split; [repeat constructor; lia|]. split; [discriminate|].
    split; [right; exists [53]; split; [reflexivity|repeat constructor; lia]|]. right. exists [43], [48; 55].
    split; [reflexivity|]. split; [auto|]. split; [repeat constructor; lia|discriminate].
Qed.
