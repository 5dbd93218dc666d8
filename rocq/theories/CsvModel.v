(** * Model of src/utility/io/read_CSVfiles.hpp: reading numbers from CSV files, byte by byte

    A file is a list of bytes 0..255, or [None] if it cannot be opened. The stream operations of the C++ library are those
    of libstdc++ in the "C" locale. The conversion of the collected characters of a number ([strtod]) is a parameter:
    [conv t] is the stored value and whether the conversion fails. *)
From Verif Require Import Base.
Open Scope Z_scope.

(** [std::ifstream]: what is left to read, failbit, eofbit. *)
Record stream := mkIn { rest : list Z; bad : bool; eof : bool }.
Definition opened (bytes : list Z) : stream := mkIn bytes false false.
Definition good (s : stream) : bool := negb (bad s) && negb (eof s).

(** isspace in the "C" locale. *)
Definition isspace (c : Z) : bool := ((9 <=? c) && (c <=? 13)) || (c =? 32).
Definition isdigit (c : Z) : bool := (48 <=? c) && (c <=? 57).
Fixpoint drop_ws (l : list Z) : list Z :=
  match l with
  | c :: l' => if isspace c then drop_ws l' else l
  | [] => []
  end.
(** The sentry of a formatted extraction: skips white space, fails at the end of the file and on a stream that is not good. *)
Definition sentry (s : stream) : stream * bool :=
  if good s then
    match drop_ws (rest s) with
    | [] => (mkIn [] true true, false)
    | l => (mkIn l false false, true)
    end
  else (mkIn (rest s) true (eof s), false).

(** [in >> c] for a [char]; [c0] is the old value of [c]. Values of [char] are signed. *)
Definition signed (c : Z) : Z := if c <? 128 then c else c - 256.
Definition unsigned (c : Z) : Z := if c <? 0 then c + 256 else c.
Definition get_char (c0 : Z) (s : stream) : stream * Z :=
  match sentry s with
  | (s', true) =>
      match rest s' with
      | c :: l => (mkIn l false false, signed c)
      | [] => (mkIn [] true true, c0)
      end
  | (s', false) => (s', c0)
  end.
(** [in.putback(c)]: clears eofbit, does nothing more on a failed stream. *)
Definition putback (c : Z) (s : stream) : stream :=
  if bad s then mkIn (rest s) true false else mkIn (unsigned c :: rest s) false false.
(** [in.peek()]: [EOF] is -1. *)
Definition peek (s : stream) : stream * Z :=
  if good s then
    match rest s with
    | c :: _ => (s, c)
    | [] => (mkIn [] (bad s) true, -1)
    end
  else (mkIn (rest s) true (eof s), -1).

(** The characters [num_get] collects for a double (libstdc++ _M_extract_float): digits; one point before the exponent; an [e]
    or [E] after a digit, once, with an optional sign behind it. Simplified: libstdc++ drops repeated leading zeros, which does
    not change the number. Result: the collected text and what is left. *)
Fixpoint collect (man dec sci : bool) (l : list Z) : list Z * list Z :=
  match l with
  | [] => ([], [])
  | c :: l' =>
      if isdigit c then let '(t, r) := collect true dec sci l' in (c :: t, r)
      else if (c =? 46) && negb dec && negb sci then let '(t, r) := collect man true sci l' in (c :: t, r)
      else if ((c =? 101) || (c =? 69)) && negb sci && man then
        match l' with
        | d :: l'' =>
            if (d =? 43) || (d =? 45) then let '(t, r) := collect man dec true l'' in (101 :: d :: t, r)
            else let '(t, r) := collect man dec true l' in (101 :: t, r)
        | [] => ([101], [])
        end
      else ([], l)
  end.
Definition num_text (l : list Z) : list Z * list Z :=
  match l with
  | c :: l' => if (c =? 43) || (c =? 45) then let '(t, r) := collect false false false l' in (c :: t, r)
               else collect false false false l
  | [] => ([], [])
  end.

Section Csv.
Context {A : Type} (conv : list Z -> A * bool).

(** [in >> x] for a [double]; [v0] is the old value. Reaching the end of the file sets eofbit, a failed conversion failbit. *)
Definition get_num (v0 : A) (s : stream) : stream * A :=
  match sentry s with
  | (s', true) =>
      let '(t, l) := num_text (rest s') in
      let '(v, failed) := conv t in
      (mkIn l failed (match l with [] => true | _ => false end), v)
  | (s', false) => (s', v0)
  end.

(** ReadCSVfiles.hpp 102-112: ignoreBOM. [do in >> c; while (c < 45)]: the loop does not end at the end of the file. *)
Fixpoint ignoreBOM_loop (fuel : nat) (c : Z) (s : stream) : res stream :=
  match fuel with
  | O => Fuel
  | S k => let '(s', c') := get_char c s in if c' <? 45 then ignoreBOM_loop k c' s' else Ok (putback c' s')
  end.
Definition ignoreBOM (fuel : nat) (s : stream) : res stream := ignoreBOM_loop fuel 46 s.

(** ReadCSVfiles.hpp 132-133: the test whether the file could be opened. *)
Definition open_file (f : option (list Z)) : res stream :=
  match f with Some b => Ok (opened b) | None => Throw 2 end.

(** ReadCSVfiles.hpp 142-153: loadCSV_2col into vectors: [n = 0] reads all rows. The uninitialised variables [x_i], [y_i] are
    [v0]; they are stored only if all three extractions succeeded. *)
Fixpoint rows2 (fuel : nat) (v0 : A) (n j : Z) (s : stream) : res (list (A * A)) :=
  match fuel with
  | O => Fuel
  | S k =>
      if (n =? 0) || (j <? n) then
        let '(s1, x) := get_num v0 s in
        let '(s2, _) := get_char 46 s1 in
        let '(s3, y) := get_num v0 s2 in
        if bad s3 then Ok [] else rmap (cons (x, y)) (rows2 k v0 n (j + 1) s3)
      else Ok []
  end.
(** ReadCSVfiles.hpp 114-159. *)
Definition loadCSV_2col (fuel : nat) (v0 : A) (f : option (list Z)) (n : Z) : res (list A * list A) :=
  rbind (open_file f) (fun s =>
  rbind (ignoreBOM fuel s) (fun s =>
  rmap (fun ps => (map fst ps, map snd ps)) (rows2 fuel v0 n 0 s))).

(** ReadCSVfiles.hpp 154-158: loadCSV_2col into [std::array]s, which are overwritten from the front. Reading row [j] of an array
    with at most [j] elements is undefined. *)
Fixpoint arows2 (fuel : nat) (n : Z) (j : nat) (xs ys : list A) (s : stream) : res (list A * list A) :=
  match fuel with
  | O => Fuel
  | S k =>
      if (n =? 0) || (Z.of_nat j <? n) then
        match nth_error xs j, nth_error ys j with
        | Some x0, Some y0 =>
            let '(s1, x) := get_num x0 s in
            let '(s2, _) := get_char 46 s1 in
            let '(s3, y) := get_num y0 s2 in
            let xs' := firstn j xs ++ x :: skipn (S j) xs in
            let ys' := firstn j ys ++ y :: skipn (S j) ys in
            if bad s3 then Ok (xs', ys') else arows2 k n (S j) xs' ys' s3
        | _, _ => UB
        end
      else Ok (xs, ys)
  end.
Definition loadCSV_2col_array (fuel : nat) (f : option (list Z)) (n : Z) (xs ys : list A) : res (list A * list A) :=
  rbind (open_file f) (fun s => rbind (ignoreBOM fuel s) (arows2 fuel n 0 xs ys)).

(** ReadCSVfiles.hpp 77-80: the loop before the matrix: [while (in.peek() <= 32) in >> c]. *)
Fixpoint mat_skip (fuel : nat) (s : stream) : res stream :=
  match fuel with
  | O => Fuel
  | S k => let '(s1, p) := peek s in if p <=? 32 then mat_skip k (fst (get_char 46 s1)) else Ok s1
  end.
(** ReadCSVfiles.hpp 84-87: one row [x[i]]; an element which cannot be read keeps its old value or becomes what [conv] stores. *)
Fixpoint mat_row (old : list A) (s : stream) : stream * list A :=
  match old with
  | [] => (s, [])
  | [v] => let '(s1, x) := get_num v s in (s1, [x])
  | v :: vs =>
      let '(s1, x) := get_num v s in
      let '(s2, _) := get_char 46 s1 in
      let '(s3, xs) := mat_row vs s2 in (s3, x :: xs)
  end.
Fixpoint mat_rows (old : list (list A)) (s : stream) : stream * list (list A) :=
  match old with
  | [] => (s, [])
  | r :: rs => let '(s1, x) := mat_row r s in let '(s2, xs) := mat_rows rs s1 in (s2, x :: xs)
  end.
(** ReadCSVfiles.hpp 56-91: loadCSV_mat. [old] is the matrix before the call and fixes its size. *)
Definition loadCSV_mat (fuel : nat) (f : option (list Z)) (old : list (list A)) : res (list (list A)) :=
  rbind (open_file f) (fun s => rbind (mat_skip fuel s) (fun s => Ok (snd (mat_rows old s)))).
(** ReadCSVfiles.hpp 93-100: loadCSV_1col: a matrix of one column; [v0] stands for its uninitialised elements. *)
Definition loadCSV_1col (fuel : nat) (v0 : A) (f : option (list Z)) (rows : nat) : res (list A) :=
  rmap (@concat A) (loadCSV_mat fuel f (repeat [v0] rows)).

(** [std::getline]: [None] if nothing could be extracted. *)
Fixpoint split_line (l : list Z) : list Z * option (list Z) :=
  match l with
  | [] => ([], None)
  | c :: l' => if c =? 10 then ([], Some l') else let '(a, r) := split_line l' in (c :: a, r)
  end.
Definition getline (s : stream) : option (list Z * stream) :=
  if good s then
    match rest s with
    | [] => None
    | l => match split_line l with
           | (a, Some r) => Some (a, mkIn r false false)
           | (a, None) => Some (a, mkIn [] false true)
           end
    end
  else None.
(** ReadCSVfiles.hpp 193-203: the numbers of one line. *)
Fixpoint line_nums (fuel : nat) (v0 : A) (s : stream) : res (list A) :=
  match fuel with
  | O => Fuel
  | S k => let '(s1, x) := get_num v0 s in
           if bad s1 then Ok [] else rmap (cons x) (line_nums k v0 (fst (get_char 46 s1)))
  end.
Fixpoint file_rows (fuel : nat) (v0 : A) (n i : Z) (s : stream) : res (list (list A)) :=
  match fuel with
  | O => Fuel
  | S k =>
      if (n =? 0) || (i <? n) then
        match getline s with
        | None => Ok []
        | Some (line, s') =>
            rbind (line_nums fuel v0 (opened line)) (fun xs => rmap (cons xs) (file_rows k v0 n (i + 1) s'))
        end
      else Ok []
  end.
(** ReadCSVfiles.hpp 161-212: loadCSV_Ncol: the data, [rows()] (= numbers per line) and [cols()] (= lines). *)
Record dynmat := mkDM { dm_m : Z; dm_n : Z; dm_data : list A }.
Definition loadCSV_Ncol (fuel : nat) (v0 : A) (f : option (list Z)) (n : Z) : res dynmat :=
  rbind (open_file f) (fun s =>
  rbind (ignoreBOM fuel s) (fun s =>
  rbind (file_rows fuel v0 n 0 s) (fun rs =>
    let data := concat rs in
    match rs with
    | [] => UB
    | _ => Ok (mkDM (Z.of_nat (length data) / Z.of_nat (length rs)) (Z.of_nat (length rs)) data)
    end))).
(** DynamicMatrix.hpp 47-50: element access. *)
Definition dm_at (x : dynmat) (i j : Z) : res A :=
  let k := i + j * dm_m x in
  if (k <? 0) then UB else match nth_error (dm_data x) (Z.to_nat k) with Some v => Ok v | None => UB end.

(** ReadCSVfiles.hpp 219-258: loadCSV_2col into spans: the columns are read once per name and kept in a static map. A span of
    [n] elements over a shorter column is undefined. Names are numbers here. *)
Definition cache := list (Z * (list A * list A)).
Fixpoint lookup (k : Z) (c : cache) : option (list A * list A) :=
  match c with
  | [] => None
  | (k', v) :: c' => if k =? k' then Some v else lookup k c'
  end.
Definition span (n : Z) (l : list A) : res (list A) :=
  if n =? 0 then Ok l
  else if (n <? 0) || (Z.of_nat (length l) <? n) then UB else Ok (firstn (Z.to_nat n) l).
Definition loadCSV_2col_span (fuel : nat) (v0 : A) (files : Z -> option (list Z)) (name n : Z) : M cache (list A * list A) :=
  fun c =>
    match lookup name c with
    | Some (xs, ys) => (c, rbind (span n xs) (fun a => rmap (pair a) (span n ys)))
    | None =>
        match loadCSV_2col fuel v0 (files name) 0 with
        | Ok (xs, ys) => ((name, (xs, ys)) :: c, rbind (span n xs) (fun a => rmap (pair a) (span n ys)))
        | Throw k => (c, Throw k)
        | UB => (c, UB)
        | Fuel => (c, Fuel)
        end
    end.
End Csv.
Arguments dynmat : clear implicits.
