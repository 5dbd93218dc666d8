(** * Model of the OCV fit (src/procedures/determine_OCV.cpp) *)
From Verif Require Import Base UtilModel.
Local Open Scope num_scope.

Section Fit.
Context {A : Type} {NA : Num A}.

(** ** Validation of a curve *)

(** determine_OCV.cpp:79-96; one run of the loop over the rows [i >= 1] with the previous abscissa.
    [data.size()] is the number of ordinates (XYdata.hpp:69); a missing abscissa is read out of range. *)
Fixpoint valid_rows (prev : A) (xs ys : list A) : res bool :=
  match ys with
  | [] => Ok true
  | y :: ys' =>
      match xs with
      | [] => UB
      | x :: xs' => rmap (fun b => negb (x <=? prev) && negb ((y <? nZ 0) || (y >? nZ 10)) && b) (valid_rows x xs' ys')
      end
  end.
(** determine_OCV.cpp:37-100; [x.back()] of an empty vector and [x[0]] are undefined. *)
Definition validOCV (checkRange : bool) (xs ys : list A) : res bool :=
  match xs with
  | [] => UB
  | x0 :: xs' =>
      let tol := nlit 1 100000 in
      let range := if checkRange then (nabs x0 <? tol) && (nabs (last xs x0 - nZ 1) <? tol) else nabs x0 <? tol in
      match ys with
      | [] => Ok range
      | y0 :: ys' => rmap (fun b => range && (negb ((y0 <? nZ 0) || (y0 >? nZ 10)) && b)) (valid_rows x0 xs' ys')
      end
  end.

(** ** Cost of a parameter combination *)

(** determine_OCV.cpp:446-497, one row; the state is (Ah, sp, sn, end, sqr_err). [n] is 1. *)
Definition FARA : A := nZ 96487.
Definition cost_row (px py nx ny : list A) (AMp AMn cmaxp cmaxn vend : A) (st : A * A * A * bool * A) (row : A * A)
  : res (A * A * A * bool * A) :=
  let '(ah, sp, sn, fin, acc) := st in
  let '(x, y) := row in
  rbind (if fin then Ok (ah, sp, sn, nZ 0)
         else
           let das := (x - ah) * nZ 3600 in
           let sp' := sp + das / (nZ 1 * FARA) / AMp / cmaxp in
           let sn' := sn - das / (nZ 1 * FARA) / AMn / cmaxn in
           rbind (linInt_noexcept true px py (Z.of_nat (length py)) sp' false) (fun '(op, s1) =>
           rbind (linInt_noexcept true nx ny (Z.of_nat (length ny)) sn' false) (fun '(on, s2) =>
           Ok (x, sp', sn', if negb (s1 =? 0)%Z || negb (s2 =? 0)%Z then nZ 0 else op - on))))
    (fun '(ah', sp', sn', v) =>
       let err := y - v in
       Ok (ah', sp', sn', (v <=? vend) || (sp' <? nZ 0) || (sp' >? nZ 1) || (sn' <? nZ 0) || (sn' >? nZ 1),
           acc + err * err)).
Fixpoint cost_rows (px py nx ny : list A) (AMp AMn cmaxp cmaxn vend : A) (st : A * A * A * bool * A) (rows : list (A * A))
  : res A :=
  match rows with
  | [] => Ok (snd st)
  | r :: rows' => rbind (cost_row px py nx ny AMp AMn cmaxp cmaxn vend st r)
                        (fun st' => cost_rows px py nx ny AMp AMn cmaxp cmaxn vend st' rows')
  end.
(** [OCVcell.y.back()] of an empty curve is undefined; a curve with more ordinates than abscissae is read out of range. *)
Definition cost_OCV (p n cell : list A * list A) (AMp AMn sp sn cmaxp cmaxn : A) : res A :=
  let '(cx, cy) := cell in
  match cy with
  | [] => UB
  | y0 :: _ =>
      if (length cx <? length cy)%nat then UB
      else cost_rows (fst p) (snd p) (fst n) (snd n) AMp AMn cmaxp cmaxn (last cy y0) (nZ 0, sp, sn, false, nZ 0) (combine cx cy)
  end.

(** determine_OCV.cpp:412-444 *)
Fixpoint err_rows (bound : bool) (sx sy : list A) (acc : A) (rows : list (A * A)) : res A :=
  match rows with
  | [] => Ok acc
  | (x, y) :: rows' =>
      rbind (linInt_noexcept bound sx sy (Z.of_nat (length sy)) x false) (fun '(v, _) =>
        let err := y - v in err_rows bound sx sy (acc + err * err) rows')
  end.
Definition calculateError (bound : bool) (cell sim : list A * list A) : res A :=
  if (length (fst cell) <? length (snd cell))%nat then UB
  else rmap (fun e => nsqrt (e / nnat (length (snd cell))))
            (err_rows bound (fst sim) (snd sim) (nZ 0) (combine (fst cell) (snd cell))).

(** ** The search *)

(** Parameters (AMp, AMn, sp, sn). *)
Definition par : Type := A * A * A * A.
(** determine_OCV.cpp:524, the error before the first point *)
Definition sentinel : A := nZ 10000000000.
(** determine_OCV.cpp:532-538, one point after the other; [cost] is the cost of a point. *)
Fixpoint scan (cost : par -> res A) (best : par * A) (pts : list par) : res (par * A) :=
  match pts with
  | [] => Ok best
  | q :: pts' => rbind (cost q) (fun e => scan cost (if e <? snd best then (q, e) else best) pts')
  end.
(** The nesting of the three loops, lines 527-529. *)
Definition grid3 (AMp : A) (amn sp sn : FixedData A) : list par :=
  flat_map (fun b => flat_map (fun c => map (fun d => (AMp, b, c, d)) (fd_list sn)) (fd_list sp)) (fd_list amn).
(** determine_OCV.cpp:499-543; [par0] is the caller's array, written only when a point beats the sentinel.
    [len] is the number of rows of the cell curve. *)
Definition fit (cost : par -> res A) (len : nat) (par0 : par) (AMp : A) (amn sp sn : FixedData A) : res (par * A) :=
  rmap (fun '(q, e) => (q, nsqrt (e / nnat len))) (scan cost (par0, sentinel) (grid3 AMp amn sp sn)).

(** lines 600-605: one task per cathode amount. The tasks write disjoint slots; they are run here one by one. *)
Fixpoint fits (cost : par -> res A) (len : nat) (pars : list par) (amps : list A) (amn sp sn : FixedData A)
  : res (list (par * A)) :=
  match amps, pars with
  | [], _ => Ok []
  | a :: amps', q :: pars' =>
      rbind (fit cost len q a amn sp sn) (fun r =>
      rmap (cons r) (fits cost len pars' amps' amn sp sn))
  | _, [] => UB
  end.
(** [std::min_element] with the parameters that belong to the error, lines 607-609: the first smallest. *)
Fixpoint min_from (best : par * A) (l : list (par * A)) : par * A :=
  match l with
  | [] => best
  | r :: l' => min_from (if snd r <? snd best then r else best) l'
  end.
Record spaces : Type := mkSp { sp_AMp : FixedData A; sp_AMn : FixedData A; sp_sp : FixedData A; sp_sn : FixedData A }.
(** One level, lines 600-611: (best, the parameter array for the next level). An empty cathode space leaves
    [min_element] at the end of an empty vector: undefined. *)
Definition level (cost : par -> res A) (len : nat) (sp : spaces) (pars : list par) : res ((par * A) * list par) :=
  rbind (fits cost len pars (fd_list (sp_AMp sp)) (sp_AMn sp) (sp_sp sp) (sp_sn sp)) (fun rs =>
    match rs with
    | [] => UB
    | r :: rs' => Ok (min_from r rs', map fst rs)
    end).
(** [std::max] and [std::min] *)
Definition amax (x y : A) : A := if x <? y then y else x.
Definition amin (x y : A) : A := if y <? x then y else x.
(** lines 616-621 *)
Definition refine (s : spaces) (q : par) : spaces :=
  let '(a, b, c, d) := q in
  mkSp (linspace_fix (fd_prev (sp_AMp s) a) (fd_next (sp_AMp s) a) (fd_n (sp_AMp s)))
       (linspace_fix (fd_prev (sp_AMn s) b) (fd_next (sp_AMn s) b) (fd_n (sp_AMn s)))
       (linspace_fix (amax (fd_prev (sp_sp s) c) (nZ 0)) (amin (fd_next (sp_sp s) c) (nZ 1)) (fd_n (sp_sp s)))
       (linspace_fix (amax (fd_prev (sp_sn s) d) (nZ 0)) (amin (fd_next (sp_sn s) d) (nZ 1)) (fd_n (sp_sn s))).
(** lines 591-624: [hmax] levels. Without any level the returned values are uninitialised. *)
Fixpoint levels (cost : par -> res A) (len : nat) (h : nat) (s : spaces) (pars : list par) : res (par * A) :=
  match h with
  | O => UB
  | S h' =>
      rbind (level cost len s pars) (fun '(r, pars') =>
        match h' with O => Ok r | _ => levels cost len h' (refine s (fst r)) pars' end)
  end.
(** determine_OCV.cpp:349-410 after the files are read: the first illegal curve throws 10000. *)
Definition readOCVinput (p n cell : list A * list A) : res unit :=
  rbind (check_is_fixed (fst p)) (fun _ => rbind (check_is_fixed (fst n)) (fun _ => rbind (check_is_fixed (fst cell)) (fun _ =>
  rbind (validOCV true (fst p) (snd p)) (fun b1 => if negb b1 then Throw 10000 else
  rbind (validOCV true (fst n) (snd n)) (fun b2 => if negb b2 then Throw 10000 else
  rbind (validOCV false (fst cell) (snd cell)) (fun b3 => if negb b3 then Throw 10000 else Ok tt)))))).
(** determine_OCV.cpp:545-625; the arrays are value-initialised (line 581). The files written on the way are not modelled. *)
Definition fit_cost (p n cell : list A * list A) (cmaxp cmaxn : A) (q : par) : res A :=
  let '(a, b, c, d) := q in cost_OCV p n cell a b c d cmaxp cmaxn.
Definition hierarchicalOCVfit (h : nat) (s : spaces) (p n cell : list A * list A) (cmaxp cmaxn : A) : res (par * A) :=
  rbind (readOCVinput p n cell) (fun _ =>
    levels (fit_cost p n cell cmaxp cmaxn) (length (snd cell)) h s
           (map (fun _ => (nZ 0, nZ 0, nZ 0, nZ 0)) (fd_list (sp_AMp s)))).
End Fit.
Arguments spaces : clear implicits.
Arguments par : clear implicits.
