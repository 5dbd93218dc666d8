(** * Specification: what a report contains *)
From Coq Require Import String.
From Verif Require Import Base StatusModel CoolModel CyclerModel ProcModel ReportModel.

Section ReportSpec.
Context {A C : Type}.
(** Reading a text: lines, and in each line the fields between the commas. *)
Fixpoint split_at (sep : wtok A -> bool) (l : list (wtok A)) : list (list (wtok A)) :=
  match l with
  | [] => [[]]
  | t :: r => if sep t then [] :: split_at sep r else match split_at sep r with h :: q => (t :: h) :: q | [] => [[t]] end
  end.
Definition is_end (t : wtok A) : bool := match t with WEnd => true | _ => false end.
Definition is_comma (t : wtok A) : bool := match t with WComma => true | _ => false end.
Definition lines (l : list (wtok A)) : list (list (list (wtok A))) := map (split_at is_comma) (split_at is_end l).
(** A field that is one number, one text or one whole number. *)
Definition fnum (a : A) : list (wtok A) := [WPiece (PNum a)].
Definition ftext (s : string) : list (wtok A) := [WPiece (PText s)].
Definition fint (z : Z) : list (wtok A) := [WPiece (PInt z)].
(** The line after the last line end. *)
Definition blank : list (list (wtok A)) := [[]].

(** The tree is what the types of its nodes say. *)
Fixpoint typed (t : sut (unode A C)) : Prop :=
  match t with
  | TCell (UCell _ _) => True
  | TMod (UMod _) l => (fix go l := match l with [] => True | c :: l' => typed c /\ go l' end) l
  | TBat (UBat _) None => True
  | TBat (UBat _) (Some c) => typed c
  | _ => False
  end.
(** Its cells, and its modules and batteries, from the first to the last; a unit comes before its parts. *)
Fixpoint cells_of (t : sut (unode A C)) : list (string * C) :=
  match t with
  | TCell (UCell n c) => [(n, c)]
  | TMod _ l => flat_map cells_of l
  | TBat _ (Some c) => cells_of c
  | _ => []
  end.
Fixpoint modules_of (t : sut (unode A C)) : list (modinfo A) :=
  match t with
  | TCell _ => []
  | TMod (UMod m) l => m :: flat_map modules_of l
  | TBat (UBat m) (Some c) => m :: modules_of c
  | TBat (UBat m) None => [m]
  | _ => []
  end.

(** *** The lines of the check-up *)
Context {NA : Num A} (o : rep_if A C) (nmax fuel : nat).
(** The capacity test of a copy of [c] answers [cap] and leaves the copy in the state [c']. *)
Definition tested (c : C) (cap : A) (c' : C) : Prop :=
  exists w a tt, testCapacity (rq o) nmax false fuel (mkCyc c 0 th0) = (w, Ok (cap, a, tt)) /\ c' = c_su w.
(** The line of such a cell: name, variations, throughput and cycle number of the whole unit, clock and throughputs of the cell, capacity,
    states of the copy from number [start] on. *)
Definition cell_line (Ah : A) (nr : Z) (start : nat) (n : string) (c : C) (cap : A) (c' : C) : list (list (wtok A)) :=
  [ftext n] ++ map fnum (rq_var o c) ++ [fnum Ah; fint nr; fnum (th_time (rq_th o c)); fnum (th_Ah (rq_th o c)); fnum (th_Wh (rq_th o c)); fnum cap] ++
  map fnum (skipn start (rq_states o c')).
(** The line of a cell whose test ends in an exception. *)
Definition broken_line (Ah : A) (nr : Z) (n : string) (c : C) : list (list (wtok A)) :=
  [ftext n] ++ map fnum (rq_var o c) ++ [fnum Ah; fint nr; []].
Definition all_tested (l : list (string * C)) (outs : list (A * C)) : Prop := Forall2 (fun nc x => tested (snd nc) (fst x) (snd x)) l outs.
Definition two_lines (Ah : A) (nr : Z) (start : nat) (x : (string * C) * (A * C)) : list (list (list (wtok A))) :=
  [cell_line Ah nr start (fst (fst x)) (snd (fst x)) (fst (snd x)) (snd (snd x)); blank].
(** The headings, as a reader of the file gets them. *)
Definition headings : list (list (wtok A)) :=
  map ftext ["ID"; "var_cap"; "var_R"; "var_degSEI"; "var_degLAM"; "Ah"]%string ++ [[WPiece (PText "CycleNumber"); WPiece (PText "time [s]")]] ++
  map ftext ["Current throughput [Ah]"; "Energy throughput [Wh]"; "Capacity [Ah]"; "States"]%string.
(** *** The lines of the module report *)
Definition module_line (m : modinfo A) (k : cool A) : list (list (wtok A)) :=
  [ftext (mi_name m); fint (Z.of_nat (mi_ncells m)); fnum (u_t_life (k_cum k)); fnum (u_Qevac_life (k_cum k)); fnum (u_Qabs_life (k_cum k))].
Definition module_headings : list (list (wtok A)) :=
  map ftext ["Full ID"; "Number of cells"; "Total time"; "Total evacuated heat"; "Total absorbed heat"]%string.
End ReportSpec.
