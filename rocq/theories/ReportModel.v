(** * Model of the reports of a check-up: src/procedures/Procedure.cpp, checkUp and checkMod *)
From Coq Require Import String.
From Verif Require Import Base StatusModel CellModel DataModel CoolModel ModuleModel CyclerModel ProcModel SpmModel SpmUnitModel FleetModel.
Local Open Scope num_scope.

(** ** What is written: pieces of text and numbers one after the other, commas and line ends.  A literal of the program that contains commas
    or line ends appears as several of these. The digits of a number are not modelled. *)
Section Report.
Context {A : Type} {NA : Num A}.
Inductive piece : Type := PText (s : string) | PNum (a : A) | PInt (z : Z).
Inductive wtok : Type := WPiece (p : piece) | WComma | WEnd.

(** ** The units as the procedures see them with [dynamic_cast]; each with its full name (StorageUnit.hpp:49). [u_cool = None]: the cooling
    system is null. *)
Context {C : Type}.
Record modinfo : Type := mkMi { mi_name : string; mi_ncells : nat; mi_cool : option (cool A) }.
Inductive unode : Type := UCell (name : string) (c : C) | UMod (m : modinfo) | UBat (m : modinfo).

(** What the check-up calls on a cell. *)
Record rep_if : Type := mkRif {
  rq : unit_if A C;            (* what the cycler calls *)
  rq_spm : C -> bool;          (* the object's type is exactly Cell_SPM *)
  rq_var : C -> list A;        (* getVariations, Cell.hpp:107: four numbers *)
  rq_th : C -> th A;           (* getThroughputs, Cell.hpp:105 *)
  rq_states : C -> list A }.   (* viewStates, StorageUnit.hpp:63 *)
Context (o : rep_if) (nmax fuel : nat).

(** Procedure.cpp:445-453: copies of the cells, in the order of the visit. A copy behaves as the original (property C10). *)
Definition copy_cell (x : unode) (cells : list (string * C)) : list (string * C) :=
  match x with UCell n c => cells ++ [(n, c)] | _ => cells end.
Definition copy_cells (t : sut unode) : list (string * C) := visit_SUs copy_cell t [].

Definition txt (s : string) : wtok := WPiece (PText s).
Definition num (a : A) : wtok := WPiece (PNum a).
Definition int (z : Z) : wtok := WPiece (PInt z).
(** Procedure.cpp:470-471 *)
Definition check_header : list wtok :=
  [txt "ID"; WComma; txt "var_cap"; WComma; txt "var_R"; WComma; txt "var_degSEI"; WComma; txt "var_degLAM"; WComma; txt "Ah"; WComma; txt "CycleNumber"] ++
  [txt "time [s]"; WComma; txt "Current throughput [Ah]"; WComma; txt "Energy throughput [Wh]"; WComma; txt "Capacity [Ah]"; WComma; txt "States"; WEnd].

(** Procedure.cpp:473-495, the body of the loop. The states are viewed after the capacity test. An exception in the test leaves what was
    written before it in the file. *)
Definition check_row (Ah : A) (nr : Z) (start : nat) (nc : string * C) : list wtok * res unit :=
  let '(n, c) := nc in
  let first := [txt n; WComma] ++ flat_map (fun v => [num v; WComma]) (rq_var o c) ++ [num Ah; WComma; int nr; WComma] in
  let t := rq_th o c in
  match testCapacity (rq o) nmax false fuel (mkCyc c 0 th0) with
  | (w, Ok (cap, _, _)) =>
      (first ++ [num (th_time t); WComma; num (th_Ah t); WComma; num (th_Wh t); WComma; num cap] ++
         flat_map (fun s => [WComma; num s]) (skipn start (rq_states o (c_su w))) ++ [WEnd; WEnd], Ok tt)
  | (_, e) => (first, cast e)
  end.
Fixpoint check_rows (Ah : A) (nr : Z) (start : nat) (l : list (string * C)) : list wtok * res unit :=
  match l with
  | [] => ([], Ok tt)
  | nc :: l' =>
      match check_row Ah nr start nc with
      | (w, Ok _) => let '(w', r) := check_rows Ah nr start l' in (w ++ w', r)
      | (w, e) => (w, e)
      end
  end.
(** Procedure.cpp:409-500 after the preparation (which is [checkUp_prep] of ProcModel): what is appended to the file.  [cells[0]] does not
    exist if there is no cell; [nch] is settings::nch. *)
Definition check_report (nch : nat) (Ah : A) (nr : Z) (t : sut unode) : list wtok * res unit :=
  match copy_cells t with
  | [] => ([], UB)
  | (n, c) :: l =>
      let start := if rq_spm o c then (2 * nch)%nat else 0%nat in
      let '(w, r) := check_rows Ah nr start ((n, c) :: l) in (check_header ++ w, r)
  end.

(** Procedure.cpp:523-597, [checkMod]: the overall file, which is begun anew. The histogram file stays empty (settings::DATASTORE_COOL is 0). *)
Definition mod_header : list wtok :=
  [txt "Full ID"; WComma; txt "Number of cells"; WComma; txt "Total time"; WComma; txt "Total evacuated heat"; WComma; txt "Total absorbed heat"; WEnd].
Definition mod_row (m : modinfo) (w : list wtok * res unit) : list wtok * res unit :=
  match snd w with
  | Ok _ =>
      match mi_cool m with
      | None => (fst w ++ [txt (mi_name m); WComma; int (Z.of_nat (mi_ncells m)); WComma], UB)
      | Some k => let u := k_cum k in
          (fst w ++ [txt (mi_name m); WComma; int (Z.of_nat (mi_ncells m)); WComma; num (u_t_life u); WComma; num (u_Qevac_life u); WComma; num (u_Qabs_life u); WEnd], Ok tt)
      end
  | _ => w
  end.
Definition mod_visit (x : unode) (w : list wtok * res unit) : list wtok * res unit :=
  match x with UCell _ _ => w | UMod m => mod_row m w | UBat m => mod_row m w end.
Definition mod_report (t : sut unode) : list wtok * res unit := visit_SUs mod_visit t (mod_header, Ok tt).
End Report.
Arguments piece A : clear implicits. Arguments wtok A : clear implicits. Arguments modinfo A : clear implicits. Arguments unode A C : clear implicits.
Arguments rep_if A C : clear implicits.

(** ** The cells of the program: equivalent-circuit cells and cells whose type is exactly Cell_SPM *)

Section Cells.
Context {A : Type} {NA : Num A} (F : fns A) (tm : Z).
Definition cell_rep : rep_if A (fleet (A := A) 0) := {|
  rq := fleet_if F tm 0 (fleet_store F tm 0) (fleet_write 0);
  rq_spm c := match (c : cell) with inl _ => false | inr _ => true end;
  (* Cell.hpp:107: the array {} has four zeros; Cell_SPM.hpp:172 *)
  rq_var c := match (c : cell) with inl _ => [nZ 0; nZ 0; nZ 0; nZ 0] | inr s => let '(a, b, x, y) := spm_variations s in [a; b; x; y] end;
  (* Cell_ECM.hpp:88, Cell_SPM.hpp:236 *)
  rq_th c := match (c : cell) with inl u => mkTh (e_time (es (u_ecm u))) (e_Ah (es (u_ecm u))) (e_Wh (es (u_ecm u))) | inr s => mkTh (s_time (cs s)) (s_Ah (cs s)) (s_Wh (cs s)) end;
  (* Cell_ECM.hpp:66, Cell_SPM.hpp:271 *)
  rq_states c := match (c : cell) with inl u => ecm_getStates (u_ecm u) | inr s => spm_getStates s end |}.
End Cells.
