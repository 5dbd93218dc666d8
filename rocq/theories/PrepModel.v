(** * Preparing a cell by hand, recorded curves and the pack benchmarks *)
From Verif Require Import Base StatusModel UtilModel CellModel DataModel CoolModel ModuleModel SpmModel CyclerModel.
Local Open Scope num_scope.

(** ** Bringing a unit to a voltage (examples/drive_cycles.hpp:68-142) *)
Section Prep.
Context {A : Type} {NA : Num A} {S : Type} (o : su_ops A S).

(** The caller's [Ah], [ttot] and [dWh]. *)
Definition tally : Type := (A * A * A)%type.
(** drive_cycles.hpp:81-86, 89-94, 106-111, 115-120, 127-132, 136-141: steps of [d] seconds while the voltage is below [vlim]
    ([up]) or above it; [q] is what the loop adds to [Ah] in each step. *)
Fixpoint until (fuel : nat) (up : bool) (vlim d q : A) (w : tally) : M S tally :=
  mbind (o_V o) (fun v =>
  if (if up then vlim >? v else vlim <? v) then
    match fuel with
    | O => fun u => (u, Fuel)
    | Datatypes.S f =>
        mbind (o_timeStep o d 1) (fun _ =>
        mbind (o_V o) (fun v' =>
        until f up vlim d q (fst (fst w) + q, snd (fst w) + d, snd w + q * v')))
    end
  else mret w).

(** drive_cycles.hpp:76-95: a current of hardly any size; the status of [setCurrent] is not looked at. *)
Definition prep_small (fuel : nat) (I0 V0 : A) (w : tally) : M S tally :=
  mbind (o_V o) (fun _ =>
  mbind (o_V o) (fun v =>
  mbind (if V0 >? v then
           (fun u => mbind (o_setCurrent o (nlit (-2) 100 * o_Cap o u) true) (fun _ => until fuel true V0 (nlit 1 10) (nlit 5 10 * nlit 1 10) w) u)
         else
           (fun u => mbind (o_setCurrent o (nlit 2 100 * o_Cap o u) true) (fun _ => until fuel false V0 (nlit 1 10) (nlit 5 10 * nlit 1 10) w) u))
        (fun w1 => mbind (o_setCurrent o I0 true) (fun _ => mret w1)))).
(** drive_cycles.hpp:98-121: [std::max(Vmin, V_0 - 0.2)]; discharge at 5 A, then charge at [I_0]. *)
Definition max2 (a b : A) : A := if a <? b then b else a.
Definition min2 (a b : A) : A := if b <? a then b else a.
Definition prep_charge (fuel : nat) (I0 V0 : A) (w : tally) : M S tally := fun u =>
  let vlim := max2 (l_Vmin (o_lim o u)) (V0 - nlit 2 10) in
  mbind (o_V o) (fun v =>
  mbind (if vlim <? v then mbind (o_setCurrent o (nZ 5) true) (fun _ => mret tt) else mret tt) (fun _ =>
  mbind (until fuel false vlim (nZ 2) (nZ 10) w) (fun w1 =>
  mbind (o_setCurrent o I0 true) (fun _ =>
  until fuel true V0 (nZ 1) (nabs I0) w1)))) u.
(** drive_cycles.hpp:122-142 *)
Definition prep_disch (fuel : nat) (I0 V0 : A) (w : tally) : M S tally := fun u =>
  let vlim := min2 (l_Vmax (o_lim o u)) (V0 + nlit 2 10) in
  mbind (o_V o) (fun v =>
  mbind (if vlim >? v then mbind (o_setCurrent o (nZ (-5)) true) (fun _ => mret tt) else mret tt) (fun _ =>
  mbind (until fuel true vlim (nZ 2) (nZ 10) w) (fun w1 =>
  mbind (o_setCurrent o I0 true) (fun _ =>
  until fuel false V0 (nZ 1) (nabs I0) w1)))) u.
(** drive_cycles.hpp:68-152; the counters are cleared at the end. *)
Definition init_cell_manual (fuel : nat) (I0 V0 : A) : M S tally := fun u =>
  mbind (if nabs I0 <? nlit 1 100 then prep_small fuel I0 V0 (nZ 0, nZ 0, nZ 0)
         else if I0 <? nZ 0 then prep_charge fuel I0 V0 (nZ 0, nZ 0, nZ 0)
         else prep_disch fuel I0 V0 (nZ 0, nZ 0, nZ 0))
    (fun _ => fun u1 => (o_setFlag o false u1, Ok (nZ 0, nZ 0, nZ 0))) (o_setFlag o true u).
End Prep.
Arguments tally A : clear implicits.

(** ** Recorded curves of one cell *)
Section Curves.
Context {A : Type} {NA : Num A} (F : fns A) (tm : Z).

(** drive_cycles.hpp:209-210, 216-217 with Cell_SPM.cpp:123-147: the lithium fractions at the surfaces; the constants
    [Cmaxpos], [Cmaxneg] of the example are arguments. *)
Definition fractions (cmp cmn : A) (c : spm A) : A * A :=
  let '(cps, cns, _) := getCSurf F c in (cps / cmp, cns / cmn).
(** A line of the file: current, voltage, the fractions, and element [k] (3 in the code) of the two lists of states. *)
Record point : Type := mkPt { pt_I : A; pt_V : A; pt_fp : A; pt_fn : A; pt_zp : A; pt_zn : A }.
Definition point_of (k : nat) (cmp cmn v : A) (c : spm A) : point :=
  let '(fp, fn) := fractions cmp cmn c in
  mkPt (s_I (cs c)) v fp fn (nth k (s_zp (cs c)) (nZ 0)) (nth k (s_zn (cs c)) (nZ 0)).
(** drive_cycles.hpp:219 *)
Definition moved_on (thr : A) (old new : point) : bool :=
  (nabs (pt_V old - pt_V new) >? thr) || (nabs (pt_fp old - pt_fp new) >? thr) || (nabs (pt_fn old - pt_fn new) >? thr).
(** drive_cycles.hpp:215-226. Simplified: the voltage is read once a second; the later readings of the same second return the
    cached value (C88_cached). *)
Fixpoint sweep (fuel k : nat) (cmp cmn thr vend : A) (old : point) : M (spm A) (list point) :=
  mbind (spm_V F) (fun v =>
  if v <? vend then
    match fuel with
    | O => fun c => (c, Fuel)
    | S f => fun c =>
        let new := point_of k cmp cmn v c in
        mbind (spm_timeStep_CC F tm (nZ 1) 1) (fun _ =>
        if moved_on thr old new then mbind (sweep f k cmp cmn thr vend new) (fun l => mret (new :: l))
        else sweep f k cmp cmn thr vend old) c
    end
  else mret []).
(** drive_cycles.hpp:209-226: a first line, the small current, the sweep. Simplified: the first point's surface concentrations
    are taken before its voltage is read, which does not change them. *)
Definition ocv_curve (fuel k : nat) (cmp cmn i thr vend : A) : M (spm A) (list point) :=
  mbind (spm_V F) (fun v => fun c =>
  let p := point_of k cmp cmn v c in
  mbind (spm_setCurrent F i true) (fun _ =>
  mbind (sweep fuel k cmp cmn thr vend p) (fun l => mret (p :: l))) c).

(** benchmark/running_Cell_SPM.hpp:72-74: a line: time, voltage, state of charge, temperature, the cell's time, charge and
    energy counters, open-circuit voltage. *)
Record logline : Type := mkLL { ll_t : A; ll_V : A; ll_SOC : A; ll_T : A; ll_time : A; ll_Ah : A; ll_Wh : A; ll_OCV : A }.
(** running_Cell_SPM.hpp:71-79 *)
Fixpoint log_run (fuel : nat) (tend vmin dt t : A) : M (spm A) (list logline) :=
  if t <=? tend then
    mbind (spm_V F) (fun v =>
    if v >? vmin then
      match fuel with
      | O => fun c => (c, Fuel)
      | S f => fun c =>
          match spm_OCV F c with
          | Ok ocv =>
              let s := cs c in
              mbind (spm_timeStep_CC F tm dt 2) (fun _ =>
              mbind (log_run f tend vmin dt (t + dt * nZ 2)) (fun l =>
              mret (mkLL t v (s_SOC s) (s_T s) (s_time s) (s_Ah s) (s_Wh s) ocv :: l))) c
          | e => (c, cast e)
          end
      end
    else mret [])
  else mret [].
(** running_Cell_SPM.hpp:52-79; the cell is as constructed, without its contact resistances and with [blockDegAndTherm]. *)
Definition run_Cell_SPM_2 (fuel : nat) : M (spm A) (list logline) :=
  mbind (spm_setCurrent F (nZ 1) true) (fun _ => log_run fuel (nZ 3600) (nlit 27 10) (nlit 1 2) (nZ 0)).
End Curves.
Arguments point A : clear implicits.
Arguments logline A : clear implicits.

(** ** The large pack, long run (benchmark/running_LP_cases.hpp:191-196) *)
Section Long.
Context {A : Type} {NA : Num A} {S : Type} (o : unit_if A S) (ndata_max : nat) (diag : bool).
(** [n] times (3 in the code); the statuses are not looked at. Not modelled: the clock and the final [writeData()]. *)
Fixpoint pack_long (n fuel : nat) : M (cyc A S) unit :=
  match n with
  | O => mret tt
  | Datatypes.S m =>
      mbind (CC o ndata_max diag fuel (nZ (-64)) (nlit 27 10) (nZ 1200) (nZ 1) 10) (fun _ =>
      mbind (rest o ndata_max fuel (nZ 900) (nZ 1) 10) (fun _ =>
      mbind (CC o ndata_max diag fuel (nZ 64) (nlit 27 10) (nZ 1200) (nZ 1) 10) (fun _ =>
      mbind (rest o ndata_max fuel (nZ 1800) (nZ 1) 10) (fun _ =>
      pack_long m fuel))))
  end.
End Long.
