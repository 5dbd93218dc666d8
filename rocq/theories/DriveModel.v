(** * Drive cycles and pulse tests *)
From Verif Require Import Base StatusModel UtilModel CellModel ModuleModel SpmModel.
Local Open Scope num_scope.

Section Drive.
Context {A : Type} {NA : Num A}.

(** ** The drive cycle (examples/drive_cycles.hpp) *)
Variables (F : fns A) (tm : Z).

(** drive_cycles.hpp:263, 267 with State_SPM.hpp:70: the measured element of the anode's states, here [k] (3 in the code). *)
Definition zn_at (k : nat) (s : spm_st A) : A := nth k (s_zn s) (nZ 0).
(** drive_cycles.hpp:263: [100 * ((zn(3) - z0) / (z10 - z0))] *)
Definition est_SOC (z0 z10 z : A) : A := nZ 100 * ((z - z0) / (z10 - z0)).

(** What is kept for each second: drive_cycles.hpp:254-256. *)
Record entry : Type := mkEn { e_V : A; e_st : spm_st A; e_soc : A }.

(** drive_cycles.hpp:257-269: one second at each current of the profile, until the measured element falls below [stop]. The
    state is copied after the voltage has been read. An exception ends the program before anything is written.
    Simplified: the index of the element and the table values are arguments. *)
Fixpoint drive (k : nat) (z0 z10 stop cap : A) (rates : list A) : M (spm A) (list entry) :=
  match rates with
  | [] => mret []
  | r :: rates' =>
      mbind (spm_setCurrent F (r * cap) true) (fun _ =>
      mbind (spm_V F) (fun v => fun c =>
      let e := mkEn v (cs c) (est_SOC z0 z10 (zn_at k (cs c))) in
      mbind (spm_timeStep_CC F tm (nZ 1) 1) (fun _ => fun c1 =>
      if zn_at k (cs c1) <? stop then (c1, Ok [e])
      else mbind (drive k z0 z10 stop cap rates') (fun es => mret (e :: es)) c1) c))
  end.

(** drive_cycles.hpp:271-280 and 283-296: the lines of the two files; the comma at the end of each line of the second is not
    modelled. *)
Definition volt_file (cap : A) (rates : list A) (es : list entry) : list (A * A * A) :=
  map (fun '(r, e) => (r * cap, e_V e, e_soc e)) (combine rates es).
Definition state_file (es : list entry) : list (list A) := map (fun e => firstn 28 (st_list (e_st e))) es.

(** drive_cycles.hpp:257, 304-307: each experiment starts from its own pair of uniform lithium fractions. *)
Fixpoint experiments (k : nat) (z0 z10 stop : A) (rates : list A) (pts : list (A * A)) : M (spm A) (list (list entry)) :=
  match pts with
  | [] => mret []
  | (fp, fn) :: pts' =>
      mbind (spm_setC fp fn) (fun _ => fun c =>
      mbind (drive k z0 z10 stop (q_cap (cp c)) rates) (fun es =>
      mbind (experiments k z0 z10 stop rates pts') (fun l => mret (es :: l))) c)
  end.
End Drive.
Arguments entry A : clear implicits.

(** ** The pulse test (examples/cell_tests.hpp) *)
Section Gitt.
Context {A : Type} {NA : Num A} {S : Type} (o : su_ops A S).

(** cell_tests.hpp:82-83: a line of the file: time, current and voltage of the one cell, current and voltage of the other. *)
Definition line (t : A) : M (S * S) (A * A * A * A * A) := fun '(c, d) =>
  match o_V o c with
  | (c1, Ok v) => match o_V o d with
                  | (d1, Ok w) => ((c1, d1), Ok (t, o_I o c, v, o_I o d, w))
                  | (d1, e) => ((c1, d1), cast e)
                  end
  | (c1, e) => ((c1, d), cast e)
  end.
(** A call for the one cell and then the other. *)
Definition both {B : Type} (f g : M S B) : M (S * S) unit := fun '(c, d) =>
  match f c with
  | (c1, Ok _) => match g d with
                  | (d1, Ok _) => ((c1, d1), Ok tt)
                  | (d1, e) => ((c1, d1), cast e)
                  end
  | (c1, e) => ((c1, d), cast e)
  end.
(** cell_tests.hpp:81-89 and 94-102: [n] seconds *)
Fixpoint seconds (n : nat) (t : A) : M (S * S) (A * list (A * A * A * A * A)) :=
  match n with
  | O => mret (t, [])
  | Datatypes.S n' =>
      mbind (line t) (fun r =>
      mbind (both (o_timeStep o (nZ 1) 1) (o_timeStep o (nZ 1) 1)) (fun _ =>
      mbind (seconds n' (t + nZ 1)) (fun '(t', l) => mret (t', r :: l))))
  end.
(** cell_tests.hpp:77-103: pulses of [np] seconds, rests of [nr] seconds; default arguments: voltages are checked. *)
Fixpoint pulses (n np nr : nat) (i t : A) : M (S * S) (list (A * A * A * A * A)) :=
  match n with
  | O => mret []
  | Datatypes.S n' =>
      mbind (both (o_setCurrent o (- i) true) (o_setCurrent o i true)) (fun _ =>
      mbind (seconds np t) (fun '(t1, l1) =>
      mbind (both (o_setCurrent o (nZ 0) true) (o_setCurrent o (nZ 0) true)) (fun _ =>
      mbind (seconds nr t1) (fun '(t2, l2) =>
      mbind (pulses n' np nr i t2) (fun l => mret (l1 ++ l2 ++ l))))))
  end.
(** cell_tests.hpp:57-105: from the prepared cells; 20 pulses of an hour at 0.05C, rests of two hours. *)
Definition gitt (n np nr : nat) (rate : A) : M (S * S) (list (A * A * A * A * A)) := fun cd =>
  let i := rate * o_Cap o (fst cd) in
  mbind (line (nZ 0)) (fun r => mbind (pulses n np nr i (nZ 0)) (fun l => mret (r :: l))) cd.
Definition GITT_test : M (S * S) (list (A * A * A * A * A)) := gitt 20 (Z.to_nat 3600) (Z.to_nat 7200) (nlit 5 100).
End Gitt.
