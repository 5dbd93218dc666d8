(** * Heat in a tree of single-particle cells: a small specification *)
From Coq Require Import List Reals.
From Verif Require Import Base RFacts CoolModel ModuleModel ModuleSpec SpmModel PhysSpec.
Import ListNotations.
Local Open Scope R_scope.

Notation STree n := (su R (spm R) n).

(** Thermal capacity of the coolant of a module, [J/K], and the power its air conditioning removes. *)
Definition coolant_capacity (k : cool R) : R := k_rho k * k_cp k * k_V k.
Definition ac_power (k : cool R) : R := match k_kind k with CHvac h => h_Qac h | _ => 0 end.

(** The heat stored in all cells and coolants of a tree (from 0 K on), the heat generated and not yet turned into temperature (in cells and
    contacts), and what the air conditioning of all modules removes per second. *)
Definition heat_content (n : nat) (u : STree n) : R :=
  Rsum (map (fun c => heat_capacity c * s_T (cs c)) (leaves n u)) + Rsum (map (fun k => coolant_capacity k * k_T k) (coolers n u)).
Definition heat_pending (n : nat) (u : STree n) : R := Rsum (map c_Q (leaves n u)) + Rsum (over_modules (fun _ r _ => m_Qc r) n u).
Definition heat_removed (n : nat) (u : STree n) : R := Rsum (map ac_power (coolers n u)).

(** Heat a unit of temperature [T] and surface [a0] receives in [tim] seconds from neighbours at [(temperature, coefficient, surface)]. *)
Definition gained (T a0 tim : R) (nb : list (R * R * R)) : R := Rsum (map (fun '(t, k, a) => k * Rmin a a0 * (t - T) * tim) nb).

(** All cells have waited [tim] seconds since the last thermal update; nothing is without thermal capacity. *)
Definition waited (tim : R) (n : nat) (u : STree n) : Prop :=
  Forall (fun c => heat_capacity c <> 0 /\ c_tth c = tim) (leaves n u) /\ Forall (fun k => coolant_capacity k <> 0) (coolers n u).
