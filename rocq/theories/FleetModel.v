(** * Packs of cells of either kind *)
From Coq Require Import List.
From Verif Require Import Base StatusModel CellModel CoolModel ModuleModel SpmModel SpmUnitModel CyclerModel.
Import ListNotations.

Section Fleet.
Context {A : Type} {NA : Num A}.
Variables (F : fns A) (tm : Z).

(** A cell of either kind: modules hold pointers to [StorageUnit] (Module.hpp:38), which may be a [Cell_ECM]
    (Cell_ECM.hpp:28) or a [Cell_SPM] (Cell_SPM.hpp:38, with its subclasses Cell_KokamNMC.hpp:25 and
    Cell_LGChemNMC.hpp:21, which only differ in their parameters). *)
Definition cell : Type := (ecmu A + spm A)%type.
(** Virtual calls on such a cell: StorageUnit.hpp:40-107 dispatches to Cell_ECM.hpp or to Cell_SPM.hpp. *)
Definition cell_ops : su_ops A cell := sum_ops ecm_ops (spm_ops F tm).
(** [setVoltage] of a cell: Cell_ECM.hpp:202-224, or the search of StorageUnit.hpp:67 with free_functions.hpp:25-47. *)
Definition cell_setVoltage (v : A) : M cell Status :=
  both (on_l (lift_ecm (ecm_setVoltage v true))) (on_r (spm_setVoltage F tm v)).

(** Trees of modules (ModuleModel, [su]) over such cells. *)
Definition fleet (n : nat) : Type := su A cell n.
Definition fleet_ops (n : nat) : su_ops A (fleet n) := su_ops_at cell_ops tm n.
(** [setVoltage] of a tree: a series module searches the current (StorageUnit.hpp:67, free_functions.hpp:25-47), a parallel
    module balances its branches (Module_p.cpp:151-187). *)
Definition fleet_setVoltage (n : nat) (v : A) : M (fleet n) Status :=
  match n return M (fleet n) Status with
  | O => cell_setVoltage v
  | S n' => fun u =>
      match (u : cell + module A (su A cell n')) with
      | inl c => let '(c', r) := cell_setVoltage v c in (inl c', r)
      | inr m =>
          if m_series (mm m) then setVoltage_iterative (fleet_ops (S n')) v u
          else let '(l, r) := p_setVoltage (fleet_ops n') v (m_rc (mm m)) (ms m) in (inr (mkM (mm m) l), r)
      end
  end.

(** The virtual calls a cycler makes (Cycler.cpp, through [StorageUnit]), on such a tree. What [storeData] and [writeData] do
    to it is a parameter, as in PackModel. *)
Definition fleet_if (n : nat) (store write : M (fleet n) unit) : unit_if A (fleet n) :=
  let o := fleet_ops n in
  mkIf (fun u => (u, Ok (o_I o u))) (fun u => (u, Ok (o_Cap o u))) (fun u => (u, Ok (o_lim o u)))
    (o_V o) (o_checkV o) (o_Vlow o) (fun u => (u, Ok (o_getStates o u))) (o_setStates o)
    (o_setCurrent o) (fleet_setVoltage n) (o_timeStep o) store write.

(** The electrical side of [storeData] (cell_data.hpp, module_data.hpp, see DataModel): V() is called to fill the row. *)
Definition fleet_store (n : nat) : M (fleet n) unit := fun u =>
  let '(u', r) := o_V (fleet_ops n) u in (u', rmap (fun _ => tt) r).
Definition fleet_write (n : nat) : M (fleet n) unit := fun u => (u, Ok tt).
End Fleet.
