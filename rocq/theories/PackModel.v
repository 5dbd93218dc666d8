(** * A tree of modules and cells as the unit a cycler works on *)
From Coq Require Import List.
From Verif Require Import Base StatusModel CellModel CoolModel ModuleModel CyclerModel.
Import ListNotations.

Section Pack.
Context {A : Type} {NA : Num A}.

(** [StorageUnit::setVoltage] of a tree: a cell computes its current (Cell_ECM.hpp:202-224), a series module searches it
    (StorageUnit.hpp:67, free_functions.hpp:25-47), a parallel module balances its branches (Module_p.cpp:151-187). *)
Definition tree_setVoltage (tm : Z) (n : nat) (v : A) : M (su A (ecmu A) n) Status :=
  match n return M (su A (ecmu A) n) Status with
  | O => lift_ecm (ecm_setVoltage v true)
  | S n' => fun u =>
      match (u : ecmu A + module A (su A (ecmu A) n')) with
      | inl c => let '(c', r) := lift_ecm (ecm_setVoltage v true) c in (inl c', r)
      | inr m =>
          if m_series (mm m) then setVoltage_iterative (su_ops_at ecm_ops tm (S n')) v u
          else let '(l, r) := p_setVoltage (su_ops_at ecm_ops tm n') v (m_rc (mm m)) (ms m) in (inr (mkM (mm m) l), r)
      end
  end.

(** The virtual calls a cycler makes (Cycler.cpp, through [StorageUnit]), on a tree (ModuleModel). The data recorders of the
    cells are not part of the tree: what [storeData] and [writeData] do to it is a parameter. *)
Definition tree_if (tm : Z) (n : nat) (store write : M (su A (ecmu A) n) unit) : unit_if A (su A (ecmu A) n) :=
  let o := su_ops_at ecm_ops tm n in
  mkIf (fun u => (u, Ok (o_I o u))) (fun u => (u, Ok (o_Cap o u))) (fun u => (u, Ok (o_lim o u)))
    (o_V o) (o_checkV o) (o_Vlow o) (fun u => (u, Ok (o_getStates o u))) (o_setStates o)
    (o_setCurrent o) (tree_setVoltage tm n) (o_timeStep o) store write.

(** The electrical side of [storeData] when data is recorded (cell_data.hpp, module_data.hpp, see DataModel): V() is called to
    fill the row. *)
Definition store_V (tm : Z) (n : nat) : M (su A (ecmu A) n) unit := fun u =>
  let '(u', r) := o_V (su_ops_at ecm_ops tm n) u in (u', rmap (fun _ => tt) r).
Definition write_none (n : nat) : M (su A (ecmu A) n) unit := fun u => (u, Ok tt).
End Pack.
