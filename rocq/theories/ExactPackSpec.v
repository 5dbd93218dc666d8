(** Vocabulary of the accuracy statement about packs of equivalent-circuit cells (C92). *)
From Verif Require Import Base RFacts StatusModel UtilModel CellModel ModuleModel ModuleSpec.
Local Open Scope R_scope.

(** What the cells log in one time step of the pack: the current each carries at its start. *)
Definition step_log (dt : R) (k : nat) (cells : list (ecmu R)) (logs : list (list (R * R * nat))) : list (list (R * R * nat)) :=
  map (fun '(c, l) => (e_I (es (u_ecm c)), dt, k) :: l) (combine cells logs).

(** [pack_hist u logs v]: from [u] to [v] by any calls on the root, with any outcome, and completed time steps;
    [logs] holds for every cell the current it carried in each step (current, step, number of steps). *)
Inductive pack_hist (tm : Z) (n : nat) : su R (ecmu R) n -> list (list (R * R * nat)) -> su R (ecmu R) n -> Prop :=
| ph_nil u : pack_hist tm n u (map (fun _ => nil) (leaves n u)) u
| ph_V u u1 r logs v : o_V (su_ops_at ecm_ops tm n) u = (u1, r) -> pack_hist tm n u1 logs v -> pack_hist tm n u logs v
| ph_setCurrent i chk u u1 r logs v : o_setCurrent (su_ops_at ecm_ops tm n) i chk u = (u1, r) ->
    pack_hist tm n u1 logs v -> pack_hist tm n u logs v
| ph_setVoltage x u u1 r logs v : setVoltage_iterative (su_ops_at ecm_ops tm n) x u = (u1, r) ->
    pack_hist tm n u1 logs v -> pack_hist tm n u logs v
| ph_thermal nb t u u1 r logs v : o_thermal (su_ops_at ecm_ops tm n) nb t u = (u1, r) ->
    pack_hist tm n u1 logs v -> pack_hist tm n u logs v
| ph_setT t u u1 r logs v : o_setT (su_ops_at ecm_ops tm n) t u = (u1, r) ->
    pack_hist tm n u1 logs v -> pack_hist tm n u logs v
| ph_step dt (k : nat) u u1 logs v : o_timeStep (su_ops_at ecm_ops tm n) dt (Z.of_nat k) u = (u1, Ok tt) ->
    pack_hist tm n u1 logs v -> pack_hist tm n u (step_log dt k (leaves n u) logs) v.
