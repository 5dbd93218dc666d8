(** Vocabulary of the energy statement about packs of equivalent-circuit cells (C91). *)
From Verif Require Import Base RFacts StatusModel UtilModel CellModel ModuleModel ModuleSpec EnergySpec.
Local Open Scope R_scope.

(** Sums over the cells of a tree before and after a call. *)
Definition over_cells (f : ecm R -> ecm R -> R) (n : nat) (u v : su R (ecmu R) n) : R :=
  Rsum (map (fun '(c, d) => f (u_ecm c) (u_ecm d)) (combine (leaves n u) (leaves n v))).
Definition cells_out : forall n, su R (ecmu R) n -> su R (ecmu R) n -> R :=
  over_cells (fun c d => out (e_I (es c)) (e_Wh (es d) - e_Wh (es c))).
Definition cells_into : forall n, su R (ecmu R) n -> su R (ecmu R) n -> R :=
  over_cells (fun c d => into (e_I (es c)) (e_Wh (es d) - e_Wh (es c))).
Definition all_stored (n : nat) (u : su R (ecmu R) n) : R := Rsum (map (fun c => stored (u_ecm c)) (leaves n u)).

(** Charge given up by a cell between two states, valued at its open-circuit voltage in the first. *)
Definition ocv_of (c : ecm R) : R := match ecm_OCV c with Ok o => o | _ => 0 end.
Definition given_up (c d : ecm R) : R := p_cap (ep c) * (e_SOC (es c) - e_SOC (es d)) * ocv_of c.

(** [pack_used u del tak v]: from [u] to [v] by any calls on the root, with any outcome, and completed time steps
    during which every cell stays readable; [del] and [tak] are the energies the counters of all cells gained
    while the respective cell discharged or charged. *)
Inductive pack_used (tm : Z) (n : nat) : su R (ecmu R) n -> R -> R -> su R (ecmu R) n -> Prop :=
| pu_nil u : pack_used tm n u 0 0 u
| pu_V u u1 r del tak v : o_V (su_ops_at ecm_ops tm n) u = (u1, r) -> pack_used tm n u1 del tak v -> pack_used tm n u del tak v
| pu_setCurrent i chk u u1 r del tak v : o_setCurrent (su_ops_at ecm_ops tm n) i chk u = (u1, r) ->
    pack_used tm n u1 del tak v -> pack_used tm n u del tak v
| pu_setVoltage x u u1 r del tak v : setVoltage_iterative (su_ops_at ecm_ops tm n) x u = (u1, r) ->
    pack_used tm n u1 del tak v -> pack_used tm n u del tak v
| pu_thermal nb t u u1 r del tak v : o_thermal (su_ops_at ecm_ops tm n) nb t u = (u1, r) ->
    pack_used tm n u1 del tak v -> pack_used tm n u del tak v
| pu_setT t u u1 r del tak v : o_setT (su_ops_at ecm_ops tm n) t u = (u1, r) ->
    pack_used tm n u1 del tak v -> pack_used tm n u del tak v
| pu_step dt (k : nat) u u1 del tak v : o_timeStep (su_ops_at ecm_ops tm n) dt (Z.of_nat k) u = (u1, Ok tt) ->
    Forall (fun c => Forall (fun q => dt * q <= 2) (p_itau (ep (u_ecm c))) /\
      forall j : nat, (1 <= j <= k)%nat -> readable (fst (ecm_timeStep_CC dt (Z.of_nat j) (u_ecm c)))) (leaves n u) ->
    pack_used tm n u1 del tak v ->
    pack_used tm n u (cells_out n u u1 + del) (cells_into n u u1 + tak) v.
