(** * Specifications for the converter and the battery *)
From Coq Require Import Reals.
From Verif Require Import Base RFacts StatusModel CellModel CoolModel ModuleModel ModuleSpec BattModel.

(** ** Scaling: the battery stands for [s] groups in series, each of [p] copies of its tree in parallel. A quantity of the
    battery follows from that of the tree by the same laws as in a module ([par] within a group, [ser] over the groups). *)
Definition arranged (par ser : list R -> R -> Prop) (s p : nat) (x z : R) : Prop :=
  exists y, par (repeat x p) y /\ ser (repeat y s) z.
(** Resistance of branches in parallel *)
Definition is_parallel (rs : list R) (x : R) : Prop := (x * Rsum (map Rinv rs) = 1)%R.
(** The battery [b] consists of the module [m], [s] times in series and [p] times in parallel. *)
Definition consists {A S : Type} (b : batt A S) (m : module A S) (s p : nat) : Prop :=
  (exists k, bt_body b = Some (m, k)) /\ bt_ns b = Z.of_nat s /\ bt_np b = Z.of_nat p /\ (0 < s)%nat /\ (0 < p)%nat.

(** ** The converter's loss, per 200 kW inverter, at a voltage and a current on the battery's side (all in SI units): what an
    engineer would write from the data sheet. *)
Local Open Scope R_scope.
(** Voltage over a switch: 1 V at 30 A, 3 V at 300 A, on straight lines through the origin and through these two points. *)
Definition switch_voltage (i : R) : R := if Rle_dec (Rabs i) 30 then Rabs i / 30 else 1 + (Rabs i - 30) * (3 - 1) / (300 - 30).
(** Conduction in the dc stage and in the ac stage, switching in both at 8 kHz, and the filters. *)
Definition inverter_law (vdc vac V i : R) : R :=
  let idc := i * V / vdc in let w := 2 * 3.141592653589793 * 8000 in
  let conduction := Rabs i * switch_voltage i * Rabs (1 + 2 * V / vdc) + Rabs idc * switch_voltage idc * Rabs (1 + 2 * vdc / vac) in
  let switching := 8 * (6 + Rabs (i - 50) / 10) + 6 * 8 * (2 * (6 + Rabs (idc - 50) / 10) + 1) in
  let filters := 0.0136 * (Rsqr (w * 0.003) + 3 * Rsqr idc + Rsqr i) in
  conduction + switching + filters.
Local Close Scope R_scope.

(** ** Converter losses: calls on a battery *)
Section Losses.
Context {A : Type} {NA : Num A} {S : Type} (o : su_ops A S) (tmodel : Z).
Inductive batt_op : Type :=
| BStep (dt : A) (n : Z) | BTake | BDiscard | BCurrent (i : A) (chk : bool) | BVoltage | BStates (s : list A) (chk : bool) | BCooling | BTemp (t : A)
| BBlock (bl : bool).
(** [batt_op] executed: new battery, and the energy handed out (or thrown away by [resetConvLosses]) *)
Definition batt_exec (op : batt_op) (b : batt A S) : batt A S * A :=
  match op with
  | BStep dt n => (fst (batt_timeStep o tmodel dt n b), nZ 0)
  | BTake => batt_takeLosses b
  | BDiscard => (batt_resetLosses b, bt_loss b)
  | BCurrent i chk => (fst (batt_setCurrent o tmodel i chk b), nZ 0)
  | BVoltage => (fst (batt_V o tmodel b), nZ 0)
  | BStates s chk => (fst (batt_setStates o tmodel s chk b), nZ 0)
  | BCooling => (fst (batt_coolload o b), nZ 0)
  | BTemp t => (fst (batt_setT t b), nZ 0)
  | BBlock bl => (match batt_setBlock o bl b with Ok b' => b' | _ => b end, nZ 0)
  end.
(** Energy lost in the converter during a call: a step that the cells take contributes the loss at the voltage and current
    after it, times its duration; nothing else does. *)
Definition lost (op : batt_op) (b : batt A S) : A :=
  match op with
  | BStep dt n =>
      match on_cells (o_timeStep (mod_ops o tmodel) dt n) b with
      | (b1, Ok _) =>
          match batt_V o tmodel b1 with
          | (b2, Ok v) => match batt_I o tmodel b2 with
                          | Ok i => match conv_losses (bt_conv b2) v i with Ok p => nmul (nmul p dt) (nZ n) | _ => nZ 0 end
                          | _ => nZ 0
                          end
          | _ => nZ 0
          end
      | _ => nZ 0
      end
  | _ => nZ 0
  end.
Fixpoint batt_run (ops : list batt_op) (b : batt A S) : batt A S * list A * list A :=
  match ops with
  | [] => (b, [], [])
  | op :: t => let '(b1, h) := batt_exec op b in let '(b2, hs, ls) := batt_run t b1 in (b2, h :: hs, lost op b :: ls)
  end.
End Losses.
Arguments batt_op : clear implicits.
