(** * Specifications for the cooling systems *)
From Verif Require Import Base RFacts CoolModel.

Section Ops.
Context {A : Type} {NA : Num A}.

(** The calls a cooling system receives; a call that throws leaves the object as the call left it. *)
Inductive cool_op : Type :=
| OpSetT (t : A) | OpControl (Tlocal Tglobal : A) | OpExchange (Qtotal Qchildren t : A) | OpReset | OpStrategy (c : Z).
Definition cool_exec (o : cool_op) (k : cool A) : cool A :=
  match o with
  | OpSetT t => fst (cool_setT t k)
  | OpControl tl tg => cool_control tl tg k
  | OpExchange qt qc t => fst (cool_dstate qt qc t k)
  | OpReset => cool_resetEop k
  | OpStrategy c => cool_setControl c k
  end.
Definition cool_run (ops : list cool_op) (k : cool A) : cool A := fold_left (fun s o => cool_exec o s) ops k.

(** A temperature the coolant may have: a number not below 273 K and not above 348 K. *)
Definition T_allowed (t : A) : Prop :=
  nltb t (degC 0) = false /\ nltb (degC 75) t = false /\ neqb t t = true.

(** Energy consumed by operating the system during one exchange. *)
Definition exchange_energy (k : cool A) (qt qc t : A) : A :=
  match k_kind k with
  | CHvac h => if nltb (nlit 1 1000000000000) (nabs (nsub qt qc)) then nZ 0
               else nadd (nmul (fan_power k) t) (ac_energy k h (h_Qac h) t)
  | _ => nmul (fan_power k) t
  end.
End Ops.
Arguments cool_op : clear implicits.

Local Open Scope R_scope.
(** A thermostat with hysteresis, described by the temperature history alone: on when the last time it was told to
    switch, it was told to switch on. *)
Definition thermostat_on (Ton Toff : R) (initially : Prop) (history : list R) : Prop :=
  (exists before t after, history = before ++ t :: after /\ Ton <= t /\ (forall u, In u after -> Toff < u)) \/
  (initially /\ forall u, In u history -> Toff < u).

(** The control temperature of the strategy: 2 and 4 look at the hottest child, 3 and 5 at the hottest cell. *)
Definition control_temp (ctrl : Z) (t : R * R) : R := if (ctrl =? 2)%Z || (ctrl =? 4)%Z then fst t else snd t.
Definition controls (hist : list (R * R)) : list (cool_op R) := map (fun t => OpControl (fst t) (snd t)) hist.
