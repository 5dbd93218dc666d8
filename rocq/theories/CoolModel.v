(** * Model of the cooling systems: src/cooling/CoolSystem*.{hpp,cpp} *)
From Verif Require Import Base.
Local Open Scope num_scope.

Section Cool.
Context {A : Type} {NA : Num A}.

(** [std::isnan] *)
Definition nisnan (x : A) : bool := negb (neqb x x).
(** [Kelvin = 273] (src/utility/units.hpp, PhyConst) and [x_degC] *)
Definition degC (x : Z) : A := nZ (273 + x).
(** settings.hpp:70 *)
Definition T_ENV : A := degC 15.
(** settings.hpp:24 *)
Definition flowrate_perCell : A := nlit 5 10000.

(** CoolSystem_HVAC.hpp:18-28 and CoolSystem_HVACCumulative (cool_data.hpp:56-60) *)
Record hvac : Type := mkHvac {
  h_Qac : A; h_COP : A; h_Ton : A; h_Toff : A; h_Q : A; h_propT : A; h_gain : A; h_Eac : A; h_QcoolAC : A }.

(** The dynamic type of the cooling system. *)
Inductive coolkind : Type := CBase | COpen | CHvac (h : hvac).

(** CoolSystemCumulative, cool_data.hpp:21-31 *)
Record cumul : Type := mkCum {
  u_Qevac : A; u_Qevac_life : A; u_Qabs_life : A; u_t_life : A; u_E : A; u_Eop : A; u_time : A; u_time_life : A }.

(** CoolSystem.hpp:22-52 *)
Record cool : Type := mkCool {
  k_kind : coolkind; k_T : A; k_flow : A; k_rho : A; k_cp : A; k_V : A; k_N : nat; k_ctrl : Z;
  k_Ton : A; k_Toff : A; k_flr : A; k_propT : A; k_gain : A; k_Across : A; k_eta : A; k_cum : cumul }.

Definition cum0 : cumul := mkCum (nZ 0) (nZ 0) (nZ 0) (nZ 0) (nZ 0) (nZ 0) (nZ 0) (nZ 0).

(** CoolSystem.cpp:20-79 then 81-110: the constructor with a number of cells and a control strategy. *)
Definition cool_make (n : nat) (ctrl : Z) : cool :=
  let flow := flowrate_perCell * nnat n in
  let Ton := degC 35 in
  let propT := degC 25 in
  mkCool CBase T_ENV flow (nlit 1225 1000) (nlit 1005 1) (nZ 1 * nnat n) n ctrl
    Ton (nmax (degC 25) (T_ENV + nZ 5)) flow propT (nZ 1 / (Ton - propT)) (nlit 25 1000000 * nnat n) (nlit 1 2) cum0.

Definition with_kind (k : cool) (kd : coolkind) : cool :=
  mkCool kd (k_T k) (k_flow k) (k_rho k) (k_cp k) (k_V k) (k_N k) (k_ctrl k) (k_Ton k) (k_Toff k) (k_flr k)
    (k_propT k) (k_gain k) (k_Across k) (k_eta k) (k_cum k).
Definition with_flow (k : cool) (f : A) : cool :=
  mkCool (k_kind k) (k_T k) f (k_rho k) (k_cp k) (k_V k) (k_N k) (k_ctrl k) (k_Ton k) (k_Toff k) (k_flr k)
    (k_propT k) (k_gain k) (k_Across k) (k_eta k) (k_cum k).
Definition with_kT (k : cool) (t : A) : cool :=
  mkCool (k_kind k) t (k_flow k) (k_rho k) (k_cp k) (k_V k) (k_N k) (k_ctrl k) (k_Ton k) (k_Toff k) (k_flr k)
    (k_propT k) (k_gain k) (k_Across k) (k_eta k) (k_cum k).
Definition with_kV (k : cool) (v : A) : cool :=
  mkCool (k_kind k) (k_T k) (k_flow k) (k_rho k) (k_cp k) v (k_N k) (k_ctrl k) (k_Ton k) (k_Toff k) (k_flr k)
    (k_propT k) (k_gain k) (k_Across k) (k_eta k) (k_cum k).
Definition with_cum (k : cool) (u : cumul) : cool :=
  mkCool (k_kind k) (k_T k) (k_flow k) (k_rho k) (k_cp k) (k_V k) (k_N k) (k_ctrl k) (k_Ton k) (k_Toff k) (k_flr k)
    (k_propT k) (k_gain k) (k_Across k) (k_eta k) u.
(** CoolSystem.hpp:68, [setControl] *)
Definition cool_setControl (ctrl : Z) (k : cool) : cool :=
  mkCool (k_kind k) (k_T k) (k_flow k) (k_rho k) (k_cp k) (k_V k) (k_N k) ctrl (k_Ton k) (k_Toff k) (k_flr k)
    (k_propT k) (k_gain k) (k_Across k) (k_eta k) (k_cum k).

(** CoolSystem_open.cpp:21-24 *)
Definition open_make (n : nat) (ctrl : Z) : cool := with_flow (with_kind (cool_make n ctrl) COpen) (nZ 0).

(** CoolSystem_HVAC.cpp:46-80 *)
Definition hvac_make (n : nat) (ctrl : Z) (Q0 : A) : cool :=
  let k := cool_make n ctrl in
  let percell := nlit 75 10 in
  let Qac := percell * nnat n + Q0 in
  let Ton := if (ctrl =? 3)%Z || (ctrl =? 5)%Z then degC 30 else degC 25 in
  let propT := if (ctrl =? 5)%Z then degC 25 else degC 20 in
  with_kind (with_kV k (k_V k * Qac / (percell * nnat n)))
    (CHvac (mkHvac Qac (nZ 3) Ton (degC 20) Qac propT (nZ 1 / (Ton - propT)) (nZ 0) (nZ 0))).

(** CoolSystem.cpp:112-126 *)
Definition cool_setT (t : A) : M cool unit := fun k =>
  if (t <? degC 0) || (t >? degC 75) || nisnan t then (k, Throw 99) else (with_kT k t, Ok tt).

(** CoolSystem.cpp:128-180 and CoolSystem_open.cpp:26 *)
Definition cool_getH (k : cool) : A :=
  match k_kind k with
  | COpen => nZ 90
  | _ =>
      if neqb (k_flow k) (nZ 0) then nZ 0
      else let v := k_flow k / k_Across k in
           nlit 1212 100 - nlit 116 100 * v + nlit 116 10 * nsqrt v
  end.

(** The fan's power, CoolSystem.cpp:213-216 and CoolSystem_HVAC.cpp:116-117. *)
Definition fan_power (k : cool) : A :=
  let v := k_flow k / k_Across k in
  match k_kind k with
  | CHvac _ => (k_rho k * k_Across k * (v * v * v) / nZ 2) / k_eta k
  | _ => (k_rho k * k_Across k * v * v * v / nZ 2) / k_eta k
  end.

(** CoolSystem_HVAC.cpp:137-171 *)
Definition ac_energy (k : cool) (h : hvac) (Qac t : A) : A :=
  if neqb Qac (nZ 0) || neqb t (nZ 0) then nZ 0
  else if T_ENV >? (k_T k - nZ 5) then h_COP h * Qac * t
  else
    let flr := Qac / (k_rho k * k_cp k * (k_T k - T_ENV)) in
    let Acr := k_Across k * nZ 2 in
    let v := flr / Acr in
    (k_rho k * Acr * (v * v * v) / nZ 2) / k_eta k * t.

(** CoolSystemData.hpp:27-37, [storeCumulativeData]; CoolSystem_HVAC.cpp:121-128 does the same with its own terms. *)
Definition cum_add (u : cumul) (Qchildren Qtotal t Efan Eop : A) : cumul :=
  mkCum (u_Qevac u + Qchildren) (u_Qevac_life u + Qchildren) (u_Qabs_life u + Qtotal) (u_t_life u + t)
        (u_E u + Efan) (u_Eop u + Eop) (u_time u + t) (u_time_life u + t).

(** CoolSystem.cpp:182-223 ([open] inherits it) and CoolSystem_HVAC.cpp:82-135. *)
Definition cool_dstate (Qtotal Qchildren t : A) : M cool A := fun k =>
  match k_kind k with
  | CHvac h =>
      if nabs (Qtotal - Qchildren) >? nlit 1 1000000000000 then (k, Throw 10)
      else
        let Q := Qtotal - h_Qac h * t in
        let Tnew := k_T k + Q / (k_rho k * k_cp k * k_V k) in
        let E := fan_power k * t in
        let Eac := ac_energy k h (h_Qac h) t in
        let h' := mkHvac (h_Qac h) (h_COP h) (h_Ton h) (h_Toff h) (h_Q h) (h_propT h) (h_gain h)
                    (h_Eac h + Eac) (h_QcoolAC h + h_Qac h * t) in
        (with_kind (with_cum k (cum_add (k_cum k) Qchildren Q t E (E + Eac))) (CHvac h'), Ok Tnew)
  | _ =>
      let Tnew := k_T k + Qtotal / (k_rho k * k_cp k * k_V k) in
      let E := fan_power k * t in
      (with_cum k (cum_add (k_cum k) Qchildren Qtotal t E E), Ok Tnew)
  end.

(** CoolSystem.cpp:225-289, the fan *)
Definition fan_onoff (k : cool) (t : A) : A :=
  let f := if t >=? k_Ton k then k_flr k else k_flow k in
  if t <=? k_Toff k then nZ 0 else f.
Definition fan_prop (k : cool) (t : A) : A :=
  let Terr := nmax (t - k_propT k) (nZ 0) in
  if k_gain k * Terr >? nlit 2 10 then k_flr k * k_gain k * Terr else nZ 0.
Definition fan_control (Tlocal Tglobal : A) (k : cool) : cool :=
  match k_ctrl k with
  | 2%Z => with_flow k (fan_onoff k Tlocal)
  | 3%Z => with_flow k (fan_onoff k Tglobal)
  | 4%Z => with_flow k (fan_prop k Tlocal)
  | 5%Z => with_flow k (fan_prop k Tglobal)
  | _ => k
  end.

(** CoolSystem_HVAC.cpp:173-269, the AC unit; note that lines 244 and 259 compare [control_prop_gain * Terr], the
    gain of the fan. *)
Definition ac_prop (k : cool) (h : hvac) (t : A) : A :=
  let Terr := nmax (t - h_propT h) (nZ 0) in
  if k_T k <=? h_Toff h then nZ 0
  else if k_gain k * Terr >? nlit 2 10 then h_Q h * nmin (h_gain h * Terr) (nZ 1)
  else nZ 0.
Definition ac_control (Tglobal : A) (k : cool) (h : hvac) : A :=
  match k_ctrl k with
  | 1%Z => if k_T k <? h_Toff h then nZ 0 else h_Q h
  | 2%Z => if k_T k <=? h_Toff h then nZ 0 else if k_T k >=? h_Ton h then h_Q h else h_Qac h
  | 3%Z => if k_T k <=? h_Toff h then nZ 0 else if Tglobal >=? h_Ton h then h_Q h else h_Qac h
  | 4%Z => ac_prop k h (k_T k)
  | 5%Z => ac_prop k h Tglobal
  | _ => h_Qac h
  end.

(** The virtual [control]: base, CoolSystem_open.cpp:28-31, CoolSystem_HVAC.cpp:173-269. *)
Definition cool_control (Tlocal Tglobal : A) (k : cool) : cool :=
  match k_kind k with
  | COpen => with_flow k (nZ 0)
  | CBase => fan_control Tlocal Tglobal k
  | CHvac h =>
      let k1 := fan_control Tlocal Tglobal k in
      with_kind k1 (CHvac (mkHvac (ac_control Tglobal k1 h) (h_COP h) (h_Ton h) (h_Toff h) (h_Q h) (h_propT h)
                                  (h_gain h) (h_Eac h) (h_QcoolAC h)))
  end.

(** CoolSystem.hpp:65-66 *)
Definition cool_Eop (k : cool) : A := u_Eop (k_cum k).
Definition cool_resetEop (k : cool) : cool :=
  let u := k_cum k in
  with_cum k (mkCum (u_Qevac u) (u_Qevac_life u) (u_Qabs_life u) (u_t_life u) (u_E u) (nZ 0) (u_time u) (u_time_life u)).

End Cool.
Arguments hvac : clear implicits.
Arguments coolkind : clear implicits.
Arguments cumul : clear implicits.
Arguments cool : clear implicits.
