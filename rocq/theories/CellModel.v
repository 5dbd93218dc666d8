(** * Model of the checks shared by cells and of the equivalent-circuit cell [Cell_ECM<N_RC>] *)
From Verif Require Import Base StatusModel UtilModel.
Local Open Scope num_scope.

Section Cell.
Context {A : Type} {NA : Num A}.

(** ** Shared checks *)

(** src/utility/free_functions.hpp:103-115, [check_SOC] with the default limits 0 and 1. *)
Definition check_SOC (soc : A) : bool :=
  if (soc <? nZ 0) || (soc >? nZ 1) then false else true.

(** src/settings/tolerances.hpp:26, [MODULE_P_V_ABSTOL]. *)
Definition V_ABSTOL : A := nlit 1 100.

(** Voltage limits of a unit (src/cells/cell_limits.hpp, src/StorageUnit.hpp:87-90). *)
Record limits : Type := mkLim { l_Vmin : A; l_Vmax : A; l_VMIN : A; l_VMAX : A }.
Definition defaultLimits : limits := mkLim (nlit 27 10) (nlit 42 10) (nlit 2 1) (nlit 43 10).

(** src/StorageUnit.hpp:59-60 *)
Definition isChargingI (i : A) : bool := i <? nZ 0.
Definition isDischargingI (i : A) : bool := i >? nZ 0.

(** src/utility/free_functions.hpp:137-210, [check_voltage]: [v] is the outcome of [su.V()].
    Returns the voltage passed out by reference and the status. When [V()] throws, the C++ leaves the
    reference as the caller had it; here 0 is returned (no cell's [V()] throws). *)
Definition check_voltage (v : res A) (l : limits) (i : A) : res (A * Status) :=
  match v with
  | Throw _ => Ok (nZ 0, V_not_calculated)
  | UB => UB
  | Fuel => Fuel
  | Ok v =>
      Ok (v,
        if v <=? nZ 0 then V_not_calculated
        else if (v >? (l_Vmin l - V_ABSTOL)) && (v <? (l_Vmax l + V_ABSTOL)) then Success
        else if (v <? l_VMIN l) && isDischargingI i then VMIN_violation
        else if (v >? l_VMAX l) && isChargingI i then VMAX_violation
        else if (v <? (l_Vmin l - V_ABSTOL)) && isDischargingI i then Vmin_violation
        else if (v >? (l_Vmax l + V_ABSTOL)) && isChargingI i then Vmax_violation
        else Success)
  end.

(** src/utility/free_functions.hpp:117-135, [check_Cell_states]; [valid] is [su.validStates()],
    [vchk] the outcome of [su.checkVoltage]. *)
Definition check_Cell_states (valid : bool) (vchk : res (A * Status)) (checkV : bool) : res Status :=
  if negb valid then Ok Invalid_states
  else if checkV then rmap snd vchk
  else Ok Success.

(** src/utility/free_functions.hpp:212-236, [check_safety]. *)
Definition check_safety (vi safetyVmin safetyVmax : A) : Status :=
  if vi <? safetyVmin then VMINsafety_violation
  else if vi >? safetyVmax then VMAXsafety_violation
  else SafeVoltage.

(** ** Cell_ECM *)

(** src/cells/Cell_ECM/State_ECM.hpp and src/types/State.hpp: the states, in storage order
    T, SOC, I, Ir[0..N_RC-1], time, Ah, Wh. *)
Record ecm_state : Type := mkEst {
  e_T : A; e_SOC : A; e_I : A; e_Ir : list A; e_time : A; e_Ah : A; e_Wh : A }.

(** src/cells/Cell_ECM/Cell_ECM.hpp:35-38, parameters; limits and temperature limits from Cell.hpp:40-55.
    The OCV is an [XYdata_ff] (two [FixedData] grids); it is modelled as a table of points, which agrees with it
    on every index the interpolation reads (the grids are only ever read between 0 and size-1). *)
Record ecm_par : Type := mkEpar {
  p_cap : A; p_Rdc : A; p_Rp : list A; p_itau : list A; p_ocv : XYdata A;
  p_lim : limits; p_Tmin : A; p_Tmax : A }.

Record ecm : Type := mkEcm { ep : ecm_par; es : ecm_state }.

(** [std::array]s have the length N_RC by construction. *)
Definition ecm_wf (c : ecm) : Prop :=
  length (p_Rp (ep c)) = length (e_Ir (es c)) /\ length (p_itau (ep c)) = length (e_Ir (es c)).

(** Cell_ECM.hpp:98-120, default constructor; settings.hpp:43-44,70 (0 C, 60 C, 15 C in K with Kelvin = 273). *)
Definition ecm_default_par (nrc : nat) : ecm_par :=
  let xs := fd_list (linspace_fix (nZ 0) (nZ 1) 3) in
  let ys := fd_list (linspace_fix (l_VMIN defaultLimits) (l_VMAX defaultLimits) 3) in
  let rp0 := nlit 158 10000 in
  mkEpar (nZ 16) (nlit 2 1000)
    (match nrc with
     | O => []
     | 2%nat => [rp0; nlit 25 10000]
     | S k => rp0 :: repeat (nZ 0) k
     end)
    (match nrc with
     | O => []
     | 2%nat => [nZ 1 / (rp0 * nZ 38000); nZ 1 / nZ 100]
     | S k => (nZ 1 / (rp0 * nZ 38000)) :: repeat (nZ 0) k
     end)
    (mkXY xs ys true) defaultLimits (nZ 273) (nZ 333).
Definition ecm_default (nrc : nat) : ecm :=
  mkEcm (ecm_default_par nrc)
        (mkEst (nZ 288) (nlit 1 2) (nZ 0) (repeat (nZ 0) nrc) (nZ 0) (nZ 0) (nZ 0)).

(** Cell_ECM.hpp:127-135, constructor with capacity and SOC. *)
Definition ecm_make (nrc : nat) (cap soc : A) : res ecm :=
  if negb (check_SOC soc) then Throw 10
  else
    let d := ecm_default nrc in
    let p := ep d in let s := es d in
    Ok (mkEcm (mkEpar cap (p_Rdc p) (p_Rp p) (p_itau p) (p_ocv p) (p_lim p) (p_Tmin p) (p_Tmax p))
              (mkEst (e_T s) soc (e_I s) (e_Ir s) (e_time s) (e_Ah s) (e_Wh s))).

Definition with_I (s : ecm_state) (i : A) : ecm_state :=
  mkEst (e_T s) (e_SOC s) i (e_Ir s) (e_time s) (e_Ah s) (e_Wh s).
Definition with_SOC (s : ecm_state) (x : A) : ecm_state :=
  mkEst (e_T s) x (e_I s) (e_Ir s) (e_time s) (e_Ah s) (e_Wh s).
Definition with_T (s : ecm_state) (x : A) : ecm_state :=
  mkEst x (e_SOC s) (e_I s) (e_Ir s) (e_time s) (e_Ah s) (e_Wh s).

(** Cell_ECM.hpp:60-63 *)
Definition ecm_I (c : ecm) : A := e_I (es c).
Definition ecm_SOC (c : ecm) : A := e_SOC (es c).
Definition ecm_T (c : ecm) : A := e_T (es c).

(** Cell_ECM.hpp:77, [getOCV] *)
Definition ecm_OCV (c : ecm) : res A := XYdata_interp (p_ocv (ep c)) (e_SOC (es c)) true.

(** The loops of Cell_ECM.hpp:211-212 and 277-278: [v -= Rp[i]*Ir[i]] in index order. *)
Fixpoint sub_drops (v : A) (rp ir : list A) : A :=
  match rp, ir with
  | r :: rp', i :: ir' => sub_drops (v - r * i) rp' ir'
  | _, _ => v
  end.

(** Cell_ECM.hpp:269-286, [V]: an exception from the OCV look-up gives 0. *)
Definition ecm_V (c : ecm) : res A :=
  match ecm_OCV c with
  | Ok ocv => Ok (sub_drops (ocv - p_Rdc (ep c) * e_I (es c)) (p_Rp (ep c)) (e_Ir (es c)))
  | Throw _ => Ok (nZ 0)
  | UB => UB
  | Fuel => Fuel
  end.

(** Cell.hpp:79, [checkVoltage] *)
Definition ecm_checkVoltage (c : ecm) : res (A * Status) :=
  check_voltage (ecm_V c) (p_lim (ep c)) (e_I (es c)).
(** Cell.hpp:65-71, [checkCurrent] *)
Definition ecm_checkCurrent (checkV : bool) (c : ecm) : res Status :=
  if checkV then rmap snd (ecm_checkVoltage c) else Ok Success.

(** Cell_ECM.hpp:181-193 *)
Definition ecm_setCurrent (Inew : A) (checkV : bool) : M ecm Status := fun c =>
  let c1 := mkEcm (ep c) (with_I (es c) Inew) in
  match ecm_checkCurrent checkV c1 with
  | Ok st => (if isStatusBad st then mkEcm (ep c) (with_I (es c1) (e_I (es c))) else c1, Ok st)
  | Throw n => (c1, Throw n)
  | UB => (c1, UB)
  | Fuel => (c1, Fuel)
  end.

(** Cell_ECM.hpp:202-224 *)
Definition ecm_setVoltage (Vnew : A) (checkI : bool) : M ecm Status := fun c =>
  match ecm_OCV c with
  | Ok ocv =>
      let Inew := sub_drops (ocv - Vnew) (p_Rp (ep c)) (e_Ir (es c)) / p_Rdc (ep c) in
      let c1 := mkEcm (ep c) (with_I (es c) Inew) in
      match ecm_checkCurrent checkI c1 with
      | Ok st => (if isStatusBad st then mkEcm (ep c) (with_I (es c1) (e_I (es c))) else c1, Ok st)
      | Throw n => (c1, Throw n)
      | UB => (c1, UB)
      | Fuel => (c1, Fuel)
      end
  | Throw n => (c, Throw n)
  | UB => (c, UB)
  | Fuel => (c, Fuel)
  end.

(** Cell_ECM.hpp:239-260 *)
Definition ecm_setSOC (SOCnew : A) (checkV : bool) : M ecm Status := fun c =>
  if negb (check_SOC SOCnew) then (c, Ok SOC_limits_violation)
  else
    let c1 := mkEcm (ep c) (with_SOC (es c) SOCnew) in
    if checkV then
      match ecm_checkVoltage c1 with
      | Ok (_, st) => (if isStatusBad st then mkEcm (ep c) (with_SOC (es c1) (e_SOC (es c))) else c1, Ok st)
      | Throw n => (c1, Throw n)
      | UB => (c1, UB)
      | Fuel => (c1, Fuel)
      end
    else (c1, Ok Success).

(** Cell_ECM.hpp:83 *)
Definition ecm_setT (Tnew : A) (c : ecm) : ecm := mkEcm (ep c) (with_T (es c) Tnew).

(** Cell_ECM.hpp:67, [getStates]: the state array in storage order. *)
Definition ecm_getStates (c : ecm) : list A :=
  let s := es c in [e_T s; e_SOC s; e_I s] ++ e_Ir s ++ [e_time s; e_Ah s; e_Wh s].

(** Number of states, State.hpp:23 ([N + N_cumulative] = 3 + N_RC + 3). *)
Definition ecm_nstates (c : ecm) : nat := (6 + length (e_Ir (es c)))%nat.

(** Copy of the first [nstates] values of the span into the state array, Cell_ECM.hpp:295-296; a shorter span
    is read beyond its end. Returns the new states and the rest of the span. *)
Definition ecm_read (nrc : nat) (s : list A) : res (ecm_state * list A) :=
  match s with
  | t :: soc :: i :: s1 =>
      let ir := firstn nrc s1 in
      match skipn nrc s1 with
      | tm :: ah :: wh :: rest =>
          if Nat.eqb (length ir) nrc then Ok (mkEst t soc i ir tm ah wh, rest) else UB
      | _ => UB
      end
  | _ => UB
  end.

(** Cell_ECM.hpp:306-331 *)
Definition ecm_validStates (c : ecm) : bool :=
  check_SOC (e_SOC (es c)) &&
  negb ((e_T (es c) <? p_Tmin (ep c)) || (e_T (es c) >? p_Tmax (ep c))).

(** Cell_ECM.hpp:288-304; returns the rest of the span with the status. *)
Definition ecm_setStates (s : list A) (checkV : bool) : M ecm (list A * Status) := fun c =>
  match ecm_read (length (e_Ir (es c))) s with
  | Ok (st, rest) =>
      let c1 := mkEcm (ep c) st in
      match check_Cell_states (ecm_validStates c1) (ecm_checkVoltage c1) checkV with
      | Ok status => (if isStatusBad status then c else c1, Ok (rest, status))
      | Throw n => (c1, Throw n)
      | UB => (c1, UB)
      | Fuel => (c1, Fuel)
      end
  | Throw n => (c, Throw n)
  | UB => (c, UB)
  | Fuel => (c, Fuel)
  end.

(** Cell_ECM.hpp:353-354: [Ir[i] += dt*inv_tau[i]*(I - Ir[i])] *)
Fixpoint step_Ir (dt i : A) (itau ir : list A) : list A :=
  match itau, ir with
  | k :: itau', x :: ir' => (x + dt * k * (i - x)) :: step_Ir dt i itau' ir'
  | _, _ => ir
  end.

(** Cell_ECM.hpp:348-362, one pass of the loop. *)
Definition ecm_step1 (dt : A) (c : ecm) : ecm * res unit :=
  let s := es c in
  let dth := dt / nZ 3600 in
  let dAh := e_I s * dth in
  let c1 := mkEcm (ep c)
      (mkEst (e_T s) (e_SOC s - dAh / p_cap (ep c)) (e_I s) (step_Ir dt (e_I s) (p_itau (ep c)) (e_Ir s))
             (e_time s + dt) (e_Ah s + nabs dAh) (e_Wh s)) in
  match ecm_V c1 with
  | Ok v =>
      let s1 := es c1 in
      (mkEcm (ep c) (mkEst (e_T s1) (e_SOC s1) (e_I s1) (e_Ir s1) (e_time s1) (e_Ah s1)
                           (e_Wh s1 + nabs (dAh * v))), Ok tt)
  | Throw n => (c1, Throw n)
  | UB => (c1, UB)
  | Fuel => (c1, Fuel)
  end.

Fixpoint ecm_steps (n : nat) (dt : A) (c : ecm) : ecm * res unit :=
  match n with
  | O => (c, Ok tt)
  | S n' => match ecm_step1 dt c with
            | (c', Ok _) => ecm_steps n' dt c'
            | r => r
            end
  end.

(** Cell_ECM.hpp:333-363; a negative number of steps takes none. *)
Definition ecm_timeStep_CC (dt : A) (nstep : Z) : M ecm unit := fun c =>
  if dt <? nZ 0 then (c, Throw 10)
  else ecm_steps (Z.to_nat nstep) dt c.

End Cell.
Arguments limits : clear implicits.
Arguments ecm : clear implicits.
Arguments ecm_state : clear implicits.
Arguments ecm_par : clear implicits.
