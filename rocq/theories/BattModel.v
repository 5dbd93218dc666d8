(** * Model of the converter and the battery: src/power_conversion/Converter.{hpp,cpp}, src/system/Battery.{hpp,cpp} *)
From Verif Require Import Base StatusModel CellModel CoolModel ModuleModel.
Local Open Scope num_scope.

Section Converter.
Context {A : Type} {NA : Num A}.

(** Converter.hpp:16-19 *)
Record conv : Type := mkConv { v_dc : A; v_ac : A; v_pnom : A }.
(** Converter.cpp:19-24 *)
Definition conv_make : conv := mkConv (nZ 1500) (nZ 1500) (nZ 200000).
(** Converter.cpp:25-28 *)
Definition conv_setPower (p : A) (c : conv) : conv := mkConv (v_dc c) (v_ac c) p.
(** settings/constants.hpp:23 *)
Definition pi_lit : A := nlit 3141592653589793 1000000000000000.
(** Converter.cpp:71-77, 104-112: voltage over a switch, from the linearised characteristic *)
Definition igbt (i : A) : A :=
  let '(a, b, c) := if nabs i >? nZ 30 then (nZ 1, nZ 2 / nZ 270, nZ 30) else (nZ 0, nZ 1 / nZ 30, nZ 0) in
  a + b * (nabs i - c).
(** Converter.cpp:30-142. Undefined when the number of inverters does not fit an [int]. Simplified: the [constexpr] terms are
    evaluated like the others. *)
Definition conv_losses (c : conv) (Vin Iin0 : A) : res A :=
  rmap (fun n =>
    let nInv := nZ n in
    let Iin := Iin0 / nInv in
    let asw := nZ 6 in let bs := nlit 1 10 in let cs := nZ 50 in
    let f := nZ 8000 in
    let Vce := igbt Iin in
    let D := nZ 1 + nZ 2 * Vin / v_dc c in
    let Eon := nZ 0 in
    let Eoff := (asw + bs * nabs (Iin - cs)) * nlit 1 1000 in
    let DC_cond := Iin * Vce * D in
    let DC_switch := f * (Eoff + Eon) in
    let Idc := Iin * Vin / v_dc c in
    let Vce2 := igbt Idc in
    let D2 := nZ 1 + nZ 2 * v_dc c / v_ac c in
    let Eon2 := (asw + bs * nabs (Idc - cs)) * nlit 1 1000 in
    let Eoff2 := Eon2 + nlit 1 1000 in
    let AC_cond := Idc * Vce2 * D2 in
    let AC_switch := nZ 6 * f * (Eoff2 + Eon2) in
    let R := nlit 136 10000 in
    let x := nZ 2 * pi_lit * f * nlit 3 1000 * nZ 1 in
    let FIL_cdc := R * (x * x) in
    let FIL_lg := nZ 3 * R * (Idc * Idc) in
    let FIL_lb := R * (Iin * Iin) in
    (nabs DC_cond + nabs DC_switch + nabs AC_cond + nabs AC_switch + FIL_cdc + FIL_lg + FIL_lb) * nInv)
  (to_int (nceil (v_pnom c / (nZ 200 * nZ 1000)))).
End Converter.
Arguments conv : clear implicits.

Section Battery.
Context {A : Type} {NA : Num A} {S : Type} (o : su_ops A S) (tmodel : Z).
Notation mo := (mod_ops o tmodel).

(** Battery.hpp:24-33. The module and the HVAC system are set together (Battery.cpp:64-83); before that both are null. *)
Record batt : Type := mkBatt {
  bt_body : option (module A S * cool A); bt_conv : conv A; bt_ns : Z; bt_np : Z; bt_loss : A; bt_tot : A; bt_block : bool }.
Definition with_body (b : batt) (x : module A S * cool A) : batt :=
  mkBatt (Some x) (bt_conv b) (bt_ns b) (bt_np b) (bt_loss b) (bt_tot b) (bt_block b).
Definition with_loss (b : batt) (l t : A) : batt := mkBatt (bt_body b) (bt_conv b) (bt_ns b) (bt_np b) l t (bt_block b).
(** Battery.cpp:19-20 *)
Definition batt_make : batt := mkBatt None conv_make 1 1 (nZ 0) (nZ 0) false.
(** Battery.cpp:22-26 *)
Definition batt_setSP (ser par : Z) (b : batt) : batt :=
  mkBatt (bt_body b) (bt_conv b) ser par (bt_loss b) (bt_tot b) (bt_block b).

(** Calls on the cells; undefined while there are none. *)
Definition on_cells {B : Type} (f : M (module A S) B) : M batt B := fun b =>
  match bt_body b with
  | None => (b, UB)
  | Some (m, k) => let '(m', r) := f m in (with_body b (m', k), r)
  end.
Definition read_cells {B : Type} (f : module A S -> B) (b : batt) : res B :=
  match bt_body b with None => UB | Some (m, _) => Ok (f m) end.
Definition ns (b : batt) : A := nZ (bt_ns b).
Definition np (b : batt) : A := nZ (bt_np b).

(** Battery.hpp:49-56 *)
Definition batt_Cap (b : batt) : res A := read_cells (fun m => o_Cap mo m * np b) b.
Definition batt_lim (b : batt) : res (limits A) :=
  read_cells (fun m => let l := o_lim mo m in mkLim (l_Vmin l * ns b) (l_Vmax l * ns b) (l_VMIN l * ns b) (l_VMAX l * ns b)) b.
Definition batt_I (b : batt) : res A := read_cells (fun m => o_I mo m * np b) b.
Definition batt_Rtot (b : batt) : res A := rbind (read_cells (o_Rtot mo) b) (rmap (fun r => r * ns b / np b)).
Definition batt_N (b : batt) : res Z := read_cells (fun m => (Z.of_nat (o_N mo m) * bt_ns b * bt_np b)%Z) b.
(** Battery.hpp:64-67 *)
Definition batt_setCurrent (Inew : A) (checkV : bool) : M batt Status := fun b =>
  on_cells (o_setCurrent mo (Inew / np b) checkV) b.
(** Battery.hpp:75-79, Battery.cpp:85-90 *)
Definition batt_OCV (b : batt) : res A := rbind (read_cells (o_OCV mo) b) (rmap (fun r => r * ns b)).
Definition scaled (f : M (module A S) A) : M batt A := fun b =>
  match on_cells f b with (b', Ok v) => (b', Ok (v * ns b)) | (b', e) => (b', e) end.
Definition batt_V : M batt A := scaled (o_V mo).
Definition batt_Vhigh : M batt A := scaled (o_Vhigh mo).
Definition batt_Vlow : M batt A := scaled (o_Vlow mo).
Definition batt_checkV : M batt (A * Status) := fun b =>
  match on_cells (o_checkV mo) b with (b', Ok (v, st)) => (b', Ok (v * ns b, st)) | (b', e) => (b', e) end.
(** Battery.hpp:82-84 *)
Definition batt_T (b : batt) : res A := match bt_body b with Some (_, k) => Ok (k_T k) | None => UB end.
Definition batt_Thot (b : batt) : res A := match bt_body b with Some (m, k) => Ok (nmax (o_Thot mo m) (k_T k)) | None => UB end.

(** Battery.cpp:28-84. [throw 10]: the module has a parent, has an HVAC system, or the battery has a module already. A module
    always has a cooling system here (Module.hpp:45). *)
Definition batt_setModule (m : module A S) : M batt unit := fun b =>
  if negb (m_top (mm m)) then (b, Throw 10)
  else match k_kind (m_cool (mm m)) with
       | CHvac _ => (b, Throw 10)
       | _ =>
           match bt_body b with
           | Some _ => (b, Throw 10)
           | None =>
               let m' := mkM (mkMod (m_series (mm m)) (m_rc (mm m)) (m_cool (mm m)) (m_k (mm m)) (m_area (mm m)) (m_Qc (mm m)) (m_time (mm m))
                               (m_N (mm m)) (m_V (mm m)) (m_Vok (mm m)) (m_par (mm m)) (m_block (mm m)) false) (ms m) in
               let vmax := l_Vmax (o_lim mo m') * ns b in
               let cap := o_Cap mo m' * np b in
               match conv_losses (bt_conv b) vmax cap with
               | Ok q =>
                   let k := hvac_make (Z.to_nat (Z.of_nat (o_N mo m') * bt_ns b * bt_np b)) (k_ctrl (m_cool (mm m))) (q * nZ 2) in
                   (mkBatt (Some (m', k)) (conv_setPower (cap * vmax) (bt_conv b)) (bt_ns b) (bt_np b) (bt_loss b) (bt_tot b) (bt_block b), Ok tt)
               | e => (b, cast e)
               end
           end
       end.

(** Battery.cpp:92-97 *)
Definition batt_getStates (b : batt) : res (list A) :=
  match bt_body b with Some (m, k) => Ok (o_getStates mo m ++ [k_T k]) | None => UB end.
Definition batt_setT (t : A) : M batt unit := fun b =>
  match bt_body b with Some (m, k) => let '(k', r) := cool_setT t k in (with_body b (m, k'), r) | None => (b, UB) end.
(** [s.back()] *)
Definition back (s : list A) : option A := match rev s with [] => None | x :: _ => Some x end.
(** Battery.cpp:106-111. The remaining span is returned as it is. *)
Definition batt_setStates (s : list A) (checkV : bool) : M batt (list A * Status) := fun b =>
  match on_cells (o_setStates mo s checkV) b with
  | (b1, Ok (s', st)) =>
      match back s' with
      | None => (b1, UB)
      | Some t => match batt_setT t b1 with
                  | (b2, Ok _) => (b2, Ok (s', st))
                  | (b2, e) => (b2, cast e)
                  end
      end
  | (b1, e) => (b1, cast e)
  end.
(** Battery.cpp:99-103: [Module::setBlockDegAndTherm] on the cells *)
Definition batt_setBlock (bl : bool) (b : batt) : res batt :=
  match bt_body b with
  | Some (m, k) => Ok (mkBatt (Some (mod_setBlock o bl m, k)) (bt_conv b) (bt_ns b) (bt_np b) (bt_loss b) (bt_tot b) bl)
  | None => UB
  end.
(** Battery.cpp:113-118, Battery.hpp:71-72 *)
Definition batt_takeLosses (b : batt) : batt * A := (with_loss b (nZ 0) (bt_tot b), bt_loss b).
Definition batt_resetLosses (b : batt) : batt := with_loss b (nZ 0) (bt_tot b).
Definition batt_losses_total (b : batt) : A := bt_tot b.

(** [conv.getLosses(V(), I())] *)
Definition batt_convLoss : M batt A := fun b =>
  match batt_V b with
  | (b1, Ok v) => (b1, rbind (batt_I b1) (conv_losses (bt_conv b1) v))
  | (b1, e) => (b1, e)
  end.
(** Battery.cpp:120-176 *)
Definition batt_thermal (nneighb : nat) (tim : A) : M batt A := fun b =>
  match bt_body b with
  | None => (b, UB)
  | Some (m, k) =>
      if (tmodel =? 0)%Z then (b, Ok (k_T k))
      else
        let K := cool_getH k in let Ar := o_area mo m in
        match o_thermal mo [(k_T k, K, Ar)] tim m with
        | (m1, Ok Tcells) =>
            let b1 := with_body b (m1, k) in
            let E1 := K * Ar * (o_T mo m1 - k_T k) * tim in
            match batt_convLoss b1 with
            | (b2, Ok l) =>
                match nneighb, bt_body b2 with
                | O, Some (m2, k2) =>
                    let E := E1 + l * tim in
                    match cool_dstate E E tim k2 with
                    | (k3, Ok Tb) =>
                        let b3 := with_body b2 (m2, k3) in
                        if (Tb <? degC 0) || (Tb >? degC 75) || nisnan Tb then (b3, Throw 99)
                        else match o_setT mo Tcells m2 with
                             | (m3, Ok _) =>
                                 match batt_setT Tb (with_body b3 (m3, k3)) with
                                 | (b4, Ok _) => (b4, Ok Tb)
                                 | (b4, e) => (b4, cast e)
                                 end
                             | (m3, e) => (with_body b3 (m3, k3), cast e)
                             end
                    | (k3, e) => (with_body b2 (m2, k3), e)
                    end
                | _, _ => (b2, Throw 10)
                end
            | (b2, e) => (b2, e)
            end
        | (m1, e) => (with_body b (m1, k), e)
        end
  end.
(** Battery.cpp:178-198 *)
Definition batt_coolload : M batt A := fun b =>
  match bt_body b with
  | None => (b, UB)
  | Some (m, k) =>
      let '(m', r) := mod_coolload o m in
      (with_body b (m', cool_resetEop k), rmap (fun e => cool_Eop k + e) r)
  end.
(** Battery.cpp:200-226. A step of the cells that throws leaves the rest undone. *)
Definition batt_timeStep (dt : A) (n : Z) : M batt unit := fun b =>
  match on_cells (o_timeStep mo dt n) b with
  | (b1, Ok _) =>
      match batt_convLoss b1 with
      | (b2, Ok p) =>
          let l := p * dt * nZ n in
          let b3 := with_loss b2 (bt_loss b2 + l) (bt_tot b2 + l) in
          let '(b4, r) := if bt_block b3 then (b3, Ok (nZ 0)) else batt_thermal 0 (nZ n * dt) b3 in
          match r with
          | Ok _ =>
              match bt_body b4 with
              | None => (b4, UB)
              | Some (m, k) =>
                  (with_body b4 (m, cool_control (lmax (map (o_T o) (ms m))) (nmax (o_Thot mo m) (k_T k)) k), Ok tt)
              end
          | e => (b4, cast e)
          end
      | (b2, e) => (b2, cast e)
      end
  | (b1, e) => (b1, cast e)
  end.
End Battery.
Arguments batt A S : clear implicits.
