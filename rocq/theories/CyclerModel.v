(** * Model of the cycler: src/procedures/Cycler.{hpp,cpp} *)
From Verif Require Import Base StatusModel CellModel DataModel CoolModel ModuleModel.
Local Open Scope num_scope.

Declare Scope prog_scope.
Delimit Scope prog_scope with prog.
Notation "x <- m ;; k" := (mbind m (fun x => k)) (at level 61, m at next level, right associativity) : prog_scope.
Notation "m ;;; k" := (mbind m (fun _ => k)) (at level 61, right associativity) : prog_scope.
Local Open Scope prog_scope.

Section Cycler.
Context {A : Type} {NA : Num A}.

(** What a cycler calls on the storage unit it is connected to (src/StorageUnit.hpp:26-107). *)
Record unit_if (S : Type) : Type := mkIf {
  q_I : M S A; q_Cap : M S A; q_lim : M S (limits A);
  q_V : M S A; q_checkV : M S (A * Status); q_Vlow : M S A;
  q_getStates : M S (list A); q_setStates : list A -> bool -> M S (list A * Status);
  q_setCurrent : A -> bool -> M S Status; q_setVoltage : A -> M S Status;
  q_step : A -> Z -> M S unit;
  q_store : M S unit; q_write : M S unit }.
Arguments q_I {S}. Arguments q_Cap {S}. Arguments q_lim {S}. Arguments q_V {S}. Arguments q_checkV {S}. Arguments q_Vlow {S}.
Arguments q_getStates {S}. Arguments q_setStates {S}. Arguments q_setCurrent {S}. Arguments q_setVoltage {S}. Arguments q_step {S}.
Arguments q_store {S}. Arguments q_write {S}.

(** src/types/ThroughputData (State.hpp): time, charge and energy throughput *)
Record th : Type := mkTh { th_time : A; th_Ah : A; th_Wh : A }.
Definition th0 : th := mkTh (nZ 0) (nZ 0) (nZ 0).

Section Over.
Context {S : Type} (o : unit_if S).
(** The cycler's data index (Cycler.hpp:24), [settings::CELL_NDATA_MAX], the diagnostic flag (Cycler.hpp:25). *)
Context (ndata_max : nat) (diag : bool).

(** State during a call: the unit, the cycler's index and the caller's throughput object. *)
Record cyc : Type := mkCyc { c_su : S; c_idx : nat; c_th : th }.
Definition call {B : Type} (f : M S B) : M cyc B := fun w => let '(s, r) := f (c_su w) in (mkCyc s (c_idx w) (c_th w), r).
Definition add_th (t a e : A) : M cyc unit := fun w =>
  (mkCyc (c_su w) (c_idx w) (mkTh (th_time (c_th w) + t) (th_Ah (c_th w) + a) (th_Wh (c_th w) + e)), Ok tt).
(** [th.Ah() += a; th.Wh() += e] *)
Definition add_charge (a e : A) : M cyc unit := fun w =>
  (mkCyc (c_su w) (c_idx w) (mkTh (th_time (c_th w)) (th_Ah (c_th w) + a) (th_Wh (c_th w) + e)), Ok tt).
Definition set_th (t : th) : M cyc unit := fun w => (mkCyc (c_su w) (c_idx w) t, Ok tt).
Definition get_th : M cyc th := fun w => (w, Ok (c_th w)).
(** [try { m } catch (int) { h }] *)
Definition try {B : Type} (m h : M cyc B) : M cyc B := fun w =>
  match m w with (w', Throw _) => h w' | x => x end.

(** Cycler.cpp:40-46 *)
Definition writeData : M cyc unit := fun w =>
  match q_write o (c_su w) with
  | (s, Ok _) => (mkCyc s 0 (c_th w), Ok tt)
  | (s, e) => (mkCyc s (c_idx w) (c_th w), e)
  end.
(** Cycler.cpp:48-57 *)
Definition storeData : M cyc unit :=
  (i <- (fun w => (w, Ok (c_idx w))) ;;
   (if Nat.leb ndata_max i then writeData else mret tt) ;;;
   call (q_store o) ;;;
   (fun w => (mkCyc (c_su w) (c_idx w + 1)%nat (c_th w), Ok tt))).
Definition store_if (b : bool) : M cyc unit := if b then storeData else mret tt.
(** [if (boolStoreData && idat >= ndt_data) { storeData(); idat = 0; }] *)
Definition store_due (idat ndt : Z) : M cyc Z :=
  if (0 <? ndt)%Z && (ndt <=? idat)%Z then (storeData ;;; mret 0%Z) else mret idat.
Definition zclamp (v lo hi : Z) : Z := if (v <? lo)%Z then lo else if (hi <? v)%Z then hi else v.

(** ** rest, Cycler.cpp:76-176 *)
(** One turn of the loop after the current is set: the length and number of steps *)
Definition cut_n (nOnce : Z) (dti left : A) : Z := if nZ nOnce * dti >? left then 1%Z else nOnce.
Definition cut_dt (dti left : A) : A := if dti >? left then left else dti.
(** Cycler.cpp:139-150 *)
Definition rest_adapt (nOnce : Z) (ninc : bool) (left dti : A) : Z * bool :=
  if left <? nZ 2 * (nZ nOnce * dti) then (nOnce / 2, ninc)%Z
  else if ninc then (nOnce + 1, false)%Z else (nOnce, true).
(** [inl st]: left with status [st]; [inr ttot]: the loop ended. *)
Fixpoint rest_loop (fuel : nat) (tlim : A) (ndt nmax : Z) (dti ttot : A) (idat nOnce : Z) (ninc : bool) : M cyc (Status + A) :=
  if negb (ttot <? tlim) then mret (inr ttot)
  else match fuel with
       | O => fun w => (w, Fuel)
       | Datatypes.S f =>
           (succ <- call (q_setCurrent o (nZ 0) false) ;;
            if isStatusBad succ then mret (inl succ)
            else
              let n := cut_n nOnce dti (tlim - ttot) in
              let d := cut_dt dti (tlim - ttot) in
              call (q_step o d n) ;;;
              let t' := ttot + d * nZ n in
              (idat' <- store_due (idat + n)%Z ndt ;;
               let '(n', ninc') := rest_adapt n ninc (tlim - t') d in
               rest_loop f tlim ndt nmax d t' idat' (zclamp n' 1 nmax) ninc'))
       end.
Definition rest (fuel : nat) (tlim dt : A) (ndt : Z) : M cyc Status :=
  (store_if (0 <? ndt)%Z ;;;
   r <- rest_loop fuel tlim ndt (if (0 <? ndt)%Z then Z.min 10 ndt else 10%Z) dt (nZ 0) 0 1 true ;;
   match r with
   | inl st => mret st
   | inr ttot =>
       if (ttot >=? tlim) && (nabs (ttot - tlim) <? nZ 1) then
         (call (q_setCurrent o (nZ 0) false) ;;;
          store_if (0 <? ndt)%Z ;;;
          add_th ttot (nZ 0) (nZ 0) ;;;
          mret ReachedTimeLimit)
       else mthrow 100
   end).

(** ** setCurrent, Cycler.cpp:185-212 *)
Definition cyc_setCurrent (I vlim : A) : M cyc Status :=
  (Vini <- call (q_V o) ;;
   Iini <- call (q_I o) ;;
   status <- call (q_setCurrent o I diag) ;;
   if isStatusVoltageLimitsViolated status then
     (call (q_setCurrent o Iini false) ;;; mret status)
   else
     (Vnew <- call (q_V o) ;;
      if (I <? nZ 0) && (Vini <=? vlim) && (Vnew >? vlim) then mret ReachedVoltageLimit
      else if (Vini >=? vlim) && (Vnew <? vlim) then mret ReachedVoltageLimit
      else mret Success)).

(** ** CC, Cycler.cpp:226-410 *)
Definition beyond (I v vlim : A) : bool := ((I <? nZ 0) && (v >? vlim)) || ((I >? nZ 0) && (v <? vlim)).
(** Cycler.cpp:322-386: the number of steps for the next turn; returns also [allowUp] *)
Definition cc_adapt (I vlim vo vi : A) (nOnce : Z) (up : bool) : M cyc (Z * bool) :=
  if I <? nZ 0 then
    mret (if vi - vo <? (vlim - vi) / nZ 10 then (nOnce + 1)%Z
          else if vi - vo >=? vlim - vi then 1%Z else (nOnce - 1)%Z, up)
  else
    let n1 := if (vo - vi <? (vi - vlim) / nZ 10) && up then (nOnce + 1)%Z
              else if vo - vi >=? (vi - vlim) * nZ 2 then 1%Z else (nOnce - 2)%Z in
    (v1 <- call (q_Vlow o) ;;
     let '(n2, up2) := if v1 <? nlit 31 10 then ((n1 - 2)%Z, false) else (n1, up) in
     v2 <- call (q_Vlow o) ;;
     mret (if v2 <? nZ 3 then (1%Z, false) else (n2, up2))).
(** [inl st]: left with status [st]; [inr (ttot, vtot)]: the loop ended. *)
Fixpoint cc_loop (fuel : nat) (I vlim tlim : A) (ndt nmax : Z) (dti ttot : A) (idat nOnce : Z) (vo vi : A) (up : bool) : M cyc (Status + (A * bool)) :=
  if negb (ttot <? tlim) then mret (inr (ttot, false))
  else match fuel with
       | O => fun w => (w, Fuel)
       | Datatypes.S f =>
           (cyc_setCurrent I vlim ;;;
            let n := cut_n nOnce dti (tlim - ttot) in
            let d := cut_dt dti (tlim - ttot) in
            stepped <- try (call (q_step o d n) ;;; mret true) (mret false) ;;
            if negb stepped then mret (inl timeStep_CC_failed)
            else
              r <- (if diag then
                      (vs <- call (q_checkV o) ;;
                       mret (if isStatusSuccessful (snd vs) then inr (fst vs) else inl (snd vs)))
                    else
                      (v <- call (q_V o) ;;
                       mret (if v <=? nZ 0 then inl V_not_calculated else inr v))) ;;
              match r with
              | inl st => mret (inl st)
              | inr vi' =>
                  (call (q_V o) ;;;
                   let dtn := d * nZ n in
                   add_th dtn (nabs I * dtn / nZ 3600) (nabs I * dtn / nZ 3600 * vi') ;;;
                   let t' := ttot + dtn in
                   idat' <- store_due (idat + n)%Z ndt ;;
                   if beyond I vi' vlim then mret (inr (t', true))
                   else
                     (nu <- cc_adapt I vlim vo vi' n up ;;
                      cc_loop f I vlim tlim ndt nmax d t' idat' (zclamp (fst nu) 1 nmax) vi' vi' (snd nu)))
              end)
       end.
Definition CC (fuel : nat) (I vlim tlim dt : A) (ndt : Z) : M cyc Status :=
  (store_if (0 <? ndt)%Z ;;;
   succ <- cyc_setCurrent I vlim ;;
   if negb (isStatusSuccessful succ) then mret succ
   else
     (v0 <- call (q_V o) ;;
      if beyond I v0 vlim then mret ReachedVoltageLimit
      else
        (r <- cc_loop fuel I vlim tlim ndt (if (0 <? ndt)%Z then Z.min 2 ndt else 2%Z) dt (nZ 0) 0 1 v0 v0 true ;;
         match r with
         | inl st => mret st
         | inr (ttot, vtot) =>
             if ttot >=? tlim then (store_if (0 <? ndt)%Z ;;; mret ReachedTimeLimit)
             else if vtot then (store_if (0 <? ndt)%Z ;;; mret ReachedVoltageLimit)
             else mthrow 100
         end))).

(** ** CV, Cycler.cpp:412-520 *)
(** [dV < MODULE_P_V_ABSTOL || dV / Vset < MODULE_P_V_RELTOL] (settings/tolerances) *)
Definition at_voltage (v Vset : A) : bool :=
  let dV := nabs (v - Vset) in (dV <? nlit 1 100) || (dV / Vset <? nlit 1 1000).
(** [inl st]: left; [inr (ttot, Itot, Vtolerance)]: the loop ended. [todo] turns remain, [i] is the index, [nt] their number. *)
Fixpoint cv_loop (todo : nat) (i nt : Z) (Vset Ilim tlim dt : A) (ndt : Z) (ttot : A) : M cyc (Status + (A * bool * bool)) :=
  match todo with
  | O => mret (inr (ttot, false, false))
  | Datatypes.S td =>
      (call (q_setVoltage o Vset) ;;;
       let d := if (i + 1 =? nt)%Z then tlim - dt * nZ (nt - 1) else dt in
       stepped <- try (call (q_step o d 1) ;;; mret true) (mret false) ;;
       if negb stepped then mret (inl timeStep_CC_failed)
       else
         (i1 <- call (q_I o) ;;
          let dAh := nabs (i1 * d / nZ 3600) in
          vi <- call (q_V o) ;;
          let t' := ttot + d in
          add_charge dAh (dAh * vi) ;;;
          store_if ((0 <? ndt)%Z && ((i + 1) mod ndt =? 0)%Z) ;;;
          lim <- call (q_lim o) ;;
          let safety := check_safety vi (l_VMIN lim * nlit 99 100) (l_VMAX lim * nlit 101 100) in
          if negb (status_eqb safety SafeVoltage) then mret (inl safety)
          else
            (Ii <- call (q_I o) ;;
             if (nabs Ii <? Ilim) && at_voltage vi Vset then mret (inr (t', true, true))
             else if (nabs Ii <? Ilim / nZ 10) || (nabs Ii <? nlit 1 1000000) then mret (inr (t', true, false))
             else cv_loop td (i + 1) nt Vset Ilim tlim dt ndt t')))
  end.
(** [static_cast<size_t>] of a double: undefined unless it truncates to 0 .. 2^64-1. *)
Definition to_size (x : A) : res Z :=
  match ntrunc x with
  | Some z => if ((0 <=? z) && (z <? 18446744073709551616))%Z then Ok z else UB
  | None => UB
  end.
Definition CV (Vset Ilim tlim dt : A) (ndt : Z) : M cyc Status :=
  (store_if (0 <? ndt)%Z ;;;
   vprev <- call (q_V o) ;;
   Ii <- call (q_I o) ;;
   if (nabs Ii <? Ilim) && at_voltage vprev Vset then mret ReachedCurrentLimit
   else
     (nt <- (fun w => (w, to_size (nceil (tlim / dt)))) ;;
      r <- cv_loop (Z.to_nat nt) 0 nt Vset Ilim tlim dt ndt (nZ 0) ;;
      match r with
      | inl st => mret st
      | inr (ttot, Itot, Vtol) =>
          if ttot >=? tlim then (store_if (0 <? ndt)%Z ;;; mret ReachedTimeLimit)
          else if Itot then (store_if (0 <? ndt)%Z ;;; mret (if Vtol then ReachedCurrentLimit else ReachedSmallCurrent))
          else mthrow 100
      end)).

(** ** CCCV, Cycler.cpp:522-586 *)
(** A call with a throughput object of its own: returns it and leaves the caller's alone. *)
Definition with_th {B : Type} (m : M cyc B) : M cyc (B * th) := fun w =>
  match m (mkCyc (c_su w) (c_idx w) th0) with
  | (w', Ok b) => (mkCyc (c_su w') (c_idx w') (c_th w), Ok (b, c_th w'))
  | (w', e) => (mkCyc (c_su w') (c_idx w') (c_th w), cast e)
  end.
Definition CCCV_with_tlim (fuel : nat) (I0 Vset Ilim0 tlim dt : A) (ndt : Z) : M cyc Status :=
  let I := nabs I0 in let Ilim := nabs Ilim0 in
  (lim <- call (q_lim o) ;;
   if (Vset <? l_Vmin lim) || (Vset >? l_Vmax lim) then mret Invalid_Vset
   else
     (status <- call (q_setCurrent o (nZ 0) false) ;;
      if isStatusFailed status then mret status
      else
        (v <- call (q_V o) ;;
         let I := if v >? Vset then I else - I in
         r1 <- with_th (CC fuel I Vset tlim dt ndt) ;;
         let th1 := snd r1 in
         r2 <- with_th (CV Vset Ilim (tlim - th_time th1) dt ndt) ;;
         let th2 := snd r2 in
         set_th (mkTh (th_time th1 + th_time th2) (th_Ah th1 + th_Ah th2) (th_Wh th1 + th_Wh th2)) ;;;
         mret (fst r2)))).
(** settings/constants.hpp:16; the product of [int]s 20*365*24*3600 = 630720000 *)
Definition TIME_INF : A := nZ 630720000.
Definition CCCV (fuel : nat) (I Vset Ilim dt : A) (ndt : Z) : M cyc Status := CCCV_with_tlim fuel I Vset Ilim TIME_INF dt ndt.

(** ** testCapacity, Cycler.cpp:588-644. Returns the capacity, the charge throughput written to [Ah] ([None]: not written) and
    the time added to [ttot]. *)
Definition testCapacity (fuel : nat) : M cyc (A * option A * A) :=
  (sini <- call (q_getStates o) ;;
   cap <- call (q_Cap o) ;;
   lim <- call (q_lim o) ;;
   r1 <- with_th (CC fuel (- (nZ 1 / nZ 25) * cap) (l_Vmax lim) TIME_INF (nZ 1) 0) ;;
   let th1 := snd r1 in
   if negb (status_eqb (fst r1) ReachedVoltageLimit) then
     (call (q_setStates o sini false) ;;; mret (nZ 0, None, th_time th1))
   else
     (lim2 <- call (q_lim o) ;;
      r2 <- with_th (CC fuel (nZ 1 / nZ 25 * cap) (l_Vmin lim2) TIME_INF (nZ 1) 0) ;;
      let th2 := snd r2 in
      if negb (status_eqb (fst r2) ReachedVoltageLimit) then
        (call (q_setStates o sini false) ;;; mret (nZ 0, None, th_time th1 + th_time th2))
      else mret (th_Ah th2, Some (th_Ah th1 + th_Ah th2), th_time th1 + th_time th2))).
End Over.
End Cycler.
Arguments unit_if A S : clear implicits.
Arguments th A : clear implicits.
Arguments cyc A S : clear implicits.
Arguments mkIf {A S}. Arguments q_I {A S}. Arguments q_Cap {A S}. Arguments q_lim {A S}. Arguments q_V {A S}. Arguments q_checkV {A S}.
Arguments q_Vlow {A S}. Arguments q_getStates {A S}. Arguments q_setStates {A S}. Arguments q_setCurrent {A S}. Arguments q_setVoltage {A S}.
Arguments q_step {A S}. Arguments q_store {A S}. Arguments q_write {A S}.

(** ** An equivalent-circuit cell as the unit connected to a cycler, with its data buffer and its file *)
Section EcmUnit.
Context {A : Type} {NA : Num A}.
Record rcell : Type := mkRc { rc_u : ecmu A; rc_buf : list A; rc_file : list (ftok A) }.
Definition rlift {B : Type} (f : M (ecmu A) B) : M rcell B := fun w =>
  let '(u, r) := f (rc_u w) in (mkRc u (rc_buf w) (rc_file w), r).
(** CellDataStorage.hpp:61-75 (DATASTORE_CELL = storeTimeData); a failing [V()] leaves the current in the buffer. *)
Definition rc_store : M rcell unit := fun w =>
  let c := u_ecm (rc_u w) in
  match ecm_V c with
  | Ok v => (mkRc (rc_u w) (rc_buf w ++ [ecm_I c; v; ecm_SOC c; ecm_T c; e_time (es c); e_Ah (es c); e_Wh (es c)]) (rc_file w), Ok tt)
  | e => (mkRc (rc_u w) (rc_buf w ++ [ecm_I c]) (rc_file w), cast e)
  end.
(** CellDataWriter.hpp:40-76, Cell.hpp:103; the file opens (free_functions.hpp:245-259). *)
Definition rc_write : M rcell unit := fun w =>
  match write_cell (ecm_getStates (u_ecm (rc_u w))) (rc_file w, rc_buf w) with
  | Ok (f, b) => (mkRc (rc_u w) b f, Ok tt)
  | e => (w, cast e)
  end.
(** [su->setVoltage(Vset)]: checkI defaults to true (StorageUnit.hpp:67, Cell_ECM.hpp:202-224) *)
Definition rc_if : unit_if A rcell := {|
  q_I := fun w => (w, Ok (ecm_I (u_ecm (rc_u w)))); q_Cap := fun w => (w, Ok (p_cap (ep (u_ecm (rc_u w)))));
  q_lim := fun w => (w, Ok (p_lim (ep (u_ecm (rc_u w)))));
  q_V := rlift (o_V ecm_ops); q_checkV := rlift (o_checkV ecm_ops); q_Vlow := rlift (o_Vlow ecm_ops);
  q_getStates := fun w => (w, Ok (ecm_getStates (u_ecm (rc_u w))));
  q_setStates := fun s b => rlift (o_setStates ecm_ops s b);
  q_setCurrent := fun i b => rlift (o_setCurrent ecm_ops i b);
  q_setVoltage := fun v => rlift (lift_ecm (ecm_setVoltage v true));
  q_step := fun dt n => rlift (o_timeStep ecm_ops dt n);
  q_store := rc_store; q_write := rc_write |}.
End EcmUnit.
Arguments rcell A : clear implicits.
