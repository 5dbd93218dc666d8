(** * Model of the ageing procedures: src/procedures/Procedure.{hpp,cpp}, src/procedures/procedure_util.hpp *)
From Verif Require Import Base StatusModel CellModel DataModel CoolModel ModuleModel CyclerModel.
Local Open Scope num_scope.
Local Open Scope prog_scope.

(** ** Trees of storage units, as the procedures see them with [dynamic_cast] *)
Section Trees.
Context {X : Type}.
(** A cell, a module with its children, a battery with its module ([None]: [getCells()] is null, Battery.hpp:24). *)
Inductive sut : Type := TCell (x : X) | TMod (x : X) (l : list sut) | TBat (x : X) (c : option sut).

(** procedure_util.hpp:13-28, [visit_SUs]; [f] is applied to the unit and updates a state. *)
Fixpoint visit_SUs {W : Type} (f : X -> W -> W) (t : sut) (w : W) : W :=
  match t with
  | TCell x => f x w
  | TBat x None => f x w
  | TBat x (Some c) => visit_SUs f c (f x w)
  | TMod x l => (fix go (l : list sut) (w : W) : W := match l with [] => w | c :: l' => go l' (visit_SUs f c w) end) l (f x w)
  end.
End Trees.
Arguments sut X : clear implicits.

Section Rebalance.
Context {A : Type} {NA : Num A} {S : Type}.
(** The cells: [l_spm] tells whether the object's type is exactly [Cell_SPM] (Cell_ECM and Cell_KokamNMC are not). *)
Record leaf : Type := mkLeaf { l_spm : bool; l_unit : S }.
Context (o : unit_if A S) (nmax fuel : nat) (Vbal : A).
(** Procedure.cpp:389-399: what happens to one cell. The status of CCCV is not looked at; a new cycler, so index 0 and the
    diagnostic flag off (Cycler.hpp:24-25). *)
Definition balance_cell : M S Status := fun s =>
  match q_Cap o s with
  | (s1, Ok cap) =>
      match CCCV o nmax false fuel (cap * (nZ 1 / nZ 2)) Vbal (cap * (nZ 1 / nZ 1000)) (nZ 1) 0 (mkCyc s1 0 th0) with
      | (w, Ok _) =>
          match q_setCurrent o (nZ 0) true (c_su w) with
          | (s2, Ok st) => (s2, Ok (if isStatusBad st then st else Success))
          | (s2, e) => (s2, e)
          end
      | (w, e) => (c_su w, e)
      end
  | (s1, e) => (s1, cast e)
  end.
(** Procedure.cpp:369-408 *)
Fixpoint rebalance (t : sut leaf) : sut leaf * res Status :=
  match t with
  | TCell x =>
      if l_spm x then let '(s', r) := balance_cell (l_unit x) in (TCell (mkLeaf (l_spm x) s'), r)
      else (t, Ok Success)
  | TMod x l =>
      let '(l', r) :=
        (fix go (l : list (sut leaf)) : list (sut leaf) * res Status :=
           match l with
           | [] => ([], Ok Success)
           | c :: rest =>
               match rebalance c with
               | (c', Ok st) => if isStatusSuccessful st then let '(rest', r) := go rest in (c' :: rest', r) else (c' :: rest, Ok st)
               | (c', e) => (c' :: rest, e)
               end
           end) l in
      (TMod x l', r)
  | TBat _ _ => (t, Ok Success)
  end.
End Rebalance.
Arguments leaf S : clear implicits.

(** ** Cycle ageing *)
Section Age.
Context {A : Type} {NA : Num A} {W : Type}.
(** The steps an ageing procedure is made of. *)
Record run_if : Type := mkRun {
  r_show : M W unit;                       (* the progress message, which reads V() *)
  r_cap : M W A;                           (* su->Cap() *)
  r_Ah : M W A;                            (* th.Ah() *)
  r_CC : A -> A -> M W Status;             (* cyc.CC(I, V, TIME_INF, dt, ndata, th) *)
  r_CV : A -> A -> M W Status;             (* cyc.CV(V, Ilim, TIME_INF, dt, ndata, th) *)
  r_rest : A -> M W Status;                (* cyc.rest(t, dt, ndata, th) *)
  r_store : M W unit;                      (* storeThroughput(th, su) *)
  r_balance : M W unit;                    (* the balancing part of balanceCheckup *)
  r_check : Z -> M W unit;                 (* the check-up part of balanceCheckup, at cycle i *)
  r_final : Z -> M W unit }.               (* the final check-up *)
Context (r : run_if) (bal : bool).

(** [i % n == 0]: undefined for n = 0 *)
Definition due (i n : Z) : M W bool := fun w => (w, if (n =? 0)%Z then UB else Ok (Z.rem i n =? 0)%Z).
(** Procedure.cpp:300-367, called at 74 and 203 *)
Definition balanceCheckup (i Nbal Ncheck : Z) : M W unit :=
  (b <- (if bal then due i Nbal else mret false) ;;
   c <- due i Ncheck ;;
   (if (b : bool) then r_balance r else mret tt) ;;;
   (if (c : bool) then r_check r i else mret tt)).

(** Procedure.cpp:42-132. [false]: leave the loop. *)
Definition one_cycle (i Ncheck Nbal : Z) (testCV : bool) (Icha Idis Vmax Vmin : A) : M W bool :=
  (r_show r ;;;
   balanceCheckup i Nbal Ncheck ;;;
   before <- r_Ah r ;;
   s1 <- r_CC r Icha Vmax ;;
   if negb (isVoltageLimitReached s1) then mret false
   else
     (r_store r ;;;
      after <- r_Ah r ;;
      if (after - before <? nlit 1 100000) then mret false
      else
        (go1 <- (if testCV then
                   (s2 <- r_CV r Vmax (nlit 1 10) ;;
                    if negb (isCurrentLimitReached s2) then mret false else (r_store r ;;; mret true))
                 else mret true) ;;
         if negb go1 then mret false
         else
           (s3 <- r_CC r Idis Vmin ;;
            r_store r ;;;
            if negb (isVoltageLimitReached s3) then mret false
            else if testCV then
              (s4 <- r_CV r Vmin (nlit 1 10) ;;
               if negb (isCurrentLimitReached s4) then mret false else (r_store r ;;; mret true))
            else mret true)))).
Fixpoint cycles (todo : nat) (i Ncheck Nbal : Z) (testCV : bool) (Icha Idis Vmax Vmin : A) : M W unit :=
  match todo with
  | O => mret tt
  | Datatypes.S td =>
      (go <- one_cycle i Ncheck Nbal testCV Icha Idis Vmax Vmin ;;
       if (go : bool) then cycles td (i + 1) Ncheck Nbal testCV Icha Idis Vmax Vmin else mret tt)
  end.
Definition cycleAge (Ncycle Ncheck Nbal : Z) (testCV : bool) (Ccha Cdis Vmax Vmin : A) : M W unit :=
  (c1 <- r_cap r ;;
   c2 <- r_cap r ;;
   cycles (Z.to_nat Ncycle) 0 Ncheck Nbal testCV (- Ccha * c1) (Cdis * c2) Vmax Vmin ;;;
   r_final r Ncycle).

(** Procedure.cpp:151-270: the daily use case; 20 days, check-ups every 10, balancing every 7. [Vmax] and [Vmin] are those of the
    unit, the capacity is read before every use. *)
Definition rested (t : Z) (k : M W bool) : M W bool :=
  (st <- r_rest r (nZ t) ;;
   r_store r ;;;
   if negb (status_eqb st ReachedTimeLimit) then mret false else k).
Definition one_day (Vmax Vmin : A) : M W bool :=
  rested (4 * 3600)
   (c <- r_cap r ;; r_CC r (- c) Vmax ;;; r_store r ;;;
    rested (1 * 3600)
     (c <- r_cap r ;; r_CC r c Vmin ;;; r_store r ;;;
      rested (4 * 3600)
       (c <- r_cap r ;; r_CC r (- c / nZ 2) Vmax ;;; r_store r ;;;
        rested (4 * 3600)
         (c <- r_cap r ;; st <- r_CC r (c / nZ 2) Vmin ;; r_store r ;;;
          if negb (status_eqb st ReachedVoltageLimit) then mret false
          else rested (5 * 3600) (mret true))))).
(** [catch (...)]: a thrown exception ends the loop like [break]. *)
Definition caught (m : M W bool) : M W bool := fun w =>
  match m w with (w', Throw _) => (w', Ok false) | x => x end.
Fixpoint days (todo : nat) (i : Z) (Vmax Vmin : A) : M W unit :=
  match todo with
  | O => mret tt
  | Datatypes.S td =>
      (r_show r ;;;
       balanceCheckup i 7 10 ;;;
       go <- caught (one_day Vmax Vmin) ;;
       if (go : bool) then days td (i + 1) Vmax Vmin else mret tt)
  end.
Definition useCaseAge (Vmax Vmin : A) : M W unit :=
  (c <- r_cap r ;;
   r_CC r (c / nZ 2) Vmin ;;;
   days 20 0 Vmax Vmin ;;;
   r_final r 20).
End Age.
Arguments run_if A W : clear implicits.

(** ** The steps, on a storage unit *)
Section Steps.
Context {A : Type} {NA : Num A} {S : Type}.
(** What the procedures call besides the cycler. *)
Record proc_if : Type := mkPif {
  pq : unit_if A S;
  pq_block : bool -> S -> S;      (* StorageUnit::setBlockDegAndTherm, which is not virtual (StorageUnit.hpp:64) *)
  pq_rebalance : M S Status;      (* Procedure::rebalance *)
  pq_tests : S -> res unit;       (* checkUp after its preparation: capacity tests on copies of the cells, then deleted from the model *)
  pq_load : M S A;                (* getCoolingLoad() of a module or battery; 0 for a cell *)
  pq_conv : M S A }.              (* getAndResetConvLosses() of a battery; 0 otherwise *)
(** types/data_storage/cell_data.hpp:17-24 *)
Record threc : Type := mkRec { tr_Ah : A; tr_Wh : A; tr_cool : A; tr_conv : A }.
(** The unit, the cycler's index and the running throughput; the procedure's records; the records in the file. *)
Record pstate : Type := mkPs { ps_cyc : cyc A S; ps_rec : list threc; ps_file : list threc }.
Context (p : proc_if) (nmax fuel : nat) (ndata : Z) (unitTest : bool) (dt : A).
Definition inC {B : Type} (m : M (cyc A S) B) : M pstate B := fun w =>
  let '(c, x) := m (ps_cyc w) in (mkPs c (ps_rec w) (ps_file w), x).
(** Procedure.cpp:272-298 *)
Definition storeThroughput : M pstate unit :=
  (cool <- inC (call (pq_load p)) ;;
   conv <- inC (call (pq_conv p)) ;;
   (fun w => let t := c_th (ps_cyc w) in
     (mkPs (ps_cyc w) (ps_rec w ++ [mkRec (th_Ah t) (th_Wh t) (cool / nZ 3600) (conv / nZ 3600)]) (ps_file w), Ok tt))).
(** Procedure.cpp:600-636 *)
Definition writeThroughput (Ahtot : A) : M pstate unit := fun w =>
  (mkPs (ps_cyc w) [] ((if neqb Ahtot (nZ 0) then [] else ps_file w) ++ ps_rec w), Ok tt).
(** Procedure.cpp:502-521: a cycler of its own, in diagnostic mode, and a throughput of its own *)
Definition checkUp_prep : M (cyc A S) unit := fun w =>
  let '(w', x) :=
    (lim <- call (q_lim (pq p)) ;;
     cap <- call (q_Cap (pq p)) ;;
     CC (pq p) nmax true fuel (- cap / nZ 25) (nlit 75 100 * l_Vmax lim + nlit 25 100 * l_Vmin lim) TIME_INF (nZ 2) 0)
      (mkCyc (c_su w) 0 th0) in
  (mkCyc (c_su w') (c_idx w) (c_th w), rmap (fun _ => tt) x).
(** Procedure.cpp:410-500 *)
Definition checkUp : M pstate unit :=
  (inC checkUp_prep ;;; (fun w => (w, pq_tests p (c_su (ps_cyc w))))).
(** Procedure.cpp:600 onwards and 126-131, 262-269. [su->writeData] does not go through the cycler. checkMod only writes files (ReportModel). *)
Definition age_steps : run_if A pstate := {|
  r_show := if unitTest then mret tt else (inC (call (q_V (pq p))) ;;; mret tt);
  r_cap := inC (call (q_Cap (pq p)));
  r_Ah := fun w => (w, Ok (th_Ah (c_th (ps_cyc w))));
  r_CC := fun I V => inC (CC (pq p) nmax true fuel I V TIME_INF dt ndata);
  r_CV := fun V Ilim => inC (CV (pq p) nmax V Ilim TIME_INF dt ndata);
  r_rest := fun t => inC (rest (pq p) nmax fuel t dt ndata);
  r_store := storeThroughput;
  r_balance := fun w =>
    match inC (fun c => (mkCyc (pq_block p true (c_su c)) (c_idx c) (c_th c), Ok tt)) w with
    | (w1, _) => match inC (call (pq_rebalance p)) w1 with
                 | (w2, Ok _) => inC (fun c => (mkCyc (pq_block p false (c_su c)) (c_idx c) (c_th c), Ok tt)) w2
                 | (w2, e) => (w2, cast e)
                 end
    end;
  r_check := fun i =>
    (ah <- (fun w => (w, Ok (th_Ah (c_th (ps_cyc w))))) ;;
     (if ah >? nZ 0 then inC (call (q_write (pq p))) else mret tt) ;;;
     writeThroughput ah ;;;
     checkUp);
  r_final := fun n =>
    (ah <- (fun w => (w, Ok (th_Ah (c_th (ps_cyc w))))) ;;
     writeThroughput ah ;;;
     checkUp ;;;
     inC (call (q_write (pq p)))) |}.
End Steps.
Arguments proc_if A S : clear implicits.
Arguments threc A : clear implicits.
Arguments pstate A S : clear implicits.
