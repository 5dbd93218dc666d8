(** * Specification vocabulary for the ageing procedures *)
From Verif Require Import Base StatusModel CellModel DataModel CoolModel ModuleModel CyclerModel ProcModel.

(** ** Where the units of a tree are: a path is a list of child numbers, a battery's module is its child 0. *)
Section Paths.
Context {X : Type}.
Inductive at_path : sut X -> list nat -> X -> Prop :=
| at_cell x : at_path (TCell x) [] x
| at_mod x l : at_path (TMod x l) [] x
| at_bat x c : at_path (TBat x c) [] x
| in_mod x l k c q y : nth_error l k = Some c -> at_path c q y -> at_path (TMod x l) (k :: q) y
| in_bat x c q y : at_path c q y -> at_path (TBat x (Some c)) (0%nat :: q) y.
(** The same for cells only. *)
Inductive cell_at : sut X -> list nat -> X -> Prop :=
| cell_here x : cell_at (TCell x) [] x
| cell_mod x l k c q y : nth_error l k = Some c -> cell_at c q y -> cell_at (TMod x l) (k :: q) y
| cell_bat x c q y : cell_at c q y -> cell_at (TBat x (Some c)) (0%nat :: q) y.
(** Reading order: a unit comes before what is inside it, and child k with all inside it before child k+1. *)
Inductive before : list nat -> list nat -> Prop :=
| bf_in k q : before [] (k :: q)
| bf_lt k k' q q' : (k < k')%nat -> before (k :: q) (k' :: q')
| bf_eq k q q' : before q q' -> before (k :: q) (k :: q').
(** A tree of modules and cells. *)
Fixpoint no_battery (t : sut X) : Prop :=
  match t with
  | TCell _ => True
  | TMod _ l => (fix go l := match l with [] => True | c :: l' => no_battery c /\ go l' end) l
  | TBat _ _ => False
  end.
End Paths.

(** ** What an ageing procedure did, call by call *)
Section Runs.
Context {A : Type} {NA : Num A} {W : Type}.
Inductive pev : Type :=
| KShow                              (* the progress message *)
| KCap (c : A)                       (* the capacity was read *)
| KAh (a : A)                        (* the running charge throughput was read *)
| KCC (I V : A) (st : Status)        (* CC with current I up to voltage V ended with st *)
| KCV (V Il : A) (st : Status)       (* CV at V down to current Il ended with st *)
| KRest (t : A) (st : Status)        (* rest for t seconds ended with st *)
| KStore                             (* a throughput record was made *)
| KBal                               (* the cells were balanced *)
| KChk (i : Z)                       (* the check-up of cycle i *)
| KFinal (n : Z)                     (* the final check-up *)
| KThrew.                            (* one of the calls of the daily use case threw an exception *)
(** The call was made in state [w], returned what the event says and left state [w']. *)
Definition does (r : run_if A W) (e : pev) (w w' : W) : Prop :=
  match e with
  | KShow => r_show r w = (w', Ok tt)
  | KCap c => r_cap r w = (w', Ok c)
  | KAh a => r_Ah r w = (w', Ok a)
  | KCC i V st => r_CC r i V w = (w', Ok st)
  | KCV V Il st => r_CV r V Il w = (w', Ok st)
  | KRest t st => r_rest r t w = (w', Ok st)
  | KStore => r_store r w = (w', Ok tt)
  | KBal => r_balance r w = (w', Ok tt)
  | KChk i => r_check r i w = (w', Ok tt)
  | KFinal n => r_final r n w = (w', Ok tt)
  | KThrew => exists c, r_cap r w = (w', Throw c) \/ (exists I V, r_CC r I V w = (w', Throw c)) \/
                        (exists t, r_rest r t w = (w', Throw c)) \/ r_store r w = (w', Throw c)
  end.
(** The events with the state after each. *)
Inductive runs (r : run_if A W) : W -> list (pev * W) -> W -> Prop :=
| runs_nil w : runs r w [] w
| runs_cons w e w1 l w2 : does r e w w1 -> runs r w1 l w2 -> runs r w ((e, w1) :: l) w2.

Definition sure (b : bool) (l : list pev) : list pev := if b then l else [].
End Runs.
Arguments pev A : clear implicits.

(** ** The ageing cycles asked for *)
Section Cycles.
Context {A : Type} {NA : Num A}.
Context (bal : bool) (Ncheck Nbal : Z) (testCV : bool) (Icha Idis Vmax Vmin : A).
(** The calls of cycle [i]: balancing and check-up when due, charge, discharge, each followed by a hold when [testCV]. *)
Definition lead (i : Z) : list (pev A) :=
  [KShow] ++ sure (bal && (i mod Nbal =? 0)%Z) [KBal] ++ sure (i mod Ncheck =? 0)%Z [KChk i].
Definition charge (a : A) (s : Status) : list (pev A) := [KAh a; KCC Icha Vmax s].
Definition hold (V : A) (s : Status) : list (pev A) := [KCV V (nlit 1 10) s].
Definition discharge (s : Status) : list (pev A) := [KCC Idis Vmin s; KStore].
Definition little (a b : A) : Prop := nltb (nsub b a) (nlit 1 100000) = true.
(** A full cycle: every half-cycle ended at its limit and some charge went in. *)
Definition full_cycle (i : Z) (l : list (pev A)) : Prop := exists a b, ~ little a b /\
  l = lead i ++ charge a ReachedVoltageLimit ++ [KStore; KAh b] ++
      sure testCV (hold Vmax ReachedCurrentLimit ++ [KStore]) ++ discharge ReachedVoltageLimit ++
      sure testCV (hold Vmin ReachedCurrentLimit ++ [KStore]).
(** A cycle given up: the last half-cycle did not end at its limit, or no charge went in. *)
Inductive given_up (i : Z) : list (pev A) -> Prop :=
| up_charge a s : s <> ReachedVoltageLimit -> given_up i (lead i ++ charge a s)
| up_little a b : little a b -> given_up i (lead i ++ charge a ReachedVoltageLimit ++ [KStore; KAh b])
| up_hold a b s : testCV = true -> ~ little a b -> s <> ReachedCurrentLimit ->
    given_up i (lead i ++ charge a ReachedVoltageLimit ++ [KStore; KAh b] ++ hold Vmax s)
| up_discharge a b s : ~ little a b -> s <> ReachedVoltageLimit ->
    given_up i (lead i ++ charge a ReachedVoltageLimit ++ [KStore; KAh b] ++
                sure testCV (hold Vmax ReachedCurrentLimit ++ [KStore]) ++ discharge s)
| up_low a b s : testCV = true -> ~ little a b -> s <> ReachedCurrentLimit ->
    given_up i (lead i ++ charge a ReachedVoltageLimit ++ [KStore; KAh b] ++
                (hold Vmax ReachedCurrentLimit ++ [KStore]) ++ discharge ReachedVoltageLimit ++ hold Vmin s).
(** [N] cycles from number 0, or fewer when one is given up. *)
Definition aged (N : Z) (l : list (pev A)) : Prop := exists ls last,
  l = concat ls ++ last /\
  (forall k c, nth_error ls k = Some c -> full_cycle (Z.of_nat k) c) /\
  ((length ls = Z.to_nat N /\ last = []) \/ ((length ls < Z.to_nat N)%nat /\ given_up (Z.of_nat (length ls)) last)).
End Cycles.

(** ** The daily use case *)
Section Days.
Context {A : Type} {NA : Num A}.
Context (Vmax Vmin : A).
Inductive act : Type :=
| ARest (h : Z)                          (* rest for h hours *)
| ACC (rate : A -> A) (V : A) (must : bool).  (* CC at rate(capacity) to V; [must]: it has to end at the voltage *)
(** 4 h rest, 1C charge, 1 h rest, 1C discharge, 4 h rest, C/2 charge, 4 h rest, C/2 discharge, 5 h rest. *)
Definition day : list act :=
  [ARest 4; ACC (fun c => nopp c) Vmax false; ARest 1; ACC (fun c => c) Vmin false; ARest 4;
   ACC (fun c => ndiv (nopp c) (nZ 2)) Vmax false; ARest 4; ACC (fun c => ndiv c (nZ 2)) Vmin true; ARest 5].
(** The calls follow the plan; [true]: to its end. *)
Inductive follows : list act -> list (pev A) -> bool -> Prop :=
| fo_done : follows [] [] true
| fo_rest h p l b : follows p l b -> follows (ARest h :: p) (KRest (nZ (h * 3600)) ReachedTimeLimit :: KStore :: l) b
| fo_rest_bad h p st : st <> ReachedTimeLimit -> follows (ARest h :: p) [KRest (nZ (h * 3600)) st; KStore] false
| fo_cc g V must c st p l b : (must = true -> st = ReachedVoltageLimit) -> follows p l b ->
    follows (ACC g V must :: p) (KCap c :: KCC (g c) V st :: KStore :: l) b
| fo_cc_bad g V c st p : st <> ReachedVoltageLimit -> follows (ACC g V true :: p) [KCap c; KCC (g c) V st; KStore] false
| fo_threw a p l : (l = [] \/ (exists h, a = ARest h /\ exists st, l = [KRest (nZ (h * 3600)) st]) \/
                    (exists g V must c, a = ACC g V must /\ (l = [KCap c] \/ exists st, l = [KCap c; KCC (g c) V st]))) ->
    follows (a :: p) (l ++ [KThrew]) false.
Context (bal : bool).
Definition used (N : nat) (l : list (pev A)) : Prop := exists ls last,
  l = concat ls ++ last /\
  (forall k d, nth_error ls k = Some d -> exists x, d = lead bal 10 7 (Z.of_nat k) ++ x /\ follows day x true) /\
  ((length ls = N /\ last = []) \/
   ((length ls < N)%nat /\ exists x, last = lead bal 10 7 (Z.of_nat (length ls)) ++ x /\ follows day x false)).
End Days.

(** ** The throughput records *)
Section Records.
Context {A S : Type}.
(** The record each [storeThroughput] appended, in order, and the running totals at those moments. *)
Definition stored (tr : list (pev A * pstate A S)) : list (threc A) :=
  flat_map (fun ew => match fst ew with KStore => skipn (length (ps_rec (snd ew)) - 1) (ps_rec (snd ew)) | _ => [] end) tr.
Definition totals (tr : list (pev A * pstate A S)) : list (A * A) :=
  flat_map (fun ew => match fst ew with
                      | KStore => [(th_Ah (c_th (ps_cyc (snd ew))), th_Wh (c_th (ps_cyc (snd ew))))]
                      | _ => [] end) tr.
End Records.

(** ** Balancing *)
Section Balancing.
Context {A : Type} {NA : Num A} {S : Type} (o : unit_if A S) (nmax fuel : nat) (Vbal : A).
(** The cell [s] was cycled (constant current at half its capacity, then constant voltage) with a cycler of its own, and then the
    current was set to zero, which returned [st]. What the cycling itself returned is not asked. *)
Definition cycled (s s' : S) (st : Status) : Prop := exists s1 cap w any,
  q_Cap o s = (s1, Ok cap) /\
  CCCV o nmax false fuel (nmul cap (ndiv (nZ 1) (nZ 2))) Vbal (nmul cap (ndiv (nZ 1) (nZ 1000))) (nZ 1) 0 (mkCyc s1 0 th0) = (w, Ok any) /\
  q_setCurrent o (nZ 0) true (c_su w) = (s', Ok st).
(** Every cell went through it and accepted zero current. *)
Definition all_cycled (t t' : sut (leaf S)) : Prop := forall q x, cell_at t q x ->
  exists x' st, cell_at t' q x' /\ l_spm x' = l_spm x /\ cycled (l_unit x) (l_unit x') st /\ isStatusBad st = false.
(** A cell did not accept zero current; the cells before it went through it, those after it are as they were. *)
Definition cycled_until (t t' : sut (leaf S)) (bad : Status) : Prop := exists q0 x0 x0',
  cell_at t q0 x0 /\ cell_at t' q0 x0' /\ cycled (l_unit x0) (l_unit x0') bad /\ isStatusBad bad = true /\
  forall q x, cell_at t q x ->
    (before q q0 -> exists x' st, cell_at t' q x' /\ l_spm x' = l_spm x /\ cycled (l_unit x) (l_unit x') st /\ isStatusBad st = false) /\
    (before q0 q -> cell_at t' q x).
End Balancing.
