(** * C55-C58, C66, C67: the ageing procedures *)
From Coq Require Import Reals Lra Sorting.Sorted.
From Verif Require Import Base RFacts StatusModel CellModel DataModel CoolModel ModuleModel CyclerModel CyclerSpec CyclerProofs P_Cycler.
From Verif Require Import ProcModel ProcSpec ProcProofs ProcProofs2 ProcProofs3.

(** ** C55 *)

(** Visiting any tree of units with any function: there is one list of places, which holds exactly the units of the tree, each once,
    every unit before what is inside it and the children of a module in order; the visit applies the function along that list. *)
Theorem C55_visit {X : Type} (t : sut X) : exists l : list (list nat * X),
  (forall W (f : X -> W -> W) w, visit_SUs f t w = fold_left (fun w px => f (snd px) w) l w) /\
  (forall q x, In (q, x) l <-> at_path t q x) /\
  StronglySorted (fun a b => before (fst a) (fst b)) l /\ NoDup l.
Proof.
  exists (places t). split; [intros; apply visit_places|]. split; [|split; [apply places_sorted|]].
  - intros q x. split; [|apply places_complete]. intros H. assert (F := places_sound t). rewrite Forall_forall in F. exact (F _ H).
  - assert (HS := places_sorted t). induction HS as [|a l HS IH HF]; [constructor|]. constructor; [|exact IH].
    intros Ha. rewrite Forall_forall in HF. exact (before_irrefl _ (HF _ Ha)).
Qed.
Print Assumptions C55_visit.

(** A battery around a module of two cells and a module of one. *)
Example C55_inhabited :
  visit_SUs (fun (x : nat) l => l ++ [x]) (TBat 0%nat (Some (TMod 1%nat [TCell 2%nat; TMod 3%nat [TCell 4%nat]; TCell 5%nat]))) [] = [0; 1; 2; 3; 4; 5]%nat /\
  at_path (TBat 0%nat (Some (TMod 1%nat [TCell 2%nat; TMod 3%nat [TCell 4%nat]; TCell 5%nat]))) [0; 1; 0]%nat 4%nat.
Proof. split; [reflexivity|]. apply in_bat. eapply in_mod; [reflexivity|]. eapply in_mod; [reflexivity|]. constructor. Qed.

(** ** C56 *)

(** Balancing a tree of modules whose cells are all of type Cell_SPM, in any arithmetic: success means every cell was cycled towards
    the balancing voltage and then accepted zero current; any other status is that of a cell that did not accept it, with the cells
    before it done and those after it untouched.  Missing: that the cycling succeeded (its status is not looked at), see below. *)
Theorem C56_all_partial {A S : Type} {NA : Num A} (o : unit_if A S) nmax fuel Vbal t t' st :
  no_battery t -> (forall q x, cell_at t q x -> l_spm x = true) -> rebalance o nmax fuel Vbal t = (t', Ok st) ->
  (st = Success /\ all_cycled o nmax fuel Vbal t t') \/ (st <> Success /\ cycled_until o nmax fuel Vbal t t' st).
Proof. intros NB SP H. exact (rebalance_ok o nmax fuel Vbal t NB SP t' st H). Qed.
Print Assumptions C56_all_partial.

(** Cells of any other type (Cell_ECM, and Cell_KokamNMC although it is a Cell_SPM) are left as they are, and so is any battery
    with everything in it; both are reported as balanced. *)
Theorem C56_kinds_refuted {A S : Type} {NA : Num A} (o : unit_if A S) nmax fuel Vbal s x c :
  rebalance o nmax fuel Vbal (TCell (mkLeaf false s)) = (TCell (mkLeaf false s), Ok Success) /\
  rebalance o nmax fuel Vbal (TBat x c) = (TBat x c, Ok Success).
Proof. split; reflexivity. Qed.
Print Assumptions C56_kinds_refuted.

(** A balancing voltage that no cell can have, 9 V: nothing is charged, and the module is reported as balanced. *)
Theorem C56_status_refuted :
  let t := TMod (mkLeaf false half) [TCell (mkLeaf true half); TCell (mkLeaf true nearly_full)] in
  rebalance (rc_if (A := f64)) 100 20 (nZ 9) t = (t, Ok Success).
Proof. vm_compute. reflexivity. Qed.
Print Assumptions C56_status_refuted.
Example C56_inhabited :
  let t := TMod (mkLeaf false half) [TCell (mkLeaf true half); TCell (mkLeaf true nearly_full)] in
  no_battery t /\ (forall q x, cell_at t q x -> l_spm x = true) /\ rebalance (rc_if (A := f64)) 100 20 (nZ 9) t = (t, Ok Success).
Proof.
  cbv zeta. split; [cbn; auto|]. split; [|exact C56_status_refuted]. generalize half nearly_full. intros a b q x H. inversion H as [|? ? k c q' y Hk Hc|]; subst.
  destruct k as [|[|[|k]]]; cbn in Hk; try discriminate; injection Hk as <-; inversion Hc; subst; reflexivity.
Qed.

(** ** C57 *)

(** Cycle ageing in any arithmetic, on anything that can be cycled: when it returns, what it did is the reading of the capacity
    (which fixes both currents), then full cycles numbered from 0, each with balancing and a check-up exactly when their periods
    divide its number, then the final check-up; there are [Ncycle] cycles, or fewer, and then one more was given up because a
    half-cycle did not end at its limit or because less than 1e-5 Ah went in. *)
Theorem C57_cycles {A W : Type} {NA : Num A} (r : run_if A W) bal Ncycle Ncheck Nbal testCV Ccha Cdis Vmax Vmin w w' :
  cycleAge r bal Ncycle Ncheck Nbal testCV Ccha Cdis Vmax Vmin w = (w', Ok tt) ->
  exists ca cb l tr, runs r w tr w' /\ map fst tr = [KCap ca; KCap cb] ++ l ++ [KFinal Ncycle] /\
    aged bal Ncheck Nbal testCV (nmul (nopp Ccha) ca) (nmul Cdis cb) Vmax Vmin Ncycle l.
Proof. intros H. destruct (cycleAge_ok r bal _ _ _ _ _ _ _ _ _ _ H) as (ca & cb & l & (tr & E & R0) & G). now exists ca, cb, l, tr. Qed.
Print Assumptions C57_cycles.

(** It returns whenever the calls it makes return and the periods are not zero. *)
Theorem C57_returns {A W : Type} {NA : Num A} (r : run_if A W) bal Ncycle Ncheck Nbal testCV Ccha Cdis Vmax Vmin :
  let returns {B : Type} (m : M W B) := forall w, exists w' b, m w = (w', Ok b) in
  returns (r_show r) -> returns (r_cap r) -> returns (r_Ah r) -> (forall i v, returns (r_CC r i v)) -> (forall v i, returns (r_CV r v i)) ->
  returns (r_store r) -> returns (r_balance r) -> (forall i, returns (r_check r i)) -> (forall n, returns (r_final r n)) ->
  Ncheck <> 0%Z -> (bal = true -> Nbal <> 0%Z) ->
  returns (cycleAge r bal Ncycle Ncheck Nbal testCV Ccha Cdis Vmax Vmin).
Proof. intros ret H1 H2 H3 H4 H5 H7 H8 H9 H10 HC HB. now apply ret_cycleAge. Qed.
Print Assumptions C57_returns.

(** A period of zero (no check-ups wanted, say) is undefined behaviour as soon as there is a cycle to do. *)
Theorem C57_zero_refuted {A W : Type} {NA : Num A} (r : run_if A W) bal Ncycle Nbal testCV Ccha Cdis Vmax Vmin w w1 w2 w3 ca cb :
  (0 < Ncycle)%Z -> (bal = true -> Nbal <> 0%Z) -> r_cap r w = (w1, Ok ca) -> r_cap r w1 = (w2, Ok cb) -> r_show r w2 = (w3, Ok tt) ->
  snd (cycleAge r bal Ncycle 0 Nbal testCV Ccha Cdis Vmax Vmin w) = UB.
Proof.
  intros HN HB E1 E2 E3. unfold cycleAge, mbind at 1. rewrite E1. unfold mbind at 1. rewrite E2.
  replace (Z.to_nat Ncycle) with (Datatypes.S (Z.to_nat Ncycle - 1)) by lia. cbn [cycles]. unfold mbind at 1. unfold mbind at 1. unfold one_cycle at 1.
  unfold mbind at 1. rewrite E3. unfold mbind at 1. unfold balanceCheckup at 1. unfold mbind at 1. destruct bal.
  - unfold due at 1. specialize (HB eq_refl). apply Z.eqb_neq in HB. rewrite HB. reflexivity.
  - reflexivity.
Qed.
Print Assumptions C57_zero_refuted.

(** ** An equivalent-circuit cell under cycle ageing *)
(** (Balancing is a no-op for such a cell, there is no cooling system, and the tests on copies are left out.) *)
Definition cell_proc : proc_if f64 (rcell f64) :=
  mkPif rc_if (fun _ s => s) (fun s => (s, Ok Success)) (fun _ => Ok tt) (fun s => (s, Ok (nZ 0))) (fun s => (s, Ok (nZ 0))).
Notation cell_steps := (age_steps cell_proc 100 20 0 true (nZ 2)).
Notation at_395 := (ex_cell (A := f64) (nZ 16) (nlit 8478 10000) (nZ 0)).
Definition start (f : list (threc f64)) : pstate f64 (rcell f64) := mkPs (mkCyc at_395 0 th0) [] f.
(** Two cycles between 3.985 V and 3.918 V, check-ups every cycle. *)
Definition two_cycles := cycleAge cell_steps true 2 1 1 false (nZ 1) (nZ 1) (nlit 3985 1000) (nlit 3918 1000).
Definition short_file (w : pstate f64 (rcell f64) * res unit) : list (threc f64) := ps_file (fst w).
Example C57_inhabited : snd (two_cycles (start [])) = Ok tt /\ length (short_file (two_cycles (start []))) = 4%nat.
Proof. split; vm_compute; reflexivity. Qed.

(** ** C58 *)

(** The records of a cycle-ageing run that returns, over the reals, on any unit, with any time step: all records made are in the
    file, in order, and nothing is pending; the charge and energy in each are the totals of the run at the moment it was made.
    Missing: the records are not those of single steps, and the file's earlier content is gone, see below. *)
Theorem C58_complete_partial {S : Type} (p : proc_if R S) nmax fuel ndata ut dt bal Ncycle Ncheck Nbal testCV Ccha Cdis Vmax Vmin s idx file w' :
  (0 < dt)%R ->
  let r := age_steps p nmax fuel ndata ut dt in
  let w := mkPs (mkCyc s idx th0) [] file in
  cycleAge r bal Ncycle Ncheck Nbal testCV Ccha Cdis Vmax Vmin w = (w', Ok tt) ->
  exists tr, runs r w tr w' /\ ps_rec w' = [] /\ ps_file w' = stored tr /\
    Forall2 (fun x total => tr_Ah x = fst total /\ tr_Wh x = snd total) (stored tr) (totals tr).
Proof.
  intros Hdt r w H. destruct (cycleAge_ok r bal _ _ _ _ _ _ _ _ _ _ H) as (ca & cb & l & (tr & E & R0) & G).
  exists tr. split; [exact R0|].
  assert (T := records_total p nmax fuel ndata ut dt Hdt w tr w' R0).
  enough (ps_rec w' = [] /\ ps_file w' = stored tr) by tauto.
  apply map_split in E. destruct E as (tr1 & tr2 & -> & E1 & E2). apply runs_split in R0. destruct R0 as (w1 & R1 & R2).
  assert (A1 : ah w1 = 0%R /\ ps_rec w1 = []).
  { destruct tr1 as [|[e1 v1] [|[e2 v2] [|? ?]]]; try discriminate. injection E1 as -> ->.
    inversion R1 as [|? ? ? ? ? D1 R1']; subst. inversion R1' as [|? ? ? ? ? D2 R1'']; subst. inversion R1''; subst.
    apply (event_does p nmax fuel ndata ut dt Hdt) in D1, D2. destruct D1 as (P1 & P2 & _), D2 as (Q1 & Q2 & _).
    split; [rewrite Q1, P1; apply R_nZ|]. now rewrite Q2, P2. }
  destruct A1 as [A1 C1].
  rewrite stored_app. replace (stored tr1) with ([] : list (threc R)).
  2: { symmetry. apply stored_none. rewrite E1. repeat constructor; discriminate. }
  exact (aged_books p nmax fuel ndata ut dt Hdt _ _ _ _ _ _ _ _ _ _ _ _ _ _ R2 E2 G A1 C1).
Qed.
Print Assumptions C58_complete_partial.

(** Two cycles make four records: the sum of their charges is more than twice the charge that flowed. *)
Theorem C58_sum_refuted :
  let x := two_cycles (start []) in
  let sum := fold_left (fun a t => nadd a (tr_Ah t)) (short_file x) (nZ 0) in
  snd x = Ok tt /\ nltb (nmul (nZ 2) (th_Ah (c_th (ps_cyc (fst x))))) sum = true.
Proof. cbv zeta. split; vm_compute; reflexivity. Qed.
Print Assumptions C58_sum_refuted.

(** The records of an earlier run in the same file (here one, with 7 Ah) are lost: the file is that of a run with a fresh file. *)
Theorem C58_second_run_refuted :
  short_file (two_cycles (start [mkRec (nZ 7) (nZ 0) (nZ 0) (nZ 0)])) = short_file (two_cycles (start [])) /\
  snd (two_cycles (start [mkRec (nZ 7) (nZ 0) (nZ 0) (nZ 0)])) = Ok tt.
Proof. split; vm_compute; reflexivity. Qed.
Print Assumptions C58_second_run_refuted.

(** ** C66 *)

(** The daily use case in any arithmetic: when it returns, what it did is one discharge at C/2, then days numbered from 0, each
    with balancing and a check-up when 7 and 10 divide its number, then the final check-up; a full day follows the plan [day] to
    its end; there are 20 days or fewer, and then one more was broken off where a rest did not end at its time, the evening
    discharge did not end at its voltage, or a call threw.  (The three other charges and discharges may end in any way.) *)
Theorem C66_days {A W : Type} {NA : Num A} (r : run_if A W) bal Vmax Vmin w w' :
  useCaseAge r bal Vmax Vmin w = (w', Ok tt) ->
  exists c st l tr, runs r w tr w' /\ map fst tr = [KCap c; KCC (ndiv c (nZ 2)) Vmin st] ++ l ++ [KFinal 20] /\ used Vmax Vmin bal 20 l.
Proof. intros H. destruct (useCaseAge_ok r bal _ _ _ _ H) as (c & st & l & (tr & E & R0) & G). now exists c, st, l, tr. Qed.
Print Assumptions C66_days.

(** 18 hours of rest a day. *)
Theorem C66_rest {A : Type} {NA : Num A} (Vmax Vmin : A) l : follows (day Vmax Vmin) l true ->
  flat_map (fun e => match e with KRest t st => [(t, st)] | _ => [] end) l =
  map (fun h => (nZ (h * 3600), ReachedTimeLimit)) [4; 1; 4; 4; 5]%Z.
Proof.
  intros H. repeat match goal with H : follows _ _ true |- _ => inversion H; clear H; subst end. reflexivity.
Qed.
Print Assumptions C66_rest.

(** Something whose calls all succeed: the state counts the calls.  20 days of 23 calls with 2 check-ups and 3 balancings. *)
Definition good_run : run_if f64 nat := let one {B : Type} (b : B) : M nat B := fun w => (Datatypes.S w, Ok b) in
  mkRun (one tt) (one (nZ 1)) (one (nZ 0)) (fun _ _ => one ReachedVoltageLimit) (fun _ _ => one ReachedCurrentLimit) (fun _ => one ReachedTimeLimit)
        (one tt) (one tt) (fun _ => one tt) (fun _ => one tt).
Example C66_inhabited : useCaseAge good_run true (nZ 4) (nZ 3) 0%nat = ((2 + 20 * 23 + 2 + 3 + 1)%nat, Ok tt).
Proof. vm_compute. reflexivity. Qed.

(** ** C67 *)

(** A check-up that returns, over the reals, on any unit: the throughput totals of the experiment are as before, and the pending records are
    in the file.  Missing: that the unit is as before, see below. *)
Theorem C67_books_partial {S : Type} (p : proc_if R S) nmax fuel ndata ut dt i w w' : (0 < dt)%R ->
  r_check (age_steps p nmax fuel ndata ut dt) i w = (w', Ok tt) ->
  th_Ah (c_th (ps_cyc w')) = th_Ah (c_th (ps_cyc w)) /\ ps_rec w' = [] /\
  exists old, ps_file w' = old ++ ps_rec w /\ (th_Ah (c_th (ps_cyc w)) <> 0%R -> old = ps_file w).
Proof.
  intros Hdt H. destruct (event_does p nmax fuel ndata ut dt Hdt (KChk i) w w' H) as (P1 & P2 & P3). split; [exact P1|]. split; [exact P2|].
  eexists. split; [exact P3|]. intros N. assert (N' : ah w <> 0%R) by exact N. rewrite R_nZ, (proj2 (Reqb_false _ _) N'). reflexivity.
Qed.
Print Assumptions C67_books_partial.

(** The recorded data are written at every check-up after the first charge has been moved, and only then. *)
Theorem C67_data_written {S : Type} (p : proc_if R S) nmax fuel ndata ut dt i w n : 
  let ah := th_Ah (c_th (ps_cyc w)) in
  (forall s, q_write (pq p) s = (s, Throw n)) ->
  ((0 < ah)%R -> snd (r_check (age_steps p nmax fuel ndata ut dt) i w) = Throw n) /\
  ((ah <= 0)%R -> r_check (age_steps p nmax fuel ndata ut dt) i w =
     checkUp p nmax fuel (fst (writeThroughput (S := S) ah w))).
Proof.
  intros ah H. cbn [age_steps r_check]. unfold mbind. fold ah. split; intros Ha.
  - replace (nltb (nZ 0) ah) with true by (symmetry; apply Rltb_true; rewrite R_nZ; exact Ha). unfold inC, call. rewrite H. reflexivity.
  - replace (nltb (nZ 0) ah) with false by (symmetry; apply Rltb_false; rewrite R_nZ; exact Ha). reflexivity.
Qed.
Print Assumptions C67_data_written.

(** A check-up of a resting cell at 3.95 V (above the voltage it would be charged to): afterwards the cell is being charged at C/25.
    One at 3.8249 V has been charged. *)
Theorem C67_state_refuted :
  let x := r_check cell_steps 0 (start []) in
  let y := r_check cell_steps 0 (mkPs (mkCyc (ex_cell (nZ 16) (nlit 7929 10000) (nZ 0)) 0 th0) [] []) in
  snd x = Ok tt /\ ecm_I (u_ecm (rc_u (c_su (ps_cyc (fst x))))) = ndiv (nZ (-16)) (nZ 25) /\
  snd y = Ok tt /\ nltb (nlit 7929 10000) (ecm_SOC (u_ecm (rc_u (c_su (ps_cyc (fst y)))))) = true.
Proof. cbv zeta. split; [|split; [|split]]; vm_compute; reflexivity. Qed.
Print Assumptions C67_state_refuted.
