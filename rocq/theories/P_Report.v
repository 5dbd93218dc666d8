(** * C85: the reports of a check-up *)
From Coq Require Import String List Lia SpecFloat.
Import ListNotations.
From Verif Require Import Base StatusModel UtilModel CellModel CoolModel ModuleModel CyclerModel CyclerProofs4 ProcModel SpmModel SpmUnitModel FleetModel SpmWitness
  ReportModel ReportSpec ReportProofs.

(** A check-up that ends has appended the line of headings and, for every cell of the unit, from the first to the last, one line and one
    empty line.  The line has the cell's name and variations, the throughput and cycle number handed in, the clock and throughputs the cell had
    at the check-up, the capacity its test answered. *)
Theorem C85_report : forall (A : Type) (NA : Num A) (C : Type) (o : rep_if A C) nmax fuel nch Ah nr t w x,
  typed t -> check_report o nmax fuel nch Ah nr t = (w, Ok x) ->
  exists first rest outs, cells_of t = first :: rest /\ all_tested o nmax fuel (cells_of t) outs /\
    lines w = headings :: flat_map (two_lines o Ah nr (if rq_spm o (snd first) then (2 * nch)%nat else 0%nat)) (combine (cells_of t) outs) ++ [blank].
Proof. exact @report_ok. Qed.
Print Assumptions C85_report.

(** If a capacity test raises an exception, the check-up passes it on; the cells before it have their lines, its own line stops before the
    clock, the cells behind it have none. *)
Theorem C85_exception : forall (A : Type) (NA : Num A) (C : Type) (o : rep_if A C) nmax fuel nch Ah nr t w e,
  typed t -> check_report o nmax fuel nch Ah nr t = (w, e) -> e <> Ok tt -> cells_of t <> [] ->
  exists l1 n c l2 outs start, cells_of t = l1 ++ (n, c) :: l2 /\ all_tested o nmax fuel l1 outs /\
    (exists v x, testCapacity (rq o) nmax false fuel (mkCyc c 0 th0) = (v, x) /\ e = cast x /\ forall y, x <> Ok y) /\
    lines w = headings :: flat_map (two_lines o Ah nr start) (combine l1 outs) ++ [broken_line o Ah nr n c].
Proof. exact @report_bad. Qed.
Print Assumptions C85_exception.

(** Finding: a unit without cells is undefined behaviour. *)
Theorem C85_empty_refuted : forall (A : Type) (NA : Num A) (C : Type) (o : rep_if A C) nmax fuel nch Ah nr t,
  typed t -> cells_of t = [] -> snd (check_report o nmax fuel nch Ah nr t) = UB.
Proof. intros A NA C o nmax fuel nch Ah nr t T E. unfold check_report, copy_cells. rewrite (visit_cells t T), E. reflexivity. Qed.
Print Assumptions C85_empty_refuted.

(** Finding: the headings are not those of the columns. Two of them run into one, so the energy throughput stands under "Capacity" and the
    capacity under "States". *)
Theorem C85_headings_refuted : forall (A : Type) (NA : Num A) (C : Type) (o : rep_if A C) Ah nr start n c cap c', length (rq_var o c) = 4%nat ->
  nth_error (headings (A := A)) 6 = Some [WPiece (PText "CycleNumber"); WPiece (PText "time [s]")] /\
  nth_error (headings (A := A)) 9 = Some (ftext "Capacity [Ah]") /\ nth_error (cell_line o Ah nr start n c cap c') 9 = Some (fnum (th_Wh (rq_th o c))) /\
  nth_error (headings (A := A)) 10 = Some (ftext "States") /\ nth_error (cell_line o Ah nr start n c cap c') 10 = Some (fnum cap).
Proof.
  intros A NA C o Ah nr start n c cap c' H. unfold cell_line. destruct (rq_var o c) as [|v1 [|v2 [|v3 [|v4 [|]]]]]; try discriminate. repeat split.
Qed.
Print Assumptions C85_headings_refuted.

(** Both kinds of cells have four variations; those of an equivalent circuit are zero. *)
Theorem C85_variations : forall (A : Type) (NA : Num A) F tm c, length (rq_var (cell_rep (A := A) F tm) c) = 4%nat /\
  forall u, c = inl u -> rq_var (cell_rep (A := A) F tm) c = [nZ 0; nZ 0; nZ 0; nZ 0].
Proof. intros A NA F tm [u|s]; (split; [|now intros v [= ->]]); [reflexivity|]. cbn [rq_var cell_rep]. destruct (spm_variations s) as [[[a b] x] y]. reflexivity. Qed.
Print Assumptions C85_variations.

(** Finding: with the five points per electrode of the program, ten states of every single-particle cell are left out if the first cell is
    one, and they are not the concentrations but current, voltage, temperature, thickness of the film, lost lithium, thicknesses and volume fractions
    of the electrodes and the cathode's specific surface. *)
Lemma spm_stays {A : Type} {NA : Num A} (F : fns A) tm : all_safe (fun c : fleet (A := A) 0 => exists s, c = inr s) (rq (cell_rep F tm)).
Proof.
  unfold all_safe, safe. cbn [cell_rep rq fleet_if q_I q_Cap q_lim q_V q_checkV q_Vlow q_getStates q_setStates q_setCurrent q_setVoltage q_step q_store q_write].
  assert (K : forall B (f : M (spm A) B) s, exists s', fst (on_r (X := ecmu A) f s) = inr s') by (intros B f s; unfold on_r; destruct (f s) as [s' r]; now exists s').
  repeat match goal with |- _ /\ _ => split end; intros; match goal with H : ex _ |- _ => destruct H as [z ->] end.
  all: try (now exists z). all: try apply K.
  unfold fleet_store. change (o_V (fleet_ops F tm 0) (inr z)) with (on_r (X := ecmu A) (o_V (spm_ops F tm)) z). destruct (K _ (o_V (spm_ops F tm)) z) as [s' E].
  destruct (on_r (o_V (spm_ops F tm)) z) as [u r]. now exists s'.
Qed.
Theorem C85_film_refuted : forall (A : Type) (NA : Num A) F tm nmax fuel Ah nr t w x n1 s1 n s,
  typed t -> check_report (cell_rep (A := A) F tm) nmax fuel 5 Ah nr t = (w, Ok x) -> nth_error (cells_of t) 0 = Some (n1, inr s1) -> In (n, inr s) (cells_of t) ->
  exists cap s', tested (cell_rep F tm) nmax fuel (inr s) cap (inr s') /\
    In ([ftext n] ++ map fnum (rq_var (cell_rep F tm) (inr s)) ++ [fnum Ah; fint nr; fnum (s_time (cs s)); fnum (s_Ah (cs s)); fnum (s_Wh (cs s)); fnum cap] ++
        map fnum ([s_an (cs s'); s_CS (cs s'); s_Dp (cs s'); s_Dn (cs s'); s_dpl (cs s')] ++ s_zp (cs s') ++ s_zn (cs s') ++
                  [s_rp (cs s'); s_rn (cs s'); s_rcc (cs s'); s_SOC (cs s'); s_time (cs s'); s_Ah (cs s'); s_Wh (cs s')])) (lines w).
Proof.
  intros A NA F tm nmax fuel Ah nr t w x n1 s1 n s T H E1 I. destruct (report_ok _ _ _ _ _ _ _ _ _ T H) as (first & rest & outs & E & AT & L).
  rewrite E in E1. cbn [nth_error] in E1. assert (first = (n1, inr s1)) by congruence. subst first. cbn [snd] in L. change (rq_spm (cell_rep F tm) (inr s1)) with true in L. cbv iota in L.
  assert (X : exists cap c', tested (cell_rep F tm) nmax fuel (inr s) cap c' /\ In (n, inr s, (cap, c')) (combine (cells_of t) outs)).
  { clear - AT I. unfold all_tested in AT. induction AT as [|[n0 c0] [cap c'] l l' H1 H2 IH]; [destruct I|]. destruct I as [I|I].
    - exists cap, c'. assert (n0 = n) by congruence. assert (c0 = inr s) by congruence. subst. split; [exact H1|now left].
    - destruct (IH I) as (cap1 & c1 & Q1 & Q2). exists cap1, c1. split; [exact Q1|now right]. }
  destruct X as (cap & c' & T1 & I1). assert (P : exists s', c' = inr s').
  { destruct T1 as (v & a & tt & Ev & ->). change v with (fst (v, Ok (cap, a, tt))). rewrite <- Ev. apply (pr_testCapacity _ nmax (rq (cell_rep F tm)) false (spm_stays F tm) fuel). now exists s. }
  destruct P as [s' ->]. exists cap, s'. split; [exact T1|]. rewrite L. right. apply in_or_app. left. apply in_flat_map. exists (n, inr s, (cap, inr s')). split; [exact I1|]. now left.
Qed.
Print Assumptions C85_film_refuted.

(** Finding: the states of the other cells are cut at the same place, so an equivalent-circuit cell behind a single-particle cell has none
    (it has seven with one parallel resistance). *)
Theorem C85_mixed_refuted : forall (A : Type) (NA : Num A) F tm Ah nr n (u u' : ecmu A) cap, (length (e_Ir (es (u_ecm u'))) <= 4)%nat ->
  length (cell_line (cell_rep F tm) Ah nr (2 * 5) n (inl u) cap (inl u')) = 11%nat.
Proof.
  intros A NA F tm Ah nr n u u' cap H. unfold cell_line. rewrite !app_length, !map_length, skipn_length. change (rq_states (cell_rep F tm) (inl u')) with (ecm_getStates (u_ecm u')).
  unfold ecm_getStates. rewrite !app_length. cbn [length rq_var cell_rep]. lia.
Qed.
Print Assumptions C85_mixed_refuted.

(** Finding: the states in the line are those after the capacity test, not those at the check-up: this cell, never used before, has the clock
    0 in column 7 and 3 s among its states (column 15), and 374 A where it carried no current. *)
Definition w_ecm : ecmu f64 := mkEu false (match ecm_make 1 (nZ 9360) (nlit 6304 10000) with Ok c => c | _ => ecm_default 1 end).
Definition w_mod : modinfo f64 := mkMi "m" 1 (Some (cool_make 1 1)).
Definition w_pack (c : fleet (A := f64) 0) : sut (unode f64 (fleet (A := f64) 0)) := TMod (UMod w_mod) [TCell (UCell "m_c"%string c)].
Definition field (w : list (wtok f64)) (i j : nat) : option (list (wtok f64)) := match nth_error (lines w) i with Some l => nth_error l j | None => None end.
Definition above (a : f64) (x : option (list (wtok f64))) : bool := match x with Some [WPiece (PNum b)] => nltb a b | _ => false end.
Theorem C85_states_refuted : forall g h p, let x := check_report (cell_rep (w_fns g h p) 0) 10 20 5 (nZ 0) 1 (w_pack (inl w_ecm)) in
  snd x = Ok tt /\ nth_error (ecm_getStates (u_ecm w_ecm)) 4 = Some (nZ 0) /\ nth_error (ecm_getStates (u_ecm w_ecm)) 2 = Some (nZ 0) /\
  field (fst x) 1 7 = Some (fnum (nZ 0)) /\ field (fst x) 1 15 = Some (fnum (nZ 3)) /\ above (nZ 374) (field (fst x) 1 13) = true.
Proof. intros g h p x. unfold x. repeat split; vm_compute; reflexivity. Qed.
Print Assumptions C85_states_refuted.

(** The module report: headings, then one line for every module and battery, a unit before its parts, with its name, number of cells and the
    books of its cooling system; cells have no line. *)
Theorem C85_modules : forall (A C : Type) (t : sut (unode A C)) ks, typed t -> map mi_cool (modules_of t) = map Some ks ->
  snd (mod_report t) = Ok tt /\
  lines (fst (mod_report t)) = module_headings :: map (fun x => module_line (fst x) (snd x)) (combine (modules_of t) ks) ++ [blank].
Proof.
  intros A C t ks T H. unfold mod_report. rewrite (visit_mods t T). destruct (mod_rows_lines (modules_of t) mod_header ks H) as (s & E & L). rewrite E. cbn [fst snd].
  split; [reflexivity|]. rewrite lines_mod_header. f_equal. rewrite <- (app_nil_r s), L. reflexivity.
Qed.
Print Assumptions C85_modules.

(** Finding: a module or battery without cooling system is undefined behaviour. *)
Theorem C85_no_cooling_refuted : forall (A C : Type) (t : sut (unode A C)), typed t -> In None (map mi_cool (modules_of t)) -> snd (mod_report t) = UB.
Proof. intros A C t T H. unfold mod_report. rewrite (visit_mods t T). now apply mod_null. Qed.
Print Assumptions C85_no_cooling_refuted.

(** A battery of a module of two cells of different kinds; both reports end, the first cell is a single-particle cell (with a high resistance,
    so that its test is over at once). *)
Definition w_res : spm f64 :=
  let p := cp w_ref in let t := mkXY [nZ 0; nZ 1] [nlit 397 100; nlit 397 100] false in
  spm_setChar (s_Dp (cs w_ref)) (s_Dn (cs w_ref)) (nZ (10 ^ 300)) (nZ (10 ^ 300)) (nlit 77 100 / (SpmModel.q_cap p / nZ 25))%num
  (set_par w_ref (par_chg p (SpmModel.q_cap p) (q_surf p) (q_Cmaxp p) (q_Cmaxn p) (nZ (10 ^ 300)) (nZ (10 ^ 300)) t (q_OCVn p))).
Definition w_battery : sut (unode f64 (fleet (A := f64) 0)) :=
  TBat (UBat (mkMi "b" 2 (Some (hvac_make 2 1 (nZ 0))))) (Some (TMod (UMod w_mod) [TCell (UCell "b_m_p"%string (inr w_res)); TCell (UCell "b_m_c"%string (inl w_ecm))])).
Example C85_inhabited : forall g h p,
  typed w_battery /\ map fst (cells_of w_battery) = ["b_m_p"; "b_m_c"]%string /\ nth_error (cells_of w_battery) 0 = Some ("b_m_p"%string, inr w_res) /\
  snd (check_report (cell_rep (w_fns g h p) 0) 10 20 5 (nZ 0) 1 w_battery) = Ok tt /\
  length (lines (fst (check_report (cell_rep (w_fns g h p) 0) 10 20 5 (nZ 0) 1 w_battery))) = 6%nat /\
  map mi_name (modules_of w_battery) = ["b"; "m"]%string /\ length (e_Ir (es (u_ecm w_ecm))) = 1%nat.
Proof. intros g h p. repeat split; vm_compute; reflexivity. Qed.
