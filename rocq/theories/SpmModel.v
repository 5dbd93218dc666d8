(** * Model of the single-particle cell [Cell_SPM] *)
From Verif Require Import Base StatusModel UtilModel CellModel.
Local Open Scope num_scope.

Section Spm.
Context {A : Type} {NA : Num A}.

(** The functions of <cmath> the cell uses besides [sqrt] and [abs]. They are parameters of the model: nothing is
    assumed about them unless a theorem says so. *)
Record fns : Type := mkFns { f_exp : A -> A; f_asinh : A -> A; f_pow : A -> A -> A }.

(** ** Data *)

(** src/settings/constants.hpp:21-22 *)
Definition FARADAY : A := nZ 96487.
Definition RGAS : A := nlit 8314 1000.

(** src/cells/Cell_SPM/Model_SPM.hpp:22-46; the number of nodes [nch] is the length of [m_xch]. *)
Record spm_mat : Type := mkMat {
  m_input : list A; m_xch : list A; m_Ap : list A; m_An : list A; m_Bp : list A; m_Bn : list A;
  m_Cp : list (list A); m_Cn : list (list A); m_Cc : list A; m_Dp : list A; m_Dn : list A;
  m_Vp : list (list A); m_Vn : list (list A); m_Q : list (list A) }.

(** src/cells/Cell_SPM/param/SEIparam.hpp *)
Record sei_par : Type := mkSei {
  sei_por : A; sei1k : A; sei1kT : A; sei2k : A; sei2kT : A; sei2D : A; sei2DT : A;
  sei3k : A; sei3kT : A; sei3D : A; sei3DT : A; sei4k : A; sei4kT : A; sei4D : A; sei4DT : A }.
(** src/cells/Cell_SPM/param/CSparam.hpp *)
Record cs_par : Type := mkCs {
  cs1a : A; cs2a : A; cs3a : A; cs4a : A; cs4Amax : A; cs5k : A; cs5kT : A; cs_diff : A }.
(** src/cells/Cell_SPM/param/LAMparam.hpp *)
Record lam_par : Type := mkLam {
  lam1p : A; lam1n : A; lam2ap : A; lam2bp : A; lam2an : A; lam2bn : A; lam2t : A;
  lam3k : A; lam3kT : A; lam4p : A; lam4n : A }.
(** src/cells/Cell_SPM/param/PLparam.hpp *)
Record pl_par : Type := mkPl { pl1k : A; pl1kT : A }.
(** src/cells/Cell_SPM/param/DEG_ID.hpp:22-75 *)
Record deg_id : Type := mkDeg {
  d_SEI : list Z; d_por : Z; d_CS : list Z; d_csdiff : Z; d_LAM : list Z; d_pl : Z }.
(** src/cells/Cell_SPM/param/StressParam.hpp:15-22, the constants. *)
Record str_par : Type := mkStrP { omegap : A; omegan : A; Ep : A; En : A; nup : A; nun : A }.

(** Cell_SPM.hpp:42-118: everything that no time step changes. *)
Record spm_par : Type := mkSpar {
  q_cap : A; q_lim : limits A; q_Tmin : A; q_Tmax : A;
  q_Cmaxp : A; q_Cmaxn : A; q_Celec : A; q_n : A;
  q_kp : A; q_kpT : A; q_kn : A; q_knT : A; q_DpT : A; q_DnT : A;
  q_Tref : A; q_Qch : A; q_rho : A; q_Cheat : A;
  q_L : A; q_Acell : A; q_surf : A; q_Rp : A; q_Rn : A;
  q_str : str_par;
  q_rsei : A; q_nsei : A; q_asei : A; q_OCVsei : A; q_rhosei : A; q_celec0 : A; q_Vmain : A; q_Vsei : A;
  q_sei : sei_par; q_cs : cs_par;
  q_OCVnmc : A; q_lam : lam_par;
  q_npl : A; q_apl : A; q_OCVpl : A; q_rhopl : A; q_pl : pl_par;
  q_M : spm_mat;
  q_OCVp : XYdata A; q_OCVn : XYdata A; q_dOCVn : XYdata A; q_dOCVtot : XYdata A;
  q_deg : deg_id; q_sdai : bool; q_slares : bool;
  q_var : A * A * A * A }.

(** src/cells/Cell_SPM/State_SPM.hpp:25-56 and src/types/State.hpp: the states, in storage order. *)
Record spm_st : Type := mkSst {
  s_I : A; s_V : A; s_T : A; s_delta : A; s_LLI : A; s_thickp : A; s_thickn : A; s_ep : A; s_en : A;
  s_ap : A; s_an : A; s_CS : A; s_Dp : A; s_Dn : A; s_dpl : A; s_zp : list A; s_zn : list A;
  s_rp : A; s_rn : A; s_rcc : A; s_SOC : A; s_time : A; s_Ah : A; s_Wh : A }.

(** StressParam.hpp:24-36, the stored stresses. *)
Record stress : Type := mkStr {
  t_dai_up : bool; t_lares_up : bool; t_dai_p : A; t_dai_n : A; t_lares_n : A;
  t_dai_p_prev : A; t_dai_n_prev : A; t_lares_n_prev : A; t_dt : A }.

(** The cell: parameters, states, the flag of the stored voltage (Cell_SPM.hpp:126), stored stresses,
    [blockDegAndTherm] and the presence of a parent (StorageUnit.hpp:30-31), and the thermal accumulators with the
    environment temperature (Cell_SPM.hpp:60-63). *)
Record spm : Type := mkSpm {
  cp : spm_par; cs : spm_st; c_valid : bool; c_str : stress; c_block : bool; c_parent : bool;
  c_Q : A; c_Qtot : A; c_tth : A; c_Tenv : A }.

(** Field updates. *)
Definition set_st (c : spm) (s : spm_st) : spm :=
  mkSpm (cp c) s (c_valid c) (c_str c) (c_block c) (c_parent c) (c_Q c) (c_Qtot c) (c_tth c) (c_Tenv c).
Definition set_valid (c : spm) (b : bool) : spm :=
  mkSpm (cp c) (cs c) b (c_str c) (c_block c) (c_parent c) (c_Q c) (c_Qtot c) (c_tth c) (c_Tenv c).
Definition set_str (c : spm) (t : stress) : spm :=
  mkSpm (cp c) (cs c) (c_valid c) t (c_block c) (c_parent c) (c_Q c) (c_Qtot c) (c_tth c) (c_Tenv c).
Definition set_therm (c : spm) (q qt t : A) : spm :=
  mkSpm (cp c) (cs c) (c_valid c) (c_str c) (c_block c) (c_parent c) q qt t (c_Tenv c).
Definition set_par (c : spm) (p : spm_par) : spm :=
  mkSpm p (cs c) (c_valid c) (c_str c) (c_block c) (c_parent c) (c_Q c) (c_Qtot c) (c_tth c) (c_Tenv c).
Definition st_I (s : spm_st) (x : A) : spm_st :=
  mkSst x (s_V s) (s_T s) (s_delta s) (s_LLI s) (s_thickp s) (s_thickn s) (s_ep s) (s_en s) (s_ap s) (s_an s)
        (s_CS s) (s_Dp s) (s_Dn s) (s_dpl s) (s_zp s) (s_zn s) (s_rp s) (s_rn s) (s_rcc s) (s_SOC s)
        (s_time s) (s_Ah s) (s_Wh s).
Definition st_V (s : spm_st) (x : A) : spm_st :=
  mkSst (s_I s) x (s_T s) (s_delta s) (s_LLI s) (s_thickp s) (s_thickn s) (s_ep s) (s_en s) (s_ap s) (s_an s)
        (s_CS s) (s_Dp s) (s_Dn s) (s_dpl s) (s_zp s) (s_zn s) (s_rp s) (s_rn s) (s_rcc s) (s_SOC s)
        (s_time s) (s_Ah s) (s_Wh s).
Definition st_T (s : spm_st) (x : A) : spm_st :=
  mkSst (s_I s) (s_V s) x (s_delta s) (s_LLI s) (s_thickp s) (s_thickn s) (s_ep s) (s_en s) (s_ap s) (s_an s)
        (s_CS s) (s_Dp s) (s_Dn s) (s_dpl s) (s_zp s) (s_zn s) (s_rp s) (s_rn s) (s_rcc s) (s_SOC s)
        (s_time s) (s_Ah s) (s_Wh s).
Definition st_SOC (s : spm_st) (x : A) : spm_st :=
  mkSst (s_I s) (s_V s) (s_T s) (s_delta s) (s_LLI s) (s_thickp s) (s_thickn s) (s_ep s) (s_en s) (s_ap s) (s_an s)
        (s_CS s) (s_Dp s) (s_Dn s) (s_dpl s) (s_zp s) (s_zn s) (s_rp s) (s_rn s) (s_rcc s) x
        (s_time s) (s_Ah s) (s_Wh s).
Definition st_z (s : spm_st) (zp zn : list A) : spm_st :=
  mkSst (s_I s) (s_V s) (s_T s) (s_delta s) (s_LLI s) (s_thickp s) (s_thickn s) (s_ep s) (s_en s) (s_ap s) (s_an s)
        (s_CS s) (s_Dp s) (s_Dn s) (s_dpl s) zp zn (s_rp s) (s_rn s) (s_rcc s) (s_SOC s)
        (s_time s) (s_Ah s) (s_Wh s).
Definition st_cum (s : spm_st) (t ah wh : A) : spm_st :=
  mkSst (s_I s) (s_V s) (s_T s) (s_delta s) (s_LLI s) (s_thickp s) (s_thickn s) (s_ep s) (s_en s) (s_ap s) (s_an s)
        (s_CS s) (s_Dp s) (s_Dn s) (s_dpl s) (s_zp s) (s_zn s) (s_rp s) (s_rn s) (s_rcc s) (s_SOC s) t ah wh.
Definition str_flags (t : stress) (dai lares : bool) : stress :=
  mkStr dai lares (t_dai_p t) (t_dai_n t) (t_lares_n t) (t_dai_p_prev t) (t_dai_n_prev t) (t_lares_n_prev t) (t_dt t).

(** ** Electrochemistry *)
Variable F : fns.

(** Cell_SPM.hpp:132 *)
Definition arrh (c : spm) : A := (nZ 1 / q_Tref (cp c) - nZ 1 / s_T (cs c)) / RGAS.

(** Cell_SPM_diffusion.cpp:76-84 *)
Definition calcDiffConstant (c : spm) : A * A :=
  let a := arrh c in
  (s_Dp (cs c) * f_exp F (q_DpT (cp c) * a), s_Dn (cs c) * f_exp F (q_DnT (cp c) * a)).

(** Cell_SPM_diffusion.cpp:66-74 *)
Definition calcMolarFlux (c : spm) : A * A * A :=
  let s := cs c in let p := cp c in
  let i_app := s_I s / q_surf p in
  (i_app, (- i_app) / (s_ap s * q_n p * FARADAY * s_thickp s), i_app / (s_an s * q_n p * FARADAY * s_thickn s)).

(** [for (j) acc += row[j]*z[j]] *)
Fixpoint dot (acc : A) (row z : list A) : A :=
  match row, z with
  | r :: row', x :: z' => dot (acc + r * x) row' z'
  | _, _ => acc
  end.

(** Cell_SPM_diffusion.cpp:23-41 *)
Definition calcSurfaceConcentration (c : spm) (jp jn dpt dnt : A) : A * A :=
  let m := q_M (cp c) in
  (dot (nZ 0) (nth 0 (m_Cp m) []) (s_zp (cs c)) + nth 0 (m_Dp m) (nZ 0) * jp / dpt,
   dot (nZ 0) (nth 0 (m_Cn m) []) (s_zn (cs c)) + nth 0 (m_Dn m) (nZ 0) * jn / dnt).

(** Cell_SPM_diffusion.cpp:43-64 *)
Definition calcOverPotential (c : spm) (cps cns i_app : A) : A * A :=
  let s := cs c in let p := cp c in
  let a := arrh c in
  let kpt := q_kp p * f_exp F (q_kpT p * a) in
  let knt := q_kn p * f_exp F (q_knT p * a) in
  let i0p := kpt * q_n p * FARADAY * nsqrt (q_Celec p * cps * (q_Cmaxp p - cps)) in
  let i0n := knt * q_n p * FARADAY * nsqrt (q_Celec p * cns * (q_Cmaxn p - cns)) in
  let xp := nlit (-1) 2 * i_app / (s_ap s * s_thickp s) / i0p in
  let xn := nlit 1 2 * i_app / (s_an s * s_thickn s) / i0n in
  ((nZ 2 * RGAS * s_T s) / (q_n p * FARADAY) * f_asinh F xp,
   (nZ 2 * RGAS * s_T s) / (q_n p * FARADAY) * f_asinh F xn).

(** Cell_SPM.cpp:24-37 *)
Definition getRdc (c : spm) : A :=
  let s := cs c in let p := cp c in
  let surf_sei := s_an s * q_surf p * s_thickn s in
  let surf_p := s_ap s * q_surf p * s_thickp s in
  let surf_n := s_an s * q_surf p * s_thickn s in
  s_delta s * q_rsei p / surf_sei + s_rp s / surf_p + s_rn s / surf_n + s_rcc s / q_surf p.

(** the guard [cps <= 0 || cns <= 0 || cps >= Cmaxpos || cns >= Cmaxneg] *)
Definition conc_bad (c : spm) (cps cns : A) : bool :=
  (cps <=? nZ 0) || (cns <=? nZ 0) || (cps >=? q_Cmaxp (cp c)) || (cns >=? q_Cmaxn (cp c)).

(** Cell_SPM.cpp:123-147: the surface concentrations and whether they are in range. *)
Definition getCSurf (c : spm) : A * A * bool :=
  let '(dpt, dnt) := calcDiffConstant c in
  let '(_, jp, jn) := calcMolarFlux c in
  let '(cps, cns) := calcSurfaceConcentration c jp jn dpt dnt in
  (cps, cns, negb (conc_bad c cps cns)).

(** Cell_SPM.cpp:149-199: surface, inner and centre concentrations. *)
Definition node_conc (C : list (list A)) (D z : list A) (j dt : A) : list A :=
  map (fun '(row, d) => dot (nZ 0) row z + d * j / dt) (combine C D).
Definition getC (c : spm) : list A * list A :=
  let m := q_M (cp c) in
  let '(dpt, dnt) := calcDiffConstant c in
  let '(_, jp, jn) := calcMolarFlux c in
  let p := node_conc (m_Cp m) (m_Dp m) (s_zp (cs c)) jp dpt in
  let n := node_conc (m_Cn m) (m_Dn m) (s_zn (cs c)) jn dnt in
  let ctr := fun (cc : list A) (j r d : A) => nlit (-1) 2 * (dot (nZ 0) (m_Cc m) cc + j * r / d) in
  (p ++ [ctr p jp (q_Rp (cp c)) dpt], n ++ [ctr n jn (q_Rn (cp c)) dnt]).

(** Cell_SPM.cpp:201-232 *)
Definition spm_OCV (c : spm) : res A :=
  let '(cps, cns, _) := getCSurf c in
  let p := cp c in
  let zp := cps / q_Cmaxp p in
  let zn := cns / q_Cmaxn p in
  rbind (XYdata_interp (q_dOCVtot p) zp true) (fun dOCV =>
  rbind (XYdata_interp (q_OCVn p) zn true) (fun on =>
  rbind (XYdata_interp (q_OCVp p) zp true) (fun op =>
    Ok (op - on + (s_T (cs c) - q_Tref p) * dOCV)))).

(** Cell_SPM.cpp:234-305, the computation proper (from line 262): [None] when the concentration is out of range. *)
Definition calcV (c : spm) : res (option A) :=
  let '(cps, cns, flag) := getCSurf c in
  if negb flag then Ok None
  else
    let p := cp c in
    let zp := cps / q_Cmaxp p in
    let zn := cns / q_Cmaxn p in
    rbind (XYdata_interp (q_dOCVtot p) zp true) (fun dOCV =>
    rbind (XYdata_interp (q_OCVn p) zn true) (fun on =>
    rbind (XYdata_interp (q_OCVp p) zp true) (fun op =>
      let i_app := s_I (cs c) / q_surf p in
      let '(etap, etan) := calcOverPotential c cps cns i_app in
      let ocv := op - on + (s_T (cs c) - q_Tref p) * dOCV in
      Ok (Some (ocv + (etap - etan) - getRdc c * s_I (cs c)))))).

(** Cell_SPM.cpp:234-305 *)
Definition spm_V : M spm A := fun c =>
  if c_valid c then (c, Ok (s_V (cs c)))
  else
    match calcV c with
    | Ok None => (c, Ok (nZ 0))
    | Ok (Some v) => (set_valid (set_st c (st_V (cs c) v)) true, Ok v)
    | Throw n => (c, Throw n)
    | UB => (c, UB)
    | Fuel => (c, Fuel)
    end.

(** Cell.hpp:79 with free_functions.hpp:137-210 *)
Definition spm_checkVoltage : M spm (A * Status) := fun c =>
  let '(c1, v) := spm_V c in (c1, check_voltage v (q_lim (cp c)) (s_I (cs c))).
(** Cell.hpp:65-71 *)
Definition spm_checkCurrent (checkV : bool) : M spm Status := fun c =>
  if checkV then let '(c1, r) := spm_checkVoltage c in (c1, rmap snd r) else (c, Ok Success).

(** Cell_SPM.cpp:39-75 *)
Definition spm_setSOC (x : A) (checkV : bool) : M spm Status := fun c =>
  if negb (check_SOC x) then (c, Ok SOC_limits_violation)
  else
    let c1 := set_st c (st_SOC (cs c) x) in
    if checkV then
      match spm_checkVoltage c1 with
      | (c2, Ok (_, st)) => (if isStatusBad st then set_st c2 (st_SOC (cs c2) (s_SOC (cs c))) else c2, Ok st)
      | (c2, Throw n) => (c2, Throw n)
      | (c2, UB) => (c2, UB)
      | (c2, Fuel) => (c2, Fuel)
      end
    else (c1, Ok Success).

(** Cell_SPM.cpp:77-121 *)
Definition spm_setCurrent (Inew : A) (checkV : bool) : M spm Status := fun c =>
  let c1 := set_valid (set_st c (st_I (cs c) Inew)) false in
  match spm_checkCurrent checkV c1 with
  | (c2, Ok st) =>
      (if isStatusBad st then set_valid (set_st c2 (st_V (st_I (cs c2) (s_I (cs c))) (s_V (cs c)))) (c_valid c)
       else c2, Ok st)
  | (c2, Throw n) => (c2, Throw n)
  | (c2, UB) => (c2, UB)
  | (c2, Fuel) => (c2, Fuel)
  end.

(** Cell_SPM.cpp:378-486; the lost lithium check throws. *)
Definition spm_validStates (c : spm) : res bool :=
  let s := cs c in let p := cp c in
  let tol := nlit 1 100000 in
  let r1 := check_SOC (s_SOC s) in
  let r2 := negb ((s_T s <? q_Tmin p) || (s_T s >? q_Tmax p)) in
  let '(_, _, r3) := getCSurf c in
  let r4 := negb (s_delta s <=? nZ 0) in
  if s_LLI s <? nZ 0 then Throw 15
  else
    let app := nZ 3 * s_ep s / q_Rp p in
    let r5 := negb (nabs (s_ap s - app) / s_ap s >? tol) in
    let ann := nZ 3 * s_en s / q_Rn p in
    let r6 := negb (nabs (s_an s - ann) / s_an s >? tol) in
    let r7 := negb (s_CS s <? nZ 0) in
    let r8 := negb ((s_rp s <? nZ 0) || (s_rn s <? nZ 0) || (s_rcc s <? nZ 0)) in
    let r9 := negb (s_dpl s <? nZ 0) in
    Ok (r1 && r2 && r3 && r4 && r5 && r6 && r7 && r8 && r9).

(** Cell_SPM.hpp:268 *)
Definition st_list (s : spm_st) : list A :=
  [s_I s; s_V s; s_T s; s_delta s; s_LLI s; s_thickp s; s_thickn s; s_ep s; s_en s; s_ap s; s_an s; s_CS s;
   s_Dp s; s_Dn s; s_dpl s] ++ s_zp s ++ s_zn s ++ [s_rp s; s_rn s; s_rcc s; s_SOC s; s_time s; s_Ah s; s_Wh s].
Definition spm_getStates (c : spm) : list A := st_list (cs c).

(** The copy of Cell_SPM.cpp:364-365: a span that is too short is read beyond its end. *)
Definition spm_read (np nn : nat) (l : list A) : res (spm_st * list A) :=
  match l with
  | i :: v :: t :: de :: lli :: tp :: tn :: ep :: en :: ap :: an :: cs :: dp :: dn :: pl :: l1 =>
      let zp := firstn np l1 in
      let l2 := skipn np l1 in
      let zn := firstn nn l2 in
      match skipn nn l2 with
      | rp :: rn :: rcc :: soc :: tm :: ah :: wh :: rest =>
          Ok (mkSst i v t de lli tp tn ep en ap an cs dp dn pl zp zn rp rn rcc soc tm ah wh, rest)
      | _ => UB
      end
  | _ => UB
  end.

(** Cell_SPM.cpp:355-376 with free_functions.hpp:117-135; returns the rest of the span with the status. *)
Definition spm_setStates (l : list A) (checkV : bool) : M spm (list A * Status) := fun c =>
  match spm_read (length (s_zp (cs c))) (length (s_zn (cs c))) l with
  | Ok (s, rest) =>
      let c1 := set_valid (set_st c s) false in
      match spm_validStates c1 with
      | Ok false => (set_valid (set_st c1 (cs c)) (c_valid c), Ok (rest, Invalid_states))
      | Ok true =>
          if checkV then
            match spm_checkVoltage c1 with
            | (c2, Ok (_, st)) => (if isStatusBad st then set_valid (set_st c2 (cs c)) (c_valid c) else c2, Ok (rest, st))
            | (c2, Throw n) => (c2, Throw n)
            | (c2, UB) => (c2, UB)
            | (c2, Fuel) => (c2, Fuel)
            end
          else (c1, Ok (rest, Success))
      | Throw n => (c1, Throw n)
      | UB => (c1, UB)
      | Fuel => (c1, Fuel)
      end
  | Throw n => (c, Throw n)
  | UB => (c, UB)
  | Fuel => (c, Fuel)
  end.

(** Cell_SPM.cpp:488-510 *)
Definition spm_setTenv (t : A) : M spm unit := fun c =>
  if (t <? q_Tmin (cp c)) || (t >? q_Tmax (cp c)) then (c, Throw 102)
  else (mkSpm (cp c) (cs c) (c_valid c) (c_str c) (c_block c) (c_parent c) (c_Q c) (c_Qtot c) (c_tth c) t, Ok tt).

(** Cell_SPM.cpp:546-560 *)
Definition spm_setT (t : A) (c : spm) : spm :=
  set_str (set_st c (st_T (cs c) t)) (str_flags (c_str c) false false).

(** Cell_SPM.hpp:170-174, [setStateObj] *)
Definition spm_setStateObj (s : spm_st) (c : spm) : spm := set_valid (set_st c s) false.

(** Cell_SPM.cpp:562-629; the index of the uniform eigenvector is [static_cast<size_t>(M->Input[3])]. *)
Definition spm_setC (cp0 cn0 : A) : M spm unit := fun c =>
  if (cp0 <? nZ 0) || (cp0 >? nZ 1) || ((cn0 <? nZ 0) || (cn0 >? nZ 1)) then (c, Throw 104)
  else
    let p := cp c in let m := q_M p in
    let cpos := cp0 * q_Cmaxp p in
    let cneg := cn0 * q_Cmaxn p in
    match ntrunc (nth 3 (m_input m) (nZ 0)) with
    | Some iz =>
        if (0 <=? iz)%Z && (iz <? Z.of_nat (length (m_xch m)))%Z then
          let ind := Z.to_nat iz in
          let zpu := dot (nZ 0) (nth ind (m_Vp m) []) (map (fun x => cpos * x * q_Rp p) (m_xch m)) in
          let znu := dot (nZ 0) (nth ind (m_Vn m) []) (map (fun x => cneg * x * q_Rn p) (m_xch m)) in
          let zero := map (fun _ => nZ 0) (m_xch m) in
          (set_str (set_valid (set_st c (st_I (st_z (cs c) (list_set zero ind zpu) (list_set zero ind znu)) (nZ 0))) false)
                   (str_flags (c_str c) false false), Ok tt)
        else (c, UB)
    | None => (c, UB)
    end.

(** ** Degradation rates *)

(** [OCVnt + etan - OCVsei + rsei * delta * I] *)
Definition eta_sei (c : spm) (ocvnt etan : A) : A :=
  ocvnt + etan - q_OCVsei (cp c) + q_rsei (cp c) * s_delta (cs c) * s_I (cs c).

(** Cell_SPM_degradation.cpp:51-108, the contribution of one SEI model. *)
Definition sei_one (c : spm) (ocvnt etan : A) (id : Z) : res A :=
  let s := cs c in let p := cp c in let k := q_sei p in
  let a := arrh c in
  let nF := q_nsei p * FARADAY in
  let tafel := fun eta => f_exp F ((- q_nsei p) * FARADAY / (RGAS * s_T s) * q_asei p * eta) in
  let aLK := nlit 134461 1000000 in
  match id with
  | 0%Z => Ok (nZ 0)
  | 1%Z => Ok (nF * (sei1k k * f_exp F (sei1kT k * a)) * tafel (eta_sei c ocvnt etan))
  | 2%Z =>
      let kt := sei2k k * f_exp F (sei2kT k * a) in
      let dt := sei2D k * f_exp F (sei2DT k * a) in
      let i2 := nF * kt * tafel (eta_sei c ocvnt etan) in
      let i3 := s_delta s / (nF * dt) in
      Ok (q_celec0 p / (nZ 1 / i2 + i3))
  | 3%Z =>
      let kt := sei3k k * f_exp F (sei3kT k * a) in
      let dt := sei3D k * f_exp F (sei3DT k * a) in
      let i1 := aLK * f_exp F ((- q_nsei p) * FARADAY * (etan + q_rsei p * s_delta s * s_I s) / (RGAS * s_T s)) in
      let i2 := nF * kt * tafel (ocvnt - q_OCVsei p) in
      let i3 := s_delta s / (nF * dt) in
      Ok (i1 / (nZ 1 / i2 + i3))
  | 4%Z =>
      let kt := sei4k k * f_exp F (sei4kT k * a) in
      let dt := sei4D k * f_exp F (sei4DT k * a) in
      let i1 := aLK * f_exp F ((- q_nsei p) * FARADAY * etan / (RGAS * s_T s)) in
      let i2 := nF * kt * tafel (ocvnt - q_OCVsei p) in
      let i3 := s_delta s / (nF * dt) in
      Ok (i1 / (nZ 1 / i2 + i3))
  | _ => Throw 106
  end.
Fixpoint sei_all (c : spm) (ocvnt etan : A) (ids : list Z) (acc : A) : res A :=
  match ids with
  | [] => Ok acc
  | id :: t => rbind (sei_one c ocvnt etan id) (fun x => sei_all c ocvnt etan t (acc + x))
  end.
(** Cell_SPM_degradation.cpp:23-127: the SEI current density and the change of the volume fraction. *)
Definition SEI (c : spm) (ocvnt etan : A) : res (A * A) :=
  let s := cs c in let p := cp c in
  rbind (sei_all c ocvnt etan (d_SEI (q_deg p)) (nZ 0)) (fun isei =>
  match d_por (q_deg p) with
  | 0%Z => Ok (isei, nZ 0)
  | 1%Z =>
      let jn := s_I s / q_surf p / (s_an s * q_n p * FARADAY * s_thickn s) in
      Ok (isei, (- sei_por (q_sei p)) * (jn * q_Vmain p + isei * q_Vsei p))
  | _ => Throw 106
  end).

(** Cell_SPM.hpp:223 *)
Definition anode_surface (c : spm) : A := s_an (cs c) * s_thickn (cs c) * q_surf (cp c).

(** Cell_SPM_degradation.cpp:155-260, one crack growth model: the crack growth it adds, and whether it adds the
    crack surface to the SEI multiplier. *)
Definition cs_one (c : spm) (ocvnt etan : A) (id : Z) : res (A * bool) :=
  let s := cs c in let p := cp c in let k := q_cs p in let t := c_str c in
  match id with
  | 0%Z => Ok (nZ 0, false)
  | 1%Z =>
      if negb (t_lares_up t) then Throw 108
      else Ok (cs1a k * nsqrt (nabs (t_lares_n t - t_lares_n_prev t) / t_dt t), true)
  | 2%Z =>
      if negb (t_dai_up t) then Throw 108
      else Ok (cs2a k * nsqrt (nabs (t_dai_n t - t_dai_n_prev t) / t_dt t), true)
  | 3%Z =>
      let '(_, cn) := getC c in
      let d := (nth 0 cn (nZ 0) - nth (S (length (m_xch (q_M p)))) cn (nZ 0)) / q_Cmaxn p in
      Ok (cs3a k * (d * d), true)
  | 4%Z =>
      let amax := nmax (cs4Amax k) (s_CS s) in
      Ok (cs4a k * (amax - s_CS s) * nabs (s_I s), true)
  | 5%Z =>
      let etasei := eta_sei c ocvnt etan in
      let '(_, cns, _) := getCSurf c in
      let rate := f_exp F (cs5kT k / RGAS * (nZ 1 / q_Tref p - nZ 1 / s_T s)) in
      let kcr :=
        if isDischargingI (s_I s) then nZ 0
        else if cns / q_Cmaxn p <? nlit 3 10 then nZ 2 * cs5k k * rate
        else if cns / q_Cmaxn p <? nlit 7 10 then nZ 0
        else cs5k k * rate in
      Ok (q_nsei p * FARADAY * kcr * f_exp F ((- q_asei p) * q_nsei p * FARADAY / (RGAS * s_T s) * etasei), true)
  | _ => Throw 106
  end.
(** Lines 147-153: the loop accumulating the multiplier [ism] and the crack growth [dcs]. *)
Fixpoint cs_all (c : spm) (ocvnt etan : A) (ids : list Z) (ism dcs : A) : res (A * A) :=
  match ids with
  | [] => Ok (ism, dcs)
  | id :: t =>
      rbind (cs_one c ocvnt etan id) (fun '(d, b) =>
        cs_all c ocvnt etan t (if b : bool then ism + s_CS (cs c) / anode_surface c else ism)
               (if b : bool then dcs + d else dcs))
  end.
(** Cell_SPM_degradation.cpp:129-286: multiplier, crack growth, change of the anode diffusion constant. *)
Definition CSm (c : spm) (ocvnt etan : A) : res (A * A * A) :=
  let s := cs c in let p := cp c in let k := q_cs p in
  rbind (cs_all c ocvnt etan (d_CS (q_deg p)) (nZ 0) (nZ 0)) (fun '(ism, dcs) =>
  match d_csdiff (q_deg p) with
  | 0%Z => Ok (ism, dcs, nZ 0)
  | 1%Z =>
      let amax := nmax (cs4Amax k) (s_CS s) in
      let dnmax := nmin (nlit 2 10000000)
                        (cs_diff k * f_pow F (nZ 1 - s_CS s / amax) (cs_diff k - nZ 1) / amax * dcs) in
      Ok (ism, dcs, (- dnmax) * s_Dn s)
  | _ => Throw 106
  end).

(** Accumulated effects of the loss-of-active-material models. *)
Record lam_acc : Type := mkLA { a_tp : A; a_tn : A; a_ap : A; a_an : A; a_ep : A; a_en : A }.
(** Cell_SPM_degradation.cpp:313-437, one model. *)
Definition lam_one (c : spm) (zp_surf etap : A) (id : Z) (r : lam_acc) : res lam_acc :=
  let s := cs c in let p := cp c in let k := q_lam p in let t := c_str c in
  let a := arrh c in
  match id with
  | 0%Z => Ok r
  | 1%Z =>
      if negb (t_dai_up t) then Throw 108
      else Ok (mkLA (a_tp r + (- lam1p k) * nabs (t_dai_p t - t_dai_p_prev t) / t_dt t)
                    (a_tn r + (- lam1n k) * nabs (t_dai_n t - t_dai_n_prev t) / t_dt t)
                    (a_ap r) (a_an r) (a_ep r) (a_en r))
  | 2%Z =>
      let '(_, jp, jn) := calcMolarFlux c in
      let e := f_exp F (lam2t k * a) in
      let ajp := nabs jp in let ajn := nabs jn in
      Ok (mkLA (a_tp r) (a_tn r) (a_ap r) (a_an r)
               (a_ep r + (lam2ap k * e * ajp + lam2bp k * e * nsqrt ajp))
               (a_en r + (lam2an k * e * ajn + lam2bn k * e * nsqrt ajn)))
  | 3%Z =>
      rbind (XYdata_interp (q_OCVp p) zp_surf true) (fun ocvp =>
        let eta := ocvp + etap - q_OCVnmc p in
        let kt := lam3k k * f_exp F (lam3kT k * a) in
        let idiss := nmax (nlit (-5) 1000000)
                          ((- kt) * f_exp F (q_n p * FARADAY / RGAS / s_T s * eta) / (q_n p * FARADAY)) in
        Ok (mkLA (a_tp r) (a_tn r) (a_ap r) (a_an r) (a_ep r + idiss) (a_en r)))
  | 4%Z =>
      Ok (mkLA (a_tp r) (a_tn r) (a_ap r + (- lam4p k) * s_ap s) (a_an r + (- lam4n k) * s_an s) (a_ep r) (a_en r))
  | _ => Throw 106
  end.
Fixpoint lam_all (c : spm) (zp_surf etap : A) (ids : list Z) (r : lam_acc) : res lam_acc :=
  match ids with
  | [] => Ok r
  | id :: t => rbind (lam_one c zp_surf etap id r) (lam_all c zp_surf etap t)
  end.
(** Cell_SPM_degradation.cpp:288-446 *)
Definition LAM (c : spm) (zp_surf etap : A) : res lam_acc :=
  lam_all c zp_surf etap (d_LAM (q_deg (cp c))) (mkLA (nZ 0) (nZ 0) (nZ 0) (nZ 0) (nZ 0) (nZ 0)).

(** Cell_SPM_degradation.cpp:448-482 *)
Definition LiPlating (c : spm) (ocvnt etan : A) : res A :=
  let s := cs c in let p := cp c in
  let kt := pl1k (q_pl p) * f_exp F (pl1kT (q_pl p) * arrh c) in
  match d_pl (q_deg p) with
  | 0%Z => Ok (nZ 0)
  | 1%Z =>
      let eta := ocvnt + etan - q_OCVpl p + q_rsei p * s_delta s * s_I s in
      Ok (q_npl p * FARADAY * kt * f_exp F ((- q_n p) * FARADAY / (RGAS * s_T s) * q_apl p * eta))
  | _ => Throw 106
  end.

(** ** Stress *)

(** Cell_SPM_degradation.cpp:484-616, the largest hydrostatic stress of one electrode: [cc] are the node
    concentrations of [getC] (surface to centre), [k = omega * E], [nu] Poisson's ratio. The stresses at the other
    nodes are not kept by the caller (lines 618-643). *)
Definition dai_one (m : spm_mat) (om e nu : A) (cc : list A) : A :=
  let nch := length (m_xch m) in
  let xp := nZ 1 :: m_xch m in
  let xtot := map nopp xp ++ [nZ 0] ++ rev xp in
  let outer := firstn (S nch) cc in
  let ctr := nth (S nch) cc (nZ 0) in
  let CC := outer ++ [ctr] ++ rev outer in
  let Frow := fun row => fold_left (fun acc '(q, c, x) => acc + q * c * (x * x)) (combine (combine row CC) xtot) (nZ 0) in
  let Ff := map Frow (m_Q m) in
  let Fat := fun i => nth i Ff (nZ 0) in
  let a := Fat (2 * nch + 2)%nat - Fat (nch + 1)%nat in
  fold_left (fun sigma i =>
    let x := nth (nch + 1 + i) xtot (nZ 0) in
    let b := (Fat (nch + 1 + i)%nat - Fat (nch + 1)%nat) / (x * x * x) in
    let '(sr, stg) :=
      match i with
      | O => let v := nZ 2 * om * e / (nZ 9 * (nZ 1 - nu)) * (nZ 3 * a - ctr) in (v, v)
      | _ => (nZ 2 * om * e / (nZ 3 * (nZ 1 - nu)) * (a - b),
              om * e / (nZ 3 * (nZ 1 - nu)) * (nZ 2 * a + b - nth i cc (nZ 0)))
      end in
    let sh := (sr + nZ 2 * stg) / nZ 3 in
    if nabs sh >? nabs sigma then sh else sigma) (seq 0 (nch + 2)) (nZ 0).
(** Cell_SPM_degradation.cpp:618-643 *)
Definition updateDaiStress (c : spm) : spm :=
  let t := c_str c in let k := q_str (cp c) in
  let '(ccp, ccn) := getC c in
  set_str c (mkStr true (t_lares_up t) (dai_one (q_M (cp c)) (omegap k) (Ep k) (nup k) ccp)
                   (dai_one (q_M (cp c)) (omegan k) (En k) (nun k) ccn) (t_lares_n t)
                   (t_dai_p_prev t) (t_dai_n_prev t) (t_lares_n_prev t) (t_dt t)).

(** Cell_SPM_degradation.cpp:645-674 *)
Definition lares_x : list A := map (fun z => nlit z 10) [0; 1; 2; 3; 4; 5; 6; 7; 8; 9; 10]%Z.
Definition lares_y : list A := map (fun z => nlit z 10) [0; 55; 85; 95; 100; 100; 105; 130; 165; 210; 235]%Z.
Definition laresgoiti (c : spm) : res A :=
  let '(cps, cns, _) := getCSurf c in
  let p := cp c in
  if (cps <? nZ 0) || (cns <? nZ 0) || (cps >? q_Cmaxp p) || (cns >? q_Cmaxn p) then Throw 101
  else linInt true lares_x lares_y 11 (cns / q_Cmaxn p) true.
(** Cell_SPM_degradation.cpp:676-694 *)
Definition updateLaresgoitiStress : M spm unit := fun c =>
  let t := c_str c in
  match laresgoiti c with
  | Ok s => (set_str c (mkStr (t_dai_up t) true (t_dai_p t) (t_dai_n t) s (t_dai_p_prev t) (t_dai_n_prev t)
                              (t_lares_n_prev t) (t_dt t)), Ok tt)
  | Throw n => (c, Throw n)
  | UB => (c, UB)
  | Fuel => (c, Fuel)
  end.

(** ** Time derivatives *)

(** Cell_SPM_dstate.cpp:44-51: [dz = D*A[j]*z[j] + B[j]*j] *)
Fixpoint dz_diff (d j : A) (a b z : list A) : list A :=
  match a, b, z with
  | x :: a', y :: b', u :: z' => (d * x * u + y * j) :: dz_diff d j a' b' z'
  | _, _, _ => []
  end.
(** [z[j] += dt * dz[j]] *)
Fixpoint z_step (dt : A) (z dz : list A) : list A :=
  match z, dz with
  | u :: z', d :: dz' => (u + dt * d) :: z_step dt z' dz'
  | _, _ => z
  end.

(** Cell_SPM_dstate.cpp:56-120 *)
Definition dState_thermal (c : spm) : res A :=
  let s := cs c in let p := cp c in
  let '(dpt, dnt) := calcDiffConstant c in
  let '(i_app, jp, jn) := calcMolarFlux c in
  let '(cps, cns) := calcSurfaceConcentration c jp jn dpt dnt in
  if conc_bad c cps cns then Throw 101
  else
    let '(etap, etan) := calcOverPotential c cps cns i_app in
    rbind (XYdata_interp (q_dOCVtot p) (cps / q_Cmaxp p) true) (fun dOCV =>
      Ok ((- s_I s) * s_T s * dOCV + s_I s * (etan - etap) + s_I s * s_I s * getRdc c)).

(** The derivatives of Cell_SPM_dstate.cpp:122-258 that are not constantly 0; [dd_zn] is the list of
    [0 + (dznsei[j] + dznsei_CS[j] + dzn_pl[j])]. *)
Record ddeg : Type := mkDD {
  dd_delta : A; dd_LLI : A; dd_tp : A; dd_tn : A; dd_ep : A; dd_en : A; dd_ap : A; dd_an : A; dd_CS : A;
  dd_Dn : A; dd_dpl : A; dd_zn : list A }.
Definition dState_degradation (c : spm) : res ddeg :=
  let s := cs c in let p := cp c in
  let '(dpt, dnt) := calcDiffConstant c in
  let '(i_app, jp, jn) := calcMolarFlux c in
  let '(cps, cns) := calcSurfaceConcentration c jp jn dpt dnt in
  if conc_bad c cps cns then Throw 101
  else
    let zp_surf := cps / q_Cmaxp p in
    let zn_surf := cns / q_Cmaxn p in
    let '(etap, etan) := calcOverPotential c cps cns i_app in
    rbind (XYdata_interp (q_dOCVn p) zp_surf true) (fun dOCVn =>
    rbind (XYdata_interp (q_OCVn p) zn_surf true) (fun ocvn =>
    let ocvnt := ocvn + (s_T s - q_Tref p) * dOCVn in
    rbind (SEI c ocvnt etan) (fun '(isei, den_sei) =>
    rbind (CSm c ocvnt etan) (fun '(ism, dCS, dDn) =>
    let isei_CS := isei * ism in
    rbind (LAM c zp_surf etap) (fun r =>
    rbind (LiPlating c ocvnt etan) (fun ipl =>
    let dep := a_ep r in
    let den := a_en r + den_sei in
    Ok (mkDD (isei / (q_nsei p * FARADAY * q_rhosei p))
             ((isei + isei_CS + ipl) * q_surf p * s_thickn s * s_an s)
             (a_tp r) (a_tn r) dep den
             (a_ap r + nZ 3 / q_Rp p * dep) (a_an r + nZ 3 / q_Rn p * den)
             dCS dDn (ipl / (q_npl p * FARADAY * q_rhopl p))
             (map (fun b => nZ 0 + (b * isei / (q_nsei p * FARADAY) + b * isei_CS / (q_nsei p * FARADAY)
                                    + b * ipl / (q_npl p * FARADAY))) (m_Bn (q_M p)))))))))).

(** ** Thermal model, Cell_SPM_thermal.cpp *)

(** lines 80-168: [Etot] from the neighbours (temperature, coefficient, contact area). *)
Definition therm_neigh (c : spm) (nb : list (A * A * A)) : A :=
  fold_left (fun e '(t, k, a) => e + k * nmin a (q_Acell (cp c)) * (t - s_T (cs c)) * c_tth c) nb (c_Q c).
Definition tnew_check (c : spm) (etot : A) : res A :=
  let p := cp c in
  let tn := s_T (cs c) + etot / (q_rho p * q_Cheat p * q_L p * q_surf p) in
  if (tn >? q_Tmax p) || (tn <? q_Tmin p) || nnan tn then Throw 9 else Ok tn.
(** lines 191-220: [tmodel] is [settings::T_MODEL] (0 in this build); the accumulators are reset in every case. *)
Definition spm_thermal (tmodel : Z) (nb : list (A * A * A)) (tim : A) : M spm A := fun c =>
  let r :=
    match tmodel with
    | 0%Z => Ok (s_T (cs c))
    | 1%Z => tnew_check c (c_Q c + q_Qch (cp c) * q_Acell (cp c) * (c_Tenv c - s_T (cs c)) * c_tth c)
    | _ => if nabs (c_tth c - tim) >? nZ 1 then Throw 8 else tnew_check c (therm_neigh c nb)
    end in
  (set_therm c (nZ 0) (c_Qtot c + c_Q c) (nZ 0), r).

(** ** Time step, Cell_SPM_dstate.cpp:260-362 *)

(** lines 286-313, one pass of the loop. *)
Definition spm_step1 (dt : A) : M spm unit := fun c =>
  let s := cs c in let p := cp c in let m := q_M p in
  let '(dpt, dnt) := calcDiffConstant c in
  let '(_, jp, jn) := calcMolarFlux c in
  let dzp := dz_diff dpt jp (m_Ap m) (m_Bp m) (s_zp s) in
  let dzn := dz_diff dnt jn (m_An m) (m_Bn m) (s_zn s) in
  let dsoc := nZ 0 + (- s_I s) / (q_cap p * nZ 3600) in
  let dAh := s_I s * (dt / nZ 3600) in
  let s1 := st_SOC (st_z s (z_step dt (s_zp s) dzp) (z_step dt (s_zn s) dzn)) (s_SOC s + dt * dsoc) in
  let s2 := st_cum s1 (s_time s1 + dt) (s_Ah s1 + nabs dAh) (s_Wh s1) in
  let c1 := set_str (set_valid (set_st c s2) false) (str_flags (c_str c) false false) in
  match spm_V c1 with
  | (c2, Ok v) =>
      let s3 := cs c2 in
      (set_st c2 (st_cum s3 (s_time s3) (s_Ah s3) (s_Wh s3 + nabs (dAh * v))), Ok tt)
  | (c2, Throw n) => (c2, Throw n)
  | (c2, UB) => (c2, UB)
  | (c2, Fuel) => (c2, Fuel)
  end.
Fixpoint spm_steps (n : nat) (dt : A) : M spm unit := fun c =>
  match n with
  | O => (c, Ok tt)
  | S n' => match spm_step1 dt c with
            | (c', Ok _) => spm_steps n' dt c'
            | r => r
            end
  end.

(** lines 358-360: [st[i] += d_st[i]*dt*nstep] for every state. *)
Fixpoint age_z (dt n : A) (z dz : list A) : list A :=
  match z, dz with
  | x :: z', dx :: dz' => (x + dx * dt * n) :: age_z dt n z' dz'
  | _, _ => z
  end.
Definition age (s : spm_st) (d : ddeg) (dt n : A) : spm_st :=
  let up := fun x dx => x + dx * dt * n in
  let z := fun x => up x (nZ 0) in
  mkSst (z (s_I s)) (z (s_V s)) (z (s_T s)) (up (s_delta s) (dd_delta d)) (up (s_LLI s) (dd_LLI d))
        (up (s_thickp s) (dd_tp d)) (up (s_thickn s) (dd_tn d)) (up (s_ep s) (dd_ep d)) (up (s_en s) (dd_en d))
        (up (s_ap s) (dd_ap d)) (up (s_an s) (dd_an d)) (up (s_CS s) (dd_CS d)) (z (s_Dp s)) (up (s_Dn s) (dd_Dn d))
        (up (s_dpl s) (dd_dpl d)) (map z (s_zp s)) (age_z dt n (s_zn s) (dd_zn d))
        (z (s_rp s)) (z (s_rn s)) (z (s_rcc s)) (z (s_SOC s)) (z (s_time s)) (z (s_Ah s)) (z (s_Wh s)).

(** lines 316-361, after the loop. *)
Definition spm_heat_age (tmodel : Z) (dt : A) (nstep : Z) : M spm unit := fun c =>
  mbind (fun c => (c, dState_thermal c)) (fun dq =>
  mbind (fun c => (set_therm c (c_Q c + dq * dt * nZ nstep) (c_Qtot c) (c_tth c + dt * nZ nstep), Ok tt)) (fun _ =>
  mbind (fun c =>
           if c_parent c then (c, Ok tt)
           else match spm_thermal tmodel [(c_Tenv c, q_Qch (cp c), q_Acell (cp c))] (c_tth c) c with
                | (c', Ok t) => (spm_setT t c', Ok tt)
                | (c', Throw n) => (c', Throw n)
                | (c', UB) => (c', UB)
                | (c', Fuel) => (c', Fuel)
                end) (fun _ =>
  mbind (fun c => (if q_sdai (cp c) then updateDaiStress c else c, Ok tt)) (fun _ =>
  mbind (fun c => if q_slares (cp c) then updateLaresgoitiStress c else (c, Ok tt)) (fun _ =>
  mbind (fun c => (c, dState_degradation c)) (fun d =>
  fun c => (set_st c (age (cs c) d dt (nZ nstep)), Ok tt))))))) c.

Definition spm_timeStep_CC (tmodel : Z) (dt : A) (nstep : Z) : M spm unit := fun c =>
  if dt <? nZ 0 then (c, Throw 10)
  else
    let t := c_str c in
    let c1 := set_str c (mkStr (t_dai_up t) (t_lares_up t) (t_dai_p t) (t_dai_n t) (t_lares_n t)
                               (t_dai_p t) (t_dai_n t) (t_lares_n t) (nZ nstep * dt)) in
    match spm_steps (Z.to_nat nstep) dt c1 with
    | (c2, Ok _) => if c_block c2 then (c2, Ok tt) else spm_heat_age tmodel dt nstep c2
    | r => r
    end.

(** ** Construction and parameter changes *)

(** src/settings/settings.hpp:40-46, limits; Cell_SPM.hpp:42-118, Geometry_SPM.hpp, the *_default.hpp files and
    Cell_SPM.cpp:307-353: the default cell for the given matrices and curves. The crack parameter [CS4Amax] is set
    by the constructor body from the initial anode surface. *)
Definition lit6 (z : Z) : A := nlit z 1000000.
Definition sei_kokam : sei_par :=
  mkSei (nZ 3 * nlit 75 100000000) (nlit 75 100000000000000000) (nZ 130000) (nlit 275 10000000000000) (nZ 130000)
        (nlit 1125 100000000000000000) (nZ 20000) (nlit 11458 10000000000000000000) (nZ 65000)
        (nlit 25 100000000000000000) (nZ 200000) (nlit 15 10 * nlit 5 1000000000000000 / nZ 2) (nZ 130000 / nlit 15 10)
        (nlit 5 100000000000000000 / nZ 15) (nZ 200000 / nlit 25 10).
Definition lam_kokam : lam_par :=
  mkLam (nlit 34985 10000000000000 / nZ 10) (nlit 588 1000000000000000 * nZ 20000) (nlit (-1675) 100000000) (nZ 0)
        (nlit (-1675) 100000000) (nZ 0) (nZ 54611) (nlit 125 10000000) (nZ 27305) (nlit 83333 10000000000000)
        (nlit 83333 10000000000000).
Definition deg_none : deg_id := mkDeg [] 0 [] 0 [] 0.
Definition spm_default_par (m : spm_mat) (ocvp ocvn docvn docvtot : XYdata A) : spm_par :=
  let surf := nlit 1 10 * nlit 2 10 * nZ 31 in
  let rn := nlit 125 10000000 in
  let an := nZ 3 * nlit 1 2 / rn in
  mkSpar (nZ 16) defaultLimits (nZ 273) (nZ 333)
         (nZ 51385) (nZ 30555) (nZ 1000) (nZ 1)
         (nlit 5 100000000000) (nZ 58000) (nlit 1764 100000000000000) (nZ 20000) (nZ 29000) (nZ 35000 / nZ 5)
         (nZ 298) (nZ 45) (nZ 1626) (nZ 750)
         (nlit 1685 10000000) (nlit 1 10 * nlit 2 10) surf (nlit 85 10000000) rn
         (mkStrP (nlit 21 10000000) (nlit 317 100000000) (nlit 13873 100) (nZ 10) (nlit 3 10) (nlit 3 10))
         (nlit 20374 10 * nZ 50) (nZ 1) (nZ 1) (nlit 4 10) (nZ 100000) (nlit 4541 1000000) (nZ 13) (nlit 6439 100)
         sei_kokam
         (mkCs (nlit 425 10000000) (nlit 63 100000000) (nlit 231 1000000000000000000) (nlit 43306 1000000000000)
               (nZ 5 * (an * nlit 735 10000000 * surf)) (nlit 1 1000000000000000000) (nZ (-127040)) (nZ 2))
         (nlit 41 10) lam_kokam
         (nZ 1) (nZ 1) (nZ 0) (nZ 10000000) (mkPl (nlit 45 100000000000) (nlit (-2014008) 10))
         m ocvp ocvn docvn docvtot deg_none false false (nZ 1, nZ 1, nZ 1, nZ 1).

(** The states before [setC] of Cell_SPM.cpp:316-346 (State_SPM is value-initialised). *)
Definition spm_default_st (p : spm_par) : spm_st :=
  let zero := map (fun _ => nZ 0) (m_xch (q_M p)) in
  let ap := nZ 3 * nlit 1 2 / q_Rp p in
  let an := nZ 3 * nlit 1 2 / q_Rn p in
  mkSst (nZ 0) (nZ 0) (nZ 288) (nlit 1 1000000000) (nZ 0) (nlit 70 1000000) (nlit 735 10000000) (nlit 1 2) (nlit 1 2)
        ap an (nlit 1 100 * an * q_surf p * nlit 735 10000000) (nlit 8 100000000000000) (nlit 7 100000000000000)
        (nZ 0) zero zero (nlit 28 10000) (nlit 28 10000) (nlit 2325 10000000) (nZ 0) (nZ 0) (nZ 0) (nZ 0).
Definition str0 : stress := mkStr false false (nZ 0) (nZ 0) (nZ 0) (nZ 0) (nZ 0) (nZ 0) (nZ 1).

(** Cell_SPM.cpp:307-353, default constructor. *)
Definition spm_default (m : spm_mat) (ocvp ocvn docvn docvtot : XYdata A) : res spm :=
  let p := spm_default_par m ocvp ocvn docvn docvtot in
  let c0 := mkSpm p (spm_default_st p) false str0 false false (nZ 0) (nZ 0) (nZ 0) (nZ 288) in
  match spm_setC (nlit 689332 1000000) (nlit 479283 1000000) c0 with
  | (c1, Ok _) => Ok (set_st c1 (st_SOC (cs c1) (nlit 1 2)))
  | (_, Throw n) => Throw n
  | (_, UB) => UB
  | (_, Fuel) => Fuel
  end.

(** [param *= a] of the parameter structures: every member is scaled. *)
Definition sei_scale (k : sei_par) (a : A) : sei_par :=
  mkSei (sei_por k * a) (sei1k k * a) (sei1kT k * a) (sei2k k * a) (sei2kT k * a) (sei2D k * a) (sei2DT k * a)
        (sei3k k * a) (sei3kT k * a) (sei3D k * a) (sei3DT k * a) (sei4k k * a) (sei4kT k * a) (sei4D k * a) (sei4DT k * a).
Definition cs_scale (k : cs_par) (a : A) : cs_par :=
  mkCs (cs1a k * a) (cs2a k * a) (cs3a k * a) (cs4a k * a) (cs4Amax k * a) (cs5k k * a) (cs5kT k * a) (cs_diff k * a).
Definition lam_scale (k : lam_par) (a : A) : lam_par :=
  mkLam (lam1p k * a) (lam1n k * a) (lam2ap k * a) (lam2bp k * a) (lam2an k * a) (lam2bn k * a) (lam2t k * a)
        (lam3k k * a) (lam3kT k * a) (lam4p k * a) (lam4n k * a).
Definition pl_scale (k : pl_par) (a : A) : pl_par := mkPl (pl1k k * a) (pl1kT k * a).

Definition par_var (p : spm_par) (cap surf : A) (sei : sei_par) (cs : cs_par) (lam : lam_par) (pl : pl_par)
  (d : deg_id) (sdai slares : bool) : spm_par :=
  mkSpar cap (q_lim p) (q_Tmin p) (q_Tmax p) (q_Cmaxp p) (q_Cmaxn p) (q_Celec p) (q_n p)
         (q_kp p) (q_kpT p) (q_kn p) (q_knT p) (q_DpT p) (q_DnT p) (q_Tref p) (q_Qch p) (q_rho p) (q_Cheat p)
         (q_L p) (q_Acell p) surf (q_Rp p) (q_Rn p) (q_str p)
         (q_rsei p) (q_nsei p) (q_asei p) (q_OCVsei p) (q_rhosei p) (q_celec0 p) (q_Vmain p) (q_Vsei p)
         sei cs (q_OCVnmc p) lam (q_npl p) (q_apl p) (q_OCVpl p) (q_rhopl p) pl
         (q_M p) (q_OCVp p) (q_OCVn p) (q_dOCVn p) (q_dOCVtot p) d sdai slares (q_var p).

(** Cell_SPM.cpp:631-664, constructor with degradation settings and variation factors; lines 648-651 scale with the
    members [var_degSEI] and [var_degLAM], which are 1, not with the arguments [degfsei] and [degflam]. *)
Definition spm_make (m : spm_mat) (ocvp ocvn docvn docvtot : XYdata A) (d : deg_id) (capf resf degfsei degflam : A)
  : res spm :=
  rbind (spm_default m ocvp ocvn docvn docvtot) (fun c =>
    let p := cp c in let s := cs c in
    let '(_, _, vsei, vlam) := q_var p in
    let s' := mkSst (s_I s) (s_V s) (s_T s) (s_delta s) (s_LLI s) (s_thickp s) (s_thickn s) (s_ep s) (s_en s) (s_ap s)
                    (s_an s) (s_CS s) (s_Dp s) (s_Dn s) (s_dpl s) (s_zp s) (s_zn s) (s_rp s * resf) (s_rn s * resf)
                    (s_rcc s * resf) (s_SOC s) (s_time s) (s_Ah s) (s_Wh s) in
    let sdai := q_sdai p || existsb (Z.eqb 2) (d_CS d) || existsb (Z.eqb 1) (d_LAM d) in
    let slares := q_slares p || existsb (Z.eqb 1) (d_CS d) in
    Ok (set_st (set_par c (par_var p (q_cap p * capf) (q_surf p * capf) (sei_scale (q_sei p) vsei)
                                   (cs_scale (q_cs p) vsei) (lam_scale (q_lam p) vlam) (pl_scale (q_pl p) vsei)
                                   d sdai slares)) s')).

(** Cell_SPM.hpp:176, [getVariations] *)
Definition spm_variations (c : spm) : A * A * A * A := q_var (cp c).

(** Cell_SPM_fitting.cpp: parameter changes. The initial state [s_ini] they also overwrite is never read. *)
Definition par_chg (p : spm_par) (cap surf cmaxp cmaxn kp kn : A) (ocvp ocvn : XYdata A) : spm_par :=
  mkSpar cap (q_lim p) (q_Tmin p) (q_Tmax p) cmaxp cmaxn (q_Celec p) (q_n p)
         kp (q_kpT p) kn (q_knT p) (q_DpT p) (q_DnT p) (q_Tref p) (q_Qch p) (q_rho p) (q_Cheat p)
         (q_L p) (q_Acell p) surf (q_Rp p) (q_Rn p) (q_str p)
         (q_rsei p) (q_nsei p) (q_asei p) (q_OCVsei p) (q_rhosei p) (q_celec0 p) (q_Vmain p) (q_Vsei p)
         (q_sei p) (q_cs p) (q_OCVnmc p) (q_lam p) (q_npl p) (q_apl p) (q_OCVpl p) (q_rhopl p) (q_pl p)
         (q_M p) ocvp ocvn (q_dOCVn p) (q_dOCVtot p) (q_deg p) (q_sdai p) (q_slares p) (q_var p).
(** Cell_SPM_fitting.cpp:288-313, State_SPM.hpp:134-152: the stored voltage stays marked valid. *)
Definition spm_setChar (Dp Dn kp kn Rdc : A) (c : spm) : spm :=
  let s := cs c in let p := cp c in
  let r := Rdc * ((s_thickp s * s_ap s * q_surf p + s_thickn s * s_an s * q_surf p) / nZ 2) in
  set_st (set_par c (par_chg p (q_cap p) (q_surf p) (q_Cmaxp p) (q_Cmaxn p) kp kn (q_OCVp p) (q_OCVn p)))
         (mkSst (s_I s) (s_V s) (s_T s) (s_delta s) (s_LLI s) (s_thickp s) (s_thickn s) (s_ep s) (s_en s) (s_ap s)
                (s_an s) (s_CS s) Dp Dn (s_dpl s) (s_zp s) (s_zn s) r r (s_rcc s) (s_SOC s) (s_time s) (s_Ah s) (s_Wh s)).
(** Cell_SPM_fitting.cpp:210-232 with readable files holding the given curves. *)
Definition spm_setOCVcurve (ocvp ocvn : XYdata A) (c : spm) : spm :=
  let p := cp c in
  set_par c (par_chg p (q_cap p) (q_surf p) (q_Cmaxp p) (q_Cmaxn p) (q_kp p) (q_kn p) ocvp ocvn).
(** Cell_SPM_fitting.cpp:234-259 *)
Definition spm_setInitialConcentration (cmaxp cmaxn fp fn : A) : M spm unit := fun c =>
  let p := cp c in
  spm_setC fp fn (set_par c (par_chg p (q_cap p) (q_surf p) cmaxp cmaxn (q_kp p) (q_kn p) (q_OCVp p) (q_OCVn p))).
(** Cell_SPM_fitting.cpp:261-286, State_SPM.hpp:108-132 *)
Definition spm_setGeometric (cap surf ep en thickp thickn : A) (c : spm) : spm :=
  let s := cs c in let p := cp c in
  set_valid (set_st (set_par c (par_chg p cap surf (q_Cmaxp p) (q_Cmaxn p) (q_kp p) (q_kn p) (q_OCVp p) (q_OCVn p)))
    (mkSst (s_I s) (s_V s) (s_T s) (s_delta s) (s_LLI s) thickp thickn ep en (nZ 3 * ep / q_Rp p) (nZ 3 * en / q_Rn p)
           (s_CS s) (s_Dp s) (s_Dn s) (s_dpl s) (s_zp s) (s_zn s) (s_rp s) (s_rn s) (s_rcc s) (s_SOC s)
           (s_time s) (s_Ah s) (s_Wh s))) false.

(** src/cells/Cell_SPM/param/DEG_ID.hpp:36-40 with src/types/SmallVector.hpp:29-38 (capacity [len] = 10): the guard
    lets one element past the end through. *)
Definition add_model (l : list Z) (elem : Z) : res (list Z) :=
  if (elem =? 0)%Z then Ok l
  else if (10 <? Z.of_nat (length l))%Z then Throw 1234
  else if (Z.of_nat (length l) <? 10)%Z then Ok (l ++ [elem])
  else UB.

(** Cell_SPM.cpp:666-702; [nch] is [settings::nch]. *)
Definition checkModelparam (nch : Z) (c : spm) : res unit :=
  let p := cp c in let m := q_M p in
  let i := fun k => nth k (m_input m) (nZ 0) in
  let tol := nlit 1 10000000000 in
  let mnch := (i 0%nat - nZ nch) / i 0%nat >? tol in
  let mrp := (i 1%nat - q_Rp p) / i 1%nat >? tol in
  let mrn := (i 2%nat - q_Rn p) / i 2%nat >? tol in
  rbind (to_int (i 3%nat)) (fun a =>
  rbind (vget (m_An m) a) (fun an =>
  let '(meig, ok) :=
    if nabs an >? tol then (true, Ok tt)
    else match vget (m_Ap m) a with Ok ap => (nabs ap >? tol, Ok tt) | _ => (false, UB) end in
  rbind ok (fun _ => if mnch || mrp || mrn || meig then Throw 110 else Ok tt))).

End Spm.
Arguments fns : clear implicits.
Arguments spm : clear implicits.
Arguments spm_st : clear implicits.
Arguments spm_par : clear implicits.
Arguments spm_mat : clear implicits.
Arguments stress : clear implicits.
Arguments lam_acc : clear implicits.
Arguments ddeg : clear implicits.
