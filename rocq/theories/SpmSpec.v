(** * Specifications for the single-particle cell, independent of the model's helpers *)
From Verif Require Import Base RFacts StatusModel UtilModel CellModel SpmModel.

(** ** Any carrier (in particular doubles) *)
Section Any.
Context {A : Type} {NA : Num A}.
Variable F : fns A.

(** The voltage of the present states: what [V()] returns when no voltage is stored. *)
Definition fresh_V (c : spm A) : res A := snd (spm_V F (set_valid c false)).
(** What [V()] returns. *)
Definition read_V (c : spm A) : res A := snd (spm_V F c).

(** Two cells that differ at most in the stored voltage: all other states, the parameters, the stresses, the thermal
    accumulators and the settings agree, and so does what [V()] returns. *)
Definition unchanged (c c' : spm A) : Prop :=
  cp c' = cp c /\ c_str c' = c_str c /\ c_block c' = c_block c /\ c_parent c' = c_parent c /\
  c_Q c' = c_Q c /\ c_Qtot c' = c_Qtot c /\ c_tth c' = c_tth c /\ c_Tenv c' = c_Tenv c /\
  (forall i, i <> 1%nat -> nth_error (spm_getStates c') i = nth_error (spm_getStates c) i) /\
  read_V c' = read_V c.

(** The calls of the public interface that can change a cell. *)
Inductive spm_op : Type :=
| OpV
| OpCurrent (i : A) (chk : bool)
| OpSOC (x : A) (chk : bool)
| OpStates (l : list A) (chk : bool)
| OpStateObj (s : spm_st A)
| OpC (fp fn : A)
| OpTenv (t : A)
| OpT (t : A)
| OpStep (dt : A) (n : Z)
| OpThermal (nb : list (A * A * A)) (tim : A)
| OpBlock (b : bool)
| OpParent (b : bool)
| OpGeometry (cap surf ep en thickp thickn : A)
| OpConcentration (cmaxp cmaxn fp fn : A)
| OpCharacterisation (Dp Dn kp kn Rdc : A)
| OpCurves (ocvp ocvn : XYdata A).

(** The cell after the call, whatever its outcome (status, exception). *)
Definition after (tm : Z) (o : spm_op) (c : spm A) : spm A :=
  match o with
  | OpV => fst (spm_V F c)
  | OpCurrent i chk => fst (spm_setCurrent F i chk c)
  | OpSOC x chk => fst (spm_setSOC F x chk c)
  | OpStates l chk => fst (spm_setStates F l chk c)
  | OpStateObj s => spm_setStateObj s c
  | OpC fp fn => fst (spm_setC fp fn c)
  | OpTenv t => fst (spm_setTenv t c)
  | OpT t => spm_setT t c
  | OpStep dt n => fst (spm_timeStep_CC F tm dt n c)
  | OpThermal nb tim => fst (spm_thermal tm nb tim c)
  | OpBlock b => mkSpm (cp c) (cs c) (c_valid c) (c_str c) b (c_parent c) (c_Q c) (c_Qtot c) (c_tth c) (c_Tenv c)
  | OpParent b => mkSpm (cp c) (cs c) (c_valid c) (c_str c) (c_block c) b (c_Q c) (c_Qtot c) (c_tth c) (c_Tenv c)
  | OpGeometry cap surf ep en thickp thickn => spm_setGeometric cap surf ep en thickp thickn c
  | OpConcentration cmaxp cmaxn fp fn => fst (spm_setInitialConcentration cmaxp cmaxn fp fn c)
  | OpCharacterisation Dp Dn kp kn Rdc => spm_setChar Dp Dn kp kn Rdc c
  | OpCurves ocvp ocvn => spm_setOCVcurve ocvp ocvn c
  end.

(** A history: the cell before it, the calls, the cell after it. [ok] says which calls are allowed on which cell. *)
Inductive history (tm : Z) (ok : spm A -> spm_op -> Prop) : spm A -> list spm_op -> spm A -> Prop :=
| hist_nil c : history tm ok c [] c
| hist_cons c o l c' : ok c o -> history tm ok (after tm o c) l c' -> history tm ok c (o :: l) c'.

(** The calls after which the stored voltage is not stale when no degradation is simulated: everything but setting
    the temperature, the characterisation parameters and the OCV curves; time steps only with degradation blocked. *)
Definition tame (c : spm A) (o : spm_op) : Prop :=
  match o with
  | OpT _ | OpCharacterisation _ _ _ _ _ | OpCurves _ _ => False
  | OpConcentration _ _ fp fn => snd (spm_setC fp fn c) = Ok tt
  | OpStep _ _ => c_block c = true
  | _ => True
  end.

(** No degradation model is selected. *)
Definition no_degradation (c : spm A) : Prop :=
  let d := q_deg (cp c) in
  Forall (fun i => i = 0%Z) (d_SEI d) /\ d_por d = 0%Z /\ Forall (fun i => i = 0%Z) (d_CS d) /\
  d_csdiff d = 0%Z /\ Forall (fun i => i = 0%Z) (d_LAM d) /\ d_pl d = 0%Z.

(** The ageing states: SEI thickness, lost lithium, electrode thicknesses, volume fractions, effective surfaces,
    crack surface, diffusion constants, plated lithium, resistances. *)
Definition ageing (c : spm A) : list A :=
  let s := cs c in
  [s_delta s; s_LLI s; s_thickp s; s_thickn s; s_ep s; s_en s; s_ap s; s_an s; s_CS s; s_Dp s; s_Dn s; s_dpl s;
   s_rp s; s_rn s; s_rcc s].

(** Calls that set neither the state of charge, the counters and the capacity, nor ageing states. *)
Definition operating (o : spm_op) : Prop :=
  match o with
  | OpV | OpCurrent _ _ | OpC _ _ | OpTenv _ | OpT _ | OpThermal _ _ | OpBlock _ | OpParent _ | OpStep _ _ => True
  | _ => False
  end.

End Any.
Arguments spm_op : clear implicits.

(** ** Reals *)
Local Open Scope R_scope.

(** As [tame], but time steps also without blocking: for cells with no degradation model, and no thermal model. *)
Definition tame_nodeg (c : spm R) (o : spm_op R) : Prop :=
  match o with OpStep _ _ => no_degradation c | _ => tame c o end.

(** Operating histories; the log holds, for every completed [timeStep_CC] call, the current during the call, the step
    length and the number of steps. *)
Inductive spm_hist (F : fns R) (tm : Z) : spm R -> list (R * R * nat) -> spm R -> Prop :=
| sh_nil c : spm_hist F tm c [] c
| sh_cmd c o log c' :
    operating o -> (forall dt n, o <> OpStep dt n) -> spm_hist F tm (after F tm o c) log c' -> spm_hist F tm c log c'
| sh_step c dt (n : nat) c1 log c' :
    spm_timeStep_CC F tm dt (Z.of_nat n) c = (c1, Ok tt) -> spm_hist F tm c1 log c' ->
    spm_hist F tm c ((s_I (cs c), dt, n) :: log) c'.

(** ** Diffusion *)

(** [a*u + b*v], element by element. *)
Definition lin (a b : R) (u v : list R) : list R := map (fun '(x, y) => a * x + b * y) (combine u v).

(** A current profile applied to a cell: set the current, then take [n] steps of [dt]; the log is the profile. *)
Inductive driven (F : fns R) (tm : Z) : spm R -> list (R * R * nat) -> spm R -> Prop :=
| dr_nil c : driven F tm c [] c
| dr_cons c i dt n c1 l c' :
    spm_timeStep_CC F tm dt (Z.of_nat n) (fst (spm_setCurrent F i false c)) = (c1, Ok tt) ->
    driven F tm c1 l c' -> driven F tm c ((i, dt, n) :: l) c'.

(** The profile whose currents are [a*i1 + b*i2]; the two profiles have the same time grid. *)
Inductive superposed (a b : R) : list (R * R * nat) -> list (R * R * nat) -> list (R * R * nat) -> Prop :=
| sp_nil : superposed a b [] [] []
| sp_cons i1 i2 dt n l1 l2 l : superposed a b l1 l2 l ->
    superposed a b ((i1, dt, n) :: l1) ((i2, dt, n) :: l2) ((a * i1 + b * i2, dt, n) :: l).

(** Two cells of the same build, temperature and age. *)
Definition same_build (c c' : spm R) : Prop :=
  cp c' = cp c /\ s_T (cs c') = s_T (cs c) /\ ageing c' = ageing c /\ c_block c' = c_block c.

(** Degradation and the thermal model are off: only diffusion takes place. *)
Definition diffusion_only (tm : Z) (c : spm R) : Prop :=
  c_block c = true \/ (no_degradation c /\ (tm = 0%Z \/ c_parent c = true)).

(** ** Degradation *)

(** Rate parameters have the sign the models are written for. *)
Record sane_rates (p : spm_par R) : Prop := {
  sr_nsei : 0 < q_nsei p; sr_rhosei : 0 < q_rhosei p; sr_celec : 0 <= q_celec0 p; sr_surf : 0 <= q_surf p;
  sr_sei : Forall (fun x => 0 <= x) [sei1k (q_sei p); sei2k (q_sei p); sei2D (q_sei p); sei3k (q_sei p);
                                     sei3D (q_sei p); sei4k (q_sei p); sei4D (q_sei p)];
  sr_cs : Forall (fun x => 0 <= x) [cs1a (q_cs p); cs2a (q_cs p); cs3a (q_cs p); cs4a (q_cs p); cs5k (q_cs p)];
  sr_lam : Forall (fun x => 0 <= x) [lam1p (q_lam p); lam1n (q_lam p)];
  sr_npl : 0 < q_npl p; sr_rhopl : 0 < q_rhopl p; sr_pl : 0 <= pl1k (q_pl p) }.

(** Calls on a cell whose anode has not vanished, with a nonnegative number of steps. *)
Definition alive (c : spm R) (o : spm_op R) : Prop :=
  operating o /\ 0 <= s_thickn (cs c) /\ 0 <= s_an (cs c) /\
  match o with OpStep _ n => (0 <= n)%Z | _ => True end.

(** Lost lithium, SEI thickness, crack surface and plated lithium have not fallen, thicknesses have not grown. *)
Definition aged (c c' : spm R) : Prop :=
  s_LLI (cs c) <= s_LLI (cs c') /\ s_delta (cs c) <= s_delta (cs c') /\ s_CS (cs c) <= s_CS (cs c') /\
  s_dpl (cs c) <= s_dpl (cs c') /\ s_thickp (cs c') <= s_thickp (cs c) /\ s_thickn (cs c') <= s_thickn (cs c).

(** ** State vectors *)

(** The documented layout (State_SPM.hpp:27-50, then time, charge and energy throughput): position of every state
    for [k] nodes per electrode. *)
Definition layout {A : Type} (k : nat) (s : spm_st A) (l : list A) : Prop :=
  length l = (22 + 2 * k)%nat /\
  nth_error l 0 = Some (s_I s) /\ nth_error l 1 = Some (s_V s) /\ nth_error l 2 = Some (s_T s) /\
  nth_error l 3 = Some (s_delta s) /\ nth_error l 4 = Some (s_LLI s) /\ nth_error l 5 = Some (s_thickp s) /\
  nth_error l 6 = Some (s_thickn s) /\ nth_error l 7 = Some (s_ep s) /\ nth_error l 8 = Some (s_en s) /\
  nth_error l 9 = Some (s_ap s) /\ nth_error l 10 = Some (s_an s) /\ nth_error l 11 = Some (s_CS s) /\
  nth_error l 12 = Some (s_Dp s) /\ nth_error l 13 = Some (s_Dn s) /\ nth_error l 14 = Some (s_dpl s) /\
  (forall j, (j < k)%nat -> nth_error l (15 + j) = nth_error (s_zp s) j) /\
  (forall j, (j < k)%nat -> nth_error l (15 + k + j) = nth_error (s_zn s) j) /\
  nth_error l (15 + 2 * k) = Some (s_rp s) /\ nth_error l (16 + 2 * k) = Some (s_rn s) /\
  nth_error l (17 + 2 * k) = Some (s_rcc s) /\ nth_error l (18 + 2 * k) = Some (s_SOC s) /\
  nth_error l (19 + 2 * k) = Some (s_time s) /\ nth_error l (20 + 2 * k) = Some (s_Ah s) /\
  nth_error l (21 + 2 * k) = Some (s_Wh s).

(** Equally configured cells: the same parameters and array lengths. *)
Definition same_configuration {A : Type} (c d : spm A) : Prop :=
  cp d = cp c /\ length (s_zp (cs d)) = length (s_zp (cs c)) /\ length (s_zn (cs d)) = length (s_zn (cs c)).

(** Effective surface and volume fraction agree ([a = 3 e / R]). *)
Definition consistent_surfaces (c : spm R) : Prop :=
  s_ap (cs c) = 3 * s_ep (cs c) / q_Rp (cp c) /\ s_an (cs c) = 3 * s_en (cs c) / q_Rn (cp c).

(** A state the cell accepts: everything the validity check looks at. *)
Definition acceptable (F : fns R) (c : spm R) : Prop :=
  0 <= s_SOC (cs c) <= 1 /\ q_Tmin (cp c) <= s_T (cs c) <= q_Tmax (cp c) /\ snd (getCSurf F c) = true /\
  0 < s_delta (cs c) /\ 0 <= s_LLI (cs c) /\ 0 <= s_CS (cs c) /\ 0 <= s_rp (cs c) /\ 0 <= s_rn (cs c) /\
  0 <= s_rcc (cs c) /\ 0 <= s_dpl (cs c).
