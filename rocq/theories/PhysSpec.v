(** * Specification: polarisation, heat and temperature of the single-particle cell, side reactions *)
From Coq Require Import Reals Permutation.
From Verif Require Import Base RFacts StatusModel UtilModel CellModel SpmModel SpmSpec.
Local Open Scope R_scope.

(** What is needed of [std::exp] and [std::asinh]. *)
Record physical_functions (F : fns R) : Prop := {
  pf_exp : forall x, 0 < f_exp F x;
  pf_exp_incr : forall x y, x < y -> f_exp F x < f_exp F y;
  pf_asinh0 : f_asinh F 0 = 0;
  pf_asinh_incr : forall x y, x < y -> f_asinh F x < f_asinh F y }.

(** Geometry, kinetics, temperature and resistances have the sign a real cell has. *)
Record physical_cell (c : spm R) : Prop := {
  pc_surf : 0 < q_surf (cp c); pc_thickp : 0 < s_thickp (cs c); pc_thickn : 0 < s_thickn (cs c);
  pc_ap : 0 < s_ap (cs c); pc_an : 0 < s_an (cs c); pc_n : 0 < q_n (cp c);
  pc_kp : 0 < q_kp (cp c); pc_kn : 0 < q_kn (cp c); pc_elec : 0 < q_Celec (cp c); pc_T : 0 < s_T (cs c);
  pc_delta : 0 <= s_delta (cs c); pc_rsei : 0 <= q_rsei (cp c);
  pc_rp : 0 <= s_rp (cs c); pc_rn : 0 <= s_rn (cs c); pc_rcc : 0 <= s_rcc (cs c) }.

(** The lithium concentrations at the particle surfaces, [getCSurf]. *)
Definition surface (F : fns R) (c : spm R) : R * R := let '(p, n, _) := getCSurf F c in (p, n).
(** Both strictly between empty and full. *)
Definition in_range (F : fns R) (c : spm R) : Prop :=
  let '(p, n) := surface F c in 0 < p < q_Cmaxp (cp c) /\ 0 < n < q_Cmaxn (cp c).
(** The entropic coefficient [dOCV/dT] at the present surface concentration, [V/K]. *)
Definition entropic (F : fns R) (c : spm R) : res R :=
  XYdata_interp (q_dOCVtot (cp c)) (fst (surface F c) / q_Cmaxp (cp c)) true.

(** Two cells that differ at most in resistances, SEI thickness and the stored voltage. *)
Definition but_resistance (c d : spm R) : Prop :=
  cp d = cp c /\ s_I (cs d) = s_I (cs c) /\ s_T (cs d) = s_T (cs c) /\
  s_thickp (cs d) = s_thickp (cs c) /\ s_thickn (cs d) = s_thickn (cs c) /\ s_ap (cs d) = s_ap (cs c) /\ s_an (cs d) = s_an (cs c) /\
  s_Dp (cs d) = s_Dp (cs c) /\ s_Dn (cs d) = s_Dn (cs c) /\ s_zp (cs d) = s_zp (cs c) /\ s_zn (cs d) = s_zn (cs c).

(** Specific area-weighted series resistance of a cell, in ohm: SEI film, both electrodes, collectors. *)
Definition ohms (c : spm R) : R :=
  let s := cs c in let A := q_surf (cp c) in
  s_delta s * q_rsei (cp c) / (s_an s * s_thickn s * A) + s_rp s / (s_ap s * s_thickp s * A) +
  s_rn s / (s_an s * s_thickn s * A) + s_rcc s / A.

(** The discretisation matrices map a uniform concentration to itself: with [i] the mode of [setC], the surface row times the
    coefficient of that mode is 1 (for a particle of radius [r]). *)
Definition uniform_mode (C V : list (list R)) (x : list R) (r : R) (i : nat) : Prop :=
  nth i (nth 0 C []) 0 * Rsum (map (fun '(v, y) => v * (y * r)) (combine (nth i V []) x)) = 1.

(** ** Temperature *)

(** Thermal capacity of a cell, [J/K]. *)
Definition heat_capacity (c : spm R) : R := q_rho (cp c) * q_Cheat (cp c) * (q_L (cp c) * q_surf (cp c)).
(** Heat received from neighbours at [(T, k, area)] in the time since the last thermal update. *)
Definition received (c : spm R) (nb : list (R * R * R)) : R :=
  Rsum (map (fun '(t, k, a) => k * Rmin a (q_Acell (cp c)) * (t - s_T (cs c)) * c_tth c) nb).
(** The heat generated since birth: what is booked plus what is pending. *)
Definition total_heat (c : spm R) : R := c_Qtot c + c_Q c.
