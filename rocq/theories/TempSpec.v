(** * Specification: how a single-particle cell depends on temperature *)
From Coq Require Import Reals.
From Verif Require Import Base RFacts StatusModel UtilModel CellModel SpmModel SpmSpec PhysSpec.
Local Open Scope R_scope.

(** The gas constant and Faraday's constant of the program, [J/(mol K)] and [C/mol]. *)
Definition gas : R := 8314 / 1000.
Definition faraday : R := 96487.
(** By which factor a process with activation energy [E] (J/mol) is faster at [T2] than at [T1] (kelvin): Arrhenius' law. *)
Definition arrhenius (E T1 T2 : R) : R := exp (E / gas * (1 / T1 - 1 / T2)).
(** [std::exp] is the exponential function. *)
Definition exponential (F : fns R) : Prop := forall x, f_exp F x = exp x.

(** Two cells of the same kind with the same current, geometry, resistances and surface concentrations. *)
Definition but_temperature (F : fns R) (c d : spm R) : Prop :=
  cp d = cp c /\ s_I (cs d) = s_I (cs c) /\ ageing d = ageing c /\ surface F d = surface F c.
(** The part of the voltage that is neither the open circuit voltage nor the drop over the resistances. *)
Definition kinetic_loss (o v : R) (c : spm R) : R := o - v - s_I (cs c) * ohms c.

(** The equilibrium potential [u] of the anode surface. As in the program, the entropic coefficient of the anode is read at the
    concentration of the cathode. *)
Definition anode_potential (F : fns R) (c : spm R) (u : R) : Prop :=
  exists o e, XYdata_interp (q_OCVn (cp c)) (snd (surface F c) / q_Cmaxn (cp c)) true = Ok o /\
    XYdata_interp (q_dOCVn (cp c)) (fst (surface F c) / q_Cmaxp (cp c)) true = Ok e /\ u = o + (s_T (cs c) - q_Tref (cp c)) * e.
(** Lithium leaving the cathode particles per area and second at current [i], [mol m-2 s-1]. *)
Definition cathode_flux (c : spm R) (i : R) : R :=
  - (i / q_surf (cp c)) / (s_ap (cs c) * q_n (cp c) * FARADAY * s_thickp (cs c)).
(** Tafel's law: the speed of a reaction of rate constant [k] at [t0], activation energy [E], transfer coefficient [al] and charge number
    [z] at the potential [u] above equilibrium. *)
Definition tafel (k E z al t0 t u : R) : R := k * arrhenius E t0 t * exp (- (z * faraday * al * u) / (gas * t)).
