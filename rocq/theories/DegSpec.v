(** * Specification: how the degradation models of a single-particle cell combine *)
From Coq Require Import Reals Permutation.
From Verif Require Import Base RFacts CellModel SpmModel SpmSpec.
Local Open Scope R_scope.

(** The same cell with other degradation models selected. *)
Definition with_models {A : Type} (p : spm_par A) (d : deg_id) : spm_par A :=
  mkSpar (q_cap p) (q_lim p) (q_Tmin p) (q_Tmax p) (q_Cmaxp p) (q_Cmaxn p) (q_Celec p) (q_n p)
    (q_kp p) (q_kpT p) (q_kn p) (q_knT p) (q_DpT p) (q_DnT p) (q_Tref p) (q_Qch p) (q_rho p) (q_Cheat p)
    (q_L p) (q_Acell p) (q_surf p) (q_Rp p) (q_Rn p) (q_str p)
    (q_rsei p) (q_nsei p) (q_asei p) (q_OCVsei p) (q_rhosei p) (q_celec0 p) (q_Vmain p) (q_Vsei p) (q_sei p) (q_cs p)
    (q_OCVnmc p) (q_lam p) (q_npl p) (q_apl p) (q_OCVpl p) (q_rhopl p) (q_pl p) (q_M p)
    (q_OCVp p) (q_OCVn p) (q_dOCVn p) (q_dOCVtot p) d (q_sdai p) (q_slares p) (q_var p).
Definition models {A : Type} (d : deg_id) (c : spm A) : spm A :=
  mkSpm (with_models (cp c) d) (cs c) (c_valid c) (c_str c) (c_block c) (c_parent c) (c_Q c) (c_Qtot c) (c_tth c) (c_Tenv c).

(** What degradation acts on: SEI and plated layers, lost lithium, the geometry of the electrodes, crack surface, lithium in the anode.
    The diffusion constant of the anode is listed apart: the effect of crack growth on it is capped. *)
Definition anode_mode (j : nat) (s : spm_st R) : R := nth j (s_zn s) 0.
Definition degrading (f : spm_st R -> R) : Prop :=
  In f [s_delta; s_LLI; s_thickp; s_thickn; s_ep; s_en; s_ap; s_an; s_CS; s_dpl] \/ exists j, f = anode_mode j.

(** Four runs: without the models in question, with the ones of [l1], with the ones of [l2], with all of them: the effects add up. *)
Definition effects_add (f : spm_st R -> R) (c0 c1 c2 c12 : spm R) : Prop :=
  f (cs c12) - f (cs c0) = (f (cs c1) - f (cs c0)) + (f (cs c2) - f (cs c0)).

(** The same models in any order. *)
Definition reordered (d d' : deg_id) : Prop :=
  Permutation (d_SEI d) (d_SEI d') /\ Permutation (d_CS d) (d_CS d') /\ Permutation (d_LAM d) (d_LAM d') /\
  d_por d' = d_por d /\ d_csdiff d' = d_csdiff d /\ d_pl d' = d_pl d.

(** The documented identifiers (Cell_SPM.hpp, DEG_ID). *)
Definition documented (d : deg_id) : Prop :=
  Forall (fun i => 0 <= i <= 4)%Z (d_SEI d) /\ Forall (fun i => 0 <= i <= 5)%Z (d_CS d) /\ Forall (fun i => 0 <= i <= 4)%Z (d_LAM d) /\
  (0 <= d_por d <= 1)%Z /\ (0 <= d_csdiff d <= 1)%Z /\ (0 <= d_pl d <= 1)%Z.

(** Lithium entering the anode per area and second when the cell is driven at current [i] (positive: discharge), [mol m-2 s-1], times
    minus one: the boundary flux of the diffusion equation. *)
Definition anode_flux (c : spm R) (i : R) : R :=
  i / q_surf (cp c) / (s_an (cs c) * q_n (cp c) * FARADAY * s_thickn (cs c)).
