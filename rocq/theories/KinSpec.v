(** * Specification: the rate laws of the side reactions, at any current *)
From Coq Require Import Reals.
From Verif Require Import Base RFacts CellModel SpmModel SpmSpec PhysSpec DegSpec TempSpec LawSpec.
Local Open Scope R_scope.

(** Butler and Volmer, with equal transfer coefficients: the overpotential that drives the current density [j] [A m-2] through a
    surface with exchange current density [i0]. *)
Definition exchange (c : spm R) (k E full x : R) : R :=
  k * arrhenius E (q_Tref (cp c)) (s_T (cs c)) * q_n (cp c) * faraday * sqrt (q_Celec (cp c) * x * (full - x)).
Definition overpotential (F : fns R) (c : spm R) (i0 j : R) : R :=
  2 * gas * s_T (cs c) / (q_n (cp c) * faraday) * f_asinh F (j / (2 * i0)).
(** Discharging draws lithium from the anode and drives it into the cathode. *)
Definition cathode_eta (F : fns R) (c : spm R) : R :=
  overpotential F c (exchange c (q_kp (cp c)) (q_kpT (cp c)) (q_Cmaxp (cp c)) (fst (surface F c)))
    (- (s_I (cs c) / q_surf (cp c)) / (s_ap (cs c) * s_thickp (cs c))).
Definition anode_eta (F : fns R) (c : spm R) : R :=
  overpotential F c (exchange c (q_kn (cp c)) (q_knT (cp c)) (q_Cmaxn (cp c)) (snd (surface F c)))
    (s_I (cs c) / q_surf (cp c) / (s_an (cs c) * s_thickn (cs c))).
(** The drop over the film. *)
Definition film_drop (c : spm R) : R := q_rsei (cp c) * s_delta (cs c) * s_I (cs c).

(** Current density of the film reaction after model [i] [A m-2]; [u] is the equilibrium potential of the anode, [e] its overpotential.
    1: kinetics only; 2: kinetics and diffusion through the film in series; 3: the same, with the concentration of the solvent outside
    following the overpotential and the drop; 4: as 3 without the drop. Any other model: none. *)
Definition film_current (c : spm R) (u e : R) (i : Z) : R :=
  let p := cp c in let k := q_sei p in let T := s_T (cs c) in
  let nF := q_nsei p * faraday in
  let law k0 E v := nF * tafel k0 E (q_nsei p) (q_asei p) (q_Tref p) T v in
  let in_series a D E := 1 / (1 / a + s_delta (cs c) / (nF * (D * arrhenius E (q_Tref p) T))) in
  let solvent v := 134461 / 1000000 * exp (- (nF * v) / (gas * T)) in
  match i with
  | 1%Z => law (sei1k k) (sei1kT k) (u + e - q_OCVsei p + film_drop c)
  | 2%Z => q_celec0 p * in_series (law (sei2k k) (sei2kT k) (u + e - q_OCVsei p + film_drop c)) (sei2D k) (sei2DT k)
  | 3%Z => solvent (e + film_drop c) * in_series (law (sei3k k) (sei3kT k) (u - q_OCVsei p)) (sei3D k) (sei3DT k)
  | 4%Z => solvent e * in_series (law (sei4k k) (sei4kT k) (u - q_OCVsei p)) (sei4D k) (sei4DT k)
  | _ => 0
  end.
Definition film_currents (c : spm R) (u e : R) (l : list Z) : R := Rsum (map (film_current c u e) l).

(** Current density of plating; 1 is the only model. *)
Definition plating_current (c : spm R) (u e : R) (i : Z) : R :=
  let p := cp c in
  if (i =? 1)%Z then q_npl p * faraday * tafel (pl1k (q_pl p)) (pl1kT (q_pl p)) (q_n p) (q_apl p) (q_Tref p) (s_T (cs c)) (u + e - q_OCVpl p + film_drop c)
  else 0.

(** By how much cracks enlarge the surface on which the film grows: each crack model selected adds the crack surface once. *)
Definition crack_share (c : spm R) (l : list Z) : R :=
  INR (length (filter (fun i => negb (i =? 0)%Z) l)) * (s_CS (cs c) / (s_an (cs c) * s_thickn (cs c) * q_surf (cp c))).

(** How fast the cathode, whose equilibrium potential is [u] and overpotential [e], dissolves; capped. *)
Definition dissolution (c : spm R) (u e : R) : R :=
  let p := cp c in let k := q_lam p in
  Rmin (5 / 1000000) (lam3k k * arrhenius (lam3kT k) (q_Tref p) (s_T (cs c)) *
    exp (q_n p * faraday * (u + e - q_OCVnmc p) / (gas * s_T (cs c))) / (q_n p * faraday)).

(** How fast the fifth crack model grows the cracks. *)
Definition charging_cracks (c : spm R) (u e : R) : R :=
  let p := cp c in let k := q_cs p in
  q_nsei p * faraday * tafel (cs5k k) (cs5kT k) (q_nsei p) (q_asei p) (q_Tref p) (s_T (cs c)) (u + e - q_OCVsei p + film_drop c).
