(** Vocabulary of the statements about parallel physics-based cells that balance (C93). *)
From Coq Require Import List.
From Verif Require Import Base RFacts CellModel ModuleModel SpmModel SpmUnitModel.
Import ListNotations.
Local Open Scope R_scope.

(** Between the currents [a] and [b] the voltage [f] falls as the current rises; per ampere the fall times the capacity
    [c] lies between [k] and 1. *)
Definition falls (k c : R) (f : R -> R) (a b : R) : Prop :=
  forall i j, a <= i -> i <= j -> j <= b -> k * (j - i) <= c * (f i - f j) <= j - i.

(** The same with the fixed factor of voltage commands (200 ampere per volt): the product lies between [k] and [2 - k]. *)
Definition drops (k : R) (f : R -> R) (a b : R) : Prop :=
  forall i j, a <= i -> i <= j -> j <= b -> k * (j - i) <= 200 * (f i - f j) <= (2 - k) * (j - i).

(** Per ampere the voltage [f] falls by [s1] to [s2] volt between the currents [a] and [b]. *)
Definition slopes (s1 s2 : R) (f : R -> R) (a b : R) : Prop :=
  forall i j, a <= i -> i <= j -> j <= b -> s1 * (j - i) <= f i - f j <= s2 * (j - i).

(** The same cell, with its current just set to [i] so that its voltage is computed afresh. *)
Definition spm_at (i : R) (c : spm R) : spm R := set_valid (set_st c (st_I (cs c) i)) false.
(** Nothing has changed but the current and the stored voltage. *)
Definition spm_same (c d : spm R) : Prop := exists i v fl, d = set_valid (set_st c (st_V (st_I (cs c) i) v)) fl.
Definition spm_total (l : list (spm R)) : R := Rsum (map (fun c => s_I (cs c)) l).

Section Vocabulary.
Variable F : fns R.
(** Carrying [i] the cell shows the positive voltage [v]. *)
Definition shows (c : spm R) (i v : R) : Prop := 0 < v /\ exists d, spm_V F (spm_at i c) = (d, Ok v).
(** A cell that balancing can handle between the voltages [m] and [M]: there are two currents, one with a voltage of [M]
    or above and one with [m] or below, between which the voltage falls with the current at the rate above; all voltages from
    [m] to [M] are within the safety limits; and a stored voltage is the one at the present current. *)
Definition spm_window (k m M : R) (c : spm R) (f : R -> R) (a b : R) : Prop :=
  (forall i, a <= i <= b -> shows c i (f i)) /\ 0 < q_cap (cp c) /\ falls k (q_cap (cp c)) f a b /\ M <= f a /\ f b <= m /\
  a <= s_I (cs c) <= b /\ (c_valid c = true -> s_V (cs c) = f (s_I (cs c))) /\
  l_VMIN (q_lim (cp c)) <= m /\ M <= l_VMAX (q_lim (cp c)).
Definition spm_balances (k m M : R) (c : spm R) : Prop := exists f a b, spm_window k m M c f a b.
(** The same, where the currents include [i], whose voltage lies between the bounds. *)
Definition spm_balances_at (k m M : R) (c : spm R) (i : R) : Prop :=
  exists f a b, spm_window k m M c f a b /\ a <= i <= b /\ m <= f i <= M.
(** A cell that voltage commands can handle: as above, with the bounds [D] on either side of the commanded voltage. *)
Definition spm_steers (k v D : R) (c : spm R) : Prop := exists f a b,
  (forall i, a <= i <= b -> shows c i (f i)) /\ drops k f a b /\ v + D <= f a /\ f b <= v - D /\
  a <= s_I (cs c) <= b /\ (c_valid c = true -> s_V (cs c) = f (s_I (cs c))) /\
  l_VMIN (q_lim (cp c)) <= v - D /\ v + D <= l_VMAX (q_lim (cp c)).
(** A single cell that can be commanded to [v] from a distance of up to [D]: the slope of its voltage lies between [s1] and
    [s2] as far as [D] and the change by the trial current (1% of the capacity) beyond [v], within the safety limits. *)
Definition spm_commands (s1 s2 v D : R) (c : spm R) : Prop := exists f a b, let E := D + s2 * (q_cap (cp c) / 100) in
  (forall i, a <= i <= b -> shows c i (f i)) /\ 0 < q_cap (cp c) /\ slopes s1 s2 f a b /\ v + E <= f a /\ f b <= v - E /\
  a <= s_I (cs c) <= b /\ (c_valid c = true -> s_V (cs c) = f (s_I (cs c))) /\ 0 < v - E /\
  l_VMIN (q_lim (cp c)) <= v - E /\ v + E <= l_VMAX (q_lim (cp c)).
(** The voltage of the cell is [e] less [r] times the current as long as it lies between [lo] and [hi]. *)
Definition spm_linear (lo hi e r : R) (c : spm R) : Prop :=
  0 < r /\ (forall i, lo <= e - r * i <= hi -> shows c i (e - r * i)) /\ lo <= e - r * s_I (cs c) <= hi /\
  (c_valid c = true -> s_V (cs c) = e - r * s_I (cs c)) /\ l_VMIN (q_lim (cp c)) <= lo /\ hi <= l_VMAX (q_lim (cp c)).
(** The currents that the circuit laws prescribe: carrying [js] all cells show the voltage [v]. *)
Definition spm_ideal (k m M v : R) (l : list (spm R)) (js : list R) : Prop :=
  Forall2 (fun c j => exists f a b, spm_window k m M c f a b /\ a <= j <= b /\ f j = v) l js.
(** The voltage the cell reports lies between the bounds. *)
Definition spm_between (m M : R) (c : spm R) : Prop := exists d v, spm_V F c = (d, Ok v) /\ m <= v <= M.
(** The cells' voltages deviate from a common one by less than [tol] in total. *)
Definition spm_agree (tol : R) (l : list (spm R)) : Prop := exists vs v,
  Forall2 (fun c x => exists d, spm_V F c = (d, Ok x)) l vs /\ Rsum (map (fun x => Rabs (v - x)) vs) < tol.
(** What balancing achieves; the total current only for equal capacities. *)
Definition spm_balanced (m M tol I : R) (l l' : list (spm R)) : Prop :=
  Forall2 spm_same l l' /\ Forall (spm_between m M) l' /\ spm_agree tol l' /\
  (forall c, Forall (fun x => q_cap (cp x) = c) l -> spm_total l' = I).
End Vocabulary.
