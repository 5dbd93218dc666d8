(** Vocabulary of the statements about parallel modules that hold equivalent-circuit and physics-based cells side by side (C93). *)
From Coq Require Import List.
From Verif Require Import Base RFacts CellModel ModuleModel SpmModel SpmUnitModel FleetModel ConvSpec MonoSpec.
Import ListNotations.
Local Open Scope R_scope.

Section Vocabulary.
Variable F : fns R.
(** Every cell can be balanced between the voltages [m] and [M], each kind in its own sense. *)
Definition mix_balances (k m M : R) (c : ecmu R + spm R) : Prop :=
  match c with inl e => 0 < p_cap (ep (u_ecm e)) /\ balances k m M e | inr s => spm_balances F k m M s end.
(** The same with [i] among the currents it may carry, at a voltage between the bounds. *)
Definition mix_balances_at (k m M : R) (c : ecmu R + spm R) (i : R) : Prop :=
  match c with
  | inl e => 0 < p_cap (ep (u_ecm e)) /\ balances k m M e /\ between m M (carrying i e)
  | inr s => spm_balances_at F k m M s i
  end.
Definition mix_between (m M : R) (c : ecmu R + spm R) : Prop :=
  match c with inl e => between m M e | inr s => spm_between F m M s end.
(** Parallel cells that a voltage command can steer to [v] from a distance of [D]. *)
Definition mix_steers (k v D : R) (c : ecmu R + spm R) : Prop :=
  match c with
  | inl e => in_limits (v - D) (v + D) e /\ k <= 200 * p_Rdc (ep (u_ecm e)) <= 2 - k
  | inr s => spm_steers F k v D s
  end.
(** Nothing has changed but the current (and the stored voltage of physics-based cells). *)
Definition mix_same (c d : ecmu R + spm R) : Prop :=
  match c, d with
  | inl e, inl e' => e' = carrying (e_I (es (u_ecm e'))) e
  | inr s, inr s' => spm_same s s'
  | _, _ => False
  end.
Definition mix_I (c : ecmu R + spm R) : R := match c with inl e => e_I (es (u_ecm e)) | inr s => s_I (cs s) end.
Definition mix_cap (c : ecmu R + spm R) : R := match c with inl e => p_cap (ep (u_ecm e)) | inr s => q_cap (cp s) end.
(** The voltage the cell reports. *)
Definition mix_reads (c : ecmu R + spm R) (x : R) : Prop :=
  match c with inl e => ecm_V (u_ecm e) = Ok x | inr s => exists d, spm_V F s = (d, Ok x) end.
Definition mix_balanced (m M tol I : R) (l l' : list (ecmu R + spm R)) : Prop :=
  Forall2 mix_same l l' /\ Forall (mix_between m M) l' /\
  (exists vs v, Forall2 mix_reads l' vs /\ Rsum (map (fun x => Rabs (v - x)) vs) < tol) /\
  (forall c, Forall (fun x => mix_cap x = c) l -> Rsum (map mix_I l') = I).
End Vocabulary.
