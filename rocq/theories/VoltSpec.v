(** Vocabulary of the statements about voltage commands on packs (C94). *)
From Coq Require Import List.
From Verif Require Import Base RFacts CellModel ModuleModel ConvSpec.
Import ListNotations.
Local Open Scope R_scope.

(** The voltage of cells in series with contact resistances [rc] when all carry the current [j]. *)
Definition string_V (rc : list R) (cs : list (ecmu R)) (j x : R) : Prop := exists vs,
  Forall2 (fun c u => ecm_V (u_ecm (carrying j c)) = Ok u) cs vs /\ x = Rsum vs - j * Rsum rc.
(** Its resistance. *)
Definition string_R (rc : list R) (cs : list (ecmu R)) : R := Rsum (map (fun c => p_Rdc (ep (u_ecm c))) cs) + Rsum rc.
(** At the current [j] the cell's voltage exists, is positive and within the safety limits. *)
Definition safe_at (j : R) (c : ecmu R) : Prop := exists u, ecm_V (u_ecm (carrying j c)) = Ok u /\ 0 < u /\
  l_VMIN (p_lim (ep (u_ecm c))) <= u <= l_VMAX (p_lim (ep (u_ecm c))).

(** A series module with record [r] and cells [cs] that carries [i] at the voltage [x]; a stored voltage is current. *)
Definition is_string (r : modrec R) (cs : list (ecmu R)) (i x : R) : Prop :=
  m_series r = true /\ length (m_rc r) = length cs /\ (1 <= length cs <= 100)%nat /\
  Forall (fun c => e_I (es (u_ecm c)) = i) cs /\ Forall (fun c => exists u, ecm_V (u_ecm c) = Ok u /\ 0 < u) cs /\
  string_V (m_rc r) cs i x /\ (m_Vok r = true -> m_V r = x).
(** The record apart from the stored voltage. *)
Definition uncached (r : modrec R) : modrec R := set_V r 0 false.
(** The same string at another current. *)
Definition string_carrying (j : R) (s s' : su R (ecmu R) 1) : Prop := exists r cs r',
  s = inr (mkM r cs) /\ s' = inr (mkM r' (map (carrying j) cs)) /\ uncached r' = uncached r.
(** A string within [D] of the voltage [v], with resistance [R], whose cells are within their limits at all string
    voltages as close to [v]. *)
Definition string_near (v D R0 : R) (s : su R (ecmu R) 1) : Prop := exists r cs i x, s = inr (mkM r cs) /\ is_string r cs i x /\
  Rabs (v - x) <= D /\ string_R (m_rc r) cs = R0 /\ (forall j y, string_V (m_rc r) cs j y -> Rabs (v - y) <= D -> Forall (safe_at j) cs).
(** A string with voltages between [lo] and [hi] allowed, at present between them, and capacity times resistance
    between [k] and 1, as balancing needs it. *)
Definition string_balances (k lo hi : R) (s : su R (ecmu R) 1) : Prop := exists r cs i x, s = inr (mkM r cs) /\ is_string r cs i x /\
  lo <= x <= hi /\ k <= lmin (map (fun c => p_cap (ep (u_ecm c))) cs) * string_R (m_rc r) cs <= 1 /\
  (forall j y, string_V (m_rc r) cs j y -> lo <= y <= hi -> Forall (safe_at j) cs).
