(** Vocabulary of the statements about parallel strings with contact resistances between them (C93, C94). *)
From Coq Require Import List ZArith.
From Verif Require Import Base RFacts CellModel ModuleModel ConvSpec VoltSpec LadderSpec.
Import ListNotations.
Local Open Scope R_scope.

(** The voltages of the strings as seen from the terminals, read through the interface. *)
Definition string_terminals (tm : Z) (rc : list R) (l : list (su R (ecmu R) 1)) (ts : list R) : Prop := exists xs,
  Forall2 (fun s x => exists s2, o_V (su_ops_at ecm_ops tm 1) s = (s2, Ok x)) l xs /\ length ts = length l /\
  forall j x, nth_error xs j = Some x -> nth_error ts j = Some (x - contact_drop rc (map (o_I (su_ops_at ecm_ops tm 1)) l) j).
Definition string_between (tm : Z) (lo hi : R) (s : su R (ecmu R) 1) : Prop := exists s2 x, o_V (su_ops_at ecm_ops tm 1) s = (s2, Ok x) /\ lo <= x <= hi.
(** A string whose cells are within their limits at all string voltages between [lo] and [hi]. *)
Definition string_ok (lo hi : R) (P : R -> R -> Prop) (s : su R (ecmu R) 1) : Prop := exists r cs i x, s = inr (mkM r cs) /\ is_string r cs i x /\
  P (lmin (map (fun c => p_cap (ep (u_ecm c))) cs)) (string_R (m_rc r) cs) /\
  (forall j y, string_V (m_rc r) cs j y -> lo <= y <= hi -> Forall (safe_at j) cs).
