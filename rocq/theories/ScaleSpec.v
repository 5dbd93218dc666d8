(** * Specification vocabulary for batteries of identical cells *)
From Coq Require Import List Reals.
From Verif Require Import Base RFacts StatusModel CellModel CoolModel ModuleModel ModuleSpec CyclerModel PackModel.
Import ListNotations.
Local Open Scope R_scope.

(** Cell [d] is cell [c] but for its temperature. *)
Definition like (c d : ecmu R) : Prop :=
  ep (u_ecm d) = ep (u_ecm c) /\ es (u_ecm d) = with_T (es (u_ecm c)) (e_T (es (u_ecm d))).
Definition same_shape (n : nat) : su R (ecmu R) n -> su R (ecmu R) n -> Prop := same_tree (fun _ _ => True) n.

(** A battery of cells like [c], [k] in series and [p] in parallel, wired in any nesting of series and parallel modules:
    no contact resistance, parallel branches built alike, a voltage remembered by a series module is its voltage. *)
Fixpoint replica (n : nat) : su R (ecmu R) n -> nat -> nat -> ecmu R -> Prop :=
  match n return su R (ecmu R) n -> nat -> nat -> ecmu R -> Prop with
  | O => fun d k p c => k = 1%nat /\ p = 1%nat /\ like c d
  | S n' => fun u k p c =>
      match (u : ecmu R + module R (su R (ecmu R) n')) with
      | inl d => k = 1%nat /\ p = 1%nat /\ like c d
      | inr m =>
          ms m <> [] /\ (length (ms m) <= 100)%nat /\ m_rc (mm m) = repeat 0 (length (ms m)) /\
          (m_series (mm m) = true -> m_Vok (mm m) = true -> exists v, ecm_V (u_ecm c) = Ok v /\ 0 < v /\ m_V (mm m) = INR k * v) /\
          if m_series (mm m) then exists k', k = (length (ms m) * k')%nat /\ Forall (fun s => replica n' s k' p c) (ms m)
          else exists p', p = (length (ms m) * p')%nat /\ Forall (fun s => replica n' s k p' c) (ms m) /\
                 forall s t, In s (ms m) -> In t (ms m) -> same_shape n' s t
      end
  end.

(** The cell with its current set to [j]. *)
Definition at_current (c : ecmu R) (j : R) : ecmu R := mkEu (u_block c) (mkEcm (ep (u_ecm c)) (with_I (es (u_ecm c)) j)).
(** The cell's voltage at the current [j] is within its limits. *)
Definition accepts (c : ecmu R) (j : R) : Prop := exists v, ecm_checkVoltage (u_ecm (at_current c j)) = Ok (v, Success).

(** Storing data leaves such a battery what it is. *)
Definition unobtrusive {n : nat} (f : M (su R (ecmu R) n) unit) : Prop :=
  forall u u' k p c, replica n u k p c -> f u = (u', Ok tt) -> replica n u' k p c.
Definition ignore : M (su R (ecmu R) 0) unit := fun u => (u, Ok tt).

(** Cycler and books of the battery against those of the single cell: the same times, [p] times the charge, [k p] times
    the energy. *)
Definition scaled (n k p : nat) (w : cyc R (su R (ecmu R) n)) (wc : cyc R (su R (ecmu R) 0)) : Prop :=
  replica n (c_su w) k p (c_su wc) /\ c_idx w = c_idx wc /\ th_time (c_th w) = th_time (c_th wc) /\
  th_Ah (c_th w) = INR p * th_Ah (c_th wc) /\ th_Wh (c_th w) = INR (k * p) * th_Wh (c_th wc).
