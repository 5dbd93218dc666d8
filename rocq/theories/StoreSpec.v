(** * Specification of the usage statistics *)
From Verif Require Import Base RFacts UtilModel CoolModel ModuleModel StoreModel.
Local Open Scope R_scope.

(** What one data-collection period contributes: per-cell mean cooling power and fan power, coolant temperature, per-cell flow, and
    the length of the period. *)
Record sample : Type := mkS { s_Q : R; s_E : R; s_T : R; s_f : R; s_tau : R }.

(** Heat taken from the children and time of the exchanges of a history; number of storage requests. *)
Fixpoint heat_of (es : list (cevent R)) : R :=
  match es with [] => 0 | EExchange _ c _ :: t => c + heat_of t | _ :: t => heat_of t end.
Fixpoint time_of (es : list (cevent R)) : R :=
  match es with [] => 0 | EExchange _ _ d :: t => d + time_of t | _ :: t => time_of t end.
Fixpoint stores (es : list (cevent R)) : nat :=
  match es with [] => 0 | EStore :: t => S (stores t) | _ :: t => stores t end.

(** Energy of the AC unit so far, zero without one. *)
Definition ac_total (k : cool R) : R := match k_kind k with CHvac h => h_Eac h | _ => 0 end.

(** A system that has not run yet. *)
Definition unused (k : cool R) : Prop := k_cum k = cum0 /\ ac_total k = 0.

(** Every module of a unit was announced with the number of cells it got, not zero. *)
Fixpoint numbers_agree {A C : Type} (n : nat) : su A C n -> Prop :=
  match n with
  | O => fun _ => True
  | S n' => fun s =>
      match s with
      | inl _ => True
      | inr m => m_N (mm m) = k_N (m_cool (mm m)) /\ k_N (m_cool (mm m)) <> 0%nat /\ forall p, In p (ms m) -> numbers_agree n' p
      end
  end.

(** What the write requests of a history append to the file, up to the first failure. *)
Fixpoint written {A : Type} {NA : Num A} (lvl : Z) (n : nat) (es : list (cevent A)) (x : crec A) : list (cline A) :=
  match es with
  | [] => []
  | e :: t =>
      (match e with EWrite => snd (cool_write x) | _ => [] end) ++
      match cevent_do lvl n e x with (x', Ok _) => written lvl n t x' | _ => [] end
  end.
(** The same history without write requests. *)
Definition unwritten {A : Type} (es : list (cevent A)) : list (cevent A) :=
  filter (fun e => match e with EWrite => false | _ => true end) es.
