(** Vocabulary of the energy statements about an equivalent-circuit cell (C91). *)
From Verif Require Import Base RFacts UtilModel CellModel.
Local Open Scope R_scope.

(** An open-circuit voltage that does not fall as the cell is charged, wherever it can be read. *)
Definition rising (d : XYdata R) : Prop :=
  forall x y u v, x <= y -> XYdata_interp d x true = Ok u -> XYdata_interp d y true = Ok v -> u <= v.

(** A passive circuit: capacity positive, resistances not negative, time constants positive, and one current
    per RC pair. *)
Record passive (c : ecm R) : Prop := {
  ps_cap : 0 < p_cap (ep c);
  ps_Rdc : 0 <= p_Rdc (ep c);
  ps_Rp : Forall (fun r => 0 <= r) (p_Rp (ep c));
  ps_tau : Forall (fun k => 0 < k) (p_itau (ep c));
  ps_len : length (p_Rp (ep c)) = length (e_Ir (es c)) /\ length (p_itau (ep c)) = length (e_Ir (es c));
  ps_ocv : rising (p_ocv (ep c)) }.

(** Energy (Ws) in the capacitors of the RC pairs: resistance [r], time constant [1/k], so capacitance
    [1/(k r)]; resistor current [i], so voltage [r i]. *)
Fixpoint pairs_energy (rp itau ir : list R) : R :=
  match rp, itau, ir with
  | r :: rp', k :: itau', i :: ir' => 1 / 2 * r * (1 / k) * (i * i) + pairs_energy rp' itau' ir'
  | _, _, _ => 0
  end.
Definition stored (c : ecm R) : R := pairs_energy (p_Rp (ep c)) (p_itau (ep c)) (e_Ir (es c)).

(** A cell whose state of charge lies in its open-circuit table and whose voltage is not negative. *)
Definition readable (c : ecm R) : Prop :=
  (exists o, ecm_OCV c = Ok o) /\ (exists v, ecm_V c = Ok v /\ 0 <= v).

(** The growth [g] of the energy counter during a call at current [i], booked as delivered or taken in. *)
Definition out (i g : R) : R := if Rlt_dec 0 i then g else 0.
Definition into (i g : R) : R := if Rlt_dec 0 i then 0 else g.

(** [used c del tak d]: the cell goes from [c] to [d] by any current, voltage and temperature commands
    (accepted or refused) and constant-current calls with steps of at most twice the time constants, readable
    after every step; its energy counter grew by [del] while discharging and by [tak] while charging. *)
Inductive used : ecm R -> R -> R -> ecm R -> Prop :=
| u_nil c : used c 0 0 c
| u_setI c i chk c1 st del tak d :
    ecm_setCurrent i chk c = (c1, Ok st) -> used c1 del tak d -> used c del tak d
| u_setV c v chk c1 st del tak d :
    ecm_setVoltage v chk c = (c1, Ok st) -> used c1 del tak d -> used c del tak d
| u_setV_throws c v chk c1 n del tak d :
    ecm_setVoltage v chk c = (c1, Throw n) -> used c1 del tak d -> used c del tak d
| u_setT c t del tak d : used (ecm_setT t c) del tak d -> used c del tak d
| u_step c dt (n : nat) c1 del tak d :
    ecm_timeStep_CC dt (Z.of_nat n) c = (c1, Ok tt) ->
    Forall (fun k => dt * k <= 2) (p_itau (ep c)) ->
    (forall k : nat, (1 <= k <= n)%nat -> readable (fst (ecm_timeStep_CC dt (Z.of_nat k) c))) ->
    used c1 del tak d ->
    used c (out (e_I (es c)) (e_Wh (es c1) - e_Wh (es c)) + del)
           (into (e_I (es c)) (e_Wh (es c1) - e_Wh (es c)) + tak) d.
