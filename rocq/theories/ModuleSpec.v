(** * Specifications for trees of modules *)
From Coq Require Import List Reals.
From Verif Require Import Base RFacts StatusModel CellModel CellSpec CoolModel CoolSpec ModuleModel.
Import ListNotations.

(** ** Structure of a tree *)
Section Tree.
Context {A C : Type}.

(** The cells of a tree, in order. *)
Fixpoint leaves (n : nat) : su A C n -> list C :=
  match n return su A C n -> list C with
  | O => fun c => [c]
  | S n' => fun u => match (u : C + module A (su A C n')) with inl c => [c] | inr m => flat_map (leaves n') (ms m) end
  end.

(** Every module of the tree satisfies [P n children record]. *)
Fixpoint every_module (P : forall n, modrec A -> list (su A C n) -> Prop) (n : nat) : su A C n -> Prop :=
  match n return su A C n -> Prop with
  | O => fun _ => True
  | S n' => fun u => match (u : C + module A (su A C n')) with
                     | inl _ => True
                     | inr m => P n' (mm m) (ms m) /\ Forall (every_module P n') (ms m)
                     end
  end.

(** No module is empty and each has one contact resistance per child. *)
Definition well_formed (n : nat) : su A C n -> Prop :=
  every_module (fun _ r l => l <> [] /\ length (m_rc r) = length l) n.
(** All modules are series modules. *)
Definition all_series (n : nat) : su A C n -> Prop := every_module (fun _ r _ => m_series r = true) n.
(** At most 100 children each. *)
Definition narrow (n : nat) : su A C n -> Prop := every_module (fun _ _ l => (length l <= 100)%nat) n.

(** Same tree of modules: kind and number of children; the cells are related by [P]. *)
Fixpoint same_tree (P : C -> C -> Prop) (n : nat) : su A C n -> su A C n -> Prop :=
  match n return su A C n -> su A C n -> Prop with
  | O => P
  | S n' => fun u v =>
      match (u : C + module A (su A C n')), (v : C + module A (su A C n')) with
      | inl c, inl d => P c d
      | inr m, inr k => m_series (mm m) = m_series (mm k) /\ Forall2 (same_tree P n') (ms m) (ms k)
      | _, _ => False
      end
  end.
End Tree.

(** ** Circuit laws, over the reals *)
Local Open Scope R_scope.

Definition is_min (xs : list R) (x : R) : Prop := In x xs /\ forall y, In y xs -> x <= y.
Definition is_max (xs : list R) (x : R) : Prop := In x xs /\ forall y, In y xs -> y <= x.
Definition is_sum (xs : list R) (x : R) : Prop := x = Rsum xs.
Definition is_mean (xs : list R) (x : R) : Prop := x * INR (length xs) = Rsum xs.

(** The value a tree has when series modules combine their children's values by [ser] and parallel modules by [par]. *)
Fixpoint combined {C : Type} (leaf : C -> R -> Prop) (ser par : list R -> R -> Prop) (n : nat) : su R C n -> R -> Prop :=
  match n return su R C n -> R -> Prop with
  | O => leaf
  | S n' => fun u x =>
      match (u : C + module R (su R C n')) with
      | inl c => leaf c x
      | inr m => exists xs, Forall2 (combined leaf ser par n') (ms m) xs /\ (if m_series (mm m) then ser xs x else par xs x)
      end
  end.

(** Current of a tree: of a series module that of its first child (of all of them, when they agree), of a parallel module
    the sum. *)
Fixpoint current (n : nat) : su R (ecmu R) n -> R :=
  match n return su R (ecmu R) n -> R with
  | O => fun c => e_I (es (u_ecm c))
  | S n' => fun u =>
      match (u : ecmu R + module R (su R (ecmu R) n')) with
      | inl c => e_I (es (u_ecm c))
      | inr m => if m_series (mm m) then match ms m with [] => 0 | s :: _ => current n' s end
                 else Rsum (map (current n') (ms m))
      end
  end.

(** [i] behind position [j]: the summed current of the branches from [j] on. *)
Definition behind (is : list R) (j : nat) : R := Rsum (skipn j is).
(** Voltage lost between the terminals and branch [j] of a parallel module: each contact resistance up to [j] carries the
    current of all branches behind it. *)
Definition ladder_drop (rc is : list R) (j : nat) : R :=
  Rsum (map (fun k => nth k rc 0 * behind is k) (seq 0 (S j))).

(** The linear network of a tree: [i] flowing through it causes the drop [v] (Kirchhoff's laws, no equivalent
    resistances). *)
Fixpoint network (n : nat) : su R (ecmu R) n -> R -> R -> Prop :=
  match n return su R (ecmu R) n -> R -> R -> Prop with
  | O => fun c i v => v = p_Rdc (ep (u_ecm c)) * i
  | S n' => fun u i v =>
      match (u : ecmu R + module R (su R (ecmu R) n')) with
      | inl c => v = p_Rdc (ep (u_ecm c)) * i
      | inr m =>
          if m_series (mm m) then
            exists vs, Forall2 (fun s x => network n' s i x) (ms m) vs /\ v = Rsum vs + Rsum (m_rc (mm m)) * i
          else
            exists is, length is = length (ms m) /\ i = Rsum is /\
              forall j s ij, nth_error (ms m) j = Some s -> nth_error is j = Some ij ->
                network n' s ij (v - ladder_drop (m_rc (mm m)) is j)
      end
  end.

(** Positive cell resistances, non-negative contact resistances. *)
Definition resistive (n : nat) (u : su R (ecmu R) n) : Prop :=
  Forall (fun c => 0 < p_Rdc (ep (u_ecm c))) (leaves n u) /\
  every_module (fun _ r _ => Forall (fun x => 0 <= x) (m_rc r)) n u.

(** Terminal voltage of a tree as it is now. A series module with a child that has no positive voltage has voltage 0
    ("invalid"). *)
Fixpoint voltage (n : nat) : su R (ecmu R) n -> R -> Prop :=
  match n return su R (ecmu R) n -> R -> Prop with
  | O => fun c v => ecm_V (u_ecm c) = Ok v
  | S n' => fun u v =>
      match (u : ecmu R + module R (su R (ecmu R) n')) with
      | inl c => ecm_V (u_ecm c) = Ok v
      | inr m =>
          if m_series (mm m) then
            exists vs, Forall2 (voltage n') (ms m) vs /\
              ((Forall (fun x => 0 < x) vs /\
                v = Rsum vs - Rsum (map (fun p => fst p * current n' (snd p)) (combine (m_rc (mm m)) (ms m)))) \/
               (Exists (fun x => x <= 0) vs /\ v = 0))
          else
            match ms m with
            | [] => v = 0
            | s :: _ => exists v0, voltage n' s v0 /\ v = v0 - Rsum (map (current n') (ms m)) * nth 0 (m_rc (mm m)) 0
            end
      end
  end.

(** Every stored module voltage is the present one. *)
Definition caches_right (n : nat) (u : su R (ecmu R) n) : Prop :=
  every_module (fun k r l => m_Vok r = true -> m_series r = true -> voltage (S k) (inr (mkM r l)) (m_V r)) n u.

(** ** Histories *)

(** One call on the root of a tree. All results are possible, except that a time step returns normally. Replacing the
    children or the contact resistances is only possible on a module; the new children are trees with right caches and the
    resistances match their number. *)
Inductive root_call (tm : Z) (n : nat) : su R (ecmu R) n -> su R (ecmu R) n -> Prop :=
| call_V u u' r : o_V (su_ops_at ecm_ops tm n) u = (u', r) -> root_call tm n u u'
| call_checkV u u' r : o_checkV (su_ops_at ecm_ops tm n) u = (u', r) -> root_call tm n u u'
| call_Vhigh u u' r : o_Vhigh (su_ops_at ecm_ops tm n) u = (u', r) -> root_call tm n u u'
| call_Vlow u u' r : o_Vlow (su_ops_at ecm_ops tm n) u = (u', r) -> root_call tm n u u'
| call_setCurrent i chk u u' r : o_setCurrent (su_ops_at ecm_ops tm n) i chk u = (u', r) -> root_call tm n u u'
| call_setVoltage v u u' r : setVoltage_iterative (su_ops_at ecm_ops tm n) v u = (u', r) -> root_call tm n u u'
| call_setStates s chk u u' r : o_setStates (su_ops_at ecm_ops tm n) s chk u = (u', r) -> root_call tm n u u'
| call_timeStep dt k u u' : o_timeStep (su_ops_at ecm_ops tm n) dt k u = (u', Ok tt) -> root_call tm n u u'
| call_thermal nb t u u' r : o_thermal (su_ops_at ecm_ops tm n) nb t u = (u', r) -> root_call tm n u u'
| call_setT t u u' r : o_setT (su_ops_at ecm_ops tm n) t u = (u', r) -> root_call tm n u u'
| call_block b u : root_call tm n u (o_setFlag (su_ops_at ecm_ops tm n) b u)
| call_coolload u u' r : o_coolload (su_ops_at ecm_ops tm n) u = (u', r) -> root_call tm n u u'.
Inductive module_call (tm : Z) (n : nat) : module R (su R (ecmu R) n) -> module R (su R (ecmu R) n) -> Prop :=
| mcall_unit m m' : root_call tm (S n) (inr m) (inr m') -> module_call tm n m m'
| mcall_redistribute m l r : p_redistribute (su_ops_at ecm_ops tm n) (m_rc (mm m)) (ms m) = (l, r) -> m_series (mm m) = false ->
    module_call tm n m (mkM (mm m) l)
| mcall_setVoltage v m l r : p_setVoltage (su_ops_at ecm_ops tm n) v (m_rc (mm m)) (ms m) = (l, r) -> m_series (mm m) = false ->
    module_call tm n m (mkM (mm m) l)
| mcall_setBlock b m : module_call tm n m (mod_setBlock (su_ops_at ecm_ops tm n) b m)
| mcall_setRcontact rc m : length rc = length (ms m) -> module_call tm n m (mod_setRcontact rc m)
| mcall_setSUs l m : l <> [] -> Forall (well_formed n) l -> Forall (caches_right n) l ->
    Forall (fun s => Forall (fun c => good_ocv (p_ocv (ep (u_ecm c)))) (leaves n s)) l ->
    module_call tm n m (mod_setSUs (su_ops_at ecm_ops tm n) l m).
Inductive calls {X : Type} (call : X -> X -> Prop) : X -> X -> Prop :=
| no_calls x : calls call x x
| more_calls x y z : calls call x y -> call y z -> calls call x z.

(** ** Time, heat, extremes, cooling energy *)

(** Cell [d] is cell [c] after a completed time step, but for the current and the temperature (which a module may change
    after its cells have stepped). *)
Definition advanced {A : Type} {NA : Num A} (dt : A) (k : Z) (c d : ecmu A) : Prop :=
  exists e, ecm_timeStep_CC dt k (u_ecm c) = (e, Ok tt) /\ u_block d = u_block c /\ ep (u_ecm d) = ep e /\
    e_SOC (es (u_ecm d)) = e_SOC (es e) /\ e_Ir (es (u_ecm d)) = e_Ir (es e) /\ e_time (es (u_ecm d)) = e_time (es e) /\
    e_Ah (es (u_ecm d)) = e_Ah (es e) /\ e_Wh (es (u_ecm d)) = e_Wh (es e).

(** r I^2 t over the resistors carrying [i] for the time [t] *)
Definition contact_heat (rc : list R) (i t : R) : R := Rsum (map (fun r => r * (i * i) * t) rc).

(** Values of a function of the children, over all modules of the tree *)
Fixpoint over_modules {A C Y : Type} (f : forall n, modrec A -> list (su A C n) -> Y) (n : nat) : su A C n -> list Y :=
  match n return su A C n -> list Y with
  | O => fun _ => []
  | S n' => fun u => match (u : C + module A (su A C n')) with
                     | inl _ => []
                     | inr m => f n' (mm m) (ms m) :: flat_map (over_modules f n') (ms m)
                     end
  end.
Definition coolers {A C : Type} (n : nat) : su A C n -> list (cool A) := over_modules (fun _ r _ => m_cool r) n.
(** What a cooling system has consumed in its life: the fan's and the AC unit's counters, which no query resets. *)
Definition consumed (k : cool R) : R := u_E (k_cum k) + match k_kind k with CHvac h => h_Eac h | _ => 0 end.
Definition unreported (k : cool R) : R := u_Eop (k_cum k).
Definition total (f : cool R -> R) (n : nat) (u : su R (ecmu R) n) : R := Rsum (map f (coolers n u)).

(** A history of calls on a tree (of any outcome) with the cooling load returned by the queries in it *)
Inductive cooling_history (tm : Z) (n : nat) : su R (ecmu R) n -> R -> su R (ecmu R) n -> Prop :=
| ch_nil u : cooling_history tm n u 0 u
| ch_step dt k u q v w r : cooling_history tm n u q v -> o_timeStep (su_ops_at ecm_ops tm n) dt k v = (w, r) -> cooling_history tm n u q w
| ch_thermal nb t u q v w r : cooling_history tm n u q v -> o_thermal (su_ops_at ecm_ops tm n) nb t v = (w, r) -> cooling_history tm n u q w
| ch_setT t u q v w r : cooling_history tm n u q v -> o_setT (su_ops_at ecm_ops tm n) t v = (w, r) -> cooling_history tm n u q w
| ch_setCurrent i b u q v w r : cooling_history tm n u q v -> o_setCurrent (su_ops_at ecm_ops tm n) i b v = (w, r) -> cooling_history tm n u q w
| ch_setStates s b u q v w r : cooling_history tm n u q v -> o_setStates (su_ops_at ecm_ops tm n) s b v = (w, r) -> cooling_history tm n u q w
| ch_V u q v w r : cooling_history tm n u q v -> o_V (su_ops_at ecm_ops tm n) v = (w, r) -> cooling_history tm n u q w
| ch_checkV u q v w r : cooling_history tm n u q v -> o_checkV (su_ops_at ecm_ops tm n) v = (w, r) -> cooling_history tm n u q w
| ch_query u q v w e : cooling_history tm n u q v -> o_coolload (su_ops_at ecm_ops tm n) v = (w, Ok (Some e)) -> cooling_history tm n u (q + e) w.

(** A history of one module with the contact heat generated in its time steps *)
Inductive heat_history (tm : Z) (n : nat) : module R (su R (ecmu R) n) -> R -> module R (su R (ecmu R) n) -> Prop :=
| hh_nil m : heat_history tm n m 0 m
| hh_step dt k a q b c : heat_history tm n a q b -> mod_timeStep (su_ops_at ecm_ops tm n) tm dt k b = (c, Ok tt) ->
    heat_history tm n a (q + contact_heat (m_rc (mm b)) (current (S n) (inr c)) (IZR k * dt)) c
| hh_setCurrent i chk a q b c r : heat_history tm n a q b -> mod_setCurrent (su_ops_at ecm_ops tm n) i chk b = (c, r) -> heat_history tm n a q c
| hh_setStates s chk a q b c r : heat_history tm n a q b -> mod_setStates (su_ops_at ecm_ops tm n) s chk b = (c, r) -> heat_history tm n a q c
| hh_V a q b c r : heat_history tm n a q b -> mod_V (su_ops_at ecm_ops tm n) b = (c, r) -> heat_history tm n a q c
| hh_checkV a q b c r : heat_history tm n a q b -> mod_checkV (su_ops_at ecm_ops tm n) b = (c, r) -> heat_history tm n a q c
| hh_coolload a q b c r : heat_history tm n a q b -> mod_coolload (su_ops_at ecm_ops tm n) b = (c, r) -> heat_history tm n a q c.

(** The branch voltages of a parallel module, as seen from its terminals *)
Definition branch_voltages (n : nat) (l : list (su R (ecmu R) n)) (rc : list R) (ws : list R) : Prop :=
  exists vs, Forall2 (voltage n) l vs /\ length ws = length l /\
    forall j v w, nth_error vs j = Some v -> nth_error ws j = Some w -> w = v - ladder_drop rc (map (current n) l) j.
(** Summed distance from [v] *)
Definition off_by (v : R) (ws : list R) : R := Rsum (map (fun w => Rabs (v - w)) ws).

(** ** Conditions on trees *)
Section Conditions.
Context {A : Type} {NA : Num A}.
(** Cells of the same kind *)
Definition like (c d : ecmu A) : Prop :=
  ep (u_ecm c) = ep (u_ecm d) /\ length (e_Ir (es (u_ecm c))) = length (e_Ir (es (u_ecm d))).
(** States a tree accepts: valid cells (with acceptable voltages when they are checked), coolant temperatures in range. *)
Definition acceptable_cell (chk : bool) (d : ecmu A) : Prop :=
  ecm_validStates (u_ecm d) = true /\
  (chk = true -> exists v st, ecm_checkVoltage (u_ecm d) = Ok (v, st) /\ isStatusOK st = true).
Definition temps_allowed (n : nat) (u : su A (ecmu A) n) : Prop :=
  every_module (fun _ r _ => T_allowed (k_T (m_cool r))) n u.
(** The status of a cell's voltage check *)
Definition cell_status (c : ecmu A) (s : Status) : Prop := exists v, ecm_checkVoltage (u_ecm c) = Ok (v, s).
(** [st] is the worst of [sts]; Success when there are none *)
Definition worst_of (sts : list Status) (st : Status) : Prop :=
  (forall s, In s sts -> (status_val s <= status_val st)%Z) /\ (In st sts \/ sts = [] /\ st = Success).
(** Series modules with at most 100 children *)
Definition serial (n : nat) (u : su A (ecmu A) n) : Prop := all_series n u /\ narrow n u.
End Conditions.

(** A proper OCV table and a state of charge in range *)
Definition cell_ok (c : ecmu R) : Prop := good_ocv (p_ocv (ep (u_ecm c))) /\ 0 <= e_SOC (es (u_ecm c)) <= 1.
(** Well-formed, with proper OCV tables; [ok]: and with right caches *)
Definition tame (n : nat) (u : su R (ecmu R) n) : Prop :=
  well_formed n u /\ Forall (fun c => good_ocv (p_ocv (ep (u_ecm c)))) (leaves n u).
Definition ok (n : nat) (u : su R (ecmu R) n) : Prop := caches_right n u /\ tame n u.
(** The branch voltages deviate from their mean by less than [tol] in total. *)
Definition balanced_within (n : nat) (l : list (su R (ecmu R) n)) (rc : list R) (tol : R) : Prop :=
  exists ws m, branch_voltages n l rc ws /\ is_mean ws m /\ off_by m ws < tol.
Definition cell_V (c : ecmu R) : R := match ecm_V (u_ecm c) with Ok v => v | _ => 0 end.
