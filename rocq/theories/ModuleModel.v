(** * Model of modules: src/modules/Module{,_s,_p}.{hpp,cpp} over the storage-unit interface src/StorageUnit.hpp *)
From Verif Require Import Base StatusModel CellModel CoolModel.
Local Open Scope num_scope.

(** A failed outcome at another type. *)
Definition cast {B C : Type} (r : res B) : res C :=
  match r with Ok _ => UB (* not used *) | Throw n => Throw n | UB => UB | Fuel => Fuel end.

Section Module.
Context {A : Type} {NA : Num A}.

(** ** The virtual interface of a storage unit (src/StorageUnit.hpp:26-107) for states of type [S].
    Functions that write the object are state passing; [V()] is one of them because it caches. *)
Record su_ops (S : Type) : Type := mkOps {
  o_I : S -> A; o_Cap : S -> A; o_lim : S -> limits A; o_N : S -> nat; o_T : S -> A; o_Thot : S -> A; o_area : S -> A;
  o_OCV : S -> res A; o_Rtot : S -> res A;
  o_V : M S A; o_checkV : M S (A * Status); o_Vhigh : M S A; o_Vlow : M S A;
  o_getStates : S -> list A; o_setStates : list A -> bool -> M S (list A * Status);
  o_setCurrent : A -> bool -> M S Status;
  o_timeStep : A -> Z -> M S unit;
  (** neighbours as (T, K, A) triples *)
  o_thermal : list (A * A * A) -> A -> M S A;
  o_setT : A -> M S unit;
  (** [StorageUnit::setBlockDegAndTherm] (StorageUnit.hpp:64), which is not virtual *)
  o_setFlag : bool -> S -> S;
  (** [dynamic_cast<Module *>] succeeds and [getCoolingLoad()] is called; [None] when the cast fails *)
  o_coolload : M S (option A) }.
Arguments o_I {S}. Arguments o_Cap {S}. Arguments o_lim {S}. Arguments o_N {S}. Arguments o_T {S}. Arguments o_Thot {S}.
Arguments o_area {S}. Arguments o_OCV {S}. Arguments o_Rtot {S}. Arguments o_V {S}. Arguments o_checkV {S}.
Arguments o_Vhigh {S}. Arguments o_Vlow {S}. Arguments o_getStates {S}. Arguments o_setStates {S}.
Arguments o_setCurrent {S}. Arguments o_timeStep {S}. Arguments o_thermal {S}. Arguments o_setT {S}.
Arguments o_setFlag {S}. Arguments o_coolload {S}.

(** ** The equivalent-circuit cell as a storage unit (the block flag is in the base class StorageUnit.hpp:31). *)
Record ecmu : Type := mkEu { u_block : bool; u_ecm : ecm A }.
Definition lift_ecm {B : Type} (f : M (ecm A) B) : M ecmu B := fun u =>
  let '(c, r) := f (u_ecm u) in (mkEu (u_block u) c, r).
(** Cell_ECM.hpp:60-96, Cell.hpp:40-104 *)
Definition ecm_ops : su_ops ecmu := {|
  o_I u := ecm_I (u_ecm u); o_Cap u := p_cap (ep (u_ecm u)); o_lim u := p_lim (ep (u_ecm u)); o_N u := 1%nat;
  o_T u := ecm_T (u_ecm u); o_Thot u := ecm_T (u_ecm u); o_area u := nZ 0;
  o_OCV u := ecm_OCV (u_ecm u); o_Rtot u := Ok (p_Rdc (ep (u_ecm u)));
  o_V u := (u, ecm_V (u_ecm u)); o_checkV u := (u, ecm_checkVoltage (u_ecm u));
  o_Vhigh u := (u, ecm_V (u_ecm u)); o_Vlow u := (u, ecm_V (u_ecm u));
  o_getStates u := ecm_getStates (u_ecm u); o_setStates s b := lift_ecm (ecm_setStates s b);
  o_setCurrent i b := lift_ecm (ecm_setCurrent i b);
  o_timeStep dt n := lift_ecm (ecm_timeStep_CC dt n);
  o_thermal _ _ u := (u, Ok (ecm_T (u_ecm u)));
  o_setT t u := (mkEu (u_block u) (ecm_setT t (u_ecm u)), Ok tt);
  o_setFlag b u := mkEu b (u_ecm u);
  o_coolload u := (u, Ok None) |}.

(** ** Modules *)

(** Module.hpp:25-64. [m_top]: the module has no parent. [State<0,..>] and [data] are not modelled (they are only
    written when DATASTORE_MODULE is on; settings has it off). *)
Record modrec : Type := mkMod {
  m_series : bool; m_rc : list A; m_cool : cool A; m_k : A; m_area : A; m_Qc : A; m_time : A;
  m_N : nat; m_V : A; m_Vok : bool; m_par : bool; m_block : bool; m_top : bool }.
Record module (S : Type) : Type := mkM { mm : modrec; ms : list S }.
Arguments mkM {S}. Arguments mm {S}. Arguments ms {S}.

Definition set_V (m : modrec) (v : A) (ok : bool) : modrec :=
  mkMod (m_series m) (m_rc m) (m_cool m) (m_k m) (m_area m) (m_Qc m) (m_time m) (m_N m) v ok (m_par m) (m_block m) (m_top m).
Definition set_rc (m : modrec) (rc : list A) : modrec :=
  mkMod (m_series m) rc (m_cool m) (m_k m) (m_area m) (m_Qc m) (m_time m) (m_N m) (m_V m) (m_Vok m) (m_par m) (m_block m) (m_top m).
Definition set_cool (m : modrec) (k : cool A) : modrec :=
  mkMod (m_series m) (m_rc m) k (m_k m) (m_area m) (m_Qc m) (m_time m) (m_N m) (m_V m) (m_Vok m) (m_par m) (m_block m) (m_top m).
Definition set_therm (m : modrec) (qc t : A) : modrec :=
  mkMod (m_series m) (m_rc m) (m_cool m) (m_k m) (m_area m) qc t (m_N m) (m_V m) (m_Vok m) (m_par m) (m_block m) (m_top m).
Definition set_block (m : modrec) (b : bool) : modrec :=
  mkMod (m_series m) (m_rc m) (m_cool m) (m_k m) (m_area m) (m_Qc m) (m_time m) (m_N m) (m_V m) (m_Vok m) (m_par m) b (m_top m).
Definition set_N (m : modrec) (n : nat) : modrec :=
  mkMod (m_series m) (m_rc m) (m_cool m) (m_k m) (m_area m) (m_Qc m) (m_time m) n (m_V m) (m_Vok m) (m_par m) (m_block m) (m_top m).
Definition inval (m : modrec) : modrec := set_V m (m_V m) false.

(** settings.hpp, [MODULE_NSUs_MAX] *)
Definition NSUs_MAX : nat := 100.

(** Module.cpp:23-53: constructor; [cooltype] 1 = HVAC, 2 = open, otherwise the plain system. *)
Definition mod_make (S : Type) (series : bool) (Ti : A) (par : bool) (ncells : nat) (ctrl cooltype : Z) (top : bool)
  : res (module S) :=
  let k := if (cooltype =? 1)%Z then hvac_make ncells ctrl (nZ 0)
           else if (cooltype =? 2)%Z then open_make ncells ctrl else cool_make ncells ctrl in
  match cool_setT Ti k with
  | (k', Ok _) => Ok (mkM (mkMod series [] k' (nZ 5) (nlit 42 10000 * nZ 10 * nnat ncells) (nZ 0) (nZ 0) 0 (nZ 0) false
                                par false top) [])
  | (_, e) => cast e
  end.

Section Over.
Context {S : Type} (o : su_ops S).
Implicit Types (l : list S) (m : module S).

(** transform_max / transform_min (slide_algorithms.hpp:24-48) *)
Definition lmax (xs : list A) : A := match xs with [] => nZ 0 | x :: t => fold_left nmax t x end.
Definition lmin (xs : list A) : A := match xs with [] => nZ 0 | x :: t => fold_left nmin t x end.

(** Module_s.hpp:31-34, Module_p.hpp:31-34. [transform_sum] is [std::transform_reduce]: the order of the additions is
    left to the library; here from left to right. *)
Definition mod_lim m : limits A :=
  let ls := map (o_lim o) (ms m) in
  if m_series (mm m) then mkLim (nsum (map l_Vmin ls)) (nsum (map l_Vmax ls)) (nsum (map l_VMIN ls)) (nsum (map l_VMAX ls))
  else mkLim (lmax (map l_Vmin ls)) (lmin (map l_Vmax ls)) (lmax (map l_VMIN ls)) (lmin (map l_VMAX ls)).
(** Module_s.hpp:36, Module_p.hpp:36 *)
Definition mod_I m : A :=
  if m_series (mm m) then match ms m with [] => nZ 0 | s :: _ => o_I o s end
  else nsum (map (o_I o) (ms m)).
(** Module_s.hpp:37, Module_p.hpp:37 *)
Definition mod_Cap m : A :=
  if m_series (mm m) then lmin (map (o_Cap o) (ms m)) else nsum (map (o_Cap o) (ms m)).
(** Module.hpp:179 *)
Definition mod_N m : nat := m_N (mm m).
(** Module.hpp:86,91 *)
Definition mod_T m : A := k_T (m_cool (mm m)).
Definition mod_area m : A := m_area (mm m).
(** Module.hpp:184-191 *)
Definition mod_Thot m : A := fold_left (fun h s => nmax h (o_Thot o s)) (ms m) (mod_T m).

Fixpoint res_all {B : Type} (rs : list (res B)) : res (list B) :=
  match rs with [] => Ok [] | r :: t => rbind r (fun b => rmap (cons b) (res_all t)) end.
(** Module_s.cpp:27-38, Module_p.hpp:39 *)
Definition mod_OCV m : res A :=
  match ms m with
  | [] => Ok (nZ 0)
  | _ => rmap (fun vs => if m_series (mm m) then nsum vs else nsum vs / nnat (length (ms m)))
              (res_all (map (o_OCV o) (ms m)))
  end.
(** Module_s.cpp:40-53 *)
Fixpoint rtot_s (acc : A) l (rc : list A) {struct l} : res A :=
  match l, rc with
  | [], _ => Ok acc
  | s :: l', r :: rc' => rbind (o_Rtot o s) (fun x => rtot_s (acc + (x + r)) l' rc')
  | _, [] => UB
  end.
(** Module_p.cpp:33-46: from the last branch to the first *)
Fixpoint rtot_p l (rc : list A) {struct l} : res A :=
  match l, rc with
  | [s], [r] => rmap (fun x => r + x) (o_Rtot o s)
  | s :: l', r :: rc' => rbind (rtot_p l' rc') (fun rt => rmap (fun x => r + (x * rt) / (x + rt)) (o_Rtot o s))
  | _, _ => UB
  end.
Definition mod_Rtot m : res A :=
  if m_series (mm m) then rtot_s (nZ 0) (ms m) (m_rc (mm m))
  else match ms m with [] => Ok (nZ 0) | _ => rtot_p (ms m) (m_rc (mm m)) end.

(** *** Voltage *)

(** The loop of Module_s.cpp:62-71: children, the accumulated voltage, and whether all children were valid
    ([false]: a child had no valid voltage, the function returns 0). *)
Fixpoint sV_loop (acc : A) l (rc : list A) {struct l} : list S * A * res bool :=
  match l with
  | [] => ([], acc, Ok true)
  | s :: l' =>
      match o_V o s with
      | (s', Ok v) =>
          if v <=? nZ 0 then (s' :: l', acc, Ok false)
          else match rc with
               | [] => (s' :: l', acc, UB)
               | r :: rc' => let '(l'', a, e) := sV_loop (acc + (v - r * o_I o s')) l' rc' in (s' :: l'', a, e)
               end
      | (s', e) => (s' :: l', acc, cast e)
      end
  end.
(** Module_s.cpp:53-75 and Module_p.hpp:41 *)
Definition mod_V : M (module S) A := fun m =>
  if m_series (mm m) then
    if m_Vok (mm m) then (m, Ok (m_V (mm m)))
    else
      let '(l, acc, e) := sV_loop (nZ 0) (ms m) (m_rc (mm m)) in
      match e with
      | Ok true => (mkM (set_V (mm m) acc true) l, Ok acc)
      | Ok false => (mkM (set_V (mm m) acc false) l, Ok (nZ 0))
      | e => (mkM (set_V (mm m) acc false) l, cast e)
      end
  else
    match ms m, m_rc (mm m) with
    | [], _ => (m, Ok (nZ 0))
    | s :: l', r :: _ =>
        match o_V o s with
        | (s', Ok v) => let m' := mkM (mm m) (s' :: l') in (m', Ok (v - mod_I m' * r))
        | (s', e) => (mkM (mm m) (s' :: l'), e)
        end
    | s :: l', [] => (m, UB)
    end.

(** Runs an operation on every child in order; stops at the first that does not return. *)
Fixpoint each {B : Type} (f : M S B) l : list S * res (list B) :=
  match l with
  | [] => ([], Ok [])
  | s :: l' =>
      match f s with
      | (s', Ok b) => let '(l'', r) := each f l' in (s' :: l'', rmap (cons b) r)
      | (s', e) => (s' :: l', cast e)
      end
  end.

(** Module.cpp:113-138. The function is [noexcept]: an exception from a child's or the module's voltage terminates the
    program, here [UB]. *)
Definition mod_checkV : M (module S) (A * Status) := fun m =>
  match mod_V m with
  | (m1, Ok v) =>
      match each (o_checkV o) (ms m1) with
      | (l, Ok rs) => (mkM (mm m1) l, Ok (v, status_worst (map snd rs)))
      | (l, Throw _) => (mkM (mm m1) l, UB)
      | (l, e) => (mkM (mm m1) l, cast e)
      end
  | (m1, Throw _) => (m1, UB)
  | (m1, e) => (m1, cast e)
  end.
(** Module.cpp:140-159 *)
Definition mod_Vhigh : M (module S) A := fun m =>
  let '(l, r) := each (o_Vhigh o) (ms m) in
  (mkM (mm m) l, rmap (fun vs => fold_left nmax vs (l_Vmin (mod_lim m))) r).
Definition mod_Vlow : M (module S) A := fun m =>
  let '(l, r) := each (o_Vlow o) (ms m) in
  (mkM (mm m) l, rmap (fun vs => fold_left nmin vs (l_Vmax (mod_lim m))) r).

(** Module_p.cpp:56-91, [getVall]: from the last branch to the first; returns the branch voltages as seen from the
    terminals and the summed current. *)
Fixpoint getVall_from l (rc : list A) {struct l} : list S * res (list A * A) :=
  match l with
  | [] => ([], Ok ([], nZ 0))
  | s :: l' =>
      match rc with
      | [] => (l, UB)
      | r :: rc' =>
          match getVall_from l' rc' with
          | (l'', Ok (vs, ic)) =>
              match o_V o s with
              | (s', Ok v) =>
                  let ic' := ic + o_I o s' in
                  (s' :: l'', Ok (map (fun x => x - ic' * r) (v :: vs), ic'))
              | (s', e) => (s' :: l'', cast e)
              end
          | (l'', e) => (s :: l'', cast e)
          end
      end
  end.
Definition getVall l (rc : list A) : list S * res (list A) :=
  if Nat.ltb NSUs_MAX (length l) then (l, Throw 10)
  else let '(l', r) := getVall_from l rc in (l', rmap fst r).

(** *** Setting the current *)

Definition child_do {B : Type} (f : M S B) (i : nat) l : list S * res B :=
  match nth_error l i with
  | Some s => let '(s', r) := f s in (list_set l i s', r)
  | None => (l, UB)
  end.
(** Module_s.cpp:108-109: [for (int j{ i }; j > 0; j--)] *)
Fixpoint s_restore (i : nat) (olds : list A) l : list S * res unit :=
  match i with
  | O => (l, Ok tt)
  | Datatypes.S i' =>
      match nth_error olds i with
      | None => (l, UB)
      | Some iold =>
          match child_do (o_setCurrent o iold false) i l with
          | (l', Ok _) => s_restore i' olds l'
          | (l', e) => (l', cast e)
          end
      end
  end.
(** Module_s.cpp:93-114; [Iolds] has room for [NSUs_MAX] values. *)
Fixpoint s_setCurrent (todo i : nat) (Inew : A) (checkV : bool) (olds : list A) l : list S * res Status :=
  match todo with
  | O => (l, Ok Success)
  | Datatypes.S todo' =>
      if Nat.leb NSUs_MAX i then (l, UB)
      else
        match nth_error l i with
        | None => (l, UB)
        | Some s =>
            let olds' := olds ++ [o_I o s] in
            match child_do (o_setCurrent o Inew checkV) i l with
            | (l', Ok st) =>
                if isStatusBad st then
                  match s_restore i olds' l' with
                  | (l'', Ok _) => (l'', Ok st)
                  | (l'', e) => (l'', cast e)
                  end
                else s_setCurrent todo' (Datatypes.S i) Inew checkV olds' l'
            | (l', e) => (l', cast e)
            end
        end
  end.

(** [maxIteration] in Module_p.cpp:109 and 206 *)
Definition redistribute_iterations : nat := Z.to_nat 2500.
Definition setCurrent_iterations : nat := Z.to_nat 10550.
(** The update of the currents in Module_p.cpp:137-140 and 236-240: [Ia[i] -= (Vmean - Va[i]) * Cap_i]. *)
Fixpoint p_adjust (Vmean : A) (Ia Va : list A) l {struct l} : list S * res (list A) :=
  match l, Ia, Va with
  | [], _, _ => ([], Ok [])
  | s :: l', ia :: Ia', va :: Va' =>
      let ia' := ia - (Vmean - va) * o_Cap o s in
      match o_setCurrent o ia' true s with
      | (s', Ok _) => let '(l'', r) := p_adjust Vmean Ia' Va' l' in (s' :: l'', rmap (cons ia') r)
      | (s', e) => (s' :: l', cast e)
      end
  | _, _, _ => (l, UB)
  end.
Definition vmean (Va : list A) : A := nsum Va / nnat (length Va).
Definition spread (vm : A) (Va : list A) : A := nsum (map (fun v => nabs (vm - v)) Va).
(** The balancing loop: [None] when the iterations are exhausted. *)
Fixpoint p_balance (iter : nat) (tol : A) (rc Ia Va : list A) l : list S * res (option (list A)) :=
  match iter with
  | O => (l, Ok None)
  | Datatypes.S it =>
      let vm := vmean Va in
      if spread vm Va <? tol then (l, Ok (Some Ia))
      else
        match p_adjust vm Ia Va l with
        | (l1, Ok Ia') =>
            match getVall l1 rc with
            | (l2, Ok Va') => p_balance it tol rc Ia' Va' l2
            | (l2, e) => (l2, cast e)
            end
        | (l1, e) => (l1, cast e)
        end
  end.
(** Module_p.cpp:213-218: the first step, equal shares; returns early on a bad status. *)
Fixpoint p_first (dI : A) (Ia : list A) (st : Status) l {struct l} : list S * res (list A * Status) :=
  match l, Ia with
  | [], _ => ([], Ok ([], st))
  | s :: l', ia :: Ia' =>
      let ia' := ia + dI in
      match o_setCurrent o ia' true s with
      | (s', Ok st') =>
          if isStatusOK st' then
            let '(l'', r) := p_first dI Ia' st' l' in (s' :: l'', rmap (fun '(x, y) => (ia' :: x, y)) r)
          else (s' :: l', Ok ([], st'))
      | (s', e) => (s' :: l', cast e)
      end
  | _, [] => (l, UB)
  end.
(** Module_p.cpp:189-277. [Iolds], [Ia] hold [NSUs_MAX] values. With no children [dI] is 0/0 and unused, and the mean
    voltage is 0/0; the error is then 0 and the loop stops at once. *)
Definition p_setCurrent (Inew : A) (rc : list A) l : list S * res Status :=
  if Nat.ltb NSUs_MAX (length l) then (l, UB)
  else
    let Ia := map (o_I o) l in
    let dI := (Inew - nsum Ia) / nnat (length l) in
    match p_first dI Ia Success l with
    | (l1, Ok (Ia1, st)) =>
        if isStatusOK st then
          match getVall l1 rc with
          | (l2, Ok Va) =>
              match p_balance setCurrent_iterations (nlit 1 1000000000) rc Ia1 Va l2 with
              | (l3, Ok (Some _)) => (l3, Ok Success)
              | (l3, Ok None) => (l3, Ok st)
              | (l3, e) => (l3, cast e)
              end
          | (l2, e) => (l2, cast e)
          end
        else (l1, Ok st)
    | (l1, e) => (l1, cast e)
    end.
Definition mod_setCurrent (Inew : A) (checkV : bool) : M (module S) Status := fun m =>
  if m_series (mm m) then
    let '(l, r) := s_setCurrent (length (ms m)) 0 Inew checkV [] (ms m) in (mkM (inval (mm m)) l, r)
  else let '(l, r) := p_setCurrent Inew (m_rc (mm m)) (ms m) in (mkM (mm m) l, r).

(** Module_p.cpp:102-149 *)
Definition p_redistribute (rc : list A) l : list S * res Status :=
  if Nat.leb (length l) 1 then (l, Ok Success)
  else if Nat.ltb NSUs_MAX (length l) then (l, Throw 10)
  else
    match getVall l rc with
    | (l1, Ok Va) =>
        match p_balance redistribute_iterations (nlit 1 10000000000) rc (map (o_I o) l1) Va l1 with
        | (l2, Ok (Some _)) => (l2, Ok Success)
        | (l2, Ok None) => (l2, Ok RedistributeCurrent_failed)
        | (l2, e) => (l2, cast e)
        end
    | (l1, e) => (l1, cast e)
    end.

(** Module_p.cpp:151-187 *)
Fixpoint p_vadjust (Vnew : A) (Ia Va : list A) l {struct l} : list S * res (list A) :=
  match l, Ia, Va with
  | [], _, _ => ([], Ok [])
  | s :: l', ia :: Ia', va :: Va' =>
      let ia' := ia + nlit (-2) 10 * (Vnew - va) / nlit 1 1000 in
      match o_setCurrent o ia' true s with
      | (s', Ok _) => let '(l'', r) := p_vadjust Vnew Ia' Va' l' in (s' :: l'', rmap (cons ia') r)
      | (s', e) => (s' :: l', cast e)
      end
  | _, _, _ => (l, UB)
  end.
Fixpoint p_vloop (iter : nat) (Vnew : A) (rc Ia : list A) l : list S * res Status :=
  match iter with
  | O => (l, Ok RedistributeCurrent_failed)
  | Datatypes.S it =>
      match getVall l rc with
      | (l1, Ok Va) =>
          if spread Vnew Va <? nlit 1 10000000000 then (l1, Ok Success)
          else match p_vadjust Vnew Ia Va l1 with
               | (l2, Ok Ia') => p_vloop it Vnew rc Ia' l2
               | (l2, e) => (l2, cast e)
               end
      | (l1, e) => (l1, cast e)
      end
  end.
Definition p_setVoltage (Vnew : A) (rc : list A) l : list S * res Status :=
  if Nat.ltb NSUs_MAX (length l) then (l, UB) else p_vloop 50 Vnew rc (map (o_I o) l) l.

(** *** States *)

(** Module.cpp:161-172 *)
Definition mod_getStates m : list A := flat_map (o_getStates o) (ms m) ++ [mod_T m].

(** Module.cpp:226-228: [for j = 0..i: SUs[i]->setStates(spn_orig, false)] *)
Fixpoint ss_restore_from (count i : nat) (orig : list A) l : list S * res unit :=
  match count with
  | O => (l, Ok tt)
  | Datatypes.S c =>
      match child_do (o_setStates o orig false) i l with
      | (l', Ok (rest, _)) => ss_restore_from c i rest l'
      | (l', e) => (l', cast e)
      end
  end.
Fixpoint ss_loop (todo i : nat) (s orig : list A) (checkV : bool) l : list S * res (list A * Status) :=
  match todo with
  | O => (l, Ok (s, Success))
  | Datatypes.S t =>
      match child_do (o_setStates o s checkV) i l with
      | (l', Ok (rest, st)) =>
          if isStatusBad st then
            match ss_restore_from (Datatypes.S i) i orig l' with
            | (l'', Ok _) => (l'', Ok (rest, st))
            | (l'', e) => (l'', cast e)
            end
          else ss_loop t (Datatypes.S i) rest orig checkV l'
      | (l', e) => (l', cast e)
      end
  end.
(** Module.cpp:193-268. The [assert] on line 237 is compiled out with NDEBUG and is not modelled. *)
Definition mod_setStates (s : list A) (checkV : bool) : M (module S) (list A * Status) := fun m =>
  match ss_loop (length (ms m)) 0 s (mod_getStates m) checkV (ms m) with
  | (l, Ok (rest, st)) =>
      let m1 := mkM (inval (mm m)) l in
      if isStatusBad st then (m1, Ok (rest, st))
      else
        match rest with
        | [] => (m1, UB)
        | t :: rest' =>
            match cool_setT t (m_cool (mm m1)) with
            | (k, Ok _) => (mkM (set_cool (mm m1) k) l, Ok (rest', Success))
            | (k, e) => (m1, cast e)
            end
        end
  | (l, e) => (mkM (inval (mm m)) l, cast e)
  end.

(** *** Thermal model *)

(** Module.cpp:303-385, the heat exchange of child [i] of [n] with the module and its neighbours. *)
Definition neighbours m (i : nat) l : option (list (A * A * A)) :=
  let h := cool_getH (m_cool (mm m)) in
  let self := (mod_T m, m_k (mm m), mod_area m) in
  let left := match i with
              | O => Some self
              | Datatypes.S i' => option_map (fun s => (o_T o s, m_k (mm m), o_area o s)) (nth_error l i')
              end in
  let right := if Nat.ltb (i + 1) (length l)
               then option_map (fun s => (o_T o s, m_k (mm m), o_area o s)) (nth_error l (i + 1))
               else Some self in
  match left, right with
  | Some a, Some b => Some [(mod_T m, h, mod_area m); a; b]
  | _, _ => None
  end.
Fixpoint th_children (todo i : nat) m (tim : A) l : list S * res (list A) :=
  match todo with
  | O => (l, Ok [])
  | Datatypes.S t =>
      match neighbours m i l with
      | None => (l, UB)
      | Some nb =>
          match child_do (o_thermal o nb tim) i l with
          | (l', Ok x) => let '(l'', r) := th_children t (Datatypes.S i) m tim l' in (l'', rmap (cons x) r)
          | (l', e) => (l', cast e)
          end
      end
  end.
(** Module.cpp:356-370, heat the module receives from its children *)
Fixpoint th_heat (i n : nat) m (tim acc : A) l : A :=
  match l with
  | [] => acc
  | s :: l' =>
      let at_ := nmin (mod_area m) (o_area o s) in
      let h := cool_getH (m_cool (mm m)) in
      let acc := acc + h * at_ * (o_T o s - mod_T m) * tim in
      let acc := if Nat.eqb i 0 then acc + m_k (mm m) * at_ * (o_T o s - mod_T m) * tim else acc in
      let acc := if Nat.eqb i (n - 1) then acc + m_k (mm m) * at_ * (o_T o s - mod_T m) * tim else acc in
      th_heat (Datatypes.S i) n m tim acc l'
  end.
(** Module.cpp:377-381 *)
Fixpoint th_neigh (Tmod Amod tim acc : A) (nb : list (A * A * A)) : A :=
  match nb with
  | [] => acc
  | (t, k, a) :: nb' => th_neigh Tmod Amod tim (acc + k * nmin a Amod * (t - Tmod) * tim) nb'
  end.
(** Sets child i's temperature to [ts[i]], Module.cpp:297-299 and 396-397. *)
Fixpoint set_temps (ts : list A) l {struct l} : list S * res unit :=
  match l, ts with
  | [], _ => ([], Ok tt)
  | s :: l', t :: ts' =>
      match o_setT o t s with
      | (s', Ok _) => let '(l'', r) := set_temps ts' l' in (s' :: l'', r)
      | (s', e) => (s' :: l', e)
      end
  | _, [] => (l, UB)
  end.
(** Module.cpp:303-421 *)
Definition th_coupled (nb : list (A * A * A)) (tim : A) : M (module S) A := fun m =>
  if nabs (m_time (mm m) - tim) >? nZ 1 then (m, Throw 98)
  else if neqb tim (nZ 0) then (m, Ok (mod_T m))
  else if Nat.ltb NSUs_MAX (length (ms m)) then (m, UB)
  else
    match th_children (length (ms m)) 0 m tim (ms m) with
    | (l, Ok Tnew) =>
        let Echild := th_heat 0 (length l) m tim (nZ 0) l + m_Qc (mm m) in
        let Etot := th_neigh (mod_T m) (mod_area m) tim Echild nb in
        match cool_dstate Etot Echild tim (m_cool (mm m)) with
        | (k, Ok Tc) =>
            let m1 := set_cool (mm m) k in
            match set_temps Tnew l with
            | (l', Ok _) =>
                let m2 := set_therm m1 (m_Qc m1) (nZ 0) in
                if (Tc <? degC 0) || (Tc >? degC 75) || nisnan Tc then (mkM m2 l', Throw 99) else (mkM m2 l', Ok Tc)
            | (l', e) => (mkM m1 l', cast e)
            end
        | (k, e) => (mkM (set_cool (mm m) k) l, cast e)
        end
    | (l, e) => (mkM (mm m) l, cast e)
    end.
(** Module.cpp:270-301; the dummy arrays have length 1 but the children are told there are 3 neighbours: an SPM cell
    reads beyond them when it uses them (with T_MODEL = 1 it does not). *)
Definition th_cell : M (module S) A := fun m =>
  if Nat.ltb NSUs_MAX (length (ms m)) then (m, UB)
  else
  match each (o_thermal o [(nZ 0, nZ 0, nZ 0)] (nZ 0)) (ms m) with
  | (l, Ok Tnew) => match set_temps Tnew l with
                    | (l', Ok _) => (mkM (mm m) l', Ok (mod_T m))
                    | (l', e) => (mkM (mm m) l', cast e)
                    end
  | (l, e) => (mkM (mm m) l, cast e)
  end.
(** Module.cpp:430-459; [tmodel] is settings::T_MODEL. Any outcome resets the heat and time counters. *)
Definition mod_thermal (tmodel : Z) (nb : list (A * A * A)) (tim : A) : M (module S) A := fun m =>
  let '(m1, r) := if (tmodel =? 0)%Z then (m, Ok (mod_T m))
                  else if (tmodel =? 1)%Z then th_cell m
                  else th_coupled nb tim m in
  match r with
  | UB => (m1, UB)
  | Fuel => (m1, Fuel)
  | r => (mkM (set_therm (mm m1) (nZ 0) (nZ 0)) (ms m1), r)
  end.
(** Module.hpp:172, throws 99 *)
Definition mod_setT (t : A) : M (module S) unit := fun m =>
  let '(k, r) := cool_setT t (m_cool (mm m)) in (mkM (set_cool (mm m) k) (ms m), r).

(** *** Time step *)

(** Module_s.cpp:134-143, Module_p.cpp:302-311. With one worker an exception of a child is passed on and the later
    children have not been stepped. Worker threads ([par]) have no handler: an exception terminates the program, here
    [UB]. The schedules of the threads are treated in DataModel ([run_workers], [interleaving]). *)
Definition step_children (par : bool) (dt : A) (n : Z) l : list S * res unit :=
  match each (o_timeStep o dt n) l with
  | (l', Ok _) => (l', Ok tt)
  | (l', Throw e) => (l', if par then UB else Throw e)
  | (l', e) => (l', cast e)
  end.
(** Module_s.cpp:153-154 *)
Definition heat_s (n : Z) (dt : A) m : A :=
  fold_left (fun q r => q + r * (mod_I m * mod_I m) * nZ n * dt) (m_rc (mm m)) (m_Qc (mm m)).
(** Module_p.cpp:321-327: the running current [Ii] is not reset between resistors. *)
Fixpoint heat_p_loop (n : Z) (dt q ii : A) l (rc : list A) {struct l} : A :=
  match l, rc with
  | s :: l', r :: rc' =>
      let ii' := fold_left (fun a x => a + o_I o x) l ii in
      heat_p_loop n dt (q + r * (ii' * ii') * nZ n * dt) ii' l' rc'
  | _, _ => q
  end.
Definition heat_p (n : Z) (dt : A) m : A := heat_p_loop n dt (m_Qc (mm m)) (nZ 0) (ms m) (m_rc (mm m)).
(** Module_s.cpp:146-189, Module_p.cpp:313-362 *)
Definition mod_heat_step (tmodel : Z) (dt : A) (n : Z) : M (module S) unit := fun m =>
  if m_block (mm m) then (m, Ok tt)
  else
    let q := if m_series (mm m) then heat_s n dt m else heat_p n dt m in
    let m1 := mkM (set_therm (mm m) q (m_time (mm m) + nZ n * dt)) (ms m) in
    let '(m2, r) :=
      if m_top (mm m) then
        match k_kind (m_cool (mm m)) with
        | CHvac _ =>
            match mod_thermal tmodel [] (m_time (mm m1)) m1 with
            | (m2, Ok t) => mod_setT t m2
            | (m2, e) => (m2, cast e)
            end
        | _ => (m1, Throw 14)
        end
      else (m1, Ok tt) in
    match r with
    | Ok _ =>
        let ts := map (o_T o) (ms m2) in
        let tlocal := if m_series (mm m) then lmax ts else fold_left nmax ts (nZ 0) in
        (mkM (set_cool (mm m2) (cool_control tlocal (mod_Thot m2) (m_cool (mm m2)))) (ms m2), Ok tt)
    | e => (m2, e)
    end.
Definition mod_timeStep (tmodel : Z) (dt : A) (n : Z) : M (module S) unit := fun m =>
  if dt <? nZ 0 then (m, Throw 10)
  else
    match step_children (m_par (mm m)) dt n (ms m) with
    | (l, Ok _) =>
        match mod_heat_step tmodel dt n (mkM (mm m) l) with
        | (m1, Ok _) =>
            let m2 := mkM (inval (mm m1)) (ms m1) in
            if m_series (mm m) then (m2, Ok tt)
            else
              match p_redistribute (m_rc (mm m2)) (ms m2) with
              | (l2, Ok st) =>
                  if status_eqb st Success then (mkM (mm m2) l2, Ok tt)
                  else match p_redistribute (m_rc (mm m2)) l2 with
                       | (l3, Ok _) => (mkM (mm m2) l3, Throw 100000)
                       | (l3, e) => (mkM (mm m2) l3, cast e)
                       end
              | (l2, e) => (mkM (mm m2) l2, cast e)
              end
        | (m1, e) => (m1, e)
        end
    | (l, e) => (mkM (mm m) l, e)
    end.

(** *** Other *)

(** Module.hpp:156-162, [Module::setBlockDegAndTherm], reached only through a [Module] pointer; as a storage unit a module
    has StorageUnit.hpp:64. *)
Definition mod_setBlock (b : bool) m : module S := mkM (set_block (mm m) b) (map (o_setFlag o b) (ms m)).
Definition mod_setFlag (b : bool) m : module S := mkM (set_block (mm m) b) (ms m).

(** Module.cpp:461-487; the children that are modules are reset a second time, which changes nothing. *)
Fixpoint cl_children (acc : A) l : list S * res A :=
  match l with
  | [] => ([], Ok acc)
  | s :: l' =>
      match o_coolload o s with
      | (s', Ok None) => let '(l'', r) := cl_children acc l' in (s' :: l'', r)
      | (s', Ok (Some e)) => let '(l'', r) := cl_children (acc + e) l' in (s' :: l'', r)
      | (s', e) => (s' :: l', cast e)
      end
  end.
Definition mod_coolload : M (module S) A := fun m =>
  let e := cool_Eop (m_cool (mm m)) in
  let '(l, r) := cl_children e (ms m) in
  (mkM (set_cool (mm m) (cool_resetEop (m_cool (mm m)))) l, r).

(** Module.hpp:119-128 (the [assert] on the sizes is compiled out). *)
Definition mod_setRcontact (rc : list A) m : module S := mkM (inval (set_rc (mm m) rc)) (ms m).
(** Module.cpp:90-110, the effect of [setSUs] on the module once the ownership check has passed. *)
Definition mod_setSUs l m : module S :=
  mkM (set_N (inval (set_rc (mm m) (repeat (nZ 0) (length l)))) (fold_left (fun r s => (r + o_N o s)%nat) l 0%nat)) l.

(** ** A module is a storage unit *)
Definition mod_ops (tmodel : Z) : su_ops (module S) := {|
  o_I := mod_I; o_Cap := mod_Cap; o_lim := mod_lim; o_N := mod_N; o_T := mod_T; o_Thot := mod_Thot; o_area := mod_area;
  o_OCV := mod_OCV; o_Rtot := mod_Rtot; o_V := mod_V; o_checkV := mod_checkV; o_Vhigh := mod_Vhigh; o_Vlow := mod_Vlow;
  o_getStates := mod_getStates; o_setStates := mod_setStates; o_setCurrent := mod_setCurrent;
  o_timeStep := mod_timeStep tmodel; o_thermal := mod_thermal tmodel; o_setT := mod_setT; o_setFlag := mod_setFlag;
  o_coolload m := let '(m', r) := mod_coolload m in (m', rmap Some r) |}.
End Over.

(** ** Trees: a unit of depth at most [n] is a cell, or a module whose children are units of depth at most [n-1]. *)
Definition on_l {X Y B : Type} (f : M X B) : X -> (X + Y) * res B := fun x => let '(x', r) := f x in (inl x', r).
Definition on_r {X Y B : Type} (f : M Y B) : Y -> (X + Y) * res B := fun y => let '(y', r) := f y in (inr y', r).
Definition both {X Y Z : Type} (f : X -> Z) (g : Y -> Z) (s : X + Y) : Z := match s with inl x => f x | inr y => g y end.
(** dynamic dispatch *)
Definition sum_ops {X Y : Type} (ox : su_ops X) (oy : su_ops Y) : su_ops (X + Y) := {|
  o_I := both (o_I ox) (o_I oy); o_Cap := both (o_Cap ox) (o_Cap oy); o_lim := both (o_lim ox) (o_lim oy);
  o_N := both (o_N ox) (o_N oy); o_T := both (o_T ox) (o_T oy); o_Thot := both (o_Thot ox) (o_Thot oy);
  o_area := both (o_area ox) (o_area oy); o_OCV := both (o_OCV ox) (o_OCV oy); o_Rtot := both (o_Rtot ox) (o_Rtot oy);
  o_V := both (on_l (o_V ox)) (on_r (o_V oy)); o_checkV := both (on_l (o_checkV ox)) (on_r (o_checkV oy));
  o_Vhigh := both (on_l (o_Vhigh ox)) (on_r (o_Vhigh oy)); o_Vlow := both (on_l (o_Vlow ox)) (on_r (o_Vlow oy));
  o_getStates := both (o_getStates ox) (o_getStates oy);
  o_setStates s b := both (on_l (o_setStates ox s b)) (on_r (o_setStates oy s b));
  o_setCurrent i b := both (on_l (o_setCurrent ox i b)) (on_r (o_setCurrent oy i b));
  o_timeStep dt n := both (on_l (o_timeStep ox dt n)) (on_r (o_timeStep oy dt n));
  o_thermal nb t := both (on_l (o_thermal ox nb t)) (on_r (o_thermal oy nb t));
  o_setT t := both (on_l (o_setT ox t)) (on_r (o_setT oy t));
  o_setFlag b := both (fun x => inl (o_setFlag ox b x)) (fun y => inr (o_setFlag oy b y));
  o_coolload := both (on_l (o_coolload ox)) (on_r (o_coolload oy)) |}.

Fixpoint su (C : Type) (n : nat) : Type :=
  match n with O => C | S n' => (C + module (su C n'))%type end.
Fixpoint su_ops_at {C : Type} (oc : su_ops C) (tmodel : Z) (n : nat) : su_ops (su C n) :=
  match n with
  | O => oc
  | S n' => sum_ops oc (mod_ops (su_ops_at oc tmodel n') tmodel)
  end.

(** ** src/utility/free_functions.hpp:25-47, [setVoltage_iterative], the default [setVoltage] of a unit. *)
Section SetVoltage.
Context {S : Type} (o : su_ops S).
Fixpoint setVoltage_loop (iter : nat) (Vset ia : A) (s : S) : S * res Status :=
  match iter with
  | O => (s, Ok RedistributeCurrent_failed)
  | Datatypes.S it =>
      match o_V o s with
      | (s1, Ok va) =>
          if nabs (Vset - va) <? nlit 1 1000000 then (s1, Ok Success)
          else
            let ib := if Vset >? va then ia - nlit 1 100 * o_Cap o s1 else ia + nlit 1 100 * o_Cap o s1 in
            match o_setCurrent o ib true s1 with
            | (s2, Ok _) =>
                match o_V o s2 with
                | (s3, Ok vb) =>
                    let slope := (ia - ib) / (va - vb) in
                    let ia' := ib - (vb - Vset) * slope in
                    match o_setCurrent o ia' true s3 with
                    | (s4, Ok _) => setVoltage_loop it Vset ia' s4
                    | (s4, e) => (s4, cast e)
                    end
                | (s3, e) => (s3, cast e)
                end
            | (s2, e) => (s2, cast e)
            end
      | (s1, e) => (s1, cast e)
      end
  end.
Definition setVoltage_iterative (Vset : A) (s : S) : S * res Status := setVoltage_loop 50 Vset (o_I o s) s.
End SetVoltage.

End Module.
Arguments su_ops A S : clear implicits.
Arguments module A S : clear implicits.
Arguments modrec A : clear implicits.
Arguments ecmu A : clear implicits.
Arguments su A C n : clear implicits.
Arguments o_I {A S}. Arguments o_Cap {A S}. Arguments o_lim {A S}. Arguments o_N {A S}. Arguments o_T {A S}. Arguments o_Thot {A S}. Arguments o_area {A S}. Arguments o_OCV {A S}. Arguments o_Rtot {A S}. Arguments o_V {A S}. Arguments o_checkV {A S}. Arguments o_Vhigh {A S}. Arguments o_Vlow {A S}. Arguments o_getStates {A S}. Arguments o_setStates {A S}. Arguments o_setCurrent {A S}. Arguments o_timeStep {A S}. Arguments o_thermal {A S}. Arguments o_setT {A S}. Arguments o_setFlag {A S}. Arguments o_coolload {A S}.
Arguments mkM {A S}. Arguments mm {A S}. Arguments ms {A S}.
