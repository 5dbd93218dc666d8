(** * Model of the usage statistics of the cooling systems and of storing data in a tree (src/cooling/data_storage, Module.hpp) *)
From Verif Require Import Base UtilModel CoolModel ModuleModel BattModel.
Local Open Scope num_scope.

Section Store.
Context {A : Type} {NA : Num A}.

(** settings.hpp:62, [DATASTORE_COOL], is a compile-time constant: 0 nothing, 1 histograms, 2 time series. The model has it as the
    parameter [lvl]; the repository's value is 0. *)
Definition DATASTORE_COOL : Z := 0.
(** settings.hpp:49 *)
Definition DATASTORE_NHIST : nat := 100.

(** cool_data.hpp:33-47 *)
Record cinst : Type := mkInst { c_time : A; c_Q : A; c_E : A; c_flr : A }.
(** cool_data.hpp:49-54 and 74-76: the types the recorded data can have. *)
Inductive tdata : Type :=
| TEmpty
| THist (Q flr E T : @Histogram A)
| TInst (l : list cinst)
| THvacHist (Qac Eac : @Histogram A)
| THvacInst (l : list (A * A)).

(** A cooling system with its records, [coolData.tData] and, for an HVAC, [HVACdata.tData]. *)
Record crec : Type := mkCr { r_cool : cool A; r_data : tdata; r_hvac : tdata }.

(** cool_data.hpp:52-54: the type chosen for [CoolSystemData::tData]. CoolSystemData.cpp:35-45, [initialise], runs in the default
    constructor, with the cross section, density and efficiency of one cell (CoolSystem.cpp:57-62). *)
Definition per_cell_Across : A := nlit 25 1000000.
Definition data_init (lvl : Z) : tdata :=
  if (lvl =? 1)%Z then
    let flr_max := nlit 11 10 * flowrate_perCell in
    let v_max := flr_max / per_cell_Across in
    let E_max := nlit 1225 1000 * per_cell_Across * v_max * v_max * v_max / nlit 1 2 in
    THist (hist_make (nZ 0) (nZ 5) DATASTORE_NHIST) (hist_make (nZ 0) flr_max DATASTORE_NHIST)
          (hist_make (nZ 0) E_max DATASTORE_NHIST) (hist_make (degC 0) (degC 100) DATASTORE_NHIST)
  else if (lvl =? 2)%Z then TInst []
  else TEmpty.
(** CoolSystem_HVACData.hpp:21: [HVACdata.tData] is declared with the type of the PLAIN cooling system, [CoolSystemData_t]. Its
    [initialise] (CoolSystem_HVACData.cpp:34-41) is overloaded on [CoolSystem_HVACHist_t]; for any other type the template of line 43
    of the header is chosen, which does nothing. So the histograms stay default-constructed. *)
Definition hvac_init (lvl : Z) : tdata :=
  if (lvl =? 1)%Z then THist hist_default hist_default hist_default hist_default
  else if (lvl =? 2)%Z then TInst []
  else TEmpty.
Definition record_make (lvl : Z) (k : cool A) : crec := mkCr k (data_init lvl) (hvac_init lvl).

Definition with_period (k : cool A) (Qevac E time : A) : cool A :=
  let u := k_cum k in
  with_cum k (mkCum Qevac (u_Qevac_life u) (u_Qabs_life u) (u_t_life u) E (u_Eop u) time (u_time_life u)).

(** CoolSystemData.cpp:22-26 and 48-71: overloaded on the type of the data *)
Definition data_store (x : crec) : crec * res unit :=
  let k := r_cool x in
  let u := k_cum k in
  if neqb (u_time u) (nZ 0) then (x, Ok tt)
  else match r_data x with
  | THist Q flr E T =>
      let Qm := u_Qevac u / u_time u / nnat (k_N k) in
      let Em := u_E u / u_time u / nnat (k_N k) in
      let f := k_flow k / nnat (k_N k) in
      match hist_add E Em, hist_add T (k_T k), hist_add Q Qm, hist_add flr f with
      | Ok E', Ok T', Ok Q', Ok flr' => (mkCr (with_period k (nZ 0) (nZ 0) (nZ 0)) (THist Q' flr' E' T') (r_hvac x), Ok tt)
      | _, _, _, _ => (x, UB)
      end
  | TInst l =>
      (mkCr k (TInst (l ++ [mkInst (u_time_life u) (u_Qevac u / u_time u) (u_E u / u_time u) (k_flow k)])) (r_hvac x), Ok tt)
  | _ => (x, Ok tt)
  end.

(** CoolSystem_HVACData.cpp:21-25 and 44-62: the two overloads take [CoolSystem_HVACHist_t] and [CoolSystem_HVACInst_t]; anything
    else goes to the template of CoolSystem_HVACData.hpp:48-54, which does nothing. *)
Definition hvac_set_Eac (k : cool A) (v : A) : cool A :=
  match k_kind k with
  | CHvac h => with_kind k (CHvac (mkHvac (h_Qac h) (h_COP h) (h_Ton h) (h_Toff h) (h_Q h) (h_propT h) (h_gain h) v (h_QcoolAC h)))
  | _ => k
  end.
Definition hvac_store (h : hvac A) (x : crec) : crec * res unit :=
  let k := r_cool x in
  let u := k_cum k in
  if neqb (u_time u) (nZ 0) then (x, Ok tt)
  else
    let Em := h_Eac h / u_time u in
    match r_hvac x with
    | THvacHist Q E =>
        match hist_add E (Em / nnat (k_N k)), hist_add Q (h_Qac h / nnat (k_N k)) with
        | Ok E', Ok Q' => (mkCr (hvac_set_Eac k (nZ 0)) (r_data x) (THvacHist Q' E'), Ok tt)
        | _, _ => (x, UB)
        end
    | THvacInst l => (mkCr k (r_data x) (THvacInst (l ++ [(h_Qac h, Em)])), Ok tt)
    | _ => (x, Ok tt)
    end.

(** CoolSystem.cpp:282-313 and CoolSystem_HVAC.cpp:256-290 *)
Definition store_check (lvl : Z) (n : nat) (k : cool A) : res unit :=
  if (lvl =? 1)%Z then
    if negb (n =? k_N k)%nat then Throw 10 else if (k_N k =? 0)%nat then Throw 10 else Ok tt
  else Ok tt.
Definition cool_store (lvl : Z) (n : nat) (x : crec) : crec * res unit :=
  match store_check lvl n (r_cool x) with
  | Ok _ =>
      match k_kind (r_cool x) with
      | CHvac h => match hvac_store h x with (x', Ok _) => data_store x' | r => r end
      | _ => data_store x
      end
  | e => (x, e)
  end.

(** CoolSystemData.cpp:99-125: what goes to the file, which is opened for appending. *)
Inductive cline : Type :=
| LStats (ncells : nat) (E : A) (hT hQ hflr hE : @Histogram A)
| LRow (r : cinst).
Definition cool_write (x : crec) : crec * list cline :=
  match r_data x with
  | THist Q flr E T => (x, [LStats (k_N (r_cool x)) (u_E (k_cum (r_cool x))) T Q flr E])
  | TInst l => (mkCr (r_cool x) (TInst []) (r_hvac x), map LRow l)
  | _ => (x, [])
  end.

(** The events of a cooling system's life. *)
Inductive cevent : Type :=
| EExchange (Qtotal Qchildren t : A)
| EControl (Tlocal Tglobal : A)
| ESetT (t : A)
| EStore
| EWrite.
Definition on_cool {B : Type} (f : M (cool A) B) (x : crec) : crec * res unit :=
  let '(k', r) := f (r_cool x) in (mkCr k' (r_data x) (r_hvac x), rmap (fun _ => tt) r).
Definition cevent_do (lvl : Z) (n : nat) (e : cevent) (x : crec) : crec * res unit :=
  match e with
  | EExchange q c t => on_cool (cool_dstate q c t) x
  | EControl l g => (mkCr (cool_control l g (r_cool x)) (r_data x) (r_hvac x), Ok tt)
  | ESetT t => on_cool (cool_setT t) x
  | EStore => cool_store lvl n x
  | EWrite => (fst (cool_write x), Ok tt)
  end.
Fixpoint cevents_do (lvl : Z) (n : nat) (es : list cevent) (x : crec) : crec * res unit :=
  match es with
  | [] => (x, Ok tt)
  | e :: t => match cevent_do lvl n e x with (x', Ok _) => cevents_do lvl n t x' | r => r end
  end.

(** ** Trees: Module.hpp:132-142. The order in which the parts of a unit store their data: a module lets its children store and then
    its cooling system, giving its own number of cells. Not modelled: the module's own rows, switched off by settings.hpp:56. *)
Inductive visit (C : Type) : Type := VCell (c : C) | VCool (n : nat) (k : cool A).
Arguments VCell {C}. Arguments VCool {C}.
Definition mvisits {S C : Type} (f : S -> list (visit C)) (m : module A S) : list (visit C) :=
  flat_map f (ms m) ++ [VCool (m_N (mm m)) (m_cool (mm m))].
Fixpoint visits {C : Type} (n : nat) : su A C n -> list (visit C) :=
  match n with
  | O => fun c => [VCell c]
  | S n' => fun s => match s with inl c => [VCell c] | inr m => mvisits (visits n') m end
  end.
(** Battery.cpp:228-233 *)
Definition batt_visits {C : Type} (n : nat) (ncells : nat) (m : module A (su A C n)) (k : cool A) : list (visit C) :=
  mvisits (visits n) m ++ [VCool ncells k].

(** Storing in that order up to the first exception; cells do not throw here. The result: the cells that stored. *)
Fixpoint store_visits {C : Type} (lvl : Z) (vs : list (visit C)) : list C * res unit :=
  match vs with
  | [] => ([], Ok tt)
  | VCell c :: t => let '(cs, r) := store_visits lvl t in (c :: cs, r)
  | VCool n k :: t =>
      match store_check lvl n k with Ok _ => store_visits lvl t | e => ([], e) end
  end.
End Store.
Arguments cinst : clear implicits. Arguments tdata : clear implicits. Arguments crec : clear implicits.
Arguments cline : clear implicits. Arguments cevent : clear implicits. Arguments visit : clear implicits.
Arguments VCell {A C}. Arguments VCool {A C}.
