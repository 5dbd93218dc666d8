(** * Objects, ownership and names of storage units: src/StorageUnit.hpp, src/types/Deep_ptr.hpp, src/modules/Module.{hpp,cpp} *)
From Coq Require Import List String.
From Verif Require Import Base.
Import ListNotations.

(** Propagates a failure. *)
Definition recast {B C : Type} (r : res B) : res C :=
  match r with Ok _ => UB (* not used *) | Throw n => Throw n | UB => UB | Fuel => Fuel end.

Section Obj.
Context {X : Type}.

(** A storage unit object: [ID] and [parent] (StorageUnit.hpp:28-31), the child pointers [SUs] (Module.hpp:43; [None] is a
    null [Deep_ptr], e.g. one that has been moved from), the contact resistances and the cell count (Module.hpp:44, 51). All
    other data members are values and are kept in [b_val]; they are copied member by member (the cooling system through a
    [Deep_ptr], CoolSystem.hpp:79). A cell has no children. *)
Record obj : Type := mkObj {
  b_id : string; b_parent : option nat; b_kids : list (option nat); b_rc : list Z; b_N : nat; b_val : X }.
(** The heap: references are positions, [None] is a destroyed object. *)
Definition heap : Type := list (option obj).
Definition get (h : heap) (r : nat) : option obj :=
  match nth_error h r with Some (Some o) => Some o | _ => None end.
Definition set (h : heap) (r : nat) (o : option obj) : heap := list_set h r o.

(** StorageUnit.hpp:50, [getFullID]. [Fuel]: the parents form a cycle (or the fuel is too small). *)
Fixpoint full_id (fuel : nat) (h : heap) (r : nat) : res string :=
  match get h r with
  | None => UB
  | Some o =>
      match b_parent o with
      | None => Ok (b_id o)
      | Some p =>
          match fuel with
          | O => Fuel
          | S f => rmap (fun s => (s ++ "_" ++ b_id o)%string) (full_id f h p)
          end
      end
  end.

(** The copy constructor of [std::vector<Deep_ptr>]: Deep_ptr.hpp:33 calls [copy()] of every child in order. *)
Fixpoint copy_kids (cp : heap -> nat -> res (heap * nat)) (h : heap) (ks : list (option nat)) : res (heap * list (option nat)) :=
  match ks with
  | [] => Ok (h, [])
  | None :: t => rmap (fun '(h1, t') => (h1, None :: t')) (copy_kids cp h t)
  | Some k :: t =>
      rbind (cp h k) (fun '(h1, k') => rmap (fun '(h2, t') => (h2, Some k' :: t')) (copy_kids cp h1 t))
  end.
(** Module_s.hpp:48, Module_p.hpp:47, Cell_ECM.hpp:90, Cell_SPM.hpp:278: a new object made by the implicit copy constructor.
    The parent pointer is copied as it is. Simplified: the memory of the copy is numbered after that of its children. *)
Fixpoint copy (fuel : nat) (h : heap) (r : nat) : res (heap * nat) :=
  match get h r with
  | None => UB
  | Some o =>
      match fuel with
      | O => Fuel
      | S f =>
          rmap (fun '(h1, ks) => (h1 ++ [Some (mkObj (b_id o) (b_parent o) ks (b_rc o) (b_N o) (b_val o))], List.length h1))
               (copy_kids (copy f) h (b_kids o))
      end
  end.

(** The destructors: a unit owns its children. Destroying an object twice is undefined. *)
Fixpoint destroy_kids (ds : heap -> nat -> res heap) (h : heap) (ks : list (option nat)) : res heap :=
  match ks with
  | [] => Ok h
  | None :: t => destroy_kids ds h t
  | Some k :: t => rbind (ds h k) (fun h1 => destroy_kids ds h1 t)
  end.
Fixpoint destroy (fuel : nat) (h : heap) (r : nat) : res heap :=
  match get h r with
  | None => UB
  | Some o =>
      match fuel with
      | O => Fuel
      | S f => rmap (fun h1 => set h1 r None) (destroy_kids (destroy f) h (b_kids o))
      end
  end.

(** The pointers handed to [setSUs]: pointers held by the caller, or the child vector of a module ([getSUs]). *)
Inductive source : Type := Held (l : list nat) | Kids_of (k : nat).
Definition items (h : heap) (src : source) : option (list (option nat)) :=
  match src with
  | Held l => Some (map Some l)
  | Kids_of k => option_map b_kids (get h k)
  end.
Definition with_parent (o : obj) (p : option nat) : obj := mkObj (b_id o) p (b_kids o) (b_rc o) (b_N o) (b_val o).
Definition with_kids (o : obj) (ks : list (option nat)) (rc : list Z) (n : nat) : obj :=
  mkObj (b_id o) (b_parent o) ks rc n (b_val o).

(** Module.cpp:80-91: the check of the parents; [Throw 10] after the message, which calls [getFullID] of the parent of
    this module ([print]; settings::verbose prints critical errors). *)
Fixpoint check_parents (fuel : nat) (print : bool) (h : heap) (m : nat) (c : list (option nat)) : res unit :=
  match c with
  | [] => Ok tt
  | None :: _ => UB
  | Some u :: t =>
      match get h u with
      | None => UB
      | Some o =>
          match b_parent o with
          | None => check_parents fuel print h m t
          | Some p =>
              if Nat.eqb p m then check_parents fuel print h m t
              else if print then
                match get h m with
                | None => UB
                | Some om => match b_parent om with
                             | None => UB
                             | Some q => rbind (full_id fuel h q) (fun _ => Throw 10)
                             end
                end
              else Throw 10
          end
      end
  end.
(** Module.cpp:102-107 for one unit: number of cells, parent, ownership, a contact resistance of 0. *)
Fixpoint take (h : heap) (m : nat) (c : list (option nat)) (n : nat) : res (heap * nat) :=
  match c with
  | [] => Ok (h, n)
  | None :: _ => UB
  | Some u :: t =>
      match get h u with
      | None => UB
      | Some o => take (set h u (Some (with_parent o (Some m)))) m t (n + b_N o)
      end
  end.
(** Module.cpp:66-110. A module handed its own child vector destroys the units before it takes them. *)
Definition setSUs (fuel : nat) (print : bool) (h : heap) (m : nat) (src : source) : heap * res unit :=
  match items h src with
  | None => (h, UB)
  | Some c =>
      match check_parents fuel print h m c with
      | Ok _ =>
          match get h m with
          | None => (h, UB)
          | Some om =>
              match destroy_kids (destroy fuel) h (b_kids om) with
              | Ok h1 =>
                  match get h1 m with
                  | None => (h1, UB)
                  | Some om1 =>
                  let h2 := set h1 m (Some (with_kids om1 [] [] (b_N om1))) in
                  match take h2 m c 0 with
                  | Ok (h3, n) =>
                      let h4 := match src with
                                | Held _ => h3
                                | Kids_of k => match get h3 k with
                                               | Some ok => set h3 k (Some (with_kids ok (map (fun _ => None) (b_kids ok)) (b_rc ok) (b_N ok)))
                                               | None => h3
                                               end
                                end in
                      match get h4 m with
                      | Some om' => (set h4 m (Some (with_kids om' c (map (fun _ => 0%Z) c) n)), Ok tt)
                      | None => (h4, UB)
                      end
                  | e => (h2, recast e)
                  end
                  end
              | e => (h, recast e)
              end
          end
      | e => (h, recast e)
      end
  end.

(** Constructors: a fresh object without children (StorageUnit.hpp:39-43). *)
Definition new (h : heap) (id : string) (parent : option nat) (ncells : nat) (v : X) : heap * nat :=
  (h ++ [Some (mkObj id parent [] [] ncells v)], List.length h).

(** Methods of a unit reach its parts only through the child pointers: follow [path] from [r] ... *)
Fixpoint follow (h : heap) (r : nat) (path : list nat) : option nat :=
  match path with
  | [] => match get h r with Some _ => Some r | None => None end
  | i :: t =>
      match get h r with
      | Some o => match nth_error (b_kids o) i with Some (Some k) => follow h k t | _ => None end
      | None => None
      end
  end.
(** ... and change its values. *)
Definition on_part (h : heap) (r : nat) (path : list nat) (f : X -> X) : heap :=
  match follow h r path with
  | Some k => match get h k with
              | Some o => set h k (Some (mkObj (b_id o) (b_parent o) (b_kids o) (b_rc o) (b_N o) (f (b_val o))))
              | None => h
              end
  | None => h
  end.
(** StorageUnit.hpp:46, [setID], on a part *)
Definition rename (h : heap) (r : nat) (path : list nat) (s : string) : heap :=
  match follow h r path with
  | Some k => match get h k with
              | Some o => set h k (Some (mkObj s (b_parent o) (b_kids o) (b_rc o) (b_N o) (b_val o)))
              | None => h
              end
  | None => h
  end.
End Obj.
Arguments obj X : clear implicits.
Arguments heap X : clear implicits.
