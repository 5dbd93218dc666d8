(** * Specifications for the OCV fit *)
From Coq Require Import SpecFloat.
From Verif Require Import Base RFacts UtilModel UtilSpec FitModel.
Local Open Scope R_scope.

(** ** Curves *)

(** A usable curve: strictly increasing abscissae, starting at 0 and (for electrodes) ending at 1 up to [tol],
    voltages between 0 and 10. *)
Definition usable (tol : R) (electrode : bool) (xs ys : list R) : Prop :=
  increasing xs /\ (forall y, In y ys -> 0 <= y <= 10) /\
  (exists a, nth_error xs 0 = Some a /\ Rabs a < tol) /\
  (electrode = true -> exists b, nth_error xs (length xs - 1) = Some b /\ Rabs (b - 1) < tol).

(** Doubles: neighbouring abscissae strictly increase, voltages lie in [0, 10], as the machine compares. *)
Definition usable_f64 (xs ys : list f64) : Prop :=
  (forall i a b, nth_error xs i = Some a -> nth_error xs (S i) = Some b -> nltb a b = true) /\
  (forall y, In y ys -> nleb (nZ 0) y = true /\ nleb y (nZ 10) = true).
Definition number (x : f64) : Prop := x <> S754_nan.

(** ** Search *)

(** [q] is the first point of smallest cost: it beats every earlier point and no later one beats it. *)
Definition first_best {A : Type} {NA : Num A} (cost : par A -> res A) (pts : list (par A)) (q : par A) (e : A) : Prop :=
  exists l1 l2, pts = l1 ++ q :: l2 /\ cost q = Ok e /\
    (forall r, In r l1 -> exists e', cost r = Ok e' /\ nltb e e' = true) /\
    (forall r, In r l2 -> exists e', cost r = Ok e' /\ nltb e' e = false).

(** The grid of a search: cathode amount outermost, anode starting point innermost. *)
Definition grid {A : Type} {NA : Num A} (s : spaces A) : list (par A) :=
  flat_map (fun a => flat_map (fun b => flat_map (fun c => map (fun d => (a, b, c, d)) (fd_list (sp_sn s)))
    (fd_list (sp_sp s))) (fd_list (sp_AMn s))) (fd_list (sp_AMp s)).

(** ** Cost *)

(** The voltage of the two-bucket cell after discharging [Q] Ah: both electrodes within their curves. *)
Definition ocv_after (p n : list R * list R) (AMp AMn sp sn cmaxp cmaxn Q v : R) : Prop :=
  let x := sp + Q * 3600 / (96487 * AMp * cmaxp) in
  let z := sn - Q * 3600 / (96487 * AMn * cmaxn) in
  0 <= x <= 1 /\ 0 <= z <= 1 /\
  exists op on, on_polyline (fst p) (snd p) x op /\ on_polyline (fst n) (snd n) z on /\ v = op - on.
(** Squared distance of two sequences of voltages. *)
Fixpoint sq_dist (ys vs : list R) : R :=
  match ys, vs with
  | y :: ys', v :: vs' => (y - v) * (y - v) + sq_dist ys' vs'
  | _, _ => 0
  end.

(** A search space of odd size at least 5 whose points stay two steps away from [lo] and [hi]. *)
Definition roomy (d : FixedData R) (lo hi : R) : Prop :=
  (exists m, (2 <= m)%Z /\ fd_n d = (2 * m + 1)%Z) /\ 0 <= fd_dx d /\
  forall x, In x (fd_list d) -> lo <= x - 2 * fd_dx d /\ x + 2 * fd_dx d <= hi.
Definition odd_size (d : FixedData R) : Prop := exists m, (1 <= m)%Z /\ fd_n d = (2 * m + 1)%Z.
