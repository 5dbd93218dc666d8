(** * Model of the numeric utilities: interpolation, grids, histograms *)
From Verif Require Import Base.
Local Open Scope num_scope.

Section Util.
Context {A : Type} {NA : Num A}.

(** Read of [v[i]] of a C++ container with a signed index: out of range is undefined behaviour. *)
Definition vget {B : Type} (l : list B) (i : Z) : res B :=
  if (i <? 0)%Z then UB
  else match nth_error l (Z.to_nat i) with Some b => Ok b | None => UB end.

(** [std::lower_bound] on [l[first, first+len)] (libstdc++ bits/stl_algobase.h, [__lower_bound]):
    halving search for the first element not less than [x]. [fuel] >= [len] always suffices. *)
Fixpoint lower_bound_loop (fuel first len : nat) (l : list A) (x : A) : nat :=
  match fuel with
  | O => first
  | S fuel' =>
      match len with
      | O => first
      | _ =>
          let half := Nat.div2 len in
          match nth_error l (first + half) with
          | None => first
          | Some m =>
              if m <? x then lower_bound_loop fuel' (first + half + 1) (len - half - 1) l x
              else lower_bound_loop fuel' first half l x
          end
      end
  end.

Definition lower_bound (l : list A) (n : nat) (x : A) : nat := lower_bound_loop n 0 n l x.

(** src/utility/interpolation.hpp:84, the chord formula. *)
Definition chord (xl yl xr yr x : A) : A := yl + (yr - yl) * (x - xl) / (xr - xl).

(** src/utility/interpolation.hpp:26-88, [linInt_noexcept]; returns (yy, status).
    [nin] is the number of points the caller passes (always the container's size, XYdata.hpp:66). *)
Definition linInt_noexcept (bound : bool) (xdat ydat : list A) (nin : Z) (x : A) (is_fixed : bool)
  : res (A * Z) :=
  rbind (vget xdat 0) (fun x0 =>
  rbind (vget xdat (nin - 1)) (fun xn =>
  if bound && (x <? x0) then Ok (nZ 0, (-1)%Z)
  else if bound && (x >? xn) then Ok (nZ 0, 1%Z)
  else if x <=? x0 then rmap (fun y => (y, 0%Z)) (vget ydat 0)
  else if x >=? xn then rmap (fun y => (y, 0%Z)) (vget ydat (nin - 1))
  else
    rbind (if is_fixed then
             rbind (vget xdat 1) (fun x1 =>
             let dt := x1 - x0 in
             rmap (fun k => (k + 1)%Z) (to_int ((x - x0) / dt)))
           else Ok (Z.of_nat (lower_bound xdat (Z.to_nat nin) x))) (fun i_low =>
    rbind (vget xdat i_low) (fun xr =>
    rbind (vget ydat i_low) (fun yr =>
    rbind (vget xdat (i_low - 1)) (fun xl =>
    rbind (vget ydat (i_low - 1)) (fun yl =>
    Ok (chord xl yl xr yr x, 0%Z)))))))).

(** src/utility/interpolation.hpp:90-125, [linInt] (message printing dropped). *)
Definition linInt (bound : bool) (xdat ydat : list A) (nin : Z) (x : A) (is_fixed : bool) : res A :=
  rbind (linInt_noexcept bound xdat ydat nin x is_fixed) (fun '(yy, status) =>
  if (status =? 0)%Z then Ok yy else Throw 1).

(** src/types/XYdata.hpp:25-42, [check_is_fixed].  The loop runs over i = 1 .. size-2. For size 0 the
    read of [xdat[1]] is undefined; so is it for size 1. *)
Fixpoint fixed_from (dt tol : A) (l : list A) : bool :=
  match l with
  | a :: ((b :: _) as t) =>
      if nabs (b - a - dt) >? tol then false else fixed_from dt tol t
  | _ => true
  end.
Definition check_is_fixed (xdat : list A) : res bool :=
  match xdat with
  | x0 :: ((x1 :: _) as t) =>
      let dt := x1 - x0 in
      let tol := nlit 1 100 * dt in
      Ok (fixed_from dt tol t)
  | _ => UB
  end.

(** src/types/XYdata.hpp:44-74, [XYdata] built from two vectors (the constructor calls [check_is_fixed]). *)
Record XYdata : Type := mkXY { xy_x : list A; xy_y : list A; xy_fixed : bool }.
Definition XYdata_make (x y : list A) : res XYdata :=
  rmap (fun b => mkXY x y b) (check_is_fixed x).
Definition XYdata_interp (d : XYdata) (x_i : A) (bound : bool) : res A :=
  linInt bound (xy_x d) (xy_y d) (Z.of_nat (length (xy_x d))) x_i (xy_fixed d).

(** src/types/FixedData.hpp:90-158, [FixedData] with the default generator [F] (line 97). *)
Record FixedData : Type := mkFD { fd_min : A; fd_dx : A; fd_n : Z }.
(** operator() and operator[] with extrapolation, lines 104-122 *)
Definition fd_at (d : FixedData) (i : Z) : A := fd_min d + nZ i * fd_dx d.
(** operator[] with [extrapolation = false], lines 104-117 ([std::out_of_range], code 0 here) *)
Definition fd_at_checked (d : FixedData) (i : Z) : res A :=
  if ((fd_n d <=? i) || (i <? 0))%Z then Throw 0 else Ok (fd_at d i).
(** lines 130-131 *)
Definition fd_back (d : FixedData) : A := fd_at d (fd_n d - 1).
Definition fd_front (d : FixedData) : A := fd_at d 0.
(** lines 134-148 *)
Definition fd_prev (d : FixedData) (x : A) : A := fd_at (mkFD x (fd_dx d) (fd_n d)) (-1).
Definition fd_next (d : FixedData) (x : A) : A := fd_at (mkFD x (fd_dx d) (fd_n d)) 1.
(** lines 150-157 *)
Definition fd_clear (d : FixedData) : FixedData := mkFD (nZ 0) (nZ 0) 0.
(** iteration from begin() to end(), lines 124-125 *)
Definition fd_list (d : FixedData) : list A :=
  map (fun i => fd_at d (Z.of_nat i)) (seq 0 (Z.to_nat (fd_n d))).

(** src/utility/util.hpp:90-99 *)
Definition range_fix (x_min x_max x_step : A) : res FixedData :=
  rmap (fun k => mkFD x_min x_step (k + 1)) (to_int ((x_max - x_min) / x_step)).
Definition linstep_fix (x_min x_step : A) (n : Z) : FixedData := mkFD x_min x_step n.

(** src/utility/util.hpp:108-116 *)
Definition linspace_fix (x1 x2 : A) (n : Z) : FixedData :=
  if (n <? 1)%Z then mkFD x2 (nZ 0) 0
  else if (n =? 1)%Z then mkFD x2 (nZ 0) 1
  else mkFD x1 ((x2 - x1) / nZ (n - 1)) n.

(** src/utility/util.hpp:118-134 (and the std::array version, 68-84): [out[N-1-n] = x2 - n*dx],
    written from the front. *)
Definition linspace (x1 x2 : A) (n : Z) : list A :=
  let n := Z.max 0 n in
  let dx := if (n >? 1)%Z then (x2 - x1) / nZ (n - 1) else nZ 1 in
  map (fun i => x2 - nnat (Z.to_nat n - 1 - i) * dx) (seq 0 (Z.to_nat n)).

(** src/types/Histogram.hpp:30-42.  [h_bins] is empty for a default-constructed histogram (line 37). *)
Record Histogram : Type := mkHist { h_bins : list nat; h_min : A; h_max : A; h_dx : A; h_N : Z }.
Definition hist_default : Histogram := mkHist [] (nZ 0) (nZ 0) (nZ 1) 0.
Definition hist_make (x_min x_max : A) (n : nat) : Histogram :=
  mkHist (repeat 0%nat (n + 2)) x_min x_max ((x_max - x_min) / nnat n) (Z.of_nat n).

(** src/types/Histogram.hpp:52-55: the index of the bin a sample goes to. *)
Definition hist_index (h : Histogram) (x : A) : res Z :=
  rmap (fun i => Z.max 0 (Z.min i (Z.of_nat (length (h_bins h)) - 1)))
       (to_int (nZ 1 + (x - h_min h) / h_dx h)).

(** src/types/Histogram.hpp:44-57, [add]. With no bins the index is 0 and the write is out of range. *)
Definition hist_add (h : Histogram) (x : A) : res Histogram :=
  rbind (hist_index h x) (fun i =>
  rmap (fun c => mkHist (list_set (h_bins h) (Z.to_nat i) (c + 1)%nat) (h_min h) (h_max h) (h_dx h) (h_N h))
       (vget (h_bins h) i)).

Fixpoint hist_adds (h : Histogram) (xs : list A) : res Histogram :=
  match xs with
  | [] => Ok h
  | x :: t => rbind (hist_add h x) (fun h' => hist_adds h' t)
  end.

(** src/types/Histogram.hpp:64 *)
Definition hist_edges (h : Histogram) : res FixedData := range_fix (h_min h) (h_max h) (h_dx h).

End Util.
Arguments XYdata : clear implicits.
Arguments FixedData : clear implicits.
Arguments Histogram : clear implicits.
