(** * Model of the containers, of the thread pool, of the file writer and of the Cholesky update *)
From Verif Require Import Base.

(** ** Thread pool: src/utility/parallelisation.hpp:19-58 *)

Definition INT_MAX : Z := 2147483647.

(** Lines 23-28, [task_par]: the task indices one worker runs, in order. [i_begin += Nth] is an [int] addition:
    undefined when it overflows. Fuel: the distance to the end suffices when [Nth >= 1]. *)
Fixpoint worker_loop (fuel : nat) (i_begin i_end nth : Z) : res (list Z) :=
  match fuel with
  | O => if (i_begin <? i_end)%Z then Fuel else Ok []
  | S f =>
      if (i_begin <? i_end)%Z then
        if (i_begin + nth <=? INT_MAX)%Z
        then rmap (fun l => i_begin :: l) (worker_loop f (i_begin + nth) i_end nth)
        else UB
      else Ok []
  end.
Definition worker (i_begin i_end nth : Z) : res (list Z) :=
  worker_loop (Z.to_nat (i_end - i_begin)) i_begin i_end nth.

Fixpoint rsequence {B : Type} (l : list (res B)) : res (list B) :=
  match l with
  | [] => Ok []
  | r :: t => rbind r (fun b => rmap (cons b) (rsequence t))
  end.

(** Lines 30-57, [run]: the index lists of the threads it starts. [hc] is
    [std::thread::hardware_concurrency()] (0 when not computable), [w] the requested number of workers.
    A thread that is started runs its list; [isParallel] is true (settings.hpp). *)
Definition run_workers (w hc i_end : Z) : res (list (list Z)) :=
  if (w =? 1)%Z then rmap (fun l => [l]) (worker 0 i_end 1)
  else
    let w := if (w <? 1)%Z then hc else w in
    let n := Z.min w hc in
    rsequence (map (fun k => worker (Z.of_nat k) i_end n) (seq 0 (Z.to_nat n))).

(** A schedule: the threads' actions, each thread's own order kept. *)
Inductive interleaving {E : Type} : list (list E) -> list E -> Prop :=
| il_done ts : Forall (fun t => t = []) ts -> interleaving ts []
| il_step ts1 e t ts2 sched :
    interleaving (ts1 ++ t :: ts2) sched -> interleaving (ts1 ++ (e :: t) :: ts2) (e :: sched).

(** ** src/types/SmallVector.hpp:7-58.  [sv_data] is the [std::array] of length Nmax, [sv_n] is [N]. *)
Record smallvec : Type := mkSV { sv_max : nat; sv_data : list Z; sv_n : nat }.
Definition sv_empty (nmax : nat) : smallvec := mkSV nmax (repeat 0%Z nmax) 0.
(** lines 18-27 *)
Definition sv_make (nmax n : nat) : res smallvec :=
  if Nat.ltb nmax n then Throw 1234 else Ok (mkSV nmax (repeat 0%Z nmax) n).
(** lines 29-38: the guard is [N > Nmax]; writing at index Nmax is out of bounds. *)
Definition sv_push (x : Z) : M smallvec unit := fun v =>
  if Nat.ltb (sv_max v) (sv_n v) then (v, Throw 1234)
  else if Nat.ltb (sv_n v) (sv_max v)
       then (mkSV (sv_max v) (list_set (sv_data v) (sv_n v) x) (S (sv_n v)), Ok tt)
       else (v, UB).
(** lines 40-48, the non-const access *)
Definition sv_get (i : nat) (v : smallvec) : res Z :=
  if Nat.ltb i (sv_n v) then match nth_error (sv_data v) i with Some x => Ok x | None => UB end
  else Throw 1234.
(** lines 53-57: iteration from begin() to end() = begin() + N *)
Definition sv_elems (v : smallvec) : list Z := firstn (sv_n v) (sv_data v).
(** src/cells/Cell_SPM/param/DEG_ID.hpp:36-40 [add_model] *)
Definition add_model (x : Z) : M smallvec unit := fun v =>
  if (x =? 0)%Z then (v, Ok tt) else sv_push x v.

(** src/types/Interval.hpp:24-30: a view of a whole container, [end] = [begin + (size-1)]. *)
Definition interval_elems {B : Type} (l : list B) : list B := firstn (length l - 1) l.

(** ** src/cells/Cell_SPM/param/DEG_ID.hpp:86-160, [print]; numbers are kept as tokens. *)
Inductive idtok : Type := TNum (z : Z) | TDash | TUnder.
Record DEG_ID : Type := mkDeg {
  d_SEI : list Z; d_SEIpor : Z; d_CS : list Z; d_CSdiff : Z; d_LAM : list Z; d_pl : Z }.
Definition toks_dash (l : list Z) : list idtok := flat_map (fun z => [TNum z; TDash]) l.
Definition deg_print (d : DEG_ID) : list idtok :=
  (match d_SEI d with [] => [TNum 0; TDash] | l => toks_dash l end) ++ [TNum (d_SEIpor d); TUnder] ++
  (match d_CS d with [] => [TNum 0; TDash] | l => toks_dash l end) ++ [TNum (d_CSdiff d); TUnder] ++
  (match d_LAM d with [] => [TNum 0; TDash; TUnder] | l => removelast (toks_dash l) ++ [TUnder] end) ++
  [TNum (d_pl d)].

(** ** src/types/data_storage/StateStorage.hpp:16-55 *)
Section Storage.
Context {A : Type}.
Definition heap : Type := nat -> A.
(** a [std::span<double>]: address and length *)
Definition span : Type := (nat * nat)%type.
Definition read_span (h : heap) (s : span) : list A := map h (seq (fst s) (snd s)).
(** [std::copy_n(values, spn.size(), spn.begin())] *)
Fixpoint write_at (h : heap) (a : nat) (vs : list A) : heap :=
  match vs with
  | [] => h
  | v :: vs' => write_at (fun x => if Nat.eqb x a then v else h x) (S a) vs'
  end.
Record sstore : Type := mkSS { ss_spans : list span; ss_vals : list A }.
Definition ss_clear : sstore := mkSS [] [].
(** lines 38-43 *)
Definition ss_add (h : heap) (s : span) (st : sstore) : sstore :=
  mkSS (ss_spans st ++ [s]) (ss_vals st ++ read_span h s).
(** lines 48-56 *)
Fixpoint restore_loop (spans : list span) (vals : list A) (h : heap) : heap :=
  match spans with
  | [] => h
  | s :: rest => restore_loop rest (skipn (snd s) vals) (write_at h (fst s) (firstn (snd s) vals))
  end.
Definition ss_restore (st : sstore) (h : heap) : heap := restore_loop (ss_spans st) (ss_vals st) h.
End Storage.
Arguments heap : clear implicits.
Arguments sstore : clear implicits.

(** ** src/utility/free_functions.hpp:49-62, [write_data]: a file is a sequence of tokens; a number is one token
    (its decimal text, which has no separator in it; [operator<<] with the default 6 digits is not modelled). *)
Section Writer.
Context {A : Type}.
Inductive ftok : Type := FNum (a : A) | FComma | FNewline | FText (n : Z).
Fixpoint write_loop (i n : nat) (data : list A) : res (list ftok) :=
  match data with
  | [] => Ok []
  | x :: rest =>
      match n with
      | O => UB (* i % 0 *)
      | _ => rmap (fun t =>
               (if Nat.eqb (i mod n) 0 then (if Nat.eqb i 0 then [] else [FNewline]) else [FComma]) ++ FNum x :: t)
             (write_loop (S i) n rest)
      end
  end.
(** Appends to the file and empties the buffer. *)
Definition write_data (n : nat) (st : list ftok * list A) : res (list ftok * list A) :=
  rmap (fun t => (fst st ++ t, [])) (write_loop 0 n (snd st)).

(** src/types/data_storage/CellDataWriter.hpp:26-49: [writeVarAndStates] then the samples, 7 per row. The text
    "States:" is [FText 0]. *)
Definition write_cell (states : list A) (st : list ftok * list A) : res (list ftok * list A) :=
  let f := fst st ++ [FText 0; FComma] ++ flat_map (fun x => [FNum x; FComma]) states ++ [FNewline; FNewline; FNewline] in
  write_data 7 (f, snd st).
End Writer.
Arguments ftok : clear implicits.

(** ** src/types/matrix.hpp:53-77, [cholUpdate].  Matrices as functions; only indices below [n] are touched. *)
Section Chol.
Context {A : Type} {NA : Num A}.
Local Open Scope num_scope.
Definition matrix : Type := nat -> nat -> A.
Definition vector : Type := nat -> A.
Definition mset (m : matrix) (i j : nat) (v : A) : matrix :=
  fun a b => if Nat.eqb a i && Nat.eqb b j then v else m a b.
Definition vset (x : vector) (i : nat) (v : A) : vector := fun a => if Nat.eqb a i then v else x a.
(** lines 70-77, the inner loop over j = k+1 .. n-1 *)
Definition chol_row (down : bool) (s c : A) (k : nat) (mx : matrix * vector) (j : nat) : matrix * vector :=
  let '(L, x) := mx in
  let l := if down then L j k - s * x j / c else L j k + s * x j / c in
  (mset L j k l, vset x j (c * x j - s * l)).
(** lines 57-69; [std::hypot(a,b)] is modelled as sqrt(a^2+b^2) *)
Definition chol_col (down : bool) (n : nat) (mx : matrix * vector) (k : nat) : matrix * vector :=
  let '(L, x) := mx in
  let Lk := L k k in
  let s := x k / Lk in
  let r := if down then nsqrt (Lk * Lk - x k * x k) else nsqrt (Lk * Lk + x k * x k) in
  let c := r / Lk in
  fold_left (chol_row down s c k) (seq (S k) (n - S k)) (mset L k k r, x).
Definition cholUpdate (down : bool) (n : nat) (L : matrix) (x : vector) : matrix :=
  fst (fold_left (chol_col down n) (seq 0 n) (L, x)).
End Chol.
Arguments matrix : clear implicits.
Arguments vector : clear implicits.
