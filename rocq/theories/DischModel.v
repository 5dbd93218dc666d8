(** * Model of the slow-discharge simulation behind the OCV fit (src/procedures/determine_OCV.cpp:103-347) *)
From Verif Require Import Base UtilModel FitModel.
Local Open Scope num_scope.

Section Disch.
Context {A : Type} {NA : Num A}.

(** Arguments that do not change during the discharge, lines 103-105: the electrode curves, the capacity, the active
    material and maximum concentration of both electrodes, and the end voltage. *)
Record dpar : Type := mkDp {
  d_p : list A * list A; d_n : list A * list A; d_cap : A;
  d_AMp : A; d_AMn : A; d_cmaxp : A; d_cmaxn : A; d_Vend : A }.

(** The captured locals: [Ah], [sp], [sn], [end], [v], [ocvpi], [ocvni], and [flag] of the second overload.
    The three voltages are uninitialised until the first [interpolate]; that happens before they are read. *)
Record dst : Type := mkDs { s_Ah : A; s_sp : A; s_sn : A; s_end : bool; s_v : A; s_op : A; s_on : A; s_ok : bool }.

(** One stored row of the three output curves, lines 163-170: (Ah, v), (sn, ocvni), (sp, ocvpi). *)
Record drow : Type := mkRow { r_Ah : A; r_v : A; r_sn : A; r_on : A; r_sp : A; r_op : A }.

(** lines 144-145: 0.1 * cap and 5 s *)
Definition d_I (p : dpar) : A := nlit 1 10 * d_cap p.
Definition d_dt : A := nZ 5.
(** line 151 *)
Definition nstore : nat := 100.

(** lines 154-161 (the status of both interpolations is dropped) and lines 257-270 (a status raises the error flag). *)
Definition d_interp (p : dpar) (s : dst) : res dst :=
  rbind (linInt_noexcept true (fst (d_p p)) (snd (d_p p)) (Z.of_nat (length (snd (d_p p)))) (s_sp s) false) (fun '(op, s1) =>
  rbind (linInt_noexcept true (fst (d_n p)) (snd (d_n p)) (Z.of_nat (length (snd (d_n p)))) (s_sn s) false) (fun '(on, s2) =>
  Ok (mkDs (s_Ah s) (s_sp s) (s_sn s) (s_end s) (op - on) op on (s_ok s && ((s1 =? 0)%Z && (s2 =? 0)%Z))))).

(** lines 163-170 *)
Definition d_row (s : dst) : drow := mkRow (s_Ah s) (s_v s) (s_sn s) (s_on s) (s_sp s) (s_op s).

(** The body of the loop in [step], lines 174-180 and 279-285; [n] is 1. *)
Definition d_sub (p : dpar) (s : dst) : res dst :=
  rbind (d_interp p s) (fun s =>
  let ah := s_Ah s + d_I p * d_dt / nZ 3600 in
  let sp := s_sp s + d_I p * d_dt / (nZ 1 * FARA) / d_AMp p / d_cmaxp p in
  let sn := s_sn s - d_I p * d_dt / (nZ 1 * FARA) / d_AMn p / d_cmaxn p in
  Ok (mkDs ah sp sn
        ((s_v s <=? d_Vend p) || (sp <=? nZ 0) || (sp >=? nZ 1) || (sn <=? nZ 0) || (sn >=? nZ 1))
        (s_v s) (s_op s) (s_on s) (s_ok s))).

(** [step], lines 172-184 ([strict] = false) and 277-286 ([strict] = true: the error flag stops the loop too). *)
Definition d_go (strict : bool) (s : dst) : bool := negb (s_end s) && (negb strict || s_ok s).
Fixpoint d_step (strict : bool) (p : dpar) (k : nat) (s : dst) : res dst :=
  match k with
  | O => Ok s
  | S k' => if d_go strict s then rbind (d_sub p s) (d_step strict p k') else Ok s
  end.

(** The state when the discharge starts. *)
Definition d_init (sp sn : A) : dst := mkDs (nZ 0) sp sn false (nZ 0) (nZ 0) (nZ 0) true.

(** lines 192-197: [fuel] bounds the number of rounds of the unbounded loop. Rows come out in the order they are stored. *)
Fixpoint d_rounds (fuel : nat) (p : dpar) (s : dst) : res (dst * list drow) :=
  if s_end s then Ok (s, [])
  else match fuel with
       | O => Fuel
       | S f => rbind (d_step false p nstore s) (fun s' =>
                rmap (fun '(z, rows) => (z, d_row s' :: rows)) (d_rounds f p s'))
       end.

(** Outputs: rows of the curves, lithium fractions (100%, 50%, 0%) of the cathode and of the anode. *)
Definition fracs : Type := A * A * A.
Record dout : Type := mkOut { o_rows : list drow; o_fp : fracs; o_fn : fracs }.
(** lines 186-188 and 201-208 *)
Definition d_fracs (x0 x2 : A) : fracs := (x0, (x0 + x2) / nZ 2, x2).

(** determine_OCV.cpp:103-211, the overload with the electrode curves as outputs; it returns [true] always. The output
    curves are empty when the function is called (line 742). *)
Definition discharge_noexcept3 (fuel : nat) (p : dpar) (sp sn : A) : res (dout * bool) :=
  rbind (d_interp p (d_init sp sn)) (fun s0 =>
  rbind (d_rounds fuel p s0) (fun '(z, rows) =>
  Ok (mkOut (d_row s0 :: rows) (d_fracs sp (s_sp z)) (d_fracs sn (s_sn z)), true))).
(** determine_OCV.cpp:331-347 *)
Definition discharge (fuel : nat) (p : dpar) (sp sn : A) : res dout :=
  rbind (discharge_noexcept3 fuel p sp sn) (fun '(o, flag) => if flag then Ok o else Throw 1).

(** lines 289-292 *)
Fixpoint d_rounds1 (fuel : nat) (p : dpar) (s : dst) : res (dst * list drow) :=
  if d_go true s then
    match fuel with
    | O => Fuel
    | S f => rbind (d_step true p nstore s) (fun s' =>
             rmap (fun '(z, rows) => (z, d_row s :: rows)) (d_rounds1 f p s'))
    end
  else Ok (s, []).
(** determine_OCV.cpp:213-311, the overload without electrode curves. [None]: the function returned [false] and left the
    50% and 0% fractions of the caller as they were; the rows stored until then remain. *)
Definition discharge_noexcept1 (fuel : nat) (p : dpar) (sp sn : A) : res (list drow * option (fracs * fracs)) :=
  rbind (d_interp p (d_init sp sn)) (fun s0 =>
  rbind (d_rounds1 fuel p s0) (fun '(z, rows) =>
  if s_ok z then Ok (rows ++ [d_row z], Some (d_fracs sp (s_sp z), d_fracs sn (s_sn z)))
  else Ok (rows, None))).

(** determine_OCV.cpp:764-770: thickness of an electrode from its fitted active material *)
Definition fit_thick (AM : A) : A := AM / (nlit 982 10000 * nlit 1 2).
End Disch.
Arguments dpar : clear implicits.
Arguments dst : clear implicits.
Arguments drow : clear implicits.
Arguments dout : clear implicits.
