(** * A concrete single-particle cell in doubles, for witnesses *)
From Coq Require Import SpecFloat.
From Verif Require Import Base StatusModel UtilModel CellModel SpmModel.

(** One node per electrode, linear OCV curves, no entropic coefficient. The only eigenvalue is 0. *)
Definition w_mat : spm_mat f64 :=
  mkMat [nZ 1; nlit 85 10000000; nlit 125 10000000; nZ 0] [nZ 1] [nZ 0] [nZ 0] [nZ 1] [nZ 1]
        [[nlit 1176470588 10000]] [[nZ 80000]] [nZ 1] [nZ 0] [nZ 0] [[nZ 1]] [[nZ 1]] [].
Definition w_line (a b : f64) : XYdata f64 := mkXY [nZ 0; nZ 1] [a; b] false.
Definition w_p := Eval vm_compute in w_line (nlit 46 10) (nlit 31 10).
Definition w_n := Eval vm_compute in w_line (nZ 1) (nZ 0).
Definition w_0 := Eval vm_compute in w_line (nZ 0) (nZ 0).
Definition w_m := Eval vm_compute in w_mat.

(** Functions that agree with the library's on 0 and are arbitrary elsewhere. *)
Definition w_fns (g h : f64 -> f64) (p : f64 -> f64 -> f64) : fns f64 :=
  mkFns (fun x => match x with S754_zero _ => nZ 1 | _ => g x end)
        (fun x => match x with S754_zero _ => x | _ => h x end) p.

(** The default cell, and the cell constructed with given degradation models, both at the reference temperature. *)
Definition w_or (r : res (spm f64)) (d : spm f64) : spm f64 := match r with Ok c => c | _ => d end.
Definition w_dummy : spm f64 :=
  mkSpm (spm_default_par w_m w_p w_n w_0 w_0) (spm_default_st (spm_default_par w_m w_p w_n w_0 w_0)) false str0 false false
        (nZ 0) (nZ 0) (nZ 0) (nZ 288).
Definition w_cell : spm f64 := Eval vm_compute in w_or (spm_default w_m w_p w_n w_0 w_0) w_dummy.
Lemma w_cell_default : spm_default w_m w_p w_n w_0 w_0 = Ok w_cell.
Proof. vm_compute. reflexivity. Qed.
Definition w_ref : spm f64 := Eval vm_compute in spm_setT (nZ 298) w_cell.

