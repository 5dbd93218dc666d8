(** * The single-particle cell as a storage unit *)
From Verif Require Import Base StatusModel UtilModel CellModel ModuleModel SpmModel.

Section Unit.
Context {A : Type} {NA : Num A}.
Variables (F : fns A) (tm : Z).

(** Cell_SPM.hpp:160-262, Cell.hpp:44-81 and StorageUnit.hpp:40-107: the interface other units use. *)
Definition spm_ops : su_ops A (spm A) := {|
  o_I c := s_I (cs c); o_Cap c := q_cap (cp c); o_lim c := q_lim (cp c); o_N c := 1%nat;
  o_T c := s_T (cs c); o_Thot c := s_T (cs c); o_area c := q_Acell (cp c);
  o_OCV c := spm_OCV F c; o_Rtot c := Ok (getRdc c);
  o_V := spm_V F; o_checkV := spm_checkVoltage F; o_Vhigh := spm_V F; o_Vlow := spm_V F;
  o_getStates c := spm_getStates c; o_setStates l b := spm_setStates F l b;
  o_setCurrent i b := spm_setCurrent F i b;
  o_timeStep dt n := spm_timeStep_CC F tm dt n;
  o_thermal nb t := spm_thermal tm nb t;
  o_setT t c := (spm_setT t c, Ok tt);
  o_setFlag b c := mkSpm (cp c) (cs c) (c_valid c) (c_str c) b (c_parent c) (c_Q c) (c_Qtot c) (c_tth c) (c_Tenv c);
  o_coolload c := (c, Ok None) |}.

(** StorageUnit.hpp:58 with free_functions.hpp:25-47 *)
Definition spm_setVoltage (v : A) : M (spm A) Status := setVoltage_iterative spm_ops v.
End Unit.
