(** Vocabulary of the findings about contact resistances on which parallel modules fail (C93, C94). *)
From Coq Require Import List.
From Verif Require Import Base RFacts CellModel ModuleModel ConvSpec LadderSpec.
Import ListNotations.
Local Open Scope R_scope.

(** [n] contacts: the first is arbitrary, contact [j] has [2 (q - R0) / (j (n - j))]. With default cells of 16 Ah and [q = 1 / 8], 100 branches
    have contacts between 0.1 and 2.5 milliohm. *)
Definition contacts_mean (n : nat) (r q R0 : R) : list R := r :: map (fun j => 2 * (q - R0) / (INR j * (INR n - INR j))) (seq 1 (n - 1)).
(** Terminal voltages at equal distances [g] around [y]. *)
Definition equidistant (n : nat) (y g : R) : list R := map (fun j => y + g * (INR j - (INR n - 1) / 2)) (seq 0 n).
(** [n] contacts, contact [j] has [2 (1 / 100 - R0) / (n (n + 1) - j (j + 1))]: with default cells and 20 branches between 0.04 and 0.4 milliohm. *)
Definition contacts_target (n : nat) (R0 : R) : list R := map (fun j => 2 * (1 / 100 - R0) / (INR n * (INR n + 1) - INR j * (INR j + 1))) (seq 0 n).
(** Terminal voltages that are [g], [2 g], [3 g], ... above [v]. *)
Definition staircase (n : nat) (v g : R) : list R := map (fun j => v + g * (INR j + 1)) (seq 0 n).
