(** * CSV files, seen from outside: numerals, lines, files *)
From Verif Require Import Base.
Open Scope Z_scope.

Definition digits (t : list Z) : Prop := Forall (fun c => 48 <= c <= 57) t.
(** A decimal numeral as programs print them: -12.5e+07. The exponent letter is [e] (101). *)
Definition sign_part (t : list Z) : Prop := t = [] \/ t = [45].
Definition frac_part (t : list Z) : Prop := t = [] \/ exists d, t = 46 :: d /\ digits d.
Definition exp_part (t : list Z) : Prop :=
  t = [] \/ exists sg d, t = 101 :: sg ++ d /\ (sg = [] \/ sg = [43] \/ sg = [45]) /\ digits d /\ d <> [].
Definition numeral (t : list Z) : Prop :=
  exists sg ip fp ex, t = sg ++ ip ++ fp ++ ex /\ sign_part sg /\ digits ip /\ ip <> [] /\ frac_part fp /\ exp_part ex.

(** A numeral which stands for the number [v]. *)
Definition writes {A} (conv : list Z -> A * bool) (t : list Z) (v : A) : Prop := numeral t /\ conv t = (v, false).

(** The fields of a row are joined by commas, rows end in a line feed or in carriage return + line feed; the last row may
    miss it. *)
Fixpoint row_text (fields : list (list Z)) : list Z :=
  match fields with
  | [] => []
  | [t] => t
  | t :: ts => t ++ 44 :: row_text ts
  end.
Definition newline (nl : list Z) : Prop := nl = [10] \/ nl = [13; 10].
Fixpoint file_text (nl : list Z) (final : bool) (rows : list (list (list Z))) : list Z :=
  match rows with
  | [] => []
  | [r] => row_text r ++ (if final then nl else [])
  | r :: rs => row_text r ++ nl ++ file_text nl final rs
  end.
(** The UTF-8 byte order mark. *)
Definition BOM : list Z := [239; 187; 191].
Definition mark (b : bool) : list Z := if b then BOM else [].

(** A rectangular file of the values [vals]. *)
Definition writes_rows {A} (conv : list Z -> A * bool) (rows : list (list (list Z))) (vals : list (list A)) : Prop :=
  Forall2 (Forall2 (writes conv)) rows vals.
Definition width {A} (w : nat) (vals : list (list A)) : Prop := Forall (fun r => length r = w) vals.
