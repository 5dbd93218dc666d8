(** * Facts about the carriers used in the proofs *)
From Coq Require Export Reals Lra Psatz.
From Verif Require Export Base.
Local Open Scope R_scope.

(** Booleans of the real carrier. *)
Lemma Rltb_true x y : nltb x y = true <-> x < y.
Proof. cbn. destruct (Rlt_dec x y); split; intros; auto; discriminate. Qed.
Lemma Rltb_false x y : nltb x y = false <-> y <= x.
Proof. cbn. destruct (Rlt_dec x y); split; intros; auto; try discriminate; lra. Qed.
Lemma Rleb_true x y : nleb x y = true <-> x <= y.
Proof. cbn. destruct (Rle_dec x y); split; intros; auto; discriminate. Qed.
Lemma Rleb_false x y : nleb x y = false <-> y < x.
Proof. cbn. destruct (Rle_dec x y); split; intros; auto; try discriminate; lra. Qed.
Lemma Reqb_true x y : neqb x y = true <-> x = y.
Proof. cbn. destruct (Req_EM_T x y); split; intros; auto; discriminate. Qed.
Lemma Reqb_false x y : neqb x y = false <-> x <> y.
Proof. cbn. destruct (Req_EM_T x y); split; intros; auto; try discriminate; contradiction. Qed.

Lemma R_nlit p q : nlit p q = IZR p / IZR (Zpos q).
Proof. reflexivity. Qed.
Lemma R_nZ z : nZ z = IZR z.
Proof. unfold nZ. cbn. field. Qed.
Lemma R_nnat n : nnat n = INR n.
Proof. unfold nnat. cbn. rewrite <- INR_IZR_INZ. field. Qed.

(** Destruct every comparison of reals in sight. *)
Ltac rcase :=
  repeat match goal with
  | H : context [if Rlt_dec ?a ?b then _ else _] |- _ => destruct (Rlt_dec a b)
  | |- context [if Rlt_dec ?a ?b then _ else _] => destruct (Rlt_dec a b)
  | H : context [if Rle_dec ?a ?b then _ else _] |- _ => destruct (Rle_dec a b)
  | |- context [if Rle_dec ?a ?b then _ else _] => destruct (Rle_dec a b)
  | H : context [if Req_EM_T ?a ?b then _ else _] |- _ => destruct (Req_EM_T a b)
  | |- context [if Req_EM_T ?a ?b then _ else _] => destruct (Req_EM_T a b)
  end.

(** ** Sums *)
Fixpoint Rsum (l : list R) : R :=
  match l with [] => 0 | x :: t => x + Rsum t end.

Lemma fold_left_Rplus l a : fold_left (fun s x => s + x) l a = a + Rsum l.
Proof.
  revert a; induction l as [|x t IH]; intros a; simpl; [lra|].
  rewrite IH; lra.
Qed.
Lemma R_nsum (l : list R) : nsum l = Rsum l.
Proof. unfold nsum. rewrite R_nZ. cbn [nadd RNum]. rewrite fold_left_Rplus. lra. Qed.

Lemma Rsum_app l1 l2 : Rsum (l1 ++ l2) = Rsum l1 + Rsum l2.
Proof. induction l1; simpl; lra. Qed.
Lemma Rsum_nonneg l : Forall (fun x => 0 <= x) l -> 0 <= Rsum l.
Proof. induction 1; simpl; lra. Qed.
Lemma Rsum_map_ext {B} (f g : B -> R) l : (forall x, In x l -> f x = g x) -> Rsum (map f l) = Rsum (map g l).
Proof. induction l as [|a t IH]; simpl; intros H; [reflexivity|]. rewrite H by auto. rewrite IH; auto. Qed.
Lemma Rsum_map_scal {B} (f : B -> R) c l : Rsum (map (fun x => c * f x) l) = c * Rsum (map f l).
Proof. induction l; simpl; lra. Qed.
Lemma Rsum_map_plus {B} (f g : B -> R) l : Rsum (map (fun x => f x + g x) l) = Rsum (map f l) + Rsum (map g l).
Proof. induction l; simpl; lra. Qed.

(** ** Truncation *)
Lemma Int_part_spec' r z : IZR z <= r < IZR z + 1 -> Int_part r = z.
Proof.
  intros [H1 H2]. unfold Int_part. 
  assert (up r = (z + 1)%Z) as ->; [|lia].
  symmetry. apply tech_up; rewrite plus_IZR; lra.
Qed.
Lemma Int_part_bounds r : IZR (Int_part r) <= r < IZR (Int_part r) + 1.
Proof. destruct (base_Int_part r). lra. Qed.
Lemma Rtrunc_nonneg x : 0 <= x -> IZR (Rtrunc x) <= x < IZR (Rtrunc x) + 1.
Proof. intros H. unfold Rtrunc. destruct (Rle_dec 0 x); [|contradiction]. apply Int_part_bounds. Qed.
Lemma Rtrunc_spec x z : 0 <= x -> IZR z <= x < IZR z + 1 -> Rtrunc x = z.
Proof. intros H Hz. unfold Rtrunc. destruct (Rle_dec 0 x); [|contradiction]. now apply Int_part_spec'. Qed.
Lemma Rtrunc_neg x : x < 0 -> IZR (Rtrunc x) - 1 < x <= IZR (Rtrunc x).
Proof.
  intros H. unfold Rtrunc. destruct (Rle_dec 0 x); [lra|].
  rewrite opp_IZR. pose proof (Int_part_bounds (- x)). lra.
Qed.
Lemma R_ceil_bounds x : x <= nceil x < x + 1.
Proof. cbn. rewrite opp_IZR. pose proof (Int_part_bounds (- x)). lra. Qed.

(** ** Lists *)
Lemma list_set_length {B} (l : list B) i b : length (list_set l i b) = length l.
Proof. revert i; induction l; destruct i; simpl; auto. Qed.
Lemma nth_list_set_eq {B} (l : list B) i b d : (i < length l)%nat -> nth i (list_set l i b) d = b.
Proof. revert i; induction l; destruct i; simpl; intros; try lia; auto. apply IHl; lia. Qed.
Lemma nth_list_set_neq {B} (l : list B) i j b d : i <> j -> nth j (list_set l i b) d = nth j l d.
Proof. revert i j; induction l; destruct i, j; simpl; intros; auto; try congruence. Qed.
Lemma nth_error_list_set {B} (l : list B) i j b :
  nth_error (list_set l i b) j =
  if Nat.eqb i j then (if Nat.ltb i (length l) then Some b else None) else nth_error l j.
Proof.
  revert i j; induction l as [|x t IH]; destruct i, j; simpl; auto.
  - now destruct (Nat.eqb i j).
  - rewrite IH. destruct (Nat.eqb i j); auto.
Qed.
