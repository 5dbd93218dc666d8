(** * Concrete modules used in the examples and findings *)
From Coq Require Import List Lia SpecFloat.
From Verif Require Import Base RFacts StatusModel UtilModel CellModel CellSpec CellProofs CoolModel ModuleModel ModuleSpec.
Import ListNotations.
Notation Tree A n := (su A (ecmu A) n).

(** ** Concrete trees for the examples *)
Section Examples.
Context {A : Type} {NA : Num A}.
(** a cell with the default parameters but the given capacity, state of charge and current *)
Definition ex_cell (cap soc i : A) : ecmu A :=
  let p := ecm_default_par 1 in
  mkEu false (mkEcm (mkEpar cap (p_Rdc p) (p_Rp p) (p_itau p) (p_ocv p) (p_lim p) (p_Tmin p) (p_Tmax p))
                    (mkEst (nZ 288) soc i [nZ 0] (nZ 0) (nZ 0) (nZ 0))).
Definition ex_rec (series : bool) (rc : list A) (ncells : nat) : modrec A :=
  mkMod series rc (cool_make ncells 1) (nZ 5) (nZ 1) (nZ 0) (nZ 0) ncells (nZ 0) false false false false.
Definition half : A := nlit 1 2.
Definition cell1 : ecmu A := ex_cell (nZ 16) half (nZ 1).
Definition mohm : A := nlit 1 1000.
(** two cells in parallel, in series with a third *)
Definition ex_par : module A (Tree A 0) := mkM (ex_rec false [mohm; mohm] 2) [cell1; cell1].
Definition ex_tree : Tree A 2 :=
  inr (mkM (ex_rec true [mohm; mohm] 3) [inr ex_par; inl (ex_cell (nZ 16) half (nZ 2))]).
(** the same without contact resistances in the parallel part *)
Definition ex_par0 : module A (Tree A 0) := mkM (ex_rec false [nZ 0; nZ 0] 2) [cell1; cell1].
Definition ex_tree0 : Tree A 2 :=
  inr (mkM (ex_rec true [mohm; mohm] 3) [inr ex_par0; inl (ex_cell (nZ 16) half (nZ 2))]).
Definition ex_string : Tree A 1 := inr (mkM (ex_rec true [mohm; mohm; mohm] 3) [cell1; cell1; cell1]).
End Examples.


(** ** Two cells that reject every correction of their currents

    One full, one empty, both large: in every iteration of the balancing loop the first is asked for a discharge that
    brings its voltage below zero, the second for a charge far beyond its upper limit. *)
Local Open Scope R_scope.
Section Rejecting.
Definition full : ecmu R := ex_cell 16000 1 0.
Definition empty : ecmu R := ex_cell 16000 0 0.
Definition chi : R := 43/10.
Definition clo : R := 2.
Definition with_I1 (c : ecmu R) (i : R) : ecm R := mkEcm (ep (u_ecm c)) (with_I (es (u_ecm c)) i).

Lemma ocv_x cap soc i : xy_x (p_ocv (ep (u_ecm (ex_cell (A := R) cap soc i)))) = [0; / 2; 1].
Proof.
  cbn -[nlit]. unfold nZ. rewrite !R_nlit. change (Pos.to_nat 3) with 3%nat. cbn [seq map]. rewrite !R_nlit. cbn [Z.of_nat Pos.of_succ_nat Pos.succ].
  match goal with |- [?a;?b;?c] = _ => replace a with 0 by lra; replace b with (/2) by lra; replace c with 1 by lra end. reflexivity.
Qed.
Lemma ocv_y cap soc i : exists m, xy_y (p_ocv (ep (u_ecm (ex_cell (A := R) cap soc i)))) = [clo; m; chi].
Proof.
  eexists. cbn -[nlit]. unfold nZ. rewrite ?R_nlit. change (Pos.to_nat 3) with 3%nat. cbn [seq map]. rewrite ?R_nlit. cbn [Z.of_nat Pos.of_succ_nat Pos.succ].
  unfold clo, chi. match goal with |- [?a;?b;?c] = _ => replace a with 2 by lra; replace c with (43/10) by lra end. reflexivity.
Qed.
Lemma end_V (b : bool) i : ecm_V (with_I1 (if b then full else empty) i) = Ok ((if b then chi else clo) - 2/1000 * i).
Proof.
  unfold ecm_V. assert (E : ecm_OCV (with_I1 (if b then full else empty) i) = Ok (if b then chi else clo)).
  { unfold ecm_OCV, XYdata_interp, linInt, linInt_noexcept. cbn [ep es with_I1 with_I e_SOC].
    replace (xy_x _) with [0; /2; 1] by (destruct b; symmetry; apply ocv_x). cbn [length]. change (Z.of_nat 3) with 3%Z. change (3 - 1)%Z with 2%Z.
    destruct (ocv_y 16000 (if b then 1 else 0) 0) as [m Y].
    replace (xy_y _) with [clo; m; chi] by (destruct b; rewrite <- Y; reflexivity).
    replace (e_SOC (es (u_ecm (if b then full else empty)))) with (if b then 1 else 0) by (destruct b; reflexivity).
    destruct b.
    - change (vget [0; /2; 1] 0) with (Ok 0). change (vget [0; /2; 1] 2) with (Ok 1). cbn [rbind andb].
      replace (1 <? 0)%num with false by (symmetry; apply Rltb_false; lra). replace (1 >? 1)%num with false by (symmetry; apply Rltb_false; lra).
      replace (1 <=? 0)%num with false by (symmetry; apply Rleb_false; lra). replace (1 >=? 1)%num with true by (symmetry; apply Rleb_true; lra).
      reflexivity.
    - change (vget [0; /2; 1] 0) with (Ok 0). change (vget [0; /2; 1] 2) with (Ok 1). cbn [rbind andb].
      replace (0 <? 0)%num with false by (symmetry; apply Rltb_false; lra). replace (0 >? 1)%num with false by (symmetry; apply Rltb_false; lra).
      replace (0 <=? 0)%num with true by (symmetry; apply Rleb_true; lra). reflexivity. }
  rewrite E. f_equal.
  assert (P : p_Rdc (ep (with_I1 (if b then full else empty) i)) = 2/1000) by (destruct b; cbn [with_I1 ep full empty ex_cell u_ecm p_Rdc ecm_default_par]; rewrite R_nlit; lra).
  rewrite P. destruct b; cbn [with_I1 es ep full empty ex_cell u_ecm p_Rp ecm_default_par e_Ir with_I e_I sub_drops]; rewrite R_nZ; cbn; ring.
Qed.
Lemma with_I1_0 c : e_I (es (u_ecm c)) = 0 -> u_block c = false -> mkEu false (with_I1 c 0) = c.
Proof. destruct c as [b [p [T s i ir t a w]]]. cbn. intros -> ->. reflexivity. Qed.

Definition end_cell (b : bool) : ecmu R := if b then full else empty.
Lemma end_setCurrent b i : lift_ecm (ecm_setCurrent i true) (end_cell b) =
  let st := match check_voltage (Ok ((if b then chi else clo) - 2/1000 * i)) (p_lim (ep (u_ecm (end_cell b)))) i with Ok (_, s) => s | _ => Success end in
  (if isStatusBad st then end_cell b else mkEu false (with_I1 (end_cell b) i), Ok st).
Proof.
  unfold lift_ecm, ecm_setCurrent, ecm_checkCurrent, ecm_checkVoltage. cbn zeta.
  change (mkEcm (ep (u_ecm (end_cell b))) (with_I (es (u_ecm (end_cell b))) i)) with (with_I1 (if b then full else empty) i).
  rewrite end_V. cbn [check_voltage rmap rbind snd].
  replace (ep (with_I1 (if b then full else empty) i)) with (ep (u_ecm (end_cell b))) by reflexivity.
  replace (e_I (es (with_I1 (if b then full else empty) i))) with i by (destruct b; reflexivity).
  match goal with |- context [isStatusBad ?x] => set (st := x) end.
  destruct (isStatusBad st); destruct b; reflexivity.
Qed.
Lemma lims b : p_lim (ep (u_ecm (end_cell b))) = mkLim (27/10) (42/10) 2 (43/10).
Proof. destruct b; cbn [end_cell full empty ex_cell u_ecm ep p_lim ecm_default_par]; unfold defaultLimits; rewrite !R_nlit; f_equal; cbn; lra. Qed.

Ltac decide_R := repeat match goal with
  | |- context [nltb ?x ?y] => first [replace (nltb x y) with true by (symmetry; apply Rltb_true; lra) | replace (nltb x y) with false by (symmetry; apply Rltb_false; lra)]
  | |- context [nleb ?x ?y] => first [replace (nleb x y) with true by (symmetry; apply Rleb_true; lra) | replace (nleb x y) with false by (symmetry; apply Rleb_false; lra)]
  end.
(** Zero current is accepted *)
Lemma zero_accepted b : lift_ecm (ecm_setCurrent 0 true) (end_cell b) = (end_cell b, Ok Success).
Proof.
  rewrite end_setCurrent, lims. cbn [check_voltage]. unfold isChargingI, isDischargingI, V_ABSTOL. rewrite !R_nZ, R_nlit. cbn [l_Vmin l_Vmax l_VMIN l_VMAX].
  destruct b; unfold chi, clo; cbn -[nltb nleb]; decide_R; cbn; reflexivity.
Qed.
(** the corrections are not *)
Lemma far_rejected (b : bool) i : 18000 <= i -> exists st, lift_ecm (ecm_setCurrent (if b then i else -i) true) (end_cell b) = (end_cell b, Ok st).
Proof.
  intros H. rewrite end_setCurrent, lims. cbn [check_voltage]. unfold isChargingI, isDischargingI, V_ABSTOL. rewrite !R_nZ, R_nlit. cbn [l_Vmin l_Vmax l_VMIN l_VMAX].
  destruct b; unfold chi, clo; cbn -[nltb nleb]; decide_R; cbn; eauto.
Qed.
Lemma end_Vall : getVall ecm_ops [full; empty] [0; 0] = ([full; empty], Ok [chi; clo]).
Proof.
  unfold getVall. cbn [length Nat.ltb Nat.leb NSUs_MAX getVall_from ecm_ops o_V o_I].
  assert (F := end_V true 0). assert (E := end_V false 0). cbv iota in E, F.
  change (with_I1 full 0) with (u_ecm full) in F. change (with_I1 empty 0) with (u_ecm empty) in E. rewrite E, F. cbn [map rmap rbind fst].
  replace (ecm_I (u_ecm full)) with 0 by reflexivity. replace (ecm_I (u_ecm empty)) with 0 by reflexivity. rewrite R_nZ. do 3 f_equal; cbn; [|f_equal]; ring.
Qed.
Lemma never_balanced : forall it k, 0 <= k ->
  p_balance ecm_ops it (nlit 1 1000000000) [0; 0] [18400 * k; - (18400 * k)] [chi; clo] [full; empty] = ([full; empty], Ok None).
Proof.
  induction it as [|it IH]; intros k K; [reflexivity|]. cbn [p_balance].
  replace (vmean [chi; clo]) with (315/100) by (unfold vmean, nsum, nnat, chi, clo; rewrite !R_nlit; cbn; lra).
  replace (nltb (spread (315/100) [chi; clo]) (nlit 1 1000000000)) with false.
  2:{ symmetry. apply Rltb_false. unfold spread, nsum, chi, clo. rewrite R_nlit. cbn.
      rewrite (Rabs_left (315/100 - 43/10)) by lra. rewrite (Rabs_right (315/100 - 2)) by lra. unfold nZ. rewrite ?R_nlit. cbn. lra. }
  cbn [p_adjust ecm_ops o_Cap o_setCurrent].
  destruct (far_rejected true (18400 * (k + 1))) as [s1 E1]; [lra|]. destruct (far_rejected false (18400 * (k + 1))) as [s2 E2]; [lra|].
  cbn [end_cell] in E1, E2.
  replace (nsub (18400 * k)%R (nmul (nsub (315/100)%R chi) (p_cap (ep (u_ecm full))))) with (18400 * (k + 1)).
  2:{ replace (p_cap (ep (u_ecm full))) with 16000 by reflexivity. unfold chi. cbn. lra. }
  rewrite E1.
  replace (nsub (- (18400 * k))%R (nmul (nsub (315/100)%R clo) (p_cap (ep (u_ecm empty))))) with (- (18400 * (k + 1))).
  2:{ replace (p_cap (ep (u_ecm empty))) with 16000 by reflexivity. unfold clo. cbn. lra. }
  rewrite E2. cbn [rmap rbind]. rewrite end_Vall. apply IH. lra.
Qed.
Lemma never_balanced_setCurrent : p_setCurrent ecm_ops 0 [0; 0] [full; empty] = ([full; empty], Ok Success).
Proof.
  unfold p_setCurrent. cbn [length Nat.ltb Nat.leb NSUs_MAX map ecm_ops o_I].
  replace (ecm_I (u_ecm full)) with 0 by reflexivity. replace (ecm_I (u_ecm empty)) with 0 by reflexivity.
  replace (ndiv (nsub 0 (nsum [0; 0])) (nnat 2)) with 0 by (unfold nsum, nnat; rewrite ?R_nlit; cbn; unfold nZ; rewrite ?R_nlit; cbn; lra).
  cbn [p_first ecm_ops o_setCurrent]. replace (nadd 0 0) with 0 by (cbn; lra).
  assert (Z1 := zero_accepted true). assert (Z2 := zero_accepted false). cbn [end_cell] in Z1, Z2. rewrite Z1, Z2. cbn [isStatusOK rmap rbind]. cbn -[getVall p_balance nlit setCurrent_iterations].
  rewrite end_Vall. assert (B := never_balanced setCurrent_iterations 0 (Rle_refl 0)).
  replace (18400 * 0) with 0 in B by lra. replace (- 0) with 0 in B by lra. rewrite B. reflexivity.
Qed.
End Rejecting.
