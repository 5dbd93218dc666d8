(** * C36, C41, C43-C46 for whole batteries: heat, cooling energy, construction, checked voltage, blocking *)
From Coq Require Import Reals Lra Lia SpecFloat.
From Verif Require Import Base RFacts StatusModel StatusProofs CellModel CellSpec CellProofs CoolModel CoolSpec CoolProofs
  ModuleModel ModuleSpec ModuleProofs ModuleProofs2 ModuleProofs3 ModuleProofs7 ModuleExamples BattModel BattSpec BattProofs P_Cool P_Module P_Batt.
Local Open Scope R_scope.

(** ** C44: conduction losses *)

(** The voltage over a conducting switch as documented (Converter.cpp:65-70): 1 V at 30 A, 3 V at 300 A, straight lines between
    and beyond, whatever the direction. *)
Definition switch_drop (i v : R) : Prop :=
  (Rabs i <= 30 -> v = Rabs i / 30) /\ (30 <= Rabs i -> v = 1 + (Rabs i - 30) * 2 / 270).
Theorem C44_conduction : forall (c : conv R) (V I : R), 0 < v_pnom c <= 200000 * 2147483647 -> 0 < v_dc c -> 0 <= V ->
  exists p n d, conv_losses c V I = Ok p /\ IZR n - 1 < v_pnom c / 200000 <= IZR n /\ switch_drop (I / IZR n) d /\
    IZR n * (981 + Rabs (I / IZR n) * d * (1 + 2 * V / v_dc c)) <= p.
Proof.
  intros c V I [H0 H1] Hd HV. destruct (inverters _ H0 H1) as (n & E & Hn & B). assert (Hn' : 1 <= IZR n) by (apply IZR_le; exact Hn).
  set (i := I / IZR n).
  assert (S : switch_drop i (igbt i)).
  { unfold switch_drop, igbt. cbn [nltb nabs nmul nadd nsub ndiv RNum]. rewrite !R_nZ. match goal with |- context [if ?q then _ else _] => destruct q eqn:C end.
    - apply Rltb_true in C. split; [lra|]. intros _. lra.
    - apply Rltb_false in C. split; [intros _; lra|]. intros K. lra. }
  assert (P : 0 <= igbt i). { destruct S as [S1 S2]. pose proof (Rabs_pos i). destruct (Rle_dec (Rabs i) 30); [rewrite S1 by assumption|rewrite S2 by lra]; lra. }
  exists (loss_formula (v_dc c) (v_ac c) (IZR n) V I), n, (igbt i). split; [now apply conv_losses_formula|]. split; [exact B|]. split; [exact S|].
  unfold loss_formula. fold i. set (d := i * V / v_dc c). rewrite Rmult_comm. apply Rmult_le_compat_r; [lra|].
  assert (F : 0 < 1 + 2 * V / v_dc c).
  { assert (0 <= 2 * V / v_dc c); [|lra]. unfold Rdiv. apply Rmult_le_pos; [lra|]. left. now apply Rinv_0_lt_compat. }
  assert (K : Rabs (i * igbt i * (1 + 2 * V / v_dc c)) = Rabs i * igbt i * (1 + 2 * V / v_dc c)).
  { rewrite !Rabs_mult, (Rabs_pos_eq (igbt i)), (Rabs_pos_eq (1 + _)) by lra. reflexivity. }
  rewrite K. pose proof (Rabs_pos (d * igbt d * (1 + 2 * v_dc c / v_ac c))).
  pose proof (Rabs_pos (i - 50)). pose proof (Rabs_pos (d - 50)).
  rewrite (Rabs_pos_eq (8000 * _)) by lra. rewrite (Rabs_pos_eq (6 * 8000 * _)) by lra.
  pose proof (sq_nonneg i). pose proof (sq_nonneg d). lra.
Qed.
Print Assumptions C44_conduction.

Section Batt.
Context {S : Type} (o : su_ops R S) (tm : Z).
Notation mo := (mod_ops o tm).
Implicit Types (b : batt R S) (m : module R S).

(** ** C45 *)

(** The checked voltage is scaled like the voltage and keeps the verdict of the cells. *)
Theorem C45_checked : forall b m s p m' v st, consists b m s p -> o_checkV mo m = (m', Ok (v, st)) ->
  exists b' vb, batt_checkV o tm b = (b', Ok (vb, st)) /\ consists b' m' s p /\ arranged is_mean is_sum s p v vb.
Proof.
  intros b m s p m' v st C E. destruct (factors _ _ _ _ C) as [Es _]. assert (H0 := C). destruct H0 as ((k & Ek) & Zs & Zp & Hs & Hp).
  exists (with_body b (m', k)), (v * INR s). unfold batt_checkV, on_cells. rewrite Ek, E, Es. split; [reflexivity|]. split.
  - split; [exists k; reflexivity|]. cbn. auto.
  - eexists. split; [now apply mean_repeat|apply sum_repeat].
Qed.

(** A battery takes a module exactly if it has none, the module has no parent and no air conditioning of its own; refusals
    change nothing. The battery then consists of that module, its converter is rated for capacity times highest voltage, and its
    air conditioning for 7.5 W per cell plus twice the converter's losses at that voltage and 1C. *)
Theorem C45_construction : forall b m s p q, bt_ns b = Z.of_nat s -> bt_np b = Z.of_nat p -> (0 < s)%nat -> (0 < p)%nat ->
  conv_losses (bt_conv b) (l_Vmax (o_lim mo m) * INR s) (o_Cap mo m * INR p) = Ok q ->
  let suitable := bt_body b = None /\ m_top (mm m) = true /\ (forall h, k_kind (m_cool (mm m)) <> CHvac h) in
  (suitable -> exists b' m' k h, batt_setModule o tm m b = (b', Ok tt) /\ consists b' m' s p /\ ms m' = ms m /\ m_top (mm m') = false /\
     bt_body b' = Some (m', k) /\ k_kind k = CHvac h /\ h_Q h = 75 / 10 * INR (o_N mo m * s * p) + q * 2 /\
     v_pnom (bt_conv b') = (o_Cap mo m * INR p) * (l_Vmax (o_lim mo m) * INR s) /\ bt_loss b' = bt_loss b) /\
  (~ suitable -> batt_setModule o tm m b = (b, Throw 10)).
Proof.
  intros b m s p q Es Ep Hs Hp Q suitable. unfold batt_setModule. split.
  - intros (B & T & K). rewrite T, B. cbn [negb].
    assert (NS : ns b = INR s) by (unfold ns; now rewrite Es, R_nZ, INR_IZR_INZ).
    assert (NP : np b = INR p) by (unfold np; now rewrite Ep, R_nZ, INR_IZR_INZ).
    match goal with |- context [conv_losses (bt_conv b) ?x ?y] => change (conv_losses (bt_conv b) x y) with
      (conv_losses (bt_conv b) (l_Vmax (o_lim mo m) * ns b) (o_Cap mo m * np b)) end.
    rewrite NS, NP, Q. destruct (k_kind (m_cool (mm m))) as [| |h] eqn:EK; [| |now destruct (K h)].
    all: do 4 eexists; split; [reflexivity|]; split; [split; [eexists; reflexivity|cbn; auto]|]; split; [reflexivity|]; split; [reflexivity|];
      split; [reflexivity|]; split; [reflexivity|]; split; [|split; [reflexivity|reflexivity]]; cbn [h_Q]; rewrite !R_nlit, !R_nZ, R_nnat;
      cbn [nadd nmul RNum]; f_equal; f_equal; f_equal; rewrite Es, Ep; change (o_N mo _) with (o_N mo m);
      rewrite <- !Nat2Z.inj_mul, Nat2Z.id; reflexivity.
  - intros N. destruct (m_top (mm m)) eqn:T; [|reflexivity]. cbn [negb].
    destruct (k_kind (m_cool (mm m))) as [| |h] eqn:EK; [| |reflexivity]; (destruct (bt_body b) eqn:B; [reflexivity|]);
      exfalso; apply N; (split; [reflexivity|]); (split; [reflexivity|]); intros h E; discriminate.
Qed.

(** ** C43: the battery's coolant *)

(** A thermal update of a battery: the coolant's heat is what the module passes to it through the fan's convection (the module is
    handed the same conductance, area and temperature) plus the converter's losses, minus what the air conditioning removes. *)
Theorem C43_battery : forall b b' m k h tim Tb, bt_body b = Some (m, k) -> k_kind k = CHvac h -> tm <> 0%Z ->
  k_rho k * k_cp k * k_V k <> 0 -> batt_thermal o tm 0 tim b = (b', Ok Tb) ->
  exists m1 Tc b2 v i l, o_thermal mo [(k_T k, cool_getH k, o_area mo m)] tim m = (m1, Ok Tc) /\
    batt_V o tm (with_body b (m1, k)) = (b2, Ok v) /\ batt_I o tm b2 = Ok i /\ conv_losses (bt_conv b) v i = Ok l /\
    k_rho k * k_cp k * k_V k * (Tb - k_T k) = cool_getH k * o_area mo m * (o_T mo m1 - k_T k) * tim + l * tim - h_Qac h * tim /\
    batt_T b' = Ok Tb.
Proof.
  intros b b' m k h tim Tb Eb Ek Ht Hc E. unfold batt_thermal in E. rewrite Eb in E.
  destruct (Z.eqb_spec tm 0) as [Z|_]; [contradiction|]. cbv zeta in E.
  destruct (o_thermal mo [(k_T k, cool_getH k, o_area mo m)] tim m) as [m1 [Tc|n| |]] eqn:Eth; try (now inversion E).
  unfold batt_convLoss in E. destruct (batt_V o tm (with_body b (m1, k))) as [b2 [v|n| |]] eqn:EV; try (now inversion E).
  destruct (batt_I o tm b2) as [i|n| |] eqn:EI; cbn [rbind] in E; try (now inversion E).
  assert (W : bt_conv b2 = bt_conv b /\ exists m2, bt_body b2 = Some (m2, k)).
  { unfold batt_V, scaled, on_cells in EV. cbn [bt_body with_body] in EV. destruct (o_V mo m1) as [m2 [x|n| |]]; inversion EV; subst. split; [reflexivity|]. exists m2. reflexivity. }
  destruct W as (W1 & m2 & W2). rewrite W1 in E. destruct (conv_losses (bt_conv b) v i) as [l|n| |] eqn:EL; try (now inversion E).
  rewrite W2 in E. cbn [nadd nsub nmul RNum] in E.
  set (Q := cool_getH k * o_area mo m * (o_T mo m1 - k_T k) * tim + l * tim) in *.
  destruct (cool_dstate Q Q tim k) as [k3 [Tn|n| |]] eqn:ED; try (now inversion E).
  destruct (C43_coolant_balance k k3 Q Q tim Tn Hc ED) as (K & _). rewrite Ek in K.
  match type of E with (if ?c then _ else _) = _ => destruct c; [now inversion E|] end.
  destruct (o_setT mo Tc m2) as [m3 [u|n| |]] eqn:ES; try (now inversion E).
  unfold batt_setT in E. cbn [bt_body with_body] in E. unfold cool_setT in E.
  match type of E with context [if ?c then _ else _] => destruct c; [now inversion E|] end.
  injection E as <- <-. exists m1, Tc, b2, v, i, l. split; [reflexivity|]. split; [exact EV|]. split; [exact EI|]. split; [exact EL|].
  split; [unfold Q in K; lra|reflexivity].
Qed.
End Batt.
Print Assumptions C45_checked.
Print Assumptions C45_construction.
Print Assumptions C43_battery.

(** ** C41: the battery's own counter *)

(** A query on a battery returns all that is unreported in its tree and in its own air conditioning, and resets every counter. *)
Theorem C41_battery : forall tm n (b : batt R (Tree R n)) m k, bt_body b = Some (m, k) -> exists b' m' k',
  batt_coolload (Ops R tm n) b = (b', Ok (unreported k + total unreported (S n) (inr m : Tree R (S n)))) /\
  bt_body b' = Some (m', k') /\ unreported k' = 0 /\ consumed k' = consumed k /\
  Forall (fun q => unreported q = 0) (coolers (S n) (inr m' : Tree R (S n))) /\
  total consumed (S n) (inr m' : Tree R (S n)) = total consumed (S n) (inr m : Tree R (S n)).
Proof.
  intros tm n b m k E. destruct (C41_query tm n m) as (m' & E1 & F & T). unfold batt_coolload. rewrite E, E1.
  exists (with_body b (m', cool_resetEop k)), m', (cool_resetEop k). split; [reflexivity|]. split; [reflexivity|].
  split; [unfold unreported, cool_resetEop; cbn; apply R_nZ|]. split; [reflexivity|]. split; [exact F|exact T].
Qed.
Print Assumptions C41_battery.

(** ** C36: blocking a battery *)

(** A blocked battery's thermal model is not executed, neither its own nor its cells' direct modules'; as in
    [C36_direct_children_partial], modules two levels down are not reached. *)
Theorem C36_battery_partial : forall (A : Type) (NA : Num A) tm n bl (b : batt A (Tree A n)) m k, bt_body b = Some (m, k) ->
  exists b', batt_setBlock (Ops A tm n) bl b = Ok b' /\ bt_block b' = bl /\ bt_body b' = Some (mod_setBlock (Ops A tm n) bl m, k).
Proof. intros A NA tm n bl b m k E. unfold batt_setBlock. rewrite E. eexists. split; [reflexivity|]. split; reflexivity. Qed.
Print Assumptions C36_battery_partial.

(** A string without a parent, and a battery without a module: taken, in doubles, with room for an air conditioning above 3 kW. *)
Definition free_module (A : Type) {NA : Num A} : module A (Tree A 0) :=
  let r := ex_rec true [mohm; mohm; mohm] 3 in
  mkM (mkMod (m_series r) (m_rc r) (m_cool r) (m_k r) (m_area r) (m_Qc r) (m_time r) (m_N r) (m_V r) (m_Vok r) (m_par r) (m_block r) true) [cell1; cell1; cell1].
Example C45_construction_inhabited :
  match batt_setModule (Ops f64 0 0) 0 (free_module f64) (batt_setSP 4 2 batt_make) with
  | (b, Ok _) => match bt_body b with Some (_, k) => match k_kind k with CHvac h => nltb (nZ 3000) (h_Q h) = true | _ => False end | None => False end
  | _ => False
  end.
Proof. vm_compute. reflexivity. Qed.
