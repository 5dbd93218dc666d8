(** * Model of the adaptive Markov chain tools (src/optimisation/MCMC.hpp, src/utility/slide_aux.hpp) *)
From Verif Require Import Base BattModel DataModel.
Local Open Scope num_scope.

Section Mcmc.
Context {A : Type} {NA : Num A}.
(** [std::pow], [std::log], [std::exp] *)
Variables (f_pow : A -> A -> A) (f_log f_exp : A -> A).

(** slide_aux.hpp:37-54, [norm_sq<N>] *)
Definition norm_sq (N : Z) (x : list A) : res A :=
  if (N <? -1)%Z then Throw 12345
  else if (N =? -1)%Z then Throw 12344
  else if (N =? 0)%Z then Throw 333456
  else Ok (fold_left (fun sum x_i => sum + f_pow x_i (nZ N)) x (nZ 0)).

(** types/matrix.hpp:24-33 *)
Definition eye : matrix A := fun i j => if Nat.eqb i j then nZ 1 else nZ 0.

(** MCMC.hpp:25-49. Arrays are functions on the indices below [N]; the product reads the entries of [S] up to the diagonal. *)
Definition S_step (N : nat) (w : vector A) (alpha n : A) : res A :=
  rmap (fun q => f_pow n (- nlit 1 2) * (alpha - nlit 234 1000) / q) (norm_sq 2 (map w (seq 0 N))).
Definition S_update (N : nat) (S : matrix A) (w : vector A) (alpha n : A) : res (matrix A) :=
  rmap (fun m =>
    let m_root := nsqrt (nabs m) in
    let I := cholUpdate (m <? nZ 0) N eye (fun i => w i * m_root) in
    fun i j => if (i <? N)%nat && (j <=? i)%nat
               then fold_left (fun acc o => acc + S i o * I o j) (seq 0 (Datatypes.S i)) (nZ 0) else nZ 0)
    (S_step N w alpha n).

(** MCMC.hpp:51-95, [MCMC_Input] *)
Record input : Type := mkIn { i_param : list A; i_logR : list A }.
Definition in_scale (k : list A) (x : input) : res (list A) :=
  if (length (i_param x) <=? length k)%nat then Ok (map (fun '(a, b) => a * b) (combine (i_param x) k)) else UB.
Definition in_get (x : input) (i : nat) : res A :=
  if (i <? length (i_param x))%nat then Ok (nth i (i_param x) (nZ 0))
  else if (i =? length (i_param x))%nat
       then match i_logR x with r :: _ => Ok r | [] => UB end
       else Throw 123511.
Definition in_size (x : input) : nat := (length (i_param x) + length (i_logR x))%nat.
Definition in_R (x : input) : res A := match i_logR x with r :: _ => Ok (f_exp r) | [] => UB end.

(** MCMC.hpp:107-128, [Prior]; the second loop reads [distributionVec] at every index of [b]. *)
Fixpoint log_sum (sum : A) (ds : list (A -> A)) (b : list A) {struct b} : res A :=
  match b, ds with
  | [], _ => Ok sum
  | x :: b', d :: ds' => log_sum (sum + f_log (d x)) ds' b'
  | _, [] => UB
  end.
Definition prior (ds : list (A -> A)) (b : list A) : res (A * bool) :=
  if existsb (fun x => x <=? nZ 0) b then Ok (nopp (nlit (10 ^ 25) 1), false)
  else rmap (fun s => (s, true)) (log_sum (nZ 0) ds b).

(** MCMC.hpp:130-157, [LL_Result] and [LL]; [cost] is any cost function, which may throw. *)
Record llres : Type := mkLL { l_out : A; l_out1 : A; l_out2 : A; l_P : A; l_err : A }.
Definition ll_zero : llres := mkLL (nZ 0) (nZ 0) (nZ 0) (nZ 0) (nZ 0).
Definition LL (theta : input) (ds : list (A -> A)) (cost : list A -> res A) (Nobs : nat) (scalar : list A) : res (llres * bool) :=
  rbind (prior ds (i_param theta)) (fun '(P, flag) =>
  if flag then
    rbind (in_scale scalar theta) (fun p => rbind (cost p) (fun err => rbind (in_R theta) (fun Rv =>
      let o1 := nlit 1 2 * f_log (nZ 2 * pi_lit * Rv) * nnat Nobs in
      let o2 := nlit 1 2 * err / Rv in
      Ok (mkLL (- P + o1 + o2) o1 o2 P err, true))))
  else Ok (ll_zero, false)).

(** MCMC.hpp:159-181, [MCMC_Record] *)
Definition rec_ll (l : llres) : list A := [l_out l; l_out1 l; l_out2 l; l_P l; l_err l].
Definition rec_get (r : input * llres) (i : nat) : res A :=
  if (i <? in_size (fst r))%nat then in_get (fst r) i
  else match nth_error (rec_ll (snd r)) (i - in_size (fst r)) with Some v => Ok v | None => UB end.
Definition rec_size (r : input * llres) : nat := (in_size (fst r) + 5)%nat.
Definition rec_back (r : input * llres) : A := l_err (snd r).

(** slide_aux.hpp:73-80; [1 / std::tgamma(a)] is the parameter [rg]. *)
Record gamma : Type := mkGamma { g_a : A; g_invb : A; g_scale : A }.
Definition gamma_make (rg : A -> A) (a b : A) : gamma := mkGamma a (nZ 1 / b) (rg a / f_pow b a).
Definition gamma_at (g : gamma) (x : A) : A := g_scale g * f_exp (- g_invb g * x) * f_pow x (g_a g - nZ 1).
End Mcmc.
Arguments input : clear implicits. Arguments llres : clear implicits. Arguments gamma : clear implicits.
