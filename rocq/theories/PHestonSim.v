(* Properties C61 and C97: Heston simulation. *)
From Coq Require Import Reals List Bool String Lia Lra Arith.
From Verif Require Import Base NormalModel BlackProofs MonteModel MonteSpec MonteProofs HestonSimModel HestonSimSpec HestonSimProofs.
Import ListNotations.
Open Scope R_scope.

Local Notation QE := "quadratic_exponential"%string.

Theorem C61_qe_paths_admissible (cholesky : factorisation) (h : heston) (z : mat R) :
  factors cholesky 2 (correlation2 (h_rho h)) -> nc z = 2%nat -> (0 < nr z)%nat -> sound h ->
  exists x, heston_simulate_scalar cholesky h QE z = Ok x /\ nr x = S (nr z) /\ nc x = 2%nat
    /\ me x 0 0 = Fin (h_S0 h) /\ me x 0 1 = Fin (h_var0 h)
    /\ forall t : nat, (t <= nr z)%nat -> exists s v, me x t 0%nat = Fin s /\ 0 < s /\ me x t 1%nat = Fin v /\ 0 <= v.
Proof.
  intros F C N H. pose proof H as (S0 & V0 & W & K & T & RH & TA). eexists. split; [apply qe_run; auto; lra | ]. cbn [nr nc me]. split; [reflexivity | ]. split; [reflexivity | ].
  split. { cbn. unfold nlog. destruct (Rlt_dec 0 (h_S0 h)); [ | contradiction]. cbn. rewrite exp_ln by assumption. reflexivity. } split; [reflexivity | ].
  intros t _. destruct (qe_path h (dt_of h z) (me z) H (dt_pos h z TA N) t) as (s & v & -> & V). exists (exp s), v. repeat split; auto. apply exp_pos.
Qed.
(* the next variance has the conditional mean and variance of the square root process: quadratic branch *)
Theorem C61_qe_quadratic_branch (h : heston) (dt v : R) :
  sound h -> 0 < dt -> 0 <= v -> cir_variance h dt v <= 3 / 2 * cir_mean h dt v ^ 2 ->
  exists a b, quadratic_law (cir_mean h dt v) (cir_variance h dt v) a b
    /\ forall (cholesky : factorisation) (z : mat R) (x : mat num) (i : nat),
         factors cholesky 2 (correlation2 (h_rho h)) -> nc z = 2%nat -> (i < nr z)%nat -> h_tau h / INR (nr z) = dt ->
         heston_simulate_scalar cholesky h QE z = Ok x -> me x i 1%nat = Fin v -> me x (i + 1)%nat 1%nat = Fin (a * (b + me z i 1%nat) ^ 2).
Proof.
  intros H D V L. destruct (qe_low_step h dt v H D V L) as (a & b & Q & E). exists a, b. split; [exact Q | ].
  intros cholesky z x i F C I ED X XV. pose proof H as (_ & _ & W & K & _). rewrite qe_run in X by (auto; try lra; try lia). injection X as <-. cbn [me Nat.eqb] in *.
  unfold dt_of in *. rewrite ED in *. rewrite Nat.add_1_r. cbn [qe_at]. destruct (qe_at h dt (qe_variance h dt) (me z) i) as [s w]. subst w. apply E.
Qed.
(* exponential branch: the next variance does not exceed x exactly when the uniform does not exceed the distribution function at x *)
Theorem C61_qe_exponential_branch (h : heston) (dt v : R) :
  sound h -> 0 < dt -> 0 <= v -> 3 / 2 * cir_mean h dt v ^ 2 < cir_variance h dt v ->
  exists p beta, exponential_law (cir_mean h dt v) (cir_variance h dt v) p beta
    /\ forall (cholesky : factorisation) (z : mat R) (x : mat num) (i : nat),
         factors cholesky 2 (correlation2 (h_rho h)) -> nc z = 2%nat -> (i < nr z)%nat -> h_tau h / INR (nr z) = dt ->
         heston_simulate_scalar cholesky h QE z = Ok x -> me x i 1%nat = Fin v ->
         exists v', me x (i + 1)%nat 1%nat = Fin v' /\ 0 <= v' /\ forall y : R, 0 <= y -> (v' <= y <-> cdf (me z i 1%nat) <= exponential_cdf p beta y).
Proof.
  intros H D V L. destruct (qe_high_step h dt v H D V L) as (p & beta & Q & E). exists p, beta. split; [exact Q | ].
  intros cholesky z x i F C I ED X XV. pose proof H as (_ & _ & W & K & _). rewrite qe_run in X by (auto; try lra; try lia). injection X as <-. cbn [me Nat.eqb] in *.
  unfold dt_of in *. rewrite ED in *. rewrite Nat.add_1_r. cbn [qe_at]. destruct (qe_at h dt (qe_variance h dt) (me z) i) as [s w]. subst w. apply E.
Qed.
(* the spot step: the log spot gains the drift and the integrated variance terms, the variance being averaged over the step *)
Theorem C61_qe_spot_step (cholesky : factorisation) (h : heston) (z : mat R) (x : mat num) (i : nat) (s v v' : R) :
  factors cholesky 2 (correlation2 (h_rho h)) -> nc z = 2%nat -> (i < nr z)%nat -> sound h ->
  heston_simulate_scalar cholesky h QE z = Ok x -> me x i 0%nat = Fin s -> me x i 1%nat = Fin v -> me x (i + 1)%nat 1%nat = Fin v' ->
  let dt := h_tau h / INR (nr z) in
  let integrated := dt * (v + v') / 2 in
  me x (i + 1)%nat 0%nat = Fin (s * exp (h_mu h * dt - integrated / 2
    + h_rho h * (v' - v - h_kappa h * (h_theta h * dt - integrated)) / h_vv h
    + sqrt ((1 - h_rho h ^ 2) * integrated) * me z i 0%nat)).
Proof.
  intros F C I H X XS XV XW dt integrated. pose proof H as (_ & _ & W & K & _ & RH & TA). assert (N : (0 < nr z)%nat) by lia.
  rewrite qe_run in X by (auto; try lra; try lia). injection X as <-. cbn [me Nat.eqb] in *. rewrite Nat.add_1_r in *.
  destruct (qe_path h (dt_of h z) (me z) H (dt_pos h z TA N) (S i)) as (s2 & v2 & E2 & V2).
  destruct (qe_path h (dt_of h z) (me z) H (dt_pos h z TA N) i) as (s1 & v1 & E1 & V1).
  rewrite E2 in *. cbn [qe_at] in E2. rewrite E1 in *. injection XW as ->. injection XV as ->. cbn [nexp] in *. injection XS as <-.
  injection E2 as E3 E4. rewrite E4 in E3. unfold qe_log_spot in E3. cbn [add mul] in E3.
  assert (KK : 0 <= k34 h (dt_of h z)). { unfold k34. pose proof (dt_pos h z TA N). apply Rmult_le_pos; [lra | nra]. }
  pose proof (Rmult_le_pos _ _ KK V1). pose proof (Rmult_le_pos _ _ KK V2). unfold nsqrt in E3.
  destruct (Rlt_dec (k34 h (dt_of h z) * v + k34 h (dt_of h z) * v') 0); [lra | ]. cbn [mul add] in E3. injection E3 as <-.
  f_equal. rewrite <- exp_plus. f_equal.
  replace (k34 h (dt_of h z) * v + k34 h (dt_of h z) * v') with ((1 - h_rho h ^ 2) * integrated)
    by (unfold integrated, dt, k34, dt_of; field; apply not_0_INR; lia).
  unfold k0, k1, k2, integrated, dt, dt_of. field. repeat split; first [lra | apply not_0_INR; lia].
Qed.
(* simulations with the same variance whose normals have the moments of a standard normal get the right mean and variance *)
Theorem C61_qe_moments_matched (cholesky : factorisation) (h : heston) (z : arr3 R) (x : arr3 num) (i : nat) (v : R) :
  let dt := h_tau h / INR (d0 z) in
  factors cholesky 2 (correlation2 (h_rho h)) -> d1 z = 2%nat -> (i < d0 z)%nat -> sound h -> 0 <= v -> cir_variance h dt v <= 3 / 2 * cir_mean h dt v ^ 2 ->
  heston_simulate cholesky h QE z = Ok x -> (forall s : nat, (s < d2 z)%nat -> el x i 1 s = Fin v) -> normal_moments (d2 z) (fun s => el z i 1 s) ->
  exists w : nat -> R, (forall s : nat, (s < d2 z)%nat -> el x (i + 1)%nat 1%nat s = Fin (w s))
    /\ total (d2 z) w = INR (d2 z) * cir_mean h dt v
    /\ total (d2 z) (fun s => (w s - cir_mean h dt v) ^ 2) = INR (d2 z) * cir_variance h dt v.
Proof.
  intros dt F C I H V L X Same (M1 & M2 & M3 & M4). assert (D : 0 < dt) by (apply Rdiv_lt_0_compat; [apply H | apply lt_0_INR; lia]).
  destruct (C61_qe_quadratic_branch h dt v H D V L) as (a & b & (A & B & Q1 & Q2) & E). exists (fun s => a * (b + el z i 1%nat s) ^ 2). split.
  - intros s S. pose proof (vector_is_scalar cholesky h QE z s) as Eq. rewrite X in Eq.
    destruct (heston_simulate_scalar cholesky h QE (mk_mat (d0 z) (d1 z) (fun i v => el z i v s))) as [y | ] eqn:Y; [ | contradiction]. destruct Eq as (_ & _ & _ & Eq).
    rewrite Eq. refine (E cholesky (mk_mat (d0 z) (d1 z) (fun i v => el z i v s)) y i F C I eq_refl Y _). rewrite <- Eq. apply Same. exact S.
  - set (f := fun s => el z i 1%nat s) in *. set (n := d2 z) in *. split.
    + rewrite (total_ext _ _ (fun s => a * b ^ 2 + (2 * a * b * f s + a * f s ^ 2))) by (intros; unfold f; ring).
      rewrite !total_plus, !total_scal, total_const, M2. change (fun i0 => f i0) with f. rewrite M1, <- Q1. ring.
    + rewrite (total_ext _ _ (fun s => a ^ 2 + ((-4 * a ^ 2 * b) * f s + ((4 * a ^ 2 * b ^ 2 - 2 * a ^ 2) * f s ^ 2 + ((4 * a ^ 2 * b) * f s ^ 3 + a ^ 2 * f s ^ 4))))) by (intros; unfold f; rewrite <- Q1; ring).
      rewrite !total_plus, !total_scal, total_const, M2, M3, M4. change (fun i0 => f i0) with f. rewrite M1, <- Q2. ring.
Qed.

Theorem C61_euler_step (cholesky : factorisation) (h : heston) (method : string) (z : mat R) :
  let dt := h_tau h / INR (nr z) in
  factors cholesky 2 (correlation2 (h_rho h)) -> nc z = 2%nat -> (0 < nr z)%nat -> 0 < h_tau h -> In method euler_methods ->
  exists x, heston_simulate_scalar cholesky h method z = Ok x /\ nr x = S (nr z) /\ nc x = 2%nat /\ me x 0 0 = Fin (h_S0 h)
    /\ (0 <= h_var0 h -> me x 0 1 = Fin (h_var0 h))
    /\ forall t : nat, (t < nr z)%nat -> exists s v s' v' : R, me x t 0%nat = Fin s /\ me x t 1%nat = Fin v /\ 0 <= v /\ me x (t + 1)%nat 0%nat = Fin s'
       /\ s' = s * (1 + h_mu h * dt + sqrt v * (me z t 0%nat + h_rho h * me z t 1%nat) * sqrt dt)
       /\ v' = v + h_kappa h * (h_theta h - v) * dt + h_vv h * sqrt v * (sqrt (1 - h_rho h ^ 2) * me z t 1%nat) * sqrt dt
       /\ ((t + 1 = nr z)%nat -> me x (t + 1)%nat 1%nat = Fin v')
       /\ ((t + 1 < nr z)%nat -> method = "euler_with_absorption_of_volatility_process"%string -> me x (t + 1)%nat 1%nat = Fin (Rmax 0 v'))
       /\ ((t + 1 < nr z)%nat -> method = "euler_with_reflection_of_volatility_process"%string -> me x (t + 1)%nat 1%nat = Fin (Rabs v')).
Proof.
  intros dt F C N T M. destruct (euler_run cholesky h method z F C N T) as (x & X & A & B & V). { destruct M as [<- | [<- | []]]; reflexivity. }
  exists x. split; [exact X | ]. split; [exact A | ]. split; [exact B | ]. split; [rewrite V; reflexivity | ]. split.
  { intros P. rewrite V. cbn [euler_at Nat.eqb]. destruct (fix_nonneg method (h_var0 h) M) as (b & -> & _ & E). rewrite (E P). destruct (Nat.ltb 0 (nr z)); reflexivity. }
  intros t L. destruct (euler_finite h (dt_of h z) method (fun i c => shock (h_rho h) (me z) i c * sqrt (dt_of h z)) M t) as (s & raw & E).
  destruct (fix_nonneg method raw M) as (b & Fx & P & _).
  exists s, b. eexists. eexists. rewrite !V. change (shocks h z) with (fun i c => Fin (shock (h_rho h) (me z) i c * sqrt (dt_of h z))).
  rewrite Nat.add_1_r. cbn [euler_at]. rewrite E. cbn [Nat.eqb]. rewrite (proj2 (Nat.ltb_lt t (nr z)) L). rewrite Fx. unfold nsqrt. destruct (Rlt_dec b 0) as [BN | _]; [exfalso; clear - P BN; lra | ]. cbn [sub neg add mul].
  unfold shock. cbn [Nat.eqb]. change (dt_of h z) with dt.
  split; [reflexivity | ]. split; [reflexivity | ]. split; [exact P | ]. split; [reflexivity | ]. split; [ring | ]. split; [reflexivity | ].
  set (w := b + h_kappa h * (h_theta h - b) * dt + h_vv h * sqrt b * (sqrt (1 - h_rho h ^ 2) * me z t 1%nat) * sqrt dt).
  replace (b + h_kappa h * (h_theta h + - b) * dt + h_vv h * sqrt b * (sqrt (1 - h_rho h ^ 2) * me z t 1%nat * sqrt dt)) with w by (unfold w; ring).
  destruct (Nat.ltb (S t) (nr z)) eqn:Z; [apply Nat.ltb_lt in Z | apply Nat.ltb_ge in Z]; (split; [intros Q; try reflexivity; lia | ]); split; intros Q ->; try lia; reflexivity.
Qed.
(* the last variance is not clamped *)
Theorem C61_euler_may_end_negative (cholesky : factorisation) (h : heston) (method : string) :
  factors cholesky 2 (correlation2 (h_rho h)) -> sound h -> 0 < h_var0 h -> In method euler_methods ->
  exists (z : mat R) (x : mat num) (v : R), nc z = 2%nat /\ nr z = 1%nat /\ heston_simulate_scalar cholesky h method z = Ok x /\ me x 1 1 = Fin v /\ v < 0.
Proof.
  intros F H P M. pose proof H as (_ & _ & W & K & T & RH & TA).
  set (dt := h_tau h / INR 1). assert (D : 0 < dt) by (unfold dt; cbn; lra).
  set (drift := h_var0 h + h_kappa h * (h_theta h - h_var0 h) * dt). set (c := h_vv h * sqrt (h_var0 h) * sqrt (1 - h_rho h ^ 2) * sqrt dt).
  assert (CP : 0 < c). { unfold c. assert (0 < 1 - h_rho h ^ 2) by nra. repeat apply Rmult_lt_0_compat; auto; apply sqrt_lt_R0; auto. }
  pose (z := mk_mat 1 2 (fun (_ _ : nat) => - (Rabs drift + 1) / c)). exists z.
  destruct (C61_euler_step cholesky h method z F eq_refl ltac:(cbn; lia) TA M) as (x & X & _ & _ & _ & X0 & St). specialize (X0 ltac:(lra)).
  destruct (St 0%nat ltac:(cbn; lia)) as (s & v & s' & v' & _ & Ev & _ & _ & _ & Ev' & Last). rewrite X0 in Ev. injection Ev as <-.
  exists x, v'. split; [reflexivity | ]. split; [reflexivity | ]. split; [exact X | ]. split; [apply (proj1 Last); reflexivity | ].
  cbn [me z nr] in Ev'. fold dt in Ev'. rewrite Ev'. fold drift.
  replace (h_vv h * sqrt (h_var0 h) * (sqrt (1 - h_rho h ^ 2) * (- (Rabs drift + 1) / c)) * sqrt dt) with (c * (- (Rabs drift + 1) / c)) by (unfold c at 1; ring).
  replace (c * (- (Rabs drift + 1) / c)) with (- (Rabs drift + 1)) by (field; lra). pose proof (Rle_abs drift). lra.
Qed.
(* an Euler method of another name has no clamp: once negative, nothing is a number *)
Theorem C61_other_euler_names (cholesky : factorisation) (h : heston) (method : string) (z : mat R) :
  factors cholesky 2 (correlation2 (h_rho h)) -> nc z = 2%nat -> (0 < nr z)%nat -> 0 < h_tau h -> substring 0 5 method = "euler"%string -> ~ In method euler_methods ->
  exists x, heston_simulate_scalar cholesky h method z = Ok x
    /\ forall (t : nat) (v : R), (t < nr z)%nat -> me x t 1%nat = Fin v -> v < 0 -> me x (t + 1)%nat 0%nat = NaN /\ me x (t + 1)%nat 1%nat = NaN.
Proof.
  intros F C N T M Q. destruct (euler_run cholesky h method z F C N T M) as (x & X & _ & _ & V). exists x. split; [exact X | ].
  assert (Id : forall w, euler_fix method w = w).
  { intros w. unfold euler_fix. destruct (String.eqb method "euler_with_absorption_of_volatility_process") eqn:E; [apply String.eqb_eq in E; exfalso; apply Q; left; auto | ].
    destruct (String.eqb method "euler_with_reflection_of_volatility_process") eqn:E'; [apply String.eqb_eq in E'; exfalso; apply Q; right; left; auto | reflexivity]. }
  intros t v L E P. rewrite V in E. rewrite !V, Nat.add_1_r. cbn [euler_at Nat.eqb]. destruct (euler_at h (dt_of h z) (euler_fix method) (shocks h z) t) as [s raw]. cbn [Nat.eqb] in E. rewrite !Id in *.
  assert (E' : raw = Fin v) by (destruct (Nat.ltb t (nr z)); exact E). subst raw. unfold nsqrt. destruct (Rlt_dec v 0); [ | lra].
  split; [destruct s; reflexivity | ]. destruct (Nat.ltb (S t) (nr z)); reflexivity.
Qed.
Theorem C61_unknown_method_gives_zeros (cholesky : factorisation) (h : heston) (method : string) (z : mat R) :
  factors cholesky 2 (correlation2 (h_rho h)) -> nc z = 2%nat -> (0 < nr z)%nat -> method <> QE -> substring 0 5 method <> "euler"%string ->
  heston_simulate_scalar cholesky h method z = Ok (mk_mat (S (nr z)) 2 (fun _ _ => Fin 0)).
Proof. exact (unknown_run cholesky h method z). Qed.
Theorem C61_qe_zero_division (cholesky : factorisation) (h : heston) (z : mat R) :
  factors cholesky 2 (correlation2 (h_rho h)) -> nc z = 2%nat -> (0 < nr z)%nat -> h_kappa h = 0 \/ h_vv h = 0 ->
  heston_simulate_scalar cholesky h QE z = Err ZeroDivisionError.
Proof. exact (qe_zero_division cholesky h z). Qed.
(* perfect correlation is refused by every method, also by the one that never uses the factorisation *)
Theorem C61_perfect_correlation_refused (cholesky : factorisation) (h : heston) (method : string) (z : mat R) :
  (forall L : mat R, cholesky (correlation2 (h_rho h)) = Ok L -> is_cholesky 2 (correlation2 (h_rho h)) L) -> nc z = 2%nat -> (0 < nr z)%nat -> ~ -1 < h_rho h < 1 ->
  exists e, cholesky (correlation2 (h_rho h)) = Err e /\ heston_simulate_scalar cholesky h method z = Err e.
Proof. exact (refused_run cholesky h method z). Qed.

Theorem C97_vectorised_is_scalar (cholesky : factorisation) (h : heston) (method : string) (z : arr3 R) (s : nat) :
  match heston_simulate cholesky h method z, heston_simulate_scalar cholesky h method (mk_mat (d0 z) (d1 z) (fun i v => el z i v s)) with
  | Ok x, Ok y => d0 x = nr y /\ d1 x = nc y /\ d2 x = d2 z /\ forall t v : nat, el x t v s = me y t v
  | Err a, Err b => a = b
  | _, _ => False
  end.
Proof. exact (vector_is_scalar cholesky h method z s). Qed.

Definition all_theorems := (C61_qe_paths_admissible, C61_qe_quadratic_branch, C61_qe_exponential_branch, C61_qe_spot_step, C61_qe_moments_matched, C61_euler_step, C61_euler_may_end_negative, C61_other_euler_names,
  C61_unknown_method_gives_zeros, C61_qe_zero_division, C61_perfect_correlation_refused, C97_vectorised_is_scalar).
Print Assumptions all_theorems.

(* ---- cases meeting the hypotheses ---- *)
Definition ex_h : heston := mk_heston (7/10) (1/100) (1/100) (3/10) (3/2) (1/50) (-3/5) 1.
Lemma ex_sound : sound ex_h. Proof. unfold sound, ex_h. cbn. lra. Qed.
Definition ex_L : mat R := mk_mat 2 2 (fun i j => match i, j with O, O => 1 | O, _ => 0 | _, O => -3/5 | _, _ => 4/5 end).
Lemma ex_factors : factors (fun _ => Ok ex_L) 2 (correlation2 (h_rho ex_h)).
Proof.
  exists ex_L. split; [reflexivity | ]. repeat split; cbn [ex_L nr nc me].
  - intros i j I. assert (i = 0 /\ j = 1)%nat as [-> ->] by lia. reflexivity.
  - intros [ | [ | i]] I; [lra | lra | lia].
  - intros [ | [ | i]] [ | [ | j]] I J; try lia; rewrite total_2; cbn; lra.
Qed.
Example C61_ex (z : nat -> nat -> R) : exists x s v, heston_simulate_scalar (fun _ => Ok ex_L) ex_h QE (mk_mat 3 2 z) = Ok x /\ me x 3 0 = Fin s /\ 0 < s /\ me x 3 1 = Fin v /\ 0 <= v.
Proof.
  destruct (C61_qe_paths_admissible (fun _ => Ok ex_L) ex_h (mk_mat 3 2 z) ex_factors eq_refl ltac:(cbn; lia) ex_sound) as (x & X & _ & _ & _ & _ & P).
  destruct (P 3%nat ltac:(cbn; lia)) as (s & v & A & B & C & D). exists x, s, v. auto.
Qed.
Example C61_ex_step (z : nat -> nat -> R) : exists x s v v', heston_simulate_scalar (fun _ => Ok ex_L) ex_h QE (mk_mat 3 2 z) = Ok x /\ me x 1 0 = Fin s /\ me x 1 1 = Fin v /\ me x (1 + 1) 1 = Fin v'.
Proof.
  destruct (C61_qe_paths_admissible (fun _ => Ok ex_L) ex_h (mk_mat 3 2 z) ex_factors eq_refl ltac:(cbn; lia) ex_sound) as (x & X & _ & _ & _ & _ & P).
  destruct (P 1%nat ltac:(cbn; lia)) as (s & v & A & B & C & D). destruct (P 2%nat ltac:(cbn; lia)) as (s2 & v2 & A2 & B2 & C2 & D2). exists x, s, v, v2. auto.
Qed.
(* both branches occur: starting far above and far below the long-run variance *)
Example C61_ex_quadratic : cir_variance (mk_heston 1 0 1 (1/10) 1 1 0 1) 1 1 <= 3 / 2 * cir_mean (mk_heston 1 0 1 (1/10) 1 1 0 1) 1 1 ^ 2.
Proof.
  unfold cir_variance, cir_mean. cbn [h_vv h_kappa h_theta]. set (e := exp (- (1) * 1)). assert (E : 0 < e < 1) by (apply decay; lra). cbv zeta.
  replace (1 * e + 1 * (1 - e)) with 1 by ring. nra.
Qed.
Example C61_ex_exponential : 3 / 2 * cir_mean (mk_heston 1 0 1 10 1 1 0 1) 1 0 ^ 2 < cir_variance (mk_heston 1 0 1 10 1 1 0 1) 1 0.
Proof.
  unfold cir_variance, cir_mean. cbn [h_vv h_kappa h_theta]. set (e := exp (- (1) * 1)). assert (E : 0 < e < 1) by (apply decay; lra). cbv zeta.
  assert (0 < (1 - e) ^ 2) by (apply pow_lt; lra). lra.
Qed.
(* six normals with the moments of a standard normal *)
Example C61_ex_moments : normal_moments 6 (fun s => match s with 0%nat => sqrt 3 | 1%nat => - sqrt 3 | _ => 0 end).
Proof.
  assert (Q : sqrt 3 * sqrt 3 = 3) by (apply sqrt_sqrt; lra). assert (Q2 : sqrt 3 ^ 2 = 3) by (cbn; lra). assert (Q4 : sqrt 3 ^ 4 = 9) by (replace (sqrt 3 ^ 4) with (sqrt 3 ^ 2 * sqrt 3 ^ 2) by ring; rewrite Q2; lra).
  unfold normal_moments. rewrite !total_S, !total_0. repeat split; cbn [INR]; [lra | | ring | ].
  - replace ((- sqrt 3) ^ 2) with (sqrt 3 ^ 2) by ring. rewrite Q2. lra.
  - replace ((- sqrt 3) ^ 4) with (sqrt 3 ^ 4) by ring. rewrite Q4. lra.
Qed.
