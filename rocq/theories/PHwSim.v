(* C108, C109: Hull-White simulation, and the state variables of hw1f2 *)
From Coq Require Import ZArith Reals String List Bool Lra Lia Psatz.
From Coquelicot Require Import Coquelicot.
From Verif Require Import Base NormalModel MonteModel MonteSpec MonteProofs HwModel HwSpec HwProofs HwSimProofs.
Import ListNotations.
Open Scope R_scope.

(* ---- C108 ---- *)
(* every rate is r0 plus decayed drifts and shocks *)
Lemma named_scheme method m : named method m -> scheme_of method = m /\ scheme_of method <> Other.
Proof. intros H. destruct H; split; (reflexivity || discriminate). Qed.
Lemma unnamed_scheme method : (forall m, ~ named method m) -> scheme_of method = Other.
Proof.
  intros N. unfold scheme_of. destruct (String.eqb_spec method "euler") as [->|]; [exfalso; exact (N _ named_euler)|]. destruct (String.eqb_spec method "rk4") as [->|]; [exfalso; exact (N _ named_rk4)|]. destruct (String.eqb_spec method "exact") as [->|]; [exfalso; exact (N _ named_exact)|]. reflexivity.
Qed.
Theorem C108_rates (normal : normals) (quad : integrator) (r0 alpha sigma tau : R) (steps sims : Z) (anti : bool) (seed : Z) (method : string) (m : scheme) (x : simulation) : named method m ->
  hw_simulate normal quad r0 alpha sigma tau steps sims anti seed method = Ok x -> (m = Exact -> exact_quad quad /\ 0 < tau) ->
  exists a : arr3 R, generate_rand_nbs normal steps 1 sims anti seed = Ok a /\ d2 a = Z.to_nat sims /\
  forall i j, (i <= Z.to_nat steps)%nat -> (j < Z.to_nat sims)%nat -> s_rate x i j = r0 + excess m alpha sigma (tau / IZR steps) (fun k => el a k 0%nat j) i.
Proof. intros N H Q. destruct (named_scheme _ _ N) as [<- O]. exact (simulate_rate normal quad r0 alpha sigma tau steps sims anti seed method x H O Q). Qed.
(* antithetic simulations average to the path without shocks *)
Theorem C108_average_rate (normal : normals) (quad : integrator) (r0 alpha sigma tau : R) (steps seed : Z) (m : nat) (method : string) (sc : scheme) (x : simulation) : named method sc ->
  hw_simulate normal quad r0 alpha sigma tau steps (2 * Z.of_nat m) true seed method = Ok x -> (sc = Exact -> exact_quad quad /\ 0 < tau) ->
  forall i, (i <= Z.to_nat steps)%nat -> average (2 * m) (s_rate x i) = r0 + excess sc alpha sigma (tau / IZR steps) (fun _ => 0) i.
Proof. intros N H Q. destruct (named_scheme _ _ N) as [<- O]. exact (even_average normal quad r0 alpha sigma tau steps seed m method x H O Q). Qed.
(* the exact scheme: the right variance, but a mean that is too low, because theta is interpolated *)
Theorem C108_exact_too_low (normal : normals) (quad : integrator) (r0 alpha sigma tau : R) (steps seed : Z) (m : nat) (x : simulation) : exact_quad quad -> 0 < tau -> 0 < alpha -> sigma <> 0 ->
  hw_simulate normal quad r0 alpha sigma tau steps (2 * Z.of_nat m) true seed "exact" = Ok x ->
  forall i, (1 <= i <= Z.to_nat steps)%nat -> average (2 * m) (s_rate x i) < mean_rate r0 alpha sigma (s_time x i).
Proof.
  intros Q T A Sg H i I. pose proof H as H'. destruct (simulate_inv _ _ _ _ _ _ _ _ _ _ _ _ H) as (a & G & _ & _ & _ & _ & Tm & _). destruct (steps_pos _ _ _ _ _ _ G) as [S1 _].
  rewrite (even_average _ _ _ _ _ _ _ _ _ _ _ H' ltac:(discriminate) (fun _ => conj Q T) i ltac:(lia)). rewrite Tm. destruct i as [|i]; [lia|]. unfold mean_rate. apply Rplus_lt_compat_l.
  apply (exact_biased alpha sigma (tau / IZR steps) i A Sg). apply Rdiv_lt_0_compat; [exact T|]. apply IZR_lt. lia.
Qed.
Theorem C108_exact_variance (normal : normals) (quad : integrator) (r0 alpha sigma tau : R) (steps sims : Z) (anti : bool) (seed : Z) (x : simulation) : exact_quad quad -> 0 < tau -> 0 < alpha ->
  hw_simulate normal quad r0 alpha sigma tau steps sims anti seed "exact" = Ok x ->
  exists (a : arr3 R) (mean : nat -> R) (w : nat -> nat -> R), generate_rand_nbs normal steps 1 sims anti seed = Ok a
    /\ (forall i j, (i <= Z.to_nat steps)%nat -> (j < Z.to_nat sims)%nat -> s_rate x i j = mean i + total i (fun k => w i k * el a k 0%nat j))
    /\ (forall i, total i (fun k => w i k ^ 2) = sigma ^ 2 / (2 * alpha) * (1 - exp (-2 * alpha * s_time x i))).
Proof.
  intros Q T A H. destruct (simulate_rate _ _ _ _ _ _ _ _ _ _ _ _ H ltac:(discriminate) (fun _ => conj Q T)) as (a & G & _ & Rt). destruct (steps_pos _ _ _ _ _ _ G) as [S1 _].
  destruct (simulate_inv _ _ _ _ _ _ _ _ _ _ _ _ H) as (_ & _ & _ & _ & _ & _ & Tm & _). set (h := tau / IZR steps) in *.
  exists a, (fun i => r0 + excess Exact alpha sigma h (fun _ => 0) i), (fun i k => decay Exact alpha h ^ (i - 1 - k) * noise Exact alpha sigma h). split; [exact G|]. split.
  - intros i j I J. rewrite (Rt i j I J). change (scheme_of "exact") with Exact. rewrite (excess_split Exact alpha sigma h (fun k => el a k 0%nat j) i). ring.
  - intros i. rewrite Tm. apply exact_variance; [exact A|]. left. apply Rdiv_lt_0_compat; [exact T|]. apply IZR_lt. lia.
Qed.
(* no volatility: the rate stays at r0 and discounts the flat curve, whatever the zero curve *)
Theorem C108_no_volatility (normal : normals) (quad : integrator) (r0 alpha tau : R) (steps sims : Z) (anti : bool) (seed : Z) (method : string) (m : scheme) (x : simulation) : named method m ->
  hw_simulate normal quad r0 alpha 0 tau steps sims anti seed method = Ok x -> (m = Exact -> exact_quad quad /\ 0 < tau) ->
  forall i j, (i <= Z.to_nat steps)%nat -> (j < Z.to_nat sims)%nat -> s_rate x i j = r0 /\ s_discount x i j = exp (- r0 * s_time x i).
Proof.
  intros N H X i j I J. destruct (named_scheme _ _ N) as [<- M]. destruct (simulate_rate _ _ _ _ _ _ _ _ _ _ _ _ H M X) as (a & G & _ & Rt). assert (E : forall k, (k <= Z.to_nat steps)%nat -> s_rate x k j = r0) by (intros k K; rewrite (Rt k j K J), excess_sigma_0; ring).
  split; [apply E; exact I|]. destruct (simulate_inv _ _ _ _ _ _ _ _ _ _ _ _ H) as (a' & _ & _ & _ & _ & _ & Tm & Rr & Dr & _). rewrite Dr, Tm. rewrite (integral_const _ _ _ _ _ _ _ _ _ r0).
  - f_equal. ring.
  - intros k K. rewrite <- Rr. apply E. lia.
Qed.
(* discount factors compound the trapezoid of the rate, and the averages are those of the discount factors *)
Theorem C108_discounts (normal : normals) (quad : integrator) (r0 alpha sigma tau : R) (steps sims : Z) (anti : bool) (seed : Z) (method : string) (x : simulation) :
  hw_simulate normal quad r0 alpha sigma tau steps sims anti seed method = Ok x ->
  (forall i, s_time x i = INR i * (tau / IZR steps)) /\ (forall j, s_rate x 0 j = r0 /\ s_discount x 0 j = 1)
  /\ (forall i j, s_discount x (S i) j = s_discount x i j * exp (- (s_time x (S i) - s_time x i) * ((s_rate x i j + s_rate x (S i) j) / 2)))
  /\ (forall i, s_avg_discount x i = average (s_sims x) (s_discount x i)).
Proof.
  intros H. destruct (simulate_inv _ _ _ _ _ _ _ _ _ _ _ _ H) as (a & _ & _ & _ & Ns & _ & Tm & Rr & Dr & _ & Av & _). split; [exact Tm|]. split; [|split].
  - intros j. split; [rewrite Rr; reflexivity|]. rewrite Dr. cbn [rate_integral]. rewrite Ropp_0. apply exp_0.
  - intros i j. rewrite !Dr, !Tm, !Rr. cbn [rate_integral]. rewrite <- exp_plus. f_equal. rewrite S_INR. field.
    apply not_0_IZR. destruct (simulate_inv _ _ _ _ _ _ _ _ _ _ _ _ H) as (b & G & _). destruct (steps_pos _ _ _ _ _ _ G). lia.
  - intros i. rewrite Ns. apply Av.
Qed.
(* zero rates reprice the discount factors; none at time zero; the reported average is at most the mean of the simulated zero rates *)
Theorem C108_zero_rates (normal : normals) (quad : integrator) (r0 alpha sigma tau : R) (steps sims : Z) (anti : bool) (seed : Z) (method : string) (x : simulation) :
  hw_simulate normal quad r0 alpha sigma tau steps sims anti seed method = Ok x ->
  (forall j, s_zero_rate x 0 j = None) /\ s_avg_zero_rate x 0 = None
  /\ (0 < tau -> forall i, exists (avg : R) (z : nat -> R), s_avg_zero_rate x (S i) = Some avg /\ s_avg_discount x (S i) = exp (- avg * s_time x (S i))
      /\ (forall j, s_zero_rate x (S i) j = Some (z j) /\ s_discount x (S i) j = exp (- z j * s_time x (S i))) /\ avg <= average (s_sims x) z).
Proof.
  intros H. destruct (simulate_inv _ _ _ _ _ _ _ _ _ _ _ _ H) as (a & G & _ & _ & Ns & _ & Tm & _ & Dr & Zr & Av & Az). destruct (steps_pos _ _ _ _ _ _ G) as [S1 S2].
  assert (Z0 : forall d, zero_rate_of (INR 0 * (tau / IZR steps)) d = None) by (intros d; unfold zero_rate_of; cbn [INR]; rewrite Rmult_0_l; destruct Req_EM_T; [reflexivity|contradiction]).
  split; [intros j; rewrite Zr; apply Z0|]. split; [rewrite Az; apply Z0|]. intros T i. assert (Tp : 0 < s_time x (S i)). { rewrite Tm. apply Rmult_lt_0_compat; [apply lt_0_INR; lia|]. apply Rdiv_lt_0_compat; [exact T|apply IZR_lt; lia]. }
  set (t := s_time x (S i)) in *. assert (Dp : forall j, 0 < s_discount x (S i) j) by (intros j; rewrite Dr; apply exp_pos). assert (N : (0 < Z.to_nat sims)%nat) by lia.
  assert (Ap : 0 < s_avg_discount x (S i)). { rewrite Av. apply Rdiv_lt_0_compat; [apply total_pos_sum; [exact N|intros; apply Dp]|apply lt_0_INR; exact N]. }
  assert (Zf : forall d, zero_rate_of (INR (S i) * (tau / IZR steps)) d = Some (-1 * ln d / t)) by (intros d; rewrite <- Tm; fold t; unfold zero_rate_of; destruct Req_EM_T; [lra|reflexivity]).
  exists (-1 * ln (s_avg_discount x (S i)) / t), (fun j => -1 * ln (s_discount x (S i) j) / t). split; [rewrite Az; apply Zf|]. split; [|split].
  - replace (- (-1 * ln (s_avg_discount x (S i)) / t) * t) with (ln (s_avg_discount x (S i))) by (field; lra). rewrite exp_ln by exact Ap. reflexivity.
  - intros j. split; [rewrite Zr; apply Zf|]. replace (- (-1 * ln (s_discount x (S i) j) / t) * t) with (ln (s_discount x (S i) j)) by (field; lra). rewrite exp_ln by apply Dp. reflexivity.
  - rewrite Ns, Av. pose proof (jensen (Z.to_nat sims) (s_discount x (S i)) N (fun j _ => Dp j)) as J.
    assert (E : average (Z.to_nat sims) (fun j => -1 * ln (s_discount x (S i) j) / t) = - / t * average (Z.to_nat sims) (fun j => ln (s_discount x (S i) j))).
    { unfold average. rewrite (total_ext _ (fun j => -1 * ln (s_discount x (S i) j) / t) (fun j => - / t * ln (s_discount x (S i) j))) by (intros; field; lra). rewrite total_scal. assert (INR (Z.to_nat sims) <> 0) by (apply not_0_INR; lia). field. split; (assumption || lra). }
    rewrite E. assert (0 < / t) by (apply Rinv_0_lt_compat; exact Tp). unfold Rdiv. nra.
Qed.
(* which calls return *)
Theorem C108_returns (normal : normals) (quad : integrator) (r0 alpha sigma tau : R) (steps sims : Z) (anti : bool) (seed : Z) (method : string) : drawable steps 1 sims anti seed -> alpha <> 0 ->
  (anti = false \/ Z.even sims = true \/ (forall m, ~ named method m) -> exists x, hw_simulate normal quad r0 alpha sigma tau steps sims anti seed method = Ok x)
  /\ (anti = true -> Z.even sims = false -> (exists m, named method m) -> hw_simulate normal quad r0 alpha sigma tau steps sims anti seed method = Err ValueError).
Proof.
  intros D A. destruct (proj2 (generate_iff normal steps 1 sims anti seed) D) as [a G].
  assert (A2 : negb (eqb (2 * alpha) 0) = true) by (unfold eqb; destruct Req_EM_T; [exfalso; apply A; lra|reflexivity]).
  assert (D2 : d2 a = (if anti then 2 * Nat.div (Z.to_nat sims) 2 else Z.to_nat sims)%nat). { pose proof (generate_ok normal steps 1 sims anti seed D) as G'. rewrite G in G'. injection G' as ->. destruct anti; reflexivity. }
  assert (Pos : (1 <= sims)%Z) by (unfold drawable in D; lia). split.
  - intros C. unfold hw_simulate. rewrite G. cbn [bind]. rewrite A2. cbn [guard bind].
    match goal with |- context [guard ?b ValueError] => assert (B : b = true) end.
    { destruct C as [C|[C|C]]; [| |rewrite (unnamed_scheme _ C); reflexivity]; assert (E : d2 a = Z.to_nat sims).
      - rewrite D2, C. reflexivity.
      - rewrite E, Nat.eqb_refl. destruct (scheme_of method); reflexivity.
      - rewrite D2. destruct anti; [|reflexivity]. apply Z.even_spec in C. destruct C as [m M]. subst sims. replace (Z.to_nat (2 * m)) with (2 * Z.to_nat m)%nat by lia. rewrite div_double. reflexivity.
      - rewrite E, Nat.eqb_refl. destruct (scheme_of method); reflexivity. }
    rewrite B. cbn [guard bind]. eexists. reflexivity.
  - intros -> O [sc N]. destruct (named_scheme _ _ N) as [_ M]. unfold hw_simulate. rewrite G. cbn [bind]. rewrite A2. cbn [guard bind].
    match goal with |- context [guard ?b ValueError] => assert (B : b = false) end; [|rewrite B; reflexivity].
    assert (E : exists m, sims = (2 * m + 1)%Z) by (apply Z.odd_spec; rewrite <- Z.negb_even, O; reflexivity). destruct E as [m Em]. assert (En : Z.to_nat sims = (2 * Z.to_nat m + 1)%nat) by lia.
    assert (d2 a = 2 * Z.to_nat m)%nat by (rewrite D2, En, div_double1; reflexivity).
    assert (Nat.eqb (d2 a) (Z.to_nat sims) || Nat.eqb (d2 a) 1 = false) by (apply orb_false_intro; apply Nat.eqb_neq; lia). destruct (scheme_of method); (assumption || contradiction).
Qed.
Theorem C108_no_mean_reversion (normal : normals) (quad : integrator) (r0 sigma tau : R) (steps sims : Z) (anti : bool) (seed : Z) (method : string) : drawable steps 1 sims anti seed ->
  hw_simulate normal quad r0 0 sigma tau steps sims anti seed method = Err ZeroDivisionError.
Proof.
  intros D. destruct (proj2 (generate_iff normal steps 1 sims anti seed) D) as [a G]. unfold hw_simulate. rewrite G. cbn [bind]. unfold eqb. replace (2 * 0) with 0 by ring. destruct Req_EM_T; [reflexivity|contradiction].
Qed.
(* an unknown method is not refused: the rate drops to zero after the first point *)
Theorem C108_unknown_method (normal : normals) (quad : integrator) (r0 alpha sigma tau : R) (steps sims : Z) (anti : bool) (seed : Z) (method : string) (x : simulation) :
  (forall m, ~ named method m) -> hw_simulate normal quad r0 alpha sigma tau steps sims anti seed method = Ok x ->
  forall i j, s_rate x (S i) j = 0 /\ s_discount x (S i) j = exp (- r0 * s_time x 1 / 2).
Proof.
  intros N H i j. pose proof (unnamed_scheme _ N) as M.
  destruct (simulate_inv _ _ _ _ _ _ _ _ _ _ _ _ H) as (a & _ & _ & _ & _ & _ & Tm & Rr & Dr & _). rewrite M in *. split; [rewrite Rr; reflexivity|]. rewrite Dr, Tm. f_equal. set (h := tau / IZR steps).
  assert (E : forall theta n z k, rate_integral quad alpha sigma r0 h theta n z Other (S k) = r0 * h / 2). { intros theta n z k. induction k as [|k IH]; [cbn; field|]. cbn [rate_integral] in *. rewrite IH. cbn [rate_path step]. field. }
  rewrite E. cbn [INR]. field.
Qed.

(* ---- C109 ---- *)
Theorem C109_variance_function (k vol t0 t : R) : k <> 0 -> is_RInt (fun u => vol ^ 2 * exp (2 * k * u)) t0 t (y_integral t0 t vol k) /\ y_t t vol k = vol ^ 2 / (2 * k) * (1 - exp (-2 * k * t)).
Proof. intros K. split; [apply y_integral_is; exact K|apply y_t_closed; exact K]. Qed.
(* the drift integral is right when it starts from time zero or from no variance, and wrong otherwise *)
Theorem C109_drift_integral (k vol t0 t y0 : R) : k <> 0 -> t0 <> t -> (is_RInt (fun s => exp (k * s) * y_from t0 y0 vol k s) t0 t (ex_integral t0 t vol k y0) <-> y0 = 0 \/ t0 = 0).
Proof.
  intros K T. pose proof (y_from_integral k vol t0 t y0 K) as I. split.
  - intros J. apply (is_RInt_unique (V := R_CompleteNormedModule)) in I. apply (is_RInt_unique (V := R_CompleteNormedModule)) in J. rewrite I in J. unfold ex_integral in J.
    assert (E : (exp (2 * k * t0) - 1) * y0 * (exp (- k * t0) - exp (- k * t)) = 0).
    { apply (Rmult_eq_reg_r (/ k)); [|apply Rinv_neq_0_compat; exact K]. unfold Rdiv in J. rewrite Rmult_0_l. lra. }
    apply Rmult_integral in E. destruct E as [E|E]; [apply Rmult_integral in E; destruct E as [E|E]|].
    + right. assert (X : 2 * k * t0 = 0) by (apply exp_inv; rewrite exp_0; lra). apply Rmult_integral in X. destruct X; [exfalso; lra|assumption].
    + left. exact E.
    + exfalso. assert (X : - k * t0 = - k * t) by (apply exp_inv; lra). apply T. apply (Rmult_eq_reg_l (- k)); lra.
  - intros [-> | ->]; [rewrite Rmult_0_r in I; exact I|]. replace (2 * k * 0) with 0 in I by ring. rewrite exp_0, Rmult_1_l in I. exact I.
Qed.
(* the simulated state: exact mean and exact variance on every grid that starts at zero *)
Theorem C109_state (k vol : R) (t : nat -> R) (i : nat) : k <> 0 -> t O = 0 -> (forall j, (j < i)%nat -> t j <= t (S j)) ->
  exists w : nat -> R, (forall z : nat -> R, x_path k vol t z i = x_mean k vol (t i) + total i (fun j => w j * z j))
    /\ total i (fun j => w j ^ 2) = vol ^ 2 / (2 * k) * (1 - exp (-2 * k * t i)).
Proof.
  intros K T0 Mo. exists (x_weight k vol t i). split; [intros z; apply (x_closed k vol t z i K T0 Mo)|]. rewrite (proj2 (x_closed k vol t (fun _ => 0) i K T0 Mo)). apply y_t_closed. exact K.
Qed.
(* the bond price as a function of the state is that of HullWhite1Factor at the rate fwd t + x *)
Theorem C109_bond (df fwd : R -> R) (r0 k vol t tau x : R) : mean_reverting k -> 0 < tau -> t <> 0 -> df t <> 0 ->
  ode_2 df fwd r0 k vol t (t + tau) (Some (fwd t + x)) = Ok (bond_from_state df k vol t tau x).
Proof.
  intros A T N D. pose proof (small_pos _ A) as Kp. rewrite (ode_2_closed df fwd r0 k vol t (t + tau) (Some (fwd t + x)) (fwd t + x)); [|lra|lra|exact D|unfold short_rate, eqb; destruct Req_EM_T; [contradiction|reflexivity]].
  f_equal. unfold bond_from_state. rewrite y_t_closed by lra. rewrite b_large by exact A. replace (- k * (t + tau - t)) with (- k * tau) by ring. do 2 f_equal. field. lra.
Qed.
Theorem C109_bond_today (df : R -> R) (k vol tau : R) : k <> 0 -> df 0 = 1 -> bond_from_state df k vol 0 tau 0 = df tau.
Proof. intros K D. unfold bond_from_state. rewrite y_t_closed by exact K. rewrite D, Rplus_0_l. replace (-2 * k * 0) with 0 by ring. rewrite exp_0. match goal with |- _ * exp ?e = _ => replace e with 0 by (unfold Rdiv; ring) end. rewrite exp_0. field. Qed.

Definition all_theorems := (C108_rates, C108_average_rate, C108_exact_too_low, C108_exact_variance, C108_no_volatility, C108_discounts, C108_zero_rates, C108_returns, C108_no_mean_reversion, C108_unknown_method,
  C109_variance_function, C109_drift_integral, C109_state, C109_bond, C109_bond_today).
Print Assumptions all_theorems.

(* ---- cases ---- *)
Definition ex_normals : normals := fun _ _ i _ k => INR i - INR k.
Definition ex_quad : integrator := fun f a b => RInt f a b.
Example ex_quad_exact : exact_quad ex_quad. Proof. intros f a b H. apply (RInt_correct (V := R_CompleteNormedModule)). exact H. Qed.
Example ex_run : exists x, hw_simulate ex_normals ex_quad (1 / 50) (3 / 100) (1 / 50) 2 4 (2 * Z.of_nat 5) true 7 "exact" = Ok x /\ average (2 * 5) (s_rate x 3) < mean_rate (1 / 50) (3 / 100) (1 / 50) (s_time x 3).
Proof.
  destruct (C108_returns ex_normals ex_quad (1 / 50) (3 / 100) (1 / 50) 2 4 10 true 7 "exact") as [H _]; [unfold drawable; lia|lra|]. destruct (H (or_intror (or_introl eq_refl))) as [x E]. exists x. split; [exact E|].
  apply (C108_exact_too_low ex_normals ex_quad (1 / 50) (3 / 100) (1 / 50) 2 4 7 5 x ex_quad_exact ltac:(lra) ltac:(lra) ltac:(lra) E). cbn; lia.
Qed.
Example ex_odd : hw_simulate ex_normals ex_quad (1 / 50) (3 / 100) (1 / 50) 2 4 11 true 7 "euler" = Err ValueError.
Proof. apply (C108_returns ex_normals ex_quad (1 / 50) (3 / 100) (1 / 50) 2 4 11 true 7 "euler"); [unfold drawable; lia|lra|reflexivity|reflexivity|exists Euler; constructor]. Qed.
Example ex_misspelt : exists x, hw_simulate ex_normals ex_quad (1 / 50) (3 / 100) (1 / 50) 2 4 11 true 7 "Euler" = Ok x /\ s_rate x 2 0 = 0.
Proof.
  destruct (C108_returns ex_normals ex_quad (1 / 50) (3 / 100) (1 / 50) 2 4 11 true 7 "Euler") as [H _]; [unfold drawable; lia|lra|]. destruct (H (or_intror (or_intror (fun m (N : named "Euler" m) => match N in named s _ return s = "Euler"%string -> False with named_euler => fun E => ltac:(discriminate E) | named_rk4 => fun E => ltac:(discriminate E) | named_exact => fun E => ltac:(discriminate E) end eq_refl)))) as [x E]. exists x. split; [exact E|].
  apply (C108_unknown_method ex_normals ex_quad (1 / 50) (3 / 100) (1 / 50) 2 4 11 true 7 "Euler" x); [intros m X; inversion X|exact E].
Qed.
Example ex_drift : ~ is_RInt (fun s => exp (1 * s) * y_from 1 1 1 1 s) 1 2 (ex_integral 1 2 1 1 1).
Proof. intros H. apply C109_drift_integral in H; [|lra|lra]. destruct H; lra. Qed.
Example ex_state : exists w : nat -> R, x_path 1 1 (fun i => INR i) (fun _ => 1) 3 = x_mean 1 1 3 + total 3 (fun j => w j * 1) /\ total 3 (fun j => w j ^ 2) = 1 ^ 2 / (2 * 1) * (1 - exp (-2 * 1 * 3)).
Proof.
  destruct (C109_state 1 1 (fun i => INR i) 3) as (w & A & B); [lra|reflexivity|intros; rewrite S_INR; lra|]. exists w. replace 3 with (INR 3) by (cbn; lra). split; [apply A|exact B].
Qed.
