(* C147, C148: the Monte-Carlo bond option of the scripts hw1f2 and hw1f3, and the analytic bond option of a validation script *)
From Coq Require Import ZArith Reals Lra Lia List.
From Flocq Require Import Core.
From Coquelicot Require Import Coquelicot.
From Verif Require Import Base NormalModel NormalProofs BsProofs BlackModel BlackSpec BlackProofs MonteModel MonteSpec MonteProofs HwModel HwSpec HwProofs HwSimProofs MeanSpec MeanProofs PathMeanProofs HwMcSpec HwMcProofs HwLimProofs Hw2Model Hw2Spec Hw2Proofs.
Import ListNotations.
Open Scope R_scope.

(* C147 *)
(* the grid runs from zero to the expiry in positive steps no longer than the time step; it is uniform when the expiry is a multiple of the time step *)
Theorem C147_grid (time_step expiry : R) : 0 < time_step -> 0 < expiry ->
  let n := grid_steps time_step expiry in let t := sim_grid time_step expiry in
  (1 <= n)%nat /\ t O = 0 /\ t n = expiry /\ (forall i, (i < n)%nat -> 0 < t (S i) - t i <= time_step)
  /\ (forall m : nat, (1 <= m)%nat -> expiry = INR m * time_step -> n = m /\ forall i, (i <= m)%nat -> t i = INR i * time_step).
Proof.
  intros Hs HT n t. split; [unfold n, grid_steps; lia|]. split; [apply grid_start|]. split; [apply grid_end|]. split; [intros i Hi; apply grid_step; assumption|].
  intros m Hm E. assert (N : n = m). { unfold n, grid_steps. replace ((expiry - time_step) / time_step) with (IZR (Z.of_nat m - 1)) by (rewrite minus_IZR, <- INR_IZR_INZ, E; field; lra). rewrite Zceil_IZR. lia. }
  split; [exact N|]. intros i Hi. unfold t, sim_grid. fold n. rewrite N. destruct (Nat.ltb_spec i m); [reflexivity|]. replace i with m by lia. exact E.
Qed.

Local Lemma sample_mean (df fwd : R -> R) (k vol time_step T S K cp : R) : 0 < k -> vol <> 0 -> 0 < time_step -> 0 < T -> T < S -> 0 < K -> call_or_put cp -> 0 < df T -> 0 < df S ->
  let n := grid_steps time_step T in let t := sim_grid time_step T in let b := (1 - exp (- k * (S - T))) / k in let V := state_variance k vol T in
  0 < V /\ expected_n n (hw2_value df fwd k vol time_step T S K cp) (cp * (exp (grid_log_discount fwd k vol t n) * blk cp (df S / df T * exp (- b * (x_mean k vol T - grid_covariance k vol t n))) K (b * sqrt V))).
Proof.
  intros Kp Vo Hs HT L HK W DT DS n t b V. pose proof (grid_end time_step T) as E. fold n t in E.
  pose proof (option_mean k vol t n Kp (grid_start time_step T)) as M. assert (Mo : forall j, (j < n)%nat -> t j < t (Datatypes.S j)) by (intros j Hj; pose proof (grid_step time_step T Hs HT j Hj); unfold t; lra).
  specialize (M Mo df fwd (S - T) K cp Vo). rewrite E in M. replace (T + (S - T)) with S in M by ring. apply M; try assumption; [unfold n, grid_steps; lia|lra].
Qed.
Local Lemma bond_factor_pos (k T S : R) : 0 < k -> T < S -> 0 < (1 - exp (- k * (S - T))) / k.
Proof. intros Kp L. apply Rdiv_lt_0_compat; [|exact Kp]. assert (exp (- k * (S - T)) < exp 0) by (apply exp_increasing; nra). rewrite exp_0 in *. lra. Qed.

(* the expected value of a sample is, up to the sign of the option type, a Black-76 price; its annuity, forward and volatility are those of the grid *)
Theorem C147_expected (df fwd : R -> R) (k vol time_step T S K cp : R) : 0 < k -> vol <> 0 -> 0 < time_step -> 0 < T -> T < S -> 0 < K -> call_or_put cp -> 0 < df T -> 0 < df S ->
  let n := grid_steps time_step T in let t := sim_grid time_step T in let b := (1 - exp (- k * (S - T))) / k in
  exists p : R, price76 (df S / df T * exp (- b * (x_mean k vol T - grid_covariance k vol t n))) 1 cp K (b * sqrt (state_variance k vol T)) 0 (exp (grid_log_discount fwd k vol t n)) = Fin p
    /\ expected_n n (hw2_value df fwd k vol time_step T S K cp) (cp * p).
Proof.
  intros Kp Vo Hs HT L HK W DT DS n t b. pose proof (sample_mean df fwd k vol time_step T S K cp Kp Vo Hs HT L HK W DT DS) as [V M]. cbv zeta in V, M. fold n t b in M.
  pose proof (bond_factor_pos k T S Kp L) as B. fold b in B. pose proof (sqrt_lt_R0 _ V) as SV. eexists. split; [|exact M].
  rewrite price76_fin; [rewrite sqrt_1, !Rplus_0_r, Rmult_1_r; reflexivity| |lra|lra|rewrite sqrt_1, Rmult_1_r; apply Rgt_not_eq, Rmult_lt_0_compat; assumption].
  rewrite Rplus_0_r. apply Rmult_lt_0_compat; [apply Rdiv_lt_0_compat; assumption|apply exp_pos].
Qed.

(* a put is worth nothing or less in every sample, and less than nothing in expectation *)
Theorem C147_put_sign (df fwd : R -> R) (k vol time_step T S K : R) :
  (forall z, 0 <= hw2_value df fwd k vol time_step T S K 1 z) /\ (forall z, hw2_value df fwd k vol time_step T S K (-1) z <= 0)
  /\ (0 < k -> vol <> 0 -> 0 < time_step -> 0 < T -> T < S -> 0 < K -> 0 < df T -> 0 < df S ->
      exists c p : R, 0 < c /\ p < 0 /\ expected_n (grid_steps time_step T) (hw2_value df fwd k vol time_step T S K 1) c /\ expected_n (grid_steps time_step T) (hw2_value df fwd k vol time_step T S K (-1)) p).
Proof.
  assert (C : forall z, 0 < hw2_cumulative fwd k vol (sim_grid time_step T) z (grid_steps time_step T)). { intros z. generalize (grid_steps time_step T). intros m. induction m; cbn [hw2_cumulative]; [lra|]. apply Rmult_lt_0_compat; [exact IHm|apply exp_pos]. }
  split; [|split].
  - intros z. unfold hw2_value, hw2_option. cbv zeta. apply Rmult_le_pos; [rewrite Rmult_1_l; apply Rmax_r|apply Rlt_le, C].
  - intros z. unfold hw2_value, hw2_option. cbv zeta. specialize (C z). match goal with |- -1 * ?m * ?c <= 0 => assert (0 <= m) by apply Rmax_r; nra end.
  - intros Kp Vo Hs HT L HK DT DS. pose proof (bond_factor_pos k T S Kp L) as B.
    assert (X : forall cp, call_or_put cp -> exists p, 0 < p /\ expected_n (grid_steps time_step T) (hw2_value df fwd k vol time_step T S K cp) (cp * p)).
    { intros cp W. pose proof (sample_mean df fwd k vol time_step T S K cp Kp Vo Hs HT L HK W DT DS) as [V M]. eexists. split; [|exact M].
      apply Rmult_lt_0_compat; [apply exp_pos|]. apply blk_pos; [exact W| |exact HK|apply Rmult_lt_0_compat; [exact B|apply sqrt_lt_R0, V]]. apply Rmult_lt_0_compat; [apply Rdiv_lt_0_compat; assumption|apply exp_pos]. }
    destruct (X 1 (or_introl eq_refl)) as (c & Cp & Ec). destruct (X (-1) (or_intror eq_refl)) as (p & Pp & Ep). exists (1 * c), (-1 * p). split; [lra|]. split; [lra|]. split; assumption.
Qed.

(* an option expiring within the time step is valued in one step and not discounted at all *)
Theorem C147_one_step (df fwd : R -> R) (k vol time_step T S K cp : R) : 0 < time_step -> 0 < T -> T <= time_step ->
  grid_steps time_step T = 1%nat
  /\ (forall z, hw2_value df fwd k vol time_step T S K cp z = cp * Rmax (cp * (bond_from_state df k vol T (S - T) (x_path k vol (sim_grid time_step T) z 1) - K)) 0)
  /\ (0 < k -> vol <> 0 -> T < S -> 0 < K -> call_or_put cp -> 0 < df T -> 0 < df S ->
      let b := (1 - exp (- k * (S - T))) / k in
      exists p : R, price76 (df S / df T * exp (- b * x_mean k vol T)) 1 cp K (b * sqrt (state_variance k vol T)) 0 1 = Fin p /\ expected_n 1 (hw2_value df fwd k vol time_step T S K cp) (cp * p)).
Proof.
  intros Hs HT Le. assert (N : grid_steps time_step T = 1%nat). { unfold grid_steps. f_equal. assert ((Zceil ((T - time_step) / time_step) <= 0)%Z). { apply Zceil_glb. unfold Rdiv. pose proof (Rinv_0_lt_compat _ Hs). nra. } replace (Z.to_nat _) with O by lia. reflexivity. }
  split; [exact N|]. pose proof (grid_end time_step T) as E. rewrite N in E. split.
  - intros z. unfold hw2_value, hw2_option. rewrite N, E. cbn [hw2_cumulative hw2_dt Nat.pred]. unfold hw2_rate. rewrite E. rewrite Rmult_0_r, exp_0, !Rmult_1_r. replace (x_path k vol (sim_grid time_step T) z 1 + fwd T - fwd T) with (x_path k vol (sim_grid time_step T) z 1) by ring. reflexivity.
  - intros Kp Vo L HK W DT DS b. destruct (C147_expected df fwd k vol time_step T S K cp Kp Vo Hs HT L HK W DT DS) as (p & P & M). rewrite N in P, M. fold b in P.
    unfold grid_covariance, grid_log_discount, later_sum in P. cbn [Nat.pred] in P. rewrite !total_0, Rminus_0_r in P. replace (- 0 + 0 / 2) with 0 in P by field. rewrite exp_0 in P. exists p. split; [exact P|exact M].
Qed.

Local Lemma grid_fine (s T d : R) : 0 < s -> 0 < T -> s < d -> fine (sim_grid s T) (grid_steps s T) T d.
Proof.
  intros Hs HT L. split; [apply grid_start|]. split; [apply grid_end|]. split; [unfold grid_steps; lia|]. intros i Hi. pose proof (grid_step s T Hs HT i Hi). lra.
Qed.
Local Lemma lim_grid (T l : R) (f : (nat -> R) -> nat -> R) (s : nat -> R) : 0 < T -> (forall i, 0 < s i) -> is_lim_seq s 0 ->
  (forall eps, 0 < eps -> exists d, 0 < d /\ forall t n, fine t n T d -> Rabs (f t n - l) <= eps) -> is_lim_seq (fun i => f (sim_grid (s i) T) (grid_steps (s i) T)) l.
Proof.
  intros HT Hs L H. apply is_lim_seq_spec. intros eps. cbn. destruct (H (eps / 2)) as (d & D & F). { pose proof (cond_pos eps). lra. }
  apply is_lim_seq_spec in L. specialize (L (mkposreal d D)). cbn in L. destruct L as (N & L). exists N. intros i Hi. specialize (L i Hi). rewrite Rminus_0_r, Rabs_right in L by (apply Rle_ge, Rlt_le, Hs).
  pose proof (F _ _ (grid_fine (s i) T d (Hs i) HT L)). pose proof (cond_pos eps). lra.
Qed.

(* with ever smaller time steps, on a curve with continuous forward rates, the expected value tends to the closed-form price for a call and to its negative for a put *)
Theorem C147_limit (df fwd : R -> R) (k vol T S K cp : R) (time_step : nat -> R) : smooth_curve df fwd -> mean_reverting k -> 0 < vol -> 0 < T -> T < S -> 0 < K -> call_or_put cp ->
  (forall i, 0 < time_step i) -> is_lim_seq time_step 0 ->
  exists (p : nat -> R) (q : R), (forall i, expected_n (grid_steps (time_step i) T) (hw2_value df fwd k vol (time_step i) T S K cp) (p i))
    /\ zcbo df k vol [T] [S] [K] [cp] 0 = Ok [Fin q] /\ 0 < q /\ is_lim_seq p (cp * q).
Proof.
  intros SC A Vp HT L HK W Hs Lim. pose proof (small_pos _ A) as Kp. assert (D : forall u, 0 < df u) by (intros u; apply SC).
  assert (Vo : vol <> 0) by lra. pose proof (bond_factor_pos k T S Kp L) as B.
  eexists (fun i => _). eexists. split; [intros i; apply (sample_mean df fwd k vol (time_step i) T S K cp Kp Vo (Hs i) HT L HK W (D T) (D S))|].
  rewrite zcbo_single, zcbo_elem_fin by (try assumption; apply D). split; [reflexivity|]. split; [apply Rmult_lt_0_compat; [apply D|]; apply blk_pos; [exact W|apply Rdiv_lt_0_compat; apply D|exact HK|apply sdev_pos; assumption]|].
  assert (E : (1 - exp (- k * (S - T))) / k * sqrt (state_variance k vol T) = sdev k vol T S). { rewrite <- sdev_variance by assumption. rewrite (b_large k T S A). f_equal. }
  cbv zeta. rewrite E. apply (is_lim_seq_scal_l _ cp (Finite _)). apply is_lim_seq_mult'.
  - replace (df T) with (exp (ln (df T))) by (apply exp_ln, D). apply lim_exp. apply (lim_grid T (ln (df T)) (fun t n => grid_log_discount fwd k vol t n)); try assumption. intros eps He. apply fine_discount; assumption.
  - apply lim_blk; [apply Rdiv_lt_0_compat; apply D|exact HK|apply sdev_pos; assumption| |apply is_lim_seq_const].
    apply (lim_val _ (df S / df T * exp (- ((1 - exp (- k * (S - T))) / k) * (x_mean k vol T - x_mean k vol T)))); [|rewrite Rminus_eq_0, Rmult_0_r, exp_0; ring].
    apply (is_lim_seq_scal_l _ (df S / df T) (Finite _)). apply lim_exp. apply (is_lim_seq_scal_l _ _ (Finite _)). apply is_lim_seq_minus'; [apply is_lim_seq_const|].
    apply (lim_grid T (x_mean k vol T) (fun t n => grid_covariance k vol t n)); try assumption. intros eps He. apply fine_covariance; assumption.
Qed.

(* C148 *)
(* the analytic valuation of the validation script agrees with price_zero_coupon_bond_option in every branch, wherever the knots of the volatility are *)
Theorem C148_same (rate : R -> R) (knots : list R) (k vol T S K : R) (is_call : bool) : mean_reverting k -> 0 <= vol -> 0 <= T -> 0 < K ->
  zcbo (fun t => exp (- rate t * t)) k vol [T] [S] [K] [option_sign is_call] 0 = Ok [tff_option rate knots k vol T S K is_call].
Proof.
  intros A Vp HT HK. pose proof (small_pos _ A) as Kp. rewrite zcbo_single. do 2 f_equal. destruct (Rlt_le_dec S T) as [L|L].
  - rewrite zcbo_elem_after by exact L. unfold tff_option, ltb. destruct Rlt_dec; [reflexivity|contradiction].
  - assert (E : tff_sd k vol T S = sdev k vol T S). { unfold tff_sd, sdev. rewrite (b_large k T S A), Rabs_right by lra. reflexivity. }
    destruct (Rle_lt_or_eq_dec 0 (tff_sd k vol T S) (tff_sd_nonneg k vol T S Kp L)) as [P|Z].
    + assert (0 < vol). { destruct Vp as [|<-]; [assumption|]. unfold tff_sd in P. rewrite Rabs_R0 in P. rewrite !Rmult_0_l in P. lra. }
      assert (0 < T). { destruct HT as [|<-]; [assumption|]. rewrite E in P. unfold sdev in P. rewrite Rmult_0_r, exp_0 in P. unfold Rdiv in P. rewrite Rminus_eq_0, Rmult_0_l, sqrt_0, Rmult_0_r, Rmult_0_l in P. lra. }
      assert (T < S). { destruct L as [|<-]; [assumption|]. rewrite E in P. unfold sdev in P. rewrite b_end, Rmult_0_r in P. lra. }
      rewrite tff_positive by (try assumption; lra). rewrite zcbo_elem_fin by (try assumption; apply exp_pos). rewrite E. reflexivity.
    + rewrite tff_zero by (try assumption; lra). rewrite zcbo_elem_zero; [reflexivity|exact A|exact HT|exact L|lra|apply Rgt_not_eq, exp_pos].
Qed.
(* the sign of the volatility does not matter to the script, but a negative volatility is none to price_zero_coupon_bond_option *)
Theorem C148_negative_volatility (rate : R -> R) (knots : list R) (k vol T S K : R) (is_call : bool) : mean_reverting k -> vol <= 0 -> 0 <= T -> T <= S ->
  tff_option rate knots k vol T S K is_call = tff_option rate knots k (- vol) T S K is_call
  /\ zcbo (fun t => exp (- rate t * t)) k vol [T] [S] [K] [option_sign is_call] 0 = Ok [Fin (Rmax 0 (option_sign is_call * (exp (- rate S * S) / exp (- rate T * T) - K)))].
Proof.
  intros A Vn HT L. pose proof (small_pos _ A) as Kp. split.
  - unfold tff_option. rewrite !tff_variance_sq by assumption. unfold tff_sd. rewrite Rabs_Ropp. reflexivity.
  - rewrite zcbo_single. rewrite zcbo_elem_zero; [reflexivity|exact A|exact HT|exact L| |apply Rgt_not_eq, exp_pos].
    unfold sdev. pose proof (sqrt_pos ((1 - exp (-2 * k * T)) / (2 * k))) as Q. assert (0 <= calc_b k T S) by (destruct L as [L| <-]; [left; apply b_pos; exact L|rewrite b_end; lra]). pose proof (Rmult_le_pos _ _ Q H). rewrite Rmult_assoc. nra.
Qed.
(* slower mean reversion than the threshold: price_zero_coupon_bond_option drops it from the bond volatility only, and is the dearer *)
Theorem C148_slow (rate : R -> R) (knots : list R) (k vol T S K : R) (is_call : bool) : 0 < k < 1 / 100000000 -> 0 < vol -> 0 < T -> T < S -> 0 < K ->
  exists x y : R, tff_option rate knots k vol T S K is_call = Fin x /\ zcbo (fun t => exp (- rate t * t)) k vol [T] [S] [K] [option_sign is_call] 0 = Ok [Fin y] /\ 0 < x < y.
Proof.
  intros [Kp Ks] Vp HT L HK. pose proof (sqrt_lt_R0 _ (decay_pos k T Kp HT)) as Q. pose proof (bond_factor_pos k T S Kp L) as B.
  assert (W : option_sign is_call = 1 \/ option_sign is_call = -1) by (unfold option_sign; destruct is_call; auto).
  assert (P : 0 < tff_sd k vol T S). { unfold tff_sd. rewrite Rabs_right by lra. apply Rmult_lt_0_compat; [apply Rmult_lt_0_compat; assumption|exact B]. }
  rewrite zcbo_single. rewrite tff_positive by (try assumption; lra). rewrite zcbo_elem_fin by (try assumption; apply exp_pos).
  pose proof (Rdiv_lt_0_compat _ _ (exp_pos (- rate S * S)) (exp_pos (- rate T * T))) as F. pose proof (exp_pos (- rate T * T)) as D.
  do 2 eexists. split; [reflexivity|]. split; [reflexivity|]. split; [apply Rmult_lt_0_compat; [exact D|apply blk_pos; assumption]|].
  apply Rmult_lt_compat_l; [exact D|]. apply blk_mono; [exact W|exact F|exact HK|exact P|].
  unfold tff_sd, sdev. rewrite Rabs_right by lra. apply Rmult_lt_compat_l; [apply Rmult_lt_0_compat; assumption|]. unfold calc_b. destruct Rlt_dec as [_|N]; [|lra].
  apply (Rmult_lt_reg_r k); [exact Kp|]. unfold Rdiv. rewrite Rmult_assoc, Rinv_l, Rmult_1_r by lra. assert (N : - k * (S - T) <> 0) by nra. pose proof (exp_ineq1 _ N). lra.
Qed.

(* ---- concrete cases ---- *)
Example flat_smooth : smooth_curve (fun t => exp (- (1 / 20) * t)) (fun _ => 1 / 20).
Proof.
  split; [rewrite Rmult_0_r; apply exp_0|]. intros t. split; [apply exp_pos|]. split; [|apply continuous_const]. apply (is_derive_ext (fun s => 1 / 20 * s)); [intros s; change (1 / 20 * s = - ln (exp (- (1 / 20) * s))); rewrite ln_exp; ring|]. auto_derive; [trivial|]. lra.
Qed.
Example steps_small : (forall i : nat, 0 < / INR (S i)) /\ is_lim_seq (fun i => / INR (S i)) 0.
Proof. split; [intros i; apply Rinv_0_lt_compat, lt_0_INR; lia|]. apply (is_lim_seq_incr_1 (fun i => / INR i)). apply (is_lim_seq_inv INR p_infty); [apply is_lim_seq_INR|discriminate]. Qed.
Example ten_steps : grid_steps (1 / 10) 1 = 10%nat.
Proof. apply (C147_grid (1 / 10) 1); [lra|lra|lia|cbn; lra]. Qed.
Example slow : 0 < 1 / 1000000000 < 1 / 100000000. Proof. lra. Qed.
Example parameters : mean_reverting (3 / 100) /\ 0 < 1 / 50 /\ call_or_put (-1).
Proof. unfold mean_reverting, call_or_put. lra. Qed.

Definition all_theorems := (C147_grid, C147_expected, C147_put_sign, C147_one_step, C147_limit, C148_same, C148_negative_volatility, C148_slow).
Print Assumptions all_theorems.
