(* C112-C115: prices are expected payoffs, and the expectations of the simulated paths *)
From Coq Require Import ZArith String Reals Lra Lia List.
From Coquelicot Require Import Coquelicot.
From Verif Require Import Base NormalModel NormalProofs BsProofs BlackModel BlackSpec BlackProofs GkModel GkSpec GkProofs HwModel HwSpec HwProofs HwSimProofs MonteModel MonteSpec MonteProofs MonteLoopProofs MeanSpec MeanProofs PathMeanProofs CsMeanProofs HwMeanProofs PHw PHwSim PMonte.
Import ListNotations.
Open Scope R_scope.

(* C112 *)
Theorem C112_black76 (F tau cp K vol s A : R) : call_or_put cp -> 0 < F + s -> 0 < K + s -> 0 < tau -> 0 < vol ->
  exists p, price76 F tau cp K vol s A = Fin p
    /\ expected (fun z => A * Rmax 0 (cp * ((F + s) * exp (vol * sqrt tau * z - vol ^ 2 * tau / 2) - s - K))) p.
Proof.
  intros W HF HK Ht Hv. pose proof (total_pos vol tau Hv Ht) as T. eexists. split; [apply price76_fin; lra|]. apply expected_scal. eapply expected_ext; [|exact (payoff_lognormal cp (F + s) (K + s) _ W HF HK T)].
  intros z. cbv beta. unfold lognormal. replace ((vol * sqrt tau) ^ 2) with (vol ^ 2 * tau) by (rewrite Rpow_mult_distr, <- (Rsqr_pow2 (sqrt tau)), Rsqr_sqrt by lra; reflexivity). f_equal. f_equal. ring.
Qed.
Theorem C112_bachelier (F tau cp K vol A : R) : call_or_put cp -> 0 < tau -> 0 < vol ->
  exists p, price_n F tau cp K vol A = Fin p /\ expected (fun z => A * Rmax 0 (cp * (F + vol * sqrt tau * z - K))) p.
Proof.
  intros W Ht Hv. pose proof (total_pos vol tau Hv Ht) as T. eexists. split; [apply price_n_fin; lra|]. apply expected_scal. exact (payoff_normal cp F K _ W T).
Qed.
Theorem C112_garman_kohlhagen (S tau rd rf cp K vol : R) (F : option R) : call_or_put cp -> 0 < S -> 0 < K -> 0 < tau -> 0 < vol -> good_forward F ->
  exists p, price_gk S tau rd rf cp K vol F = Fin p
    /\ expected (fun z => dom_df S tau rd rf F * Rmax 0 (cp * (forward_of S tau rd rf F * exp (vol * sqrt tau * z - vol ^ 2 * tau / 2) - K))) p.
Proof.
  intros W HS HK Ht Hv HF. pose proof (total_pos vol tau Hv Ht) as T. eexists. split; [apply price_gk_live; auto; lra|]. apply expected_scal. eapply expected_ext; [|exact (payoff_lognormal cp _ K _ W (fwd_pos S tau rd rf F HS HF) HK T)].
  intros z. cbv beta. unfold lognormal. replace ((vol * sqrt tau) ^ 2) with (vol ^ 2 * tau) by (rewrite Rpow_mult_distr, <- (Rsqr_pow2 (sqrt tau)), Rsqr_sqrt by lra; reflexivity). reflexivity.
Qed.
(* v is the standard deviation at expiry T of the logarithm of the price of the bond maturing at S, relative to that maturing at T *)
Theorem C112_bond_option (df : R -> R) (alpha sigma T S K cp : R) : call_or_put cp -> mean_reverting alpha -> 0 < sigma -> 0 < T -> T < S -> 0 < df T -> 0 < df S -> 0 < K ->
  exists v p, 0 < v /\ is_RInt (fun u => (sigma * (calc_b alpha u S - calc_b alpha u T)) ^ 2) 0 T (v ^ 2)
    /\ zcbo df alpha sigma [T] [S] [K] [cp] 0 = Ok [Fin p]
    /\ expected (fun z => df T * Rmax 0 (cp * (df S / df T * exp (v * z - v ^ 2 / 2) - K))) p.
Proof.
  intros W A Sg HT HS PT PS HK. destruct (C64_is_black df alpha sigma T S K cp A Sg HT HS PT PS HK) as (v & V & I & E). assert (Q : 0 < df S / df T) by (apply Rdiv_lt_0_compat; assumption).
  destruct (C112_black76 (df S / df T) 1 cp K v 0 (df T) W ltac:(lra) ltac:(lra) ltac:(lra) V) as (p & P & X). exists v, p. split; [exact V|]. split; [exact I|]. split; [rewrite E, P; reflexivity|].
  eapply expected_ext; [|exact X]. intros z. cbv beta. rewrite sqrt_1, Rplus_0_r, !Rmult_1_r, Rminus_0_r. reflexivity.
Qed.

(* C113 *)
Lemma gbm_value_of (px : R) (drift vol dt : nat -> R) (n t : nat) : (forall i : nat, (i < n)%nat -> 0 <= dt i) -> (t <= n)%nat -> gbm_value px drift vol dt n t (fun w => px * exp (gbm_log drift vol dt w t)).
Proof. intros D L z s A B. destruct (gbm_one px drift vol dt n z A B D) as (x & X & _ & V). exists x. split; [exact X|]. apply V. exact L. Qed.
Theorem C113_moments (px : R) (drift vol dt : nat -> R) (n t : nat) : (forall i : nat, (i < n)%nat -> 0 <= dt i) -> (t <= n)%nat ->
  exists g, gbm_value px drift vol dt n t g
    /\ expected_n t g (px * exp (total t (fun i => drift i * dt i)))
    /\ expected_n t (fun w => g w ^ 2) (px ^ 2 * exp (2 * total t (fun i => drift i * dt i) + total t (fun i => vol i ^ 2 * dt i))).
Proof.
  intros D L. eexists. split; [apply gbm_value_of; assumption|]. assert (Sq : forall i, (i < t)%nat -> (vol i * sqrt (dt i)) ^ 2 = vol i ^ 2 * dt i) by (intros i I; rewrite Rpow_mult_distr, <- (Rsqr_pow2 (sqrt (dt i))), Rsqr_sqrt by (apply D; lia); reflexivity). 
  set (c := fun i => vol i * sqrt (dt i)). set (a := total t (fun i => (drift i - vol i ^ 2 / 2) * dt i)).
  assert (Lg : forall w, gbm_log drift vol dt w t = a + total t (fun i => c i * w i)) by (intros w; unfold gbm_log; rewrite total_plus; reflexivity).
  assert (V : total t (fun i => c i ^ 2) = total t (fun i => vol i ^ 2 * dt i)) by (apply total_ext; exact Sq).
  assert (Ha : a = total t (fun i => drift i * dt i) - total t (fun i => vol i ^ 2 * dt i) / 2).
  { unfold a. rewrite (total_ext t _ (fun i => drift i * dt i + - (1 / 2) * (vol i ^ 2 * dt i))) by (intros; field). rewrite total_plus, total_scal. field. }
  assert (H2 : total t (fun i => c i ^ 2 / 2) = total t (fun i => vol i ^ 2 * dt i) / 2) by (rewrite <- V, (total_ext t (fun i => c i ^ 2 / 2) (fun i => / 2 * c i ^ 2)) by (intros; field); rewrite total_scal; field).
  split.
  - apply expected_n_scal. replace (total t (fun i => drift i * dt i)) with (a + total t (fun i => c i ^ 2 / 2)) by lra. eapply expected_n_ext; [|apply expected_n_exp]. intros w. cbv beta. rewrite Lg. reflexivity.
  - eapply expected_n_ext; [|apply (expected_n_scal t (fun w => exp (2 * a + total t (fun i => (2 * c i) * w i))) _ (px ^ 2)); replace (2 * total t (fun i => drift i * dt i) + total t (fun i => vol i ^ 2 * dt i)) with (2 * a + total t (fun i => (2 * c i) ^ 2 / 2)); [apply expected_n_exp|]].
    + intros w. cbv beta. rewrite Lg. rewrite (total_ext t (fun i => 2 * c i * w i) (fun i => 2 * (c i * w i))) by (intros; ring). rewrite total_scal, <- Rmult_plus_distr_l, Rpow_mult_distr. f_equal. set (e := a + _). replace (2 * e) with (e + e) by ring. rewrite exp_plus. ring.
    + rewrite (total_ext t (fun i => (2 * c i) ^ 2 / 2) (fun i => 2 * c i ^ 2)) by (intros; field). rewrite total_scal, V. lra.
Qed.
(* the expected payoff after t steps is the Black price for the total drift and the total variance, however they are spread over the steps *)
Theorem C113_option (px : R) (drift vol dt : nat -> R) (n t : nat) (cp K A tau : R) : (forall i : nat, (i < n)%nat -> 0 <= dt i) -> (t <= n)%nat -> call_or_put cp -> 0 < px -> 0 < K -> 0 < tau ->
  let variance := total t (fun i => vol i ^ 2 * dt i) in 0 < variance ->
  exists g p, gbm_value px drift vol dt n t g /\ price76 (px * exp (total t (fun i => drift i * dt i))) tau cp K (sqrt (variance / tau)) 0 A = Fin p
    /\ expected_n t (fun w => A * Rmax 0 (cp * (g w - K))) p.
Proof.
  intros D L W HP HK Ht variance HV. do 2 eexists. split; [apply gbm_value_of; assumption|]. assert (Sq : forall i, (i < t)%nat -> (vol i * sqrt (dt i)) ^ 2 = vol i ^ 2 * dt i) by (intros i I; rewrite Rpow_mult_distr, <- (Rsqr_pow2 (sqrt (dt i))), Rsqr_sqrt by (apply D; lia); reflexivity).
  set (c := fun i => vol i * sqrt (dt i)). set (M := total t (fun i => drift i * dt i)). assert (V : total t (fun i => c i ^ 2) = variance) by (apply total_ext; exact Sq).
  assert (E : sqrt (variance / tau) * sqrt tau = sqrt variance) by (rewrite <- sqrt_mult by (try apply Rlt_le; try apply Rdiv_lt_0_compat; lra); f_equal; field; lra).
  assert (Q : 0 < px * exp M) by (apply Rmult_lt_0_compat; [exact HP|apply exp_pos]). pose proof (sqrt_lt_R0 _ HV) as SV.
  split. { rewrite price76_fin by (try lra; rewrite E; lra). rewrite E, !Rplus_0_r. reflexivity. }
  apply expected_n_scal. rewrite <- V. eapply expected_n_ext; [|apply (expected_n_payoff t cp (px * exp M) K c W Q HK); rewrite V; exact HV].
  intros w. cbv beta. rewrite V, Rmult_assoc, <- exp_plus. do 5 f_equal. unfold gbm_log. rewrite total_plus. rewrite (total_ext t (fun i => (drift i - vol i ^ 2 / 2) * dt i) (fun i => drift i * dt i + - (1 / 2) * (vol i ^ 2 * dt i))) by (intros; field). rewrite total_plus, total_scal. fold M. fold variance. unfold c. lra.
Qed.
(* with the constant drift rd - rf and the constant volatility of the pricer, discounting gives the Garman-Kohlhagen price *)
Theorem C113_garman_kohlhagen (S tau rd rf cp K vol : R) (dt : nat -> R) (n : nat) : (forall i : nat, (i < n)%nat -> 0 <= dt i) -> total n dt = tau -> call_or_put cp -> 0 < S -> 0 < K -> 0 < tau -> 0 < vol ->
  exists g p, gbm_value S (fun _ => rd - rf) (fun _ => vol) dt n n g /\ price_gk S tau rd rf cp K vol None = Fin p
    /\ expected_n n (fun w => exp (- rd * tau) * Rmax 0 (cp * (g w - K))) p.
Proof.
  intros D T W HS HK Ht Hv. assert (Vt : total n (fun i => vol ^ 2 * dt i) = vol ^ 2 * tau) by (rewrite total_scal, T; reflexivity). assert (Mt : total n (fun i => (rd - rf) * dt i) = (rd - rf) * tau) by (rewrite total_scal, T; reflexivity).
  destruct (C113_option S (fun _ => rd - rf) (fun _ => vol) dt n n cp K (exp (- rd * tau)) tau D (le_n n) W HS HK Ht) as (g & p & G & P & E). { rewrite Vt. apply Rmult_lt_0_compat; [nra|exact Ht]. }
  exists g, p. split; [exact G|]. split; [|exact E]. rewrite <- P. rewrite Vt, Mt. replace (vol ^ 2 * tau / tau) with (Rsqr vol) by (unfold Rsqr; field; lra). rewrite sqrt_Rsqr by lra. pose proof (total_pos vol tau Hv Ht) as TP.
  rewrite price_gk_live by (auto; try lra; exact I). assert (Q : 0 < S * exp ((rd - rf) * tau)) by (apply Rmult_lt_0_compat; [exact HS|apply exp_pos]). rewrite price76_fin by lra. rewrite !Rplus_0_r. f_equal. f_equal.
  unfold dom_df, forward_of. replace (- rf * tau) with ((rd - rf) * tau + - rd * tau) by ring. rewrite exp_plus. pose proof (exp_pos ((rd - rf) * tau)). field. lra.
Qed.

(* C114 *)
Theorem C114_expected_spot (curve : R -> result R) (sims seg T per : nat) (alpha sigma : R) (F : nat -> R) (t n : nat) :
  simulable curve sims seg T -> chunk sims (T * seg) per -> curve_on curve F seg (T * seg) -> (t <= T)%nat -> (n < sims)%nat ->
  let dt := 1 / INR seg in let forward := F (t * seg)%nat in
  exists g m,
    (forall normal : normals, exists x, cs_simulate normal curve sims seg T alpha sigma = Ok x
       /\ me x t n = Fin (g (fun k => normal (Z.of_nat (Nat.div n per)) ((T * seg)%nat, 1%nat, per) k 0%nat (Nat.modulo n per))))
    /\ expected_n (t * seg) g m /\ m = forward * exp (cs_bias dt alpha sigma (t * seg))
    /\ (alpha = 0 \/ sigma = 0 \/ (t * seg <= 1)%nat -> m = forward)
    /\ ((2 <= t * seg)%nat -> sigma <> 0 -> 0 < alpha -> alpha * dt <= 1 -> forward < m)
    /\ ((2 <= t * seg)%nat -> sigma <> 0 -> alpha < 0 -> m < forward).
Proof.
  intros S Ch Cu Lt Ln dt forward. pose proof S as (S1 & _). assert (SP : 0 < INR seg) by (apply lt_0_INR; lia). assert (D : 0 < dt) by (apply Rdiv_lt_0_compat; lra).
  assert (Fp : 0 < forward) by (apply (Cu (t * seg)%nat); nia). exists (fun w => forward * exp (cs_deviation dt alpha sigma w (t * seg))), (forward * exp (cs_bias dt alpha sigma (t * seg))). split; [|split; [|split; [reflexivity|]]].
  - intros normal. destruct (cs_run normal curve sims seg T per alpha sigma F S Ch Cu) as (x & X & _ & _ & V). exists x. split; [exact X|]. exact (V t n Lt Ln).
  - apply expected_n_scal. apply cs_expected. lra.
  - rewrite cs_bias_gap. split; [|split].
    + intros C. replace (sigma ^ 2 * dt / 2 * cs_gap (alpha * dt) (t * seg)) with 0; [rewrite exp_0; ring|]. destruct C as [->|[->|C]]; [rewrite Rmult_0_l, cs_gap_0; ring|field|]. destruct (t * seg)%nat as [|[|i]]; [unfold cs_gap, cs_var, cs_drift; rewrite !total_0; ring|rewrite cs_gap_1; ring|lia].
    + intros I Sg A1 A2. assert (0 < cs_gap (alpha * dt) (t * seg)) by (apply cs_gap_positive; [nra|exact I]). assert (0 < sigma ^ 2 * dt / 2) by (assert (0 < sigma ^ 2) by (apply pow2_gt_0; exact Sg); nra).
      rewrite <- (Rmult_1_r forward) at 1. apply Rmult_lt_compat_l; [exact Fp|]. rewrite <- exp_0. apply exp_increasing. nra.
    + intros I Sg A1. assert (cs_gap (alpha * dt) (t * seg) < 0) by (apply cs_gap_negative; [nra|exact I]). assert (0 < sigma ^ 2 * dt / 2) by (assert (0 < sigma ^ 2) by (apply pow2_gt_0; exact Sg); nra).
      rewrite <- (Rmult_1_r forward) at 2. apply Rmult_lt_compat_l; [exact Fp|]. rewrite <- exp_0. apply exp_increasing. nra.
Qed.

(* C115 *)
Theorem C115_expected_rate (quad : integrator) (r0 alpha sigma tau : R) (steps sims : Z) (anti : bool) (method : string) (m : scheme) (i : nat) : named method m ->
  (m = Exact -> exact_quad quad /\ 0 < tau) -> (i <= Z.to_nat steps)%nat ->
  let h := tau / IZR steps in let mean := r0 + excess m alpha sigma h (fun _ => 0) i in
  exists g, hw_value quad r0 alpha sigma tau steps sims anti method (fun x => s_rate x i) g /\ expected_n i g mean
    /\ expected_n i (fun w => (g w - mean) ^ 2) (total i (fun k => rate_weight m alpha sigma h i k ^ 2)).
Proof.
  intros N Q I h mean. exists (fun w => mean + total i (fun k => rate_weight m alpha sigma h i k * w k)). destruct (named_scheme _ _ N) as [E O]. split; [|split].
  - intros normal seed x H. rewrite <- E in Q. destruct (simulate_rate _ _ _ _ _ _ _ _ _ _ _ _ H O Q) as (a & G & _ & V). exists a. split; [exact G|]. intros j J. rewrite (V i j I J), E. fold h. rewrite excess_split, (rate_weights m alpha sigma h _ i i (le_n i)). unfold mean. ring.
  - apply expected_n_linear.
  - eapply expected_n_ext; [|enough (W : expected_n i (fun w => (0 + total i (fun k => rate_weight m alpha sigma h i k * w k)) ^ 2) (0 ^ 2 + total i (fun k => rate_weight m alpha sigma h i k ^ 2))) by (replace (0 ^ 2 + total i (fun k => rate_weight m alpha sigma h i k ^ 2)) with (total i (fun k => rate_weight m alpha sigma h i k ^ 2)) in W by ring; exact W); apply expected_n_square]. intros w. cbv beta. f_equal. ring.
Qed.
Theorem C115_expected_discount (quad : integrator) (r0 alpha sigma tau : R) (steps sims : Z) (anti : bool) (method : string) (m : scheme) (i : nat) : named method m ->
  (m = Exact -> exact_quad quad /\ 0 < tau) -> (i <= Z.to_nat steps)%nat ->
  let h := tau / IZR steps in let mean := fun k => excess m alpha sigma h (fun _ => 0) k in
  exists g, hw_value quad r0 alpha sigma tau steps sims anti method (fun x => s_discount x i) g
    /\ expected_n i g (exp (- r0 * (INR i * h)) * exp (total i (fun k => integral_weight m alpha sigma h i k ^ 2 / 2) - total i (fun l => h / 2 * (mean l + mean (S l))))).
Proof.
  intros N Q I h mean. destruct (named_scheme _ _ N) as [E O]. set (b := total i (fun l => h / 2 * (mean l + mean (S l)))). exists (fun w => exp (- (r0 * (INR i * h) + b + total i (fun k => integral_weight m alpha sigma h i k * w k)))). split.
  - intros normal seed x H. rewrite <- E in Q. destruct (simulate_discount _ _ _ _ _ _ _ _ _ _ _ _ H O Q) as (a & G & V). exists a. split; [exact G|]. intros j J. rewrite (V i j I J), E. fold h. cbv zeta. rewrite integral_weights. fold mean. unfold b, mean. do 2 f_equal. ring.
  - rewrite <- exp_plus. replace (- r0 * (INR i * h) + (total i (fun k => integral_weight m alpha sigma h i k ^ 2 / 2) - b)) with (- (r0 * (INR i * h) + b) + total i (fun k => (-1 * integral_weight m alpha sigma h i k) ^ 2 / 2)) by (rewrite (total_ext i (fun k => (-1 * integral_weight m alpha sigma h i k) ^ 2 / 2) (fun k => integral_weight m alpha sigma h i k ^ 2 / 2)) by (intros; field); ring).
    eapply expected_n_ext; [|apply expected_n_exp]. intros w. cbv beta. f_equal. rewrite (total_ext i (fun k => -1 * integral_weight m alpha sigma h i k * w k) (fun k => -1 * (integral_weight m alpha sigma h i k * w k))) by (intros; ring). rewrite total_scal. ring.
Qed.
(* at the first step of the Euler and Runge-Kutta schemes the expected discount factor exceeds that of the curve, by a factor exp(sigma^2 h^3 / 8) *)
Theorem C115_first_discount (quad : integrator) (r0 alpha sigma tau : R) (steps sims : Z) (anti : bool) (method : string) : (1 <= steps)%Z -> 0 < tau -> method = "euler"%string \/ method = "rk4"%string ->
  let h := tau / IZR steps in
  exists g m, hw_value quad r0 alpha sigma tau steps sims anti method (fun x => s_discount x 1%nat) g /\ expected_n 1 g m
    /\ m = exp (- r0 * h) * exp (sigma ^ 2 * h ^ 3 / 8) /\ (sigma <> 0 -> exp (- r0 * h) < m).
Proof.
  intros S1 T M h. assert (SP : 0 < IZR steps) by (apply IZR_lt; lia). assert (H : 0 < h) by (apply Rdiv_lt_0_compat; assumption). assert (W : exists m, named method m /\ (m = Euler \/ m = Rk4)) by (destruct M as [->| ->]; eexists; (split; [constructor|]); auto). destruct W as (m & N & C).
  destruct (C115_expected_discount quad r0 alpha sigma tau steps sims anti method m 1%nat N ltac:(destruct C as [->| ->]; discriminate) ltac:(lia)) as (g & G & E). fold h in E. exists g. eexists. split; [exact G|]. split; [exact E|].
  assert (Ez : exp (- r0 * (INR 1 * h)) * exp (total 1 (fun k => integral_weight m alpha sigma h 1 k ^ 2 / 2) - total 1 (fun l => h / 2 * (excess m alpha sigma h (fun _ => 0) l + excess m alpha sigma h (fun _ => 0) (S l)))) = exp (- r0 * h) * exp (sigma ^ 2 * h ^ 3 / 8)).
  { f_equal; [f_equal; cbn [INR]; ring|]. f_equal. rewrite !total_S, !total_0. unfold integral_weight, rate_weight, excess. rewrite !total_S, !total_0. cbn [Nat.ltb Nat.leb Nat.sub pow].
    assert (Nz : noise m alpha sigma h = sigma * sqrt h) by (destruct C as [->| ->]; reflexivity). assert (Dz : drift m alpha sigma h 0 = 0). { assert (rate_variance alpha sigma (INR 0 * h) = 0) as Rz by (unfold rate_variance; cbn [INR]; replace (-2 * alpha * (0 * h)) with 0 by ring; rewrite exp_0; ring). destruct C as [->| ->]; unfold drift; rewrite Rz; ring. }
    rewrite Nz, Dz. replace (h ^ 3) with (h * h * h) by ring. assert (Sh : sqrt h * sqrt h = h) by (apply sqrt_sqrt; lra). rewrite <- Sh at 7. field. }
  split; [exact Ez|]. intros Sg. rewrite Ez. rewrite <- (Rmult_1_r (exp (- r0 * h))) at 1. apply Rmult_lt_compat_l; [apply exp_pos|]. rewrite <- exp_0. apply exp_increasing. assert (0 < sigma ^ 2) by (apply pow2_gt_0; exact Sg). assert (0 < h ^ 3) by (apply pow_lt; exact H). nra.
Qed.

Definition all_theorems := (C112_black76, C112_bachelier, C112_garman_kohlhagen, C112_bond_option, C113_moments, C113_option, C113_garman_kohlhagen, C114_expected_spot, C115_expected_rate, C115_expected_discount, C115_first_discount).
Print Assumptions all_theorems.

(* ---- cases ---- *)
Example C112_ex : exists p, price76 100 1 1 105 (1/5) 0 1 = Fin p /\ expected (fun z => 1 * Rmax 0 (1 * ((100 + 0) * exp (1/5 * sqrt 1 * z - (1/5) ^ 2 * 1 / 2) - 0 - 105))) p.
Proof. apply C112_black76; try lra. left. reflexivity. Qed.
(* two steps with different drifts, volatilities and lengths *)
Example C113_ex : exists g, gbm_value 100 (fun i => INR i / 100) (fun i => 1/5 + INR i / 10) (fun i => 1 + INR i) 2 2 g /\ expected_n 2 g (100 * exp (1/50)).
Proof.
  destruct (C113_moments 100 (fun i => INR i / 100) (fun i => 1/5 + INR i / 10) (fun i => 1 + INR i) 2 2) as (g & G & E & _); [intros i _; pose proof (pos_INR i); lra|lia|]. exists g. split; [exact G|]. rewrite !total_S, total_0 in E. cbn [INR] in E. replace (0 + 0 / 100 * (1 + 0) + 1 / 100 * (1 + 1)) with (1/50) in E by lra. exact E.
Qed.
Example C113_ex_option : exists g p, gbm_value 100 (fun _ => 5/100 - 2/100) (fun _ => 1/5) (fun _ => 1/2) 2 2 g /\ price_gk 100 1 (5/100) (2/100) (-1) 95 (1/5) None = Fin p /\ expected_n 2 (fun w => exp (- (5/100) * 1) * Rmax 0 (-1 * (g w - 95))) p.
Proof. apply C113_garman_kohlhagen; try lra; [intros; lra|rewrite !total_S, total_0; lra|right; reflexivity]. Qed.
Example C115_ex : exists g m, hw_value ex_quad (1/50) (3/100) (1/50) 2 4 10 true "euler" (fun x => s_discount x 1%nat) g /\ expected_n 1 g m /\ exp (- (1/50) * (2 / 4)) < m.
Proof.
  destruct (C115_first_discount ex_quad (1/50) (3/100) (1/50) 2 4 10 true "euler" ltac:(lia) ltac:(lra) (or_introl eq_refl)) as (g & m & G & E & _ & L). exists g, m. split; [exact G|]. split; [exact E|]. apply L. lra.
Qed.
(* and such a simulation returns *)
Example C115_ex_returns : exists x, hw_simulate ex_normals ex_quad (1/50) (3/100) (1/50) 2 4 10 true 7 "euler" = Ok x.
Proof. apply (C108_returns ex_normals ex_quad (1/50) (3/100) (1/50) 2 4 10 true 7 "euler"); [unfold drawable; lia|lra|]. right. left. reflexivity. Qed.
Example C114_ex : exists g m, expected_n 8 g m /\ 102 < m
  /\ (forall normal : normals, exists x, cs_simulate normal (fun t => if Rle_dec t 2 then Ok (100 + t) else Err ValueError) 10 4 2 1 (1/5) = Ok x /\ me x 2%nat 0%nat = Fin (g (fun k => normal 0%Z (8%nat, 1%nat, 10%nat) k 0%nat 0%nat))).
Proof.
  assert (Cu : curve_on (fun t => if Rle_dec t 2 then Ok (100 + t) else Err ValueError) (fun i => 100 + INR i / 4) 4 (2 * 4)).
  { intros i I. assert (B : 0 <= INR i <= 8) by (split; [apply pos_INR|]; replace 8 with (INR 8) by (cbn; lra); apply le_INR; lia). assert (F4 : INR 4 = 4) by (cbn; lra). rewrite F4. destruct (Rle_dec (INR i / 4) 2) as [_|N]; [|exfalso; apply N; lra]. split; [reflexivity|lra]. }
  destruct (C114_expected_spot _ 10 4 2 10 1 (1/5) _ 2 0 C66_ex C66_ex_chunk Cu ltac:(lia) ltac:(lia)) as (g & m & V & E & _ & _ & L & _). exists g, m. split; [exact E|]. split; [|exact V]. specialize (L ltac:(cbn; lia) ltac:(lra) ltac:(lra) ltac:(cbn; lra)). cbn in L. lra.
Qed.
