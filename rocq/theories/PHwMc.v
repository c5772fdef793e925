(* C144, C145: the Monte-Carlo bond option of the Hull-White simulation, and the simulation as the number of steps grows *)
From Coq Require Import ZArith String Reals Lra Lia List.
From Coquelicot Require Import Coquelicot.
From Verif Require Import Base NormalModel NormalProofs BsProofs BlackModel BlackSpec BlackProofs MonteModel MonteSpec MonteProofs HwModel HwSpec HwProofs HwSimProofs MeanSpec MeanProofs PathMeanProofs CsMeanProofs HwMeanProofs HwMcModel HwMcSpec HwMcProofs HwLimProofs PHwSim.
Import ListNotations.
Open Scope R_scope.

(* C144 *)
(* the expected value of the discounted payoff is a Black-76 price, on a forward bond price and a volatility that follow from the mean and variance of the simulated rate *)
Theorem C144_curve_discounted (quad : integrator) (theta df : R -> R) (r0 alpha sigma T S K cp : R) (steps sims : Z) (anti : bool) (method : string) (m : scheme) : named method m -> exact_quad quad -> mean_reverting alpha -> sigma <> 0 -> 0 < T -> T < S -> 0 < K -> call_or_put cp -> (1 <= steps)%Z ->
  fitted r0 alpha sigma T S theta ->
  let h := T / IZR steps in let n := Z.to_nat steps in let mean := sim_mean m r0 alpha sigma h n in let variance := sim_variance m alpha sigma h n in let b := calc_b alpha T S in
  exists g p, path_values quad r0 alpha sigma T steps sims anti method (fun x => calculate_zcbo_payoff quad (Some theta) df r0 alpha sigma (final_rates x) T S K cp) g /\ expected_n n g p
    /\ price76 (exp (- r0 * (S - T)) * exp (b * (r0 - mean) - b ^ 2 * (rate_variance alpha sigma T - variance) / 2)) 1 cp K (b * sqrt variance) 0 (df T) = Fin p.
Proof.
  intros N Q A Sg HT L HK W HS Th h n mean variance b. pose proof (V_pos alpha sigma T steps method m N A Sg HT HS) as V. fold h n in V. fold variance in V. pose proof (b_pos alpha T S L) as B. fold b in B. pose proof (sqrt_lt_R0 _ V) as SV.
  pose proof (payoff_mean r0 alpha sigma T S K cp steps method m N A Sg HT L HK W HS) as PM.
  do 2 eexists. split; [apply (curve_values quad theta r0 alpha sigma T S K cp steps sims anti method m N Q A HT L Th df)|]. split.
  - eapply expected_n_ext; [|exact (expected_n_scal n _ _ (df T) PM)]. intros w. cbv beta. apply Rmult_comm.
  - fold h n. fold mean variance b. pose proof (model_forward_pos r0 alpha sigma T S mean variance) as Fp. assert (Vp : b * sqrt variance * sqrt 1 <> 0) by (rewrite sqrt_1, Rmult_1_r; apply Rgt_not_eq, Rmult_lt_0_compat; assumption).
    unfold model_forward in Fp |- *. fold b in Fp |- *. rewrite price76_fin by (lra || exact Vp). rewrite sqrt_1, !Rplus_0_r, Rmult_1_r. reflexivity.
Qed.
(* on the flat curve the exact scheme gives the volatility of the closed formula, but on average it prices every call below and every put above it: the simulated rate has the mean of the risk-neutral measure, while discounting with the curve needs the forward measure *)
Lemma flat_forward (df : R -> R) r0 T S : (forall t, df t = exp (- r0 * t)) -> df S / df T = exp (- r0 * (S - T)).
Proof. intros F. rewrite !F. unfold Rdiv. rewrite <- exp_Ropp, <- exp_plus. f_equal. ring. Qed.
Lemma steps_n T steps : 0 < T -> (1 <= steps)%Z -> INR (Z.to_nat steps) * (T / IZR steps) = T.
Proof. intros HT HS. rewrite INR_IZR_INZ, Z2Nat.id by lia. assert (0 < IZR steps) by (apply IZR_lt; lia). field. lra. Qed.
Theorem C144_exact_scheme_is_biased (quad : integrator) (theta df : R -> R) (r0 alpha sigma T S K cp : R) (steps sims : Z) (anti : bool) : exact_quad quad -> mean_reverting alpha -> 0 < sigma -> 0 < T -> T < S -> 0 < K -> call_or_put cp -> (1 <= steps)%Z ->
  fitted r0 alpha sigma T S theta -> (forall t, df t = exp (- r0 * t)) ->
  exists g p q, path_values quad r0 alpha sigma T steps sims anti "exact" (fun x => calculate_zcbo_payoff quad (Some theta) df r0 alpha sigma (final_rates x) T S K cp) g /\ expected_n (Z.to_nat steps) g p
    /\ zcbo df alpha sigma [T] [S] [K] [cp] 0 = Ok [Fin q] /\ (cp = 1 -> p < q) /\ (cp = -1 -> q < p).
Proof.
  intros Q A Sg HT L HK W HS Th F. pose proof (small_pos _ A) as Ap. assert (Sn : sigma <> 0) by lra. destruct (C144_curve_discounted quad theta df r0 alpha sigma T S K cp steps sims anti "exact" Exact named_exact Q A Sn HT L HK W HS Th) as (g & p & G & E & P).
  set (h := T / IZR steps) in *. set (n := Z.to_nat steps) in *. assert (Hh : 0 < h) by (apply Rdiv_lt_0_compat; [exact HT|apply IZR_lt; lia]). assert (D : forall t, 0 < df t) by (intros t; rewrite F; apply exp_pos).
  exists g, p. eexists. split; [exact G|]. split; [exact E|]. split; [rewrite zcbo_single, zcbo_elem_fin by auto; reflexivity|].
  rewrite (exact_sim_variance alpha sigma h n Ap ltac:(lra)) in P. assert (Nh : INR n * h = T) by (apply steps_n; assumption). rewrite Nh in P. rewrite sdev_variance in P by assumption. pose proof (sdev_pos alpha sigma T S Ap Sg HT L) as V. set (v := sdev alpha sigma T S) in *.
  pose proof (exact_mean_above r0 alpha sigma h n Ap Sn Hh ltac:(unfold n; lia)) as M. set (mean := sim_mean Exact r0 alpha sigma h n) in *. pose proof (b_pos alpha T S L) as B. set (b := calc_b alpha T S) in *. rewrite (flat_forward df r0 T S F). set (f := exp (- r0 * (S - T))) in *. assert (Fp : 0 < f) by apply exp_pos.
  replace (b * (r0 - mean) - b ^ 2 * (rate_variance alpha sigma T - rate_variance alpha sigma T) / 2) with (b * (r0 - mean)) in P by field. assert (X : exp (b * (r0 - mean)) < 1) by (rewrite <- exp_0; apply exp_increasing; nra). pose proof (exp_pos (b * (r0 - mean))) as Xp.
  assert (Fl : 0 < f * exp (b * (r0 - mean))) by (apply Rmult_lt_0_compat; assumption). rewrite price76_fin in P by (try lra; rewrite sqrt_1; lra). rewrite sqrt_1, !Rplus_0_r, Rmult_1_r in P. injection P as P.
  pose proof (blk_forward cp _ f K v W Fl ltac:(nra) HK V) as Lt. specialize (D T). split; intros ->; rewrite <- P; apply Rmult_lt_compat_l; lra.
Qed.
(* bond prices from the curve, payoffs left undiscounted *)
Theorem C144_undiscounted (quad : integrator) (df fwd : R -> R) (r0 alpha sigma T S K cp : R) (steps sims : Z) (anti : bool) (method : string) (m : scheme) : named method m -> exact_quad quad -> mean_reverting alpha -> sigma <> 0 -> 0 < T -> T < S -> 0 < K -> call_or_put cp -> (1 <= steps)%Z ->
  0 < df T -> 0 < df S ->
  let h := T / IZR steps in let n := Z.to_nat steps in let mean := sim_mean m r0 alpha sigma h n in let variance := sim_variance m alpha sigma h n in let b := calc_b alpha T S in
  exists g p, path_values quad r0 alpha sigma T steps sims anti method (fun x => undiscounted_payoffs df fwd r0 alpha sigma (final_rates x) T S K cp) g /\ expected_n n g p
    /\ price76 (df S / df T * exp (b * (fwd T - mean) - b ^ 2 * (rate_variance alpha sigma T - variance) / 2)) 1 cp K (b * sqrt variance) 0 1 = Fin p.
Proof.
  intros N Q A Sg HT L HK W HS PT PS h n mean variance b. pose proof (small_pos _ A) as Ap. pose proof (V_pos alpha sigma T steps method m N A Sg HT HS) as V. fold h n in V. fold variance in V. pose proof (b_pos alpha T S L) as B. fold b in B. pose proof (sqrt_lt_R0 _ V) as SV.
  set (f := df S / df T). assert (Fp : 0 < f) by (apply Rdiv_lt_0_compat; assumption). set (a := f * exp (b * fwd T - b ^ 2 * rate_variance alpha sigma T / 2)). assert (Pa : 0 < a) by (apply Rmult_lt_0_compat; [exact Fp|apply exp_pos]).
  exists (fun w => Rmax (cp * (a * exp (- b * rate_of r0 alpha sigma T steps m w) - K)) 0). eexists. split; [|split].
  - intros normal seed x H. destruct (final_run quad r0 alpha sigma T steps sims anti method m N Q HT normal seed x H) as (z & G & Fr & _). exists z. split; [exact G|]. unfold undiscounted_payoffs. rewrite Fr.
    rewrite (sequence_map _ (fun r => a * exp (- b * r))). { cbn [bind]. rewrite !map_map. reflexivity. }
    intros r. rewrite (ode_2_closed df fwd r0 alpha sigma T S (Some r) r); [|lra|exact L|lra|unfold short_rate, eqb; destruct Req_EM_T; [lra|reflexivity]]. f_equal. unfold a. fold f b. rewrite (Rmult_assoc f), <- exp_plus. do 2 f_equal. unfold rate_variance. field. lra.
  - apply (affine_payoff n cp a b K mean (fun k => rate_weight m alpha sigma h n k) W Pa B HK V).
  - assert (Vp : b * sqrt variance * sqrt 1 <> 0) by (rewrite sqrt_1, Rmult_1_r; apply Rgt_not_eq, Rmult_lt_0_compat; assumption). assert (X : 0 < f * exp (b * (fwd T - mean) - b ^ 2 * (rate_variance alpha sigma T - variance) / 2)) by (apply Rmult_lt_0_compat; [exact Fp|apply exp_pos]).
    rewrite price76_fin by (lra || exact Vp). rewrite sqrt_1, !Rplus_0_r, Rmult_1_l, Rmult_1_r. do 2 f_equal. unfold a. fold variance. rewrite Rmult_assoc, <- exp_plus. do 2 f_equal. unfold variance, sim_variance. field.
Qed.
(* discounted along the paths instead: the covariance of the rate and its integral moves the forward bond price *)
Theorem C144_path_discounted (quad : integrator) (theta : R -> R) (r0 alpha sigma T S K cp : R) (steps sims : Z) (anti : bool) (method : string) (m : scheme) : named method m -> exact_quad quad -> mean_reverting alpha -> sigma <> 0 -> 0 < T -> T < S -> 0 < K -> call_or_put cp -> (1 <= steps)%Z ->
  fitted r0 alpha sigma T S theta ->
  let h := T / IZR steps in let n := Z.to_nat steps in let mean := sim_mean m r0 alpha sigma h n in let variance := sim_variance m alpha sigma h n in let b := calc_b alpha T S in
  exists g p, path_values quad r0 alpha sigma T steps sims anti method (discounted_on_path quad (Some theta) r0 alpha sigma T S K cp) g /\ expected_n n g p
    /\ price76 (exp (- r0 * (S - T)) * exp (b * (r0 - (mean - sim_covariance m alpha sigma h n)) - b ^ 2 * (rate_variance alpha sigma T - variance) / 2)) 1 cp K (b * sqrt variance) 0 (exp (sim_log_discount m r0 alpha sigma h n)) = Fin p.
Proof.
  intros N Q A Sg HT L HK W HS Th h n mean variance b. pose proof (V_pos alpha sigma T steps method m N A Sg HT HS) as V. fold h n in V. fold variance in V. pose proof (b_pos alpha T S L) as B. fold b in B. pose proof (sqrt_lt_R0 _ V) as SV.
  pose proof (discounted_mean r0 alpha sigma T S K cp steps method m N A Sg HT L HK W HS) as DM. fold h n in DM. fold mean variance b in DM.
  do 2 eexists. split; [apply (path_discounted quad theta r0 alpha sigma T S K cp steps sims anti method m N Q A HT L Th)|]. split; [exact DM|].
  pose proof (model_forward_pos r0 alpha sigma T S (mean - sim_covariance m alpha sigma h n) variance) as Fp. assert (Vp : b * sqrt variance * sqrt 1 <> 0) by (rewrite sqrt_1, Rmult_1_r; apply Rgt_not_eq, Rmult_lt_0_compat; assumption).
  unfold model_forward in Fp |- *. fold b in Fp |- *. rewrite price76_fin by (lra || exact Vp). rewrite sqrt_1, !Rplus_0_r, Rmult_1_r. reflexivity.
Qed.
(* calls and puts on the same paths *)
Theorem C144_parity (quad : integrator) (theta : option (R -> R)) (df : R -> R) (r0 alpha sigma : R) (rates : list R) (T S K : R) (calls puts : list R) : rates <> [] ->
  calculate_zcbo_payoff quad theta df r0 alpha sigma rates T S K 1 = Ok calls -> calculate_zcbo_payoff quad theta df r0 alpha sigma rates T S K (-1) = Ok puts ->
  exists prices, Forall2 (fun r p => ode_1 quad theta r0 alpha sigma T S (Some r) = Ok p) rates prices /\ mc_price calls - mc_price puts = df T * (mc_price prices - K).
Proof.
  intros Ne Hc Hp. unfold calculate_zcbo_payoff in Hc, Hp. destruct (sequence (map (fun r => ode_1 quad theta r0 alpha sigma T S (Some r)) rates)) as [prices|] eqn:E; [|discriminate]. cbn [bind] in Hc, Hp. injection Hc as <-. injection Hp as <-. apply sequence_ok in E. exists prices. split.
  - clear Ne. revert prices E. induction rates as [|r rs IH]; intros [|p ps] E; try discriminate; constructor; cbn [map] in E; injection E; auto.
  - assert (Ln : List.length prices = List.length rates) by (rewrite <- (map_length Ok prices), <- E; apply map_length). assert (Nz : (0 < List.length prices)%nat) by (destruct rates; [contradiction|cbn in *; lia]). clear E Ln Ne. unfold mc_price, present_values. rewrite !map_length. apply lt_0_INR in Nz.
    assert (X : forall l : list R, fold_right Rplus 0 (map (fun p => Rmax (1 * (p - K)) 0 * df T) l) - fold_right Rplus 0 (map (fun p => Rmax (-1 * (p - K)) 0 * df T) l) = df T * (fold_right Rplus 0 l - INR (List.length l) * K)).
    { induction l as [|p l IH]; [cbn; ring|]. cbn [map fold_right List.length]. rewrite S_INR. replace (df T * (p + fold_right Rplus 0 l - (INR (List.length l) + 1) * K)) with (df T * (p - K) + df T * (fold_right Rplus 0 l - INR (List.length l) * K)) by ring. rewrite <- IH.
      assert (Y : Rmax (1 * (p - K)) 0 - Rmax (-1 * (p - K)) 0 = p - K) by (unfold Rmax; destruct (Rle_dec (1 * (p - K)) 0), (Rle_dec (-1 * (p - K)) 0); lra). apply Rmult_eq_compat_l with (r := df T) in Y. rewrite Rmult_minus_distr_l in Y. lra. }
    replace (df T * (fold_right Rplus 0 prices / INR (List.length prices) - K)) with (df T * (fold_right Rplus 0 prices - INR (List.length prices) * K) / INR (List.length prices)) by (field; lra). rewrite <- X. field. lra.
Qed.
(* the call of examples/hw1f.py names parameters the method does not have *)
Theorem C144_script_keywords (df fwd : R -> R) (r0 alpha sigma : R) (rates : list R) (T S K cp : R) : script_present_values df fwd r0 alpha sigma rates T S K cp = Err TypeError.
Proof. reflexivity. Qed.

(* C145 *)
Section Limit.
  Variables (T : R) (HT : 0 < T).
  Lemma of_nat_step n : T / IZR (Z.of_nat n) = T / INR n. Proof. rewrite INR_IZR_INZ. reflexivity. Qed.
End Limit.
(* mean, variance and expected discount factor of the simulation tend to those of the model fitted to the flat curve r0 *)
Theorem C145_moments (quad : integrator) (r0 alpha sigma T : R) (sims : Z) (anti : bool) (method : string) (m : scheme) : named method m -> exact_quad quad -> 0 < alpha -> 0 < T ->
  exists mean variance discount : nat -> R,
    (forall n, (1 <= n)%nat -> exists g d, hw_value quad r0 alpha sigma T (Z.of_nat n) sims anti method (fun x => s_rate x n) g /\ expected_n n g (mean n) /\ expected_n n (fun w => (g w - mean n) ^ 2) (variance n)
       /\ hw_value quad r0 alpha sigma T (Z.of_nat n) sims anti method (fun x => s_discount x n) d /\ expected_n n d (discount n))
    /\ is_lim_seq mean (mean_rate r0 alpha sigma T) /\ is_lim_seq variance (rate_variance alpha sigma T) /\ is_lim_seq discount (exp (- r0 * T)).
Proof.
  intros N Q A HT. exists (fun n => sim_mean m r0 alpha sigma (T / INR n) n), (fun n => sim_variance m alpha sigma (T / INR n) n), (fun n => exp (sim_log_discount m r0 alpha sigma (T / INR n) n)). split; [|split; [|split]].
  - intros n L. exists (rate_of r0 alpha sigma T (Z.of_nat n) m), (discount_of r0 alpha sigma T (Z.of_nat n) m). split; [|split; [|split; [|split]]].
    + intros normal seed x H. destruct (final_run quad r0 alpha sigma T (Z.of_nat n) sims anti method m N Q HT normal seed x H) as (a & G & Fr & _). destruct (simulate_inv _ _ _ _ _ _ _ _ _ _ _ _ H) as (_ & _ & _ & Sn & Ss & _). exists a. split; [exact G|]. intros j J. unfold final_rates in Fr. rewrite Sn, Ss, Nat2Z.id in Fr.
      pose proof (f_equal (fun l => nth_error l j) Fr) as E. cbv beta in E. rewrite !nth_error_map in E. rewrite (nth_error_nth' (seq 0 (Z.to_nat sims)) O) in E by (rewrite seq_length; exact J). rewrite seq_nth in E by exact J. cbn in E. injection E as E. exact E.
    + unfold rate_of. rewrite of_nat_step, Nat2Z.id. apply expected_n_linear.
    + unfold rate_of. rewrite of_nat_step, Nat2Z.id. unfold sim_variance. rewrite <- (Rplus_0_l (total n _)). replace 0 with (0 ^ 2) at 1 by ring. eapply expected_n_ext; [|apply expected_n_square]. intros w. cbv beta. f_equal. ring.
    + intros normal seed x H. destruct (final_run quad r0 alpha sigma T (Z.of_nat n) sims anti method m N Q HT normal seed x H) as (a & G & _ & Fd). destruct (simulate_inv _ _ _ _ _ _ _ _ _ _ _ _ H) as (_ & _ & _ & Sn & Ss & _). exists a. split; [exact G|]. intros j J. unfold final_discounts in Fd. rewrite Sn, Ss, Nat2Z.id in Fd.
      pose proof (f_equal (fun l => nth_error l j) Fd) as E. cbv beta in E. rewrite !nth_error_map in E. rewrite (nth_error_nth' (seq 0 (Z.to_nat sims)) O) in E by (rewrite seq_length; exact J). rewrite seq_nth in E by exact J. cbn in E. injection E as E. exact E.
    + unfold discount_of. rewrite of_nat_step, Nat2Z.id. set (e := total n (fun l => T / INR n / 2 * (excess m alpha sigma (T / INR n) (fun _ => 0) l + excess m alpha sigma (T / INR n) (fun _ => 0) (S l)))).
      replace (sim_log_discount m r0 alpha sigma (T / INR n) n) with (- (r0 * (INR n * (T / INR n)) + e) + total n (fun k => (- integral_weight m alpha sigma (T / INR n) n k) ^ 2 / 2)).
      2: { unfold sim_log_discount. fold e. rewrite (total_ext n (fun k => (- integral_weight m alpha sigma (T / INR n) n k) ^ 2 / 2) (fun k => integral_weight m alpha sigma (T / INR n) n k ^ 2 / 2)) by (intros; field). ring. }
      eapply expected_n_ext; [|apply expected_n_exp]. intros w. cbv beta. f_equal. rewrite (total_ext n (fun i => - integral_weight m alpha sigma (T / INR n) n i * w i) (fun i => -1 * (integral_weight m alpha sigma (T / INR n) n i * w i))) by (intros; ring). rewrite total_scal. ring.
  - exact (mean_lim T alpha sigma HT A method m N r0).
  - exact (variance_lim T alpha sigma HT A method m N).
  - apply lim_exp. exact (discount_lim T alpha sigma HT A method m N r0).
Qed.
(* payoffs discounted along their paths price the option on the flat curve *)
Theorem C145_path_discounted (quad : integrator) (theta df : R -> R) (r0 alpha sigma T S K cp : R) (sims : Z) (anti : bool) (method : string) (m : scheme) : named method m -> exact_quad quad -> mean_reverting alpha -> 0 < sigma -> 0 < T -> T < S -> 0 < K -> call_or_put cp ->
  fitted r0 alpha sigma T S theta -> (forall t, df t = exp (- r0 * t)) ->
  exists (p : nat -> R) (q : R),
    (forall n, (1 <= n)%nat -> exists g, path_values quad r0 alpha sigma T (Z.of_nat n) sims anti method (discounted_on_path quad (Some theta) r0 alpha sigma T S K cp) g /\ expected_n n g (p n))
    /\ zcbo df alpha sigma [T] [S] [K] [cp] 0 = Ok [Fin q] /\ is_lim_seq p q.
Proof.
  intros N Q A Sg HT L HK W Th F. pose proof (small_pos _ A) as Ap. assert (Sn : sigma <> 0) by lra. assert (D : forall t, 0 < df t) by (intros t; rewrite F; apply exp_pos). pose proof (b_pos alpha T S L) as B.
  exists (fun n => exp (sim_log_discount m r0 alpha sigma (T / INR n) n) * blk cp (model_forward r0 alpha sigma T S (sim_mean m r0 alpha sigma (T / INR n) n - sim_covariance m alpha sigma (T / INR n) n) (sim_variance m alpha sigma (T / INR n) n)) K (calc_b alpha T S * sqrt (sim_variance m alpha sigma (T / INR n) n))). eexists. split; [|split].
  - intros n Ln. pose proof (discounted_mean r0 alpha sigma T S K cp (Z.of_nat n) method m N A Sn HT L HK W ltac:(lia)) as DM. rewrite of_nat_step, Nat2Z.id in DM. eexists. split; [apply (path_discounted quad theta r0 alpha sigma T S K cp (Z.of_nat n) sims anti method m N Q A HT L Th)|exact DM].
  - rewrite zcbo_single, zcbo_elem_fin by auto. reflexivity.
  - pose proof (rate_variance_pos alpha sigma T Ap Sn HT) as Vp. pose proof (sqrt_lt_R0 _ Vp) as Vs. apply is_lim_seq_mult'; [rewrite F; apply lim_exp; exact (discount_lim T alpha sigma HT Ap method m N r0)|].
    replace (df S / df T) with (model_forward r0 alpha sigma T S (mean_rate r0 alpha sigma T - sigma ^ 2 / (2 * alpha ^ 2) * (1 - exp (- alpha * T)) ^ 2) (rate_variance alpha sigma T)).
    2: { rewrite (flat_forward df r0 T S F). unfold model_forward, mean_rate. rewrite <- exp_plus. f_equal. field. lra. }
    rewrite <- sdev_variance by assumption. apply lim_blk; [apply model_forward_pos|exact HK|apply Rmult_lt_0_compat; assumption| |].
    + apply lim_model_forward; [|exact (variance_lim T alpha sigma HT Ap method m N)]. apply is_lim_seq_minus'; [exact (mean_lim T alpha sigma HT Ap method m N r0)|exact (covariance_lim T alpha sigma HT Ap method m N)].
    + apply is_lim_seq_mult'; [apply is_lim_seq_const|]. apply lim_sqrt; [exact Vp|exact (variance_lim T alpha sigma HT Ap method m N)].
Qed.
(* payoffs discounted with the curve tend to something else: too little for calls, too much for puts *)
Theorem C145_curve_discounted (quad : integrator) (theta df : R -> R) (r0 alpha sigma T S K cp : R) (sims : Z) (anti : bool) (method : string) (m : scheme) : named method m -> exact_quad quad -> mean_reverting alpha -> 0 < sigma -> 0 < T -> T < S -> 0 < K -> call_or_put cp ->
  fitted r0 alpha sigma T S theta -> (forall t, df t = exp (- r0 * t)) ->
  exists (p : nat -> R) (l q : R),
    (forall n, (1 <= n)%nat -> exists g, path_values quad r0 alpha sigma T (Z.of_nat n) sims anti method (fun x => calculate_zcbo_payoff quad (Some theta) df r0 alpha sigma (final_rates x) T S K cp) g /\ expected_n n g (p n))
    /\ is_lim_seq p l /\ zcbo df alpha sigma [T] [S] [K] [cp] 0 = Ok [Fin q] /\ (cp = 1 -> l < q) /\ (cp = -1 -> q < l).
Proof.
  intros N Q A Sg HT L HK W Th F. pose proof (small_pos _ A) as Ap. assert (Sn : sigma <> 0) by lra. assert (D : forall t, 0 < df t) by (intros t; rewrite F; apply exp_pos). pose proof (b_pos alpha T S L) as B. pose proof (rate_variance_pos alpha sigma T Ap Sn HT) as Vp. pose proof (sqrt_lt_R0 _ Vp) as Vs.
  exists (fun n => df T * blk cp (model_forward r0 alpha sigma T S (sim_mean m r0 alpha sigma (T / INR n) n) (sim_variance m alpha sigma (T / INR n) n)) K (calc_b alpha T S * sqrt (sim_variance m alpha sigma (T / INR n) n))). do 2 eexists. split; [|split; [|split]].
  - intros n Ln. pose proof (payoff_mean r0 alpha sigma T S K cp (Z.of_nat n) method m N A Sn HT L HK W ltac:(lia)) as DM. rewrite of_nat_step, Nat2Z.id in DM. eexists. split; [apply (curve_values quad theta r0 alpha sigma T S K cp (Z.of_nat n) sims anti method m N Q A HT L Th df)|].
    eapply expected_n_ext; [|exact (expected_n_scal n _ _ (df T) DM)]. intros w. cbv beta. apply Rmult_comm.
  - apply is_lim_seq_mult'; [apply is_lim_seq_const|]. apply lim_blk; [apply (model_forward_pos r0 alpha sigma T S (mean_rate r0 alpha sigma T) (rate_variance alpha sigma T))|exact HK|apply (Rmult_lt_0_compat _ _ B Vs)| |].
    + apply lim_model_forward; [exact (mean_lim T alpha sigma HT Ap method m N r0)|exact (variance_lim T alpha sigma HT Ap method m N)].
    + apply is_lim_seq_mult'; [apply is_lim_seq_const|]. apply lim_sqrt; [exact Vp|exact (variance_lim T alpha sigma HT Ap method m N)].
  - rewrite zcbo_single, zcbo_elem_fin by auto. reflexivity.
  - rewrite sdev_variance by assumption. pose proof (sdev_pos alpha sigma T S Ap Sg HT L) as V. rewrite (flat_forward df r0 T S F). pose proof (model_forward_pos r0 alpha sigma T S (mean_rate r0 alpha sigma T) (rate_variance alpha sigma T)) as Fp.
    assert (Lt : model_forward r0 alpha sigma T S (mean_rate r0 alpha sigma T) (rate_variance alpha sigma T) < exp (- r0 * (S - T))).
    { unfold model_forward. replace (calc_b alpha T S * (r0 - mean_rate r0 alpha sigma T) - calc_b alpha T S ^ 2 * (rate_variance alpha sigma T - rate_variance alpha sigma T) / 2) with (- (calc_b alpha T S * (mean_rate r0 alpha sigma T - r0))) by field. rewrite <- (Rmult_1_r (exp (- r0 * (S - T)))) at 2. apply Rmult_lt_compat_l; [apply exp_pos|]. rewrite <- exp_0. apply exp_increasing.
      assert (0 < mean_rate r0 alpha sigma T - r0); [|assert (0 < calc_b alpha T S * (mean_rate r0 alpha sigma T - r0)) by (apply Rmult_lt_0_compat; assumption); lra]. unfold mean_rate. replace (r0 + sigma ^ 2 / (2 * alpha ^ 2) * (1 - exp (- alpha * T)) ^ 2 - r0) with (sigma ^ 2 / (2 * alpha ^ 2) * (1 - exp (- alpha * T)) ^ 2) by ring.
      apply Rmult_lt_0_compat; [apply Rdiv_lt_0_compat; nra|]. apply pow2_gt_0. assert (exp (- alpha * T) < 1) by (rewrite <- exp_0; apply exp_increasing; nra). lra. }
    pose proof (blk_forward cp _ _ K _ W Fp Lt HK V) as X. specialize (D T). split; intros ->; apply Rmult_lt_compat_l; lra.
Qed.

(* C146 *)
(* simulate_hw1f of examples/hw1f.py: both branches have the mean of Euler's scheme; the Milstein term, which vanishes for a constant volatility, adds variance instead *)
Theorem C146_moments (a sigma theta r0 T : R) (n : nat) (method : string) : a <> 0 -> 0 < T -> (1 <= n)%nat ->
  let dt := T / INR n in let q := 1 - a * dt in let mean := theta / a + q ^ n * (r0 - theta / a) in let euler := sigma ^ 2 * dt * total n (fun k => q ^ (2 * k)) in
  expected_n n (fun w => example_rate a sigma theta r0 dt method w n) mean
  /\ expected_n n (fun w => (example_rate a sigma theta r0 dt method w n - mean) ^ 2) (if String.eqb method "euler" then euler else euler * (1 + sigma ^ 2 * dt / 2))
  /\ (sigma <> 0 -> euler < euler * (1 + sigma ^ 2 * dt / 2)).
Proof.
  intros A HT L dt q mean euler. assert (Hd : 0 < dt) by (apply Rdiv_lt_0_compat; [exact HT|apply lt_0_INR; lia]). assert (P : forall w, example_rate a sigma theta r0 dt method w n = mean + total n (fun k => q ^ (n - 1 - k) * shock sigma dt method (w k))) by (intros w; apply example_path; exact A).
  assert (Tn : 1 <= total n (fun k => q ^ (2 * k))). { destruct n as [|n']; [lia|]. rewrite total_shift. replace (q ^ (2 * 0)) with 1 by reflexivity. enough (0 <= total n' (fun i => q ^ (2 * Datatypes.S i))) by lra. apply total_nonneg. intros i _. rewrite pow_mult. apply pow_le, pow2_ge_0. }
  split; [|split].
  - eapply expected_n_ext; [|apply (shock_mean _ (shock_expected sigma dt method ltac:(lra)) n mean (fun k => q ^ (n - 1 - k)))]. intros w. symmetry. apply P.
  - replace (if String.eqb method "euler" then euler else euler * (1 + sigma ^ 2 * dt / 2)) with (0 ^ 2 + (sigma ^ 2 * dt + (if String.eqb method "euler" then 0 else sigma ^ 4 * dt ^ 2 / 2)) * total n (fun k => (q ^ (n - 1 - k)) ^ 2)).
    + eapply expected_n_ext; [|apply (shock_square _ _ (shock_expected sigma dt method ltac:(lra)) (shock_variance sigma dt method ltac:(lra)) n 0 (fun k => q ^ (n - 1 - k)))]. intros w. cbv beta. rewrite P. f_equal. ring.
    + rewrite (total_ext n (fun k => (q ^ (n - 1 - k)) ^ 2) (fun k => q ^ (2 * (n - 1 - k)))) by (intros k K; rewrite <- pow_mult; f_equal; lia). unfold euler. rewrite <- (total_rev n (fun k => q ^ (2 * k))). destruct (String.eqb method "euler"); field.
  - intros Sn. assert (0 < sigma ^ 2) by (apply pow2_gt_0; exact Sn). assert (0 < sigma ^ 2 * dt) by (apply Rmult_lt_0_compat; assumption). assert (0 < euler) by (apply Rmult_lt_0_compat; lra). nra.
Qed.
(* either way the terminal rate has the moments of the mean-reverting diffusion dr = (theta - a r) dt + sigma dW in the limit *)
Theorem C146_limit (a sigma theta r0 T : R) (method : string) : 0 < a -> 0 < T ->
  exists mean variance : nat -> R,
    (forall n, (1 <= n)%nat -> expected_n n (fun w => example_rate a sigma theta r0 (T / INR n) method w n) (mean n) /\ expected_n n (fun w => (example_rate a sigma theta r0 (T / INR n) method w n - mean n) ^ 2) (variance n))
    /\ is_lim_seq mean (theta / a + exp (- a * T) * (r0 - theta / a)) /\ is_lim_seq variance (sigma ^ 2 / (2 * a) * (1 - exp (-2 * a * T))).
Proof.
  intros A HT. eexists. eexists. split; [|split].
  - intros n L. destruct (C146_moments a sigma theta r0 T n method ltac:(lra) HT L) as (M & V & _). split; [exact M|exact V].
  - cbv beta. apply is_lim_seq_plus'; [apply is_lim_seq_const|]. apply is_lim_seq_mult'; [|apply is_lim_seq_const]. pose proof (power_d T a "euler" Euler named_euler) as X. cbv beta in X. cbn [decay] in X. exact X.
  - cbv beta. pose proof (variance_lim T a sigma HT A "euler" Euler named_euler) as X. cbv beta in X.
    assert (Y : is_lim_seq (fun n => sigma ^ 2 * (T / INR n) * total n (fun k => (1 - a * (T / INR n)) ^ (2 * k))) (sigma ^ 2 / (2 * a) * (1 - exp (-2 * a * T)))).
    { eapply lim_val; [|reflexivity]. eapply is_lim_seq_ext_loc; [|exact X]. exists 1%nat. intros n L. assert (Hd : 0 < T / INR n) by (apply Rdiv_lt_0_compat; [exact HT|apply lt_0_INR; lia]). unfold sim_variance, rate_weight. cbn [decay noise]. rewrite <- (total_rev n (fun k => (1 - a * (T / INR n)) ^ (2 * k))), <- total_scal. apply total_ext. intros k K. destruct (Nat.ltb_spec k n); [|lia].
      assert (Sq : sqrt (T / INR n) ^ 2 = T / INR n) by (rewrite <- (Rsqr_pow2 (sqrt _)); apply Rsqr_sqrt; lra). rewrite !Rpow_mult_distr, Sq, <- pow_mult. replace ((n - 1 - k) * 2)%nat with (2 * (n - 1 - k))%nat by lia. ring. }
    destruct (String.eqb method "euler"); [exact Y|]. pose proof (step_lim T) as Z. eapply lim_val; [apply is_lim_seq_mult'; [exact Y|]; apply is_lim_seq_plus'; [apply is_lim_seq_const|]; apply is_lim_seq_mult'; [apply is_lim_seq_mult'; [apply is_lim_seq_const|exact Z]|apply is_lim_seq_const]|]. field. lra.
Qed.

Definition all_theorems := (C144_curve_discounted, C144_exact_scheme_is_biased, C144_undiscounted, C144_path_discounted, C144_parity, C144_script_keywords, C145_moments, C145_path_discounted, C145_curve_discounted, C146_moments, C146_limit).
Print Assumptions all_theorems.

(* ---- cases ---- *)
(* theta of the model on the flat curve *)
Definition ex_fit (t : R) : R := match get_theta (1/50) (3/100) (1/50) t with Ok x => x | Err _ => 0 end.
Example ex_fitted : fitted (1/50) (3/100) (1/50) 1 5 ex_fit.
Proof. intros t I. unfold ex_fit. destruct (get_theta (1/50) (3/100) (1/50) t) as [x|e] eqn:E; [reflexivity|]. exfalso. revert E. unfold get_theta. rb; try lra; discriminate. Qed.
(* a run of four steps and ten paths returns, *)
Example C144_ex_returns : exists x, hw_simulate ex_normals ex_quad (1/50) (3/100) (1/50) 1 4 10 true 7 "exact" = Ok x.
Proof. apply (C108_returns ex_normals ex_quad (1/50) (3/100) (1/50) 1 4 10 true 7 "exact"); [unfold drawable; lia|lra|]. right. left. reflexivity. Qed.
(* and the call on a bond of four years is too cheap *)
Example C144_ex : exists g p q, path_values ex_quad (1/50) (3/100) (1/50) 1 4 10 true "exact" (fun x => calculate_zcbo_payoff ex_quad (Some ex_fit) (fun t => exp (- (1/50) * t)) (1/50) (3/100) (1/50) (final_rates x) 1 5 (9/10) 1) g
  /\ expected_n 4 g p /\ zcbo (fun t => exp (- (1/50) * t)) (3/100) (1/50) [1] [5] [9/10] [1] 0 = Ok [Fin q] /\ p < q.
Proof.
  destruct (C144_exact_scheme_is_biased ex_quad ex_fit (fun t => exp (- (1/50) * t)) (1/50) (3/100) (1/50) 1 5 (9/10) 1 4 10 true ex_quad_exact) as (g & p & q & G & E & Z & C & _); try lra; try lia; [unfold mean_reverting; lra|left; reflexivity|exact ex_fitted|reflexivity|].
  exists g, p, q. repeat split; try assumption. apply C. reflexivity.
Qed.
Example C145_ex : exists (p : nat -> R) q, zcbo (fun t => exp (- (1/50) * t)) (3/100) (1/50) [1] [5] [9/10] [-1] 0 = Ok [Fin q] /\ is_lim_seq p q.
Proof.
  destruct (C145_path_discounted ex_quad ex_fit (fun t => exp (- (1/50) * t)) (1/50) (3/100) (1/50) 1 5 (9/10) (-1) 10 true "rk4" Rk4 named_rk4 ex_quad_exact) as (p & q & _ & Z & C); try lra; [unfold mean_reverting; lra|right; reflexivity|exact ex_fitted|reflexivity|].
  exists p, q. split; assumption.
Qed.
(* two steps of a half: the variance of Euler, 1/2 + 1/8, and a quarter more *)
Example C146_ex : expected_n 2 (fun w => (example_rate 1 1 0 0 (1/2) "milstein" w 2 - 0) ^ 2) ((1/2 + 1/8) * (1 + 1/4)).
Proof.
  destruct (C146_moments 1 1 0 0 1 2 "milstein" ltac:(lra) ltac:(lra) ltac:(lia)) as (_ & V & _). cbn [INR] in V. replace (1 / (1 + 1)) with (1/2) in V by lra. replace (0 / 1 + (1 - 1 * (1 / 2)) ^ 2 * (0 - 0 / 1)) with 0 in V by field. rewrite !total_S, total_0 in V. cbn [String.eqb Ascii.eqb Bool.eqb] in V.
  replace ((1/2 + 1/8) * (1 + 1/4)) with (1 ^ 2 * (1 / 2) * (0 + (1 - 1 * (1 / 2)) ^ (2 * 0) + (1 - 1 * (1 / 2)) ^ (2 * 1)) * (1 + 1 ^ 2 * (1 / 2) / 2)) by (cbn [Nat.mul Nat.add pow]; field). exact V.
Qed.
