(* Proofs about the Monte-Carlo bond option *)
From Coq Require Import ZArith String Reals Lra Lia List.
From Coquelicot Require Import Coquelicot.
From Verif Require Import Base NormalModel NormalProofs BsProofs BlackModel BlackProofs MonteModel MonteSpec MonteProofs HwModel HwSpec HwProofs HwSimProofs MeanSpec MeanProofs PathMeanProofs CsMeanProofs HwMeanProofs HwMcModel HwMcSpec.
Import ListNotations.
Open Scope R_scope.

(* ---- change of measure for many normal numbers ---- *)
Lemma expected_n_tilt n : forall (F : R -> R) (c s : nat -> R) m, expected_n n (fun w => F (total n (fun i => c i * (w i + s i)))) m ->
  expected_n n (fun w => exp (total n (fun i => s i * w i) - total n (fun i => s i ^ 2 / 2)) * F (total n (fun i => c i * w i))) m.
Proof.
  induction n as [|n IH]; intros F c s m H.
  - cbn [expected_n] in *. intros w. rewrite !total_0, Rminus_0_r, exp_0, Rmult_1_l. rewrite <- (H w). reflexivity.
  - cbn [expected_n] in *. destruct H as (g & G & E). set (s0 := s O). exists (fun z => exp (s0 * z - s0 ^ 2 / 2) * g (z + - s0)). split.
    + intros z. specialize (G (z + - s0)).
      assert (G' : expected_n n (fun w => (fun x => F (c O * z + x)) (total n (fun i => c (S i) * (w i + s (S i))))) (g (z + - s0))).
      { eapply expected_n_ext; [|exact G]. intros w. cbv beta. rewrite total_shift. cbn [followed_by]. fold s0. do 2 f_equal. ring. }
      apply IH in G'. eapply expected_n_ext; [|apply (expected_n_scal n _ _ (exp (s0 * z - s0 ^ 2 / 2)) G')]. intros w. cbv beta. rewrite !total_shift. cbn [followed_by]. fold s0. rewrite <- Rmult_assoc, <- exp_plus. f_equal. f_equal. field.
    + apply (expected_tilt (fun z => g (z + - s0)) m s0). eapply expected_ext; [|exact E]. intros z. cbv beta. f_equal. ring.
Qed.

(* ---- payoffs of exponentials of the simulated rate ---- *)
Lemma affine_payoff n cp A b K M (c : nat -> R) : cp = 1 \/ cp = -1 -> 0 < A -> 0 < b -> 0 < K -> let V := total n (fun k => c k ^ 2) in 0 < V ->
  expected_n n (fun w => Rmax (cp * (A * exp (- b * (M + total n (fun k => c k * w k))) - K)) 0) (blk cp (A * exp (- b * M + b ^ 2 * V / 2)) K (b * sqrt V)).
Proof.
  intros W HA Hb HK V HV. assert (Q : total n (fun k => (- b * c k) ^ 2) = b ^ 2 * V) by (rewrite (total_ext n _ (fun k => b ^ 2 * c k ^ 2)) by (intros; ring); apply total_scal).
  assert (P : 0 < b ^ 2 * V) by (apply Rmult_lt_0_compat; [nra|exact HV]).
  assert (Rt : b * sqrt V = sqrt (total n (fun k => (- b * c k) ^ 2))). { rewrite Q, sqrt_mult by nra. rewrite sqrt_pow2 by lra. reflexivity. }
  rewrite Rt. eapply expected_n_ext; [|apply (expected_n_payoff n cp (A * exp (- b * M + b ^ 2 * V / 2)) K (fun k => - b * c k) W); [apply Rmult_lt_0_compat; [exact HA|apply exp_pos]|exact HK|rewrite Q; exact P]].
  intros w. cbv beta. rewrite Q, Rmax_comm. f_equal. f_equal. f_equal. rewrite Rmult_assoc, <- exp_plus. f_equal. f_equal. rewrite (total_ext n (fun i => - b * c i * w i) (fun i => - b * (c i * w i))) by (intros; ring). rewrite total_scal. field.
Qed.
Lemma affine_payoff_tilted n cp A b K M a (c d : nat -> R) : cp = 1 \/ cp = -1 -> 0 < A -> 0 < b -> 0 < K -> let V := total n (fun k => c k ^ 2) in 0 < V ->
  expected_n n (fun w => Rmax (cp * (A * exp (- b * (M + total n (fun k => c k * w k))) - K)) 0 * exp (- (a + total n (fun k => d k * w k))))
    (exp (- a + total n (fun k => d k ^ 2 / 2)) * blk cp (A * exp (- b * (M - total n (fun k => c k * d k)) + b ^ 2 * V / 2)) K (b * sqrt V)).
Proof.
  intros W HA Hb HK V HV. set (F := fun x => Rmax (cp * (A * exp (- b * (M + x)) - K)) 0). set (Cv := total n (fun k => c k * d k)).
  pose proof (affine_payoff n cp A b K (M - Cv) c W HA Hb HK HV) as E. fold V in E.
  assert (E' : expected_n n (fun w => F (total n (fun i => c i * (w i + - d i)))) (blk cp (A * exp (- b * (M - Cv) + b ^ 2 * V / 2)) K (b * sqrt V))).
  { eapply expected_n_ext; [|exact E]. intros w. cbv beta. unfold F. rewrite (total_ext n (fun i => c i * (w i + - d i)) (fun i => c i * w i + -1 * (c i * d i))) by (intros; ring). rewrite total_plus, total_scal. fold Cv. do 6 f_equal. ring. }
  apply (expected_n_tilt n F c (fun i => - d i)) in E'. eapply expected_n_ext; [|apply (expected_n_scal n _ _ (exp (- a + total n (fun k => d k ^ 2 / 2))) E')].
  intros w. cbv beta. rewrite <- Rmult_assoc, <- exp_plus. rewrite Rmult_comm. unfold F. f_equal. f_equal.
  rewrite (total_ext n (fun i => - d i * w i) (fun i => -1 * (d i * w i))) by (intros; ring). rewrite total_scal. rewrite (total_ext n (fun i => (- d i) ^ 2 / 2) (fun k => d k ^ 2 / 2)) by (intros; field). ring.
Qed.

(* ---- the simulation ---- *)
Lemma named_of method m : named method m -> scheme_of method = m /\ scheme_of method <> Other. Proof. intros []; split; (reflexivity || discriminate). Qed.
Lemma noise_nonzero method m alpha sigma h : named method m -> 0 < alpha -> sigma <> 0 -> 0 < h -> noise m alpha sigma h <> 0.
Proof.
  intros N A Sg H. pose proof (sqrt_lt_R0 h H) as Sh. pose proof (pow2_gt_0 sigma Sg) as S2. pose proof (decay_pos alpha h A H) as D.
  assert (P : 0 < sigma ^ 2 / (2 * alpha) * (1 - exp (-2 * alpha * h))) by (replace (sigma ^ 2 / (2 * alpha) * (1 - exp (-2 * alpha * h))) with (sigma ^ 2 * ((1 - exp (-2 * alpha * h)) / (2 * alpha))) by (field; lra); apply Rmult_lt_0_compat; assumption).
  apply sqrt_lt_R0 in P. destruct N; unfold noise; [apply Rmult_integral_contrapositive_currified; lra..|lra].
Qed.
Lemma variance_pos method m alpha sigma h n : named method m -> 0 < alpha -> sigma <> 0 -> 0 < h -> (1 <= n)%nat -> 0 < sim_variance m alpha sigma h n.
Proof.
  intros N A Sg H L. pose proof (noise_nonzero method m alpha sigma h N A Sg H) as Z. unfold sim_variance. destruct n as [|n]; [lia|]. rewrite total_S.
  assert (E : rate_weight m alpha sigma h (S n) n = noise m alpha sigma h). { unfold rate_weight. rewrite (proj2 (Nat.ltb_lt n (S n)) ltac:(lia)). replace (S n - 1 - n)%nat with O by lia. cbn [pow]. ring. }
  rewrite E. pose proof (pow2_gt_0 _ Z). assert (0 <= total n (fun k => rate_weight m alpha sigma h (S n) k ^ 2)) by (apply total_nonneg; intros; apply pow2_ge_0). lra.
Qed.
Section Run.
  Variables (quad : integrator) (r0 alpha sigma T : R) (steps sims : Z) (anti : bool) (method : string) (m : scheme).
  Hypotheses (N : named method m) (Q : exact_quad quad) (HT : 0 < T).
  Let h := T / IZR steps.
  Let n := Z.to_nat steps.
  Definition rate_of (w : nat -> R) : R := sim_mean m r0 alpha sigma h n + total n (fun k => rate_weight m alpha sigma h n k * w k).
  Definition discount_of (w : nat -> R) : R := exp (- (r0 * (INR n * h) + total n (fun l => h / 2 * (excess m alpha sigma h (fun _ => 0) l + excess m alpha sigma h (fun _ => 0) (S l))) + total n (fun k => integral_weight m alpha sigma h n k * w k))).
  Lemma final_run normal seed x : hw_simulate normal quad r0 alpha sigma T steps sims anti seed method = Ok x ->
    exists a, generate_rand_nbs normal steps 1 sims anti seed = Ok a
      /\ final_rates x = map (fun j => rate_of (fun k => el a k 0%nat j)) (seq 0 (Z.to_nat sims))
      /\ final_discounts x = map (fun j => discount_of (fun k => el a k 0%nat j)) (seq 0 (Z.to_nat sims)).
  Proof.
    intros H. destruct (named_of _ _ N) as [E O]. assert (X : scheme_of method = Exact -> exact_quad quad /\ 0 < T) by (intros _; split; assumption).
    destruct (simulate_inv _ _ _ _ _ _ _ _ _ _ _ _ H) as (a & G & _ & Sn & Ss & _). destruct (simulate_rate _ _ _ _ _ _ _ _ _ _ _ _ H O X) as (a1 & G1 & _ & V1). destruct (simulate_discount _ _ _ _ _ _ _ _ _ _ _ _ H O X) as (a2 & G2 & V2).
    assert (a1 = a) by congruence. assert (a2 = a) by congruence. subst a1 a2. exists a. split; [exact G|]. unfold final_rates, final_discounts. rewrite Sn, Ss. fold n. fold h in V1, V2. cbv zeta in V2. fold h in V2.
    split; apply map_ext_in; intros j J; apply in_seq in J.
    - rewrite V1 by lia. rewrite E, excess_split. fold n. rewrite (rate_weights m alpha sigma h _ n n (le_n n)). unfold rate_of, sim_mean. ring.
    - rewrite V2 by lia. rewrite E. rewrite integral_weights. unfold discount_of. fold n. do 2 f_equal. ring.
  Qed.
End Run.
Lemma sequence_map {A} (f : A -> result R) (g : A -> R) l : (forall x, f x = Ok (g x)) -> sequence (map f l) = Ok (map g l).
Proof. intros H. apply sequence_ok. rewrite map_map. apply map_ext. exact H. Qed.

(* the bond price at expiry *)
Lemma bond_at_expiry quad theta r0 alpha sigma T S r : exact_quad quad -> mean_reverting alpha -> 0 < T -> T < S -> fitted r0 alpha sigma T S theta ->
  ode_1 quad (Some theta) r0 alpha sigma T S (Some r) = Ok (exp (log_a r0 alpha sigma S T) * exp (- calc_b alpha T S * r)).
Proof.
  intros Q A HT L Th. pose proof (small_pos _ A) as Ap. rewrite (ode_1_closed quad theta r0 alpha sigma T S (Some r) r Q A L).
  - rewrite <- exp_plus. do 2 f_equal. ring.
  - intros t B. specialize (Th t B). rewrite theta_ok in Th by lra. congruence.
  - unfold short_rate, eqb. destruct Req_EM_T; [lra|reflexivity].
Qed.
Definition model_forward (r0 alpha sigma T S M V : R) : R := exp (- r0 * (S - T)) * exp (calc_b alpha T S * (r0 - M) - calc_b alpha T S ^ 2 * (rate_variance alpha sigma T - V) / 2).
Lemma model_forward_of r0 alpha sigma T S M V : alpha <> 0 -> exp (log_a r0 alpha sigma S T) * exp (- calc_b alpha T S * M + calc_b alpha T S ^ 2 * V / 2) = model_forward r0 alpha sigma T S M V.
Proof. intros A. unfold model_forward, log_a, rate_variance. rewrite <- !exp_plus. f_equal. field. exact A. Qed.
Lemma model_forward_pos r0 alpha sigma T S M V : 0 < model_forward r0 alpha sigma T S M V. Proof. apply Rmult_lt_0_compat; apply exp_pos. Qed.

Section Values.
  Variables (quad : integrator) (theta : R -> R) (r0 alpha sigma T S K cp : R) (steps sims : Z) (anti : bool) (method : string) (m : scheme).
  Hypotheses (N : named method m) (Q : exact_quad quad) (A : mean_reverting alpha) (Sg : sigma <> 0) (HT : 0 < T) (L : T < S) (HK : 0 < K) (W : cp = 1 \/ cp = -1) (HS : (1 <= steps)%Z) (Th : fitted r0 alpha sigma T S theta).
  Let h := T / IZR steps.
  Let n := Z.to_nat steps.
  Let b := calc_b alpha T S.
  Let M := sim_mean m r0 alpha sigma h n.
  Let V := sim_variance m alpha sigma h n.
  Lemma h_pos : 0 < h. Proof. apply Rdiv_lt_0_compat; [exact HT|apply IZR_lt; lia]. Qed.
  Lemma V_pos : 0 < V. Proof. apply (variance_pos method); [exact N|exact (small_pos _ A)|exact Sg|exact h_pos|unfold n; lia]. Qed.
  Lemma nh : INR n * h = T. Proof. unfold n, h. rewrite INR_IZR_INZ, Z2Nat.id by lia. assert (0 < IZR steps) by (apply IZR_lt; lia). field. lra. Qed.
  Definition payoff_of (w : nat -> R) : R := Rmax (cp * (exp (log_a r0 alpha sigma S T) * exp (- b * rate_of r0 alpha sigma T steps m w) - K)) 0.
  Lemma curve_values (df : R -> R) : path_values quad r0 alpha sigma T steps sims anti method (fun x => calculate_zcbo_payoff quad (Some theta) df r0 alpha sigma (final_rates x) T S K cp) (fun w => payoff_of w * df T).
  Proof.
    intros normal seed x H. destruct (final_run quad r0 alpha sigma T steps sims anti method m N Q HT normal seed x H) as (a & G & Fr & _). exists a. split; [exact G|]. unfold calculate_zcbo_payoff, present_values. rewrite Fr.
    rewrite (sequence_map _ (fun r => exp (log_a r0 alpha sigma S T) * exp (- b * r))) by (intros r; apply bond_at_expiry; assumption). cbn [bind]. rewrite !map_map. reflexivity.
  Qed.
  Lemma path_discounted : path_values quad r0 alpha sigma T steps sims anti method (discounted_on_path quad (Some theta) r0 alpha sigma T S K cp) (fun w => payoff_of w * discount_of r0 alpha sigma T steps m w).
  Proof.
    intros normal seed x H. destruct (final_run quad r0 alpha sigma T steps sims anti method m N Q HT normal seed x H) as (a & G & Fr & Fd). exists a. split; [exact G|]. unfold discounted_on_path. rewrite Fr, Fd.
    rewrite (sequence_map _ (fun r => exp (log_a r0 alpha sigma S T) * exp (- b * r))) by (intros r; apply bond_at_expiry; assumption). cbn [bind]. rewrite map_map. f_equal. generalize (seq 0 (Z.to_nat sims)). intros l. induction l as [|j l IH]; [reflexivity|]. cbn [map combine]. rewrite IH. reflexivity.
  Qed.
  Lemma payoff_mean : expected_n n payoff_of (blk cp (model_forward r0 alpha sigma T S M V) K (b * sqrt V)).
  Proof.
    rewrite <- model_forward_of by (pose proof (small_pos _ A); lra). fold b. apply (affine_payoff n cp (exp (log_a r0 alpha sigma S T)) b K M (fun k => rate_weight m alpha sigma h n k) W (exp_pos _) (b_pos alpha T S L) HK V_pos).
  Qed.
  Lemma discounted_mean : expected_n n (fun w => payoff_of w * discount_of r0 alpha sigma T steps m w)
    (exp (sim_log_discount m r0 alpha sigma h n) * blk cp (model_forward r0 alpha sigma T S (M - sim_covariance m alpha sigma h n) V) K (b * sqrt V)).
  Proof.
    rewrite <- model_forward_of by (pose proof (small_pos _ A); lra). fold b. set (e := total n (fun l => h / 2 * (excess m alpha sigma h (fun _ => 0) l + excess m alpha sigma h (fun _ => 0) (Datatypes.S l)))).
    replace (sim_log_discount m r0 alpha sigma h n) with (- (r0 * (INR n * h) + e) + total n (fun k => integral_weight m alpha sigma h n k ^ 2 / 2)) by (unfold sim_log_discount, e; ring).
    apply (affine_payoff_tilted n cp (exp (log_a r0 alpha sigma S T)) b K M (r0 * (INR n * h) + e) (fun k => rate_weight m alpha sigma h n k) (fun k => integral_weight m alpha sigma h n k) W (exp_pos _) (b_pos alpha T S L) HK V_pos).
  Qed.
End Values.
