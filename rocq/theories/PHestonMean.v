(* Property C116: expectations of simulated Heston paths *)
From Coq Require Import Reals Lra Lia List String.
From Coquelicot Require Import Coquelicot.
From Verif Require Import Base NormalModel NormalProofs BsProofs MonteModel MonteSpec MonteProofs HestonSimModel HestonSimSpec HestonSimProofs MeanSpec MeanProofs PathMeanProofs MomentProofs HestonMeanSpec HestonMeanProofs PHestonSim.
Open Scope R_scope.
Local Notation QE := "quadratic_exponential"%string.

(* the quadratic exponential variance has exactly the mean and the variance of the square root process, at every step *)
Theorem C116_qe_variance (cholesky : factorisation) (h : heston) (n t : nat) : factors cholesky 2 (correlation2 (h_rho h)) -> sound h -> (0 < n)%nat -> (t <= n)%nat ->
  let time := INR t * (h_tau h / INR n) in
  exists g, heston_value cholesky h QE n t 1 g /\ expected_n (2 * t) g (cir_mean h time (h_var0 h))
    /\ expected_n (2 * t) (fun w => (g w - cir_mean h time (h_var0 h)) ^ 2) (cir_variance h time (h_var0 h)).
Proof.
  intros F H N _ time. set (dt := h_tau h / INR n). assert (D : 0 < dt) by (destruct H as (_ & _ & _ & _ & _ & _ & T); apply Rdiv_lt_0_compat; [exact T|apply lt_0_INR; exact N]). assert (V : 0 <= h_var0 h) by apply H.
  destruct (qe_value cholesky h n t F H N) as [_ G]. eexists. split; [exact G|]. fold dt. pose proof (qe_mean_run h dt t (ln (h_S0 h), h_var0 h) H D V) as M. pose proof (qe_square_run h dt t (ln (h_S0 h), h_var0 h) H D V) as S2. cbn [snd] in M, S2. unfold time. fold dt. set (m := cir_mean h (INR t * dt) (h_var0 h)) in *. split; [exact M|].
  pose proof (expected_n_lin _ _ _ _ _ 1 1 (expected_n_lin _ _ _ _ _ (m ^ 2) (- 2 * m) (expected_n_const (2 * t) 1) M) S2) as L. replace (cir_variance h (INR t * dt) (h_var0 h)) with (1 * (m ^ 2 * 1 + - 2 * m * m) + 1 * (cir_variance h (INR t * dt) (h_var0 h) + m ^ 2)) by ring. eapply expected_n_ext; [|exact L]. intros w. cbv beta. ring.
Qed.
(* without correlation the discounted spot is a martingale at every step *)
Theorem C116_qe_spot_uncorrelated (cholesky : factorisation) (h : heston) (n t : nat) : factors cholesky 2 (correlation2 (h_rho h)) -> sound h -> (0 < n)%nat -> (t <= n)%nat -> h_rho h = 0 ->
  exists g, heston_value cholesky h QE n t 0 g /\ expected_n (2 * t) g (h_S0 h * exp (h_mu h * (INR t * (h_tau h / INR n)))).
Proof.
  intros F H N _ R0. set (dt := h_tau h / INR n). assert (D : 0 < dt) by (destruct H as (_ & _ & _ & _ & _ & _ & T); apply Rdiv_lt_0_compat; [exact T|apply lt_0_INR; exact N]). assert (V : 0 <= h_var0 h) by apply H.
  destruct (qe_value cholesky h n t F H N) as [G _]. eexists. split; [exact G|]. fold dt. pose proof (qe_spot_run h dt t (ln (h_S0 h), h_var0 h) H R0 D V) as M. cbn [fst] in M. rewrite exp_plus, exp_ln in M by apply H. exact M.
Qed.
(* in general the expected spot after one step is the forward times a factor that is not corrected for *)
Theorem C116_qe_first_spot (cholesky : factorisation) (h : heston) (n : nat) : factors cholesky 2 (correlation2 (h_rho h)) -> sound h -> (0 < n)%nat ->
  let dt := h_tau h / INR n in let A := exposure h dt in let m := cir_mean h dt (h_var0 h) in let s2 := cir_variance h dt (h_var0 h) in
  let forward := h_S0 h * exp (h_mu h * dt) in
  exists g, heston_value cholesky h QE n 1 0 g
    /\ (s2 <= 3 / 2 * m ^ 2 -> exists a b, quadratic_law m s2 a b /\ (2 * (A * a) < 1 -> expected_n 2 g (forward * exp (known h dt (h_var0 h)) * (exp (A * a * b ^ 2 / (1 - 2 * (A * a))) / sqrt (1 - 2 * (A * a))))))
    /\ (3 / 2 * m ^ 2 < s2 -> exists p beta, exponential_law m s2 p beta /\ (A < beta -> expected_n 2 g (forward * exp (known h dt (h_var0 h)) * (p + (1 - p) * beta / (beta - A))))).
Proof.
  intros F H N dt A m s2 forward. assert (D : 0 < dt) by (destruct H as (_ & _ & _ & _ & _ & _ & T); apply Rdiv_lt_0_compat; [exact T|apply lt_0_INR; exact N]). assert (V : 0 <= h_var0 h) by apply H.
  destruct (qe_value cholesky h n 1 F H N) as [G _]. eexists. split; [exact G|]. fold dt.
  assert (Q : forall k, expected (fun x => exp (A * qev h dt (h_var0 h) x)) k -> expected_n 2 (fun w => exp (fst (run (qe_step h dt) (ln (h_S0 h), h_var0 h) (paired w) 1))) (forward * exp (known h dt (h_var0 h)) * k)).
  { intros k K. exists (fun x => forward * exp (known h dt (h_var0 h)) * exp (A * qev h dt (h_var0 h) x)). split; [|apply expected_scal; exact K]. intros x. exists (fun y => exp (fst (qe_step h dt (ln (h_S0 h), h_var0 h) y x))). split; [intros y w; reflexivity|].
    pose proof (qe_spot h dt (ln (h_S0 h), h_var0 h) x H D V) as E. cbn [fst snd] in E. rewrite !exp_plus, exp_ln in E by apply H. exact E. }
  split; intros L.
  - destruct (qev_low h dt (h_var0 h) H D V L) as (a & b & Ql & E). exists a, b. split; [exact Ql|]. intros C. apply Q. eapply expected_ext; [|apply (expected_square_exp b (A * a)); lra]. intros z. cbv beta. rewrite E. f_equal. ring.
  - destruct (qev_high h dt (h_var0 h) H D V L) as (p & beta & c & Ql & Cp & E0 & E1). exists p, beta. split; [exact Ql|]. intros C. apply Q. destruct Ql as (P & B & _). replace (p + (1 - p) * beta / (beta - A)) with (p + (1 - p) / (1 - A / beta)) by (field; lra).
    apply (expected_tail_exp p c P Cp); [apply Rlt_div_l; lra| |]; intros z Z; [rewrite E0 by exact Z; rewrite Rmult_0_r; apply exp_0|rewrite E1 by exact Z; f_equal; field; lra].
Qed.
(* so the discounted spot is not a martingale for every sound parameter set *)
Theorem C116_qe_martingale_refuted : exists cholesky h g m, factors cholesky 2 (correlation2 (h_rho h)) /\ sound h /\ heston_value cholesky h QE 1 1 0 g /\ expected_n 2 g m /\ h_S0 h * exp (h_mu h * h_tau h) < m.
Proof.
  set (h := mk_heston 1 0 0 8 1 1 (-3/5) 1). assert (H : sound h) by (unfold sound, h; cbn; lra). exists (fun _ => Ok ex_L), h. destruct (C116_qe_first_spot (fun _ => Ok ex_L) h 1 ex_factors H ltac:(lia)) as (g & G & _ & E).
  set (e := exp (- (1) * (1 / INR 1))). assert (Ee : 0 < e < 1) by (apply decay; cbn; lra).
  assert (M : cir_mean h (h_tau h / INR 1) (h_var0 h) = 1 - e) by (unfold cir_mean; cbn [h h_tau h_var0 h_kappa h_theta]; fold e; ring). assert (S2 : cir_variance h (h_tau h / INR 1) (h_var0 h) = 32 * (1 - e) ^ 2) by (unfold cir_variance; cbn [h h_tau h_var0 h_kappa h_theta h_vv]; fold e; cbv zeta; field).
  rewrite M, S2 in E. destruct E as (p & beta & (P & B & Q1 & Q2) & E); [nra|]. assert (A : exposure h (h_tau h / INR 1) = - (81/400)) by (unfold exposure; cbn [h h_tau h_kappa h_rho h_vv INR]; field). assert (K : known h (h_tau h / INR 1) (h_var0 h) = 3/40) by (unfold known; cbn [h h_tau h_kappa h_rho h_vv h_theta h_var0 INR]; field). rewrite A, K in E. exists g. eexists. split; [exact ex_factors|]. split; [exact H|]. split; [exact G|]. split; [apply E; lra|].
  cbn [h h_S0 h_mu h_tau INR]. replace (0 * (1 / 1)) with 0 by lra. replace (0 * 1) with 0 by ring. rewrite exp_0. pose proof (exp_ineq1 (3/40) ltac:(lra)) as X. set (x := 1 - e) in *.
  assert (Q3 : 1 - p = beta * x) by (rewrite <- Q1; field; lra). assert (Q4 : (1 + p) * x = 32 * x ^ 2 * beta) by (rewrite <- Q2; replace (1 - p ^ 2) with ((1 - p) * (1 + p)) by ring; rewrite Q3; field; lra). assert (Q5 : 1 + p = 32 * x * beta) by (apply (Rmult_eq_reg_r x); [rewrite Q4; ring|unfold x; lra]).
  assert (Q6 : beta * x = 2 / 33) by lra. replace (p + (1 - p) * beta / (beta - - (81/400))) with (1 - 81/400 * (beta * x) / (beta + 81/400)) by (replace p with (1 - beta * x) by lra; field; lra). rewrite Q6. assert (X1 : x < 1) by (unfold x; lra). assert (B2 : 2 / 33 < beta) by nra.
  assert (Z : 81/400 * (2/33) / (beta + 81/400) < 3 / 43) by (apply Rlt_div_l; lra). nra.
Qed.

(* both Euler schemes: the spot grows at the simply compounded rate, whatever happens to the variance *)
Lemma euler_value (cholesky : factorisation) (h : heston) (method : string) (n t : nat) : factors cholesky 2 (correlation2 (h_rho h)) -> 0 < h_tau h -> (0 < n)%nat -> In method euler_methods ->
  let st w := run (euler_step h (h_tau h / INR n) method) (h_S0 h, h_var0 h) (paired w) t in
  heston_value cholesky h method n t 0 (fun w => fst (st w)) /\ ((n <= t)%nat -> heston_value cholesky h method n t 1 (fun w => snd (st w))).
Proof.
  intros F T N M st. assert (P : substring 0 5 method = "euler"%string) by (destruct M as [<- | [<- | []]]; reflexivity).
  assert (G : forall w, exists x, heston_simulate_scalar cholesky h method (mk_mat n 2 (paired w)) = Ok x /\ me x t 0 = Fin (fst (st w)) /\ ((n <= t)%nat -> me x t 1 = Fin (snd (st w)))).
  { intros w. destruct (euler_run cholesky h method (mk_mat n 2 (paired w)) F eq_refl N T P) as (x & X & _ & _ & E). exists x. split; [exact X|]. pose proof (euler_run_real h method (mk_mat n 2 (paired w)) t M) as Q. rewrite !E, Q. split; [reflexivity|]. intros L. cbn [nr Nat.eqb]. destruct (Nat.ltb t n) eqn:Lt; [apply Nat.ltb_lt in Lt; lia|reflexivity]. }
  split; [|intros L]; intros w; destruct (G w) as (x & X & A & B); exists x; auto.
Qed.
Theorem C116_euler_spot (cholesky : factorisation) (h : heston) (method : string) (n t : nat) : factors cholesky 2 (correlation2 (h_rho h)) -> 0 < h_tau h -> (0 < n)%nat -> (t <= n)%nat -> In method euler_methods ->
  exists g, heston_value cholesky h method n t 0 g /\ expected_n (2 * t) g (h_S0 h * (1 + h_mu h * (h_tau h / INR n)) ^ t).
Proof.
  intros F T N _ M. destruct (euler_value cholesky h method n t F T N M) as [G _]. eexists. split; [exact G|]. exact (euler_spot_run h (h_tau h / INR n) method t (h_S0 h, h_var0 h)).
Qed.
(* the first step: variances and covariance of the increments are those of the wrongly correlated numbers *)
Theorem C116_euler_first_step (cholesky : factorisation) (h : heston) (method : string) : factors cholesky 2 (correlation2 (h_rho h)) -> 0 < h_tau h -> 0 <= h_var0 h -> -1 < h_rho h < 1 -> In method euler_methods ->
  let dt := h_tau h in let ms := h_S0 h * (1 + h_mu h * dt) in let mv := h_var0 h + h_kappa h * (h_theta h - h_var0 h) * dt in
  exists s v, heston_value cholesky h method 1 1 0 s /\ heston_value cholesky h method 1 1 1 v
    /\ expected_n 2 s ms /\ expected_n 2 v mv
    /\ expected_n 2 (fun w => (s w - ms) ^ 2) (h_S0 h ^ 2 * h_var0 h * (1 + h_rho h ^ 2) * dt)
    /\ expected_n 2 (fun w => (v w - mv) ^ 2) (h_vv h ^ 2 * h_var0 h * (1 - h_rho h ^ 2) * dt)
    /\ expected_n 2 (fun w => (s w - ms) * (v w - mv)) (h_S0 h * h_vv h * h_var0 h * (h_rho h * sqrt (1 - h_rho h ^ 2)) * dt).
Proof.
  intros F T V RH M dt ms mv. destruct (euler_value cholesky h method 1 1 F T ltac:(lia) M) as [G1 G2]. specialize (G2 ltac:(lia)). eexists. eexists. split; [exact G1|]. split; [exact G2|]. replace (h_tau h / INR 1) with dt by (unfold dt; cbn; field). clear G1 G2.
  destruct (fixed_fin method (h_var0 h) M) as (_ & _ & Fx). specialize (Fx V). set (q := sqrt (h_var0 h)). assert (Q : q ^ 2 = h_var0 h) by (unfold q; rewrite <- Rsqr_pow2; apply Rsqr_sqrt; exact V). set (d := sqrt dt). assert (Dd : d ^ 2 = dt) by (unfold d; rewrite <- Rsqr_pow2; apply Rsqr_sqrt; unfold dt; lra). set (r := sqrt (1 - h_rho h ^ 2)). assert (Rr : r ^ 2 = 1 - h_rho h ^ 2) by (unfold r; rewrite <- Rsqr_pow2; apply Rsqr_sqrt; nra).
  assert (two : forall (f : R -> R -> R) (k : R -> R) m, (forall x, expected (f x) (k x)) -> expected k m -> expected_n 2 (fun w => f (w 0%nat) (w 1%nat)) m).
  { intros f k m E1 E2. exists k. split; [|exact E2]. intros x. exists (f x). split; [intros y w; reflexivity|apply E1]. }
  assert (lin : forall (f : R -> R -> R) a b c m, (forall x y, f x y = a + b * x + c * y) -> m = a -> expected_n 2 (fun w => f (w 0%nat) (w 1%nat)) m).
  { intros f a b c m E ->. apply (two f (fun x => a + b * x)).
    - intros x. replace (a + b * x) with ((a + b * x) * 1 + c * 0) by ring. eapply expected_ext; [|exact (expected_lin _ _ _ _ (a + b * x) c (expected_const 1) expected_id)]. intros y. cbv beta. rewrite E. ring.
    - pose proof (expected_lin _ _ _ _ a b (expected_const 1) expected_id) as L. replace (a * 1 + b * 0) with a in L by ring. eapply expected_ext; [|exact L]. intros x. cbv beta. ring. }
  assert (quad : forall (f : R -> R -> R) a b c m, (forall x y, f x y = a * x ^ 2 + b * x * y + c * y ^ 2) -> m = a + c -> expected_n 2 (fun w => f (w 0%nat) (w 1%nat)) m).
  { intros f a b c m E ->. apply (two f (fun x => a * x ^ 2 + c)).
    - intros x. replace (a * x ^ 2 + c) with (1 * (a * x ^ 2 * 1 + b * x * 0) + c * 1) by ring. eapply expected_ext; [|exact (expected_lin _ _ _ _ 1 c (expected_lin _ _ _ _ (a * x ^ 2) (b * x) (expected_const 1) expected_id) expected_sq)]. intros y. cbv beta. rewrite E. ring.
    - replace (a + c) with (a * 1 + c * 1) by ring. eapply expected_ext; [|exact (expected_lin _ _ _ _ a c expected_sq (expected_const 1))]. intros x. cbv beta. ring. }
  assert (Es : forall w, fst (run (euler_step h dt method) (h_S0 h, h_var0 h) (paired w) 1) = ms + h_S0 h * q * d * h_rho h * w 0%nat + h_S0 h * q * d * w 1%nat) by (intros w; cbn [run euler_step fst snd paired Nat.eqb Nat.mul Nat.add]; rewrite Fx; fold q d; unfold ms; ring).
  assert (Ev : forall w, snd (run (euler_step h dt method) (h_S0 h, h_var0 h) (paired w) 1) = mv + h_vv h * q * r * d * w 0%nat + 0 * w 1%nat) by (intros w; cbn [run euler_step fst snd paired Nat.eqb Nat.mul Nat.add]; rewrite Fx; fold q d r; unfold mv; ring).
  split; [|split; [|split; [|split]]].
  - eapply expected_n_ext; [|apply (lin (fun x y => ms + h_S0 h * q * d * h_rho h * x + h_S0 h * q * d * y) ms (h_S0 h * q * d * h_rho h) (h_S0 h * q * d)); [reflexivity|reflexivity]]. intros w. cbv beta. rewrite ?Es, ?Ev. reflexivity.
  - eapply expected_n_ext; [|apply (lin (fun x y => mv + h_vv h * q * r * d * x + 0 * y) mv (h_vv h * q * r * d) 0); [reflexivity|reflexivity]]. intros w. cbv beta. rewrite ?Es, ?Ev. reflexivity.
  - eapply expected_n_ext; [|apply (quad (fun x y => (ms + h_S0 h * q * d * h_rho h * x + h_S0 h * q * d * y - ms) ^ 2) (h_S0 h ^ 2 * q ^ 2 * d ^ 2 * h_rho h ^ 2) (2 * h_S0 h ^ 2 * q ^ 2 * d ^ 2 * h_rho h) (h_S0 h ^ 2 * q ^ 2 * d ^ 2)); [intros; ring|rewrite Q, Dd; ring]]. intros w. cbv beta. rewrite ?Es, ?Ev. reflexivity.
  - eapply expected_n_ext; [|apply (quad (fun x y => (mv + h_vv h * q * r * d * x + 0 * y - mv) ^ 2) (h_vv h ^ 2 * q ^ 2 * r ^ 2 * d ^ 2) 0 0); [intros; ring|rewrite Q, Dd, Rr; ring]]. intros w. cbv beta. rewrite ?Es, ?Ev. reflexivity.
  - eapply expected_n_ext; [|apply (quad (fun x y => (ms + h_S0 h * q * d * h_rho h * x + h_S0 h * q * d * y - ms) * (mv + h_vv h * q * r * d * x + 0 * y - mv)) (h_S0 h * h_vv h * q ^ 2 * d ^ 2 * h_rho h * r) (h_S0 h * h_vv h * q ^ 2 * d ^ 2 * r) 0); [intros; ring|rewrite Q, Dd; ring]]. intros w. cbv beta. rewrite ?Es, ?Ev. reflexivity.
Qed.

Definition all_theorems := (C116_qe_variance, C116_qe_spot_uncorrelated, C116_qe_first_spot, C116_qe_martingale_refuted, C116_euler_spot, C116_euler_first_step).
Print Assumptions all_theorems.

(* ---- cases ---- *)
Example C116_ex : exists g, heston_value (fun _ => Ok ex_L) ex_h QE 4 3 1 g /\ expected_n 6 g (cir_mean ex_h (3 / 4) (1 / 100)).
Proof.
  destruct (C116_qe_variance (fun _ => Ok ex_L) ex_h 4 3 ex_factors ex_sound ltac:(lia) ltac:(lia)) as (g & G & E & _). exists g. split; [exact G|]. replace (3 / 4) with (INR 3 * (h_tau ex_h / INR 4)) by (cbn; lra). exact E.
Qed.
Example C116_ex_euler : exists g, heston_value (fun _ => Ok ex_L) ex_h "euler_with_absorption_of_volatility_process" 2 2 0 g /\ expected_n 4 g (7 / 10 * (1 + 1 / 100 / 2) ^ 2).
Proof.
  destruct (C116_euler_spot (fun _ => Ok ex_L) ex_h "euler_with_absorption_of_volatility_process" 2 2 ex_factors ltac:(cbn; lra) ltac:(lia) ltac:(lia) (or_introl eq_refl)) as (g & G & E). exists g. split; [exact G|]. replace (7 / 10 * (1 + 1 / 100 / 2) ^ 2) with (h_S0 ex_h * (1 + h_mu ex_h * (h_tau ex_h / INR 2)) ^ 2) by (cbn; lra). exact E.
Qed.
