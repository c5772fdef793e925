(* Expectations of the simulated Heston paths *)
From Coq Require Import Reals Lra Lia List String.
From Coquelicot Require Import Coquelicot.
From Verif Require Import Base NormalModel NormalProofs BsProofs MonteModel MonteSpec MonteProofs HestonSimModel HestonSimSpec HestonSimProofs MeanSpec MeanProofs PathMeanProofs MomentProofs HestonMeanSpec.
Open Scope R_scope.

(* ---- iterated steps ---- *)
Fixpoint run {A} (step : A -> R -> R -> A) (a : A) (z : nat -> nat -> R) (i : nat) : A :=
  match i with O => a | Datatypes.S i => step (run step a z i) (z i 0%nat) (z i 1%nat) end.
Lemma run_ext {A} (step : A -> R -> R -> A) a z y i : (forall j c, (j < i)%nat -> z j c = y j c) -> run step a z i = run step a y i.
Proof. induction i as [|i IH]; intros E; cbn [run]; [reflexivity|]. rewrite IH, !E by (intros; try apply E; lia). reflexivity. Qed.
Lemma run_shift {A} (step : A -> R -> R -> A) a z i : run step a z (Datatypes.S i) = run step (step a (z O 0%nat) (z O 1%nat)) (fun j => z (Datatypes.S j)) i.
Proof. induction i as [|i IH]; [reflexivity|]. change (run step a z (Datatypes.S (Datatypes.S i))) with (step (run step a z (Datatypes.S i)) (z (Datatypes.S i) 0%nat) (z (Datatypes.S i) 1%nat)). rewrite IH. reflexivity. Qed.
Lemma paired_shift x y w i c : paired (followed_by x (followed_by y w)) (Datatypes.S i) c = paired w i c.
Proof. unfold paired. destruct (Nat.eqb c 0); [replace (2 * Datatypes.S i + 1)%nat with (Datatypes.S (Datatypes.S (2 * i + 1))) by lia|replace (2 * Datatypes.S i)%nat with (Datatypes.S (Datatypes.S (2 * i))) by lia]; reflexivity. Qed.
Lemma expected_run {A} (step : A -> R -> R -> A) (inv : A -> Prop) (U : nat -> A -> R) :
  (forall a y x, inv a -> inv (step a y x)) ->
  (forall i a, inv a -> exists k, (forall x, expected (fun y => U i (step a y x)) (k x)) /\ expected k (U (Datatypes.S i) a)) ->
  forall n a, inv a -> expected_n (2 * n) (fun w => U O (run step a (paired w) n)) (U n a).
Proof.
  intros I H. induction n as [|n IH]; intros a Ia; [cbn; reflexivity|]. replace (2 * Datatypes.S n)%nat with (Datatypes.S (Datatypes.S (2 * n))) by lia. cbn [expected_n]. destruct (H n a Ia) as (k & K1 & K2). exists k. split; [|exact K2]. intros x.
  exists (fun y => U n (step a y x)). split; [|apply K1]. intros y. eapply expected_n_ext; [|apply (IH (step a y x)); apply I; exact Ia]. intros w. cbv beta. rewrite run_shift. f_equal. apply run_ext. intros j c _. symmetry. apply paired_shift.
Qed.

(* ---- the variance of the quadratic exponential scheme ---- *)
Definition qev (h : heston) (dt v z : R) : R := match qe_variance h dt (Fin v) z with Fin x => x | _ => 0 end.
Lemma qev_fin h dt v z : sound h -> 0 < dt -> 0 <= v -> qe_variance h dt (Fin v) z = Fin (qev h dt v z) /\ 0 <= qev h dt v z.
Proof. intros H D V. destruct (qe_nonneg h dt v H D V z) as (x & E & P). unfold qev. rewrite E. auto. Qed.
Lemma qev_low h dt v : sound h -> 0 < dt -> 0 <= v -> cir_variance h dt v <= 3 / 2 * cir_mean h dt v ^ 2 ->
  exists a b, quadratic_law (cir_mean h dt v) (cir_variance h dt v) a b /\ forall z, qev h dt v z = a * (b + z) ^ 2.
Proof. intros H D V L. destruct (qe_low_step h dt v H D V L) as (a & b & Q & E). exists a, b. split; [exact Q|]. intros z. unfold qev. rewrite E. reflexivity. Qed.
Lemma qev_high h dt v : sound h -> 0 < dt -> 0 <= v -> 3 / 2 * cir_mean h dt v ^ 2 < cir_variance h dt v ->
  exists p beta c, exponential_law (cir_mean h dt v) (cir_variance h dt v) p beta /\ cdf c = p /\ (forall z, z < c -> qev h dt v z = 0) /\ (forall z, c < z -> qev h dt v z = tail p z / beta).
Proof.
  intros H D V L. destruct (qe_high_step h dt v H D V L) as (p & beta & Q & E). pose proof Q as ((P0 & P1) & B & _). destruct (cdf_onto p (conj P0 P1)) as (c & C). exists p, beta, c. split; [exact Q|]. split; [exact C|]. split; intros z Z; destruct (E z) as (x & X & X0 & Xi); unfold qev; rewrite X.
  - pose proof (cdf_incr z c Z). apply Rle_antisym; [|exact X0]. apply Xi; [lra|]. unfold exponential_cdf. rewrite Rmult_0_r, exp_0. lra.
  - pose proof (cdf_incr c z Z). pose proof (cdf_lt_1 z). assert (T : 0 < tail p z / beta). { apply Rdiv_lt_0_compat; [|exact B]. unfold tail. rewrite <- ln_1. apply ln_increasing; [lra|]. apply Rlt_div_r; lra. }
    assert (Ec : exponential_cdf p beta (tail p z / beta) = cdf z). { unfold exponential_cdf. replace (- beta * (tail p z / beta)) with (- tail p z) by (field; lra). rewrite Rmult_minus_distr_l, <- (tail_exp p (conj P0 P1)). ring. }
    apply Rle_antisym; [apply Xi; [lra|rewrite Ec; lra]|]. destruct (Rle_dec (tail p z / beta) x) as [G|G]; [exact G|]. exfalso. pose proof (proj1 (Xi x X0) ltac:(lra)) as F. rewrite <- Ec in F. unfold exponential_cdf in F. assert (exp (- beta * (tail p z / beta)) < exp (- beta * x)) by (apply exp_increasing; nra). nra.
Qed.
Lemma qev_mean h dt v : sound h -> 0 < dt -> 0 <= v -> expected (qev h dt v) (cir_mean h dt v).
Proof.
  intros H D V. destruct (Rle_dec (cir_variance h dt v) (3 / 2 * cir_mean h dt v ^ 2)) as [L|L].
  - destruct (qev_low h dt v H D V L) as (a & b & (_ & _ & M & _) & E). rewrite <- M. eapply expected_ext; [|apply expected_quadratic]. intros z. symmetry. apply E.
  - destruct (qev_high h dt v H D V ltac:(lra)) as (p & beta & c & (P & B & M & _) & C & E0 & E1). rewrite <- M. pose proof (expected_tail p c P C (fun z => beta * qev h dt v z)) as T. replace ((1 - p) / beta) with (/ beta * (1 - p)) by (field; lra). eapply expected_ext; [|apply (expected_scal (fun z => beta * qev h dt v z) _ (/ beta)); apply T].
    + intros z. cbv beta. field. lra.
    + intros z Z. rewrite E0 by exact Z. ring.
    + intros z Z. rewrite E1 by exact Z. field. lra.
Qed.
Lemma qev_square h dt v : sound h -> 0 < dt -> 0 <= v -> expected (fun z => qev h dt v z ^ 2) (cir_variance h dt v + cir_mean h dt v ^ 2).
Proof.
  intros H D V. destruct (Rle_dec (cir_variance h dt v) (3 / 2 * cir_mean h dt v ^ 2)) as [L|L].
  - destruct (qev_low h dt v H D V L) as (a & b & (_ & _ & M & S2) & E). rewrite <- M, <- S2. replace (2 * a ^ 2 * (1 + 2 * b ^ 2) + (a * (1 + b ^ 2)) ^ 2) with (a ^ 2 * (b ^ 4 + 6 * b ^ 2 + 3)) by ring. eapply expected_ext; [|apply expected_quartic]. intros z. cbv beta. rewrite E. reflexivity.
  - destruct (qev_high h dt v H D V ltac:(lra)) as (p & beta & c & (P & B & M & S2) & C & E0 & E1). rewrite <- M, <- S2. pose proof (expected_tail_sq p c P C (fun z => beta ^ 2 * qev h dt v z ^ 2)) as T. replace ((1 - p ^ 2) / beta ^ 2 + ((1 - p) / beta) ^ 2) with (/ beta ^ 2 * (2 * (1 - p))) by (field; lra). eapply expected_ext; [|apply (expected_scal (fun z => beta ^ 2 * qev h dt v z ^ 2) _ (/ beta ^ 2)); apply T].
    + intros z. cbv beta. field. lra.
    + intros z Z. rewrite E0 by exact Z. ring.
    + intros z Z. rewrite E1 by exact Z. field. lra.
Qed.

(* ---- the paths ---- *)
Definition qe_step (h : heston) (dt : R) (a : R * R) (y x : R) : R * R :=
  let v' := qev h dt (snd a) x in
  (fst a + h_mu h * dt + k0 h dt + k1 h dt * snd a + k2 h dt * v' + sqrt (k34 h dt * snd a + k34 h dt * v') * y, v').
Lemma k34_nonneg h dt : sound h -> 0 < dt -> 0 <= k34 h dt.
Proof. intros (_ & _ & _ & _ & _ & RH & _) D. unfold k34. assert (0 <= 1 - h_rho h ^ 2) by nra. nra. Qed.
Lemma qe_run_real h dt z i : sound h -> 0 < dt -> 
  qe_at h dt (qe_variance h dt) z i = (Fin (fst (run (qe_step h dt) (ln (h_S0 h), h_var0 h) z i)), Fin (snd (run (qe_step h dt) (ln (h_S0 h), h_var0 h) z i))) /\ 0 <= snd (run (qe_step h dt) (ln (h_S0 h), h_var0 h) z i).
Proof.
  intros H D. pose proof (k34_nonneg h dt H D) as K. induction i as [|i [IH V]].
  - destruct H as (S0 & V0 & _). cbn. unfold nlog. destruct (Rlt_dec 0 (h_S0 h)); [|contradiction]. auto.
  - cbn [qe_at run]. rewrite IH. set (a := run (qe_step h dt) (ln (h_S0 h), h_var0 h) z i) in *. destruct (qev_fin h dt (snd a) (z i 1%nat) H D V) as [E V']. rewrite E. cbn [fst snd qe_step]. split; [|exact V']. f_equal. unfold qe_log_spot. cbn [mul add]. unfold nsqrt. destruct (Rlt_dec (k34 h dt * snd a + k34 h dt * qev h dt (snd a) (z i 1%nat)) 0) as [N|_]; [nra|]. reflexivity.
Qed.
Lemma qe_value cholesky h n t : factors cholesky 2 (correlation2 (h_rho h)) -> sound h -> (0 < n)%nat ->
  let st w := run (qe_step h (h_tau h / INR n)) (ln (h_S0 h), h_var0 h) (paired w) t in
  heston_value cholesky h "quadratic_exponential" n t 0 (fun w => exp (fst (st w))) /\ heston_value cholesky h "quadratic_exponential" n t 1 (fun w => snd (st w)).
Proof.
  intros F H N st. pose proof H as (_ & _ & W & K & _ & _ & T). assert (D : 0 < h_tau h / INR n) by (apply Rdiv_lt_0_compat; [exact T|apply lt_0_INR; exact N]).
  split; intros w; (eexists; split; [apply qe_run; cbn [nr nc]; auto; lra|]); cbn [me]; unfold dt_of; cbn [nr me]; rewrite (proj1 (qe_run_real h (h_tau h / INR n) (paired w) t H D)); reflexivity.
Qed.

Lemma cir_mean_compose h s t v : cir_mean h t (cir_mean h s v) = cir_mean h (s + t) v.
Proof. unfold cir_mean. replace (- h_kappa h * (s + t)) with (- h_kappa h * s + - h_kappa h * t) by ring. rewrite exp_plus. ring. Qed.
Lemma cir_mean_0 h v : cir_mean h 0 v = v. Proof. unfold cir_mean. rewrite Rmult_0_r, exp_0. ring. Qed.
Lemma cir_variance_0 h v : cir_variance h 0 v = 0. Proof. unfold cir_variance. cbv zeta. rewrite Rmult_0_r, exp_0. unfold Rdiv. ring. Qed.
(* total variance *)
Lemma cir_variance_compose h s t v : h_kappa h <> 0 -> cir_variance h t (cir_mean h s v) + exp (- h_kappa h * t) ^ 2 * cir_variance h s v = cir_variance h (s + t) v.
Proof. intros K. unfold cir_variance, cir_mean. cbv zeta. replace (- h_kappa h * (s + t)) with (- h_kappa h * s + - h_kappa h * t) by ring. rewrite exp_plus. set (a := exp (- h_kappa h * s)). set (b := exp (- h_kappa h * t)). field. exact K. Qed.

Lemma qe_mean_run h dt n a : sound h -> 0 < dt -> 0 <= snd a -> expected_n (2 * n) (fun w => snd (run (qe_step h dt) a (paired w) n)) (cir_mean h (INR n * dt) (snd a)).
Proof.
  intros H D V. set (U := fun i (a : R * R) => cir_mean h (INR i * dt) (snd a)). pose proof (expected_run (qe_step h dt) (fun a => 0 <= snd a) U) as E.
  eapply expected_n_ext; [|apply (E ltac:(intros b y x B; cbn [qe_step snd]; apply (proj2 (qev_fin h dt (snd b) x H D B)))); [|exact V]].
  - intros w. unfold U. cbn [INR]. rewrite Rmult_0_l. apply cir_mean_0.
  - intros i b B. unfold U. exists (fun x => cir_mean h (INR i * dt) (qev h dt (snd b) x)). split; [intros x; cbn [qe_step snd]; apply expected_const|].
    rewrite S_INR. replace ((INR i + 1) * dt) with (dt + INR i * dt) by ring. rewrite <- cir_mean_compose. set (e := exp (- h_kappa h * (INR i * dt))). replace (cir_mean h (INR i * dt) (cir_mean h dt (snd b))) with (h_theta h * (1 - e) * 1 + e * cir_mean h dt (snd b)) by (unfold cir_mean at 2; fold e; ring).
    eapply expected_ext; [|exact (expected_lin _ _ _ _ (h_theta h * (1 - e)) e (expected_const 1) (qev_mean h dt (snd b) H D B))]. intros x. cbv beta. unfold cir_mean. fold e. ring.
Qed.
Lemma qe_square_run h dt n a : sound h -> 0 < dt -> 0 <= snd a -> expected_n (2 * n) (fun w => snd (run (qe_step h dt) a (paired w) n) ^ 2) (cir_variance h (INR n * dt) (snd a) + cir_mean h (INR n * dt) (snd a) ^ 2).
Proof.
  intros H D V. pose proof H as (_ & _ & _ & K & _). set (U := fun i (a : R * R) => cir_variance h (INR i * dt) (snd a) + cir_mean h (INR i * dt) (snd a) ^ 2). pose proof (expected_run (qe_step h dt) (fun a => 0 <= snd a) U) as E.
  eapply expected_n_ext; [|apply (E ltac:(intros b y x B; cbn [qe_step snd]; apply (proj2 (qev_fin h dt (snd b) x H D B)))); [|exact V]].
  - intros w. unfold U. cbn [INR]. rewrite Rmult_0_l, cir_mean_0, cir_variance_0. ring.
  - intros i b B. unfold U. exists (fun x => cir_variance h (INR i * dt) (qev h dt (snd b) x) + cir_mean h (INR i * dt) (qev h dt (snd b) x) ^ 2). split; [intros x; cbn [qe_step snd]; apply expected_const|].
    rewrite S_INR. replace ((INR i + 1) * dt) with (dt + INR i * dt) by ring. rewrite <- cir_mean_compose, <- cir_variance_compose by lra. set (t := INR i * dt). set (e := exp (- h_kappa h * t)). set (m := cir_mean h dt (snd b)). set (s2 := cir_variance h dt (snd b)).
    set (c1 := h_vv h ^ 2 * e * (1 - e) / h_kappa h + 2 * e * (h_theta h * (1 - e))). set (c0 := h_theta h * h_vv h ^ 2 * (1 - e) ^ 2 / (2 * h_kappa h) + (h_theta h * (1 - e)) ^ 2).
    assert (P : forall v, cir_variance h t v + cir_mean h t v ^ 2 = 1 * (c0 * 1 + c1 * v) + e ^ 2 * v ^ 2) by (intros v; unfold cir_variance, cir_mean, c0, c1; cbv zeta; fold e; field; lra).
    replace (cir_variance h t m + e ^ 2 * s2 + cir_mean h t m ^ 2) with (1 * (c0 * 1 + c1 * m) + e ^ 2 * (s2 + m ^ 2)) by (rewrite Rplus_assoc, (Rplus_comm (e ^ 2 * s2)), <- Rplus_assoc, P; ring).
    eapply expected_ext; [|exact (expected_lin _ _ _ _ 1 (e ^ 2) (expected_lin _ _ _ _ c0 c1 (expected_const 1) (qev_mean h dt (snd b) H D B)) (qev_square h dt (snd b) H D B))]. intros x. cbv beta. symmetry. apply P.
Qed.
(* the spot number averaged out *)
Lemma qe_spot h dt a x : sound h -> 0 < dt -> 0 <= snd a -> expected (fun y => exp (fst (qe_step h dt a y x))) (exp (fst a + h_mu h * dt + known h dt (snd a)) * exp (exposure h dt * qev h dt (snd a) x)).
Proof.
  intros H D V. pose proof (k34_nonneg h dt H D) as K. pose proof H as (_ & _ & Vv & _). destruct (qev_fin h dt (snd a) x H D V) as [_ V']. cbn [qe_step fst]. set (v := snd a) in *. set (v' := qev h dt v x) in *. set (q := sqrt (k34 h dt * v + k34 h dt * v')). assert (Q : q ^ 2 = k34 h dt * v + k34 h dt * v') by (unfold q; rewrite <- Rsqr_pow2; apply Rsqr_sqrt; nra).
  rewrite <- exp_plus. set (b := fst a + h_mu h * dt + k0 h dt + k1 h dt * v + k2 h dt * v'). replace (fst a + h_mu h * dt + known h dt v + exposure h dt * v') with (b + q ^ 2 / 2); [apply expected_exp|]. rewrite Q. unfold b, known, exposure, k0, k1, k2, k34. field. lra.
Qed.
Lemma uncorrelated h dt v : h_rho h = 0 -> known h dt v = 0 /\ exposure h dt = 0.
Proof. intros E. unfold known, exposure. rewrite E. split; unfold Rdiv; ring. Qed.
Lemma qe_spot_run h dt n a : sound h -> h_rho h = 0 -> 0 < dt -> 0 <= snd a -> expected_n (2 * n) (fun w => exp (fst (run (qe_step h dt) a (paired w) n))) (exp (fst a + h_mu h * (INR n * dt))).
Proof.
  intros H R0 D V. set (U := fun i (a : R * R) => exp (fst a + h_mu h * (INR i * dt))). pose proof (expected_run (qe_step h dt) (fun a => 0 <= snd a) U) as E.
  eapply expected_n_ext; [|apply (E ltac:(intros b y x B; cbn [qe_step snd]; apply (proj2 (qev_fin h dt (snd b) x H D B)))); [|exact V]].
  - intros w. unfold U. cbn [INR]. f_equal. ring.
  - intros i b B. exists (fun _ => U (Datatypes.S i) b). split; [|apply expected_const]. intros x. pose proof (qe_spot h dt b x H D B) as S1. destruct (uncorrelated h dt (snd b) R0) as [K0 E0]. rewrite K0, E0, Rmult_0_l, exp_0, Rmult_1_r, Rplus_0_r in S1. unfold U. rewrite S_INR.
    replace (exp (fst b + h_mu h * ((INR i + 1) * dt))) with (exp (h_mu h * (INR i * dt)) * exp (fst b + h_mu h * dt)) by (rewrite <- exp_plus; f_equal; ring). eapply expected_ext; [|exact (expected_scal _ _ (exp (h_mu h * (INR i * dt))) S1)]. intros y. cbv beta. rewrite <- exp_plus. f_equal. ring.
Qed.

(* ---- Euler schemes ---- *)
Definition fixed (method : string) (a : R) : R := match euler_fix method (Fin a) with Fin x => x | _ => 0 end.
Lemma fixed_fin method a : In method euler_methods -> euler_fix method (Fin a) = Fin (fixed method a) /\ 0 <= fixed method a /\ (0 <= a -> fixed method a = a).
Proof. intros M. destruct (fix_nonneg method a M) as (b & E & P & Q). unfold fixed. rewrite E. auto. Qed.
Definition euler_step (h : heston) (dt : R) (method : string) (a : R * R) (y x : R) : R * R :=
  let v := fixed method (snd a) in
  (fst a + fst a * (h_mu h * dt + sqrt v * ((y + h_rho h * x) * sqrt dt)), v + h_kappa h * (h_theta h - v) * dt + h_vv h * sqrt v * (sqrt (1 - h_rho h ^ 2) * x * sqrt dt)).
Lemma euler_run_real h method (z : mat R) i : In method euler_methods ->
  euler_at h (dt_of h z) (euler_fix method) (shocks h z) i = (Fin (fst (run (euler_step h (dt_of h z) method) (h_S0 h, h_var0 h) (me z) i)), Fin (snd (run (euler_step h (dt_of h z) method) (h_S0 h, h_var0 h) (me z) i))).
Proof.
  intros M. induction i as [|i IH]; [reflexivity|]. cbn [euler_at run]. rewrite IH. set (a := run _ _ _ i). destruct (fixed_fin method (snd a) M) as (E & P & _). rewrite E. unfold nsqrt. destruct (Rlt_dec (fixed method (snd a)) 0) as [N|_]; [lra|]. unfold shocks, shock. cbn [Nat.eqb sub neg add mul euler_step fst snd]. reflexivity.
Qed.
Lemma euler_spot_run h dt method n a : expected_n (2 * n) (fun w => fst (run (euler_step h dt method) a (paired w) n)) (fst a * (1 + h_mu h * dt) ^ n).
Proof.
  set (U := fun i (a : R * R) => fst a * (1 + h_mu h * dt) ^ i). pose proof (expected_run (euler_step h dt method) (fun _ => True) U (fun _ _ _ _ => I)) as E. eapply expected_n_ext; [|apply E; [|exact I]].
  - intros w. unfold U. cbn [pow]. ring.
  - intros i b _. unfold U. set (v := fixed method (snd b)). set (c := fst b * sqrt v * sqrt dt * (1 + h_mu h * dt) ^ i). set (m := fst b * (1 + h_mu h * dt) ^ Datatypes.S i). exists (fun x => m + c * h_rho h * x). split.
    + intros x. pose proof (expected_lin _ _ _ _ (m + c * h_rho h * x) c (expected_const 1) expected_id) as L. replace ((m + c * h_rho h * x) * 1 + c * 0) with (m + c * h_rho h * x) in L by ring. eapply expected_ext; [|exact L]. intros y. cbv beta. cbn [euler_step fst]. fold v. unfold m, c. cbn [pow]. ring.
    + pose proof (expected_lin _ _ _ _ m (c * h_rho h) (expected_const 1) expected_id) as L. replace (m * 1 + c * h_rho h * 0) with m in L by ring. eapply expected_ext; [|exact L]. intros x. cbv beta. ring.
Qed.
