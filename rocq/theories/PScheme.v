(* Properties C136-C138: geometric Brownian motion schemes and the multiprocessing helper. *)
From Coq Require Import ZArith Reals List Bool Lra Lia.
From Coquelicot Require Import Coquelicot.
From Flocq Require Import Core.
From Verif Require Import Base NormalModel MonteModel MonteSpec HwModel MeanSpec MeanProofs PathMeanProofs SchemeModel SchemeSpec SchemeProofs RateProofs.
Import ListNotations.
Open Scope R_scope.

(* ---- C136: three programs, one function ---- *)
Theorem C136_agree (junk junk' : nat -> R) (x0 mu sigma T dt : R) (z : list R) (method : Z) : (0 <= method <= 3)%Z ->
  simulate_gbm_numba_prange junk x0 mu sigma T dt z method = simulate_gbm x0 mu sigma T dt z method /\ simulate_gbm_numba junk' x0 mu sigma T dt z method = simulate_gbm x0 mu sigma T dt z method.
Proof.
  intros M. rewrite gbm_path, prange_path, numba_path. assert (G : exists f, growth method = Some f) by (assert (H : method = 0%Z \/ method = 1%Z \/ method = 2%Z \/ method = 3%Z) by lia; destruct H as [->|[->|[->| ->]]]; cbn; eauto). destruct G as [f ->]. split; reflexivity.
Qed.
(* the path starts at x0 and multiplies the growths of its steps; it is returned exactly when there is a number for each step *)
Theorem C136_path (x0 mu sigma T dt : R) (z : list R) (method : Z) (f : R -> R -> R -> R -> R) : 0 < dt -> growth method = Some f ->
  (Z.of_nat (List.length z) = Zceil (T / dt) -> exists l, simulate_gbm x0 mu sigma T dt z method = Ok l /\ List.length l = S (List.length z) /\ forall k, (k <= List.length z)%nat -> nth_error l k = Some (x0 * product (map (f mu sigma dt) (firstn k z)))) /\
  (Z.of_nat (List.length z) <> Zceil (T / dt) -> simulate_gbm x0 mu sigma T dt z method = Err ValueError).
Proof.
  intros P F. split; intros L.
  - rewrite gbm_path, (checked_iff T dt z (List.length z) P (eq_sym L) eq_refl). cbn [bind]. rewrite F. eexists. split; [reflexivity|]. split; [apply path_length|]. intros k K. apply path_nth. exact K.
  - rewrite gbm_path. unfold checked, nb_of_steps, eqb. destruct (Req_EM_T dt 0); [lra|]. cbn [negb guard bind]. destruct (Z.eqb_spec (Z.of_nat (List.length z)) (Zceil (T / dt))); [contradiction|]. reflexivity.
Qed.
(* another method: unbound in one program, uninitialised memory in the others *)
Theorem C136_unknown_method (junk : nat -> R) (x0 mu sigma T dt : R) (z : list R) (method : Z) : growth method = None -> 0 < dt -> Z.of_nat (List.length z) = Zceil (T / dt) ->
  simulate_gbm x0 mu sigma T dt z method = Err NameError /\ simulate_gbm_numba_prange junk x0 mu sigma T dt z method = Ok (x0 :: map (fun i => x0 * junk i) (seq 0 (List.length z))) /\
  simulate_gbm_numba junk x0 mu sigma T dt z method = Ok (x0 :: map junk (seq 1 (List.length z))).
Proof. intros F P L. rewrite gbm_path, prange_path, numba_path, F, (checked_iff T dt z (List.length z) P (eq_sym L) eq_refl). repeat split; reflexivity. Qed.
Theorem C136_no_step (junk : nat -> R) (x0 mu sigma T : R) (z : list R) (method : Z) :
  simulate_gbm x0 mu sigma T 0 z method = Err ZeroDivisionError /\ simulate_gbm_numba_prange junk x0 mu sigma T 0 z method = Err ZeroDivisionError /\ simulate_gbm_numba junk x0 mu sigma T 0 z method = Err ZeroDivisionError.
Proof. rewrite gbm_path, prange_path, numba_path. unfold checked, nb_of_steps, eqb. destruct (Req_EM_T 0 0); [|lra]. repeat split; reflexivity. Qed.
(* which schemes keep prices positive whatever the numbers *)
Theorem C136_positive (x0 mu sigma T dt : R) (method : Z) (n : nat) : 0 < x0 -> 0 < dt -> Zceil (T / dt) = Z.of_nat n -> (0 < n)%nat -> (0 <= method <= 3)%Z ->
  ((forall z l x, List.length z = n -> simulate_gbm x0 mu sigma T dt z method = Ok l -> In x l -> 0 < x) <-> keeps_positive method mu sigma dt).
Proof.
  intros X P N N0 M. assert (G : exists f, growth method = Some f) by (assert (H : method = 0%Z \/ method = 1%Z \/ method = 2%Z \/ method = 3%Z) by lia; destruct H as [->|[->|[->| ->]]]; cbn; eauto). destruct G as [f F].
  assert (E : (forall z l x, List.length z = n -> simulate_gbm x0 mu sigma T dt z method = Ok l -> In x l -> 0 < x) <-> forall r, 0 < f mu sigma dt r).
  { split.
    - intros H r. set (z := r :: repeat 0 (Nat.pred n)). assert (L : List.length z = n) by (cbn; rewrite repeat_length; lia). destruct (C136_path x0 mu sigma T dt z method f P F) as [Q _]. destruct (Q ltac:(rewrite L, N; reflexivity)) as (l & E & _ & V).
      specialize (V 1%nat ltac:(lia)). unfold z in V. cbn [firstn map product] in V. apply nth_error_In in V. pose proof (H z l _ L E V) as K. rewrite Rmult_1_r in K. apply Rmult_lt_reg_l with x0; [exact X|]. rewrite Rmult_0_r. exact K.
    - intros H z l x L E I. destruct (C136_path x0 mu sigma T dt z method f P F) as [Q _]. destruct (Q ltac:(rewrite L, N; reflexivity)) as (l' & E' & LL & V). rewrite E in E'. injection E' as <-. apply In_nth_error in I as [k K]. assert (k <= List.length z)%nat by (assert (k < List.length l)%nat by (apply nth_error_Some; congruence); lia). rewrite V in K by assumption. injection K as <-. apply Rmult_lt_0_compat; [exact X|].
      generalize (firstn k z). intros y. induction y as [|a y IH]; cbn; [lra|]. apply Rmult_lt_0_compat; [apply H|exact IH]. }
  rewrite E. clear E. pose proof (sqrt_lt_R0 dt P) as S0. pose proof (sqrt_sq sigma dt P) as Q.
  assert (H : method = 0%Z \/ method = 1%Z \/ method = 2%Z \/ method = 3%Z) by lia. destruct H as [->|[->|[->| ->]]]; injection F as <-; cbn [keeps_positive].
  - split; [trivial|]. intros _ r. apply exp_pos.
  - unfold euler_growth. split.
    + intros H. pose proof (H 0) as H0. destruct (Req_dec sigma 0) as [Z|Z]; [split; [exact Z|lra]|]. exfalso. specialize (H (- (2 + mu * dt) / (sigma * sqrt dt))). replace (sigma * sqrt dt * (- (2 + mu * dt) / (sigma * sqrt dt))) with (- (2 + mu * dt)) in H by (field; split; lra). lra.
    + intros [-> H] r. lra.
  - assert (C : forall r, milstein_growth mu sigma dt r = (sigma * sqrt dt * r + 1) ^ 2 / 2 + (1 + 2 * (mu * dt) - sigma ^ 2 * dt) / 2) by (intros r; unfold milstein_growth; replace (sigma ^ 2 * dt * (r ^ 2 - 1) / 2) with ((sigma * sqrt dt) ^ 2 * r ^ 2 / 2 - sigma ^ 2 * dt / 2) by (rewrite Q; field); field). split.
    + intros H. destruct (Req_dec sigma 0) as [Z|Z]; [left; split; [exact Z|]; pose proof (H 0) as H0; unfold milstein_growth in H0; rewrite Z in H0; lra|right; split; [exact Z|]]. specialize (H (- 1 / (sigma * sqrt dt))). rewrite C in H. replace (sigma * sqrt dt * (- 1 / (sigma * sqrt dt)) + 1) with 0 in H by (field; split; lra). lra.
    + intros [[-> H]|[_ H]] r; [unfold milstein_growth; lra|]. rewrite C. pose proof (pow2_ge_0 (sigma * sqrt dt * r + 1)). lra.
  - assert (C : forall r, second_growth mu sigma dt r = (sigma * sqrt dt * r + (1 + mu * dt)) ^ 2 / 2 + (1 - sigma ^ 2 * dt) / 2) by (intros r; unfold second_growth, milstein_growth; replace (sigma ^ 2 * dt * (r ^ 2 - 1) / 2) with ((sigma * sqrt dt) ^ 2 * r ^ 2 / 2 - sigma ^ 2 * dt / 2) by (rewrite Q; field); field). split.
    + intros H. destruct (Req_dec sigma 0) as [->|Z]; [lra|]. specialize (H (- (1 + mu * dt) / (sigma * sqrt dt))). rewrite C in H. replace (sigma * sqrt dt * (- (1 + mu * dt) / (sigma * sqrt dt)) + (1 + mu * dt)) with 0 in H by (field; split; lra). lra.
    + intros H r. rewrite C. pose proof (pow2_ge_0 (sigma * sqrt dt * r + (1 + mu * dt))). lra.
Qed.

(* ---- C137: moments and convergence ---- *)
Theorem C137_moments (x0 mu sigma T dt : R) (method : Z) (n k : nat) : 0 < dt -> Zceil (T / dt) = Z.of_nat n -> (k <= n)%nat -> (0 <= method <= 3)%Z ->
  exists g, path_value x0 mu sigma T dt method n k g /\ expected_n k g (x0 * mean_growth method mu sigma dt ^ k) /\ expected_n k (fun w => g w ^ 2) (x0 ^ 2 * square_growth method mu sigma dt ^ k).
Proof.
  intros P N K M. assert (G : exists f, growth method = Some f) by (assert (H : method = 0%Z \/ method = 1%Z \/ method = 2%Z \/ method = 3%Z) by lia; destruct H as [->|[->|[->| ->]]]; cbn; eauto). destruct G as [f F].
  exists (value_of (f mu sigma dt) x0 k). split; [apply value_path; assumption|]. split; [apply value_mean; assumption|apply value_square; assumption].
Qed.
(* mean squared distance to the exact solution on the same numbers *)
Theorem C137_distance (x0 mu sigma T dt : R) (method : Z) (n k : nat) : 0 < dt -> Zceil (T / dt) = Z.of_nat n -> (k <= n)%nat -> (0 <= method <= 3)%Z ->
  exists g0 g, path_value x0 mu sigma T dt 0 n k g0 /\ path_value x0 mu sigma T dt method n k g /\
    (forall w, g0 w = x0 * exp ((mu - sigma ^ 2 / 2) * (INR k * dt) + sigma * sqrt dt * total k w)) /\
    expected_n k (fun w => (g0 w - g w) ^ 2) (x0 ^ 2 * (exp ((2 * mu + sigma ^ 2) * (INR k * dt)) - 2 * cross_growth method mu sigma dt ^ k + square_growth method mu sigma dt ^ k)).
Proof.
  intros P N K M. assert (G : exists f, growth method = Some f) by (assert (H : method = 0%Z \/ method = 1%Z \/ method = 2%Z \/ method = 3%Z) by lia; destruct H as [->|[->|[->| ->]]]; cbn; eauto). destruct G as [f F].
  exists (value_of (exact_growth mu sigma dt) x0 k), (value_of (f mu sigma dt) x0 k). split; [apply value_path; auto|]. split; [apply value_path; auto|]. split.
  - intros w. unfold value_of. f_equal. unfold total. clear. rewrite map_map. enough (H : forall s, product (map (fun x => exact_growth mu sigma dt (w x)) (seq s k)) = exp ((mu - sigma ^ 2 / 2) * (INR k * dt) + sigma * sqrt dt * fold_right Rplus 0 (map w (seq s k)))) by apply H. induction k as [|k IH]; intros s; [cbn [seq map product fold_right INR]; rewrite Rmult_0_l, !Rmult_0_r, Rplus_0_l; symmetry; apply exp_0|]. rewrite S_INR. cbn [seq map product fold_right]. rewrite IH. unfold exact_growth. rewrite <- exp_plus. f_equal. ring.
  - replace (exp ((2 * mu + sigma ^ 2) * (INR k * dt))) with (exp ((2 * mu + sigma ^ 2) * dt) ^ k) by (rewrite <- Rpower_pow by apply exp_pos; unfold Rpower; rewrite ln_exp; f_equal; ring). apply value_distance; assumption.
Qed.
(* with ever more steps to a fixed horizon every scheme approaches the exact solution, in mean and in mean square *)
Theorem C137_convergence (x0 mu sigma T : R) (method : Z) : 0 < T -> (0 <= method <= 3)%Z ->
  exists g0 g : nat -> (nat -> R) -> R, exists mean distance : nat -> R,
    (forall n, (0 < n)%nat -> path_value x0 mu sigma T (T / INR n) 0 n n (g0 n) /\ path_value x0 mu sigma T (T / INR n) method n n (g n) /\
                expected_n n (g n) (mean n) /\ expected_n n (fun w => (g0 n w - g n w) ^ 2) (distance n)) /\
    is_lim_seq mean (x0 * exp (mu * T)) /\ is_lim_seq distance 0.
Proof.
  intros P M. assert (G : exists f, growth method = Some f) by (assert (H : method = 0%Z \/ method = 1%Z \/ method = 2%Z \/ method = 3%Z) by lia; destruct H as [->|[->|[->| ->]]]; cbn; eauto). destruct G as [f F].
  exists (fun n => value_of (exact_growth mu sigma (T / INR n)) x0 n), (fun n => value_of (f mu sigma (T / INR n)) x0 n).
  exists (fun n => x0 * mean_growth method mu sigma (T / INR n) ^ n), (fun n => x0 ^ 2 * (exp ((2 * mu + sigma ^ 2) * (T / INR n)) ^ n - 2 * cross_growth method mu sigma (T / INR n) ^ n + square_growth method mu sigma (T / INR n) ^ n)).
  split; [|split].
  - intros n N. pose proof (lt_0_INR n N) as I. assert (D : 0 < T / INR n) by (apply Rdiv_lt_0_compat; assumption). pose proof (steps_exact T n P N) as C. split; [apply value_path; auto|]. split; [apply value_path; auto|]. split; [apply value_mean; assumption|apply value_distance; assumption].
  - apply is_lim_seq_mult'; [apply is_lim_seq_const|]. apply (mean_lim mu sigma T method f F).
  - set (A := exp ((2 * mu + sigma ^ 2) * T)). replace 0 with (x0 ^ 2 * (A - 2 * A + A)) by ring. apply is_lim_seq_mult'; [apply is_lim_seq_const|]. apply is_lim_seq_plus'; [|apply (square_lim mu sigma T method f F)]. apply is_lim_seq_minus'.
    + apply (is_lim_seq_ext_loc (fun _ => A)); [|apply is_lim_seq_const]. exists 1%nat. intros n N. symmetry. apply (exact_power T (2 * mu + sigma ^ 2) n). lia.
    + apply is_lim_seq_mult'; [apply is_lim_seq_const|apply (cross_lim mu sigma T method f F)].
Qed.

(* ---- C139: how fast the errors vanish ---- *)
Theorem C139_errors_exist (x0 mu sigma T : R) (method : Z) : 0 < T -> (0 <= method <= 3)%Z -> (exists e, mean_error x0 mu sigma T method e) /\ (exists e, square_error x0 mu sigma T method e).
Proof.
  intros P M. assert (G : exists f, growth method = Some f) by (assert (H : method = 0%Z \/ method = 1%Z \/ method = 2%Z \/ method = 3%Z) by lia; destruct H as [->|[->|[->| ->]]]; cbn; eauto). destruct G as [f F]. exact (errors_exist x0 mu sigma T P method f F).
Qed.
(* direct integration has no error *)
Theorem C139_exact (x0 mu sigma T : R) (e e' : nat -> R) : 0 < T -> mean_error x0 mu sigma T 0 e -> square_error x0 mu sigma T 0 e' -> forall n, (0 < n)%nat -> e n = 0 /\ e' n = 0.
Proof.
  intros P H H' n N. rewrite (mean_error_is x0 mu sigma T P 0 exact_growth e eq_refl H n N), (square_error_is x0 mu sigma T P 0 exact_growth e' eq_refl H' n N). unfold mean_growth, cross_growth, square_growth. rewrite Rpow_mult_distr, !exact_power by exact N. replace ((2 * mu + sigma ^ 2) * T) with (mu * T + (mu + sigma ^ 2) * T) by ring. rewrite exp_plus. split; ring.
Qed.
(* Euler: the distance falls like the root of the step *)
Theorem C139_euler (x0 mu sigma T : R) (e : nat -> R) : 0 < T -> square_error x0 mu sigma T 1 e ->
  is_lim_seq (fun n => INR n * e n) (x0 ^ 2 * exp ((2 * mu + sigma ^ 2) * T) * (sigma ^ 4 * T ^ 2 / 2)).
Proof.
  intros P H. apply (is_lim_seq_ext_loc (fun n => INR n * (x0 ^ 2 * (exp ((2 * mu + sigma ^ 2) * T) - 2 * cross_growth 1 mu sigma (T / INR n) ^ n + square_growth 1 mu sigma (T / INR n) ^ n)))).
  { exists 1%nat. intros n N. rewrite (square_error_is x0 mu sigma T P 1 euler_growth e eq_refl H n) by lia. reflexivity. }
  evar_last; [refine (distance_first x0 mu sigma T (mu ^ 2) 0 0 0 (square_growth 1 mu sigma) (fun h => 1 + mu * h + sigma ^ 2 * h) _ _); intros h; unfold quartic, square_growth; ring|]. f_equal. field.
Qed.
(* Milstein: like the step *)
Theorem C139_milstein (x0 mu sigma T : R) (e : nat -> R) : 0 < T -> square_error x0 mu sigma T 2 e ->
  is_lim_seq (fun n => INR n ^ 2 * e n) (x0 ^ 2 * exp ((2 * mu + sigma ^ 2) * T) * ((mu ^ 2 * sigma ^ 2 + sigma ^ 6 / 6) * T ^ 3 + mu ^ 2 * (mu + 2 * sigma ^ 2) ^ 2 * T ^ 4 / 4)).
Proof.
  intros P H. apply (is_lim_seq_ext_loc (fun n => INR n ^ 2 * (x0 ^ 2 * (exp ((2 * mu + sigma ^ 2) * T) - 2 * cross_growth 2 mu sigma (T / INR n) ^ n + square_growth 2 mu sigma (T / INR n) ^ n)))).
  { exists 1%nat. intros n N. rewrite (square_error_is x0 mu sigma T P 2 milstein_growth e eq_refl H n) by lia. reflexivity. }
  evar_last; [refine (distance_second x0 mu sigma T (mu ^ 2 + sigma ^ 4 / 2) 0 0 (sigma ^ 4 / 2) (square_growth 2 mu sigma) (fun h => 1 + mu * h + sigma ^ 2 * h + (sigma ^ 2 * h) ^ 2 / 2) _ _ _); [intros h; unfold quartic, square_growth; field|intros h; unfold quartic; field|field]|]. f_equal. field.
Qed.
(* the scheme called second order: still like the step, without the term in the drift *)
Theorem C139_second (x0 mu sigma T : R) (e : nat -> R) : 0 < T -> square_error x0 mu sigma T 3 e ->
  is_lim_seq (fun n => INR n ^ 2 * e n) (x0 ^ 2 * exp ((2 * mu + sigma ^ 2) * T) * (sigma ^ 6 * T ^ 3 / 6)).
Proof.
  intros P H. apply (is_lim_seq_ext_loc (fun n => INR n ^ 2 * (x0 ^ 2 * (exp ((2 * mu + sigma ^ 2) * T) - 2 * cross_growth 3 mu sigma (T / INR n) ^ n + square_growth 3 mu sigma (T / INR n) ^ n)))).
  { exists 1%nat. intros n N. rewrite (square_error_is x0 mu sigma T P 3 second_growth e eq_refl H n) by lia. reflexivity. }
  evar_last; [refine (distance_second x0 mu sigma T ((2 * mu + sigma ^ 2) ^ 2 / 2) (mu ^ 3 + sigma ^ 2 * mu ^ 2) (mu ^ 4 / 4) ((mu + sigma ^ 2) ^ 2 / 2) (square_growth 3 mu sigma) (fun h => 1 + mu * h + (mu * h) ^ 2 / 2 + sigma ^ 2 * h * (1 + mu * h) + (sigma ^ 2 * h) ^ 2 / 2) _ _ _); [intros h; unfold quartic, square_growth; field|intros h; unfold quartic; field|field]|]. f_equal. field.
Qed.
(* the mean: first order for Euler and Milstein, second order for the second order scheme *)
Theorem C139_mean (x0 mu sigma T : R) (e : nat -> R) : 0 < T ->
  (mean_error x0 mu sigma T 1 e \/ mean_error x0 mu sigma T 2 e -> is_lim_seq (fun n => INR n * e n) (- (x0 * exp (mu * T) * (mu ^ 2 * T ^ 2 / 2)))) /\
  (mean_error x0 mu sigma T 3 e -> is_lim_seq (fun n => INR n ^ 2 * e n) (- (x0 * exp (mu * T) * (mu ^ 3 * T ^ 3 / 6)))).
Proof.
  intros P. split.
  - intros H. apply (is_lim_seq_ext_loc (fun n => INR n * (x0 * ((1 + mu * (T / INR n)) ^ n - exp (mu * T))))).
    { exists 1%nat. intros n N. destruct H as [H|H]; [rewrite (mean_error_is x0 mu sigma T P 1 euler_growth e eq_refl H n) by lia|rewrite (mean_error_is x0 mu sigma T P 2 milstein_growth e eq_refl H n) by lia]; reflexivity. }
    evar_last; [apply (bias_first x0 mu T 0 (fun h => 1 + mu * h)); intros h; unfold quartic; ring|]. f_equal. field.
  - intros H. apply (is_lim_seq_ext_loc (fun n => INR n ^ 2 * (x0 * (mean_growth 3 mu sigma (T / INR n) ^ n - exp (mu * T))))).
    { exists 1%nat. intros n N. rewrite (mean_error_is x0 mu sigma T P 3 second_growth e eq_refl H n) by lia. reflexivity. }
    evar_last; [apply (bias_second x0 mu T (mean_growth 3 mu sigma)); intros h; unfold quartic, mean_growth; field|]. f_equal. field.
Qed.

(* ---- C138: the helper for several processes ---- *)
(* products run over the assets, not over time: with one asset every time step is a single step from x0 *)
Theorem C138_no_accumulation (normal : nat * nat * nat -> nat -> nat -> nat -> R) (x0 dt drift speed : R) (steps assets : Z) (cv : bool) (a b : Z) (x : arr3 R) (i j : nat) :
  gbm_helper normal x0 dt drift speed steps assets cv a b = Ok x -> exists r, el x i 0 j = x0 * exact_growth drift speed dt r.
Proof.
  unfold gbm_helper. destruct (guard _ _); cbn [bind]; [|discriminate]. assert (S1 : forall w, el (along_assets x0 dt drift speed w) i 0 j = x0 * exact_growth drift speed dt (el w i 0 j)) by (intros w; cbn; rewrite Rmult_1_r; unfold exact_growth; do 2 f_equal; field).
  assert (S2 : forall w k, el (along_assets x0 dt drift speed w) i 0 k = x0 * exact_growth drift speed dt (el w i 0 k)) by (intros w k; cbn; rewrite Rmult_1_r; unfold exact_growth; do 2 f_equal; field).
  destruct cv; destruct (randn _ _ _ _) as [w|]; cbn [bind]; try discriminate; intros E; injection E as <-.
  - unfold append2. cbn [el]. destruct (j <? _)%nat; eexists; [apply S1|apply S2].
  - eexists. apply S1.
Qed.
Theorem C138_values (normal : nat * nat * nat -> nat -> nat -> nat -> R) (x0 dt drift speed : R) (steps assets a b : Z) : 0 < dt -> (0 <= steps)%Z -> (0 <= assets)%Z -> (a <= b)%Z ->
  let n := Z.to_nat (b - a) in let half := Z.to_nat ((b - a) / 2) in
  (exists x, gbm_helper normal x0 dt drift speed steps assets false a b = Ok x /\ d0 x = Z.to_nat steps /\ d1 x = Z.to_nat assets /\ d2 x = n /\
     forall i c j, el x i c j = x0 * product (map (fun e => exact_growth drift speed dt (normal (Z.to_nat steps, Z.to_nat assets, n) i e j)) (seq 0 (S c)))) /\
  (exists x, gbm_helper normal x0 dt drift speed steps assets true a b = Ok x /\ d0 x = Z.to_nat steps /\ d1 x = Z.to_nat assets /\ d2 x = (2 * half)%nat /\
     forall i c j, (j < half)%nat -> let w e := normal (Z.to_nat steps, Z.to_nat assets, half) i e j in
       el x i c j = x0 * product (map (fun e => exact_growth drift speed dt (w e)) (seq 0 (S c))) /\ el x i c (half + j) = x0 * product (map (fun e => exact_growth drift speed dt (- w e)) (seq 0 (S c))) /\
       el x i c j * el x i c (half + j) = x0 ^ 2 * exp ((2 * drift - speed ^ 2) * (INR (S c) * dt))).
Proof.
  intros P S0 A0 AB n half. assert (PR : forall l, fold_right Rmult 1 l = product l) by (induction l as [|y l IH]; cbn; [reflexivity|]; rewrite IH; reflexivity).
  assert (EG : forall r, exp ((drift - 1 / 2 * speed ^ 2) * dt + speed * sqrt dt * r) = exact_growth drift speed dt r) by (intros r; unfold exact_growth; f_equal; field).
  assert (H2 : (0 <= (b - a) / 2)%Z) by (apply Z.div_pos; lia).
  unfold gbm_helper, ltb. destruct (Rlt_dec 0 dt); [|lra]. cbn [guard bind]. unfold randn. replace (0 <=? steps)%Z with true by (symmetry; apply Z.leb_le; lia). replace (0 <=? assets)%Z with true by (symmetry; apply Z.leb_le; lia). replace (0 <=? b - a)%Z with true by (symmetry; apply Z.leb_le; lia). replace (0 <=? (b - a) / 2)%Z with true by (symmetry; apply Z.leb_le; lia). cbn [andb guard bind]. split.
  - eexists. split; [reflexivity|]. cbn [along_assets d0 d1 d2 el]. do 3 (split; [reflexivity|]). intros i c j. rewrite PR. f_equal. f_equal. apply map_ext. intros e. apply EG.
  - eexists. split; [reflexivity|]. cbn [append2 along_assets d0 d1 d2 el]. do 2 (split; [reflexivity|]). split; [fold half; lia|]. intros i c j J. fold half. set (w := fun e => normal (Z.to_nat steps, Z.to_nat assets, half) i e j). replace (j <? half)%nat with true by (symmetry; apply Nat.ltb_lt; lia). replace (half + j <? half)%nat with false by (symmetry; apply Nat.ltb_ge; lia). replace (half + j - half)%nat with j by lia.
    assert (V1 : fold_right Rmult 1 (map (fun e => exp ((drift - 1 / 2 * speed ^ 2) * dt + speed * sqrt dt * normal (Z.to_nat steps, Z.to_nat assets, half) i e j)) (seq 0 (S c))) = product (map (fun e => exact_growth drift speed dt (w e)) (seq 0 (S c)))) by (rewrite PR; f_equal; apply map_ext; intros e; apply EG).
    assert (V2 : fold_right Rmult 1 (map (fun e => exp ((drift - 1 / 2 * speed ^ 2) * dt + speed * sqrt dt * - normal (Z.to_nat steps, Z.to_nat assets, half) i e j)) (seq 0 (S c))) = product (map (fun e => exact_growth drift speed dt (- w e)) (seq 0 (S c)))) by (rewrite PR; f_equal; apply map_ext; intros e; apply EG).
    rewrite V1, V2. do 2 (split; [reflexivity|]). replace (x0 * product (map (fun e => exact_growth drift speed dt (w e)) (seq 0 (S c))) * (x0 * product (map (fun e => exact_growth drift speed dt (- w e)) (seq 0 (S c))))) with (x0 ^ 2 * (product (map (fun e => exact_growth drift speed dt (w e)) (seq 0 (S c))) * product (map (fun e => exact_growth drift speed dt (- w e)) (seq 0 (S c))))) by ring. f_equal.
    clear V1 V2. enough (H : forall m s, product (map (fun e => exact_growth drift speed dt (w e)) (seq s m)) * product (map (fun e => exact_growth drift speed dt (- w e)) (seq s m)) = exp ((2 * drift - speed ^ 2) * (INR m * dt))) by apply H. induction m as [|m IH]; intros s; [cbn; rewrite Rmult_0_l, Rmult_0_r, exp_0; ring|]. cbn [seq map product]. rewrite S_INR. replace ((2 * drift - speed ^ 2) * ((INR m + 1) * dt)) with ((2 * drift - speed ^ 2) * dt + (2 * drift - speed ^ 2) * (INR m * dt)) by ring. rewrite exp_plus, <- (IH (S s)). replace (exp ((2 * drift - speed ^ 2) * dt)) with (exact_growth drift speed dt (w s) * exact_growth drift speed dt (- w s)) by (unfold exact_growth; rewrite <- exp_plus; f_equal; field). ring.
Qed.
Theorem C138_negative_sizes (normal : nat * nat * nat -> nat -> nat -> nat -> R) (x0 dt drift speed : R) (steps assets : Z) (cv : bool) (a b : Z) : 0 < dt ->
  (steps < 0 \/ assets < 0 \/ b < a)%Z -> gbm_helper normal x0 dt drift speed steps assets cv a b = Err ValueError.
Proof.
  intros P H. unfold gbm_helper, ltb, randn. destruct (Rlt_dec 0 dt); [|lra]. cbn [guard bind]. assert (D : (b < a)%Z -> ((b - a) / 2 < 0)%Z) by (intros; apply Z.div_lt_upper_bound; lia).
  assert (G : forall n, (b < a -> n < 0)%Z -> ((0 <=? steps) && (0 <=? assets) && (0 <=? n))%Z = false) by (intros n N; apply Bool.not_true_iff_false; rewrite !Bool.andb_true_iff, !Z.leb_le; intros [[X Y] Z0]; destruct H as [H|[H|H]]; [lia | lia | specialize (N H); lia]).
  destruct cv; rewrite G by (assumption || lia); reflexivity.
Qed.
(* so the expected price is the same at every time step *)
Theorem C138_flat_mean (x0 dt drift speed : R) (steps i j : nat) : 0 < dt ->
  expected (fun r => match gbm_helper (fun _ _ _ _ => r) x0 dt drift speed (Z.of_nat steps) 1 false 0 1 with Ok x => el x i 0 j | Err _ => 0 end) (x0 * exp (drift * dt)).
Proof.
  intros P. eapply expected_ext; [|apply (expected_scal _ _ x0 (growth_mean drift speed dt P 0 exact_growth eq_refl))]. intros r. cbv beta. destruct (C138_values (fun _ _ _ _ => r) x0 dt drift speed (Z.of_nat steps) 1 0 1 P ltac:(lia) ltac:(lia) ltac:(lia)) as [(x & -> & _ & _ & _ & V) _]. rewrite V. cbn. ring.
Qed.

(* ---- not vacuous ---- *)
Example path_example : exists l, simulate_gbm 100 (1 / 20) (1 / 5) 1 (1 / 2) [1; -1] 1 = Ok l /\ List.length l = 3%nat.
Proof.
  destruct (C136_path 100 (1 / 20) (1 / 5) 1 (1 / 2) [1; -1] 1 euler_growth ltac:(lra) eq_refl) as [H _]. destruct H as (l & E & L & _); [|eauto]. replace (1 / (1 / 2)) with (IZR 2) by field. rewrite Zceil_IZR. reflexivity.
Qed.
Example not_positive : ~ keeps_positive 1 0 (1 / 5) 1 /\ keeps_positive 3 0 (1 / 5) 1 /\ ~ keeps_positive 3 0 2 1.
Proof. cbn. repeat split; lra. Qed.
Example distance_example : square_growth 1 0 1 1 = 2 /\ cross_growth 1 0 1 1 = 2 /\ exp 1 - 2 * 2 + 2 > 0.
Proof. unfold cross_growth, square_growth. rewrite Rmult_0_l, exp_0. split; [ring|]. split; [ring|]. pose proof (exp_ineq1 1 ltac:(lra)). lra. Qed.

Definition all_theorems := (@C136_agree, @C136_path, @C136_unknown_method, @C136_no_step, @C136_positive, @C137_moments, @C137_distance, @C137_convergence, @C139_errors_exist, @C139_exact, @C139_euler, @C139_milstein, @C139_second, @C139_mean, @C138_no_accumulation, @C138_values, C138_negative_sizes, @C138_flat_mean).
Print Assumptions all_theorems.
