(* Properties C58, C59, C60, C66 and C96: Monte Carlo generation and simulation. *)
From Coq Require Import ZArith Reals List Bool Lia Lra Arith.
From Verif Require Import Base NormalModel MonteModel MonteSpec MonteProofs MonteLoopProofs.
Import ListNotations.
Open Scope R_scope.

(* C58 one underlying: the path is the initial price times the exponential of the summed increments *)
Theorem C58_closed_form (px : R) (drift vol dt : nat -> R) (n : nat) (z : arr3 R) :
  d0 z = n -> d1 z = 1%nat -> (forall i : nat, (i < n)%nat -> 0 <= dt i) ->
  exists x, simulate_gbm_path (D0 px) (D1 n drift) (D1 n vol) (D1 n dt) z = Ok x /\ (d0 x, d1 x, d2 x) = (S n, 1%nat, d2 z)
    /\ forall t s : nat, (t <= n)%nat -> el x t 0 s = Fin (px * exp (gbm_log drift vol dt (fun i => el z i 0 s) t)).
Proof. exact (gbm_one px drift vol dt n z). Qed.
(* C58 the path starts at the initial price, keeps its sign, and its continuation from time t is a path started at its value at t *)
Theorem C58_positive_and_restartable (px : R) (drift vol dt : nat -> R) (n t u s : nat) (z w : arr3 R) (x : arr3 num) :
  d0 z = n -> d1 z = 1%nat -> (forall i : nat, (i < n)%nat -> 0 <= dt i) -> 0 < px -> (t + u = n)%nat ->
  d0 w = u -> d1 w = 1%nat -> (forall i : nat, (i < u)%nat -> el w i 0 s = el z (t + i) 0 s)%nat ->
  simulate_gbm_path (D0 px) (D1 n drift) (D1 n vol) (D1 n dt) z = Ok x ->
  el x 0 0 s = Fin px
  /\ exists p, el x t 0 s = Fin p /\ 0 < p
  /\ exists y, simulate_gbm_path (D0 p) (D1 u (fun i => drift (t + i)%nat)) (D1 u (fun i => vol (t + i)%nat)) (D1 u (fun i => dt (t + i)%nat)) w = Ok y
       /\ forall v : nat, (v <= u)%nat -> el y v 0 s = el x (t + v) 0 s.
Proof.
  intros A B P Q T A' B' W X. destruct (gbm_one px drift vol dt n z A B P) as (x' & X' & _ & V). rewrite X in X'. injection X' as <-.
  split. { rewrite V by lia. unfold gbm_log. rewrite total_0, exp_0. f_equal. lra. }
  eexists. split; [apply V; lia | ]. split; [apply Rmult_lt_0_compat; [exact Q | apply exp_pos] | ].
  destruct (gbm_one (px * exp (gbm_log drift vol dt (fun i => el z i 0 s) t)) (fun i => drift (t + i)%nat) (fun i => vol (t + i)%nat) (fun i => dt (t + i)%nat) u w A' B') as (y & Y & _ & V').
  { intros i I. apply P. lia. }
  exists y. split; [exact Y | ]. intros v L. rewrite V' by exact L. rewrite V by lia. rewrite gbm_log_compose, exp_plus, Rmult_assoc. f_equal. f_equal. f_equal. f_equal.
  apply gbm_log_ext. intros i I. apply W. lia.
Qed.
(* C58 an even number of antithetic paths: each pair has a product that does not depend on the random numbers *)
Theorem C58_antithetic_products (normal : normals) (m n : nat) (seed : Z) (z : arr3 R) (x : arr3 num) (px : R) (drift vol dt : nat -> R) :
  generate_rand_nbs normal (Z.of_nat n) 1 (2 * Z.of_nat m) true seed = Ok z -> (forall i : nat, (i < n)%nat -> 0 <= dt i) ->
  simulate_gbm_path (D0 px) (D1 n drift) (D1 n vol) (D1 n dt) z = Ok x ->
  d2 x = (2 * m)%nat /\ forall t k : nat, (t <= n)%nat -> (k < m)%nat ->
    exists a b, el x t 0 (2 * k)%nat = Fin a /\ el x t 0 (2 * k + 1)%nat = Fin b /\ a * b = px ^ 2 * exp (2 * total t (fun i => (drift i - vol i ^ 2 / 2) * dt i)).
Proof. exact (gbm_antithetic normal m n seed z x px drift vol dt). Qed.
(* C58 several underlyings: refused unless there are as many simulations as underlyings, and then simulation s uses the price, drift and volatility of underlying s *)
Theorem C58_several_underlyings (px : nat -> R) (drift vol : mat R) (k n : nat) (dt : nat -> R) (z : arr3 R) :
  (2 <= k)%nat -> nr drift = n -> nc drift = k -> nr vol = n -> nc vol = k -> d0 z = n -> d1 z = k -> (forall i : nat, (i < n)%nat -> 0 <= dt i) ->
  let run := simulate_gbm_path (D1 k px) (D2 drift) (D2 vol) (D1 n dt) z in
  (n = 1%nat -> run = Err AssertionError)
  /\ (n <> 1%nat -> d2 z <> k -> run = Err ValueError)
  /\ (n <> 1%nat -> d2 z = k -> exists x, run = Ok x /\ (d0 x, d1 x, d2 x) = (S n, k, k)
        /\ forall t v s : nat, (t <= n)%nat -> el x t v s = Fin (px s * exp (gbm_log (fun i => me drift i s) (fun i => me vol i s) dt (fun i => el z i v s) t))).
Proof. exact (gbm_many px drift vol k n dt z). Qed.
(* C58 lengths that do not agree *)
Theorem C58_shapes_checked (px drift vol dt : nat -> R) (a b c n : nat) (z : arr3 R) :
  ~ (n = a /\ n = b /\ n = d0 z /\ c = 1%nat /\ d1 z = 1%nat) -> simulate_gbm_path (D1 c px) (D1 a drift) (D1 b vol) (D1 n dt) z = Err AssertionError.
Proof. exact (gbm_steps_mismatch px drift vol dt a b c n z). Qed.

(* C59 *)
Theorem C59_accepted_iff (normal : normals) (steps vars sims : Z) (anti : bool) (seed : Z) :
  ((exists a, generate_rand_nbs normal steps vars sims anti seed = Ok a) <-> drawable steps vars sims anti seed)
  /\ (~ drawable steps vars sims anti seed -> (0 <= seed < 4294967296)%Z ->
      generate_rand_nbs normal steps vars sims anti seed = Err (if (1 <=? Z.min steps (Z.min vars sims))%Z then ValueError else AssertionError)).
Proof.
  split; [exact (generate_iff normal steps vars sims anti seed) | ]. intros N B. rewrite (generate_rejects normal _ _ _ _ _ N). f_equal.
  replace ((0 <=? seed) && (seed <? 4294967296))%Z with true by (symmetry; bools; lia). cbn [andb].
  destruct ((1 <=? steps) && (1 <=? vars) && (1 <=? sims))%Z eqn:Q; destruct (1 <=? Z.min steps (Z.min vars sims))%Z eqn:W; cbn [negb]; try reflexivity; exfalso; bools; lia.
Qed.
Theorem C59_plain (normal : normals) (steps vars sims seed : Z) :
  drawable steps vars sims false seed ->
  exists a, generate_rand_nbs normal steps vars sims false seed = Ok a /\ (d0 a, d1 a, d2 a) = (Z.to_nat steps, Z.to_nat vars, Z.to_nat sims)
    /\ forall i j k : nat, el a i j k = normal seed (Z.to_nat steps, Z.to_nat vars, Z.to_nat sims) i j k.
Proof. intros D. eexists. split; [apply generate_ok; exact D | ]. split; reflexivity. Qed.
Theorem C59_even (normal : normals) (steps vars : Z) (m : nat) (seed : Z) :
  drawable steps vars (2 * Z.of_nat m) true seed ->
  exists a, generate_rand_nbs normal steps vars (2 * Z.of_nat m) true seed = Ok a
    /\ (d0 a, d1 a, d2 a) = (Z.to_nat steps, Z.to_nat vars, (2 * m)%nat)
    /\ (forall i j k : nat, (k < m)%nat ->
         let z := normal seed (Z.to_nat steps, Z.to_nat vars, m) i j k in el a i j (2 * k)%nat = z /\ el a i j (2 * k + 1)%nat = - z)
    /\ (forall i j : nat, total (d2 a) (el a i j) = 0).
Proof. exact (generate_even normal steps vars m seed). Qed.
(* an odd number: one simulation short, the pairs are shifted by one, and the sum is that of two draws *)
Theorem C59_odd (normal : normals) (steps vars : Z) (m : nat) (seed : Z) :
  (1 <= m)%nat -> drawable steps vars (2 * Z.of_nat m + 1) true seed ->
  exists a, generate_rand_nbs normal steps vars (2 * Z.of_nat m + 1) true seed = Ok a
    /\ (d0 a, d1 a, d2 a) = (Z.to_nat steps, Z.to_nat vars, (2 * m)%nat)
    /\ (forall i j : nat, let z := normal seed (Z.to_nat steps, Z.to_nat vars, (m + 1)%nat) i j in
         (forall k : nat, (k < m)%nat -> el a i j (2 * k)%nat = z k) /\ el a i j 1%nat = z m
         /\ (forall k : nat, (k + 1 < m)%nat -> el a i j (2 * k + 3)%nat = - z k)
         /\ total (d2 a) (el a i j) = z (m - 1)%nat + z m).
Proof. exact (generate_odd normal steps vars m seed). Qed.

(* C60 *)
Theorem C60_second_moments (cholesky : factorisation) (n : nat) (C L r : mat R) :
  cholesky C = Ok L -> is_cholesky n C L -> standard n r ->
  exists out, normal_corr cholesky C r = Ok out /\ nr out = nr r /\ nc out = n
    /\ forall i j : nat, moment out i j = INR (nr r) * total n (fun k => me L k i * me L k j).
Proof.
  intros E K S. destruct (corr_ok cholesky n C L r E K (proj1 S)) as (out & O & A & B & _). exists out. repeat split; auto. exact (corr_moment cholesky n C L r out E K S O).
Qed.
Theorem C60_right_iff_uncorrelated (cholesky : factorisation) (n : nat) (C r out : mat R) :
  factors cholesky n C -> standard n r -> (0 < nr r)%nat -> normal_corr cholesky C r = Ok out ->
  ((forall i j : nat, (i < n)%nat -> (j < n)%nat -> moment out i j = INR (nr r) * me C i j) <-> (forall i j : nat, (i < n)%nat -> (j < n)%nat -> i <> j -> me C i j = 0)).
Proof. exact (corr_correct_iff cholesky n C r out). Qed.
Theorem C60_total_variance_kept (cholesky : factorisation) (n : nat) (C r out : mat R) :
  factors cholesky n C -> standard n r -> normal_corr cholesky C r = Ok out -> total n (fun i => moment out i i) = INR (nr r) * total n (fun i => me C i i).
Proof. exact (corr_total cholesky n C r out). Qed.
Theorem C60_two_variables (cholesky : factorisation) (rho : R) (r out : mat R) :
  factors cholesky 2 (correlation2 rho) -> standard 2 r -> normal_corr cholesky (correlation2 rho) r = Ok out ->
  moment out 0 0 = INR (nr r) * (1 + rho ^ 2) /\ moment out 1 1 = INR (nr r) * (1 - rho ^ 2) /\ moment out 0 1 = INR (nr r) * (rho * sqrt (1 - rho ^ 2)).
Proof. exact (corr_2 cholesky rho r out). Qed.
Theorem C60_each_step (cholesky : factorisation) (C : mat R) (z out : arr3 R) : normal_corr3 cholesky C z = Ok out ->
  d0 out = d0 z /\ d2 out = d2 z
  /\ forall t : nat, exists o, normal_corr cholesky C (mk_mat (d2 z) (d1 z) (fun s u => el z t u s)) = Ok o /\ nc o = d1 out /\ forall v s : nat, el out t v s = me o s v.
Proof. exact (corr_slices cholesky C z out). Qed.
Theorem C60_wrong_width_refused (cholesky : factorisation) (n : nat) (C r : mat R) : factors cholesky n C -> nc r <> n -> normal_corr cholesky C r = Err ValueError.
Proof. exact (corr_shape cholesky n C r). Qed.
Theorem C60_wrong_number_of_variables_refused (cholesky : factorisation) (n : nat) (C : mat R) (z : arr3 R) : factors cholesky n C -> d1 z <> n -> normal_corr3 cholesky C z = Err ValueError.
Proof.
  intros (L & E & H & _) N. unfold normal_corr3. rewrite E. cbn [bind]. rewrite H. destruct (Nat.eqb_spec n (d1 z)); [congruence | reflexivity].
Qed.

(* C66 *)
Theorem C66_accepted_iff (normal : normals) (curve : R -> result R) (sims seg T : nat) (alpha sigma : R) :
  (exists x, cs_simulate normal curve sims seg T alpha sigma = Ok x) <-> simulable curve sims seg T.
Proof. exact (cs_iff normal curve sims seg T alpha sigma). Qed.
(* simulation n is column (n mod per) of loop (n / per), whose random numbers have that loop as seed *)
Theorem C66_every_simulation_once (normal : normals) (curve : R -> result R) (sims seg T per : nat) (alpha sigma : R) (F : nat -> R) :
  simulable curve sims seg T -> chunk sims (T * seg) per -> curve_on curve F seg (T * seg) ->
  exists x, cs_simulate normal curve sims seg T alpha sigma = Ok x /\ nr x = S T /\ nc x = sims
    /\ forall t n : nat, (t <= T)%nat -> (n < sims)%nat ->
       let z := normal (Z.of_nat (Nat.div n per)) ((T * seg)%nat, 1%nat, per) in
       me x t n = Fin (F (t * seg)%nat * exp (cs_deviation (1 / INR seg) alpha sigma (fun m => z m 0%nat (Nat.modulo n per)) (t * seg))).
Proof. exact (cs_run normal curve sims seg T per alpha sigma F). Qed.
(* C96 without volatility every path is the forward curve *)
Theorem C96_no_volatility (normal : normals) (curve : R -> result R) (sims seg T : nat) (alpha : R) (F : nat -> R) (x : mat num) :
  curve_on curve F seg (T * seg) -> cs_simulate normal curve sims seg T alpha 0 = Ok x ->
  forall t n : nat, (t <= T)%nat -> (n < sims)%nat -> me x t n = Fin (F (t * seg)%nat).
Proof.
  intros Cu X t n Lt Ln. assert (S : simulable curve sims seg T) by (apply (cs_iff normal curve sims seg T alpha 0); eauto). pose proof S as (A & B & C & D & _).
  destruct (cs_run normal curve sims seg T _ alpha 0 F S (chunk_iff sims (T * seg) ltac:(nia) ltac:(lia) D) Cu) as (y & Y & _ & _ & V). rewrite X in Y. injection Y as <-.
  specialize (V t n Lt Ln). cbv zeta in V. rewrite V, deviation_zero, exp_0. f_equal. lra.
Qed.
(* C96 spot over forward depends on the curve in no way *)
Theorem C96_ratio_ignores_the_curve (normal : normals) (c1 c2 : R -> result R) (sims seg T : nat) (alpha sigma : R) (F1 F2 : nat -> R) (x1 x2 : mat num) :
  curve_on c1 F1 seg (T * seg) -> curve_on c2 F2 seg (T * seg) ->
  cs_simulate normal c1 sims seg T alpha sigma = Ok x1 -> cs_simulate normal c2 sims seg T alpha sigma = Ok x2 ->
  forall t n : nat, (t <= T)%nat -> (n < sims)%nat ->
  exists a b, me x1 t n = Fin a /\ me x2 t n = Fin b /\ 0 < a /\ 0 < b /\ a / F1 (t * seg)%nat = b / F2 (t * seg)%nat /\ (t = 0%nat -> a = F1 0%nat).
Proof.
  intros C1 C2 X1 X2 t n Lt Ln.
  assert (S1 : simulable c1 sims seg T) by (apply (cs_iff normal c1 sims seg T alpha sigma); eauto). assert (S2 : simulable c2 sims seg T) by (apply (cs_iff normal c2 sims seg T alpha sigma); eauto).
  pose proof S1 as (A & B & C & D & _). pose proof (chunk_iff sims (T * seg) ltac:(nia) ltac:(lia) D) as Ch.
  destruct (cs_run normal c1 sims seg T _ alpha sigma F1 S1 Ch C1) as (y1 & Y1 & _ & _ & V1). rewrite X1 in Y1. injection Y1 as <-.
  destruct (cs_run normal c2 sims seg T _ alpha sigma F2 S2 Ch C2) as (y2 & Y2 & _ & _ & V2). rewrite X2 in Y2. injection Y2 as <-.
  specialize (V1 t n Lt Ln). specialize (V2 t n Lt Ln). cbv zeta in V1, V2. rewrite V1, V2.
  assert (TS : (t * seg <= T * seg)%nat) by (apply Nat.mul_le_mono_r; lia). pose proof (proj2 (C1 _ TS)) as P1. pose proof (proj2 (C2 _ TS)) as P2.
  eexists. eexists. split; [reflexivity | ]. split; [reflexivity | ].
  split; [apply Rmult_lt_0_compat; [exact P1 | apply exp_pos] | ]. split; [apply Rmult_lt_0_compat; [exact P2 | apply exp_pos] | ].
  split; [field; split; lra | ]. intros ->. cbn [Nat.mul]. unfold cs_deviation. rewrite total_0, exp_0. lra.
Qed.

Definition all_theorems := (C58_closed_form, C58_positive_and_restartable, C58_antithetic_products, C58_several_underlyings, C58_shapes_checked,
  C59_accepted_iff, C59_plain, C59_even, C59_odd, C60_second_moments, C60_right_iff_uncorrelated, C60_total_variance_kept, C60_two_variables, C60_each_step, C60_wrong_width_refused, C60_wrong_number_of_variables_refused,
  C66_accepted_iff, C66_every_simulation_once, C96_no_volatility, C96_ratio_ignores_the_curve).
Print Assumptions all_theorems.

(* ---- cases meeting the hypotheses ---- *)
Definition ex_normals : normals := fun seed _ i j k => IZR seed + INR i - INR k.
Example C58_ex : exists x, simulate_gbm_path (D0 2) (D1 2 (fun _ => 1/10)) (D1 2 (fun _ => 1/5)) (D1 2 (fun i => INR i + 1)) (mk_arr3 2 1 3 (fun i _ s => INR s - INR i)) = Ok x
  /\ el x 2 0 1 = Fin (2 * exp (gbm_log (fun _ => 1/10) (fun _ => 1/5) (fun i => INR i + 1) (fun i => 1 - INR i) 2)).
Proof.
  destruct (C58_closed_form 2 (fun _ => 1/10) (fun _ => 1/5) (fun i => INR i + 1) 2 (mk_arr3 2 1 3 (fun i _ s => INR s - INR i)) eq_refl eq_refl) as (x & X & _ & V).
  { intros i _. pose proof (pos_INR i). lra. }
  exists x. split; [exact X | ]. rewrite V by lia. reflexivity.
Qed.
Example C58_ex_several : simulate_gbm_path (D1 2 (fun _ => 1)) (D2 (mk_mat 3 2 (fun _ _ => 1/10))) (D2 (mk_mat 3 2 (fun _ _ => 1/5))) (D1 3 (fun _ => 1)) (mk_arr3 3 2 5 (fun _ _ _ => 0)) = Err ValueError.
Proof.
  refine (proj1 (proj2 (C58_several_underlyings (fun _ => 1) (mk_mat 3 2 (fun _ _ => 1/10)) (mk_mat 3 2 (fun _ _ => 1/5)) 2 3 (fun _ => 1) (mk_arr3 3 2 5 (fun _ _ _ => 0)) _ eq_refl eq_refl eq_refl eq_refl eq_refl eq_refl _)) _ _);
    [lia | intros; lra | lia | cbn; lia].
Qed.
Example C59_ex_even : drawable 10 1 (2 * Z.of_nat 50) true 0. Proof. unfold drawable. repeat split; lia. Qed.
Example C59_ex_odd : drawable 10 1 (2 * Z.of_nat 50 + 1) true 0. Proof. unfold drawable. repeat split; lia. Qed.
(* with seven simulations the second column is not the opposite of the first *)
Example C59_ex_unpaired : exists a, generate_rand_nbs ex_normals 1 1 7 true 0 = Ok a /\ d2 a = 6%nat /\ el a 0 0 0 = 0 /\ el a 0 0 1 = -3.
Proof.
  destruct (C59_odd ex_normals 1 1 3 0 ltac:(lia)) as (a & E & Sh & V). { unfold drawable. repeat split; lia. }
  injection Sh as _ _ S2. destruct (V 0%nat 0%nat) as (V0 & V1 & _). exists a. split; [exact E | ]. split; [exact S2 | ]. split; [change (el a 0 0 0) with (el a 0 0 (2 * 0)); rewrite (V0 0%nat ltac:(lia)) | rewrite V1]; unfold ex_normals; cbn; lra.
Qed.
Definition ex_samples : mat R := mk_mat 4 2 (fun s u => match s, u with 0%nat, _ => 1 | 1%nat, O => 1 | 1%nat, _ => -1 | 2%nat, O => -1 | 2%nat, _ => 1 | _, _ => -1 end).
Lemma ex_standard : standard 2 ex_samples.
Proof. split; [reflexivity | ]. intros [ | [ | u]] [ | [ | w]] U W; try lia; unfold moment, ex_samples, total; cbn; lra. Qed.
Definition ex_factor : mat R := mk_mat 2 2 (fun i j => match i, j with O, O => 1 | O, _ => 0 | _, O => 3/5 | _, _ => 4/5 end).
Lemma ex_cholesky : is_cholesky 2 (correlation2 (3/5)) ex_factor.
Proof.
  repeat split; cbn [ex_factor nr nc me].
  - intros i j I. assert (i = 0 /\ j = 1)%nat as [-> ->] by lia. reflexivity.
  - intros [ | [ | i]] I; [lra | lra | lia].
  - intros [ | [ | i]] [ | [ | j]] I J; try lia; rewrite total_2; cbn; lra.
Qed.
(* a correlation of 0.6 becomes variances 1.36 and 0.64 *)
Example C60_ex : exists out, normal_corr (fun _ => Ok ex_factor) (correlation2 (3/5)) ex_samples = Ok out /\ moment out 0 0 = 4 * (34/25) /\ moment out 1 1 = 4 * (16/25).
Proof.
  destruct (C60_second_moments (fun _ => Ok ex_factor) 2 (correlation2 (3/5)) ex_factor ex_samples eq_refl ex_cholesky ex_standard) as (out & O & _ & _ & M).
  exists out. split; [exact O | ]. rewrite !M, !total_2. cbn. split; lra.
Qed.
Example C66_ex : simulable (fun t => if Rle_dec t 2 then Ok (100 + t) else Err ValueError) 10 4 2.
Proof.
  unfold simulable. repeat split; try lia.
  - intros i I. destruct (Rle_dec (INR i / INR 4) 2) as [L | N]; [eauto | exfalso]. apply N. assert (INR i <= INR 8) by (apply le_INR; lia). cbn in *. lra.
  - intros per (P & _). lia.
Qed.
Example C66_ex_chunk : chunk 10 8 10. Proof. unfold chunk. repeat split; lia. Qed.
