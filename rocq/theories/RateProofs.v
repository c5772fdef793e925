(* Rates of convergence of the schemes of SchemeModel. *)
From Coq Require Import ZArith Reals List Bool Lra Lia.
From Coquelicot Require Import Coquelicot.
From Flocq Require Import Core.
From Verif Require Import Base NormalModel MonteModel MonteSpec HwModel MeanSpec MeanProofs PathMeanProofs SchemeModel SchemeSpec SchemeProofs.
Import ListNotations.
Open Scope R_scope.

(* a function that vanishes at 0 and whose derivative is at most K |y|^k *)
Lemma by_derivative (f f' : R -> R) r K k : 0 < r -> 0 <= K -> f 0 = 0 -> (forall y, Rabs y <= r -> is_derive f y (f' y)) -> (forall y, Rabs y <= r -> Rabs (f' y) <= K * Rabs y ^ k) ->
  forall y, Rabs y <= r -> Rabs (f y) <= K * Rabs y ^ S k.
Proof.
  intros R0 K0 F0 D B y Y. destruct (MVT_gen f 0 y f') as (c & C & E).
  - intros x X. apply D. apply Rabs_le. apply Rabs_le_inv in Y. unfold Rmin, Rmax in X. destruct (Rle_dec 0 y); lra.
  - intros x X. apply continuity_pt_filterlim. apply (ex_derive_continuous f). exists (f' x). apply D. apply Rabs_le. apply Rabs_le_inv in Y. unfold Rmin, Rmax in X. destruct (Rle_dec 0 y); lra.
  - rewrite F0, !Rminus_0_r in E. rewrite E, Rabs_mult. assert (CY : Rabs c <= Rabs y) by (unfold Rmin, Rmax in C; destruct (Rle_dec 0 y); [rewrite !Rabs_pos_eq; lra|rewrite !Rabs_left1; lra]).
    cbn [pow]. replace (K * (Rabs y * Rabs y ^ k)) with (K * Rabs y ^ k * Rabs y) by ring. apply Rmult_le_compat_r; [apply Rabs_pos|]. eapply Rle_trans; [apply B; lra|]. apply Rmult_le_compat_l; [exact K0|]. apply pow_incr. split; [apply Rabs_pos|exact CY].
Qed.
Lemma exp_near x : Rabs x <= 1 -> Rabs (exp x - 1 - x - x ^ 2 / 2) <= 3 * Rabs x ^ 3.
Proof.
  assert (E : forall y, Rabs y <= 1 -> Rabs (exp y) <= 3 * Rabs y ^ 0) by (intros y Y; apply Rabs_le_inv in Y; rewrite Rabs_pos_eq by (left; apply exp_pos); cbn; pose proof exp_le_3; destruct (Req_dec y 1) as [->|]; [lra|pose proof (exp_increasing y 1 ltac:(lra)); lra]).
  assert (E1 : forall y, Rabs y <= 1 -> Rabs (exp y - 1) <= 3 * Rabs y ^ 1) by (apply (by_derivative (fun y => exp y - 1) exp 1 3 0); [lra|lra|rewrite exp_0; ring|intros y _; auto_derive; [exact I|ring]|exact E]).
  assert (E2 : forall y, Rabs y <= 1 -> Rabs (exp y - 1 - y) <= 3 * Rabs y ^ 2) by (apply (by_derivative (fun y => exp y - 1 - y) (fun y => exp y - 1) 1 3 1); [lra|lra|rewrite exp_0; ring|intros y _; auto_derive; [exact I|ring]|exact E1]).
  apply (by_derivative (fun y => exp y - 1 - y - y ^ 2 / 2) (fun y => exp y - 1 - y) 1 3 2); [lra|lra|rewrite exp_0; field|intros y _; auto_derive; [exact I|field]|exact E2].
Qed.
Lemma ln_near3 y : Rabs y <= 1 / 2 -> Rabs (ln (1 + y) - (y - y ^ 2 / 2 + y ^ 3 / 3)) <= 2 * Rabs y ^ 4.
Proof.
  apply (by_derivative (fun y => ln (1 + y) - (y - y ^ 2 / 2 + y ^ 3 / 3)) (fun y => - y ^ 3 / (1 + y)) (1 / 2) 2 3); [lra|lra|rewrite Rplus_0_r, ln_1; field| |].
  - intros x X. apply Rabs_le_inv in X. auto_derive; [lra|field; lra].
  - intros x X. apply Rabs_le_inv in X. unfold Rdiv. rewrite Rabs_mult, Rabs_Ropp, <- RPow_abs, (Rabs_pos_eq (/ (1 + x))) by (left; apply Rinv_0_lt_compat; lra). rewrite Rmult_comm. apply Rmult_le_compat_r; [apply pow_le, Rabs_pos|]. apply Rmult_le_reg_l with (1 + x); [lra|]. rewrite Rinv_r by lra. lra.
Qed.

Lemma squeeze (u v : nat -> R) : eventually (fun n => Rabs (u n) <= v n) -> is_lim_seq v 0 -> is_lim_seq u 0.
Proof. intros E V. apply is_lim_seq_abs_0. apply (is_lim_seq_le_le_loc (fun _ => 0) _ v); [|apply is_lim_seq_const|exact V]. destruct E as [N H]. exists N. intros n Hn. split; [apply Rabs_pos|apply H; exact Hn]. Qed.
Lemma near_zero (u : nat -> R) r : 0 < r -> is_lim_seq u 0 -> eventually (fun n => Rabs (u n) <= r).
Proof. intros H U. destruct (proj2 (is_lim_seq_spec _ _) U (mkposreal r H)) as [N HN]. exists N. intros n Hn. specialize (HN n Hn). cbn in HN. rewrite Rminus_0_r in HN. lra. Qed.

Section expansion.
  Variables (T a p q s : R).
  Let h (n : nat) : R := T / INR n.
  Definition quartic (x : R) : R := a * x + p * x ^ 2 + q * x ^ 3 + s * x ^ 4.
  Let Y (x : R) : R := a + p * x + q * x ^ 2 + s * x ^ 3.
  Let W (x : R) : R := (p + q * x + s * x ^ 2) * (2 * a + p * x + q * x ^ 2 + s * x ^ 3).
  Let Z (x : R) : R := q + s * x - W x / 2 + Y x ^ 3 / 3.
  Let b : R := p - a ^ 2 / 2.
  Let c : R := q - a * p + a ^ 3 / 3.
  Lemma h_lim : is_lim_seq h 0.
  Proof. unfold h, Rdiv. replace 0 with (T * 0) by ring. apply is_lim_seq_mult'; [apply is_lim_seq_const|apply inv_lim]. Qed.
  Lemma y_lim : is_lim_seq (fun n => quartic (h n)) 0.
  Proof. replace (Finite 0) with (Finite (quartic 0)) by (f_equal; unfold quartic; ring). apply (is_lim_seq_continuous quartic _ 0); [unfold quartic; reg|apply h_lim]. Qed.
  Lemma ny_lim : is_lim_seq (fun n => INR n * quartic (h n)) (T * a).
  Proof.
    apply (is_lim_seq_ext_loc (fun n => T * Y (h n))). { exists 1%nat. intros n N. pose proof (lt_0_INR n ltac:(lia)). unfold quartic, Y, h. field. lra. }
    apply is_lim_seq_mult'; [apply is_lim_seq_const|]. replace (Finite a) with (Finite (Y 0)) by (f_equal; unfold Y; ring). apply (is_lim_seq_continuous Y _ 0); [unfold Y; reg|apply h_lim].
  Qed.
  (* n ln(1 + y) - a T *)
  Let d (n : nat) : R := INR n * ln (1 + quartic (h n)) - a * T.
  Lemma d_second : is_lim_seq (fun n => INR n ^ 2 * (d n - b * T ^ 2 / INR n)) (c * T ^ 3).
  Proof.
    apply (is_lim_seq_ext_loc (fun n => T ^ 3 * Z (h n) + INR n ^ 3 * (ln (1 + quartic (h n)) - (quartic (h n) - quartic (h n) ^ 2 / 2 + quartic (h n) ^ 3 / 3)))).
    { exists 1%nat. intros n N. pose proof (lt_0_INR n ltac:(lia)). unfold d. generalize (ln (1 + quartic (h n))). intros l. unfold quartic, Z, W, Y, b, h. field. lra. }
    replace (c * T ^ 3) with (T ^ 3 * c + 0) by ring. apply is_lim_seq_plus'.
    - apply is_lim_seq_mult'; [apply is_lim_seq_const|]. replace (Finite c) with (Finite (Z 0)) by (f_equal; unfold Z, W, Y, c; field). apply (is_lim_seq_continuous Z _ 0); [unfold Z, W, Y; reg|apply h_lim].
    - apply (squeeze _ (fun n => 2 * ((INR n * quartic (h n)) ^ 4 * / INR n))).
      + destruct (near_zero _ (1 / 2) ltac:(lra) y_lim) as [N HN]. exists (S N). intros n Hn. pose proof (lt_0_INR n ltac:(lia)) as I. pose proof (ln_near3 _ (HN n ltac:(lia))) as L. rewrite Rabs_mult, (Rabs_pos_eq (INR n ^ 3)) by (apply pow_le; lra).
        replace (2 * ((INR n * quartic (h n)) ^ 4 * / INR n)) with (INR n ^ 3 * (2 * quartic (h n) ^ 4)) by (field; lra). apply Rmult_le_compat_l; [apply pow_le; lra|]. rewrite RPow_abs, (Rabs_pos_eq (quartic (h n) ^ 4)) in L by (replace 4%nat with (2 * 2)%nat by reflexivity; rewrite pow_mult; apply pow2_ge_0). exact L.
      + replace (Finite 0) with (Finite (2 * ((T * a) ^ 4 * 0))) by (f_equal; ring). apply is_lim_seq_mult'; [apply is_lim_seq_const|]. apply is_lim_seq_mult'; [|apply inv_lim]. apply (is_lim_seq_continuous (fun x => x ^ 4)); [reg|apply ny_lim].
  Qed.
  Lemma d_first : is_lim_seq (fun n => INR n * d n) (b * T ^ 2).
  Proof.
    apply (is_lim_seq_ext_loc (fun n => b * T ^ 2 + INR n ^ 2 * (d n - b * T ^ 2 / INR n) * / INR n)). { exists 1%nat. intros n N. pose proof (lt_0_INR n ltac:(lia)). field. lra. }
    replace (Finite (b * T ^ 2)) with (Finite (b * T ^ 2 + c * T ^ 3 * 0)) by (f_equal; ring). apply is_lim_seq_plus'; [apply is_lim_seq_const|]. apply is_lim_seq_mult'; [apply d_second|apply inv_lim].
  Qed.
  Lemma d_lim : is_lim_seq d 0.
  Proof.
    apply (is_lim_seq_ext_loc (fun n => INR n * d n * / INR n)). { exists 1%nat. intros n N. pose proof (lt_0_INR n ltac:(lia)). field. lra. }
    replace (Finite 0) with (Finite (b * T ^ 2 * 0)) by (f_equal; ring). apply is_lim_seq_mult'; [apply d_first|apply inv_lim].
  Qed.
  Lemma power_second : is_lim_seq (fun n => INR n ^ 2 * ((1 + quartic (T / INR n)) ^ n - exp (a * T) * (1 + b * T ^ 2 / INR n))) (exp (a * T) * (c * T ^ 3 + b ^ 2 * T ^ 4 / 2)).
  Proof.
    change (is_lim_seq (fun n => INR n ^ 2 * ((1 + quartic (h n)) ^ n - exp (a * T) * (1 + b * T ^ 2 / INR n))) (exp (a * T) * (c * T ^ 3 + b ^ 2 * T ^ 4 / 2))).
    apply (is_lim_seq_ext_loc (fun n => exp (a * T) * (INR n ^ 2 * (exp (d n) - 1 - d n - d n ^ 2 / 2) + (INR n ^ 2 * (d n - b * T ^ 2 / INR n) + (INR n * d n) ^ 2 / 2)))).
    { destruct (near_zero _ (1 / 2) ltac:(lra) y_lim) as [N HN]. exists (S N). intros n Hn. specialize (HN n ltac:(lia)). apply Rabs_le_inv in HN. pose proof (lt_0_INR n ltac:(lia)).
      replace ((1 + quartic (h n)) ^ n) with (exp (a * T) * exp (d n)); [field; lra|]. rewrite <- exp_plus, <- Rpower_pow by lra. unfold Rpower. f_equal. unfold d. ring. }
    apply is_lim_seq_mult'; [apply is_lim_seq_const|]. replace (c * T ^ 3 + b ^ 2 * T ^ 4 / 2) with (0 + (c * T ^ 3 + (b * T ^ 2) ^ 2 / 2)) by field. apply is_lim_seq_plus'.
    - apply (squeeze _ (fun n => 3 * (Rabs (INR n * d n) ^ 3 * / INR n))).
      + destruct (near_zero _ 1 ltac:(lra) d_lim) as [N HN]. exists (S N). intros n Hn. pose proof (lt_0_INR n ltac:(lia)) as I. pose proof (exp_near _ (HN n ltac:(lia))) as L. rewrite Rabs_mult, (Rabs_pos_eq (INR n ^ 2)) by (apply pow_le; lra).
        replace (3 * (Rabs (INR n * d n) ^ 3 * / INR n)) with (INR n ^ 2 * (3 * Rabs (d n) ^ 3)) by (rewrite Rabs_mult, (Rabs_pos_eq (INR n)) by lra; field; lra). apply Rmult_le_compat_l; [apply pow_le; lra|exact L].
      + replace (Finite 0) with (Finite (3 * (Rabs (b * T ^ 2) ^ 3 * 0))) by (f_equal; ring). apply is_lim_seq_mult'; [apply is_lim_seq_const|]. apply is_lim_seq_mult'; [|apply inv_lim]. apply (is_lim_seq_continuous (fun x => Rabs x ^ 3)); [|apply d_first]. apply (continuity_pt_comp Rabs (fun x => x ^ 3)); [apply Rcontinuity_abs|reg].
    - apply is_lim_seq_plus'; [apply d_second|]. apply (is_lim_seq_continuous (fun x => x ^ 2 / 2)); [reg|apply d_first].
  Qed.
  Lemma power_first : is_lim_seq (fun n => INR n * ((1 + quartic (T / INR n)) ^ n - exp (a * T))) (exp (a * T) * (b * T ^ 2)).
  Proof.
    apply (is_lim_seq_ext_loc (fun n => exp (a * T) * (b * T ^ 2) + INR n ^ 2 * ((1 + quartic (T / INR n)) ^ n - exp (a * T) * (1 + b * T ^ 2 / INR n)) * / INR n)). { exists 1%nat. intros n N. pose proof (lt_0_INR n ltac:(lia)). field. lra. }
    replace (Finite (exp (a * T) * (b * T ^ 2))) with (Finite (exp (a * T) * (b * T ^ 2) + exp (a * T) * (c * T ^ 3 + b ^ 2 * T ^ 4 / 2) * 0)) by (f_equal; ring). apply is_lim_seq_plus'; [apply is_lim_seq_const|]. apply is_lim_seq_mult'; [apply power_second|apply inv_lim].
  Qed.
End expansion.

(* ---- the errors of the schemes ---- *)
Lemma path_value_unique x0 mu sigma T dt method n k g g' : path_value x0 mu sigma T dt method n k g -> path_value x0 mu sigma T dt method n k g' -> forall w, g w = g' w.
Proof. intros H H' w. destruct (H w) as (l & E & V), (H' w) as (l' & E' & V'). congruence. Qed.
Section errors.
  Variables (x0 mu sigma T : R) (P : 0 < T).
  Lemma mean_error_is method f e : growth method = Some f -> mean_error x0 mu sigma T method e -> forall n, (0 < n)%nat -> e n = x0 * (mean_growth method mu sigma (T / INR n) ^ n - exp (mu * T)).
  Proof.
    intros F H n N. destruct (H n N) as (g & V & E). pose proof (lt_0_INR n N) as I. assert (D : 0 < T / INR n) by (apply Rdiv_lt_0_compat; assumption). pose proof (value_path x0 mu sigma T (T / INR n) method f n n D (steps_exact T n P N) F (Nat.le_refl n)) as V'.
    pose proof (expected_n_unique _ _ _ _ (expected_n_ext n _ _ _ (path_value_unique _ _ _ _ _ _ _ _ _ _ V V') E) (value_mean x0 mu sigma _ method f n D F)). lra.
  Qed.
  Lemma square_error_is method f e : growth method = Some f -> square_error x0 mu sigma T method e -> forall n, (0 < n)%nat ->
    e n = x0 ^ 2 * (exp ((2 * mu + sigma ^ 2) * T) - 2 * cross_growth method mu sigma (T / INR n) ^ n + square_growth method mu sigma (T / INR n) ^ n).
  Proof.
    intros F H n N. destruct (H n N) as (g0 & g & V0 & V & E). pose proof (lt_0_INR n N) as I. assert (D : 0 < T / INR n) by (apply Rdiv_lt_0_compat; assumption).
    pose proof (value_path x0 mu sigma T (T / INR n) method f n n D (steps_exact T n P N) F (Nat.le_refl n)) as V'. pose proof (value_path x0 mu sigma T (T / INR n) 0 exact_growth n n D (steps_exact T n P N) eq_refl (Nat.le_refl n)) as V0'.
    pose proof (value_distance x0 mu sigma _ method f n D F) as Q. rewrite exact_power in Q by exact N. refine (expected_n_unique _ _ _ _ (expected_n_ext n _ _ _ _ E) Q). intros w. cbv beta. rewrite (path_value_unique _ _ _ _ _ _ _ _ _ _ V V'), (path_value_unique _ _ _ _ _ _ _ _ _ _ V0 V0'). reflexivity.
  Qed.
  Lemma errors_exist method f : growth method = Some f -> (exists e, mean_error x0 mu sigma T method e) /\ (exists e, square_error x0 mu sigma T method e).
  Proof.
    intros F. split.
    - exists (fun n => x0 * (mean_growth method mu sigma (T / INR n) ^ n - exp (mu * T))). intros n N. pose proof (lt_0_INR n N) as I. assert (D : 0 < T / INR n) by (apply Rdiv_lt_0_compat; assumption). eexists. split; [apply value_path; [exact D|apply steps_exact; assumption|exact F|lia]|].
      match goal with |- expected_n _ _ ?m => replace m with (x0 * mean_growth method mu sigma (T / INR n) ^ n) by ring end. apply value_mean; assumption.
    - eexists. intros n N. pose proof (lt_0_INR n N) as I. assert (D : 0 < T / INR n) by (apply Rdiv_lt_0_compat; assumption). eexists. eexists. split; [apply value_path; [exact D|apply steps_exact; assumption|reflexivity|lia]|]. split; [apply value_path; [exact D|apply steps_exact; assumption|exact F|lia]|]. exact (value_distance x0 mu sigma (T / INR n) method f n D F).
  Qed.
  Let A := exp ((2 * mu + sigma ^ 2) * T).
  (* square and cross growth as polynomials *)
  Lemma distance_first p q s p' (u v : R -> R) : (forall h, u h = 1 + quartic (2 * mu + sigma ^ 2) p q s h) -> (forall h, v h = 1 + quartic (mu + sigma ^ 2) p' 0 0 h) ->
    is_lim_seq (fun n => INR n * (x0 ^ 2 * (A - 2 * (exp (mu * (T / INR n)) * v (T / INR n)) ^ n + u (T / INR n) ^ n))) (x0 ^ 2 * (A * (T ^ 2 * (p - (2 * mu + sigma ^ 2) ^ 2 / 2 - 2 * (p' - (mu + sigma ^ 2) ^ 2 / 2))))).
  Proof.
    intros U V. pose proof (power_first T (2 * mu + sigma ^ 2) p q s) as L. pose proof (power_first T (mu + sigma ^ 2) p' 0 0) as L'.
    apply (is_lim_seq_ext_loc (fun n => x0 ^ 2 * (INR n * ((1 + quartic (2 * mu + sigma ^ 2) p q s (T / INR n)) ^ n - exp ((2 * mu + sigma ^ 2) * T)) - 2 * exp (mu * T) * (INR n * ((1 + quartic (mu + sigma ^ 2) p' 0 0 (T / INR n)) ^ n - exp ((mu + sigma ^ 2) * T)))))).
    { exists 1%nat. intros n N. rewrite U, V, Rpow_mult_distr, exact_power by lia. unfold A. replace ((2 * mu + sigma ^ 2) * T) with (mu * T + (mu + sigma ^ 2) * T) by ring. rewrite exp_plus. ring. }
    replace (x0 ^ 2 * (A * (T ^ 2 * (p - (2 * mu + sigma ^ 2) ^ 2 / 2 - 2 * (p' - (mu + sigma ^ 2) ^ 2 / 2))))) with (x0 ^ 2 * (exp ((2 * mu + sigma ^ 2) * T) * ((p - (2 * mu + sigma ^ 2) ^ 2 / 2) * T ^ 2) - 2 * exp (mu * T) * (exp ((mu + sigma ^ 2) * T) * ((p' - (mu + sigma ^ 2) ^ 2 / 2) * T ^ 2)))) by (unfold A; replace ((2 * mu + sigma ^ 2) * T) with (mu * T + (mu + sigma ^ 2) * T) by ring; rewrite exp_plus; ring).
    apply is_lim_seq_mult'; [apply is_lim_seq_const|]. apply is_lim_seq_minus'; [exact L|]. apply is_lim_seq_mult'; [apply is_lim_seq_const|exact L'].
  Qed.
  Lemma distance_second p q s p' (u v : R -> R) : (forall h, u h = 1 + quartic (2 * mu + sigma ^ 2) p q s h) -> (forall h, v h = 1 + quartic (mu + sigma ^ 2) p' 0 0 h) ->
    let a := 2 * mu + sigma ^ 2 in let a' := mu + sigma ^ 2 in let b := p - a ^ 2 / 2 in let b' := p' - a' ^ 2 / 2 in let c := q - a * p + a ^ 3 / 3 in let c' := - a' * p' + a' ^ 3 / 3 in b = 2 * b' ->
    is_lim_seq (fun n => INR n ^ 2 * (x0 ^ 2 * (A - 2 * (exp (mu * (T / INR n)) * v (T / INR n)) ^ n + u (T / INR n) ^ n))) (x0 ^ 2 * (A * (T ^ 3 * (c - 2 * c') + T ^ 4 * (b ^ 2 - 2 * b' ^ 2) / 2))).
  Proof.
    intros U V a a' b b' c c' B. pose proof (power_second T a p q s) as L. pose proof (power_second T a' p' 0 0) as L'. cbv zeta in L, L'. fold b in L. fold b' in L'. fold c in L.
    apply (is_lim_seq_ext_loc (fun n => x0 ^ 2 * (INR n ^ 2 * ((1 + quartic a p q s (T / INR n)) ^ n - exp (a * T) * (1 + b * T ^ 2 / INR n)) - 2 * exp (mu * T) * (INR n ^ 2 * ((1 + quartic a' p' 0 0 (T / INR n)) ^ n - exp (a' * T) * (1 + b' * T ^ 2 / INR n)))))).
    { exists 1%nat. intros n N. pose proof (lt_0_INR n ltac:(lia)). rewrite U, V, Rpow_mult_distr, exact_power by lia. unfold A. fold a. fold a'. replace (a * T) with (mu * T + a' * T) by (unfold a, a'; ring). rewrite exp_plus, B. field. lra. }
    match goal with |- is_lim_seq _ (Finite ?r) => replace r with (x0 ^ 2 * (exp (a * T) * (c * T ^ 3 + b ^ 2 * T ^ 4 / 2) - 2 * exp (mu * T) * (exp (a' * T) * ((0 - a' * p' + a' ^ 3 / 3) * T ^ 3 + b' ^ 2 * T ^ 4 / 2)))) by (unfold A; fold a; replace (a * T) with (mu * T + a' * T) by (unfold a, a'; ring); rewrite exp_plus; unfold c'; field) end.
    apply is_lim_seq_mult'; [apply is_lim_seq_const|]. apply is_lim_seq_minus'; [exact L|]. apply is_lim_seq_mult'; [apply is_lim_seq_const|exact L'].
  Qed.
  Lemma bias_first p (u : R -> R) : (forall h, u h = 1 + quartic mu p 0 0 h) -> is_lim_seq (fun n => INR n * (x0 * (u (T / INR n) ^ n - exp (mu * T)))) (x0 * (exp (mu * T) * ((p - mu ^ 2 / 2) * T ^ 2))).
  Proof.
    intros U. apply (is_lim_seq_ext (fun n => x0 * (INR n * ((1 + quartic mu p 0 0 (T / INR n)) ^ n - exp (mu * T))))); [intros n; rewrite U; ring|]. apply is_lim_seq_mult'; [apply is_lim_seq_const|]. apply power_first.
  Qed.
  Lemma bias_second (u : R -> R) : (forall h, u h = 1 + quartic mu (mu ^ 2 / 2) 0 0 h) -> is_lim_seq (fun n => INR n ^ 2 * (x0 * (u (T / INR n) ^ n - exp (mu * T)))) (x0 * (exp (mu * T) * (- mu ^ 3 / 6 * T ^ 3))).
  Proof.
    intros U. pose proof (power_second T mu (mu ^ 2 / 2) 0 0) as L. cbv zeta in L. apply (is_lim_seq_ext_loc (fun n => x0 * (INR n ^ 2 * ((1 + quartic mu (mu ^ 2 / 2) 0 0 (T / INR n)) ^ n - exp (mu * T) * (1 + (mu ^ 2 / 2 - mu ^ 2 / 2) * T ^ 2 / INR n))))).
    { exists 1%nat. intros n N. pose proof (lt_0_INR n ltac:(lia)). rewrite U. field. lra. }
    apply is_lim_seq_mult'; [apply is_lim_seq_const|]. match goal with |- is_lim_seq _ (Finite ?r) => replace r with (exp (mu * T) * ((0 - mu * (mu ^ 2 / 2) + mu ^ 3 / 3) * T ^ 3 + (mu ^ 2 / 2 - mu ^ 2 / 2) ^ 2 * T ^ 4 / 2)) by field end. exact L.
  Qed.
End errors.
