(* Gaussian expectations used by the Heston schemes: fourth moments, exponentials of squares, and the exponential tail *)
From Coq Require Import Reals Lra Lia.
From Coquelicot Require Import Coquelicot.
From Verif Require Import Base NormalModel NormalProofs BsProofs MeanSpec MeanProofs.
Open Scope R_scope.

Lemma pdf_poly_far (P : R -> R) (c : R) (k : nat) : 0 <= c -> (forall x, 1 < Rabs x -> Rabs (P x) <= c * Rabs x ^ k) -> forall e, 0 < e -> exists M, forall x, M < Rabs x -> Rabs (P x * pdf x) < e.
Proof.
  intros C H e He. assert (Q : 0 < e / (c + 1)) by (apply Rdiv_lt_0_compat; lra). destruct (pdf_power_small k _ Q) as (M & _ & HM). exists (Rmax M 1). intros x X. pose proof (Rmax_l M 1). pose proof (Rmax_r M 1). specialize (HM x ltac:(lra)). specialize (H x ltac:(lra)). pose proof (pdf_pos x) as P0. pose proof (pow_le (Rabs x) k (Rabs_pos x)) as P1.
  rewrite Rabs_mult, (Rabs_right (pdf x)) by lra. apply Rle_lt_trans with (c * (Rabs x ^ k * pdf x)); [nra|]. assert (E : e = (c + 1) * (e / (c + 1))) by (field; lra). rewrite E. assert (0 <= Rabs x ^ k * pdf x) by nra. nra.
Qed.
Lemma abs_ge_1 x k : 1 < Rabs x -> 1 <= Rabs x ^ k. Proof. intros H. apply pow_R1_Rle. lra. Qed.
Lemma expected_cube : expected (fun z => z ^ 3) 0.
Proof.
  apply expected_iff. replace 0 with (0 - 0) by ring. destruct (far_of (fun x => - (x ^ 2 + 2) * pdf x) 0) as [A B].
  { intros e He. destruct (pdf_poly_far (fun x => - (x ^ 2 + 2)) 3 2 ltac:(lra)) with (e := e) as (M & H); [|exact He|].
    - intros x X. rewrite Rabs_Ropp. pose proof (abs_ge_1 x 2 X) as X2. rewrite RPow_abs in X2 |- *. pose proof (pow2_ge_0 x). rewrite (Rabs_right (x ^ 2)) in X2 |- * by lra. rewrite Rabs_right by lra. lra.
    - exists M. intros x X. rewrite Rminus_0_r. apply H. exact X. }
  apply (whole_anti _ (fun x => - (x ^ 2 + 2) * pdf x)); [|exact A|exact B]. apply int_anti.
  - intros x. replace (x ^ 3 * pdf x) with (- (2 * x) * pdf x + - (x ^ 2 + 2) * (- x * pdf x)) by ring. apply (is_derive_mult (fun x => - (x ^ 2 + 2)) pdf); [auto_derive; [trivial|ring]|apply pdf_is_derive|intros; apply Rmult_comm].
  - intros x. apply (continuous_mult (K := R_AbsRing)); [|apply pdf_continuous]. apply (ex_derive_continuous (V := R_NormedModule)). auto_derive. trivial.
Qed.
Lemma expected_fourth : expected (fun z => z ^ 4) 3.
Proof.
  assert (D : expected (fun z => z ^ 4 - 3) 0).
  { apply expected_iff. replace 0 with (0 - 0) by ring. destruct (far_of (fun x => - (x ^ 3 + 3 * x) * pdf x) 0) as [A B].
    { intros e He. destruct (pdf_poly_far (fun x => - (x ^ 3 + 3 * x)) 4 3 ltac:(lra)) with (e := e) as (M & H); [|exact He|].
      - intros x X. rewrite Rabs_Ropp. eapply Rle_trans; [apply Rabs_triang|]. rewrite Rabs_mult, (Rabs_right 3), <- RPow_abs by lra. pose proof (Rabs_pos x). assert (Rabs x <= Rabs x ^ 3) by (replace (Rabs x ^ 3) with (Rabs x * Rabs x ^ 2) by ring; pose proof (abs_ge_1 x 2 X); nra). lra.
      - exists M. intros x X. rewrite Rminus_0_r. apply H. exact X. }
    apply (whole_anti _ (fun x => - (x ^ 3 + 3 * x) * pdf x)); [|exact A|exact B]. apply int_anti.
    - intros x. replace ((x ^ 4 - 3) * pdf x) with (- (3 * x ^ 2 + 3) * pdf x + - (x ^ 3 + 3 * x) * (- x * pdf x)) by ring. apply (is_derive_mult (fun x => - (x ^ 3 + 3 * x)) pdf); [auto_derive; [trivial|ring]|apply pdf_is_derive|intros; apply Rmult_comm].
    - intros x. apply (continuous_mult (K := R_AbsRing)); [|apply pdf_continuous]. apply (ex_derive_continuous (V := R_NormedModule)). auto_derive. trivial. }
  pose proof (expected_lin _ _ _ _ 1 3 D (expected_const 1)) as H. replace (1 * 0 + 3 * 1) with 3 in H by ring. eapply expected_ext; [|exact H]. intros z. cbv beta. ring.
Qed.
Lemma expected_quadratic a b : expected (fun z => a * (b + z) ^ 2) (a * (1 + b ^ 2)).
Proof.
  pose proof (expected_lin _ _ _ _ 1 a (expected_lin _ _ _ _ (a * b ^ 2) (2 * a * b) (expected_const 1) expected_id) expected_sq) as H. replace (1 * (a * b ^ 2 * 1 + 2 * a * b * 0) + a * 1) with (a * (1 + b ^ 2)) in H by ring. eapply expected_ext; [|exact H]. intros z. cbv beta. ring.
Qed.
Lemma expected_quartic a b : expected (fun z => (a * (b + z) ^ 2) ^ 2) (a ^ 2 * (b ^ 4 + 6 * b ^ 2 + 3)).
Proof.
  pose proof (expected_lin _ _ _ _ 1 1 (expected_lin _ _ _ _ 1 (6 * a ^ 2 * b ^ 2) (expected_lin _ _ _ _ (a ^ 2 * b ^ 4) (4 * a ^ 2 * b ^ 3) (expected_const 1) expected_id) expected_sq) (expected_lin _ _ _ _ (4 * a ^ 2 * b) (a ^ 2) expected_cube expected_fourth)) as H.
  match type of H with expected _ ?m => replace m with (a ^ 2 * (b ^ 4 + 6 * b ^ 2 + 3)) in H by ring end. eapply expected_ext; [|exact H]. intros z. cbv beta. ring.
Qed.
Lemma expected_square_exp b c : c < 1 / 2 -> expected (fun z => exp (c * (b + z) ^ 2)) (exp (c * b ^ 2 / (1 - 2 * c)) / sqrt (1 - 2 * c)).
Proof.
  intros C. set (q := sqrt (1 - 2 * c)). assert (Q : 0 < q) by (apply sqrt_lt_R0; lra). assert (Q2 : q ^ 2 = 1 - 2 * c) by (unfold q; rewrite <- Rsqr_pow2; apply Rsqr_sqrt; lra). set (E := exp (c * b ^ 2 / (1 - 2 * c))). set (s := - (2 * c * b / q)).
  assert (Sq : forall z, exp (c * (b + z) ^ 2) * pdf z = E / q * (q * pdf (s + q * z))).
  { intros z. replace (E / q * (q * pdf (s + q * z))) with (E * pdf (s + q * z)) by (field; lra). unfold pdf. transitivity (exp (c * (b + z) ^ 2) * exp (- (z * z) / 2) / sqrt (2 * PI)); [unfold Rdiv; ring|]. transitivity (E * exp (- ((s + q * z) * (s + q * z)) / 2) / sqrt (2 * PI)); [|unfold Rdiv; ring]. f_equal. unfold E. rewrite <- !exp_plus. f_equal.
    assert (S2 : (s + q * z) * (s + q * z) = 4 * c ^ 2 * b ^ 2 / q ^ 2 - 4 * c * b * z + q ^ 2 * z ^ 2) by (unfold s; field; lra). rewrite S2, Q2. field. lra. }
  apply expected_iff. eapply whole_ext; [intros z; symmetry; apply Sq|]. enough (W : whole (fun z => E / q * (q * pdf (s + q * z))) (E / q * 1 - E / q * 0)) by (replace (E / q * 1 - E / q * 0) with (E / q) in W by ring; exact W).
  apply (whole_anti _ (fun z => E / q * cdf (s + q * z))).
  - apply int_anti.
    + intros x. apply (is_derive_scal (fun z => cdf (s + q * z))). apply cdf_lin_derive.
    + intros x. apply (ex_derive_continuous (V := R_NormedModule)). unfold pdf. auto_derive. trivial.
  - intros e He. assert (Eq : 0 < E / q) by (apply Rdiv_lt_0_compat; [apply exp_pos|exact Q]). destruct (cdf_near_0 (e / (E / q)) ltac:(apply Rdiv_lt_0_compat; assumption)) as (M & _ & H). exists ((M + s) / q). intros x X. assert (Y : s + q * x < - M). { assert (q * x < q * - ((M + s) / q)) by (apply Rmult_lt_compat_l; assumption). replace (q * - ((M + s) / q)) with (- (M + s)) in * by (field; lra). lra. }
    specialize (H _ Y). pose proof (cdf_gt_0 (s + q * x)). replace (E / q * cdf (s + q * x) - E / q * 0) with (E / q * cdf (s + q * x)) by ring. rewrite Rabs_right by nra. apply Rlt_le_trans with (E / q * (e / (E / q))); [apply Rmult_lt_compat_l; assumption|right; field; split; [lra|unfold E; apply Rgt_not_eq, exp_pos]].
  - intros e He. assert (Eq : 0 < E / q) by (apply Rdiv_lt_0_compat; [apply exp_pos|exact Q]). destruct (cdf_near_1 (e / (E / q)) ltac:(apply Rdiv_lt_0_compat; assumption)) as (M & _ & H). exists ((M - s) / q). intros x X. assert (Y : M < s + q * x). { assert (q * ((M - s) / q) < q * x) by (apply Rmult_lt_compat_l; assumption). replace (q * ((M - s) / q)) with (M - s) in * by (field; lra). lra. }
    specialize (H _ Y). pose proof (cdf_lt_1 (s + q * x)). replace (E / q * cdf (s + q * x) - E / q * 1) with (- (E / q * (1 - cdf (s + q * x)))) by ring. rewrite Rabs_Ropp, Rabs_right by nra. apply Rlt_le_trans with (E / q * (e / (E / q))); [apply Rmult_lt_compat_l; [exact Eq|lra]|right; field; split; [lra|unfold E; apply Rgt_not_eq, exp_pos]].
Qed.

Section Tail.
  Variables (p c : R).
  Hypothesis (P : 0 < p < 1) (C : cdf c = p).
  Definition tail (z : R) : R := ln ((1 - p) / (1 - cdf z)).
  Lemma tail_exp z : 1 - cdf z = (1 - p) * exp (- tail z).
  Proof. pose proof (cdf_lt_1 z). unfold tail. rewrite exp_Ropp, exp_ln by (apply Rdiv_lt_0_compat; lra). field. lra. Qed.
  Lemma tail_derive z : is_derive tail z (pdf z / (1 - cdf z)).
  Proof.
    pose proof (cdf_lt_1 z). apply (is_derive_ext (fun z => ln (1 - p) - ln (1 - cdf z))). { intros t. unfold tail. rewrite ln_quot; [reflexivity|lra|pose proof (cdf_lt_1 t); lra]. }
    replace (pdf z / (1 - cdf z)) with (0 - (- pdf z) * / (1 - cdf z)) by (field; lra). apply (is_derive_minus (K := R_AbsRing) (V := R_NormedModule)); [apply (is_derive_const (K := R_AbsRing) (V := R_NormedModule))|].
    apply (is_derive_comp (V := R_NormedModule) ln (fun z => 1 - cdf z)); [apply is_derive_ln; lra|]. replace (- pdf z) with (0 - pdf z) by ring. apply (is_derive_minus (K := R_AbsRing) (V := R_NormedModule)); [apply (is_derive_const (K := R_AbsRing) (V := R_NormedModule))|apply cdf_derive].
  Qed.
  Lemma tail_continuous z : continuous tail z.
  Proof. apply (ex_derive_continuous (V := R_NormedModule)). eexists. apply tail_derive. Qed.
  Lemma tail_c : tail c = 0. Proof. unfold tail. rewrite C. replace ((1 - p) / (1 - p)) with 1 by (field; lra). apply ln_1. Qed.
  Lemma tail_far N : exists M, forall z, M < z -> N < tail z.
  Proof.
    assert (E : 0 < (1 - p) * exp (- N)) by (apply Rmult_lt_0_compat; [lra|apply exp_pos]). destruct (cdf_near_1 _ E) as (M & _ & H). exists M. intros z Z. specialize (H z Z). rewrite <- (Ropp_involutive N), <- (Ropp_involutive (tail z)). apply Ropp_lt_contravar. apply exp_lt_inv. apply Rmult_lt_reg_l with (1 - p); [lra|]. rewrite <- tail_exp. lra.
  Qed.
  (* (K of tail) times the probability above z has the given derivative and vanishes *)
  Lemma tail_anti (K K' : R -> R) z : is_derive K (tail z) (K' (tail z)) -> is_derive (fun z => - ((1 - cdf z) * K (tail z))) z ((K (tail z) - K' (tail z)) * pdf z).
  Proof.
    intros D. pose proof (cdf_lt_1 z). replace ((K (tail z) - K' (tail z)) * pdf z) with (- ((0 - pdf z) * K (tail z) + (1 - cdf z) * (pdf z / (1 - cdf z) * K' (tail z)))) by (field; lra). apply (is_derive_opp (K := R_AbsRing) (V := R_NormedModule)).
    apply (is_derive_mult (fun z => 1 - cdf z) (fun z => K (tail z))); [|apply (is_derive_comp (V := R_NormedModule) K tail); [exact D|apply tail_derive]|intros; apply Rmult_comm].
    apply (is_derive_minus (K := R_AbsRing) (V := R_NormedModule)); [apply (is_derive_const (K := R_AbsRing) (V := R_NormedModule))|apply cdf_derive].
  Qed.
  Lemma exp_cube u : 0 < u -> u ^ 3 / 27 < exp u.
  Proof. intros U. replace u with (u / 3 + u / 3 + u / 3) at 2 by field. rewrite !exp_plus. pose proof (exp_ineq1 (u / 3) ltac:(lra)) as E. set (e := exp (u / 3)) in *. replace (u ^ 3 / 27) with (u / 3 * (u / 3) * (u / 3)) by field. assert (0 < u / 3) by lra. assert (u / 3 * (u / 3) < e * e) by nra. nra. Qed.
  Lemma tail_vanish (K : R -> R) : (forall u, 1 < u -> Rabs (K u) <= 5 * u ^ 2) -> forall e, 0 < e -> exists M, forall z, M < z -> Rabs (- ((1 - cdf z) * K (tail z)) - 0) < e.
  Proof.
    intros H e He. destruct (tail_far (Rmax 1 (135 / e))) as (M & HM). exists M. intros z Z. specialize (HM z Z). set (u := tail z) in *. pose proof (Rmax_l 1 (135 / e)). pose proof (Rmax_r 1 (135 / e)). assert (U1 : 1 < u) by lra. assert (U2 : 135 / e < u) by lra.
    rewrite Rminus_0_r, Rabs_Ropp, Rabs_mult, tail_exp. fold u. pose proof (exp_pos (- u)). rewrite (Rabs_right ((1 - p) * exp (- u))) by nra. specialize (H u U1). pose proof (exp_cube u ltac:(lra)) as Ec.
    apply Rle_lt_trans with (exp (- u) * (5 * u ^ 2)). { apply Rmult_le_compat; [nra|apply Rabs_pos|nra|exact H]. }
    rewrite exp_Ropp. apply Rmult_lt_reg_l with (exp u); [apply exp_pos|]. rewrite <- Rmult_assoc, Rinv_r, Rmult_1_l by (pose proof (exp_pos u); lra). assert (135 < u * e) by (apply Rlt_div_l; assumption). assert (0 < u ^ 2) by nra. assert (5 * u ^ 2 < u ^ 3 / 27 * e) by (replace (u ^ 3 / 27 * e) with (u ^ 2 * (u * e) / 27) by field; nra). nra.
  Qed.
  Lemma tail_poly z : forall K : R -> R, (forall u, ex_derive K u) -> continuous (fun z => K (tail z)) z.
  Proof. intros K D. apply (continuous_comp tail K); [apply tail_continuous|]. apply (ex_derive_continuous (V := R_NormedModule)). apply D. Qed.
  Lemma expected_tail f : (forall z, z < c -> f z = 0) -> (forall z, c < z -> f z = tail z) -> expected f (1 - p).
  Proof.
    intros L U. enough (W : expected f (0 - - ((1 - cdf c) * (tail c + 1)))) by (rewrite C, tail_c in W; replace (0 - - ((1 - p) * (0 + 1))) with (1 - p) in W by ring; exact W).
    apply (expected_from f tail (fun z => - ((1 - cdf z) * (tail z + 1)))); [|apply tail_continuous|exact L|exact U|].
    - intros x. replace (tail x * pdf x) with ((tail x + 1 - 1) * pdf x) by ring. apply (tail_anti (fun u => u + 1) (fun _ => 1)). auto_derive; [trivial|reflexivity].
    - apply (tail_vanish (fun u => u + 1)). intros u Hu. rewrite Rabs_right by lra. nra.
  Qed.
  Lemma expected_tail_sq f : (forall z, z < c -> f z = 0) -> (forall z, c < z -> f z = tail z ^ 2) -> expected f (2 * (1 - p)).
  Proof.
    intros L U. enough (W : expected f (0 - - ((1 - cdf c) * (tail c ^ 2 + 2 * tail c + 2)))) by (rewrite C, tail_c in W; replace (0 - - ((1 - p) * (0 ^ 2 + 2 * 0 + 2))) with (2 * (1 - p)) in W by ring; exact W).
    apply (expected_from f (fun z => tail z ^ 2) (fun z => - ((1 - cdf z) * (tail z ^ 2 + 2 * tail z + 2)))); [| |exact L|exact U|].
    - intros x. replace (tail x ^ 2 * pdf x) with ((tail x ^ 2 + 2 * tail x + 2 - (2 * tail x + 2)) * pdf x) by ring. apply (tail_anti (fun u => u ^ 2 + 2 * u + 2) (fun u => 2 * u + 2)). auto_derive; [trivial|ring].
    - intros x. apply (tail_poly x (fun u => u ^ 2)). intros u. auto_derive. trivial.
    - apply (tail_vanish (fun u => u ^ 2 + 2 * u + 2)). intros u Hu. rewrite Rabs_right by nra. nra.
  Qed.
  Lemma expected_tail_exp f r : r < 1 -> (forall z, z < c -> f z = 1) -> (forall z, c < z -> f z = exp (r * tail z)) -> expected f (p + (1 - p) / (1 - r)).
  Proof.
    intros Hr L U. assert (W : expected (fun z => f z - 1) (- (1) - (- ((1 - cdf c) * (exp (r * tail c) / (1 - r))) - cdf c))).
    { apply (expected_from (fun z => f z - 1) (fun z => exp (r * tail z) - 1) (fun z => - ((1 - cdf z) * (exp (r * tail z) / (1 - r))) - cdf z)); [| |intros z Z; rewrite L by exact Z; ring|intros z Z; rewrite U by exact Z; reflexivity|].
      - intros x. replace ((exp (r * tail x) - 1) * pdf x) with ((exp (r * tail x) / (1 - r) - r * exp (r * tail x) / (1 - r)) * pdf x - pdf x) by (field; lra). apply (is_derive_minus (K := R_AbsRing) (V := R_NormedModule)); [|apply cdf_derive]. apply (tail_anti (fun u => exp (r * u) / (1 - r)) (fun u => r * exp (r * u) / (1 - r))). auto_derive; [trivial|]. set (q := exp (r * tail x)). field. lra.
      - intros x. apply (tail_poly x (fun u => exp (r * u) - 1)). intros u. auto_derive. trivial.
      - intros e He. set (d := 1 - r). assert (D : 0 < d) by (unfold d; lra). destruct (tail_far (2 / (e * d * d))) as (M & HM). destruct (cdf_near_1 (e / 2) ltac:(lra)) as (M' & _ & H1). exists (Rmax M M'). intros z Z. pose proof (Rmax_l M M'). pose proof (Rmax_r M M'). specialize (HM z ltac:(lra)). specialize (H1 z ltac:(lra)). pose proof (cdf_lt_1 z). 
        rewrite tail_exp. set (u := tail z) in *. assert (Up : 0 < 2 / (e * d * d)) by (apply Rdiv_lt_0_compat; [lra|]; apply Rmult_lt_0_compat; [nra|lra]). assert (U0 : 0 < u) by lra.
        replace (- ((1 - p) * exp (- u) * (exp (r * u) / d)) - cdf z - - (1)) with ((1 - cdf z) - (1 - p) / d * (exp (- u) * exp (r * u))) by (field; lra). rewrite <- exp_plus. replace (- u + r * u) with (- (d * u)) by (unfold d; ring). rewrite exp_Ropp. pose proof (exp_ineq1_le (d * u)) as E1. assert (0 < d * u) by nra. pose proof (exp_pos (d * u)).
        assert (B : 0 < (1 - p) / d * / exp (d * u) < e / 2).
        { split; [apply Rmult_lt_0_compat; [apply Rdiv_lt_0_compat; lra|apply Rinv_0_lt_compat; lra]|]. apply Rmult_lt_reg_r with (exp (d * u)); [lra|]. rewrite Rmult_assoc, Rinv_l, Rmult_1_r by lra. apply Rlt_div_l; [exact D|]. assert (K : 2 < u * (e * d * d)). { apply Rlt_div_l; [|lra]. apply Rmult_lt_0_compat; [nra|lra]. } assert (e / 2 * (d * u) * d <= e / 2 * exp (d * u) * d) by (apply Rmult_le_compat_r; [lra|]; apply Rmult_le_compat_l; lra). lra. }
        apply Rabs_def1; lra. }
    rewrite C, tail_c, Rmult_0_r, exp_0 in W. pose proof (expected_lin _ _ _ _ 1 1 W (expected_const 1)) as Y. match type of Y with expected _ ?m => replace m with (p + (1 - p) / (1 - r)) in Y by (field; lra) end. eapply expected_ext; [|exact Y]. intros z. cbv beta. ring.
  Qed.
End Tail.
