(* Expectations over several normal numbers: exponentials and option payoffs of weighted sums *)
From Coq Require Import Reals Lra Lia List.
From Coquelicot Require Import Coquelicot.
From Verif Require Import Base NormalModel NormalProofs BsProofs MonteSpec MonteProofs MeanSpec MeanProofs.
Open Scope R_scope.

Lemma expected_opp f m : expected f m -> expected (fun z => f (- z)) m.
Proof.
  rewrite !expected_iff. intros H e He. destruct (H e He) as (M & HM). exists M. intros a b A B. destruct (HM (- b) (- a)) as (y & Y & D); [lra|lra|]. exists y. split; [|exact D].
  replace y with (opp (- y)) by (change (@eq R (- - y) y); ring). apply (is_RInt_swap (V := R_NormedModule)).
  apply (is_RInt_ext (fun u => opp (opp (f (- u) * pdf (- u))))). { intros u _. change (@eq R (- - (f (- u) * pdf (- u))) (f (- u) * pdf u)). rewrite pdf_even. ring. }
  apply (is_RInt_opp (V := R_NormedModule)). apply (is_RInt_comp_opp (V := R_NormedModule) (fun u => f u * pdf u)). exact Y.
Qed.
Lemma payoff_lognormal' w F K v : w = 1 \/ w = -1 -> 0 < F -> 0 < K -> v <> 0 -> expected (fun z => Rmax 0 (w * (lognormal F v z - K))) (blk w F K (Rabs v)).
Proof.
  intros W HF HK N. destruct (Rlt_dec 0 v) as [P|P].
  - rewrite Rabs_right by lra. apply payoff_lognormal; assumption.
  - rewrite Rabs_left by lra. eapply expected_ext; [|apply (expected_opp _ _ (payoff_lognormal w F K (- v) W HF HK ltac:(lra)))]. intros z. cbv beta. unfold lognormal. replace (- v * - z - (- v) ^ 2 / 2) with (v * z - v ^ 2 / 2) by field. reflexivity.
Qed.

Lemma expected_n_ext n : forall f g m, (forall w, f w = g w) -> expected_n n f m -> expected_n n g m.
Proof.
  induction n as [|n IH]; intros f g m E H; cbn in *; [intros w; rewrite <- E; apply H|]. destruct H as (h & A & B). exists h. split; [|exact B]. intros z. eapply IH; [|apply A]. intros w. apply E.
Qed.
Lemma expected_n_const n c : expected_n n (fun _ => c) c.
Proof. induction n as [|n IH]; cbn; [reflexivity|]. exists (fun _ => c). split; [intros _; exact IH|apply expected_const]. Qed.
Lemma expected_n_unique n : forall f m m', expected_n n f m -> expected_n n f m' -> m = m'.
Proof.
  induction n as [|n IH]; intros f m m' H H'; cbn in *; [rewrite <- (H (fun _ => 0)); apply H'|]. destruct H as (g & A & B), H' as (g' & A' & B'). apply (expected_unique g); [exact B|]. eapply expected_ext; [|exact B']. intros z. symmetry. exact (IH _ _ _ (A z) (A' z)).
Qed.
Lemma expected_n_lin n : forall f g m k c d, expected_n n f m -> expected_n n g k -> expected_n n (fun w => c * f w + d * g w) (c * m + d * k).
Proof.
  induction n as [|n IH]; intros f g m k c d H G; cbn in *; [intros w; rewrite H, G; reflexivity|]. destruct H as (h & A & B), G as (h' & A' & B'). exists (fun z => c * h z + d * h' z). split; [intros z; apply (IH (fun w => f (followed_by z w)) (fun w => g (followed_by z w))); auto|apply expected_lin; assumption].
Qed.
Lemma expected_n_scal n f m c : expected_n n f m -> expected_n n (fun w => c * f w) (c * m).
Proof. intros H. replace (c * m) with (c * m + 0 * 0) by ring. eapply expected_n_ext; [|exact (expected_n_lin n f (fun _ => 0) m 0 c 0 H (expected_n_const n 0))]. intros w. cbv beta. ring. Qed.

(* the exponential of a weighted sum *)
Lemma expected_n_exp n : forall a (c : nat -> R), expected_n n (fun w => exp (a + total n (fun i => c i * w i))) (exp (a + total n (fun i => c i ^ 2 / 2))).
Proof.
  induction n as [|n IH]; intros a c; cbn [expected_n]; [intros w; rewrite !total_0; reflexivity|].
  exists (fun z => exp (a + c O * z + total n (fun i => c (Datatypes.S i) ^ 2 / 2))). split.
  - intros z. eapply expected_n_ext; [|exact (IH (a + c O * z) (fun i => c (Datatypes.S i)))]. intros w. cbv beta. rewrite total_shift. cbn [followed_by]. f_equal. ring.
  - rewrite total_shift. replace (a + (c O ^ 2 / 2 + total n (fun i => c (Datatypes.S i) ^ 2 / 2))) with (a + total n (fun i => c (Datatypes.S i) ^ 2 / 2) + c O ^ 2 / 2) by ring. eapply expected_ext; [|apply expected_exp]. intros z. cbv beta. f_equal. ring.
Qed.

(* the price after one more period *)
Lemma cdf_arg_ext x y m f : (forall z, f z = x + y * z) -> m = x / sqrt (1 + y ^ 2) -> expected (fun z => cdf (f z)) (cdf m).
Proof. intros E ->. eapply expected_ext; [|apply (expected_cdf y x)]. intros z. cbv beta. rewrite E. reflexivity. Qed.
Lemma blk_step w S K u v : w = 1 \/ w = -1 -> 0 < S -> 0 < K -> 0 < v -> expected (fun z => blk w (lognormal S u z) K v) (blk w S K (sqrt (u ^ 2 + v ^ 2))).
Proof.
  intros W HS HK Hv. set (V := sqrt (u ^ 2 + v ^ 2)). assert (V2 : V ^ 2 = u ^ 2 + v ^ 2) by (unfold V; rewrite <- Rsqr_pow2; apply Rsqr_sqrt; nra). assert (HV : 0 < V) by (apply sqrt_lt_R0; nra).
  assert (Q : sqrt (1 + (w * u / v) ^ 2) = V / v). { assert (W2 : w ^ 2 = 1) by (destruct W as [->| ->]; ring). replace (1 + (w * u / v) ^ 2) with (Rsqr (V / v)) by (unfold Rsqr; replace (V / v * (V / v)) with (V ^ 2 / v ^ 2) by (field; lra); rewrite V2; replace ((w * u / v) ^ 2) with (w ^ 2 * u ^ 2 / v ^ 2) by (field; lra); rewrite W2; field; lra). apply sqrt_Rsqr. left. apply Rdiv_lt_0_compat; assumption. }
  assert (Ln : forall z, ln (lognormal S u z / K) = ln (S / K) + u * z - u ^ 2 / 2). { intros z. unfold lognormal. rewrite !ln_quot by (try apply Rmult_lt_0_compat; try apply exp_pos; assumption). rewrite ln_mult, ln_exp by (try apply exp_pos; assumption). ring. }
  set (L := ln (S / K)) in *.
  assert (E1 : expected (fun z => exp (u * z - u ^ 2 / 2) * cdf (w * bd1 (lognormal S u z) K v)) (cdf (w * bd1 S K V))).
  { apply (expected_tilt (fun z => cdf (w * bd1 (lognormal S u z) K v))). apply (cdf_arg_ext (w * (L + (u ^ 2 + v ^ 2) / 2) / v) (w * u / v)).
    - intros z. unfold bd1. rewrite Ln. field. lra.
    - rewrite Q, <- V2. unfold bd1. fold L. field. split; lra. }
  assert (E2 : expected (fun z => cdf (w * bd2 (lognormal S u z) K v)) (cdf (w * bd2 S K V))).
  { apply (cdf_arg_ext (w * (L - (u ^ 2 + v ^ 2) / 2) / v) (w * u / v)).
    - intros z. unfold bd2, bd1. rewrite Ln. field. lra.
    - rewrite Q, <- V2. unfold bd2, bd1. fold L. field. split; lra. }
  replace (blk w S K V) with (w * S * cdf (w * bd1 S K V) + - (w * K) * cdf (w * bd2 S K V)) by (unfold blk; ring). eapply expected_ext; [|exact (expected_lin _ _ _ _ (w * S) (- (w * K)) E1 E2)]. intros z. cbv beta. unfold blk. unfold lognormal at 3. ring.
Qed.
(* the payoff of the exponential of a weighted sum *)
Lemma expected_n_payoff n : forall w S K (c : nat -> R), w = 1 \/ w = -1 -> 0 < S -> 0 < K -> 0 < total n (fun i => c i ^ 2) ->
  expected_n n (fun x => Rmax 0 (w * (S * exp (total n (fun i => c i * x i) - total n (fun i => c i ^ 2) / 2) - K))) (blk w S K (sqrt (total n (fun i => c i ^ 2)))).
Proof.
  induction n as [|n IH]; intros w S K c W HS HK P; [rewrite total_0 in P; lra|]. set (c' := fun i => c (Datatypes.S i)). rewrite total_shift in P; rewrite (total_shift n (fun i => c i ^ 2)). change (fun i => c (Datatypes.S i) ^ 2) with (fun i => c' i ^ 2) in P |- *. set (V := total n (fun i => c' i ^ 2)) in *.
  assert (NN : forall i, (i < n)%nat -> 0 <= c' i ^ 2) by (intros i _; apply pow2_ge_0).
  assert (V0 : 0 <= V) by (apply total_nonneg; exact NN). cbn [expected_n]. destruct (Rle_lt_or_eq_dec _ _ V0) as [VP|VZ].
  - exists (fun z => blk w (lognormal S (c O) z) K (sqrt V)). split.
    + intros z. eapply expected_n_ext; [|apply (IH w (lognormal S (c O) z) K c' W); [unfold lognormal; apply Rmult_lt_0_compat; [exact HS|apply exp_pos]|exact HK|exact VP]]. intros x. cbv beta. rewrite total_shift. cbn [followed_by]. fold V. change (fun i => c (Datatypes.S i) * x i) with (fun i => c' i * x i). f_equal. f_equal. f_equal. unfold lognormal. rewrite Rmult_assoc, <- exp_plus. do 2 f_equal. field.
    + assert (E : c O ^ 2 + V = c O ^ 2 + sqrt V ^ 2) by (rewrite <- (Rsqr_pow2 (sqrt V)), Rsqr_sqrt by lra; reflexivity). rewrite E. apply blk_step; try assumption. apply sqrt_lt_R0. exact VP.
  - rewrite <- VZ in P |- *. assert (Z : forall i, (i < n)%nat -> c' i = 0) by (intros i Hi; pose proof (total_nonneg_zero n _ NN (eq_sym VZ) i Hi) as A; cbv beta in A; nra).
    exists (fun z => Rmax 0 (w * (lognormal S (c O) z - K))). split.
    + intros z. eapply expected_n_ext; [|apply expected_n_const]. intros x. cbv beta. rewrite total_shift. cbn [followed_by]. rewrite (total_zero n (fun i => c (Datatypes.S i) * x i)) by (intros i Hi; change (c' i * x i = 0); rewrite Z by exact Hi; ring). unfold lognormal. replace (c O * z - c O ^ 2 / 2) with (c O * z + 0 - (c O ^ 2 + 0) / 2) by field. reflexivity.
    + rewrite Rplus_0_r. rewrite <- Rsqr_pow2, sqrt_Rsqr_abs. apply payoff_lognormal'; try assumption. intros E0. rewrite E0 in P. lra.
Qed.

(* first and second moment of a weighted sum *)
Lemma expected_n_linear n : forall a (c : nat -> R), expected_n n (fun w => a + total n (fun i => c i * w i)) a.
Proof.
  induction n as [|n IH]; intros a c; cbn [expected_n]; [intros w; rewrite total_0; ring|]. exists (fun z => a + c O * z). split.
  - intros z. eapply expected_n_ext; [|exact (IH (a + c O * z) (fun i => c (Datatypes.S i)))]. intros w. cbv beta. rewrite total_shift. cbn [followed_by]. ring.
  - enough (W : expected (fun z => a + c O * z) (1 * a + c O * 0)) by (replace (1 * a + c O * 0) with a in W by ring; exact W). eapply expected_ext; [|exact (expected_lin _ _ _ _ 1 (c O) (expected_const a) expected_id)]. intros z. cbv beta. ring.
Qed.
Lemma expected_n_square n : forall a (c : nat -> R), expected_n n (fun w => (a + total n (fun i => c i * w i)) ^ 2) (a ^ 2 + total n (fun i => c i ^ 2)).
Proof.
  induction n as [|n IH]; intros a c; cbn [expected_n]; [intros w; rewrite !total_0; ring|]. exists (fun z => (a + c O * z) ^ 2 + total n (fun i => c (Datatypes.S i) ^ 2)). split.
  - intros z. eapply expected_n_ext; [|exact (IH (a + c O * z) (fun i => c (Datatypes.S i)))]. intros w. cbv beta. rewrite total_shift. cbn [followed_by]. ring.
  - rewrite total_shift. replace (a ^ 2 + (c O ^ 2 + total n (fun i => c (Datatypes.S i) ^ 2))) with (1 * (1 * (a ^ 2 + total n (fun i => c (Datatypes.S i) ^ 2)) + 2 * a * c O * 0) + c O ^ 2 * 1) by ring.
    eapply expected_ext; [|exact (expected_lin _ _ _ _ 1 (c O ^ 2) (expected_lin _ _ _ _ 1 (2 * a * c O) (expected_const (a ^ 2 + total n (fun i => c (Datatypes.S i) ^ 2))) expected_id) expected_sq)]. intros z. cbv beta. ring.
Qed.
