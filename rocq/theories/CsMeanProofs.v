(* The expected spot of the Clewlow-Strickland recursion against the forward *)
From Coq Require Import ZArith Reals Lra Lia List.
From Coquelicot Require Import Coquelicot.
From Verif Require Import Base NormalModel NormalProofs BsProofs MonteModel MonteSpec MonteProofs MeanSpec MeanProofs PathMeanProofs.
Open Scope R_scope.

Lemma exp_above_quadratic x : 0 < x -> exp (- x) < 1 - x + x ^ 2 / 2.
Proof.
  intros H. assert (D : forall f f' : R -> R, (forall u, is_derive f u (f' u)) -> f 0 = 0 -> (forall u, 0 < u -> 0 < f' u) -> forall u, 0 < u -> 0 < f u).
  { intros f f' Df F0 P u U. destruct (MVT_gen f 0 u f') as (v & [V1 V2] & E). { intros v _. apply Df. } { intros v _. apply continuity_pt_filterlim. apply (ex_derive_continuous (V := R_NormedModule)). eexists. apply Df. }
    rewrite F0 in E. rewrite Rmin_left in V1 by lra. rewrite Rmax_right in V2 by lra. destruct (Req_dec v 0) as [->|N].
    - destruct (MVT_cor2 f f' 0 u U (fun c _ => proj1 (is_derive_Reals _ _ _) (Df c))) as (w & W & W1). rewrite F0 in W. assert (0 < f' w) by (apply P; lra). nra.
    - assert (0 < f' v) by (apply P; lra). nra. }
  assert (S : forall u, 0 < u -> 0 < exp (- u) - (1 - u)). { apply (D _ (fun u => 1 - exp (- u))). - intros u. auto_derive; [trivial|]. set (e := exp (- u)). ring. - rewrite Ropp_0, exp_0. ring. - intros u U. assert (exp (- u) < exp 0) by (apply exp_increasing; lra). rewrite exp_0 in *. lra. }
  enough (0 < 1 - x + x ^ 2 / 2 - exp (- x)) by lra. apply (D (fun u => 1 - u + u ^ 2 / 2 - exp (- u)) (fun u => exp (- u) - (1 - u))); [|rewrite Ropp_0, exp_0; field|exact S|exact H].
  intros u. auto_derive; [trivial|]. set (e := exp (- u)). field.
Qed.
Lemma exp_below_quadratic x : 0 < x -> 1 + x + x ^ 2 / 2 < exp x.
Proof.
  intros H.
  assert (M : exists v, exp x - (1 + x + x ^ 2 / 2) - (exp 0 - (1 + 0 + 0 ^ 2 / 2)) = (exp v - (1 + v)) * (x - 0) /\ 0 < v < x). { apply (MVT_cor2 (fun u => exp u - (1 + u + u ^ 2 / 2)) (fun u => exp u - (1 + u)) 0 x H). intros c _. apply is_derive_Reals. auto_derive; [trivial|]. set (e := exp c). field. }
  destruct M as (v & M & V1 & V2). rewrite exp_0 in M. pose proof (exp_ineq1 v ltac:(lra)). nra.
Qed.

Section Bias.
  Variable x : R. (* alpha * dt *)
  Let a := 1 - x.
  Let e := exp (-2 * x).
  Definition cs_var (i : nat) : R := total i (fun k => a ^ (2 * k)).
  Definition cs_drift (i : nat) : R := total i (fun m => a ^ (i - 1 - m) * ((1 + e ^ m) / 2)).
  Definition cs_gap (i : nat) : R := cs_var i - cs_drift i.
  Lemma cs_var_S i : cs_var (S i) = a ^ 2 * cs_var i + 1.
  Proof. unfold cs_var. rewrite total_shift, <- total_scal. cbn [pow]. rewrite Rplus_comm. f_equal. apply total_ext. intros k _. replace (2 * S k)%nat with (2 + 2 * k)%nat by lia. rewrite pow_add. ring. Qed.
  Lemma cs_drift_S i : cs_drift (S i) = a * cs_drift i + (1 + e ^ i) / 2.
  Proof. unfold cs_drift. rewrite total_S. replace (S i - 1 - i)%nat with O by lia. rewrite <- total_scal. f_equal; [|cbn [pow]; ring]. apply total_ext. intros k K. replace (S i - 1 - k)%nat with (S (i - 1 - k)) by lia. cbn [pow]. ring. Qed.
  Lemma cs_gap_S i : cs_gap (S i) = a * cs_gap i + ((1 - e ^ i) / 2 - a * x * cs_var i).
  Proof. unfold cs_gap. rewrite cs_var_S, cs_drift_S. unfold a. field. Qed.
  Lemma cs_geometric i : 1 - e ^ i = (1 - e) * total i (fun k => e ^ k).
  Proof. induction i as [|i IH]; [rewrite total_0; cbn; ring|]. rewrite total_S, Rmult_plus_distr_l, <- IH. cbn [pow]. ring. Qed.
  Lemma cs_var_pos i : (0 < i)%nat -> 1 <= cs_var i.
  Proof. destruct i as [|i]; [lia|]. intros _. rewrite cs_var_S. assert (0 <= cs_var i) by (apply total_nonneg; intros k _; rewrite pow_mult; apply pow_le; apply pow2_ge_0). pose proof (pow2_ge_0 a). nra. Qed.
  Lemma cs_gap_1 : cs_gap 1 = 0. Proof. unfold cs_gap, cs_var, cs_drift. rewrite !total_S, !total_0. cbn. field. Qed.
  Lemma total_le n (f g : nat -> R) : (forall i, (i < n)%nat -> f i <= g i) -> total n f <= total n g.
  Proof. induction n as [|n IH]; intros H; [rewrite !total_0; lra|]. rewrite !total_S. pose proof (H n ltac:(lia)). specialize (IH (fun i I => H i ltac:(lia))). lra. Qed.
  Lemma cs_var_le i : a ^ 2 <= e -> cs_var i <= total i (fun k => e ^ k).
  Proof. intros L. apply total_le. intros k _. rewrite pow_mult. apply pow_incr. split; [apply pow2_ge_0|exact L]. Qed.
  Lemma cs_gap_positive i : 0 < x <= 1 -> (2 <= i)%nat -> 0 < cs_gap i.
  Proof.
    intros [X1 X2] I. assert (A0 : 0 <= a) by (unfold a; lra). assert (E1 : e < 1 - 2 * x + 2 * x ^ 2). { unfold e. pose proof (exp_above_quadratic (2 * x) ltac:(lra)) as Q. replace (-2 * x) with (- (2 * x)) by ring. replace ((2 * x) ^ 2 / 2) with (2 * x ^ 2) in Q by field. exact Q. }
    assert (E2 : a ^ 2 <= e). { unfold e, a. replace (-2 * x) with (- x + - x) by ring. rewrite exp_plus. pose proof (exp_ineq1_le (- x)). replace ((1 - x) ^ 2) with ((1 - x) * (1 - x)) by ring. apply Rmult_le_compat; lra. }
    assert (Step : forall j, (1 <= j)%nat -> a * x * cs_var j < (1 - e ^ j) / 2). { intros j J. pose proof (cs_var_pos j ltac:(lia)) as P. pose proof (cs_var_le j E2) as L. rewrite cs_geometric. assert (Q : 2 * (a * x) < 1 - e) by (unfold a; nra). assert (0 < 1 - e) by (unfold a in Q; nra). nra. }
    induction i as [|i IH]; [lia|]. destruct (Nat.eq_dec i 1) as [->|N].
    - rewrite cs_gap_S, cs_gap_1. pose proof (Step 1%nat ltac:(lia)). lra.
    - rewrite cs_gap_S. pose proof (Step i ltac:(lia)). specialize (IH ltac:(lia)). nra.
  Qed.
  Lemma cs_gap_negative i : x < 0 -> (2 <= i)%nat -> cs_gap i < 0.
  Proof.
    intros X I. assert (A0 : 1 < a) by (unfold a; lra). assert (E1 : 1 - 2 * x + 2 * x ^ 2 < e). { unfold e. pose proof (exp_below_quadratic (-2 * x) ltac:(lra)) as Q. replace ((-2 * x) ^ 2 / 2) with (2 * x ^ 2) in Q by field. lra. }
    assert (E2 : a ^ 2 <= e). { unfold e, a. replace (-2 * x) with (- x + - x) by ring. rewrite exp_plus. pose proof (exp_ineq1_le (- x)). replace ((1 - x) ^ 2) with ((1 - x) * (1 - x)) by ring. apply Rmult_le_compat; lra. }
    assert (Step : forall j, (1 <= j)%nat -> (1 - e ^ j) / 2 < a * x * cs_var j). { intros j J. pose proof (cs_var_pos j ltac:(lia)) as P. pose proof (cs_var_le j E2) as L. rewrite cs_geometric. assert (Q : 1 - e < 2 * (a * x)) by (unfold a; nra). nra. }
    induction i as [|i IH]; [lia|]. destruct (Nat.eq_dec i 1) as [->|N].
    - rewrite cs_gap_S, cs_gap_1. pose proof (Step 1%nat ltac:(lia)). lra.
    - rewrite cs_gap_S. pose proof (Step i ltac:(lia)). specialize (IH ltac:(lia)). nra.
  Qed.
End Bias.
Lemma cs_gap_0 i : cs_gap 0 i = 0.
Proof. induction i as [|i IH]; [unfold cs_gap, cs_var, cs_drift; rewrite !total_0; ring|]. rewrite cs_gap_S, IH. replace (-2 * 0) with 0 by ring. rewrite exp_0, pow1. field. Qed.

Lemma total_rev n (f : nat -> R) : total n (fun i => f (n - 1 - i)%nat) = total n f.
Proof.
  induction n as [|n IH]; [reflexivity|]. rewrite total_shift, total_S, <- IH. rewrite Rplus_comm. f_equal; [|f_equal; lia]. apply total_ext. intros i I. f_equal. lia.
Qed.
Lemma cs_bias_gap dt alpha sigma i : cs_bias dt alpha sigma i = sigma ^ 2 * dt / 2 * cs_gap (alpha * dt) i.
Proof.
  unfold cs_bias, cs_gap, cs_var, cs_drift. rewrite Rmult_minus_distr_l, <- !total_scal. f_equal; apply total_ext; intros k _; [ring|].
  replace (exp (-2 * alpha * (INR k * dt))) with (exp (-2 * (alpha * dt)) ^ k) by (rewrite <- Rpower_pow by apply exp_pos; unfold Rpower; rewrite ln_exp; f_equal; ring). field.
Qed.
Lemma cs_expected dt alpha sigma i : 0 <= dt -> expected_n i (fun w => exp (cs_deviation dt alpha sigma w i)) (exp (cs_bias dt alpha sigma i)).
Proof.
  intros D. set (c := fun m => (1 - alpha * dt) ^ (i - 1 - m) * (sigma * sqrt dt)). set (b := total i (fun m => (1 - alpha * dt) ^ (i - 1 - m) * (sigma ^ 2 / 4 * (1 + exp (-2 * alpha * (INR m * dt))) * dt))).
  assert (V : total i (fun m => c m ^ 2 / 2) = total i (fun m => (1 - alpha * dt) ^ (2 * m) * (sigma ^ 2 * dt / 2))).
  { rewrite <- (total_rev i (fun m => (1 - alpha * dt) ^ (2 * m) * (sigma ^ 2 * dt / 2))). apply total_ext. intros m _. unfold c. rewrite !Rpow_mult_distr, <- (Rsqr_pow2 (sqrt dt)), Rsqr_sqrt by exact D. rewrite <- pow_mult. replace ((i - 1 - m) * 2)%nat with (2 * (i - 1 - m))%nat by lia. field. }
  replace (cs_bias dt alpha sigma i) with (- b + total i (fun m => c m ^ 2 / 2)) by (rewrite V; unfold cs_bias; fold b; ring).
  eapply expected_n_ext; [|apply expected_n_exp]. intros w. cbv beta. f_equal. unfold cs_deviation, b. replace (- total i (fun m => (1 - alpha * dt) ^ (i - 1 - m) * (sigma ^ 2 / 4 * (1 + exp (-2 * alpha * (INR m * dt))) * dt))) with (-1 * total i (fun m => (1 - alpha * dt) ^ (i - 1 - m) * (sigma ^ 2 / 4 * (1 + exp (-2 * alpha * (INR m * dt))) * dt))) by ring. rewrite <- total_scal, <- total_plus. apply total_ext. intros m _. unfold c. ring.
Qed.
