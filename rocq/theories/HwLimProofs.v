(* Closed forms of the moments of the simulated Hull-White rate, and their limits in the number of steps *)
From Coq Require Import ZArith String Reals Lra Lia List.
From Coquelicot Require Import Coquelicot.
From Verif Require Import Base NormalModel NormalProofs BsProofs MonteModel MonteSpec MonteProofs HwModel HwSpec HwProofs HwSimProofs MeanSpec MeanProofs PathMeanProofs CsMeanProofs HwMeanProofs HwMcModel HwMcSpec HwMcProofs SchemeModel SchemeSpec SchemeProofs RateProofs MomentProofs.
Open Scope R_scope.

Lemma geometric n q : (1 - q) * total n (fun k => q ^ k) = 1 - q ^ n.
Proof. induction n as [|n IH]; [rewrite total_0; cbn [pow]; ring|]. rewrite total_S, Rmult_plus_distr_l, IH. cbn [pow]. ring. Qed.
Lemma geometric' n q : q <> 1 -> total n (fun k => q ^ k) = (1 - q ^ n) / (1 - q).
Proof. intros H. rewrite <- geometric. field. lra. Qed.
Lemma geometric_rev n q : q <> 1 -> total n (fun k => q ^ (n - 1 - k)) = (1 - q ^ n) / (1 - q).
Proof. intros H. rewrite (total_rev n (fun k => q ^ k)). apply geometric'. exact H. Qed.

Section Closed.
  Variables (m : scheme) (alpha sigma h : R).
  Hypotheses (A : alpha <> 0) (H : h <> 0).
  Let d := decay m alpha h.
  Let s := noise m alpha sigma h.
  Let Q := exp (-2 * alpha * h).
  Hypotheses (D1 : d <> 1) (DQ : d <> Q) (DN : d <> -1) (M : m <> Other).

  Lemma rate_weight_in i k : (k < i)%nat -> rate_weight m alpha sigma h i k = d ^ (i - 1 - k) * s.
  Proof. intros L. unfold rate_weight. apply Nat.ltb_lt in L. rewrite L. reflexivity. Qed.
  Lemma rate_weight_out i k : (i <= k)%nat -> rate_weight m alpha sigma h i k = 0.
  Proof. intros L. unfold rate_weight. apply Nat.ltb_ge in L. rewrite L. reflexivity. Qed.
  Lemma integral_weight_closed n k : (k < n)%nat -> integral_weight m alpha sigma h n k = h * s / (2 * (1 - d)) * (2 - (1 + d) * d ^ (n - 1 - k)).
  Proof.
    intros L. unfold integral_weight. replace n with (k + 1 + (n - 1 - k))%nat at 1 by lia. generalize (n - 1 - k)%nat. clear L n. intros j. induction j as [|j IH].
    - rewrite Nat.add_0_r, Nat.add_1_r, total_S. rewrite total_zero. { rewrite rate_weight_out by lia. rewrite rate_weight_in by lia. replace (S k - 1 - k)%nat with O by lia. cbn [pow]. field. lra. }
      intros l Ll. rewrite !rate_weight_out by lia. ring.
    - replace (k + 1 + S j)%nat with (S (k + 1 + j)) by lia. rewrite total_S, IH. rewrite !rate_weight_in by lia. replace (k + 1 + j - 1 - k)%nat with j by lia. replace (S (k + 1 + j) - 1 - k)%nat with (S j) by lia. cbn [pow]. field. lra.
  Qed.
  Lemma d_square : d * d <> 1. Proof. intros E. assert (Z : (d - 1) * (d + 1) = 0) by (rewrite <- (Rminus_diag_eq _ _ E); ring). apply Rmult_integral in Z. destruct Z; lra. Qed.
  Lemma pow_twice n : (d * d) ^ n = (d ^ n) ^ 2. Proof. rewrite Rpow_mult_distr. ring. Qed.
  Lemma variance_closed n : sim_variance m alpha sigma h n = s ^ 2 / ((1 - d) * (1 + d)) * (1 - (d ^ n) ^ 2).
  Proof.
    unfold sim_variance. rewrite (total_ext n _ (fun k => s ^ 2 * (d * d) ^ (n - 1 - k))). 2: { intros k K. rewrite rate_weight_in by exact K. rewrite Rpow_mult_distr, pow_twice. ring. }
    rewrite total_scal, geometric_rev by apply d_square. rewrite pow_twice. pose proof d_square. field. repeat split; lra.
  Qed.
  Lemma covariance_closed n : sim_covariance m alpha sigma h n = h * s ^ 2 / (2 * (1 - d) ^ 2) * (1 - d ^ n) ^ 2.
  Proof.
    unfold sim_covariance. rewrite (total_ext n _ (fun k => h * s ^ 2 / (2 * (1 - d)) * (2 * d ^ (n - 1 - k) + - (1 + d) * (d * d) ^ (n - 1 - k)))).
    2: { intros k K. rewrite rate_weight_in, integral_weight_closed by exact K. rewrite pow_twice. field. lra. }
    rewrite total_scal, total_plus, !total_scal. rewrite !geometric_rev by (exact D1 || apply d_square). rewrite pow_twice. pose proof d_square. field. repeat split; lra.
  Qed.
  Lemma integral_variance_closed n : total n (fun k => integral_weight m alpha sigma h n k ^ 2 / 2)
    = h * s ^ 2 / (8 * (1 - d) ^ 2) * (4 * (INR n * h) - 4 * (1 + d) * (1 - d ^ n) * (h / (1 - d)) + (1 + d) * (1 - (d ^ n) ^ 2) * (h / (1 - d))).
  Proof.
    rewrite (total_ext n _ (fun k => (h * s) ^ 2 / (8 * (1 - d) ^ 2) * (4 + (- (4 * (1 + d)) * d ^ (n - 1 - k) + (1 + d) ^ 2 * (d * d) ^ (n - 1 - k))))).
    2: { intros k K. rewrite integral_weight_closed by exact K. rewrite pow_twice. field. lra. }
    rewrite total_scal, !total_plus, !total_scal. rewrite total_const. rewrite !geometric_rev by (exact D1 || apply d_square). rewrite pow_twice. pose proof d_square. field. repeat split; lra.
  Qed.
  Definition rho : R := match m with Exact => ((1 - d) - (1 - Q) * (1 - (1 - d) / (alpha * h))) / (d - Q) | _ => (1 - d) / (d - Q) end.
  Lemma Q_pow k : exp (-2 * alpha * (INR k * h)) = Q ^ k.
  Proof. unfold Q. induction k as [|k IH]; [cbn [INR pow]; rewrite <- exp_0; f_equal; ring|]. cbn [pow]. rewrite <- IH, <- exp_plus. f_equal. rewrite S_INR. ring. Qed.
  Lemma drift_closed k : drift m alpha sigma h k = sigma ^ 2 / (2 * alpha ^ 2) * ((1 - d) + rho * Q ^ k * (Q - d)).
  Proof.
    unfold drift, rate_variance, rho. rewrite !Q_pow. cbn [pow]. unfold d in *. destruct m; [| | |contradiction]; cbn [decay] in *; fold Q; field; repeat split; lra || assumption.
  Qed.
  Lemma excess_closed n : excess m alpha sigma h (fun _ => 0) n = sigma ^ 2 / (2 * alpha ^ 2) * (1 - d ^ n + rho * (Q ^ n - d ^ n)).
  Proof.
    induction n as [|n IH]; [unfold excess; rewrite total_0; cbn [pow]; ring|]. rewrite excess_S, IH, drift_closed. fold d. cbn [pow]. ring.
  Qed.
  Lemma mean_integral_closed n : Q <> 1 -> total n (fun l => h / 2 * (excess m alpha sigma h (fun _ => 0) l + excess m alpha sigma h (fun _ => 0) (S l)))
    = sigma ^ 2 / (2 * alpha ^ 2) * (INR n * h - (1 + rho) * (1 + d) / 2 * (1 - d ^ n) * (h / (1 - d)) + rho * (1 + Q) / 2 * (1 - Q ^ n) * (h / (1 - Q))).
  Proof.
    intros Q1. rewrite (total_ext n _ (fun l => sigma ^ 2 / (2 * alpha ^ 2) * (h + (- (h * (1 + rho) * (1 + d) / 2) * d ^ l + h * rho * (1 + Q) / 2 * Q ^ l)))).
    2: { intros l _. rewrite !excess_closed. cbn [pow]. field. exact A. }
    rewrite total_scal, !total_plus, !total_scal. rewrite total_const. rewrite !geometric' by assumption. field. repeat split; lra.
  Qed.
End Closed.

(* ---- limits ---- *)
Lemma lim_val (u : nat -> R) (l l' : R) : is_lim_seq u l -> l = l' -> is_lim_seq u l'. Proof. intros H ->. exact H. Qed.
Lemma lim_pow2 (u : nat -> R) (l : R) : is_lim_seq u l -> is_lim_seq (fun n => u n ^ 2) (l ^ 2).
Proof. intros H. apply (is_lim_seq_continuous (fun x => x ^ 2)); [reg|exact H]. Qed.
Lemma lim_inv (u : nat -> R) (l : R) : is_lim_seq u l -> l <> 0 -> is_lim_seq (fun n => / u n) (/ l).
Proof. intros H N. apply (is_lim_seq_continuous (fun x => / x)); [reg; exact N|exact H]. Qed.
Lemma lim_away (u : nat -> R) (l c : R) : is_lim_seq u l -> l <> c -> eventually (fun n => u n <> c).
Proof.
  intros H N. assert (P : 0 < Rabs (l - c)) by (apply Rabs_pos_lt; lra). destruct (proj2 (is_lim_seq_spec _ _) H (mkposreal _ P)) as [k Hk]. exists k. intros n Hn E. specialize (Hk n Hn). cbn in Hk. rewrite E, <- Rabs_Ropp in Hk. replace (- (c - l)) with (l - c) in Hk by ring. lra.
Qed.
Ltac lim := first [eassumption | apply is_lim_seq_const | lazymatch goal with
  | |- is_lim_seq (fun n => _ - _) _ => eapply is_lim_seq_minus'; lim
  | |- is_lim_seq (fun n => _ + _) _ => eapply is_lim_seq_plus'; lim
  | |- is_lim_seq (fun n => _ * _) _ => eapply is_lim_seq_mult'; lim
  | |- is_lim_seq (fun n => _ ^ 2) _ => eapply lim_pow2; lim
  end].
Section Limits.
  Variables (T alpha sigma : R) (HT : 0 < T) (A : 0 < alpha).
  Let h (n : nat) : R := T / INR n.
  Lemma step_lim : is_lim_seq h 0. Proof. exact (h_lim T). Qed.
  Lemma exp_slope c : 0 < c -> is_lim_seq (fun n => (1 - exp (- c * h n)) / h n) c.
  Proof.
    intros C. apply (is_lim_seq_le_le_loc (fun n => c - c ^ 2 / 2 * h n) _ (fun _ => c)).
    - exists 1%nat. intros n N. assert (Hn : 0 < h n) by (apply Rdiv_lt_0_compat; [exact HT|apply lt_0_INR; lia]). assert (X : 0 < c * h n) by (apply Rmult_lt_0_compat; assumption).
      pose proof (exp_above_quadratic _ X) as U. pose proof (exp_ineq1_le (- (c * h n))) as Lo. replace (- c * h n) with (- (c * h n)) by ring. split; apply Rmult_le_reg_r with (h n); try exact Hn; replace ((1 - exp (- (c * h n))) / h n * h n) with (1 - exp (- (c * h n))) by (field; lra); nra.
    - eapply lim_val; [pose proof step_lim; lim|ring].
    - apply is_lim_seq_const.
  Qed.
  Variables (method : string) (m : scheme) (N : named method m).
  Let d n := decay m alpha (h n).
  Let Q n := exp (-2 * alpha * h n).
  Let E := exp (- alpha * T).
  Lemma h_away : forall n, (1 <= n)%nat -> 0 < h n. Proof. intros n L. apply Rdiv_lt_0_compat; [exact HT|apply lt_0_INR; lia]. Qed.
  Lemma slope_Q : is_lim_seq (fun n => (1 - Q n) / h n) (2 * alpha).
  Proof. apply (is_lim_seq_ext (fun n => (1 - exp (- (2 * alpha) * h n)) / h n)); [|apply exp_slope; lra]. intros n. unfold Q. do 3 f_equal. ring. Qed.
  Lemma slope_d : is_lim_seq (fun n => (1 - d n) / h n) alpha.
  Proof.
    unfold d. destruct N; cbn [decay].
    - apply (is_lim_seq_ext_loc (fun _ => alpha)); [|apply is_lim_seq_const]. exists 1%nat. intros n L. pose proof (h_away n L). field. lra.
    - apply (is_lim_seq_ext_loc (fun n => alpha - alpha ^ 2 / 2 * h n + alpha ^ 3 / 6 * (h n * h n) - alpha ^ 4 / 24 * (h n * (h n * h n)))).
      + exists 1%nat. intros n L. pose proof (h_away n L). field. lra.
      + eapply lim_val; [pose proof step_lim; lim|ring].
    - apply exp_slope. exact A.
  Qed.
  Lemma d_one : is_lim_seq d 1.
  Proof.
    apply (is_lim_seq_ext_loc (fun n => 1 - (1 - d n) / h n * h n)). { exists 1%nat. intros n L. pose proof (h_away n L). field. lra. }
    eapply lim_val; [pose proof step_lim; pose proof slope_d; lim|ring].
  Qed.
  Lemma Q_one : is_lim_seq Q 1.
  Proof.
    apply (is_lim_seq_ext_loc (fun n => 1 - (1 - Q n) / h n * h n)). { exists 1%nat. intros n L. pose proof (h_away n L). field. lra. }
    eapply lim_val; [pose proof step_lim; pose proof slope_Q; lim|ring].
  Qed.
  Lemma inv_slope_d : is_lim_seq (fun n => h n / (1 - d n)) (/ alpha).
  Proof.
    assert (W : eventually (fun n => d n <> 1)). { destruct (lim_away _ _ 0 slope_d ltac:(lra)) as [k Hk]. exists (S k). intros n L E1. apply (Hk n ltac:(lia)). rewrite E1. unfold Rdiv. ring. }
    apply (is_lim_seq_ext_loc (fun n => / ((1 - d n) / h n))); [|apply lim_inv; [exact slope_d|lra]]. destruct W as [k Hk]. exists (S k). intros n L. pose proof (h_away n ltac:(lia)). specialize (Hk n ltac:(lia)). field. split; lra.
  Qed.
  Lemma inv_slope_Q : is_lim_seq (fun n => h n / (1 - Q n)) (/ (2 * alpha)).
  Proof.
    assert (W : eventually (fun n => Q n <> 1)). { destruct (lim_away _ _ 0 slope_Q ltac:(lra)) as [k Hk]. exists (S k). intros n L E1. apply (Hk n ltac:(lia)). rewrite E1. unfold Rdiv. ring. }
    apply (is_lim_seq_ext_loc (fun n => / ((1 - Q n) / h n))); [|apply lim_inv; [exact slope_Q|lra]]. destruct W as [k Hk]. exists (S k). intros n L. pose proof (h_away n ltac:(lia)). specialize (Hk n ltac:(lia)). field. split; lra.
  Qed.
  Lemma power_exact c n : (1 <= n)%nat -> exp (c * h n) ^ n = exp (c * T).
  Proof.
    intros L. assert (P : forall k, exp (c * h n) ^ k = exp (INR k * (c * h n))). { induction k as [|k IH]; [cbn [pow INR]; rewrite <- exp_0; f_equal; ring|]. cbn [pow]. rewrite IH, <- exp_plus. f_equal. rewrite S_INR. ring. }
    rewrite P. f_equal. unfold h. pose proof (lt_0_INR n ltac:(lia)). field. lra.
  Qed.
  Lemma power_d : is_lim_seq (fun n => d n ^ n) E.
  Proof.
    assert (G : forall p q s, (forall x, decay m alpha x = 1 + quartic (- alpha) p q s x) -> is_lim_seq (fun n => d n ^ n) E).
    { intros p q s H. apply (is_lim_seq_ext_loc (fun n => exp (- alpha * T) + INR n * ((1 + quartic (- alpha) p q s (T / INR n)) ^ n - exp (- alpha * T)) * / INR n)).
      - exists 1%nat. intros n L. unfold d. rewrite H. unfold h. pose proof (lt_0_INR n ltac:(lia)). field. lra.
      - eapply lim_val; [pose proof (power_first T (- alpha) p q s); pose proof inv_lim; lim|]. unfold E. ring. }
    destruct N.
    - apply (G 0 0 0). intros x. unfold quartic, decay. ring.
    - apply (G (alpha ^ 2 / 2) (- (alpha ^ 3 / 6)) (alpha ^ 4 / 24)). intros x. unfold quartic, decay. field.
    - apply (is_lim_seq_ext_loc (fun _ => E)); [|apply is_lim_seq_const]. exists 1%nat. intros n L. unfold d, decay. rewrite power_exact by exact L. reflexivity.
  Qed.
  Lemma power_Q n : (1 <= n)%nat -> Q n ^ n = E ^ 2.
  Proof. intros L. unfold Q. rewrite power_exact by exact L. unfold E. cbn [pow]. rewrite Rmult_1_r, <- exp_plus. f_equal. ring. Qed.
  Lemma noise_slope : is_lim_seq (fun n => noise m alpha sigma (h n) ^ 2 / h n) (sigma ^ 2).
  Proof.
    assert (G : is_lim_seq (fun n => (sigma * sqrt (h n)) ^ 2 / h n) (sigma ^ 2)).
    { apply (is_lim_seq_ext_loc (fun _ => sigma ^ 2)); [|apply is_lim_seq_const]. exists 1%nat. intros n L. pose proof (h_away n L). rewrite Rpow_mult_distr, <- (Rsqr_pow2 (sqrt (h n))), Rsqr_sqrt by lra. field. lra. }
    destruct N; [exact G|exact G|]. cbn [noise]. apply (is_lim_seq_ext_loc (fun n => sigma ^ 2 / (2 * alpha) * ((1 - Q n) / h n))).
    - exists 1%nat. intros n L. pose proof (h_away n L) as Hn. pose proof (decay_pos alpha (h n) A Hn) as D. rewrite <- (Rsqr_pow2 (sqrt _)), Rsqr_sqrt.
      + unfold Q. field. split; lra.
      + replace (sigma ^ 2 / (2 * alpha) * (1 - exp (-2 * alpha * h n))) with (sigma ^ 2 * ((1 - exp (-2 * alpha * h n)) / (2 * alpha))) by (field; lra). apply Rmult_le_pos; [apply pow2_ge_0|lra].
    - eapply lim_val; [pose proof slope_Q; lim|]. field. lra.
  Qed.
  Lemma gap_slope : is_lim_seq (fun n => (d n - Q n) / h n) alpha.
  Proof.
    apply (is_lim_seq_ext_loc (fun n => (1 - Q n) / h n - (1 - d n) / h n)). { exists 1%nat. intros n L. pose proof (h_away n L). field. lra. }
    eapply lim_val; [pose proof slope_Q; pose proof slope_d; lim|ring].
  Qed.
  Lemma usable : eventually (fun n => (1 <= n)%nat /\ d n <> 1 /\ d n <> Q n /\ d n <> -1 /\ Q n <> 1).
  Proof.
    destruct (lim_away _ _ 0 slope_d ltac:(lra)) as [k1 H1]. destruct (lim_away _ _ 0 gap_slope ltac:(lra)) as [k2 H2]. destruct (lim_away _ _ (-1) d_one ltac:(lra)) as [k3 H3]. destruct (lim_away _ _ 0 slope_Q ltac:(lra)) as [k4 H4].
    exists (S (k1 + k2 + k3 + k4)). intros n L. split; [lia|]. split; [|split; [|split]].
    - intros X. apply (H1 n ltac:(lia)). rewrite X. unfold Rdiv. ring.
    - intros X. apply (H2 n ltac:(lia)). rewrite X. unfold Rdiv. ring.
    - apply H3. lia.
    - intros X. apply (H4 n ltac:(lia)). rewrite X. unfold Rdiv. ring.
  Qed.
  Lemma rho_one : is_lim_seq (fun n => rho m alpha (h n)) 1.
  Proof.
    pose proof (lim_inv _ _ gap_slope ltac:(lra)) as IG. pose proof slope_d as SD. pose proof slope_Q as SQ. destruct usable as [k Hk].
    assert (G : m <> Exact -> is_lim_seq (fun n => rho m alpha (h n)) 1).
    { intros X. apply (is_lim_seq_ext_loc (fun n => (1 - d n) / h n * / ((d n - Q n) / h n))).
      - exists (S k). intros n L. destruct (Hk n ltac:(lia)) as (L1 & D1 & DQ & _). pose proof (h_away n L1). unfold rho. fold (d n) (Q n). destruct m; try contradiction; field; split; lra.
      - eapply lim_val; [lim|]. field. lra. }
    destruct N; try (apply G; discriminate). apply (is_lim_seq_ext_loc (fun n => ((1 - d n) / h n - (1 - Q n) / h n * (1 - / alpha * ((1 - d n) / h n))) * / ((d n - Q n) / h n))).
    - exists (S k). intros n L. destruct (Hk n ltac:(lia)) as (L1 & D1 & DQ & _). pose proof (h_away n L1). unfold rho. fold (d n) (Q n). field. repeat split; lra.
    - eapply lim_val; [lim|]. field. lra.
  Qed.
  Lemma mean_lim r0 : is_lim_seq (fun n => sim_mean m r0 alpha sigma (h n) n) (mean_rate r0 alpha sigma T).
  Proof.
    destruct usable as [k Hk]. destruct (named_of _ _ N) as [Nm No]. rewrite Nm in No. apply (is_lim_seq_ext_loc (fun n => r0 + sigma ^ 2 / (2 * alpha ^ 2) * (1 - d n ^ n + rho m alpha (h n) * (E ^ 2 - d n ^ n)))).
    - exists (S k). intros n L. destruct (Hk n ltac:(lia)) as (L1 & D1 & DQ & DN & Q1). pose proof (h_away n L1). unfold sim_mean. rewrite excess_closed by (assumption || lra). fold (d n) (Q n). rewrite power_Q by exact L1. reflexivity.
    - eapply lim_val; [pose proof rho_one; pose proof power_d; lim|]. unfold mean_rate. fold E. ring.
  Qed.
  Lemma variance_lim : is_lim_seq (fun n => sim_variance m alpha sigma (h n) n) (rate_variance alpha sigma T).
  Proof.
    destruct usable as [k Hk]. apply (is_lim_seq_ext_loc (fun n => noise m alpha sigma (h n) ^ 2 / h n * (h n / (1 - d n)) * / (1 + d n) * (1 - (d n ^ n) ^ 2))).
    - exists (S k). intros n L. destruct (Hk n ltac:(lia)) as (L1 & D1 & DQ & DN & Q1). pose proof (h_away n L1). rewrite variance_closed by assumption. fold (d n). field. repeat split; lra.
    - assert (I : is_lim_seq (fun n => / (1 + d n)) (/ (1 + 1))) by (apply lim_inv; [pose proof d_one; lim|lra]). eapply lim_val; [pose proof noise_slope; pose proof inv_slope_d; pose proof power_d; lim|]. unfold rate_variance. replace (exp (-2 * alpha * T)) with (E ^ 2) by (unfold E; cbn [pow]; rewrite Rmult_1_r, <- exp_plus; f_equal; ring). field. lra.
  Qed.
  Lemma covariance_lim : is_lim_seq (fun n => sim_covariance m alpha sigma (h n) n) (sigma ^ 2 / (2 * alpha ^ 2) * (1 - E) ^ 2).
  Proof.
    destruct usable as [k Hk]. apply (is_lim_seq_ext_loc (fun n => noise m alpha sigma (h n) ^ 2 / h n * (h n / (1 - d n)) ^ 2 * / 2 * (1 - d n ^ n) ^ 2)).
    - exists (S k). intros n L. destruct (Hk n ltac:(lia)) as (L1 & D1 & DQ & DN & Q1). pose proof (h_away n L1). rewrite covariance_closed by assumption. fold (d n). field. repeat split; lra.
    - eapply lim_val; [pose proof noise_slope; pose proof inv_slope_d; pose proof power_d; lim|]. field. lra.
  Qed.
  Lemma discount_lim r0 : is_lim_seq (fun n => sim_log_discount m r0 alpha sigma (h n) n) (- r0 * T).
  Proof.
    destruct usable as [k Hk]. destruct (named_of _ _ N) as [Nm No]. rewrite Nm in No.
    apply (is_lim_seq_ext_loc (fun n => - r0 * T + noise m alpha sigma (h n) ^ 2 / h n * (h n / (1 - d n)) ^ 2 * / 8 * (4 * T - 4 * (1 + d n) * (1 - d n ^ n) * (h n / (1 - d n)) + (1 + d n) * (1 - (d n ^ n) ^ 2) * (h n / (1 - d n)))
      - sigma ^ 2 / (2 * alpha ^ 2) * (T - (1 + rho m alpha (h n)) * (1 + d n) * / 2 * (1 - d n ^ n) * (h n / (1 - d n)) + rho m alpha (h n) * (1 + Q n) * / 2 * (1 - E ^ 2) * (h n / (1 - Q n))))).
    - exists (S k). intros n L. destruct (Hk n ltac:(lia)) as (L1 & D1 & DQ & DN & Q1). pose proof (h_away n L1). unfold sim_log_discount. rewrite integral_variance_closed by assumption. rewrite mean_integral_closed by (assumption || lra). fold (d n) (Q n). rewrite power_Q by exact L1.
      replace (INR n * h n) with T by (unfold h; pose proof (lt_0_INR n ltac:(lia)); field; lra). field. repeat split; lra.
    - eapply lim_val; [pose proof noise_slope; pose proof inv_slope_d; pose proof inv_slope_Q; pose proof power_d; pose proof rho_one; pose proof d_one; pose proof Q_one; lim|]. field. lra.
  Qed.
End Limits.

(* ---- limits of prices ---- *)
Lemma lim_exp (u : nat -> R) (l : R) : is_lim_seq u l -> is_lim_seq (fun n => exp (u n)) (exp l).
Proof. intros H. apply (is_lim_seq_continuous exp); [apply derivable_continuous_pt; apply derivable_pt_exp|exact H]. Qed.
Lemma lim_cdf (u : nat -> R) (l : R) : is_lim_seq u l -> is_lim_seq (fun n => cdf (u n)) (cdf l).
Proof. intros H. apply (is_lim_seq_continuous cdf); [apply continuity_pt_filterlim, cdf_continuous|exact H]. Qed.
Lemma lim_sqrt (u : nat -> R) (l : R) : 0 < l -> is_lim_seq u l -> is_lim_seq (fun n => sqrt (u n)) (sqrt l).
Proof. intros P H. apply (is_lim_seq_continuous sqrt); [apply derivable_continuous_pt, derivable_pt_sqrt; exact P|exact H]. Qed.
Lemma lim_ln (u : nat -> R) (l : R) : 0 < l -> is_lim_seq u l -> is_lim_seq (fun n => ln (u n)) (ln l).
Proof. intros P H. apply (is_lim_seq_continuous ln); [apply derivable_continuous_pt; exists (/ l); apply derivable_pt_lim_ln; exact P|exact H]. Qed.
Lemma lim_blk w K (f v : nat -> R) (F V : R) : 0 < F -> 0 < K -> 0 < V -> is_lim_seq f F -> is_lim_seq v V -> is_lim_seq (fun n => blk w (f n) K (v n)) (blk w F K V).
Proof.
  intros HF HK HV Lf Lv. assert (B1 : is_lim_seq (fun n => bd1 (f n) K (v n)) (bd1 F K V)).
  { unfold bd1. apply is_lim_seq_div'; [|exact Lv|lra]. apply is_lim_seq_plus'.
    - apply lim_ln; [apply Rdiv_lt_0_compat; assumption|]. apply is_lim_seq_div'; [exact Lf|apply is_lim_seq_const|lra].
    - apply is_lim_seq_div'; [apply is_lim_seq_mult'; exact Lv|apply is_lim_seq_const|lra]. }
  assert (C1 : is_lim_seq (fun n => cdf (w * bd1 (f n) K (v n))) (cdf (w * bd1 F K V))) by (apply lim_cdf, is_lim_seq_mult'; [apply is_lim_seq_const|exact B1]).
  assert (C2 : is_lim_seq (fun n => cdf (w * bd2 (f n) K (v n))) (cdf (w * bd2 F K V))) by (apply lim_cdf, is_lim_seq_mult'; [apply is_lim_seq_const|]; apply is_lim_seq_minus'; assumption).
  unfold blk. apply is_lim_seq_mult'; [apply is_lim_seq_const|]. apply is_lim_seq_minus'; apply is_lim_seq_mult'; (assumption || apply is_lim_seq_const).
Qed.
Lemma blk_forward w F F' K v : w = 1 \/ w = -1 -> 0 < F -> F < F' -> 0 < K -> 0 < v -> 0 < w * (blk w F' K v - blk w F K v).
Proof.
  intros W HF L HK Hv. destruct (MVT_cor2 (fun y => blk w y K v) (fun y => w * cdf (w * bd1 y K v)) F F' L) as (c & E & C); [intros y Y; apply blk_dF; auto; lra|].
  rewrite E. pose proof (cdf_gt_0 (w * bd1 c K v)). destruct W as [-> | ->]; nra.
Qed.
Lemma lim_model_forward r0 alpha sigma T S (M V : nat -> R) (m v : R) : is_lim_seq M m -> is_lim_seq V v -> is_lim_seq (fun n => model_forward r0 alpha sigma T S (M n) (V n)) (model_forward r0 alpha sigma T S m v).
Proof.
  intros LM LV. unfold model_forward. apply is_lim_seq_mult'; [apply is_lim_seq_const|]. apply lim_exp. apply is_lim_seq_minus'; [apply is_lim_seq_mult'; [apply is_lim_seq_const|apply is_lim_seq_minus'; [apply is_lim_seq_const|exact LM]]|].
  apply is_lim_seq_mult'; [|apply is_lim_seq_const]. apply is_lim_seq_mult'; [apply is_lim_seq_const|]. apply is_lim_seq_minus'; [apply is_lim_seq_const|exact LV].
Qed.
Lemma rate_variance_pos alpha sigma T : 0 < alpha -> sigma <> 0 -> 0 < T -> 0 < rate_variance alpha sigma T.
Proof. intros A Sg HT. unfold rate_variance. pose proof (decay_pos alpha T A HT) as D. pose proof (pow2_gt_0 sigma Sg). replace (sigma ^ 2 / (2 * alpha) * (1 - exp (-2 * alpha * T))) with (sigma ^ 2 * ((1 - exp (-2 * alpha * T)) / (2 * alpha))) by (field; lra). apply Rmult_lt_0_compat; assumption. Qed.
Lemma sdev_variance alpha sigma T S : 0 < alpha -> 0 < sigma -> 0 < T -> calc_b alpha T S * sqrt (rate_variance alpha sigma T) = sdev alpha sigma T S.
Proof.
  intros A Sg HT. unfold sdev, rate_variance. replace (sigma ^ 2 / (2 * alpha) * (1 - exp (-2 * alpha * T))) with (sigma ^ 2 * ((1 - exp (-2 * alpha * T)) / (2 * alpha))) by (field; lra).
  rewrite sqrt_mult by (apply pow2_ge_0 || (apply decay_nonneg; lra)). rewrite sqrt_pow2 by lra. ring.
Qed.
Lemma exact_sim_variance alpha sigma h n : 0 < alpha -> 0 <= h -> sim_variance Exact alpha sigma h n = rate_variance alpha sigma (INR n * h).
Proof. intros A H. rewrite <- exact_variance by assumption. apply total_ext. intros k K. unfold rate_weight. apply Nat.ltb_lt in K. rewrite K. reflexivity. Qed.
Lemma exact_mean_above r0 alpha sigma h n : 0 < alpha -> sigma <> 0 -> 0 < h -> (1 <= n)%nat -> r0 < sim_mean Exact r0 alpha sigma h n.
Proof.
  intros A Sg H L. unfold sim_mean. enough (0 < excess Exact alpha sigma h (fun _ => 0) n) by lra. unfold excess. apply total_pos_sum; [lia|]. intros k _. rewrite Rmult_0_r, Rplus_0_r. apply Rmult_lt_0_compat; [apply pow_lt; apply exp_pos|].
  unfold drift. set (a := (1 - exp (- alpha * h)) / alpha). assert (AH : 0 < alpha * h) by (apply Rmult_lt_0_compat; assumption).
  assert (E1 : exp (- alpha * h) < 1) by (rewrite <- exp_0; apply exp_increasing; lra). assert (E2 : 1 - alpha * h < exp (- alpha * h)) by (pose proof (exp_ineq1 (- alpha * h) ltac:(lra)); lra).
  assert (Ap : 0 < a) by (apply Rdiv_lt_0_compat; lra). assert (Ah : a < h). { unfold a. apply Rmult_lt_reg_r with alpha; [exact A|]. replace ((1 - exp (- alpha * h)) / alpha * alpha) with (1 - exp (- alpha * h)) by (field; lra). lra. }
  assert (S2 : 0 < sigma ^ 2 / (2 * alpha)) by (apply Rdiv_lt_0_compat; [apply pow2_gt_0; exact Sg|lra]). pose proof (pos_INR k) as Kp.
  assert (Q0 : 0 <= rate_variance alpha sigma (INR k * h)). { unfold rate_variance. apply Rmult_le_pos; [lra|]. assert (exp (-2 * alpha * (INR k * h)) <= 1); [|lra]. rewrite <- exp_0. apply exp_le. assert (0 <= INR k * h) by (apply Rmult_le_pos; lra). nra. }
  assert (Q1 : rate_variance alpha sigma (INR k * h) < rate_variance alpha sigma (INR (S k) * h)). { unfold rate_variance. apply Rmult_lt_compat_l; [exact S2|]. assert (exp (-2 * alpha * (INR (S k) * h)) < exp (-2 * alpha * (INR k * h))); [|lra]. apply exp_increasing. rewrite S_INR. nra. }
  apply Rplus_le_lt_0_compat; [apply Rmult_le_pos; lra|]. apply Rdiv_lt_0_compat; [apply Rmult_lt_0_compat; lra|exact AH].
Qed.

(* ---- simulate_hw1f of examples/hw1f.py ---- *)
(* weighted sums of a function of the random numbers *)
Section Shock.
  Variables (phi : R -> R) (v : R) (E1 : expected phi 0) (E2 : expected (fun z => phi z ^ 2) v).
  Lemma shock_mean n : forall a (c : nat -> R), expected_n n (fun w => a + total n (fun i => c i * phi (w i))) a.
  Proof using E1.
    induction n as [|n IH]; intros a c; cbn [expected_n]; [intros w; rewrite total_0; ring|]. exists (fun z => a + c O * phi z). split.
    - intros z. eapply expected_n_ext; [|exact (IH (a + c O * phi z) (fun i => c (Datatypes.S i)))]. intros w. cbv beta. rewrite total_shift. cbn [followed_by]. ring.
    - enough (W : expected (fun z => a + c O * phi z) (1 * a + c O * 0)) by (replace (1 * a + c O * 0) with a in W by ring; exact W). eapply expected_ext; [|exact (expected_lin _ _ _ _ 1 (c O) (expected_const a) E1)]. intros z. cbv beta. ring.
  Qed.
  Lemma shock_square n : forall a (c : nat -> R), expected_n n (fun w => (a + total n (fun i => c i * phi (w i))) ^ 2) (a ^ 2 + v * total n (fun i => c i ^ 2)).
  Proof using E1 E2.
    induction n as [|n IH]; intros a c; cbn [expected_n]; [intros w; rewrite !total_0; ring|]. exists (fun z => (a + c O * phi z) ^ 2 + v * total n (fun i => c (Datatypes.S i) ^ 2)). split.
    - intros z. eapply expected_n_ext; [|exact (IH (a + c O * phi z) (fun i => c (Datatypes.S i)))]. intros w. cbv beta. rewrite total_shift. cbn [followed_by]. ring.
    - rewrite total_shift. replace (a ^ 2 + v * (c O ^ 2 + total n (fun i => c (Datatypes.S i) ^ 2))) with (1 * (1 * (a ^ 2 + v * total n (fun i => c (Datatypes.S i) ^ 2)) + 2 * a * c O * 0) + c O ^ 2 * v) by ring.
      eapply expected_ext; [|exact (expected_lin _ _ _ _ 1 (c O ^ 2) (expected_lin _ _ _ _ 1 (2 * a * c O) (expected_const (a ^ 2 + v * total n (fun i => c (Datatypes.S i) ^ 2))) E1) E2)]. intros z. cbv beta. ring.
  Qed.
End Shock.
Definition shock (sigma dt : R) (method : string) (z : R) : R := sigma * (sqrt dt * z) + (if String.eqb method "euler" then 0 else 1 / 2 * sigma * sigma * ((sqrt dt * z) ^ 2 - dt)).
Lemma example_path a sigma theta r0 dt method w : a <> 0 -> forall i, example_rate a sigma theta r0 dt method w i = theta / a + (1 - a * dt) ^ i * (r0 - theta / a) + total i (fun k => (1 - a * dt) ^ (i - 1 - k) * shock sigma dt method (w k)).
Proof.
  intros A. induction i as [|i IH]; [rewrite total_0; cbn [example_rate pow]; ring|]. cbn [example_rate]. rewrite IH, total_S. replace (Datatypes.S i - 1 - i)%nat with O by lia.
  rewrite (total_ext i (fun k => (1 - a * dt) ^ (Datatypes.S i - 1 - k) * shock sigma dt method (w k)) (fun k => (1 - a * dt) * ((1 - a * dt) ^ (i - 1 - k) * shock sigma dt method (w k)))).
  2: { intros k K. replace (Datatypes.S i - 1 - k)%nat with (Datatypes.S (i - 1 - k)) by lia. cbn [pow]. ring. }
  rewrite total_scal. unfold shock. cbn [pow]. destruct (String.eqb method "euler"); field; exact A.
Qed.
Lemma shock_expected sigma dt method : 0 <= dt -> expected (shock sigma dt method) 0.
Proof.
  intros H. assert (Sq : sqrt dt ^ 2 = dt) by (rewrite <- (Rsqr_pow2 (sqrt dt)); apply Rsqr_sqrt; exact H). unfold shock. destruct (String.eqb method "euler").
  - replace 0 with (sigma * sqrt dt * 0) by ring. eapply expected_ext; [|exact (expected_scal _ _ (sigma * sqrt dt) expected_id)]. intros z. cbv beta. ring.
  - replace 0 with (1 * (sigma * sqrt dt * 0 + 1 / 2 * sigma * sigma * dt * 1) + - (1 / 2 * sigma * sigma * dt) * 1) by ring.
    eapply expected_ext; [|exact (expected_lin _ _ _ _ 1 (- (1 / 2 * sigma * sigma * dt)) (expected_lin _ _ _ _ (sigma * sqrt dt) (1 / 2 * sigma * sigma * dt) expected_id expected_sq) (expected_const 1))]. intros z. cbv beta. rewrite Rpow_mult_distr, Sq. ring.
Qed.
Lemma shock_variance sigma dt method : 0 <= dt -> expected (fun z => shock sigma dt method z ^ 2) (sigma ^ 2 * dt + (if String.eqb method "euler" then 0 else sigma ^ 4 * dt ^ 2 / 2)).
Proof.
  intros H. assert (Sq : sqrt dt ^ 2 = dt) by (rewrite <- (Rsqr_pow2 (sqrt dt)); apply Rsqr_sqrt; exact H). unfold shock. destruct (String.eqb method "euler").
  - replace (sigma ^ 2 * dt + 0) with (sigma ^ 2 * dt * 1) by ring. eapply expected_ext; [|exact (expected_scal _ _ (sigma ^ 2 * dt) expected_sq)]. intros z. cbv beta. rewrite <- Sq at 1. ring.
  - set (c := 1 / 2 * sigma * sigma * dt). set (d := sigma * sqrt dt). assert (D2 : d ^ 2 = sigma ^ 2 * dt) by (unfold d; rewrite Rpow_mult_distr, Sq; reflexivity).
    replace (sigma ^ 2 * dt + sigma ^ 4 * dt ^ 2 / 2) with (1 * (1 * (d ^ 2 * 1 + 2 * c * d * 0) + c ^ 2 * 3) + 1 * (- (2 * c ^ 2) * 1 + 1 * (- (2 * c * d) * 0 + c ^ 2 * 1))) by (rewrite D2; unfold c; field).
    eapply expected_ext; [|exact (expected_lin _ _ _ _ 1 1 (expected_lin _ _ _ _ 1 (c ^ 2) (expected_lin _ _ _ _ (d ^ 2) (2 * c * d) expected_sq expected_cube) expected_fourth) (expected_lin _ _ _ _ (- (2 * c ^ 2)) 1 expected_sq (expected_lin _ _ _ _ (- (2 * c * d)) (c ^ 2) expected_id (expected_const 1))))].
    intros z. cbv beta. replace ((sqrt dt * z) ^ 2) with (dt * z ^ 2) by (rewrite Rpow_mult_distr, Sq; reflexivity). replace (sigma * (sqrt dt * z) + 1 / 2 * sigma * sigma * (dt * z ^ 2 - dt)) with (d * z + c * (z ^ 2 - 1)) by (unfold c, d; ring). ring.
Qed.
