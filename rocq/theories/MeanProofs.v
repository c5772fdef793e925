(* Gaussian expectations: linearity, moments, exponentials, option payoffs and the sum of two normal numbers *)
From Coq Require Import Reals Lra Lia List.
From Coquelicot Require Import Coquelicot.
From Verif Require Import Base NormalModel NormalProofs BsProofs MeanSpec.
Open Scope R_scope.

Lemma inR (x y : R) : x = y -> @eq (AbelianGroup.sort (NormedModule.AbelianGroup R_AbsRing R_NormedModule)) x y. Proof. exact (fun H => H). Qed.

Lemma bell_pdf z : bell z = pdf z. Proof. unfold bell, pdf. replace (z ^ 2) with (z * z) by ring. reflexivity. Qed.

Definition whole (f : R -> R) (m : R) : Prop := forall e, 0 < e -> exists M, forall a b, a < - M -> M < b -> exists y, is_RInt f a b y /\ Rabs (y - m) < e.
Lemma whole_iff (f : R -> R) m : is_RInt_gen f (Rbar_locally m_infty) (Rbar_locally p_infty) m <-> whole f m.
Proof.
  split.
  - intros H e He. assert (L : locally m (fun y => Rabs (y - m) < e)) by (exists (mkposreal e He); intros y Hy; exact Hy). specialize (H _ L). destruct H as [Q1 Q2 [M1 H1] [M2 H2] H]. exists (Rmax (- M1) M2). intros a b A B.
    apply (H a b); [apply H1; pose proof (Rmax_l (- M1) M2); lra|apply H2; pose proof (Rmax_r (- M1) M2); lra].
  - intros H P [e He]. destruct (H e (cond_pos e)) as (M & HM). apply (Filter_prod _ _ _ (fun a => a < - M) (fun b => M < b)); [exists (- M); auto|exists M; auto|]. intros a b A B. destruct (HM a b A B) as (y & Y & D). exists y. split; [exact Y|]. apply He. exact D.
Qed.
Lemma expected_iff f m : expected f m <-> whole (fun z => f z * pdf z) m.
Proof.
  unfold expected. rewrite whole_iff. split; intros H e He; destruct (H e He) as (M & HM); exists M; intros a b A B; destruct (HM a b A B) as (y & Y & D); exists y; (split; [|exact D]); [apply (is_RInt_ext (fun z => f z * bell z))|apply (is_RInt_ext (fun z => f z * pdf z))]; [|exact Y| |exact Y]; intros x _; rewrite bell_pdf; reflexivity.
Qed.
Lemma whole_ext f g m : (forall z, f z = g z) -> whole f m -> whole g m.
Proof. intros E H e He. destruct (H e He) as (M & HM). exists M. intros a b A B. destruct (HM a b A B) as (y & Y & D). exists y. split; [|exact D]. eapply is_RInt_ext; [|exact Y]. intros x _. apply E. Qed.
Lemma whole_unique f m m' : whole f m -> whole f m' -> m = m'.
Proof.
  intros H H'. apply Rminus_diag_uniq. destruct (Req_dec (m - m') 0) as [E|N]; [exact E|]. exfalso. assert (P : 0 < Rabs (m - m') / 2) by (pose proof (Rabs_pos_lt _ N); lra). destruct (H _ P) as (M & HM), (H' _ P) as (M' & HM').
  pose (X := Rmax M M'). pose proof (Rmax_l M M'). pose proof (Rmax_r M M'). destruct (HM (- X - 1) (X + 1)) as (y & Y & D); [unfold X; lra|unfold X; lra|]. destruct (HM' (- X - 1) (X + 1)) as (y' & Y' & D'); [unfold X; lra|unfold X; lra|].
  assert (y = y') by (rewrite <- (is_RInt_unique (V := R_CompleteNormedModule) _ _ _ _ Y); apply (is_RInt_unique (V := R_CompleteNormedModule)); exact Y'). subst y'.
  pose proof (Rabs_triang (m - y) (y - m')) as T. replace (m - y + (y - m')) with (m - m') in T by ring. rewrite (Rabs_minus_sym m y) in T. lra.
Qed.
Lemma whole_lin f g m k c d : whole f m -> whole g k -> whole (fun z => c * f z + d * g z) (c * m + d * k).
Proof.
  intros H G e He. set (q := Rabs c + Rabs d + 1). assert (Q : 0 < q) by (pose proof (Rabs_pos c); pose proof (Rabs_pos d); unfold q; lra). assert (P : 0 < e / q) by (apply Rdiv_lt_0_compat; assumption).
  destruct (H _ P) as (M & HM), (G _ P) as (M' & HM'). exists (Rmax M M'). pose proof (Rmax_l M M'). pose proof (Rmax_r M M'). intros a b A B. destruct (HM a b) as (y & Y & D); [lra|lra|]. destruct (HM' a b) as (y' & Y' & D'); [lra|lra|].
  exists (c * y + d * y'). split. { apply (is_RInt_plus (V := R_NormedModule) (fun z => c * f z) (fun z => d * g z)); apply (is_RInt_scal (V := R_NormedModule)); assumption. }
  replace (c * y + d * y' - (c * m + d * k)) with (c * (y - m) + d * (y' - k)) by ring. eapply Rle_lt_trans; [apply Rabs_triang|]. rewrite !Rabs_mult.
  assert (E : e = q * (e / q)) by (field; lra). rewrite E. pose proof (Rabs_pos c). pose proof (Rabs_pos d). unfold q at 1. nra.
Qed.
(* an antiderivative with limits at both ends *)
Lemma whole_anti f (G : R -> R) lm lp : (forall a b, is_RInt f a b (G b - G a)) -> (forall e, 0 < e -> exists M, forall x, x < - M -> Rabs (G x - lm) < e) -> (forall e, 0 < e -> exists M, forall x, M < x -> Rabs (G x - lp) < e) -> whole f (lp - lm).
Proof.
  intros H L U e He. destruct (L (e / 2) ltac:(lra)) as (M & HM), (U (e / 2) ltac:(lra)) as (M' & HM'). exists (Rmax M M'). pose proof (Rmax_l M M'). pose proof (Rmax_r M M'). intros a b A B. exists (G b - G a). split; [apply H|].
  pose proof (HM a ltac:(lra)) as X. pose proof (HM' b ltac:(lra)) as Y. replace (G b - G a - (lp - lm)) with ((G b - lp) + - (G a - lm)) by ring. eapply Rle_lt_trans; [apply Rabs_triang|]. rewrite Rabs_Ropp. lra.
Qed.
Lemma int_anti (f G : R -> R) : (forall x, is_derive G x (f x)) -> (forall x, continuous f x) -> forall a b, is_RInt f a b (G b - G a).
Proof. intros D C a b. apply (is_RInt_derive (V := R_CompleteNormedModule) G f); intros; [apply D|apply C]. Qed.
Lemma whole_shift f m s : whole f m -> whole (fun z => f (z + s)) m.
Proof.
  intros H e He. destruct (H e He) as (M & HM). exists (M + Rabs s). intros a b A B. pose proof (Rle_abs s). pose proof (Rle_abs (- s)) as N. rewrite Rabs_Ropp in N. destruct (HM (a + s) (b + s)) as (y & Y & D); [lra|lra|]. exists y. split; [|exact D].
  pose proof (is_RInt_comp_lin (V := R_NormedModule) f 1 s a b y) as C. replace (1 * a + s) with (a + s) in C by ring. replace (1 * b + s) with (b + s) in C by ring. specialize (C Y). eapply is_RInt_ext; [|exact C]. intros x _. cbn. unfold scal; cbn; unfold mult; cbn. rewrite !Rmult_1_l. reflexivity.
Qed.

Lemma PI_gt_1 : 1 < PI. Proof. pose proof PI2_3_2. unfold PI2 in *. lra. Qed.
Lemma pdf_continuous x : continuous pdf x.
Proof. apply (ex_derive_continuous (V := R_NormedModule)). unfold pdf. auto_derive. trivial. Qed.
Lemma pdf_is_derive (x : R) : is_derive pdf x (- x * pdf x).
Proof. unfold pdf. auto_derive; [trivial|]. pose proof s2p_pos as H. unfold s2p in H. unfold Rdiv. set (q := exp (- (x * x) * / 2)). field. lra. Qed.
Lemma pdf_gauss_le x : pdf x <= gauss x.
Proof.
  unfold pdf. fold (gauss x). pose proof (gauss_pos x). assert (S1 : 1 <= sqrt (2 * PI)). { apply Rsqr_incr_0_var; [|left; exact s2p_pos]. unfold Rsqr. rewrite sqrt_sqrt by (pose proof PI_RGT_0; lra). pose proof PI_gt_1. lra. }
  apply Rle_div_l; [lra|]. nra.
Qed.
(* powers of z are dominated *)
Lemma pdf_power_small k e : 0 < e -> exists M, 0 < M /\ forall x, M < Rabs x -> Rabs x ^ k * pdf x < e.
Proof.
  intros He. assert (F : exists c, 0 < c /\ forall u, 0 <= u -> u ^ k <= c * exp u).
  { clear e He. induction k as [|k (c & Hc & H)].
    - exists 1. split; [lra|]. intros u Hu. cbn. pose proof (exp_ineq1_le u). lra.
    - exists (2 ^ k * 2 * c). split; [pose proof (pow_lt 2 k); nra|]. intros u Hu. pose proof (H (u / 2) ltac:(lra)) as H2. pose proof (exp_ineq1_le (u / 2)) as E.
      replace (exp u) with (exp (u / 2) * exp (u / 2)) by (rewrite <- exp_plus; f_equal; field). unfold Rdiv in H2. rewrite Rpow_mult_distr in H2. rewrite pow_inv in H2. assert (P : 0 < 2 ^ k) by (apply pow_lt; lra).
      assert (H3 : u ^ k <= 2 ^ k * (c * exp (u / 2))). { apply Rmult_le_reg_r with (/ 2 ^ k); [apply Rinv_0_lt_compat; exact P|]. replace (2 ^ k * (c * exp (u / 2)) * / 2 ^ k) with (c * exp (u / 2)) by (field; lra). unfold Rdiv. exact H2. }
      cbn [pow]. assert (U : u <= 2 * exp (u / 2)) by lra. pose proof (pow_le u k Hu). pose proof (exp_pos (u / 2)). nra. }
  destruct F as (c & Hc & H). destruct (gauss_small 1 ltac:(lra)) as (M0 & HM0 & G0). exists (Rmax 4 (c / e)). split; [pose proof (Rmax_l 4 (c / e)); lra|]. intros x Hx. pose proof (Rmax_l 4 (c / e)). pose proof (Rmax_r 4 (c / e)). set (u := Rabs x) in *. assert (U : 4 < u) by lra.
  apply Rle_lt_trans with (u ^ k * gauss x). { apply Rmult_le_compat_l; [apply pow_le; lra|apply pdf_gauss_le]. }
  apply Rle_lt_trans with (c * exp u * gauss x). { apply Rmult_le_compat_r; [left; apply gauss_pos|apply H; lra]. }
  unfold gauss. replace (x * x) with (u * u) by (unfold u; rewrite <- Rabs_mult; apply Rabs_right; nra). rewrite Rmult_assoc, <- exp_plus. apply Rle_lt_trans with (c * exp (- u)). { apply Rmult_le_compat_l; [lra|]. destruct (Req_dec (u + - (u * u) / 2) (- u)) as [->|N]; [lra|]. left. apply exp_increasing. nra. }
  rewrite exp_Ropp. pose proof (exp_ineq1_le u). apply Rmult_lt_reg_r with (exp u); [apply exp_pos|]. rewrite Rmult_assoc, Rinv_l by (pose proof (exp_pos u); lra). rewrite Rmult_1_r. assert (c < e * u). { assert (c / e < u) by lra. rewrite Rmult_comm. apply Rlt_div_l; assumption. } nra.
Qed.

(* ---- expectations ---- *)
Lemma expected_ext f g m : (forall z, f z = g z) -> expected f m -> expected g m.
Proof. intros E. rewrite !expected_iff. apply whole_ext. intros z. rewrite E. reflexivity. Qed.
Lemma expected_unique f m m' : expected f m -> expected f m' -> m = m'.
Proof. rewrite !expected_iff. apply whole_unique. Qed.
Lemma expected_lin f g m k c d : expected f m -> expected g k -> expected (fun z => c * f z + d * g z) (c * m + d * k).
Proof. rewrite !expected_iff. intros H G. eapply whole_ext; [|exact (whole_lin _ _ _ _ c d H G)]. intros z. cbv beta. ring. Qed.
Lemma expected_scal f m c : expected f m -> expected (fun z => c * f z) (c * m).
Proof. intros H. replace (c * m) with (c * m + 0 * m) by ring. eapply expected_ext; [|exact (expected_lin _ _ _ _ c 0 H H)]. intros z. cbv beta. ring. Qed.
Lemma cdf_far s e : 0 < e -> exists M, forall x, M < x -> Rabs (cdf (x + s) - 1) < e.
Proof. intros He. destruct (cdf_near_1 e He) as (M & _ & H). exists (M - s). intros x Hx. specialize (H (x + s) ltac:(lra)). pose proof (cdf_lt_1 (x + s)). rewrite Rabs_left; lra. Qed.
Lemma cdf_near s e : 0 < e -> exists M, forall x, x < - M -> Rabs (cdf (x + s) - 0) < e.
Proof. intros He. destruct (cdf_near_0 e He) as (M & _ & H). exists (M + s). intros x Hx. specialize (H (x + s) ltac:(lra)). pose proof (cdf_gt_0 (x + s)). rewrite Rabs_right; lra. Qed.
Lemma expected_const c : expected (fun _ => c) c.
Proof.
  assert (O : expected (fun _ => 1) 1). { apply expected_iff. enough (W : whole (fun z => 1 * pdf z) (1 - 0)) by (rewrite Rminus_0_r in W; exact W). apply (whole_anti _ cdf).
    - intros a b. eapply is_RInt_ext; [|apply (int_anti pdf cdf)]; [intros x _; cbn; ring|apply cdf_derive|apply pdf_continuous].
    - intros e He. destruct (cdf_near 0 e He) as (M & H). exists M. intros x Hx. specialize (H x Hx). rewrite Rplus_0_r in H. exact H.
    - intros e He. destruct (cdf_far 0 e He) as (M & H). exists M. intros x Hx. specialize (H x Hx). rewrite Rplus_0_r in H. exact H. }
  pose proof (expected_scal _ _ c O) as H. rewrite Rmult_1_r in H. eapply expected_ext; [|exact H]. intros z. cbv beta. ring.
Qed.
Lemma pdf_tilt s z : exp (s * z - s ^ 2 / 2) * pdf z = pdf (z + - s).
Proof. unfold pdf. assert (E : exp (- ((z + - s) * (z + - s)) / 2) = exp (s * z - s ^ 2 / 2) * exp (- (z * z) / 2)) by (rewrite <- exp_plus; f_equal; field). rewrite E. unfold Rdiv. ring. Qed.
(* change of measure *)
Lemma expected_tilt f m s : expected (fun z => f (z + s)) m -> expected (fun z => exp (s * z - s ^ 2 / 2) * f z) m.
Proof.
  rewrite !expected_iff. intros H. apply (whole_shift _ _ (- s)) in H. eapply whole_ext; [|exact H]. intros z. cbv beta. replace (z + - s + s) with z by ring. rewrite <- pdf_tilt. ring.
Qed.
Lemma expected_exp a b : expected (fun z => exp (a + b * z)) (exp (a + b ^ 2 / 2)).
Proof.
  pose proof (expected_tilt (fun _ => exp (a + b ^ 2 / 2)) _ b (expected_const _)) as H. eapply expected_ext; [|exact H]. intros z. cbv beta. rewrite <- exp_plus. f_equal. field.
Qed.
Lemma far_of (G : R -> R) l : (forall e, 0 < e -> exists M, forall x, M < Rabs x -> Rabs (G x - l) < e) -> (forall e, 0 < e -> exists M, forall x, x < - M -> Rabs (G x - l) < e) /\ (forall e, 0 < e -> exists M, forall x, M < x -> Rabs (G x - l) < e).
Proof. intros H. split; intros e He; destruct (H e He) as (M & HM); exists M; intros x Hx; apply HM; [pose proof (Rle_abs (- x)) as A; rewrite Rabs_Ropp in A; lra|pose proof (Rle_abs x); lra]. Qed.
Lemma expected_id : expected (fun z => z) 0.
Proof.
  apply expected_iff. replace 0 with (0 - 0) by ring. destruct (far_of (fun x => - pdf x) 0) as [A B].
  { intros e He. destruct (pdf_power_small 0 e He) as (M & _ & H). exists M. intros x Hx. specialize (H x Hx). cbn in H. rewrite Rmult_1_l in H. pose proof (pdf_pos x). replace (- pdf x - 0) with (- pdf x) by ring. rewrite Rabs_Ropp, Rabs_right; lra. }
  apply (whole_anti _ (fun x => - pdf x)); [|exact A|exact B]. apply int_anti.
  - intros x. replace (x * pdf x) with (- (- x * pdf x)) by ring. apply (is_derive_opp (K := R_AbsRing) (V := R_NormedModule)). apply pdf_is_derive.
  - intros x. apply (continuous_mult (K := R_AbsRing)); [apply continuous_id|apply pdf_continuous].
Qed.
Lemma expected_sq : expected (fun z => z ^ 2) 1.
Proof.
  pose proof (expected_const 1) as O. assert (D : expected (fun z => z ^ 2 - 1) 0).
  { apply expected_iff. replace 0 with (0 - 0) by ring. destruct (far_of (fun x => - (x * pdf x)) 0) as [A B].
    { intros e He. destruct (pdf_power_small 1 e He) as (M & _ & H). exists M. intros x Hx. specialize (H x Hx). rewrite pow_1 in H. replace (- (x * pdf x) - 0) with (- (x * pdf x)) by ring. rewrite Rabs_Ropp, Rabs_mult, (Rabs_right (pdf x)); [exact H|pose proof (pdf_pos x); lra]. }
    apply (whole_anti _ (fun x => - (x * pdf x))); [|exact A|exact B]. apply int_anti.
    - intros x. replace ((x ^ 2 - 1) * pdf x) with (- (1 * pdf x + x * (- x * pdf x))) by ring. apply (is_derive_opp (K := R_AbsRing) (V := R_NormedModule)). apply (is_derive_mult (fun x => x) pdf); [apply (is_derive_id (K := R_AbsRing))|apply pdf_is_derive|intros; apply Rmult_comm].
    - intros x. apply (continuous_mult (K := R_AbsRing)); [|apply pdf_continuous]. apply (ex_derive_continuous (V := R_NormedModule)). auto_derive. trivial. }
  pose proof (expected_lin _ _ _ _ 1 1 D O) as H. replace (1 * 0 + 1 * 1) with 1 in H by ring. eapply expected_ext; [|exact H]. intros z. cbv beta. ring.
Qed.

(* ---- option payoffs ---- *)
(* an integrand that vanishes below c *)
Lemma int_from (f h H : R -> R) c : (forall x, is_derive H x (h x)) -> (forall x, continuous h x) -> (forall x, x < c -> f x = 0) -> (forall x, c < x -> f x = h x) -> forall a b, is_RInt f a b (H (Rmax c b) - H (Rmax c a)).
Proof.
  intros D C L U a b. assert (K : forall b, is_RInt f c b (H (Rmax c b) - H c)).
  { clear a b. intros b. destruct (Rle_dec c b) as [B|B].
    - rewrite Rmax_right by exact B. apply (is_RInt_ext h); [|apply int_anti; assumption]. intros x. rewrite Rmin_left, Rmax_right by exact B. intros [X _]. symmetry. apply U. exact X.
    - rewrite Rmax_left by lra. replace (H c - H c) with (scal (b - c) 0) by (unfold scal; cbn; unfold mult; cbn; ring). apply (is_RInt_ext (fun _ => 0)); [|apply (is_RInt_const (V := R_NormedModule))]. intros x. rewrite Rmin_right, Rmax_left by lra. intros [_ X]. symmetry. apply L. exact X. }
  replace (H (Rmax c b) - H (Rmax c a)) with (plus (- (H (Rmax c a) - H c)) (H (Rmax c b) - H c)) by (unfold plus; cbn; ring). apply (is_RInt_Chasles (V := R_NormedModule) f a c b); [|apply K]. apply (is_RInt_swap (V := R_NormedModule) f a c). apply K.
Qed.
Lemma expected_from (f h H : R -> R) c l : (forall x, is_derive H x (h x * pdf x)) -> (forall x, continuous h x) -> (forall x, x < c -> f x = 0) -> (forall x, c < x -> f x = h x) ->
  (forall e, 0 < e -> exists M, forall x, M < x -> Rabs (H x - l) < e) -> expected f (l - H c).
Proof.
  intros D C L U F. apply expected_iff. apply (whole_anti _ (fun x => H (Rmax c x))).
  - apply (int_from _ (fun x => h x * pdf x)); [exact D| | |].
    + intros x. apply (continuous_mult (K := R_AbsRing)); [apply C|apply pdf_continuous].
    + intros x X. rewrite L by exact X. ring.
    + intros x X. rewrite U by exact X. ring.
  - intros e He. exists (- c). intros x X. rewrite Rmax_left by lra. rewrite Rminus_eq_0, Rabs_R0. exact He.
  - intros e He. destruct (F e He) as (M & HM). exists (Rmax M c). intros x X. pose proof (Rmax_l M c). pose proof (Rmax_r M c). rewrite Rmax_right by lra. apply HM. lra.
Qed.
Lemma cdf_shift_derive s x : is_derive (fun x => cdf (x + s)) x (pdf (x + s)).
Proof.
  replace (pdf (x + s)) with (scal 1 (pdf (x + s))) by (unfold scal; cbn; unfold mult; cbn; ring). apply (is_derive_comp (V := R_NormedModule) cdf (fun x => x + s)); [apply cdf_derive|]. auto_derive; [trivial|reflexivity].
Qed.
Lemma cdf_lin_derive a b x : is_derive (fun x => cdf (a + b * x)) x (b * pdf (a + b * x)).
Proof.
  apply (is_derive_comp (V := R_NormedModule) cdf (fun x => a + b * x)); [apply cdf_derive|]. auto_derive; [trivial|]. apply inR. ring.
Qed.
Definition lognormal (F v z : R) : R := F * exp (v * z - v ^ 2 / 2).
Lemma expected_lognormal F v : expected (lognormal F v) F.
Proof.
  pose proof (expected_scal _ _ F (expected_exp (- v ^ 2 / 2) v)) as H. replace (- v ^ 2 / 2 + v ^ 2 / 2) with 0 in H by field. rewrite exp_0, Rmult_1_r in H. eapply expected_ext; [|exact H]. intros z. cbv beta. unfold lognormal. do 2 f_equal. field.
Qed.
Lemma call_lognormal F K v : 0 < F -> 0 < K -> 0 < v -> expected (fun z => Rmax 0 (lognormal F v z - K)) (blk 1 F K v).
Proof.
  intros HF HK Hv. set (c := - bd2 F K v). assert (Lc : F * exp (v * c - v ^ 2 / 2) = K).
  { replace (v * c - v ^ 2 / 2) with (ln K - ln F) by (unfold c, bd2, bd1; rewrite ln_quot by assumption; field; lra). unfold Rminus. rewrite exp_plus, exp_Ropp, !exp_ln by assumption. field. lra. }
  assert (Mono : forall x y, x < y -> lognormal F v x < lognormal F v y). { intros x y X. unfold lognormal. apply Rmult_lt_compat_l; [exact HF|]. apply exp_increasing. nra. }
  replace (blk 1 F K v) with ((F * 1 - K * 1) - (F * cdf (c + - v) - K * cdf c)).
  2: { unfold blk, c. rewrite !Rmult_1_l, cdf_sym. replace (- bd2 F K v + - v) with (- bd1 F K v) by (unfold bd2; ring). rewrite cdf_sym. ring. }
  apply (expected_from _ (fun z => lognormal F v z - K) (fun x => F * cdf (x + - v) - K * cdf x)).
  - intros x. replace ((lognormal F v x - K) * pdf x) with (F * pdf (x + - v) - K * pdf x) by (rewrite <- pdf_tilt; unfold lognormal; ring).
    apply (is_derive_minus (K := R_AbsRing) (V := R_NormedModule)); apply (is_derive_scal (fun x => _)); [apply cdf_shift_derive|apply cdf_derive].
  - intros x. apply (ex_derive_continuous (V := R_NormedModule)). unfold lognormal. auto_derive. trivial.
  - intros x X. apply Mono in X. unfold lognormal at 2 in X. rewrite Lc in X. apply Rmax_left. lra.
  - intros x X. apply Mono in X. unfold lognormal at 1 in X. rewrite Lc in X. apply Rmax_right. lra.
  - intros e He. set (q := F + K + 1). assert (Q : 0 < q) by (unfold q; lra). assert (P : 0 < e / q) by (apply Rdiv_lt_0_compat; assumption). destruct (cdf_far (- v) _ P) as (M & HM), (cdf_far 0 _ P) as (M' & HM'). exists (Rmax M M'). intros x X. pose proof (Rmax_l M M'). pose proof (Rmax_r M M'). specialize (HM x ltac:(lra)). specialize (HM' x ltac:(lra)). rewrite Rplus_0_r in HM'.
    replace (F * cdf (x + - v) - K * cdf x - (F * 1 - K * 1)) with (F * (cdf (x + - v) - 1) + - (K * (cdf x - 1))) by ring. eapply Rle_lt_trans; [apply Rabs_triang|]. rewrite Rabs_Ropp, !Rabs_mult, (Rabs_right F), (Rabs_right K) by lra. assert (E : e = q * (e / q)) by (field; lra). rewrite E. unfold q at 1. nra.
Qed.
Lemma max_split x y : Rmax 0 (y - x) = Rmax 0 (x - y) + (y - x).
Proof. destruct (Rle_dec x y); [rewrite (Rmax_right 0 (y - x)), (Rmax_left 0 (x - y)) by lra|rewrite (Rmax_left 0 (y - x)), (Rmax_right 0 (x - y)) by lra]; ring. Qed.
Lemma put_call_lognormal F K v : v <> 0 -> blk (-1) F K v = blk 1 F K v + (K - F).
Proof. intros Hv. unfold blk. rewrite !Rmult_1_l. replace (-1 * bd1 F K v) with (- bd1 F K v) by ring. replace (-1 * bd2 F K v) with (- bd2 F K v) by ring. rewrite !cdf_sym. ring. Qed.
Lemma payoff_lognormal w F K v : w = 1 \/ w = -1 -> 0 < F -> 0 < K -> 0 < v -> expected (fun z => Rmax 0 (w * (lognormal F v z - K))) (blk w F K v).
Proof.
  intros [->| ->] HF HK Hv.
  - eapply expected_ext; [|exact (call_lognormal F K v HF HK Hv)]. intros z. cbv beta. rewrite Rmult_1_l. reflexivity.
  - rewrite put_call_lognormal by lra. pose proof (expected_lin _ _ _ _ 1 1 (call_lognormal F K v HF HK Hv) (expected_lin _ _ _ _ 1 (-1) (expected_const K) (expected_lognormal F v))) as H. cbv beta in H.
    replace (1 * blk 1 F K v + 1 * (1 * K + -1 * F)) with (blk 1 F K v + (K - F)) in H by ring. eapply expected_ext; [|exact H]. intros z. cbv beta. replace (-1 * (lognormal F v z - K)) with (K - lognormal F v z) by ring. rewrite max_split. ring.
Qed.
(* Bachelier *)
Lemma call_normal F K v : 0 < v -> expected (fun z => Rmax 0 (F + v * z - K)) (nrm 1 F K v).
Proof.
  intros Hv. set (c := (K - F) / v). replace (nrm 1 F K v) with ((F - K) * 1 - ((F - K) * cdf c - v * pdf c)).
  2: { unfold nrm, c. replace (1 * ((F - K) / v)) with (- ((K - F) / v)) by (field; lra). replace ((F - K) / v) with (- ((K - F) / v)) by (field; lra). rewrite cdf_sym, pdf_even. ring. }
  assert (Hc : F + v * c - K = 0) by (unfold c; field; lra).
  apply (expected_from _ (fun z => F + v * z - K) (fun x => (F - K) * cdf x - v * pdf x)).
  - intros x. replace ((F + v * x - K) * pdf x) with ((F - K) * pdf x - v * (- x * pdf x)) by ring. apply (is_derive_minus (K := R_AbsRing) (V := R_NormedModule)); apply (is_derive_scal (fun x => _)); [apply cdf_derive|apply pdf_is_derive].
  - intros x. apply (ex_derive_continuous (V := R_NormedModule)). auto_derive. trivial.
  - intros x X. apply Rmax_left. nra.
  - intros x X. apply Rmax_right. nra.
  - intros e He. set (q := Rabs (F - K) + v + 1). assert (Q : 0 < q) by (pose proof (Rabs_pos (F - K)); unfold q; lra). assert (P : 0 < e / q) by (apply Rdiv_lt_0_compat; assumption). destruct (cdf_far 0 _ P) as (M & HM), (pdf_power_small 0 _ P) as (M' & _ & HM'). exists (Rmax M M'). intros x X. pose proof (Rmax_l M M'). pose proof (Rmax_r M M'). specialize (HM x ltac:(lra)). rewrite Rplus_0_r in HM. pose proof (Rle_abs x). specialize (HM' x ltac:(lra)). cbn [pow] in HM'. rewrite Rmult_1_l in HM'.
    replace ((F - K) * cdf x - v * pdf x - (F - K) * 1) with ((F - K) * (cdf x - 1) + - (v * pdf x)) by ring. eapply Rle_lt_trans; [apply Rabs_triang|]. pose proof (pdf_pos x). rewrite Rabs_Ropp, !Rabs_mult, (Rabs_right v), (Rabs_right (pdf x)) by lra. assert (E : e = q * (e / q)) by (field; lra). rewrite E. unfold q at 1. pose proof (Rabs_pos (F - K)). nra.
Qed.
Lemma payoff_normal w F K v : w = 1 \/ w = -1 -> 0 < v -> expected (fun z => Rmax 0 (w * (F + v * z - K))) (nrm w F K v).
Proof.
  intros [->| ->] Hv.
  - eapply expected_ext; [|exact (call_normal F K v Hv)]. intros z. cbv beta. rewrite Rmult_1_l. reflexivity.
  - replace (nrm (-1) F K v) with (1 * nrm 1 F K v + 1 * (1 * (K - F) + - v * 0)).
    2: { unfold nrm. replace (-1 * ((F - K) / v)) with (- ((F - K) / v)) by ring. rewrite Rmult_1_l, cdf_sym. replace (1 * ((F - K) / v)) with ((F - K) / v) by ring. ring. }
    pose proof (expected_lin _ _ _ _ 1 1 (call_normal F K v Hv) (expected_lin _ _ _ _ 1 (- v) (expected_const (K - F)) expected_id)) as H. eapply expected_ext; [|exact H]. intros z. cbv beta. replace (-1 * (F + v * z - K)) with (K - (F + v * z)) by ring. rewrite max_split. ring.
Qed.

(* ---- sums of independent normal numbers ---- *)
Lemma cdf_continuous x : continuous cdf x.
Proof. apply (ex_derive_continuous (V := R_NormedModule)). eexists. apply cdf_derive. Qed.
Lemma pdf_continuity x : continuity_pt pdf x.
Proof. apply continuity_pt_filterlim. apply pdf_continuous. Qed.
Section Probit.
  Variable b : R.
  Let c := sqrt (1 + b ^ 2).
  Lemma probit_c : 0 < c /\ c ^ 2 = 1 + b ^ 2.
  Proof. split; [apply sqrt_lt_R0; nra|]. unfold c. rewrite <- Rsqr_pow2. apply Rsqr_sqrt. nra. Qed.
  Lemma probit_derive x z : is_derive (fun u => pdf z * cdf (u + b * z)) x (pdf z * pdf (x + b * z)).
  Proof. apply (is_derive_scal (fun u => cdf (u + b * z))). apply cdf_shift_derive. Qed.
  Lemma probit_square x z : pdf z * pdf (x + b * z) = pdf (x / c) * pdf (x * b / c + c * z).
  Proof.
    destruct probit_c as [P Q]. unfold pdf. pose proof s2p_pos as H. unfold s2p in H. set (q := sqrt (2 * PI)) in *.
    replace (exp (- (z * z) / 2) / q * (exp (- ((x + b * z) * (x + b * z)) / 2) / q)) with (exp (- (z * z) / 2) * exp (- ((x + b * z) * (x + b * z)) / 2) / (q * q)) by (field; lra).
    replace (exp (- (x / c * (x / c)) / 2) / q * (exp (- ((x * b / c + c * z) * (x * b / c + c * z)) / 2) / q)) with (exp (- (x / c * (x / c)) / 2) * exp (- ((x * b / c + c * z) * (x * b / c + c * z)) / 2) / (q * q)) by (field; lra).
    rewrite <- !exp_plus. do 2 f_equal. replace (x / c * (x / c)) with (x ^ 2 / c ^ 2) by (field; lra). replace ((x * b / c + c * z) * (x * b / c + c * z)) with (x ^ 2 * b ^ 2 / c ^ 2 + 2 * x * b * z + c ^ 2 * z ^ 2) by (field; lra). rewrite Q. field. nra.
  Qed.
  Definition probit (A B x : R) : R := RInt (fun z => pdf z * cdf (x + b * z)) A B.
  Lemma probit_integrable A B x : ex_RInt (fun z => pdf z * cdf (x + b * z)) A B.
  Proof.
    apply (ex_RInt_continuous (V := R_CompleteNormedModule)). intros z _. apply (continuous_mult (K := R_AbsRing)); [apply pdf_continuous|]. apply (ex_derive_continuous (V := R_NormedModule)). eexists. apply cdf_lin_derive.
  Qed.
  Lemma probit_slope A B x : is_derive (probit A B) x (pdf (x / c) / c * (cdf (x * b / c + c * B) - cdf (x * b / c + c * A))).
  Proof.
    destruct probit_c as [P Q]. assert (E : RInt (fun z => Derive (fun u => pdf z * cdf (u + b * z)) x) A B = pdf (x / c) / c * (cdf (x * b / c + c * B) - cdf (x * b / c + c * A))).
    { apply (is_RInt_unique (V := R_CompleteNormedModule)). apply (is_RInt_ext (fun z => pdf (x / c) * pdf (x * b / c + c * z))).
      - intros z _. rewrite <- probit_square. symmetry. apply is_derive_unique. apply probit_derive.
      - replace (pdf (x / c) / c * (cdf (x * b / c + c * B) - cdf (x * b / c + c * A))) with (pdf (x / c) / c * cdf (x * b / c + c * B) - pdf (x / c) / c * cdf (x * b / c + c * A)) by ring.
        apply (int_anti _ (fun z => pdf (x / c) / c * cdf (x * b / c + c * z))).
        + intros z. replace (pdf (x / c) * pdf (x * b / c + c * z)) with (pdf (x / c) / c * (c * pdf (x * b / c + c * z))) by (field; lra). apply (is_derive_scal (fun z => cdf (x * b / c + c * z))). apply cdf_lin_derive.
        + intros z. apply (continuous_mult (K := R_AbsRing)); [apply continuous_const|]. apply (ex_derive_continuous (V := R_NormedModule)). unfold pdf. auto_derive. trivial. }
    rewrite <- E. unfold probit. apply (is_derive_RInt_param (fun x z => pdf z * cdf (x + b * z)) A B x).
    - apply filter_forall. intros y t _. eexists. apply probit_derive.
    - intros t _. apply continuity_2d_pt_ext with (f := fun u v => pdf v * pdf (u + b * v)). { intros u v. symmetry. apply is_derive_unique. apply probit_derive. }
      apply continuity_2d_pt_mult.
      + apply (continuity_1d_2d_pt_comp pdf (fun u v => v)); [apply pdf_continuity|apply continuity_2d_pt_id2].
      + apply (continuity_1d_2d_pt_comp pdf (fun u v => u + b * v)); [apply pdf_continuity|]. apply continuity_2d_pt_plus; [apply continuity_2d_pt_id1|]. apply continuity_2d_pt_mult; [apply continuity_2d_pt_const|apply continuity_2d_pt_id2].
    - apply filter_forall. intros y. apply probit_integrable.
  Qed.
  (* the odd part integrates to nothing *)
  Lemma probit_centre A B : A < 0 -> 0 < B -> Rabs (probit A B 0 - 1 / 2) <= (1 - cdf B) + cdf A.
  Proof.
    intros HA HB. set (o := fun z => pdf z * (cdf (b * z) - 1 / 2)).
    assert (Co : forall z, continuous o z). { intros z. apply (continuous_mult (K := R_AbsRing)); [apply pdf_continuous|]. apply (ex_derive_continuous (V := R_NormedModule)). exists (b * pdf (0 + b * z)). replace (b * pdf (0 + b * z)) with (b * pdf (0 + b * z) - 0) by ring. apply (is_derive_minus (K := R_AbsRing) (V := R_NormedModule)); [|apply (is_derive_const (K := R_AbsRing) (V := R_NormedModule))]. apply (is_derive_ext (fun z => cdf (0 + b * z))); [intros t; rewrite Rplus_0_l; reflexivity|apply cdf_lin_derive]. }
    assert (Io : forall u v, ex_RInt o u v) by (intros u v; apply (ex_RInt_continuous (V := R_CompleteNormedModule)); intros z _; apply Co).
    assert (Odd : RInt o A (- A) = 0).
    { set (l := RInt o A (- A)). assert (H : is_RInt o (- (- A)) (- A) l) by (rewrite Ropp_involutive; apply (RInt_correct (V := R_CompleteNormedModule)); apply Io). apply is_RInt_comp_opp in H.
      assert (H1 : is_RInt o (- A) A l). { eapply is_RInt_ext; [|exact H]. intros z _. change (- (pdf (- z) * (cdf (b * - z) - 1 / 2)) = pdf z * (cdf (b * z) - 1 / 2)). rewrite pdf_even. replace (b * - z) with (- (b * z)) by ring. rewrite cdf_sym. lra. }
      apply (is_RInt_unique (V := R_CompleteNormedModule)) in H1. rewrite <- (opp_RInt_swap (V := R_CompleteNormedModule) o A (- A)) in H1 by apply Io. change (@eq R (- l) l) in H1. clearbody l. change (@eq R l 0). lra. }
    assert (Ip : forall u v, is_RInt pdf u v (cdf v - cdf u)) by (apply int_anti; [apply cdf_derive|apply pdf_continuous]).
    assert (E : probit A B 0 = RInt o (- A) B + 1 / 2 * (cdf B - cdf A)).
    { pose proof (RInt_Chasles (V := R_CompleteNormedModule) o A (- A) B (Io _ _) (Io _ _)) as Ch. change (@eq R (RInt o A (- A) + RInt o (- A) B) (RInt o A B)) in Ch. rewrite Odd, Rplus_0_l in Ch. rewrite Ch. unfold probit. apply (is_RInt_unique (V := R_CompleteNormedModule)).
      apply (is_RInt_ext (fun z => plus (o z) (scal (1 / 2) (pdf z)))). { intros z _. change (@eq R (pdf z * (cdf (b * z) - 1 / 2) + 1 / 2 * pdf z) (pdf z * cdf (0 + b * z))). rewrite Rplus_0_l. field. }
      apply (is_RInt_plus (V := R_NormedModule)); [apply (RInt_correct (V := R_CompleteNormedModule)); apply Io|]. apply (is_RInt_scal (V := R_NormedModule)). apply Ip. }
    assert (Bd : Rabs (RInt o (- A) B) <= 1 / 2 * Rabs (cdf B - cdf (- A))).
    { assert (Ob : forall z, Rabs (o z) <= 1 / 2 * pdf z) by (intros z; unfold o; rewrite Rabs_mult, (Rabs_right (pdf z)) by (pose proof (pdf_pos z); lra); pose proof (pdf_pos z); pose proof (cdf_lt_1 (b * z)); pose proof (cdf_gt_0 (b * z)); assert (Rabs (cdf (b * z) - 1 / 2) <= 1 / 2) by (apply Rabs_le; lra); nra).
      assert (G : forall u v, u <= v -> Rabs (RInt o u v) <= 1 / 2 * (cdf v - cdf u)). { intros u v L. apply (norm_RInt_le (V := R_NormedModule) o (fun z => 1 / 2 * pdf z) u v); [exact L|intros z _; apply Ob|apply (RInt_correct (V := R_CompleteNormedModule)); apply Io|]. apply (is_RInt_scal (V := R_NormedModule)). apply Ip. }
      destruct (Rle_dec (- A) B) as [L|L].
      - rewrite (Rabs_right (cdf B - cdf (- A))); [apply G; exact L|]. pose proof (cdf_le (- A) B L). lra.
      - rewrite <- (opp_RInt_swap (V := R_CompleteNormedModule)) by apply Io. change (Rabs (- RInt o B (- A)) <= 1 / 2 * Rabs (cdf B - cdf (- A))). rewrite Rabs_Ropp, (Rabs_minus_sym (cdf B)), (Rabs_right (cdf (- A) - cdf B)); [apply G; lra|]. pose proof (cdf_le B (- A)). lra. }
    rewrite E. rewrite cdf_sym in Bd. pose proof (cdf_gt_0 A). pose proof (cdf_lt_1 B). eapply Rle_trans; [replace (RInt o (- A) B + 1 / 2 * (cdf B - cdf A) - 1 / 2) with (RInt o (- A) B + - (1 / 2 * ((1 - cdf B) + cdf A))) by ring; apply Rabs_triang|].
    rewrite Rabs_Ropp, (Rabs_right (1 / 2 * ((1 - cdf B) + cdf A))) by lra. assert (Rabs (cdf B - (1 - cdf A)) <= (1 - cdf B) + cdf A) by (apply Rabs_le; lra). lra.
  Qed.
  Lemma expected_cdf a : expected (fun z => cdf (a + b * z)) (cdf (a / c)).
  Proof.
    destruct probit_c as [P Q]. apply expected_iff. intros e He. set (k := Rabs a * Rabs b / c). set (e2 := e / (4 * (Rabs a + 1) / c + 4)). assert (Ac : 0 < (Rabs a + 1) / c) by (pose proof (Rabs_pos a); apply Rdiv_lt_0_compat; lra).
    assert (D : 0 < 4 * (Rabs a + 1) / c + 4) by (unfold Rdiv in *; nra). assert (He2 : 0 < e2) by (apply Rdiv_lt_0_compat; assumption).
    destruct (cdf_near_1 e2 He2) as (M & HM & H1). destruct (cdf_near_0 e2 He2) as (M' & HM' & H0). set (N := Rmax ((M + M' + k) / c) (M + M')). exists N. intros A B HA HB. pose proof (Rmax_l ((M + M' + k) / c) (M + M')) as N1. pose proof (Rmax_r ((M + M' + k) / c) (M + M')) as N2. fold N in N1, N2.
    exists (probit A B a). split. { apply (is_RInt_ext (fun z => pdf z * cdf (a + b * z))); [intros z _; apply Rmult_comm|]. apply (RInt_correct (V := R_CompleteNormedModule)). apply probit_integrable. }
    assert (Cen : Rabs (probit A B 0 - 1 / 2) <= 2 * e2). { eapply Rle_trans; [apply probit_centre; lra|]. specialize (H1 B ltac:(lra)). specialize (H0 A ltac:(lra)). lra. }
    set (h := fun x => probit A B x - cdf (x / c)). set (h' := fun x => pdf (x / c) / c * (cdf (x * b / c + c * B) - cdf (x * b / c + c * A) - 1)).
    assert (Dh : forall x, is_derive h x (h' x)). { intros x. unfold h, h'. replace (pdf (x / c) / c * (cdf (x * b / c + c * B) - cdf (x * b / c + c * A) - 1)) with (pdf (x / c) / c * (cdf (x * b / c + c * B) - cdf (x * b / c + c * A)) - / c * pdf (0 + / c * x)) by (replace (0 + / c * x) with (x / c) by (field; lra); field; lra).
      apply (is_derive_minus (K := R_AbsRing) (V := R_NormedModule)); [apply probit_slope|]. apply (is_derive_ext (fun x => cdf (0 + / c * x))); [intros t; f_equal; field; lra|apply cdf_lin_derive]. }
    assert (Bh : forall x, Rabs x <= Rabs a -> Rabs (h' x) <= 2 * e2 / c).
    { intros x Hx. unfold h'. assert (Kx : Rabs (x * b / c) <= k). { unfold k, Rdiv. rewrite !Rabs_mult, (Rabs_right (/ c)) by (left; apply Rinv_0_lt_compat; exact P). apply Rmult_le_compat_r; [left; apply Rinv_0_lt_compat; exact P|]. apply Rmult_le_compat_r; [apply Rabs_pos|exact Hx]. }
      assert (Cb : M + M' + k < c * B) by (assert (U : (M + M' + k) / c < B) by lra; apply Rlt_div_l in U; [lra|exact P]). assert (Ca : c * A < - (M + M' + k)) by (assert (U : (M + M' + k) / c < - A) by lra; apply Rlt_div_l in U; [lra|exact P]).
      apply Rabs_le_between in Kx. specialize (H1 (x * b / c + c * B) ltac:(lra)). specialize (H0 (x * b / c + c * A) ltac:(lra)). pose proof (cdf_lt_1 (x * b / c + c * B)). pose proof (cdf_gt_0 (x * b / c + c * A)).
      assert (Pd : 0 < pdf (x / c) / c <= / c). { split; [apply Rdiv_lt_0_compat; [apply pdf_pos|exact P]|]. replace (/ c) with (1 * / c) by ring. apply Rmult_le_compat_r; [left; apply Rinv_0_lt_compat; exact P|]. eapply Rle_trans; [apply pdf_gauss_le|]. unfold gauss. rewrite <- exp_0. destruct (Req_dec (- (x / c * (x / c)) / 2) 0) as [->|Ne]; [lra|]. left. apply exp_increasing. nra. }
      rewrite Rabs_mult, (Rabs_right (pdf (x / c) / c)) by lra. replace (2 * e2 / c) with (/ c * (2 * e2)) by (field; lra). apply Rmult_le_compat; [lra|apply Rabs_pos|lra|]. apply Rabs_le. lra. }
    assert (Mvt : Rabs (h a - h 0) <= 2 * e2 / c * Rabs (a - 0)).
    { destruct (MVT_gen h 0 a h') as (x & [X1 X2] & X). { intros x _. apply Dh. } { intros x _. apply continuity_pt_filterlim. apply (ex_derive_continuous (V := R_NormedModule)). eexists. apply Dh. }
      rewrite X, Rabs_mult. apply Rmult_le_compat_r; [apply Rabs_pos|]. apply Bh. destruct (Rle_dec 0 a) as [G|G]; [rewrite Rmin_left in X1 by exact G; rewrite Rmax_right in X2 by exact G; rewrite !Rabs_right by lra; exact X2|rewrite Rmin_right in X1 by lra; rewrite Rmax_left in X2 by lra; rewrite !Rabs_left1 by lra; lra]. }
    rewrite Rminus_0_r in Mvt. unfold h in Mvt at 2. replace (0 / c) with 0 in Mvt by (field; lra). rewrite cdf_0 in Mvt. change (Rabs (h a) < e).
    assert (T : Rabs (h a) <= 2 * e2 / c * Rabs a + 2 * e2). { replace (h a) with ((h a - (probit A B 0 - 1 / 2)) + (probit A B 0 - 1 / 2)) by ring. eapply Rle_trans; [apply Rabs_triang|]. lra. }
    eapply Rle_lt_trans; [exact T|]. apply Rlt_le_trans with (e2 * (4 * (Rabs a + 1) / c + 4)); [|unfold e2; right; field; pose proof (Rabs_pos a); try split; lra]. pose proof (Rabs_pos a). replace (2 * e2 / c * Rabs a + 2 * e2) with (e2 * (2 * (Rabs a / c) + 2)) by (field; lra). apply Rmult_lt_compat_l; [exact He2|]. replace (4 * (Rabs a + 1) / c) with (4 * (Rabs a / c) + 4 / c) by (field; lra).
    assert (0 <= Rabs a / c) by (apply Rdiv_le_0_compat; lra). assert (0 < 4 / c) by (apply Rdiv_lt_0_compat; lra). lra.
  Qed.
End Probit.
