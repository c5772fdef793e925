(* The standard normal distribution: the Gaussian integral, bounds, symmetry, monotonicity, limits and the quantile function. *)
From Coq Require Import Reals Lra Lia.
From Coquelicot Require Import Coquelicot.
From Verif Require Import Base NormalModel.
Open Scope R_scope.

Definition gauss (x : R) : R := exp (- (x * x) / 2).
Definition gint (x : R) : R := RInt gauss 0 x.
Definition kern (x t : R) : R := exp (- (x * x) * (1 + t * t) / 2) / (1 + t * t).
Definition jint (x : R) : R := RInt (kern x) 0 1.

Lemma sq1_pos (t : R) : 0 < 1 + t * t. Proof. nra. Qed.

Lemma gauss_continuous (x : R) : continuous gauss x.
Proof. apply (ex_derive_continuous (V := R_NormedModule)). unfold gauss. auto_derive. trivial. Qed.

Lemma gauss_integrable (a b : R) : ex_RInt gauss a b.
Proof. apply (ex_RInt_continuous (V := R_CompleteNormedModule)). intros z _. apply gauss_continuous. Qed.

Lemma gint_derive (x : R) : is_derive gint x (gauss x).
Proof.
  apply (is_derive_RInt gauss gint 0 x).
  - apply filter_forall. intros y. apply (RInt_correct (V := R_CompleteNormedModule)). apply gauss_integrable.
  - apply gauss_continuous.
Qed.

Lemma kern_derive (x t : R) : is_derive (fun u => kern u t) x (- x * exp (- (x * x) * (1 + t * t) / 2)).
Proof.
  unfold kern. pose proof (sq1_pos t). auto_derive. { lra. }
  unfold Rdiv. field_simplify; try lra.
  all: try (apply f_equal2; try reflexivity; try (f_equal; field)). 
Qed.

Lemma kern_dcont (x t : R) : continuity_2d_pt (fun u v => Derive (fun z => kern z v) u) x t.
Proof.
  apply continuity_2d_pt_ext with (f := fun u v => (- u) * exp (- (u * u) * (1 + v * v) / 2)).
  { intros u v. symmetry. apply is_derive_unique. apply kern_derive. }
  apply continuity_2d_pt_mult.
  - apply (continuity_1d_2d_pt_comp (fun z => - z) (fun u v => u)).
    + apply derivable_continuous_pt. apply derivable_pt_opp. apply derivable_pt_id.
    + apply continuity_2d_pt_id1.
  - apply (continuity_1d_2d_pt_comp exp (fun u v => - (u * u) * (1 + v * v) / 2)).
    + apply derivable_continuous_pt. apply derivable_pt_exp.
    + unfold Rdiv. apply continuity_2d_pt_mult; [ | apply continuity_2d_pt_const ].
      apply continuity_2d_pt_mult.
      * apply continuity_2d_pt_opp. apply continuity_2d_pt_mult; apply continuity_2d_pt_id1.
      * apply continuity_2d_pt_plus. { apply continuity_2d_pt_const. }
        apply continuity_2d_pt_mult; apply continuity_2d_pt_id2.
Qed.

Lemma kern_continuous (x t : R) : continuous (kern x) t.
Proof.
  apply (ex_derive_continuous (V := R_NormedModule)). unfold kern. pose proof (sq1_pos t). auto_derive. lra.
Qed.

Lemma kern_integrable (x a b : R) : ex_RInt (kern x) a b.
Proof. apply (ex_RInt_continuous (V := R_CompleteNormedModule)). intros z _. apply kern_continuous. Qed.

Lemma jint_derive (x : R) : is_derive jint x (- gauss x * gint x).
Proof.
  assert (E : RInt (fun t => Derive (fun u => kern u t) x) 0 1 = - gauss x * gint x).
  { unfold gint.
    pose proof (RInt_comp_lin (V := R_CompleteNormedModule) gauss x 0 0 1 (gauss_integrable _ _)) as L.
    replace (x * 0 + 0) with 0 in L by ring. replace (x * 1 + 0) with x in L by ring. rewrite <- L.
    rewrite <- (RInt_scal (V := R_CompleteNormedModule)).
    - apply RInt_ext. intros t _. refine (eq_trans (is_derive_unique _ _ _ (kern_derive x t)) _). unfold scal; simpl; unfold mult; simpl.
      unfold gauss. replace (- exp (- (x * x) / 2) * (x * exp (- ((x * t + 0) * (x * t + 0)) / 2)))
        with (- x * (exp (- (x * x) / 2) * exp (- ((x * t + 0) * (x * t + 0)) / 2))) by ring.
      rewrite <- exp_plus. f_equal. f_equal. field.
    - apply (ex_RInt_continuous (V := R_CompleteNormedModule)). intros z _.
      apply (ex_derive_continuous (V := R_NormedModule)). unfold scal; simpl; unfold mult; simpl. unfold gauss. auto_derive. trivial. }
  rewrite <- E. unfold jint.
  apply (is_derive_RInt_param (fun x t => kern x t) 0 1 x).
  - apply filter_forall. intros y t _. eexists. apply kern_derive.
  - intros t _. apply kern_dcont.
  - apply filter_forall. intros y. apply kern_integrable.
Qed.

Lemma jint_0 : jint 0 = PI / 4.
Proof.
  unfold jint. rewrite (RInt_ext (V := R_CompleteNormedModule) _ (fun t => / (1 + t ^ 2))).
  - pose proof (is_RInt_derive (V := R_CompleteNormedModule) atan (fun t => / (1 + t ^ 2)) 0 1) as D.
    unshelve refine (eq_trans (is_RInt_unique (V := R_CompleteNormedModule) _ _ _ _ (D _ _)) _).
    { intros t _. apply is_derive_Reals. exact (derivable_pt_lim_atan t). }
    { intros t _. apply (ex_derive_continuous (V := R_NormedModule)). auto_derive. nra. }
    unfold minus, plus, opp; simpl. rewrite atan_1, atan_0. ring.
  - intros t _. unfold kern. replace (- (0 * 0) * (1 + t * t) / 2) with 0 by field. rewrite exp_0. unfold Rdiv. f_equal; try ring.
    simpl. rewrite Rmult_1_l. f_equal. ring.
Qed.

Lemma gint_sq_derive (x : R) : is_derive (fun u => gint u * gint u + 2 * jint u) x 0.
Proof.
  pose proof (gint_derive x) as G. pose proof (jint_derive x) as J.
  assert (GR := proj1 (is_derive_Reals _ _ _) G). assert (JR := proj1 (is_derive_Reals _ _ _) J).
  apply is_derive_Reals.
  pose proof (derivable_pt_lim_plus _ _ x _ _ (derivable_pt_lim_mult _ _ x _ _ GR GR) (derivable_pt_lim_scal _ 2 x _ JR)) as L.
  replace (gauss x * gint x + gint x * gauss x + 2 * (- gauss x * gint x)) with 0 in L by ring. exact L.
Qed.

Lemma gauss_pos (x : R) : 0 < gauss x. Proof. apply exp_pos. Qed.

Lemma gint_0 : gint 0 = 0.
Proof. unfold gint. apply (RInt_point (V := R_CompleteNormedModule)). Qed.

(* the Gaussian integral *)
Lemma gint_sq (x : R) : gint x * gint x + 2 * jint x = PI / 2.
Proof.
  assert (Z : gint 0 * gint 0 + 2 * jint 0 = PI / 2) by (rewrite gint_0, jint_0; field).
  destruct (Rtotal_order x 0) as [L | [-> | L]]; auto.
  - rewrite <- Z. apply (eq_is_derive (V := R_NormedModule) (fun u => gint u * gint u + 2 * jint u) x 0); auto.
    intros t _. apply gint_sq_derive.
  - rewrite <- Z. symmetry. apply (eq_is_derive (V := R_NormedModule) (fun u => gint u * gint u + 2 * jint u) 0 x); auto.
    intros t _. apply gint_sq_derive.
Qed.

Lemma jint_pos (x : R) : 0 < jint x.
Proof.
  apply RInt_gt_0; try lra.
  - intros t _. unfold kern. apply Rdiv_lt_0_compat. apply exp_pos. apply sq1_pos.
  - intros t _. apply kern_continuous.
Qed.

Lemma jint_le (x : R) : jint x <= gauss x * (PI / 4).
Proof.
  rewrite <- jint_0. unfold jint. 
  pose proof (RInt_scal (V := R_CompleteNormedModule) (kern 0) 0 1 (gauss x) (kern_integrable 0 0 1)) as S.
  unfold scal in S; simpl in S; unfold mult in S; simpl in S. rewrite <- S.
  apply RInt_le; try lra.
  - apply kern_integrable.
  - apply (ex_RInt_scal (V := R_CompleteNormedModule) (kern 0)). apply kern_integrable.
  - intros t _. unfold kern, gauss. pose proof (sq1_pos t).
    replace (- (0 * 0) * (1 + t * t) / 2) with 0 by field. rewrite exp_0.
    replace (exp (- (x * x) / 2) * (1 / (1 + t * t))) with (exp (- (x * x) / 2) / (1 + t * t)) by (field; lra).
    apply Rmult_le_compat_r. { left; apply Rinv_0_lt_compat; lra. }
    destruct (Req_dec (x * t) 0) as [E | N].
    + right. f_equal. replace (- (x * x) * (1 + t * t) / 2) with (- (x * x) / 2 - (x * t) * (x * t) / 2) by field. rewrite E. field.
    + left. apply exp_increasing. assert (0 < (x * t) * (x * t)) by nra. nra.
Qed.

Lemma gint_opp (x : R) : gint (- x) = - gint x.
Proof.
  unfold gint.
  pose proof (RInt_comp_lin (V := R_CompleteNormedModule) gauss (-1) 0 0 x (gauss_integrable _ _)) as L.
  replace (-1 * 0 + 0) with 0 in L by ring. replace (-1 * x + 0) with (- x) in L by ring. rewrite <- L.
  rewrite (RInt_scal (V := R_CompleteNormedModule)).
  - unfold scal; simpl; unfold mult; simpl. rewrite (RInt_ext (V := R_CompleteNormedModule) _ gauss). { ring. }
    intros t _. unfold gauss. f_equal. field.
  - apply (ex_RInt_continuous (V := R_CompleteNormedModule)). intros z _.
      apply (ex_derive_continuous (V := R_NormedModule)). unfold gauss. auto_derive. trivial.
Qed.

Definition s2p : R := sqrt (2 * PI).
Lemma s2p_pos : 0 < s2p. Proof. apply sqrt_lt_R0. pose proof PI_RGT_0. lra. Qed.
Lemma s2p_sq : s2p * s2p = 2 * PI. Proof. apply sqrt_sqrt. pose proof PI_RGT_0. lra. Qed.

Lemma pdf_gauss (x : R) : pdf x = gauss x / s2p. Proof. reflexivity. Qed.

Lemma cdf_gint (x : R) : cdf x = 1 / 2 + gint x / s2p.
Proof.
  unfold cdf. f_equal. unfold gint.
  replace (RInt gauss 0 x / s2p) with (scal (V := R_ModuleSpace) (/ s2p) (RInt gauss 0 x)) by (unfold scal; simpl; unfold mult; simpl; unfold Rdiv; ring).
  rewrite <- (RInt_scal (V := R_CompleteNormedModule)) by apply gauss_integrable.
  apply (RInt_ext (V := R_CompleteNormedModule)). intros t _. unfold scal; simpl; unfold mult; simpl. unfold pdf, gauss, Rdiv, s2p. ring.
Qed.

Lemma cdf_derive (x : R) : is_derive cdf x (pdf x).
Proof.
  apply (is_derive_ext (fun u => 1 / 2 + gint u / s2p)). { intros t. symmetry. apply cdf_gint. }
  rewrite pdf_gauss. pose proof s2p_pos.
  apply is_derive_Reals.
  pose proof (derivable_pt_lim_plus _ _ x _ _ (derivable_pt_lim_const (1 / 2) x) (derivable_pt_lim_scal _ (/ s2p) x _ (proj1 (is_derive_Reals _ _ _) (gint_derive x)))) as L.
  replace (0 + / s2p * gauss x) with (gauss x / s2p) in L by (unfold Rdiv; ring).
  intros e He. destruct (L e He) as [d D]. exists d. intros h Hh Hd. specialize (D h Hh Hd).
  unfold plus_fct, mult_real_fct, fct_cte in D. 
  replace (1 / 2 + gint (x + h) / s2p - (1 / 2 + gint x / s2p)) with (1 / 2 + / s2p * gint (x + h) - (1 / 2 + / s2p * gint x)) by (unfold Rdiv; ring).
  exact D.
Qed.

Lemma cdf_dlim (x : R) : derivable_pt_lim cdf x (pdf x).
Proof. apply is_derive_Reals. apply cdf_derive. Qed.

Lemma cdf_continuity : continuity cdf.
Proof. intros x. apply derivable_continuous_pt. exists (pdf x). apply cdf_dlim. Qed.

Lemma pdf_pos (x : R) : 0 < pdf x.
Proof. rewrite pdf_gauss. apply Rdiv_lt_0_compat; [apply gauss_pos | apply s2p_pos]. Qed.

Lemma pdf_even (x : R) : pdf (- x) = pdf x.
Proof. unfold pdf. f_equal. f_equal. field. Qed.

Lemma cdf_0 : cdf 0 = 1 / 2.
Proof. rewrite cdf_gint, gint_0. field. pose proof s2p_pos. lra. Qed.

Lemma cdf_sym (x : R) : cdf (- x) = 1 - cdf x.
Proof. rewrite !cdf_gint, gint_opp. field. pose proof s2p_pos. lra. Qed.

Lemma cdf_incr (x y : R) : x < y -> cdf x < cdf y.
Proof.
  intros L. destruct (MVT_cor2 cdf pdf x y L) as (c & E & _). { intros; apply cdf_dlim. }
  pose proof (pdf_pos c). assert (0 < pdf c * (y - x)) by (apply Rmult_lt_0_compat; lra). lra.
Qed.

Lemma cdf_le (x y : R) : x <= y -> cdf x <= cdf y.
Proof. intros [L | ->]; [left; apply cdf_incr; auto | right; auto]. Qed.

Lemma cdf_inj (x y : R) : cdf x = cdf y -> x = y.
Proof. intros E. destruct (Rtotal_order x y) as [L | [-> | L]]; auto; apply cdf_incr in L; lra. Qed.

(* (2 cdf - 1)^2 = 1 - 4/pi J *)
Lemma cdf_sq (x : R) : (2 * cdf x - 1) * (2 * cdf x - 1) = 1 - 4 / PI * jint x.
Proof.
  rewrite cdf_gint. pose proof s2p_pos. pose proof s2p_sq as S. pose proof PI_RGT_0. pose proof (gint_sq x) as G.
  replace ((2 * (1 / 2 + gint x / s2p) - 1) * (2 * (1 / 2 + gint x / s2p) - 1)) with (4 * (gint x * gint x) / (s2p * s2p)) by (field; lra).
  rewrite S. replace (gint x * gint x) with (PI / 2 - 2 * jint x) by lra. field. lra.
Qed.

Lemma cdf_lt_1 (x : R) : cdf x < 1.
Proof.
  pose proof (cdf_sq x) as S. pose proof (jint_pos x). pose proof PI_RGT_0.
  assert (0 < 4 / PI * jint x) by (apply Rmult_lt_0_compat; [apply Rdiv_lt_0_compat; lra | auto]).
  nra.
Qed.

Lemma cdf_gt_0 (x : R) : 0 < cdf x.
Proof. pose proof (cdf_lt_1 (- x)) as L. rewrite cdf_sym in L. lra. Qed.

Lemma gauss_small (e : R) : 0 < e -> exists M, 0 < M /\ forall x, M < x -> gauss x < e.
Proof.
  intros He. exists (Rmax 1 (2 * / e)). split. { pose proof (Rmax_l 1 (2 * / e)). lra. }
  intros x Hx. assert (1 < x) by (pose proof (Rmax_l 1 (2 * / e)); lra).
  assert (2 * / e < x) by (pose proof (Rmax_r 1 (2 * / e)); lra).
  unfold gauss. replace (- (x * x) / 2) with (- (x * x / 2)) by field. rewrite exp_Ropp.
  assert (E : x * x / 2 < exp (x * x / 2)) by (pose proof (exp_ineq1 (x * x / 2) ltac:(nra)); lra).
  assert (/ e < x * x / 2) by nra.
  rewrite <- (Rinv_inv e). apply Rinv_lt_contravar; [ | lra].
  apply Rmult_lt_0_compat; [apply Rinv_0_lt_compat; auto | apply exp_pos].
Qed.

Lemma cdf_near_1 (e : R) : 0 < e -> exists M, 0 < M /\ forall x, M < x -> 1 - e < cdf x.
Proof.
  intros He. destruct (gauss_small e He) as (M & HM & B). exists M. split; auto. intros x Hx. specialize (B x Hx).
  pose proof (cdf_sq x) as S. pose proof (jint_le x) as J. pose proof PI_RGT_0.
  assert (U : 4 / PI * jint x <= gauss x).
  { replace (gauss x) with (4 / PI * (gauss x * (PI / 4))) by (field; lra). apply Rmult_le_compat_l; auto. left; apply Rdiv_lt_0_compat; lra. }
  assert (1 / 2 < cdf x) by (rewrite <- cdf_0; apply cdf_incr; lra).
  pose proof (cdf_lt_1 x). nra.
Qed.

Lemma cdf_near_0 (e : R) : 0 < e -> exists M, 0 < M /\ forall x, x < - M -> cdf x < e.
Proof.
  intros He. destruct (cdf_near_1 e He) as (M & HM & B). exists M. split; auto. intros x Hx.
  specialize (B (- x) ltac:(lra)). rewrite cdf_sym in B. lra.
Qed.

Lemma cdf_onto (p : R) : 0 < p < 1 -> exists x, cdf x = p.
Proof.
  intros [P Q]. destruct (cdf_near_1 (1 - p) ltac:(lra)) as (M & HM & B). destruct (cdf_near_0 p P) as (N & HN & B').
  specialize (B (M + 1) ltac:(lra)). specialize (B' (- N - 1) ltac:(lra)).
  destruct (IVT_gen cdf (- N - 1) (M + 1) p cdf_continuity) as (x & _ & E).
  - split; [apply Rle_trans with (2 := Rlt_le _ _ B'); apply Rmin_l | ]; try (pose proof (Rmin_l (cdf (- N - 1)) (cdf (M + 1))); lra).
    pose proof (Rmax_r (cdf (- N - 1)) (cdf (M + 1))); lra.
  - exists x; exact E.
Qed.

Lemma ppf_cdf (x : R) : ppf (cdf x) = Some x.
Proof.
  unfold ppf. destruct (Rlt_dec 0 (cdf x)) as [A | A]; [ | exfalso; apply A, cdf_gt_0].
  destruct (Rlt_dec (cdf x) 1) as [B | B]; [ | exfalso; apply B, cdf_lt_1].
  f_equal. rewrite (is_lub_Rbar_unique _ (Finite x)); auto. split.
  - intros y Hy. simpl. destruct (Rle_or_lt y x) as [L | L]; auto. apply cdf_incr in L. lra.
  - intros b Hb. apply Hb. apply Rle_refl.
Qed.

Lemma ppf_spec (p z : R) : ppf p = Some z <-> cdf z = p.
Proof.
  split.
  - intros E. unfold ppf in E. destruct (Rlt_dec 0 p) as [A | A]; [ | discriminate]. destruct (Rlt_dec p 1) as [B | B]; [ | discriminate].
    destruct (cdf_onto p (conj A B)) as (x & X). pose proof (ppf_cdf x) as C. rewrite X in C. unfold ppf in C.
    destruct (Rlt_dec 0 p) as [A' | A']; [ | contradiction]. destruct (Rlt_dec p 1) as [B' | B']; [ | contradiction].
    assert (Z : z = x) by congruence. rewrite Z. exact X.
  - intros <-. apply ppf_cdf.
Qed.

Lemma ppf_none (p : R) : ppf p = None <-> ~ (0 < p < 1).
Proof.
  split.
  - intros E B. destruct (cdf_onto p B) as (x & X). apply ppf_spec in X. congruence.
  - intros B. unfold ppf. destruct (Rlt_dec 0 p) as [A | A]; auto. destruct (Rlt_dec p 1) as [A' | A']; auto. exfalso; auto.
Qed.

Lemma normal_distribution (x : R) :
  derivable_pt_lim cdf x (exp (- (x * x) / 2) / sqrt (2 * PI)) /\ 0 < cdf x < 1 /\
  (forall e, 0 < e -> exists M, forall y, y < M -> cdf y < e) /\ (forall e, 0 < e -> exists M, forall y, M < y -> 1 - e < cdf y).
Proof.
  split; [apply cdf_dlim | split; [split; [apply cdf_gt_0 | apply cdf_lt_1] | split]]; intros e He.
  - destruct (cdf_near_0 e He) as (M & _ & B). exists (- M). exact B.
  - destruct (cdf_near_1 e He) as (M & _ & B). exists M. exact B.
Qed.
