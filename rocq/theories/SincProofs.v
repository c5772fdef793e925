(* The integral of sin x / x and Laplace's integrals of cos (b x) / (1 + x^2) and x sin (b x) / (1 + x^2) *)
From Coq Require Import Reals Lra Psatz.
From Coquelicot Require Import Coquelicot.
Open Scope R_scope.

Lemma param_derive (f df : R -> R -> R) (a b x : R) :
  (forall y t : R, is_derive (fun u : R => f u t) y (df y t)) -> (forall y t : R, continuity_2d_pt df y t) -> (forall y : R, ex_RInt (f y) a b) ->
  is_derive (fun y : R => RInt (f y) a b) x (RInt (df x) a b).
Proof.
  intros D C E. rewrite (RInt_ext (df x) (fun t => Derive (fun u => f u t) x)) by (intros t _; symmetry; apply is_derive_unique; auto).
  apply (is_derive_RInt_param f a b x).
  - apply filter_forall. intros y t _. eexists. apply D.
  - intros t _. apply (continuity_2d_pt_ext df); [intros u v; symmetry; apply is_derive_unique; auto | apply C].
  - apply filter_forall. exact E.
Qed.

Ltac c2d :=
  repeat first
  [ apply continuity_2d_pt_mult | apply continuity_2d_pt_plus | apply continuity_2d_pt_minus | apply continuity_2d_pt_opp
  | apply continuity_2d_pt_id1 | apply continuity_2d_pt_id2 | apply continuity_2d_pt_const ].
Lemma c2d_comp (g : R -> R) (f : R -> R -> R) (x y : R) : continuous g (f x y) -> continuity_2d_pt f x y -> continuity_2d_pt (fun u v => g (f u v)) x y.
Proof. intros G F. apply (continuity_1d_2d_pt_comp g f); [apply continuity_pt_filterlim; exact G | exact F]. Qed.
Lemma cont_d (f : R -> R) (x l : R) : is_derive f x l -> continuous f x.
Proof. intros D. apply (ex_derive_continuous f). exists l. exact D. Qed.
Lemma cont_exp (x : R) : continuous exp x. Proof. apply (cont_d _ _ (exp x)). apply is_derive_exp. Qed.
Lemma cont_sin (x : R) : continuous sin x. Proof. apply (cont_d _ _ (cos x)). apply is_derive_sin. Qed.
Lemma cont_cos (x : R) : continuous cos x. Proof. apply (cont_d _ _ (- sin x)). apply is_derive_cos. Qed.
Lemma cont_inv (t : R) : continuous (fun u => / (1 + u * u)) t.
Proof. eapply cont_d. auto_derive; [nra | reflexivity]. Qed.

Lemma primitive (F f : R -> R) (a b l : R) : (forall x : R, Rmin a b <= x <= Rmax a b -> is_derive F x (f x)) -> (forall x : R, Rmin a b <= x <= Rmax a b -> continuous f x) ->
  F b - F a = l -> is_RInt f a b l.
Proof. intros D C <-. apply (is_RInt_derive (V := R_CompleteNormedModule) F f); assumption. Qed.

(* ---- sin x / x ---- *)
Section Sinc.
Definition g1 (x t : R) : R := exp (- (x * t)) * (cos x + t * sin x) * / (1 + t * t).
Definition dg1 (x t : R) : R := - sin x * exp (- (x * t)).
Lemma g1_derive (y t : R) : is_derive (fun u => g1 u t) y (dg1 y t).
Proof. unfold g1, dg1. auto_derive; [trivial | ]. field. nra. Qed.
Lemma dg1_cont (y t : R) : continuity_2d_pt dg1 y t.
Proof.
  unfold dg1. apply continuity_2d_pt_mult; [apply continuity_2d_pt_opp; apply (c2d_comp sin (fun u _ => u)); [apply cont_sin | c2d] | ].
  apply (c2d_comp exp (fun u v => - (u * v))); [apply cont_exp | c2d].
Qed.
Lemma g1_cont (x t : R) : continuous (g1 x) t.
Proof. unfold g1. eapply cont_d. auto_derive; [nra | reflexivity]. Qed.
Lemma g1_int (x a b : R) : ex_RInt (g1 x) a b. Proof. apply (ex_RInt_continuous (V := R_CompleteNormedModule)). intros t _. apply g1_cont. Qed.
Variable M : R.
Hypothesis HM : 0 < M.
Definition G (x : R) : R := RInt (g1 x) 0 M.
Lemma exp_int (x : R) : 0 < x -> is_RInt (dg1 x) 0 M (- (sin x / x * (1 - exp (- (x * M))))).
Proof.
  intros X. apply (primitive (fun t => sin x / x * exp (- (x * t)))); unfold dg1.
  - intros t _. auto_derive; [trivial | ]. field. lra.
  - intros t _. eapply cont_d. auto_derive; [trivial | reflexivity].
  - rewrite Rmult_0_r, Ropp_0, exp_0. field. lra.
Qed.
Lemma G_derive (x : R) : 0 < x -> is_derive G x (- (sin x / x * (1 - exp (- (x * M))))).
Proof.
  intros X. rewrite <- (is_RInt_unique _ _ _ _ (exp_int x X)). apply (param_derive g1 dg1 0 M x g1_derive dg1_cont). intros y. apply g1_int.
Qed.
Lemma G_cont0 : continuous G 0.
Proof. eapply cont_d. apply (param_derive g1 dg1 0 M 0 g1_derive dg1_cont). intros y. apply g1_int. Qed.
Lemma atan_int (a b : R) : is_RInt (fun t => / (1 + t * t)) a b (atan b - atan a).
Proof.
  apply (primitive atan); [ | intros t _; apply cont_inv | reflexivity].
  intros t _. evar_last; [apply is_derive_atan | ]. unfold Rsqr. reflexivity.
Qed.
Lemma G_0 : G 0 = atan M.
Proof.
  unfold G. apply is_RInt_unique. replace (atan M) with (atan M - atan 0) by (rewrite atan_0; ring). apply (is_RInt_ext (fun t => / (1 + t * t))); [ | apply atan_int].
  intros t _. cbv beta. match goal with |- ?a = ?b => change (@eq R a b) end. unfold g1. rewrite Rmult_0_l, Ropp_0, exp_0, cos_0, sin_0. ring.
Qed.
Lemma exp_scaled (k c : R) : 0 < c -> is_RInt (fun t => k * exp (- (c * t))) 0 M (k / c * (1 - exp (- (c * M)))).
Proof.
  intros X. apply (primitive (fun t => - (k / c) * exp (- (c * t)))).
  - intros t _. auto_derive; [trivial | ]. field. lra.
  - intros t _. eapply cont_d. auto_derive; [trivial | reflexivity].
  - rewrite Rmult_0_r, Ropp_0, exp_0. field. lra.
Qed.
Lemma G_bound (x : R) : 0 < x -> Rabs (G x) <= 2 / x.
Proof.
  intros X. pose proof (exp_scaled 2 x X) as I. assert (B : forall t, 0 <= t <= M -> Rabs (g1 x t) <= 2 * exp (- (x * t))).
  { intros t T. unfold g1. rewrite !Rabs_mult, (Rabs_pos_eq (exp _)) by (left; apply exp_pos). rewrite (Rabs_pos_eq (/ _)) by (left; apply Rinv_0_lt_compat; nra).
    rewrite (Rmult_comm 2). rewrite Rmult_assoc. apply Rmult_le_compat_l; [left; apply exp_pos | ].
    apply Rle_div_l with (c := 1 + t * t); [nra | ]. apply Rle_trans with (1 + t); [ | nra].
    apply Rle_trans with (1 := Rabs_triang _ _). rewrite Rabs_mult, (Rabs_pos_eq t) by lra. pose proof (COS_bound x). pose proof (SIN_bound x).
    assert (Rabs (cos x) <= 1) by (apply Rabs_le; lra). assert (Rabs (sin x) <= 1) by (apply Rabs_le; lra). nra. }
  apply Rle_trans with (2 / x * (1 - exp (- (x * M)))).
  - unfold G. apply (norm_RInt_le (V := R_NormedModule) (g1 x) (fun t => 2 * exp (- (x * t))) 0 M); [lra | exact B | apply (RInt_correct (V := R_CompleteNormedModule)); apply g1_int | exact I].
  - pose proof (exp_pos (- (x * M))). assert (0 < 2 / x) by (apply Rdiv_lt_0_compat; lra). nra.
Qed.
Lemma sinc_cont (x : R) : 0 < x -> continuous (fun y => sin y / y) x.
Proof. intros X. eapply cont_d. auto_derive; [lra | reflexivity]. Qed.
Lemma near_G (e T : R) : 0 < e -> e <= T -> Rabs (RInt (fun y => sin y / y) e T - (G e - G T)) <= / M.
Proof.
  intros E L. assert (I : is_RInt (fun x => sin x / x * (1 - exp (- (x * M)))) e T (G e - G T)).
  { apply (primitive (fun x => - G x)); [ | | ring].
    - intros x X. rewrite Rmin_left, Rmax_right in X by lra. evar_last; [apply (is_derive_opp (K := R_AbsRing) (V := R_NormedModule)); apply G_derive; lra | cbn; ring].
    - intros x X. rewrite Rmin_left, Rmax_right in X by lra. eapply cont_d. auto_derive; [lra | reflexivity]. }
  assert (S : ex_RInt (fun y => sin y / y) e T).
  { apply (ex_RInt_continuous (V := R_CompleteNormedModule)). intros x X. rewrite Rmin_left, Rmax_right in X by lra. apply sinc_cont. lra. }
  pose proof (is_RInt_minus (V := R_NormedModule) _ _ _ _ _ _ (RInt_correct (V := R_CompleteNormedModule) _ _ _ S) I) as D.
  assert (X : is_RInt (fun x => exp (- (x * M))) e T (/ M * (exp (- (e * M)) - exp (- (T * M))))).
  { apply (primitive (fun x => - / M * exp (- (x * M)))); [ | | ring]; intros x _; [auto_derive; [trivial | field; lra] | eapply cont_d; auto_derive; [trivial | reflexivity]]. }
  apply Rle_trans with (/ M * (exp (- (e * M)) - exp (- (T * M)))).
  - eapply (norm_RInt_le (V := R_NormedModule)); [exact L | | exact D | exact X].
    intros x [X1 X2]. unfold minus, plus, opp. cbn. match goal with |- Rabs ?z <= _ => replace z with (sin x / x * exp (- (x * M))) by ring end.
    rewrite Rabs_mult, (Rabs_pos_eq (exp _)) by (left; apply exp_pos). rewrite <- (Rmult_1_l (exp (- (x * M)))) at 2.
    apply Rmult_le_compat_r; [left; apply exp_pos | ]. rewrite Rabs_div by lra. rewrite (Rabs_pos_eq x) by lra. apply Rle_div_l; [lra | ]. rewrite Rmult_1_l.
    destruct (Rle_dec x 1) as [Q | Q].
    + rewrite Rabs_pos_eq; [left; apply sin_lt_x; lra | ]. apply sin_ge_0; [lra | ]. pose proof PI_4. pose proof PI2_3_2. unfold PI2 in *. lra.
    + pose proof (SIN_bound x). apply Rle_trans with 1; [apply Rabs_le; lra | lra].
  - pose proof (exp_pos (- (T * M))). assert (exp (- (e * M)) <= 1) by (rewrite <- exp_0; destruct (Req_dec (e * M) 0) as [-> | ]; [right; f_equal; ring | left; apply exp_increasing; nra]).
    assert (0 < / M) by (apply Rinv_0_lt_compat; lra). nra.
Qed.
End Sinc.

Lemma gen_intro (f : R -> R) (I : R -> R -> R) (l : R) : (forall e T : R, 0 < e -> e <= T -> is_RInt f e T (I e T)) ->
  (forall eps : R, 0 < eps -> exists d B : R, 0 < d /\ forall e T : R, 0 < e -> e < d -> B < T -> Rabs (I e T - l) < eps) ->
  is_RInt_gen f (at_right 0) (Rbar_locally p_infty) l.
Proof.
  intros HI HL P [eps HP]. destruct (HL eps (cond_pos eps)) as (d & B & D & H). exists (fun e => 0 < e < Rmin d 1) (fun T => Rmax B 1 < T).
  - assert (Q : 0 < Rmin d 1) by (apply Rmin_pos; lra). exists (mkposreal _ Q). intros e E E0. unfold ball in E. cbn in E. unfold AbsRing_ball, abs, minus, plus, opp in E. cbn in E.
    rewrite Ropp_0, Rplus_0_r, Rabs_pos_eq in E by lra. split; lra.
  - exists (Rmax B 1). trivial.
  - intros e T [E1 E2] HT. pose proof (Rmin_l d 1). pose proof (Rmin_r d 1). pose proof (Rmax_l B 1). pose proof (Rmax_r B 1). cbn. exists (I e T). split; [apply HI; lra | ].
    apply HP. unfold ball. cbn. unfold AbsRing_ball, abs, minus, plus, opp. cbn. apply H; lra.
Qed.

Lemma atan_near (d : R) : 0 < d -> exists M : R, 0 < M /\ / M < d /\ Rabs (atan M - PI / 2) < d.
Proof.
  intros D. set (c := Rmin d (PI / 4)). assert (PI0 : 0 < PI) by apply PI_RGT_0. assert (C : 0 < c <= PI / 4) by (unfold c; split; [apply Rmin_pos; lra | apply Rmin_r]). assert (Cd : c <= d) by apply Rmin_l.
  set (m := tan (PI / 2 - c / 2)). assert (A : atan m = PI / 2 - c / 2) by (unfold m; apply atan_tan; lra).
  set (M := Rmax m (2 / d)). exists M. assert (0 < 2 / d) by (apply Rdiv_lt_0_compat; lra). assert (P : 0 < M) by (unfold M; pose proof (Rmax_r m (2 / d)); lra).
  split; [exact P | ]. split.
  - apply Rle_lt_trans with (/ (2 / d)); [apply Rinv_le_contravar; [lra | apply Rmax_r] | ]. replace (/ (2 / d)) with (d / 2) by (field; lra). lra.
  - pose proof (atan_bound M). assert (atan m <= atan M) by (destruct (Rmax_l m (2 / d)) as [L | ->]; [left; apply atan_increasing; exact L | fold M; right; reflexivity]).
    rewrite Rabs_left by lra. lra.
Qed.
Lemma sinc_int (a b : R) : 0 < a -> a <= b -> is_RInt (fun y => sin y / y) a b (RInt (fun y => sin y / y) a b).
Proof.
  intros A B. apply (RInt_correct (V := R_CompleteNormedModule)), (ex_RInt_continuous (V := R_CompleteNormedModule)). intros x X. rewrite Rmin_left, Rmax_right in X by lra. apply sinc_cont. lra.
Qed.
Lemma sinc_le_1 (x : R) : 0 < x -> Rabs (sin x / x) <= 1.
Proof.
  intros X. rewrite Rabs_div by lra. rewrite (Rabs_pos_eq x) by lra. apply Rle_div_l; [lra | ]. rewrite Rmult_1_l. destruct (Rle_dec x 1) as [Q | Q].
  - rewrite Rabs_pos_eq; [left; apply sin_lt_x; lra | ]. apply sin_ge_0; [lra | ]. pose proof PI2_3_2. unfold PI2 in *. lra.
  - pose proof (SIN_bound x). apply Rle_trans with 1; [apply Rabs_le; lra | lra].
Qed.
Lemma dirichlet_bound (e T : R) : 0 < e -> e <= T -> Rabs (RInt (fun y => sin y / y) e T - PI / 2) <= 2 / T + e.
Proof.
  intros E L. apply le_epsilon. intros d D. destruct (atan_near (d / 3)) as (M & M0 & M1 & M2); [lra | ].
  destruct (proj1 (filterlim_locally (G M) (G M 0)) (G_cont0 M) (mkposreal (d / 3) ltac:(lra))) as [r Hr].
  set (x := Rmin e (r / 2)). pose proof (cond_pos r) as R0. assert (X0 : 0 < x) by (unfold x; apply Rmin_pos; lra). assert (X1 : x <= e) by apply Rmin_l. assert (X2 : x <= r / 2) by apply Rmin_r.
  assert (GX : Rabs (G M x - atan M) < d / 3).
  { rewrite <- (G_0 M). specialize (Hr x). unfold ball in Hr. cbn in Hr. unfold AbsRing_ball, abs, minus, plus, opp in Hr. cbn in Hr. apply Hr. rewrite Ropp_0, Rplus_0_r, Rabs_pos_eq by lra. lra. }
  pose proof (near_G M M0 x T X0 ltac:(lra)) as N. pose proof (G_bound M M0 T ltac:(lra)) as B.
  pose proof (RInt_Chasles (V := R_CompleteNormedModule) (fun y => sin y / y) x e T (ex_intro _ _ (sinc_int x e X0 X1)) (ex_intro _ _ (sinc_int e T E L))) as C. change plus with Rplus in C.
  assert (S : Rabs (RInt (fun y => sin y / y) x e) <= e).
  { apply Rle_trans with ((e - x) * 1); [ | lra]. apply (norm_RInt_le_const (V := R_NormedModule) (fun y => sin y / y) x e); [lra | | apply sinc_int; lra]. intros y Y. apply sinc_le_1. lra. }
  revert GX M2 N B S C. generalize (RInt (fun y => sin y / y) x e) (RInt (fun y => sin y / y) e T) (RInt (fun y => sin y / y) x T) (G M x) (G M T) (atan M) (PI / 2). intros a b c g h k q.
  intros GX M2 N B S C. apply Rabs_def2 in GX, M2. apply Rabs_le_between in N, B, S. apply Rabs_le. change (a + b = c) in C. lra.
Qed.
Lemma dirichlet : is_RInt_gen (fun y => sin y / y) (at_right 0) (Rbar_locally p_infty) (PI / 2).
Proof.
  apply (gen_intro _ (fun e T => RInt (fun y => sin y / y) e T)); [apply sinc_int | ].
  intros eps P. exists (Rmin (eps / 2) 1), (Rmax 1 (4 / eps)). split; [apply Rmin_pos; lra | ]. intros e T E1 E2 HT. pose proof (Rmax_l 1 (4 / eps)). pose proof (Rmax_r 1 (4 / eps)).
  pose proof (Rmin_l (eps / 2) 1). pose proof (Rmin_r (eps / 2) 1). assert (Q : 0 < 4 / eps) by (apply Rdiv_lt_0_compat; lra).
  apply Rle_lt_trans with (1 := dirichlet_bound e T E1 ltac:(lra)). assert (2 / T < eps / 2); [ | lra]. apply Rlt_div_l; [lra | ].
  assert (4 < T * eps) by (apply Rlt_div_l; lra). lra.
Qed.
