(* The inversion integrals: their integrands, and their values when the variance is zero *)
From Coq Require Import ZArith Reals String List Lra Psatz.
From Coquelicot Require Import Coquelicot.
From Verif Require Import Base NumModel CurveModel ChfModel ChfSpec CplxProofs ChfProofs RiccatiProofs PHestonPrice HestonInvSpec HestonInvProofs.
Import ListNotations.
Open Scope R_scope.

(* ---- C103: what the first pricer integrates, and what it does with the integrals ---- *)
Theorem C103_1993_integrand (p : params) (lambda_ S0 K phi : R) (m : nat) (c : C) : 0 < S0 -> 0 < K -> phi <> 0 -> chf_1993 p lambda_ (ln S0) m phi = Some c ->
  integrand_1993 p lambda_ S0 K m phi = Some ((cos (phi * ln K) * Im c - sin (phi * ln K) * Re c) / phi).
Proof.
  intros HS HK N H. unfold integrand_1993. rewrite !log_some by assumption. cbn [obind]. rewrite H. cbn [obind]. unfold cdiv.
  destruct Ceq_dec as [E|_]; [apply (f_equal snd) in E; cbn in E; lra|]. cbn [obind]. f_equal.
  replace (- Ci * phi * ln K)%C with (Ci * (- (phi * ln K))%R)%C by (apply c_eq; cbn; ring). rewrite cexp_turn, cos_neg, sin_neg. destruct c as [x y]. unfold Re, Im, Cdiv. cbn. field.
  repeat split; lra.
Qed.
Theorem C103_1993_integrand_at_zero (p : params) (lambda_ S0 K : R) (m : nat) : integrand_1993 p lambda_ S0 K m 0 = None.
Proof.
  unfold integrand_1993. destruct (log_of S0); [|reflexivity]. cbn [obind]. destruct (chf_1993 _ _ _ _ _); [|reflexivity]. cbn [obind]. destruct (log_of K); [|reflexivity]. cbn [obind]. unfold cdiv.
  destruct Ceq_dec as [_|E]; [reflexivity|]. exfalso. apply E. apply c_eq; cbn; ring.
Qed.
Theorem C103_1993_price (quad : quadrature) (p : params) (lambda_ S0 K i1 i2 : R) : quad (integrand_1993 p lambda_ S0 K 1) = Some i1 -> quad (integrand_1993 p lambda_ S0 K 2) = Some i2 ->
  price_1993 quad p lambda_ S0 1 K = Some (S0 * exp (- p_q p * p_tau p) * (1 / 2 + i1 / PI) - K * exp (- p_r p * p_tau p) * (1 / 2 + i2 / PI)).
Proof. intros A B. unfold price_1993. rewrite A, B. cbn [obind]. f_equal. field. apply PI_neq0. Qed.

(* ---- C152: when the variance is zero the prices are the discounted intrinsic values of the forward ---- *)
Theorem C152_heston_1993 (quad : quadrature) (cosine : params -> R -> R -> R -> result (list (option R))) (p : params) (lambda_ S0 cp K : R) :
  exact_quad quad -> cp = 1 \/ cp = -1 -> no_variance p -> steady (with_risk p lambda_) -> 0 < S0 -> 0 < K ->
  heston_price quad cosine p lambda_ S0 cp K "heston_1993" = Ok [Some (intrinsic p S0 cp K)].
Proof.
  intros Q Hc [V T] St HS HK. assert (N : p_kappa p + lambda_ <> 0) by (destruct St as [[A _] _]; cbn in A; lra). rewrite (C103_risk_price_used quad cosine p lambda_ S0 cp K N).
  unfold heston_price. cbn [String.eqb Ascii.eqb Bool.eqb bind]. rewrite (det_price_1993 quad (with_risk p lambda_) S0 cp K Q Hc); try assumption; [reflexivity|].
  split; cbn; [exact V|]. rewrite T. field. exact N.
Qed.
Theorem C152_lipton (quad : quadrature) (cosine : params -> R -> R -> R -> result (list (option R))) (p : params) (lambda_ S0 cp K : R) :
  exact_quad quad -> cp = 1 \/ cp = -1 -> no_variance p -> steady p -> 0 < S0 -> 0 < K ->
  heston_price quad cosine p lambda_ S0 cp K "heston_lipton" = Ok [Some (intrinsic p S0 cp K)].
Proof. intros Q Hc Hn St HS HK. unfold heston_price. cbn [String.eqb Ascii.eqb Bool.eqb bind]. rewrite (det_price_lipton quad p S0 cp K Q Hc Hn St HS HK). reflexivity. Qed.
Theorem C152_carr_madan (quad : quadrature) (cosine : params -> R -> R -> R -> result (list (option R))) (p : params) (lambda_ S0 cp K alpha : R) :
  exact_quad quad -> (cp = 1 /\ alpha = 3 / 4 \/ cp = -1 /\ alpha = 7 / 4) -> no_variance p -> 0 < p_vv p -> -1 <= p_rho p <= 1 -> p_rho p * p_vv p <= 2 * p_kappa p -> 0 <= p_tau p ->
  0 < p_kappa p - p_rho p * p_vv p * (cp * alpha + 1) -> 21 / 16 * p_vv p ^ 2 < (p_kappa p - p_rho p * p_vv p * (cp * alpha + 1)) ^ 2 -> 0 < S0 -> 0 < K ->
  heston_price quad cosine p lambda_ S0 cp K "heston_carr_madan_gauss_kronrod_quadrature" = Ok [Some (intrinsic p S0 cp K)].
Proof.
  intros Q A Hn E Rho Rk T K1 K2 HS HK. unfold heston_price. cbn [String.eqb Ascii.eqb Bool.eqb]. rewrite (det_price_carr_madan quad p S0 cp K alpha Q A Hn); try assumption; [reflexivity|].
  intros v. unfold strip. cbn [snd Cminus Cplus Copp RtoC Cmult Ci fst]. replace (- (0 + - ((cp * alpha + 1) * 1 + 0 * 0))) with (cp * alpha + 1) by ring. repeat split; try assumption; try apply Rho.
  replace ((cp * alpha + 1) ^ 2 - (cp * alpha + 1)) with (21 / 16); [lra|]. destruct A as [[-> ->]|[-> ->]]; lra.
Qed.

Definition all_theorems := (C103_1993_integrand, C103_1993_integrand_at_zero, C103_1993_price, C152_heston_1993, C152_lipton, C152_carr_madan).
Print Assumptions all_theorems.

(* ---- cases meeting the hypotheses ---- *)
(* there is an exact quadrature *)
Definition exact : quadrature := fun f => Some (RInt_gen (V := R_CompleteNormedModule) (fun x => match f x with Some y => y | None => 0 end) (at_right 0) (Rbar_locally p_infty)).
Lemma ex_exact : exact_quad exact.
Proof.
  intros f g l H I. unfold exact. f_equal. apply (is_RInt_gen_unique (V := R_CompleteNormedModule)). refine (is_RInt_gen_ext (V := R_NormedModule) g _ l _ I).
  exists (fun a => 0 < a) (fun b => 0 < b); [exists (mkposreal 1 Rlt_0_1); intros; assumption | exists 0; intros; assumption|].
  intros a b A B x X. cbn in X. rewrite H; [reflexivity|]. apply Rlt_trans with (Rmin a b); [apply Rmin_glb_lt; assumption | apply X].
Qed.
(* a year at 5% against 2%, mean reversion 3, volatility of variance 1/2, correlation -1/2; struck below, at and above the forward *)
Definition still : params := mk_params 1 (1/20) (1/50) 0 (1/2) 3 0 (-1/2).
Example C152_ex_in : forall cosine, heston_price exact cosine still 0 100 1 90 "heston_1993" = Ok [Some (exp (- (1 / 20) * 1) * Rmax 0 (1 * (100 * exp ((1 / 20 - 1 / 50) * 1) - 90)))].
Proof. intros cosine. apply (C152_heston_1993 exact cosine still 0 100 1 90 ex_exact); try lra; [split; reflexivity|]. unfold steady, regular, with_risk, still. cbn. lra. Qed.
Example C152_ex_lipton : forall cosine, heston_price exact cosine still (1/10) 100 (-1) 120 "heston_lipton" = Ok [Some (intrinsic still 100 (-1) 120)].
Proof. intros cosine. apply (C152_lipton exact cosine still (1/10) 100 (-1) 120 ex_exact); try lra; [split; reflexivity|]. unfold steady, regular, still. cbn. lra. Qed.
Example C152_ex_carr_madan : forall cosine, heston_price exact cosine still 0 100 (-1) 120 "heston_carr_madan_gauss_kronrod_quadrature" = Ok [Some (intrinsic still 100 (-1) 120)].
Proof. intros cosine. apply (C152_carr_madan exact cosine still 0 100 (-1) 120 (7/4) ex_exact); try (unfold still; cbn; lra). split; reflexivity. Qed.
Example C103_ex_1993 : exists c : C, chf_1993 ex_p 0 (ln 100) 2 2%R = Some c /\ integrand_1993 ex_p 0 100 90 2 2 = Some ((cos (2 * ln 90) * Im c - sin (2 * ln 90) * Re c) / 2).
Proof.
  destruct (C100_defined_and_bounded ex_p 2) as (z & Z & _); [exact ex_regular | cbn; lra ..|].
  assert (E : chf_1993 ex_p 0 (ln 100) 2 2%R = Some (cexp (Ci * 2%R * ln 100) * z)%C) by (rewrite C99_second_probability, C99_albrecher_is_fang, Z by (cbn; lra); reflexivity).
  eexists. split; [exact E|]. apply (C103_1993_integrand ex_p 0 100 90 2 2 _); try lra. exact E.
Qed.
