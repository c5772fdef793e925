(* Heston characteristic functions and integral prices *)
From Coq Require Import ZArith Reals String List Lra Lia Psatz FunctionalExtensionality.
From Coquelicot Require Import Coquelicot.
From Verif Require Import Base NumModel CurveModel MonteModel MonteSpec MonteProofs ChfModel ChfSpec CplxProofs ChfProofs RiccatiProofs RiccatiUniqueProofs HestonPriceProofs LiptonProofs.
Import ListNotations.
Open Scope R_scope.

(* ---- C63: the weights ---- *)
Theorem C63_weights_of_even_length (h : nat) : List.length (get_simpson_weights (2 * Z.of_nat h + 2)) = (2 * h + 2)%nat.
Proof. exact (weights_length_even h). Qed.
Theorem C63_weights_of_odd_length (n : Z) : get_simpson_weights (2 * n + 1) = get_simpson_weights (2 * n).
Proof. exact (weights_odd n). Qed.
Theorem C63_short_weights (n : Z) : (n < 4)%Z -> get_simpson_weights n = [1 / 3; 1 / 3].
Proof. exact (weights_short n). Qed.
(* Simpson's rule over all but the last interval, plus two thirds of the trapezium over the last one *)
Theorem C63_weighted_sum (h : nat) (f : nat -> R) :
  total (2 * h + 2) (fun i => nth i (get_simpson_weights (2 * Z.of_nat h + 2)) 0 * f i) = simpson h f + 2 / 3 * ((f (2 * h)%nat + f (2 * h + 1)%nat) / 2).
Proof. rewrite weighted_sum. lra. Qed.
Theorem C63_constants_not_integrated (h : nat) : total (2 * h + 2) (fun i => nth i (get_simpson_weights (2 * Z.of_nat h + 2)) 0 * 1) = INR (2 * h + 2) - 4 / 3.
Proof.
  rewrite (weighted_sum h (fun _ => 1)). unfold simpson. rewrite (total_ext h _ (fun _ => 2)) by (intros; lra).
  rewrite total_const, plus_INR, mult_INR. cbn [INR]. lra.
Qed.

(* ---- C99: the three implementations are one function ---- *)
Theorem C99_albrecher_is_fang (p : params) (s : R) (u : C) : 0 <= p_var0 p ->
  chf_albrecher p s u = match chf_fang p u with Some z => Some (cexp (Ci * u * s) * z)%C | None => None end.
Proof. intros V. exact (fang_albrecher p s u V). Qed.
Theorem C99_second_probability (p : params) (s : R) (u : C) : 0 <= p_var0 p -> chf_1993 p 0 s 2 u = chf_albrecher p s u.
Proof. exact (second_1993 p s u). Qed.
(* the first probability: the same function under the share measure *)
Theorem C99_first_probability (p : params) (s : R) (u : C) : 0 <= p_var0 p ->
  chf_albrecher p s (u - Ci)%C = match chf_1993 p 0 s 1 u with Some z => Some (exp (s + (p_r p - p_q p) * p_tau p) * z)%C | None => None end.
Proof. intros V. exact (first_1993 p s u V). Qed.
Theorem C99_price_of_volatility_risk (p : params) (lambda_ s : R) (u : C) : 0 <= p_var0 p -> p_kappa p + lambda_ <> 0 ->
  chf_1993 p lambda_ s 2 u = chf_albrecher (with_risk p lambda_) s u.
Proof. exact (risk_1993 p lambda_ s u). Qed.

(* ---- C100: it behaves as a characteristic function of a forward-consistent law ---- *)
Theorem C100_at_zero (p : params) : chf_fang p 0 = if Rlt_dec 0 (p_kappa p) then (if Req_EM_T (p_vv p) 0 then None else Some (RtoC 1)) else None.
Proof. exact (fang_at_zero p). Qed.
Theorem C100_forward (p : params) (S0 : R) : 0 <= p_var0 p -> 0 < S0 ->
  chf_albrecher p (ln S0) (- Ci)%C = if Rlt_dec (p_rho p * p_vv p) (p_kappa p) then (if Req_EM_T (p_vv p) 0 then None else Some (RtoC (S0 * exp ((p_r p - p_q p) * p_tau p)))) else None.
Proof.
  intros V P. rewrite albrecher_forward by exact V. destruct Rlt_dec; [|reflexivity]. destruct Req_EM_T; [reflexivity|]. do 2 f_equal. rewrite exp_plus, exp_ln by exact P. reflexivity.
Qed.
Theorem C100_defined_and_bounded (p : params) (u : R) : regular p -> 0 <= p_tau p -> 0 <= p_theta p -> 0 <= p_var0 p ->
  exists z : C, chf_fang p u = Some z /\ Cmod z <= 1 /\ chf_fang p (- u)%R = Some (Cconj z).
Proof.
  intros Reg T Th V. pose proof (regular_strip p u Reg) as Str. destruct (chf_defined p u Str T) as [z Z]. exists z. split; [exact Z|]. split; [exact (chf_bounded p u z Reg T Th V Z)|].
  pose proof (chf_conj p u z Str T Z) as Q. rewrite conj_real in Q. rewrite RtoC_opp. exact Q.
Qed.
(* off the real line *)
Theorem C100_defined_on_strip (p : params) (u : C) : strip p u -> 0 <= p_tau p ->
  exists z : C, chf_fang p u = Some z /\ chf_fang p (- Cconj u)%C = Some (Cconj z).
Proof. intros Str T. destruct (chf_defined p u Str T) as [z Z]. exists z. split; [exact Z | exact (chf_conj p u z Str T Z)]. Qed.

(* ---- C101: it solves Heston's equations ---- *)
Theorem C101_solution_exists (p : params) (u : C) : strip p u -> exists A B : R -> C, riccati p u A B.
Proof. intros Reg. eexists. eexists. exact (riccati_solved p u Reg). Qed.
Theorem C101_solution_unique (p : params) (u : C) (A B A' B' : R -> C) : riccati p u A B -> riccati p u A' B' -> forall t : R, 0 <= t -> A t = A' t /\ B t = B' t.
Proof. exact (riccati_unique p u A B A' B'). Qed.
Theorem C101_chf_is_solution (p : params) (u : C) (A B : R -> C) : strip p u -> riccati p u A B ->
  forall t : R, 0 <= t -> chf_fang (with_tau p t) u = Some (cexp (Ci * u * ((p_r p - p_q p) * t)%R + A t + p_var0 p * B t)%C).
Proof. exact (chf_from_solution p u A B). Qed.
(* the same for the function used by the Carr-Madan prices *)
Theorem C101_albrecher_is_solution (p : params) (u : C) (s : R) (A B : R -> C) : strip p u -> 0 <= p_var0 p -> riccati p u A B ->
  forall t : R, 0 <= t -> chf_albrecher (with_tau p t) s u = Some (cexp (Ci * u * (s + (p_r p - p_q p) * t)%R + A t + p_var0 p * B t)%C).
Proof.
  intros Reg V Ric t T. rewrite (fang_albrecher (with_tau p t) s u V), (chf_from_solution p u A B Reg Ric t T). cbn [obind]. f_equal. rewrite <- cexp_add. f_equal.
  rewrite !RtoC_plus, !RtoC_mult. ring.
Qed.
(* real arguments are covered for regular parameters *)
Theorem C101_real_arguments (p : params) (u : R) : regular p <-> 0 < p_kappa p /\ strip p u.
Proof. split; [intros H; split; [apply H | exact (regular_strip p u H)] | intros (H & H1 & H2 & H3 & _); repeat split; assumption || apply H2]. Qed.

(* ---- C102: Lipton's integrand ---- *)
Theorem C102_lipton_agrees_iff (p : params) (v : R) : regular p -> 0 < p_tau p -> 0 < v ->
  ((forall S0 K var0 : R, 0 < S0 -> 0 < K -> 0 <= var0 -> integrand_lipton (with_var0 p var0) S0 K v = lipton_target (with_var0 p var0) S0 K v) <-> p_rho p = 0 \/ v = p_kappa p).
Proof. exact (lipton_iff p v). Qed.
Theorem C102_uncorrelated (p : params) (S0 K v : R) : p_rho p = 0 -> 0 < S0 -> 0 < K -> integrand_lipton p S0 K v = lipton_target p S0 K v.
Proof. intros Z HS HK. rewrite lipton_code, lipton_right by assumption. f_equal. rewrite w_code, w_line, Z. f_equal. ring. Qed.

(* ---- C103: prices ---- *)
Theorem C103_parity_1993 (quad : quadrature) (p : params) (lambda_ S0 K c : R) :
  price_1993 quad p lambda_ S0 1 K = Some c -> price_1993 quad p lambda_ S0 (-1) K = Some (c - S0 * exp (- p_q p * p_tau p) + K * exp (- p_r p * p_tau p)).
Proof. exact (parity_1993 quad p lambda_ S0 K c). Qed.
(* anything but a call is priced as a put *)
Theorem C103_parity_lipton (quad : quadrature) (p : params) (S0 K c cp : R) : cp <> 1 ->
  price_lipton quad p S0 1 K = Some c -> price_lipton quad p S0 cp K = Some (c - S0 * exp (- p_q p * p_tau p) + K * exp (- p_r p * p_tau p)).
Proof. exact (parity_lipton quad p S0 K c cp). Qed.
Theorem C103_carr_madan_rejects (quad : quadrature) (p : params) (S0 cp K : R) (method : Z) :
  (cp <> 1 /\ cp <> -1 -> price_carr_madan quad p S0 cp K method = Err ValueError)
  /\ (cp = 1 \/ cp = -1 -> (method <> 0 /\ method <> 1)%Z -> price_carr_madan quad p S0 cp K method = Err NameError).
Proof. exact (carr_madan_rejects quad p S0 cp K method). Qed.
(* at a grid strike the transform price is the weighted sum of the integrand that the quadrature price integrates *)
Theorem C103_transform_is_sum (quad : quadrature) (p : params) (S0 cp K alpha : R) (j : nat) (f : nat -> R) :
  (cp = 1 /\ alpha = 3 / 4 \/ cp = -1 /\ alpha = 7 / 4) -> 0 < S0 -> 0 < K -> (Z.of_nat j < 1024)%Z -> ln K = - (4 * PI) + PI / 128 * INR j ->
  (forall m : nat, (Z.of_nat m < 1024)%Z -> integrand_fft p cp (ln S0) (ln K) alpha (INR m / 4) = Some (f m)) ->
  price_carr_madan quad p S0 cp K 1 = Ok (Some (exp (- cp * ln K * alpha) / PI * (1 / 4 * (simpson (Z.to_nat 511) f + 2 / 3 * ((f (Z.to_nat 1022) + f (Z.to_nat 1023)) / 2))))).
Proof.
  intros H1 H2 H3 H4 H5 H6. rewrite (fft_price quad p S0 cp K alpha j f H1 H2 H3 H4); [|rewrite H5; unfold fft_k, fft_b, fft_lambda, fft_points, fft_eta; field|].
  - do 2 f_equal. unfold fft_eta. lra.
  - intros m M. rewrite <- (H6 m M). f_equal. unfold fft_v, fft_eta. lra.
Qed.
(* for these parameters the hypothesis on the integrand always holds *)
Theorem C103_integrand_defined (p : params) (cp S0 K alpha : R) :
  (cp = 1 /\ alpha = 3 / 4 \/ cp = -1 /\ alpha = 7 / 4) -> 0 < p_vv p -> -1 <= p_rho p <= 1 -> p_rho p * p_vv p <= 2 * p_kappa p -> 0 <= p_tau p -> 0 <= p_var0 p ->
  0 < p_kappa p - p_rho p * p_vv p * (cp * alpha + 1) -> 21 / 16 * p_vv p ^ 2 < (p_kappa p - p_rho p * p_vv p * (cp * alpha + 1)) ^ 2 ->
  exists f : R -> R, forall v : R, integrand_fft p cp (ln S0) (ln K) alpha v = Some (f v).
Proof.
  intros A E Rho Rk T V K1 K2. apply (fft_defined p cp (ln S0) (ln K) alpha A V T). intros v. unfold strip. cbn [snd Cminus Cplus Copp RtoC Cmult Ci fst].
  replace (- (0 + - ((cp * alpha + 1) * 1 + 0 * 0))) with (cp * alpha + 1) by ring. repeat split; try assumption; try apply Rho.
  replace ((cp * alpha + 1) ^ 2 - (cp * alpha + 1)) with (21 / 16); [lra|]. destruct A as [[-> ->]|[-> ->]]; lra.
Qed.
Theorem C103_quadrature_price (quad : quadrature) (p : params) (S0 cp K alpha i : R) :
  (cp = 1 /\ alpha = 3 / 4 \/ cp = -1 /\ alpha = 7 / 4) -> 0 < S0 -> 0 < K -> quad (integrand_fft p cp (ln S0) (ln K) alpha) = Some i ->
  price_carr_madan quad p S0 cp K 0 = Ok (Some (exp (- cp * ln K * alpha) / PI * i)).
Proof.
  intros A HS HK Q. unfold price_carr_madan. assert (L : forall x : R, 0 < x -> log_of x = Some (ln x)) by (intros x P; unfold log_of; destruct Rlt_dec; [reflexivity|contradiction]). rewrite !L by assumption.
  assert (E : (let* alpha0 := if Req_EM_T cp 1 then Ok (3 / 4) else if Req_EM_T cp (-1) then Ok (7 / 4) else Err ValueError in Ok alpha0) = Ok alpha).
  { destruct A as [[-> ->]|[-> ->]]; destruct Req_EM_T; try lra; try reflexivity. destruct Req_EM_T; [reflexivity|lra]. }
  destruct (if Req_EM_T cp 1 then Ok (3 / 4) else if Req_EM_T cp (-1) then Ok (7 / 4) else Err ValueError) as [a|]; cbn in E; [|discriminate]. injection E as ->. cbn [bind Z.eqb]. rewrite Q. cbn [obind]. do 2 f_equal. field. apply PI_neq0.
Qed.
Theorem C103_unknown_method (quad : quadrature) (cosine : params -> R -> R -> R -> result (list (option R))) (p : params) (lambda_ S0 cp K : R) (method : string) :
  ~ In method ["heston_cosine"; "heston_1993"; "heston_carr_madan_gauss_kronrod_quadrature"; "heston_carr_madan_fft_w_simpsons"; "heston_lipton"]%string ->
  heston_price quad cosine p lambda_ S0 cp K method = Err ValueError.
Proof.
  intros N. unfold heston_price. repeat (destruct String.eqb eqn:E; [apply String.eqb_eq in E; subst method; exfalso; apply N; cbn; tauto|]; clear E). reflexivity.
Qed.
(* the market price of volatility risk only matters to one of the methods *)
Theorem C103_risk_price_ignored (quad : quadrature) (cosine : params -> R -> R -> R -> result (list (option R))) (p : params) (lambda_ S0 cp K : R) (method : string) :
  method <> "heston_1993"%string -> heston_price quad cosine p lambda_ S0 cp K method = heston_price quad cosine p 0 S0 cp K method.
Proof. intros N. unfold heston_price. destruct (String.eqb method "heston_cosine"); [reflexivity|]. destruct (String.eqb_spec method "heston_1993"); [contradiction|]. reflexivity. Qed.
Theorem C103_risk_price_used (quad : quadrature) (cosine : params -> R -> R -> R -> result (list (option R))) (p : params) (lambda_ S0 cp K : R) : p_kappa p + lambda_ <> 0 ->
  heston_price quad cosine p lambda_ S0 cp K "heston_1993" = heston_price quad cosine (with_risk p lambda_) 0 S0 cp K "heston_1993".
Proof.
  intros N. assert (C : forall (s : R) (m : nat) (u : C), chf_1993 p lambda_ s m u = chf_1993 (with_risk p lambda_) 0 s m u).
  { intros s m u. unfold chf_1993, with_risk. cbn [p_tau p_r p_q p_var0 p_vv p_kappa p_theta p_rho]. replace ((p_kappa p + lambda_) * (p_kappa p * p_theta p / (p_kappa p + lambda_))) with (p_kappa p * p_theta p) by (field; exact N). rewrite Rplus_0_r. reflexivity. }
  assert (I : forall m : nat, integrand_1993 p lambda_ S0 K m = integrand_1993 (with_risk p lambda_) 0 S0 K m).
  { intros m. apply functional_extensionality. intros phi. unfold integrand_1993. destruct (log_of S0) as [x|]; [|reflexivity]. cbn [obind]. rewrite C. reflexivity. }
  unfold heston_price. cbn [String.eqb Ascii.eqb Bool.eqb]. unfold price_1993. rewrite !I. reflexivity.
Qed.

Definition all_theorems := (C63_weights_of_even_length, C63_weights_of_odd_length, C63_short_weights, C63_weighted_sum, C63_constants_not_integrated,
  C99_albrecher_is_fang, C99_second_probability, C99_first_probability, C99_price_of_volatility_risk, C100_at_zero, C100_forward, C100_defined_and_bounded, C100_defined_on_strip,
  C101_solution_exists, C101_solution_unique, C101_chf_is_solution, C101_albrecher_is_solution, C101_real_arguments, C102_lipton_agrees_iff, C102_uncorrelated,
  C103_parity_1993, C103_parity_lipton, C103_carr_madan_rejects, C103_transform_is_sum, C103_integrand_defined, C103_quadrature_price, C103_unknown_method, C103_risk_price_ignored, C103_risk_price_used).
Print Assumptions all_theorems.

(* ---- cases meeting the hypotheses ---- *)
Definition ex_p : params := mk_params 1 (1/20) (1/50) (1/25) (1/2) (3/2) (1/25) (-1/2).
Lemma ex_regular : regular ex_p. Proof. unfold regular, ex_p; cbn; lra. Qed.
Example C63_ex : get_simpson_weights 6 = [1 / 3; 4 / 3; 2 / 3; 4 / 3; 2 / 3; 1 / 3]. Proof. reflexivity. Qed.
Example C100_ex : exists z : C, chf_fang ex_p 2%R = Some z /\ Cmod z <= 1 /\ chf_fang ex_p (- (2))%R = Some (Cconj z).
Proof. apply (C100_defined_and_bounded ex_p 2); [exact ex_regular | cbn; lra ..]. Qed.
Example C100_ex_forward : chf_albrecher ex_p (ln 100) (- Ci)%C = Some (RtoC (100 * exp ((1/20 - 1/50) * 1))).
Proof. rewrite C100_forward by (cbn; lra). cbn. destruct Rlt_dec; [|lra]. destruct Req_EM_T; [lra|reflexivity]. Qed.
Example C101_ex : exists A B : R -> C, riccati ex_p 2%R A B /\ chf_fang ex_p 2%R = Some (cexp (Ci * 2%R * ((1/20 - 1/50) * 1)%R + A 1 + (1/25)%R * B 1)%C).
Proof.
  destruct (C101_solution_exists ex_p 2 (regular_strip ex_p 2 ex_regular)) as (A & B & H). exists A, B. split; [exact H|]. exact (C101_chf_is_solution ex_p 2 A B (regular_strip ex_p 2 ex_regular) H 1 ltac:(lra)).
Qed.
(* with correlation -1/2 and mean reversion 3/2 the integrand is wrong at v = 1 *)
Example C102_ex : exists S0 K var0 : R, 0 < S0 /\ 0 < K /\ 0 <= var0 /\ integrand_lipton (with_var0 ex_p var0) S0 K 1 <> lipton_target (with_var0 ex_p var0) S0 K 1.
Proof.
  destruct (Classical_Prop.classic (exists S0 K var0 : R, 0 < S0 /\ 0 < K /\ 0 <= var0 /\ integrand_lipton (with_var0 ex_p var0) S0 K 1 <> lipton_target (with_var0 ex_p var0) S0 K 1)) as [H|H]; [exact H|]. exfalso.
  assert (Q : p_rho ex_p = 0 \/ 1 = p_kappa ex_p).
  { apply (proj1 (C102_lipton_agrees_iff ex_p 1 ex_regular ltac:(cbn; lra) Rlt_0_1)). intros S0 K var0 HS HK HV. apply Classical_Prop.NNPP. intros N. apply H. exists S0, K, var0. repeat split; assumption. }
  cbn in Q. destruct Q; lra.
Qed.
Example C103_ex_defined : exists f : R -> R, forall v : R, integrand_fft ex_p 1 (ln 100) (ln 90) (3 / 4) v = Some (f v).
Proof. apply C103_integrand_defined; cbn; try lra. Qed.
Example C103_ex : ~ In "heston_cos"%string ["heston_cosine"; "heston_1993"; "heston_carr_madan_gauss_kronrod_quadrature"; "heston_carr_madan_fft_w_simpsons"; "heston_lipton"]%string.
Proof. cbn. intuition discriminate. Qed.
