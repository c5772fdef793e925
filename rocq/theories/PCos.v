(* Cosine method: payoff coefficients, prices, truncation range, distribution function *)
From Coq Require Import ZArith Reals String List Lra Lia Psatz.
From Coquelicot Require Import Coquelicot.
From Verif Require Import Base NumModel CurveModel NormalModel NormalProofs MonteModel MonteSpec MonteProofs ChfModel ChfSpec CplxProofs ChfProofs RiccatiProofs RiccatiUniqueProofs HestonPriceProofs CosModel CosSpec CosProofs CosMethodProofs.
Import ListNotations.
Open Scope R_scope.

(* ---- C62: coefficients ---- *)
Theorem C62_psi (a b c d : R) (k : nat) : b <> a -> is_RInt (fun y => cos (INR k * PI * (y - a) / (b - a))) c d (calc_psi a b k c d).
Proof. exact (psi_integral a b c d k). Qed.
(* chi lacks a factor exp(d): it is the integral only where that does not matter *)
Theorem C62_chi_exact_iff (a b c d : R) (k : nat) : b <> a ->
  (is_RInt (fun y => exp y * cos (INR k * PI * (y - a) / (b - a))) c d (calc_chi a b k c d) <-> d = 0 \/ INR k * PI / (b - a) * sin (INR k * PI * (d - a) / (b - a)) = 0).
Proof. exact (chi_exact_iff a b c d k). Qed.
(* it does not matter for either use *)
Theorem C62_payoff_coefficients (call : bool) (a b : R) (k : nat) : a <= 0 <= b -> a < b ->
  is_RInt (fun y => 2 / (b - a) * (payoff call y * cos (INR k * PI * (y - a) / (b - a)))) a b (calculate_Uk call a b k).
Proof.
  intros Z L. replace (calculate_Uk call a b k) with (scal (2 / (b - a)) ((b - a) / 2 * calculate_Uk call a b k)) by (unfold scal; cbn; unfold mult; cbn; field; lra).
  apply (is_RInt_scal (V := R_NormedModule)). exact (uk_integral call a b k Z L).
Qed.

(* ---- C98: prices ---- *)
Theorem C98_prices (p : params) (S0 L a b : R) (cps Ks : list R) (N : nat) (by_parity : bool) : regular p -> 0 <= p_tau p -> 0 < S0 -> List.Forall (fun K => 0 < K) Ks ->
  List.length cps = List.length Ks -> (0 < N)%nat -> (by_parity = true \/ In 1 cps /\ In (-1) cps) ->
  get_cos_truncation_range "heston"%string L (heston_dict p) = Ok (a, b) -> a <= 0 <= b -> a < b ->
  exists (z : nat -> C) (out : list (option R)),
    (forall k : nat, chf_fang p (INR k * PI / (b - a))%R = Some (z k))
    /\ heston_cosine p S0 cps Ks N L by_parity = Ok out /\ List.length out = List.length Ks
    /\ forall i : nat, (i < List.length Ks)%nat ->
       let K := nth i Ks 0 in
       (nth i cps 0 = -1 -> exists v, nth i out None = Some v /\ discounted_payoff p z a b S0 N false K v)
       /\ (nth i cps 0 = 1 -> exists v, nth i out None = Some v /\
             if by_parity then discounted_payoff p z a b S0 N false K (v - S0 * exp (- p_q p * p_tau p) + K * exp (- p_r p * p_tau p)) else discounted_payoff p z a b S0 N true K v)
       /\ (nth i cps 0 <> 1 -> nth i cps 0 <> -1 -> nth i out None = None).
Proof.
  intros Reg T HS HK Len HN Par Rg Z Lt.
  set (z := fun k : nat => match chf_fang p (INR k * PI / (b - a))%R with Some z => z | None => RtoC 0 end).
  assert (Hz : forall k : nat, chf_fang p (INR k * PI / (b - a))%R = Some (z k)). { intros k. unfold z. destruct (chf_defined p (INR k * PI / (b - a))%R (regular_strip p _ Reg) T) as [w ->]. reflexivity. }
  assert (Px : forall (call : bool) (K : R), 0 < K -> exists v, cos_px p a b S0 N call K = Some v /\ discounted_payoff p z a b S0 N call K v).
  { intros call K K0. destruct (px_integral p z a b S0 N call K Z Lt HS K0 (fun k _ => Hz k)) as (I & HI & E). exists (K * exp (- p_r p * p_tau p) * I). split; [exact E|].
    unfold discounted_payoff. exact (is_RInt_scal (V := R_NormedModule) _ a b (K * exp (- p_r p * p_tau p)) I HI). }
  unfold heston_cosine. rewrite Len, Nat.eqb_refl. cbn [guard bind]. rewrite Rg. cbn [bind].
  assert (N1 : Nat.ltb 0 N = true) by (apply Nat.ltb_lt; exact HN). rewrite N1. cbn [guard bind].
  assert (G1 : (by_parity || existsb is_one cps = true)%bool). { destruct Par as [->|[I _]]; [reflexivity|]. rewrite Bool.orb_comm. apply Bool.orb_true_iff. left. apply existsb_exists. exists 1. split; [exact I|]. unfold is_one. destruct Req_EM_T; [reflexivity|lra]. }
  assert (G2 : (by_parity || existsb is_minus_one cps = true)%bool). { destruct Par as [->|[_ I]]; [reflexivity|]. rewrite Bool.orb_comm. apply Bool.orb_true_iff. left. apply existsb_exists. exists (-1). split; [exact I|]. unfold is_minus_one. destruct Req_EM_T; [reflexivity|lra]. }
  rewrite G1, G2. cbn [guard bind]. eexists z, _. split; [exact Hz|]. split; [reflexivity|]. split; [rewrite map_length, combine_length, Len, Nat.min_id; reflexivity|].
  intros i Hi. set (K := nth i Ks 0). match goal with |- context [map ?g (combine cps Ks)] => set (f := g) end.
  assert (Nth : nth i (map f (combine cps Ks)) None = f (nth i cps 0, K)).
  { rewrite (nth_indep _ None (f (0, 0))) by (rewrite map_length, combine_length, Len, Nat.min_id; exact Hi). rewrite map_nth, combine_nth by exact Len. reflexivity. }
  rewrite Nth. assert (K0 : 0 < K) by (rewrite List.Forall_forall in HK; apply HK; apply nth_In; exact Hi). unfold f, is_one, is_minus_one. repeat split.
  - intros E. rewrite E. destruct (Req_EM_T (-1) 1); [lra|]. destruct (Req_EM_T (-1) (-1)); [|lra]. exact (Px false K K0).
  - intros E. rewrite E. destruct (Req_EM_T 1 1); [|lra]. destruct by_parity; [|exact (Px true K K0)]. destruct (Px false K K0) as (v & -> & M). cbn [obind]. eexists. split; [reflexivity|].
    replace (v + S0 * exp (- p_q p * p_tau p) - K * exp (- p_r p * p_tau p) - S0 * exp (- p_q p * p_tau p) + K * exp (- p_r p * p_tau p)) with v by ring. exact M.
  - intros E1 E2. destruct Req_EM_T; [contradiction|]. destruct Req_EM_T; [contradiction|]. reflexivity.
Qed.
(* the series has mass one, so a series that is nowhere negative prices puts within the no-arbitrage bounds *)
Theorem C98_series_mass (p : params) (z : nat -> C) (a b x0 : R) (N : nat) : a < b -> (0 < N)%nat -> 0 < p_kappa p -> p_vv p <> 0 ->
  (forall k : nat, chf_fang p (INR k * PI / (b - a))%R = Some (z k)) -> is_RInt (series z a b x0 N) a b 1.
Proof.
  intros L P K V H. apply series_mass; [exact L | exact P|]. pose proof (H 0%nat) as H0. cbn [INR] in H0. replace (0 * PI / (b - a)) with 0 in H0 by (field; lra). rewrite fang_at_zero in H0.
  destruct Rlt_dec; [|contradiction]. destruct Req_EM_T; [contradiction|]. congruence.
Qed.
Theorem C98_put_bounds (p : params) (z : nat -> C) (a b S0 : R) (N : nat) (K v : R) : a < b -> (0 < N)%nat -> 0 < p_kappa p -> p_vv p <> 0 -> 0 < K ->
  (forall k : nat, chf_fang p (INR k * PI / (b - a))%R = Some (z k)) -> (forall y : R, a < y < b -> 0 <= series z a b (ln (S0 / K)) N y) ->
  discounted_payoff p z a b S0 N false K v -> 0 <= v <= K * exp (- p_r p * p_tau p).
Proof.
  intros L P Kp V HK H Pos M. pose proof (C98_series_mass p z a b (ln (S0 / K)) N L P Kp V H) as Q. pose proof (exp_pos (- p_r p * p_tau p)) as E. set (d := K * exp (- p_r p * p_tau p)). assert (D : 0 < d) by (apply Rmult_lt_0_compat; assumption).
  assert (B : forall y, 0 <= payoff false y <= 1). { intros y. cbn [payoff]. pose proof (exp_pos y). unfold Rmax. destruct Rle_dec; lra. }
  pose proof (is_RInt_scal (V := R_NormedModule) _ a b d 1 Q) as Q'. unfold scal in Q'. cbn in Q'. unfold mult in Q'. cbn in Q'. rewrite Rmult_1_r in Q'. split.
  - assert (C0 : is_RInt (fun _ : R => 0) a b 0). { pose proof (is_RInt_const (V := R_NormedModule) a b 0) as C. unfold scal in C. cbn in C. unfold mult in C. cbn in C. rewrite Rmult_0_r in C. exact C. }
    apply (is_RInt_le _ _ a b 0 v ltac:(lra) C0 M). intros y Y. apply Rmult_le_pos; [fold d; lra|]. apply Rmult_le_pos; [apply B | apply Pos, Y].
  - apply (is_RInt_le _ _ a b v d ltac:(lra) M Q'). intros y Y. fold d. apply Rmult_le_compat_l; [lra|]. pose proof (Pos y Y). destruct (B y). nra.
Qed.
(* the range does not move with the strike: per unit of strike, prices repeat when the strike grows by exp(2 (b - a)) *)
Theorem C98_put_periodic (p : params) (S0 L K a b : R) (N : nat) : (0 < N)%nat -> 0 < S0 -> 0 < K -> get_cos_truncation_range "heston"%string L (heston_dict p) = Ok (a, b) -> b <> a ->
  exists v : option R, heston_cosine p S0 [-1] [K] N L true = Ok [v]
    /\ heston_cosine p S0 [-1] [K * exp (2 * (b - a))] N L true = Ok [match v with Some x => Some (exp (2 * (b - a)) * x) | None => None end].
Proof.
  intros HN HS HK Rg Nab. exists (cos_px p a b S0 N false K). assert (N1 : Nat.ltb 0 N = true) by (apply Nat.ltb_lt; exact HN).
  assert (O1 : is_one (-1) = false) by (unfold is_one; destruct Req_EM_T; [lra|reflexivity]). assert (O2 : is_minus_one (-1) = true) by (unfold is_minus_one; destruct Req_EM_T; [reflexivity|lra]).
  unfold heston_cosine. cbn [List.length Nat.eqb guard bind]. rewrite Rg. cbn [bind]. rewrite N1. cbn [guard bind orb combine map]. rewrite O1, O2. split; [reflexivity|].
  rewrite px_period by assumption. destruct (cos_px p a b S0 N false K); reflexivity.
Qed.
Theorem C98_errors (p : params) (S0 L : R) (cps Ks : list R) (N : nat) (by_parity : bool) :
  (List.length cps <> List.length Ks -> heston_cosine p S0 cps Ks N L by_parity = Err AssertionError)
  /\ (List.length cps = List.length Ks -> p_kappa p = 0 -> heston_cosine p S0 cps Ks N L by_parity = Err ZeroDivisionError)
  /\ (List.length cps = List.length Ks -> p_kappa p <> 0 -> (0 < N)%nat -> ~ In 1 cps \/ ~ In (-1) cps -> heston_cosine p S0 cps Ks N L false = Err NameError).
Proof.
  repeat split.
  - intros H. unfold heston_cosine. apply Nat.eqb_neq in H. rewrite H. reflexivity.
  - intros H K. unfold heston_cosine. rewrite H, Nat.eqb_refl. cbn [guard bind]. unfold get_cos_truncation_range, cumulants, heston_dict. cbn [item find fst String.eqb Ascii.eqb Bool.eqb bind]. destruct Req_EM_T; [reflexivity|contradiction].
  - intros H K HN I. unfold heston_cosine. rewrite H, Nat.eqb_refl. cbn [guard bind]. rewrite range_ok by exact K. cbn [bind]. apply Nat.ltb_lt in HN. rewrite HN. cbn [guard bind orb].
    assert (X : forall (f : R -> bool) (y : R), (forall x, f x = true -> x = y) -> ~ In y cps -> existsb f cps = false).
    { intros f y Hf Ny. destruct (existsb f cps) eqn:E; [|reflexivity]. apply existsb_exists in E. destruct E as (x & Hx & Fx). apply Hf in Fx. subst x. contradiction. }
    destruct I as [I|I].
    + rewrite (X is_one 1); [reflexivity| |exact I]. intros x. unfold is_one. destruct Req_EM_T; [trivial|discriminate].
    + rewrite (X is_minus_one (-1)); [destruct existsb; reflexivity| |exact I]. intros x. unfold is_minus_one. destruct Req_EM_T; [trivial|discriminate].
Qed.

(* ---- C104: truncation range ---- *)
Theorem C104_heston_moments (mu u0 eta lam u_bar rho : R) (M m s q V : R -> R) : lam <> 0 -> heston_moments mu u0 eta lam u_bar rho M m s q V ->
  forall tau : R, 0 <= tau ->
    heston_c1 tau mu u0 lam u_bar = M tau
    /\ heston_c2 tau u0 eta lam u_bar rho = V tau - eta ^ 2 * u_bar * (1 - exp (- lam * tau)) / (4 * lam ^ 3).
Proof. intros N H tau T. destruct (moments_unique mu u0 eta lam u_bar rho N M m s q V H tau T) as [-> ->]. split; [reflexivity|]. unfold v_. ring. Qed.
Theorem C104_moments_exist (mu u0 eta lam u_bar rho : R) : lam <> 0 -> exists M m s q V : R -> R, heston_moments mu u0 eta lam u_bar rho M m s q V.
Proof. intros N. do 5 eexists. exact (closed_moments mu u0 eta lam u_bar rho N). Qed.
(* the range is centred at the mean of the log return but its half width uses too small a variance *)
Theorem C104_range_too_narrow (p : params) (L : R) (M m s q V : R -> R) : 0 < p_kappa p -> p_vv p <> 0 -> 0 < p_theta p -> 0 < p_tau p -> 0 < L ->
  heston_moments (p_r p - p_q p) (p_var0 p) (p_vv p) (p_kappa p) (p_theta p) (p_rho p) M m s q V ->
  0 <= heston_c2 (p_tau p) (p_var0 p) (p_vv p) (p_kappa p) (p_theta p) (p_rho p) ->
  exists a b : R, get_cos_truncation_range "heston"%string L (heston_dict p) = Ok (a, b) /\ (a + b) / 2 = M (p_tau p) /\ b - a < 2 * L * sqrt (V (p_tau p)).
Proof.
  intros K E Th T HL H C2. assert (K0 : p_kappa p <> 0) by lra. destruct (C104_heston_moments _ _ _ _ _ _ M m s q V K0 H (p_tau p) (Rlt_le _ _ T)) as [H1 H2].
  rewrite range_ok by lra. rewrite H1. cbn zeta. eexists _, _. split; [reflexivity|]. split; [field|]. rewrite Rabs_pos_eq by exact C2. set (c2 := heston_c2 _ _ _ _ _ _) in *.
  assert (X : 0 < p_vv p ^ 2 * p_theta p * (1 - exp (- p_kappa p * p_tau p)) / (4 * p_kappa p ^ 3)).
  { apply Rdiv_lt_0_compat; [|assert (0 < p_kappa p ^ 3) by (apply pow_lt; exact K); lra]. apply Rmult_lt_0_compat; [apply Rmult_lt_0_compat; [nra|exact Th]|]. assert (0 < p_kappa p * p_tau p) by (apply Rmult_lt_0_compat; assumption). assert (exp (- p_kappa p * p_tau p) < exp 0) by (apply exp_increasing; lra). rewrite exp_0 in *. lra. }
  assert (S : sqrt c2 < sqrt (V (p_tau p))) by (apply sqrt_lt_1; lra). assert (L * sqrt c2 < L * sqrt (V (p_tau p))) by (apply Rmult_lt_compat_l; assumption). lra.
Qed.
Theorem C104_gbm (mu sigma tau L : R) : 0 <= tau -> get_cos_truncation_range "geomentric_brownion_motion"%string L (P_seq [mu; sigma; tau]) = Ok (mu * tau - L * (Rabs sigma * sqrt tau), mu * tau + L * (Rabs sigma * sqrt tau)).
Proof.
  intros T. unfold get_cos_truncation_range. cbn [cumulants String.eqb Ascii.eqb Bool.eqb bind]. rewrite Rabs_R0, sqrt_0, Rplus_0_r. assert (Q : 0 <= sigma ^ 2) by apply pow2_ge_0. rewrite Rabs_pos_eq by (apply Rmult_le_pos; assumption).
  rewrite sqrt_mult by assumption. rewrite <- Rsqr_pow2, sqrt_Rsqr_abs. reflexivity.
Qed.
Theorem C104_other_models (model : string) (L : R) (m : model_param) : model <> "geomentric_brownion_motion"%string -> model <> "heston"%string -> get_cos_truncation_range model L m = Err NameError.
Proof. intros N1 N2. unfold get_cos_truncation_range, cumulants. apply String.eqb_neq in N1, N2. rewrite N1, N2. reflexivity. Qed.
(* Heston's parameters are looked up by name: all seven must be there *)
Theorem C104_missing_parameter (L : R) (l : list (string * R)) (key : string) : In key ["tau"; "mu"; "var0"; "vv"; "kappa"; "theta"; "rho"]%string -> ~ In key (map fst l) ->
  get_cos_truncation_range "heston"%string L (P_dict l) = Err KeyError.
Proof.
  intros I N. assert (K : forall k, item (P_dict l) k = Err KeyError \/ (exists v, item (P_dict l) k = Ok v)).
  { intros k. cbn [item]. destruct (find _ l) as [[k' v]|]; eauto. }
  assert (M : item (P_dict l) key = Err KeyError).
  { cbn [item]. destruct (find _ l) as [[k' v]|] eqn:F; [|reflexivity]. exfalso. apply N. destruct (find_some _ _ F) as [J Q]. cbn [fst] in Q. apply String.eqb_eq in Q. subst k'. exact (in_map fst _ _ J). }
  unfold get_cos_truncation_range, cumulants. cbn [String.eqb Ascii.eqb Bool.eqb].
  do 7 (match goal with |- context [item (P_dict l) ?k] => destruct (K k) as [E|[? E]]; [rewrite E; reflexivity|rewrite E; cbn [bind]; destruct I as [X|I]; [rewrite <- X in M; rewrite M in E; discriminate E|clear E]] end).
  destruct I.
Qed.
Theorem C104_sequence_for_heston (L : R) (l : list R) : get_cos_truncation_range "heston"%string L (P_seq l) = Err TypeError.
Proof. reflexivity. Qed.

(* ---- C105: distribution function ---- *)
Theorem C105_riemann_sums (p : R) (cf : R -> C) (dt a b : R) (N : nat) : 0 < dt -> a + dt <= b -> a <= p <= b ->
  exists (n j : nat) (x : nat -> R),
    x 0%nat = a /\ (forall i : nat, (i < n)%nat -> x i < x (S i) <= x i + dt) /\ (0 < n)%nat /\ b <= x (n - 1)%nat < b + dt /\ x n = x (n - 1)%nat + dt
    /\ (j < n)%nat /\ x j = p
    /\ cos_method p cf dt a b N =
       if Rlt_dec (left_sum (cos_pdf cf a b N) x n) (cdf 5) then Err ValueError
       else Ok (mk_cos (left_sum (cos_pdf cf a b N) x (S j)) (map (fun i => left_sum (cos_pdf cf a b N) x (S i)) (seq 0 n)) (map (fun i => cos_pdf cf a b N (x i)) (seq 0 n))
                       (left_sum (cos_pdf cf a b N) x n) (map x (seq 0 n))).
Proof. exact (method_ok p cf dt a b N). Qed.
Theorem C105_density_series (cf : R -> C) (a b : R) (N : nat) (x : R) : a < b -> cos_pdf cf a b N x = series (fun k => cf (INR k * PI / (b - a))) a b 0 (S N) x.
Proof.
  intros L. unfold cos_pdf, series. apply total_ext. intros k _. replace (- Ci * INR k * PI * a / (b - a)%R)%C with (Ci * (INR k * PI / (b - a))%R * (0 - a)%R)%C.
  2:{ unfold Cdiv. rewrite <- RtoC_inv by lra. apply c_eq; cbn [fst snd Cmult Copp Ci RtoC]; field; lra. }
  unfold basis. destruct k; cbn [Nat.eqb]; ring.
Qed.
Theorem C105_rejects (p : R) (cf : R -> C) (dt a b : R) (N : nat) : ~ (0 < dt /\ a + dt <= b /\ a <= p <= b) -> cos_method p cf dt a b N = Err AssertionError.
Proof. exact (method_rejects p cf dt a b N). Qed.
(* the uniform law: the distribution function is always too large, above one at the upper end, and so is the total *)
Theorem C105_overshoot (p : R) (cf : R -> C) (dt a b : R) : 0 < dt -> a + dt <= b -> a <= p <= b -> cf 0 = RtoC 1 ->
  exists r : cos_result, cos_method p cf dt a b 0 = Ok r /\ (p - a) / (b - a) < at_p r /\ 1 + dt / (b - a) <= integral r.
Proof.
  intros D L P H. destruct (method_ok p cf dt a b 0 D L P) as (n & j & x & X0 & Step & N0 & La & Xn & J & Xj & E). assert (B : 0 < b - a) by lra.
  assert (F : forall m, left_sum (cos_pdf cf a b 0) x m = / (b - a) * (x m - a)). { intros m. rewrite (left_const (/ (b - a))) by (intros y; apply uniform_pdf; [lra|exact H]). rewrite X0. reflexivity. }
  assert (I : 1 + dt / (b - a) <= / (b - a) * (x n - a)). { apply (Rmult_le_reg_l (b - a)); [exact B|]. rewrite <- Rmult_assoc, Rinv_r by lra. replace ((b - a) * (1 + dt / (b - a))) with (b - a + dt) by (field; lra). lra. }
  assert (I0 : 0 < dt / (b - a)) by (apply Rdiv_lt_0_compat; assumption).
  destruct Rlt_dec as [C|_] in E; [exfalso; rewrite F in C; pose proof (cdf_lt_1 5); lra|]. eexists. split; [exact E|]. cbn [at_p integral]. rewrite !F. split; [|exact I].
  unfold Rdiv. rewrite Rmult_comm. apply Rmult_lt_compat_l; [apply Rinv_0_lt_compat, B|]. destruct (Step j J) as [S _]. rewrite Xj in S. lra.
Qed.

Definition all_theorems := (C62_psi, C62_chi_exact_iff, C62_payoff_coefficients, C98_prices, C98_series_mass, C98_put_bounds, C98_put_periodic, C98_errors,
  C104_heston_moments, C104_moments_exist, C104_range_too_narrow, C104_gbm, C104_other_models, C104_missing_parameter, C104_sequence_for_heston, C105_riemann_sums, C105_density_series, C105_rejects, C105_overshoot).
Print Assumptions all_theorems.

(* non-vacuity *)
Definition ex_q : params := mk_params 1 (1 / 50) 0 (1 / 25) (1 / 2) 1 (1 / 25) 0.
Example ex_q_regular : regular ex_q.
Proof. unfold regular, ex_q. cbn. repeat split; lra. Qed.
Example ex_q_c1 : heston_c1 1 (1 / 50 - 0) (1 / 25) 1 (1 / 25) = 0.
Proof. unfold heston_c1. replace (1 / 25 - 1 / 25) with 0 by lra. field. Qed.
Example ex_q_c2 : 0 < heston_c2 1 (1 / 25) (1 / 2) 1 (1 / 25) 0.
Proof.
  unfold heston_c2. replace (exp (-2 * 1 * 1)) with (exp (- (1) * 1) * exp (- (1) * 1)) by (rewrite <- exp_plus; f_equal; ring). set (e := exp (- (1) * 1)).
  assert (0 < e) by apply exp_pos. assert (e < exp 0) by (apply exp_increasing; lra). rewrite exp_0 in *. nra.
Qed.
Example ex_q_range : exists w : R, 0 < w /\ get_cos_truncation_range "heston"%string 10 (heston_dict ex_q) = Ok (- w, w).
Proof.
  pose proof ex_q_c2 as C2. rewrite range_ok by (cbn; lra). unfold ex_q. cbn [p_tau p_r p_q p_var0 p_vv p_kappa p_theta p_rho]. rewrite ex_q_c1. cbn zeta. rewrite Rabs_pos_eq by lra.
  exists (10 * sqrt (heston_c2 1 (1 / 25) (1 / 2) 1 (1 / 25) 0)). split; [apply Rmult_lt_0_compat; [lra|apply sqrt_lt_R0; exact C2]|]. f_equal. f_equal; ring.
Qed.
Example ex_prices : exists v w : R, heston_cosine ex_q 100 [1; -1] [90; 110] 160 10 true = Ok [Some v; Some w].
Proof.
  destruct ex_q_range as (w & W & Rg).
  destruct (C98_prices ex_q 100 10 (- w) w [1; -1] [90; 110] 160 true ex_q_regular ltac:(cbn; lra) ltac:(lra) ltac:(repeat constructor; lra) eq_refl ltac:(lia) (or_introl eq_refl) Rg ltac:(lra) ltac:(lra)) as (z & out & _ & -> & Len & H).
  destruct out as [|x [|y [|]]]; try discriminate Len. destruct (H 0%nat ltac:(cbn; lia)) as (_ & Hc & _), (H 1%nat ltac:(cbn; lia)) as (Hp & _).
  destruct (Hc eq_refl) as (v1 & E1 & _), (Hp eq_refl) as (v2 & E2 & _). cbn in E1, E2. rewrite E1, E2. exists v1, v2. reflexivity.
Qed.
(* one term is a flat density, so the bounds hold for it *)
Example ex_bounds (K v : R) (z : nat -> C) (a b : R) : a < b -> 0 < K -> (forall k : nat, chf_fang ex_q (INR k * PI / (b - a))%R = Some (z k)) -> discounted_payoff ex_q z a b 100 1 false K v -> 0 <= v <= K * exp (- p_r ex_q * p_tau ex_q).
Proof.
  intros L HK Hz. apply (C98_put_bounds ex_q z a b 100 1 K v L ltac:(lia) ltac:(cbn; lra) ltac:(cbn; lra) HK Hz). intros y _.
  pose proof (Hz 0%nat) as H0. cbn [INR] in H0. replace (0 * PI / (b - a)) with 0 in H0 by (field; lra). rewrite fang_at_zero in H0.
  destruct Rlt_dec as [_|X] in H0; [|cbn in X; lra]. destruct Req_EM_T as [X|_] in H0; [cbn in X; lra|]. assert (Z0 : z 0%nat = RtoC 1) by congruence.
  unfold series, total. cbn [sum_n seq map fold_right]. rewrite Z0. cbn [Nat.eqb INR]. replace (0 * PI / (b - a)) with 0 by (field; lra). replace (Ci * 0 * (ln (100 / K) - a)%R)%C with (RtoC 0) by ring. rewrite cexp_0.
  unfold basis. cbn [INR]. replace (0 * PI * (y - a) / (b - a)) with 0 by (field; lra). rewrite cos_0. replace (Re (1 * 1)%C) with 1 by (cbn; ring). assert (0 < / (b - a)) by (apply Rinv_0_lt_compat; lra). unfold Rdiv. lra.
Qed.
Example ex_narrow (M m s q V : R -> R) : heston_moments (p_r ex_q - p_q ex_q) (p_var0 ex_q) (p_vv ex_q) (p_kappa ex_q) (p_theta ex_q) (p_rho ex_q) M m s q V ->
  exists a b : R, get_cos_truncation_range "heston"%string 10 (heston_dict ex_q) = Ok (a, b) /\ (a + b) / 2 = M (p_tau ex_q) /\ b - a < 2 * 10 * sqrt (V (p_tau ex_q)).
Proof. intros H. apply (C104_range_too_narrow ex_q 10 M m s q V); [cbn; lra | cbn; lra | cbn; lra | cbn; lra | lra | exact H | pose proof ex_q_c2; cbn -[heston_c2]; lra]. Qed.
Example ex_chi_wrong : ~ is_RInt (fun y => exp y * cos (INR 1 * PI * (y - 0) / (2 - 0))) 0 1 (calc_chi 0 2 1 0 1).
Proof.
  intros H. apply C62_chi_exact_iff in H; [|lra]. destruct H as [H|H]; [lra|]. cbn [INR] in H. replace (1 * PI * (1 - 0) / (2 - 0)) with (PI / 2) in H by field. rewrite sin_PI2 in H. pose proof PI_RGT_0. lra.
Qed.
Example ex_overshoot : exists r : cos_result, cos_method 1 (fun _ => RtoC 1) 1 0 1 0 = Ok r /\ 1 < at_p r.
Proof. destruct (C105_overshoot 1 (fun _ => RtoC 1) 1 0 1 ltac:(lra) ltac:(lra) ltac:(lra) eq_refl) as (r & E & P & _). exists r. split; [exact E|]. lra. Qed.
