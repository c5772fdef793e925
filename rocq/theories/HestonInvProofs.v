(* Inversion integrals of a deterministic asset *)
From Coq Require Import ZArith Reals Lra Psatz List.
From Coquelicot Require Import Coquelicot.
From Verif Require Import Base NumModel CurveModel ChfModel ChfSpec CplxProofs ChfProofs RiccatiProofs RiccatiUniqueProofs LiptonProofs HestonInvSpec SincProofs LaplaceProofs.
Open Scope R_scope.

Lemma some_inj {A} (x y : A) : Some x = Some y -> x = y. Proof. congruence. Qed.
Lemma cdiv_zero (a b : C) : b <> RtoC 0 -> (a / b)%C = RtoC 0 -> a = RtoC 0.
Proof. intros N H. replace a with (a / b * b)%C by (field; exact N). rewrite H. ring. Qed.
Definition logf (p : params) (s : R) : R := s + (p_r p - p_q p) * p_tau p.

Lemma det_albrecher (p : params) (s : R) (u : C) : no_variance p -> strip p u -> 0 <= p_tau p -> chf_albrecher p s u = Some (cexp (Ci * u * logf p s)%C).
Proof.
  intros [V H] St T. rewrite albrecher_core by lra. rewrite (core_regular p u St (p_tau p) T). cbn [obind fst snd]. rewrite V, H. f_equal. f_equal. unfold logf. rewrite Rmult_0_r. ring.
Qed.
Lemma strip_share (p : params) (u : R) : regular p -> p_rho p * p_vv p < p_kappa p -> strip p (u - Ci)%C.
Proof.
  intros (H1 & H2 & H3 & H4) H5. unfold strip. cbn [snd fst Cminus Cplus Copp RtoC Ci]. replace (- (0 + - (1))) with 1 by ring. repeat split; try lra.
  replace (1 ^ 2 - 1) with 0 by ring. rewrite Rmult_0_r. apply pow_lt. lra.
Qed.
Lemma det_1993 (p : params) (s : R) (m : nat) (phi : R) : m = 1%nat \/ m = 2%nat -> no_variance p -> steady p -> chf_1993 p 0 s m phi = Some (cexp (Ci * phi * logf p s)%C).
Proof.
  intros Hm Hn (Hr & Hk & Ht). assert (V : 0 <= p_var0 p) by (destruct Hn; lra). destruct Hm as [-> | ->].
  - pose proof (first_1993 p s phi V) as F. rewrite (det_albrecher p s (phi - Ci)%C Hn (strip_share p phi Hr Hk) Ht) in F. destruct (chf_1993 p 0 s 1 phi) as [z|]; cbn [obind] in F; [|discriminate].
    apply some_inj in F. f_equal. fold (logf p s) in F. replace (Ci * (phi - Ci) * logf p s)%C with (logf p s + Ci * phi * logf p s)%C in F by (apply c_eq; cbn; ring).
    rewrite cexp_add, cexp_real in F. assert (N : RtoC (exp (logf p s)) <> 0) by (intros Q; apply (f_equal fst) in Q; cbn in Q; pose proof (exp_pos (logf p s)); lra).
    transitivity (/ exp (logf p s) * (exp (logf p s) * z))%C; [field; exact N|]. rewrite <- F. field. exact N.
  - rewrite second_1993 by exact V. apply det_albrecher; [exact Hn | apply regular_strip; exact Hr | exact Ht].
Qed.
Lemma log_some (x : R) : 0 < x -> log_of x = Some (ln x).
Proof. intros X. unfold log_of. destruct Rlt_dec; [reflexivity | contradiction]. Qed.
Lemma cexp_turn (x : R) : cexp (Ci * x)%C = (cos x, sin x).
Proof. unfold cexp. cbn [fst snd Cmult Ci RtoC]. replace (0 * x - 1 * 0) with 0 by ring. replace (0 * 0 + 1 * x) with x by ring. rewrite exp_0, !Rmult_1_l. reflexivity. Qed.
Lemma det_integrand (p : params) (S0 K : R) (m : nat) (phi : R) : m = 1%nat \/ m = 2%nat -> no_variance p -> steady p -> 0 < S0 -> 0 < K -> 0 < phi ->
  integrand_1993 p 0 S0 K m phi = Some (sin ((logf p (ln S0) - ln K) * phi) / phi).
Proof.
  intros Hm Hn Hs HS HK P. unfold integrand_1993. rewrite !log_some by assumption. cbn [obind]. rewrite det_1993 by assumption. cbn [obind].
  assert (N : (Ci * phi)%C <> RtoC 0) by (intros Q; apply (f_equal snd) in Q; cbn in Q; lra).
  rewrite cdiv_some by exact N. cbn [obind]. f_equal. rewrite <- cexp_add. set (y := logf p (ln S0) - ln K).
  replace (- Ci * phi * ln K + Ci * phi * logf p (ln S0))%C with (Ci * (y * phi)%R)%C by (unfold y; apply c_eq; cbn; ring). rewrite cexp_turn.
  replace ((cos (y * phi), sin (y * phi)) / (Ci * phi))%C with ((sin (y * phi) / phi)%R, (- cos (y * phi) / phi)%R) by (apply c_eq; cbn; field; lra). reflexivity.
Qed.
(* the sign of log F - log K *)
Lemma exp_logf (p : params) (S0 : R) : 0 < S0 -> exp (logf p (ln S0)) = S0 * exp ((p_r p - p_q p) * p_tau p).
Proof. intros H. unfold logf. rewrite exp_plus, exp_ln by exact H. reflexivity. Qed.
Lemma order (p : params) (S0 K : R) : 0 < S0 -> 0 < K -> let F := S0 * exp ((p_r p - p_q p) * p_tau p) in
  (0 < logf p (ln S0) - ln K /\ K < F) \/ (logf p (ln S0) - ln K = 0 /\ F = K) \/ (logf p (ln S0) - ln K < 0 /\ F < K).
Proof.
  intros HS HK F. assert (E : F = exp (logf p (ln S0))) by (symmetry; apply exp_logf; exact HS). rewrite E. pose proof (exp_ln K HK) as L. destruct (Rtotal_order (ln K) (logf p (ln S0))) as [H | [H | H]].
  - left. split; [lra|]. rewrite <- L at 1. apply exp_increasing. exact H.
  - right. left. split; [lra|]. rewrite <- H. exact L.
  - right. right. split; [lra|]. rewrite <- L. apply exp_increasing. exact H.
Qed.
Lemma discount (p : params) : exp (- p_q p * p_tau p) = exp (- p_r p * p_tau p) * exp ((p_r p - p_q p) * p_tau p).
Proof. rewrite <- exp_plus. f_equal. ring. Qed.
Lemma det_price_1993 (quad : quadrature) (p : params) (S0 cp K : R) : exact_quad quad -> cp = 1 \/ cp = -1 -> no_variance p -> steady p -> 0 < S0 -> 0 < K ->
  price_1993 quad p 0 S0 cp K = Some (intrinsic p S0 cp K).
Proof.
  intros Q C Hn Hs HS HK. unfold price_1993.
  rewrite (Q (integrand_1993 p 0 S0 K 1) (fun phi => sin ((logf p (ln S0) - ln K) * phi) / phi) _ (fun x X => det_integrand p S0 K 1 x (or_introl eq_refl) Hn Hs HS HK X) (sin_over _)).
  rewrite (Q (integrand_1993 p 0 S0 K 2) (fun phi => sin ((logf p (ln S0) - ln K) * phi) / phi) _ (fun x X => det_integrand p S0 K 2 x (or_intror eq_refl) Hn Hs HS HK X) (sin_over _)).
  cbn [obind]. f_equal. rewrite discount. unfold intrinsic. pose proof (order p S0 K HS HK) as O. cbn zeta in O. set (F := S0 * exp ((p_r p - p_q p) * p_tau p)) in *. set (d := exp (- p_r p * p_tau p)).
  assert (PN : PI <> 0) by apply PI_neq0. replace (S0 * (d * exp ((p_r p - p_q p) * p_tau p))) with (d * F) by (unfold F; ring). clearbody F d.
  destruct O as [[O1 O2] | [[O1 O2] | [O1 O2]]]; [rewrite sign_pos by exact O1 | rewrite O1, sign_0 | rewrite sign_neg by exact O1]; destruct C as [-> | ->].
  - rewrite Rmax_right by lra. field. exact PN.
  - rewrite Rmax_left by lra. field. exact PN.
  - rewrite Rmax_right by lra. subst F. field. exact PN.
  - rewrite Rmax_right by lra. subst F. field. exact PN.
  - rewrite Rmax_left by lra. field. exact PN.
  - rewrite Rmax_right by lra. field. exact PN.
Qed.

(* ---- Lipton ---- *)
Lemma strip_line (p : params) (v : R) : steady p -> strip p (line v).
Proof.
  intros ((H1 & H2 & H3 & H4) & H5 & _). unfold strip, line. cbn [snd fst Cminus Cplus Copp Cmult RtoC Ci]. match goal with |- context [p_rho p * p_vv p * ?z] => replace z with (1 / 2) by field end.
  repeat split; try lra. assert (0 < (p_kappa p - p_rho p * p_vv p * (1 / 2)) ^ 2) by (apply pow_lt; nra). assert (0 < p_vv p ^ 2) by (apply pow_lt; lra). nra.
Qed.
Lemma lipton_nz (p : params) (v : R) : steady p -> 0 < v -> let D := dval p (line v) in D <> RtoC 0 /\ (wcode p + D + (D - wcode p) * cexp (- D * p_tau p)%C)%C <> RtoC 0.
Proof.
  intros Hs Hv. pose proof (strip_line p v Hs) as St. pose proof (d_re p (line v) St) as DR. pose proof (d_im p (line v) St) as DI. cbv zeta in DR, DI. cbv zeta. set (D := dval p (line v)) in *.
  destruct Hs as ((H1 & H2 & H3 & H4) & H5 & H6). assert (DN : D <> RtoC 0) by (intros Q; rewrite Q in DR; cbn in DR; lra). split; [exact DN|].
  assert (KH : 0 < khat p) by (unfold khat; nra).
  assert (DI' : fst D * snd D = khat p * p_rho p * p_vv p * v).
  { assert (L1 : fst (line v) = - v) by (unfold line; cbn; ring). assert (L2 : snd (line v) = - (1 / 2)) by (unfold line; cbn; field).
    rewrite L1, L2 in DI. unfold khat. lra. }
  clearbody D. destruct D as [d1 d2]. cbn [fst snd] in *. intros Q. assert (M : Cmod (wcode p + (d1, d2))%C = Cmod (wcode p - (d1, d2))%C * Cmod (cexp (- (d1, d2) * p_tau p)%C)).
  { rewrite <- Cmod_mult. f_equal. replace (wcode p + (d1, d2))%C with ((wcode p + (d1, d2) + ((d1, d2) - wcode p) * cexp (- (d1, d2) * p_tau p)) + (wcode p - (d1, d2)) * cexp (- (d1, d2) * p_tau p))%C by ring. rewrite Q. ring. }
  rewrite cexp_mod in M. assert (EX : exp (fst (- (d1, d2) * p_tau p)%C) <= 1).
  { assert (Z : fst (- (d1, d2) * p_tau p)%C <= 0) by (cbn; nra). destruct Z as [Z | Z]; [left; rewrite <- exp_0; apply exp_increasing; exact Z | rewrite Z, exp_0; lra]. }
  pose proof (exp_pos (fst (- (d1, d2) * p_tau p)%C)) as EP.
  assert (L : Cmod (wcode p + (d1, d2))%C <= Cmod (wcode p - (d1, d2))%C) by (rewrite M; pose proof (Cmod_ge_0 (wcode p - (d1, d2))%C); nra).
  assert (L2 : Cmod (wcode p + (d1, d2))%C ^ 2 <= Cmod (wcode p - (d1, d2))%C ^ 2) by (apply pow_incr; split; [apply Cmod_ge_0 | exact L]).
  rewrite !mod2, w_code in L2. cbn [fst snd Cminus Cplus Copp] in L2.
  assert (S : 0 <= p_rho p * p_vv p * p_kappa p * d2).
  { assert (Z : 0 <= d1 * (p_rho p * p_vv p * p_kappa p * d2)). { replace (d1 * (p_rho p * p_vv p * p_kappa p * d2)) with ((p_rho p) ^ 2 * (p_vv p ^ 2 * p_kappa p * khat p * v)) by (replace (d1 * (p_rho p * p_vv p * p_kappa p * d2)) with (p_rho p * p_vv p * p_kappa p * (d1 * d2)) by ring; rewrite DI'; ring).
      apply Rmult_le_pos; [apply pow2_ge_0|]. repeat apply Rmult_le_pos; lra || apply pow2_ge_0. }
    destruct (Rle_dec 0 (p_rho p * p_vv p * p_kappa p * d2)); [assumption | exfalso; nra]. }
  nra.
Qed.
Lemma det_lipton (p : params) (S0 K v : R) : no_variance p -> steady p -> 0 < S0 -> 0 < K -> 0 < v ->
  integrand_lipton p S0 K v = Some (2 * exp ((logf p (ln S0) - ln K) / 2) * (1 / 2 * cos ((logf p (ln S0) - ln K) * v) / (1 / 2 * (1 / 2) + v * v))).
Proof.
  intros [V T] Hs HS HK Hv. rewrite lipton_code by assumption. destruct (lipton_nz p v Hs Hv) as [DN NZ]. cbn zeta in NZ. unfold lipton_with. set (D := dval p (line v)) in *.
  assert (D2 : (2 * D)%C <> RtoC 0) by (apply Cmult_neq_0; [intros Q; apply (f_equal fst) in Q; cbn in Q; lra | exact DN]).
  rewrite !cdiv_some by assumption. cbn [obind].
  destruct (clog _) as [l|] eqn:CL.
  2:{ exfalso. apply clog_none in CL. apply NZ. exact (cdiv_zero _ _ D2 CL). }
  cbn [obind]. destruct Req_EM_T as [Z|_]; [exfalso; destruct Hs as ((_ & ? & _) & _); lra|]. cbn [obind]. f_equal. rewrite V, T.
  assert (LN : ln (S0 / K) = ln S0 - ln K). { unfold Rdiv. rewrite ln_mult, ln_Rinv; [reflexivity | exact HK | exact HS | apply Rinv_0_lt_compat; exact HK]. }
  rewrite LN. replace (ln S0 - ln K + (p_r p - p_q p) * p_tau p) with (logf p (ln S0) - ln K) by (unfold logf; ring). set (y := logf p (ln S0) - ln K).
  match goal with |- context [cexp ?z] => replace z with ((y / 2)%R, (- (y * v))%R) end.
  - unfold cexp. cbn [Re fst snd]. rewrite cos_neg. field. nra.
  - replace (- p_kappa p * 0 / p_vv p ^ 2) with 0 by (unfold Rdiv; ring). rewrite Cmult_0_l, Cmult_0_r. apply c_eq; cbn; field.
Qed.
Lemma det_price_lipton (quad : quadrature) (p : params) (S0 cp K : R) : exact_quad quad -> cp = 1 \/ cp = -1 -> no_variance p -> steady p -> 0 < S0 -> 0 < K ->
  price_lipton quad p S0 cp K = Some (intrinsic p S0 cp K).
Proof.
  intros Q C Hn Hs HS HK. unfold price_lipton. set (y := logf p (ln S0) - ln K).
  assert (I : is_RInt_gen (fun v => 2 * exp (y / 2) * (1 / 2 * cos (y * v) / (1 / 2 * (1 / 2) + v * v))) (at_right 0) (Rbar_locally p_infty) (2 * exp (y / 2) * (PI / 2 * exp (- (1 / 2 * Rabs y))))).
  { apply (is_RInt_gen_scal (V := R_NormedModule) (fun v => 1 / 2 * cos (y * v) / (1 / 2 * (1 / 2) + v * v)) (2 * exp (y / 2))). apply lap_cos. lra. }
  rewrite (Q (integrand_lipton p S0 K) _ _ (fun x X => det_lipton p S0 K x Hn Hs HS HK X) I). cbn [obind]. clear I.
  rewrite discount. unfold intrinsic. pose proof (order p S0 K HS HK) as O. cbn zeta in O. fold y in O. pose proof (exp_logf p S0 HS) as EF.
  assert (EY : exp y * K = S0 * exp ((p_r p - p_q p) * p_tau p)). { rewrite <- EF. unfold y, Rminus. rewrite exp_plus, exp_Ropp, exp_ln by exact HK. field. lra. }
  set (F := S0 * exp ((p_r p - p_q p) * p_tau p)) in *. set (d := exp (- p_r p * p_tau p)). replace (d * exp ((p_r p - p_q p) * p_tau p) * S0) with (d * F) by (unfold F; ring).
  replace (S0 * (d * exp ((p_r p - p_q p) * p_tau p))) with (d * F) by (unfold F; ring). assert (PN : PI <> 0) by apply PI_neq0.
  assert (A : K / PI * (2 * exp (y / 2) * (PI / 2 * exp (- (1 / 2 * Rabs y)))) = Rmin F K).
  { replace (K / PI * (2 * exp (y / 2) * (PI / 2 * exp (- (1 / 2 * Rabs y))))) with (K * (exp (y / 2) * exp (- (1 / 2 * Rabs y)))) by (field; exact PN). rewrite <- exp_plus.
    destruct O as [[O1 O2] | [[O1 O2] | [O1 O2]]].
    - rewrite Rabs_pos_eq, Rmin_right by lra. replace (y / 2 + - (1 / 2 * y)) with 0 by field. rewrite exp_0. ring.
    - rewrite O1, Rabs_R0, Rmin_right by lra. replace (0 / 2 + - (1 / 2 * 0)) with 0 by field. rewrite exp_0. ring.
    - rewrite Rabs_left, Rmin_left by lra. replace (y / 2 + - (1 / 2 * - y)) with y by field. lra. }
  assert (A' : d * K / PI * (2 * exp (y / 2) * (PI / 2 * exp (- (1 / 2 * Rabs y)))) = d * Rmin F K) by (rewrite <- A; field; exact PN). rewrite A'.
  clear - C O. destruct C as [-> | ->]; destruct Req_EM_T; try lra; f_equal; destruct O as [[O1 O2] | [[O1 O2] | [O1 O2]]];
    try (rewrite (Rmin_right F K) by lra); try (rewrite (Rmin_left F K) by lra); try (rewrite Rmax_left by lra); try (rewrite Rmax_right by lra); try lra; try (rewrite O2; ring); ring.
Qed.

(* ---- Carr and Madan ---- *)
Definition wave (a y v : R) : R := a * cos (y * v) / (a * a + v * v) + v * sin (y * v) / (a * a + v * v).
Definition wave_total (a y : R) : R := PI / 2 * exp (- (Rabs a * Rabs y)) * (sign_of a + sign_of y).
Lemma wave_int (a y : R) : a <> 0 -> is_RInt_gen (wave a y) (at_right 0) (Rbar_locally p_infty) (wave_total a y).
Proof.
  intros A. unfold wave_total. replace (PI / 2 * exp (- (Rabs a * Rabs y)) * (sign_of a + sign_of y)) with (sign_of a * (PI / 2 * exp (- (Rabs a * Rabs y))) + sign_of y * (PI / 2 * exp (- (Rabs a * Rabs y)))) by ring.
  assert (P : 0 < Rabs a) by (apply Rabs_pos_lt; exact A). assert (SQ : Rabs a * Rabs a = a * a) by (rewrite <- Rabs_mult; apply Rabs_pos_eq; nra).
  apply (is_RInt_gen_plus (V := R_NormedModule) (fun v => a * cos (y * v) / (a * a + v * v)) (fun v => v * sin (y * v) / (a * a + v * v))).
  - apply is_RInt_gen_ext with (f := fun v => scal (sign_of a) (Rabs a * cos (y * v) / (Rabs a * Rabs a + v * v))).
    + apply filter_forall. intros ab v _. unfold scal. cbn. unfold mult. cbn. rewrite SQ. match goal with |- ?l = ?r => change (@eq R l r) end.
      assert (SA : sign_of a * Rabs a = a). { destruct (Rtotal_order 0 a) as [L | [L | L]]; [rewrite sign_pos, Rabs_pos_eq; lra | lra | rewrite sign_neg, Rabs_left; lra]. }
      transitivity (sign_of a * Rabs a * cos (y * v) / (a * a + v * v)); [unfold Rdiv; ring | rewrite SA; reflexivity].
    + apply (is_RInt_gen_scal (V := R_NormedModule)). apply lap_cos. exact P.
  - rewrite <- SQ. apply lap_sin. exact P.
Qed.
Lemma det_fft (p : params) (cp alpha S0 K v : R) : no_variance p -> strip p (v - (cp * alpha + 1)%R * Ci)%C -> 0 <= p_tau p -> cp = 1 \/ cp = -1 -> cp * alpha <> 0 -> cp * alpha + 1 <> 0 ->
  let y := logf p (ln S0) - ln K in let a := cp * alpha in
  integrand_fft p cp (ln S0) (ln K) alpha v = Some (exp ((a + 1) * logf p (ln S0) - p_r p * p_tau p) * (wave a y v - wave (a + 1) y v)).
Proof.
  intros Hn St T Cc A1 A2 y a. unfold integrand_fft, fft_func. rewrite (det_albrecher p _ _ Hn St T). cbn [obind]. fold a. set (X := logf p (ln S0)) in *.
  assert (DEN : (alpha ^ 2 + cp * alpha - v ^ 2 + Ci * (cp * 2 * alpha + 1)%R * v)%C = (((a, v) : C) * ((a + 1)%R, v))%C).
  { unfold a. destruct Cc as [-> | ->]; apply c_eq; cbn; ring. }
  rewrite DEN. fold a in A1, A2.
  assert (N1 : ((a, v) : C) <> RtoC 0) by (intros Q; apply (f_equal fst) in Q; cbn in Q; lra). assert (N2 : (((a + 1)%R, v) : C) <> RtoC 0) by (intros Q; apply (f_equal fst) in Q; cbn in Q; lra).
  rewrite cdiv_some by (apply Cmult_neq_0; assumption). cbn [obind]. f_equal.
  replace (Ci * (v - (a + 1)%R * Ci) * X)%C with (((a + 1) * X)%R + Ci * (v * X)%R)%C by (apply c_eq; cbn; ring). rewrite cexp_add, cexp_real, cexp_turn.
  replace (- Ci * v * ln K)%C with (Ci * (- (v * ln K))%R)%C by (apply c_eq; cbn; ring). rewrite cexp_turn.
  assert (TURN : ((cos (- (v * ln K)), sin (- (v * ln K))) * (cos (v * X), sin (v * X)))%C = (cos (y * v), sin (y * v))).
  { replace (y * v) with (- (v * ln K) + v * X) by (unfold y; ring). unfold Cmult. cbn [fst snd]. rewrite cos_plus, sin_plus. f_equal. ring. }
  assert (SPLIT : (/ ((a, v) * ((a + 1)%R, v)) = / (a, v) - / ((a + 1)%R, v))%C).
  { assert (DIF : (((a + 1)%R, v) - (a, v))%C = RtoC 1) by (apply c_eq; cbn; ring). transitivity ((((a + 1)%R, v) - (a, v)) / ((a, v) * ((a + 1)%R, v)))%C; [rewrite DIF; field; split; assumption | field; split; assumption]. }
  replace ((a + 1) * X - p_r p * p_tau p) with ((a + 1) * X + - p_r p * p_tau p) by ring. rewrite exp_plus. set (e1 := exp ((a + 1) * X)). set (e2 := exp (- p_r p * p_tau p)).
  unfold Cdiv. rewrite SPLIT.
  match goal with |- Re ?z = _ => replace z with ((e1 * e2)%R * ((cos (y * v), sin (y * v)) * (/ (a, v) - / ((a + 1)%R, v))))%C end.
  2:{ rewrite <- TURN, RtoC_mult. ring. }
  unfold wave. cbn [Re fst snd Cmult Cinv Cminus Cplus Copp RtoC]. field. split; nra.
Qed.
Lemma wave_sum (a y : R) : a <> 0 -> wave_total a y = if Rlt_dec 0 y then (if Rlt_dec 0 a then PI * exp (- (a * y)) else 0) else if Rlt_dec y 0 then (if Rlt_dec 0 a then 0 else - (PI * exp (- (a * y)))) else PI / 2 * sign_of a.
Proof.
  intros A. unfold wave_total. destruct (Rlt_dec 0 y) as [Y|Y].
  - rewrite (sign_pos y Y), (Rabs_pos_eq y) by lra. destruct (Rlt_dec 0 a) as [P|P]; [rewrite sign_pos, Rabs_pos_eq by lra; field | rewrite sign_neg by lra; ring].
  - destruct (Rlt_dec y 0) as [Z|Z].
    + rewrite (sign_neg y Z), (Rabs_left y) by lra. destruct (Rlt_dec 0 a) as [P|P]; [rewrite sign_pos by lra; ring | rewrite sign_neg, Rabs_left by lra]. replace (- (- a * - y)) with (- (a * y)) by ring. field.
    + assert (y = 0) by lra. subst y. rewrite Rabs_R0, Rmult_0_r, Ropp_0, exp_0, sign_0. ring.
Qed.
Lemma det_price_carr_madan (quad : quadrature) (p : params) (S0 cp K alpha : R) : exact_quad quad -> cp = 1 /\ alpha = 3 / 4 \/ cp = -1 /\ alpha = 7 / 4 -> no_variance p ->
  (forall v : R, strip p (v - (cp * alpha + 1)%R * Ci)%C) -> 0 <= p_tau p -> 0 < S0 -> 0 < K ->
  price_carr_madan quad p S0 cp K 0 = Ok (Some (intrinsic p S0 cp K)).
Proof.
  intros Q C Hn St T HS HK. unfold price_carr_madan. rewrite !log_some by assumption.
  assert (EA : (let* alpha0 := if Req_EM_T cp 1 then Ok (3 / 4) else if Req_EM_T cp (-1) then Ok (7 / 4) else Err ValueError in Ok alpha0) = Ok alpha).
  { destruct C as [[-> ->]|[-> ->]]; destruct Req_EM_T; try lra; try reflexivity. destruct Req_EM_T; [reflexivity|lra]. }
  destruct (if Req_EM_T cp 1 then Ok (3 / 4) else if Req_EM_T cp (-1) then Ok (7 / 4) else Err ValueError) as [a0|]; cbn in EA; [|discriminate]. injection EA as ->. cbn [bind Z.eqb].
  set (y := logf p (ln S0) - ln K). set (a := cp * alpha). assert (C' : cp = 1 \/ cp = -1) by tauto. assert (A : a = 3 / 4 \/ a = - (7 / 4)) by (unfold a; destruct C as [[-> ->]|[-> ->]]; lra).
  assert (A1 : a <> 0) by lra. assert (A2 : a + 1 <> 0) by lra.
  assert (I : is_RInt_gen (fun v => exp ((a + 1) * logf p (ln S0) - p_r p * p_tau p) * (wave a y v - wave (a + 1) y v)) (at_right 0) (Rbar_locally p_infty)
     (exp ((a + 1) * logf p (ln S0) - p_r p * p_tau p) * (wave_total a y - wave_total (a + 1) y))).
  { apply (is_RInt_gen_scal (V := R_NormedModule) (fun v => wave a y v - wave (a + 1) y v)). apply (is_RInt_gen_minus (V := R_NormedModule)); apply wave_int; assumption. }
  rewrite (Q (integrand_fft p cp (ln S0) (ln K) alpha) _ _ (fun v _ => det_fft p cp alpha S0 K v Hn (St v) T C' A1 A2) I). cbn [obind]. do 2 f_equal. clear I.
  rewrite !wave_sum by assumption. pose proof (order p S0 K HS HK) as O. cbn zeta in O. fold y in O. unfold intrinsic. rewrite <- (exp_logf p S0 HS) in O |- *.
  assert (KE : exp (ln K) = K) by (apply exp_ln; exact HK). set (k := ln K) in *. set (X := logf p (ln S0)) in *.
  assert (PN : PI <> 0) by apply PI_neq0. replace (- cp * k * alpha) with (- (a * k)) by (unfold a; ring).
  assert (R1 : exp (- (a * k)) * exp ((a + 1) * X - p_r p * p_tau p) * exp (- (a * y)) = exp (- p_r p * p_tau p) * exp X) by (rewrite <- !exp_plus; f_equal; unfold y; ring).
  assert (R2 : exp (- (a * k)) * exp ((a + 1) * X - p_r p * p_tau p) * exp (- ((a + 1) * y)) = exp (- p_r p * p_tau p) * K) by (rewrite <- KE, <- !exp_plus; f_equal; unfold y; ring).
  revert R1 R2. generalize (exp (- (a * k))) (exp ((a + 1) * X - p_r p * p_tau p)) (exp (- (a * y))) (exp (- ((a + 1) * y))) (exp (- p_r p * p_tau p)). intros z1 z2 z3 z4 d R1 R2.
  assert (SG : forall x : R, 0 < x -> sign_of x = 1) by apply sign_pos.
  assert (AC : cp = 1 /\ a = 3 / 4 \/ cp = -1 /\ a = - (7 / 4)) by (unfold a; destruct C as [[-> ->]|[-> ->]]; [left | right]; split; lra).
  clear - AC O R1 R2 SG PN. clearbody a y. destruct AC as [[-> AV]|[-> AV]].
  - destruct O as [[O1 O2] | [[O1 O2] | [O1 O2]]].
    + destruct (Rlt_dec 0 y); [|lra]. destruct (Rlt_dec 0 a); [|lra]. destruct (Rlt_dec 0 (a + 1)); [|lra]. rewrite Rmax_right by lra.
      transitivity (z1 * z2 * z3 - z1 * z2 * z4); [field; exact PN | rewrite R1, R2; ring].
    + destruct (Rlt_dec 0 y); [lra|]. destruct (Rlt_dec y 0); [lra|]. rewrite !SG by lra. rewrite Rmax_right by lra. rewrite O2. unfold Rdiv. ring.
    + destruct (Rlt_dec 0 y); [lra|]. destruct (Rlt_dec y 0); [|lra]. destruct (Rlt_dec 0 a); [|lra]. destruct (Rlt_dec 0 (a + 1)); [|lra]. rewrite Rmax_left by lra. unfold Rdiv. ring.
  - destruct O as [[O1 O2] | [[O1 O2] | [O1 O2]]].
    + destruct (Rlt_dec 0 y); [|lra]. destruct (Rlt_dec 0 a); [lra|]. destruct (Rlt_dec 0 (a + 1)); [lra|]. rewrite Rmax_left by lra. unfold Rdiv. ring.
    + destruct (Rlt_dec 0 y); [lra|]. destruct (Rlt_dec y 0); [lra|]. rewrite !sign_neg by lra. rewrite Rmax_right by lra. rewrite O2. unfold Rdiv. ring.
    + destruct (Rlt_dec 0 y); [lra|]. destruct (Rlt_dec y 0); [|lra]. destruct (Rlt_dec 0 a); [lra|]. destruct (Rlt_dec 0 (a + 1)); [lra|]. rewrite Rmax_right by lra.
      transitivity (- (z1 * z2 * z3) + z1 * z2 * z4); [field; exact PN | rewrite R1, R2; ring].
Qed.
