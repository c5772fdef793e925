(* The exponent of the characteristic function solves Heston's Riccati equations, and is the only solution *)
From Coq Require Import Reals Lra Psatz.
From Coquelicot Require Import Coquelicot.
From Verif Require Import Base NumModel CurveModel ChfModel ChfSpec CplxProofs ChfProofs.
Open Scope R_scope.

(* ---- calculus of complex functions of time ---- *)
Lemma derives_ext (f g : R -> C) (t : R) (l : C) : (forall s : R, f s = g s) -> derives f t l -> derives g t l.
Proof.
  intros E [H1 H2]. split; [apply (is_derive_ext (fun s => fst (f s))) | apply (is_derive_ext (fun s => snd (f s)))]; try assumption; intros s; rewrite E; reflexivity.
Qed.
Lemma derives_const (c : C) (t : R) : derives (fun _ => c) t 0.
Proof. split; apply (is_derive_const (K := R_AbsRing) (V := R_NormedModule)). Qed.
Lemma derives_plus (f g : R -> C) (t : R) (l m : C) : derives f t l -> derives g t m -> derives (fun s => f s + g s)%C t (l + m)%C.
Proof. intros [F1 F2] [G1 G2]. split; cbn; apply (is_derive_plus (K := R_AbsRing) (V := R_NormedModule)); assumption. Qed.
Lemma derives_mult (f g : R -> C) (t : R) (l m : C) : derives f t l -> derives g t m -> derives (fun s => f s * g s)%C t (l * g t + f t * m)%C.
Proof.
  intros [F1 F2] [G1 G2]. split; cbn.
  - replace (fst l * fst (g t) - snd l * snd (g t) + (fst (f t) * fst m - snd (f t) * snd m))
      with (minus (plus (mult (fst l) (fst (g t))) (mult (fst (f t)) (fst m))) (plus (mult (snd l) (snd (g t))) (mult (snd (f t)) (snd m)))) by (unfold minus, plus, mult, opp; cbn; ring).
    apply (is_derive_minus (K := R_AbsRing) (V := R_NormedModule)); apply (is_derive_mult (K := R_AbsRing)); try assumption; intros; apply Rmult_comm.
  - replace (fst l * snd (g t) + snd l * fst (g t) + (fst (f t) * snd m + snd (f t) * fst m))
      with (plus (plus (mult (fst l) (snd (g t))) (mult (fst (f t)) (snd m))) (plus (mult (snd l) (fst (g t))) (mult (snd (f t)) (fst m)))) by (unfold plus, mult; cbn; ring).
    apply (is_derive_plus (K := R_AbsRing) (V := R_NormedModule)); apply (is_derive_mult (K := R_AbsRing)); try assumption; intros; apply Rmult_comm.
Qed.
Lemma derives_scal (c : C) (f : R -> C) (t : R) (l : C) : derives f t l -> derives (fun s => c * f s)%C t (c * l)%C.
Proof.
  intros H. replace (c * l)%C with (0 * f t + c * l)%C by ring. exact (derives_mult (fun _ => c) f t 0 l (derives_const c t) H).
Qed.
Lemma derives_eq (f : R -> C) (t : R) (l m : C) : derives f t l -> l = m -> derives f t m.
Proof. intros H <-. exact H. Qed.
Lemma derives_id (c : C) (t : R) : derives (fun s => c * s)%C t c.
Proof. split; cbn; auto_derive; trivial; ring. Qed.
Lemma derives_exp (c : C) (t : R) : derives (fun s => cexp (c * s)%C) t (c * cexp (c * t)%C)%C.
Proof.
  apply (derives_ext (fun s => (exp (fst c * s) * cos (snd c * s), exp (fst c * s) * sin (snd c * s)))).
  { intros s. unfold cexp. cbn [Cmult RtoC fst snd]. rewrite !Rmult_0_r, Rminus_0_r, Rplus_0_l. reflexivity. }
  assert (E : cexp (c * t)%C = (exp (fst c * t) * cos (snd c * t), exp (fst c * t) * sin (snd c * t))) by (unfold cexp; cbn [Cmult RtoC fst snd]; rewrite !Rmult_0_r, Rminus_0_r, Rplus_0_l; reflexivity).
  rewrite E. split; cbn; auto_derive; trivial; ring.
Qed.
Lemma sq_pos (z : C) : z <> RtoC 0 -> 0 < fst z ^ 2 + snd z ^ 2.
Proof. intros N. rewrite <- mod2. apply Cmod_gt_0 in N. apply pow_lt. exact N. Qed.
Lemma derives_inv (f : R -> C) (t : R) (l : C) : derives f t l -> f t <> RtoC 0 -> derives (fun s => / f s)%C t (- l / (f t * f t))%C.
Proof.
  intros [F1 F2] N. pose proof (sq_pos _ N) as P. 
  assert (P2 : fst (f t) * (fst (f t) * 1) + snd (f t) * (snd (f t) * 1) <> 0) by (cbn in P; lra).
  assert (P3 : (fst (f t) * fst (f t) - snd (f t) * snd (f t)) ^ 2 + (fst (f t) * snd (f t) + snd (f t) * fst (f t)) ^ 2 <> 0).
  { replace (_ + _) with ((fst (f t) ^ 2 + snd (f t) ^ 2) ^ 2) by ring. apply pow_nonzero. lra. }
  split; cbn [Cinv Cdiv Cmult Copp fst snd].
  - evar_last. { apply (is_derive_div (fun s => fst (f s)) (fun s => fst (f s) ^ 2 + snd (f s) ^ 2)); [exact F1 | | lra].
      apply (is_derive_plus (K := R_AbsRing) (V := R_NormedModule)); [apply (is_derive_pow (fun s => fst (f s)) 2); exact F1 | apply (is_derive_pow (fun s => snd (f s)) 2); exact F2]. }
    unfold plus; cbn -[pow]. cbn [Init.Nat.pred]. field. split; [exact P3 | cbn in *; lra].
  - evar_last. { apply (is_derive_div (fun s => - snd (f s)) (fun s => fst (f s) ^ 2 + snd (f s) ^ 2)); [apply (is_derive_opp (K := R_AbsRing) (V := R_NormedModule)); exact F2 | | lra].
      apply (is_derive_plus (K := R_AbsRing) (V := R_NormedModule)); [apply (is_derive_pow (fun s => fst (f s)) 2); exact F1 | apply (is_derive_pow (fun s => snd (f s)) 2); exact F2]. }
    unfold plus, opp; cbn -[pow]. cbn [Init.Nat.pred]. field. split; [exact P3 | cbn in *; lra].
Qed.
Lemma derives_div (f g : R -> C) (t : R) (l m : C) : derives f t l -> derives g t m -> g t <> RtoC 0 -> derives (fun s => f s / g s)%C t ((l * g t - f t * m) / (g t * g t))%C.
Proof.
  intros F G N. eapply derives_eq; [exact (derives_mult f (fun s => / g s)%C t l _ F (derives_inv g t m G N))|]. cbn beta. field. exact N.
Qed.

(* logarithm in the right half plane *)
Definition hlog (z : C) : C := (ln (fst z ^ 2 + snd z ^ 2) / 2, atan (snd z / fst z)).
Lemma clog_half (z : C) : 0 < fst z -> clog z = Some (hlog z).
Proof.
  intros H. assert (N : z <> RtoC 0) by (intros ->; cbn in H; lra). unfold clog, hlog. destruct Ceq_dec; [contradiction|]. f_equal. destruct z as [x y]. cbn [fst snd] in *. f_equal.
  - unfold Cmod. cbn [fst snd]. rewrite <- (sqrt_sqrt (x ^ 2 + y ^ 2)) at 2 by nra. rewrite ln_mult by (apply sqrt_lt_R0; nra). lra.
  - cbn. destruct Rlt_dec; [reflexivity|lra].
Qed.
Lemma derives_hlog (f : R -> C) (t : R) (l : C) : derives f t l -> 0 < fst (f t) -> derives (fun s => hlog (f s)) t (l / f t)%C.
Proof.
  intros [F1 F2] P. assert (Q : 0 < fst (f t) ^ 2 + snd (f t) ^ 2) by nra.
  split; cbn [hlog fst snd Cdiv Cmult Cinv].
  - evar_last. { apply (is_derive_comp (fun x => ln x / 2) (fun s => fst (f s) ^ 2 + snd (f s) ^ 2)); [auto_derive; [exact Q | reflexivity]|].
      apply (is_derive_plus (K := R_AbsRing) (V := R_NormedModule)); [apply (is_derive_pow (fun s => fst (f s)) 2); exact F1 | apply (is_derive_pow (fun s => snd (f s)) 2); exact F2]. }
    unfold scal, plus, mult; cbn -[pow]. unfold mult; cbn -[pow]. cbn [Init.Nat.pred]. field. cbn in *; lra.
  - evar_last. { apply (is_derive_comp atan (fun s => snd (f s) / fst (f s))); [apply is_derive_atan|].
      apply (is_derive_div (fun s => snd (f s)) (fun s => fst (f s))); [exact F2 | exact F1 | lra]. }
    unfold scal, mult; cbn -[pow]. unfold mult; cbn -[pow]. unfold Rsqr. field. repeat split; try lra; cbn in *; nra.
Qed.

(* ---- logarithm of a quotient of two numbers with positive real part ---- *)
Lemma angle_eq (x y : R) : Rabs (x - y) < 2 * PI -> cos x = cos y -> sin x = sin y -> x = y.
Proof.
  intros B Hc Hs. assert (C1 : cos (x - y) = 1). { rewrite cos_minus, Hc, Hs. rewrite Rplus_comm. apply sin2_cos2. }
  assert (S0 : Rsqr (sin ((x - y) / 2)) = 0). { replace (x - y) with (2 * ((x - y) / 2)) in C1 by field. rewrite cos_2a_sin in C1. unfold Rsqr. lra. }
  apply Rsqr_0_uniq in S0. apply Rabs_def2 in B. 
  destruct (Rtotal_order x y) as [L|[E|G]]; [|exact E|].
  - assert (0 < sin ((y - x) / 2)) by (apply sin_gt_0; lra). replace ((y - x) / 2) with (- ((x - y) / 2)) in H by field. rewrite sin_neg in H. lra.
  - assert (0 < sin ((x - y) / 2)) by (apply sin_gt_0; lra). lra.
Qed.
Lemma carg_range (z : C) : - PI < carg z <= PI.
Proof.
  destruct z as [x y]. cbn. pose proof PI_RGT_0. pose proof (atan_bound (y / x)).
  destruct (Rlt_dec 0 x); [lra|]. destruct (Rlt_dec x 0).
  - destruct (Rle_dec 0 y).
    + assert (y / x <= 0). { unfold Rdiv. pose proof (Rinv_lt_0_compat x r). nra. }
      assert (atan (y / x) <= 0). { destruct (Req_dec (y / x) 0) as [->|]; [rewrite atan_0; lra|]. rewrite <- atan_0. left. apply atan_increasing. lra. } lra.
    + assert (0 < y / x). { unfold Rdiv. pose proof (Rinv_lt_0_compat x r). nra. }
      assert (0 < atan (y / x)). { rewrite <- atan_0. apply atan_increasing. lra. } lra.
  - destruct (Rlt_dec 0 y); lra.
Qed.
Lemma polar_half (z : C) : 0 < fst z -> cexp (hlog z) = z.
Proof. intros H. apply cexp_clog, clog_half, H. Qed.
Lemma clog_quotient (a b : C) : 0 < fst a -> 0 < fst b -> clog (a / b)%C = Some (hlog a - hlog b)%C.
Proof.
  intros Ha Hb. assert (Nb : b <> RtoC 0) by (intros ->; cbn in Hb; lra). assert (Na : a <> RtoC 0) by (intros ->; cbn in Ha; lra).
  assert (E : cexp (hlog a - hlog b)%C = (a / b)%C). { unfold Cminus. rewrite cexp_add, cexp_opp, !polar_half by assumption. reflexivity. }
  destruct (clog (a / b)%C) as [l|] eqn:L.
  - pose proof (cexp_clog _ _ L) as E2. f_equal.
    assert (M : exp (fst l) = exp (fst (hlog a - hlog b)%C)). { rewrite <- !cexp_mod. rewrite E, E2. reflexivity. }
    apply exp_inv in M. rewrite <- E in E2. apply c_eq; [exact M|].
    unfold cexp in E2. rewrite M in E2. injection E2 as E3 E4. pose proof (exp_pos (fst (hlog a - hlog b)%C)) as P.
    apply angle_eq; [|apply (Rmult_eq_reg_l (exp (fst (hlog a - hlog b)%C))); [exact E3 | lra]|apply (Rmult_eq_reg_l (exp (fst (hlog a - hlog b)%C))); [exact E4 | lra]].
    assert (Rl : - PI < snd l <= PI). { unfold clog in L. destruct Ceq_dec; [discriminate|]. assert (X : snd l = carg (a / b)%C) by (injection L as <-; reflexivity). rewrite X. apply carg_range. }
    pose proof (atan_bound (snd a / fst a)). pose proof (atan_bound (snd b / fst b)). cbn [hlog Cminus Cplus Copp fst snd]. apply Rabs_def1; lra.
  - apply clog_none in L. exfalso. rewrite L in E. exact (cexp_nz _ E).
Qed.

(* ---- the exponent on the strip ---- *)
Lemma regular_strip (p : params) (u : R) : regular p -> strip p u.
Proof. intros (H1 & H2 & H3 & H4). unfold strip. cbn [snd RtoC]. repeat split; try lra. rewrite Ropp_0. replace (p_kappa p - p_rho p * p_vv p * 0) with (p_kappa p) by ring. assert (0 < p_kappa p ^ 2) by (apply pow_lt; lra). lra. Qed.
Section Strip.
Variables (p : params) (u : C).
Hypothesis reg : strip p u.
Let rho := p_rho p. Let eta := p_vv p. Let x := fst u. Let y := - snd u. Let k := p_kappa p - rho * eta * y.
Let W := wval p u. Let D := dval p u.
Let sre := k ^ 2 + eta ^ 2 * x ^ 2 * (1 - rho ^ 2) - eta ^ 2 * (y ^ 2 - y).

Lemma w_val : W = (k, - (rho * eta * x)).
Proof. apply c_eq; unfold W, wval, x, k, y, rho, eta; destruct u; cbn; ring. Qed.
Lemma s_val : (csq W + (csq u + Ci * u) * (p_vv p ^ 2)%R)%C = (sre, eta ^ 2 * x * (1 - 2 * y) - 2 * k * rho * eta * x).
Proof. rewrite w_val. unfold csq, sre. fold eta. clearbody W D. unfold x, y. clear. destruct u as [a b]. apply c_eq; cbn; ring. Qed.
Lemma d_sq : csq D = (csq W + (csq u + Ci * u) * (p_vv p ^ 2)%R)%C.
Proof. unfold D, dval. fold W. apply csqrt_sq. Qed.
Lemma strip_facts : 0 < eta /\ -1 <= rho <= 1 /\ rho * eta <= 2 * p_kappa p /\ 0 < k /\ eta ^ 2 * (y ^ 2 - y) < k ^ 2.
Proof. exact reg. Qed.
Lemma s_re_pos : 0 < sre.
Proof.
  destruct strip_facts as (H1 & H2 & H3 & H4 & H5). assert (0 <= 1 - rho ^ 2) by nra.
  assert (0 <= eta ^ 2 * x ^ 2 * (1 - rho ^ 2)) by (apply Rmult_le_pos; [apply Rmult_le_pos; apply pow2_ge_0 | assumption]). unfold sre. lra.
Qed.
Lemma d_re : 0 < fst D.
Proof. unfold D, dval. apply csqrt_re_pos. fold W. rewrite s_val. apply s_re_pos. Qed.
Lemma d_re_sq : sre <= fst D ^ 2.
Proof. pose proof s_re_pos as P. unfold D, dval. fold W. rewrite s_val. apply (csqrt_re_ge_sqrt (sre, _)). apply Rlt_le. exact P. Qed.
Lemma d_im : 2 * fst D * snd D = eta ^ 2 * x * (1 - 2 * y) - 2 * k * rho * eta * x.
Proof. pose proof d_sq as Q. rewrite s_val in Q. apply (f_equal snd) in Q. cbn [snd csq Cmult] in Q. lra. Qed.
Lemma wd_pos : 0 < fst W * fst D + snd W * snd D.
Proof.
  rewrite w_val. cbn [fst snd]. pose proof d_re as P. pose proof d_re_sq as Q. pose proof d_im as I.
  destruct strip_facts as (H1 & H2 & H3 & H4 & H5).
  apply (Rmult_lt_reg_l (fst D)); [exact P|]. rewrite Rmult_0_r.
  replace (fst D * (k * fst D + - (rho * eta * x) * snd D)) with (k * fst D ^ 2 - rho * eta * x * (2 * fst D * snd D) / 2) by field. rewrite I.
  assert (A : k * sre <= k * fst D ^ 2) by (apply Rmult_le_compat_l; lra).
  assert (B : 0 < k * (k ^ 2 - eta ^ 2 * (y ^ 2 - y))) by (apply Rmult_lt_0_compat; lra).
  assert (Cc : 0 <= eta ^ 2 * x ^ 2 * (k + rho * eta * (2 * y - 1) / 2)).
  { apply Rmult_le_pos; [apply Rmult_le_pos; apply pow2_ge_0|]. unfold k. lra. }
  unfold sre in A. clearbody k. nra.
Qed.
Lemma wd_nz : (W + D)%C <> RtoC 0.
Proof.
  intros H. apply (f_equal fst) in H. rewrite w_val in H. cbn [fst Cplus RtoC] in H. pose proof d_re. destruct strip_facts as (_ & _ & _ & H1 & _). lra.
Qed.
Definition gval : C := ((W - D) / (W + D))%C.
Lemma g_mod : Cmod gval < 1.
Proof.
  unfold gval. rewrite Cmod_div by exact wd_nz. pose proof (proj1 (Cmod_gt_0 _) wd_nz) as P.
  apply (Rmult_lt_reg_r (Cmod (W + D)%C)); [exact P|]. unfold Rdiv. rewrite Rmult_assoc, Rinv_l, Rmult_1_r, Rmult_1_l by lra.
  apply Rsqr_incrst_0; [|apply Cmod_ge_0|apply Cmod_ge_0]. rewrite !Rsqr_pow2, !mod2. cbn [Cminus Cplus Copp fst snd]. pose proof wd_pos. nra.
Qed.
Definition eval_ (t : R) : C := cexp (- D * t)%C.
Lemma e_mod (t : R) : 0 <= t -> Cmod (eval_ t) <= 1.
Proof.
  intros H. unfold eval_. rewrite cexp_mod. cbn [fst snd Cmult Copp RtoC]. pose proof d_re. rewrite <- exp_0. replace (- fst D * t - - snd D * 0) with (- (fst D * t)) by ring.
  assert (0 <= fst D * t) by (apply Rmult_le_pos; lra). destruct (Req_dec (fst D * t) 0) as [->|]; [rewrite Ropp_0; lra|]. left. apply exp_increasing. lra.
Qed.
Lemma small_re (z : C) : Cmod z < 1 -> 0 < fst (1 - z)%C.
Proof. intros H. destruct (mod_bounds z) as [B _]. cbn. unfold Rabs in B. destruct (Rcase_abs (fst z)); lra. Qed.
Lemma ge_re (t : R) : 0 <= t -> 0 < fst (1 - gval * eval_ t)%C.
Proof.
  intros H. apply small_re. rewrite Cmod_mult. pose proof (e_mod t H). pose proof g_mod. pose proof (Cmod_ge_0 (eval_ t)). pose proof (Cmod_ge_0 gval). nra.
Qed.
Lemma g_re : 0 < fst (1 - gval)%C.
Proof. apply small_re, g_mod. Qed.
Lemma half_nz (z : C) : 0 < fst z -> z <> RtoC 0.
Proof. intros H ->. cbn in H. lra. Qed.

Definition fun_b (t : R) : C := ((/ eta ^ 2)%R * ((W - D) * ((1 - eval_ t) / (1 - gval * eval_ t))))%C.
Definition fun_l (t : R) : C := ((/ eta ^ 2)%R * ((W - D) * t - 2 * (hlog (1 - gval * eval_ t)%C - hlog (1 - gval)%C)))%C.
Lemma core_regular (t : R) : 0 <= t -> core W D t (p_vv p) = Some (fun_l t, fun_b t).
Proof.
  intros T. unfold core. rewrite cdiv_some by exact wd_nz. cbn [obind]. fold gval. fold (eval_ t).
  destruct Req_EM_T as [E|_]; [destruct strip_facts as (H & _); unfold eta in H; lra|]. cbn [obind].
  rewrite cdiv_some by (apply half_nz, g_re). cbn [obind]. rewrite clog_quotient by (try apply g_re; apply ge_re; exact T). reflexivity.
Qed.
Lemma eta_nz : RtoC (eta ^ 2) <> RtoC 0.
Proof. intros H. apply (f_equal fst) in H. revert H. apply pow_nonzero. destruct strip_facts as (H' & _). lra. Qed.
Lemma derives_e (t : R) : derives eval_ t (- D * eval_ t)%C.
Proof. apply (derives_exp (- D)%C t). Qed.
Lemma derives_1ge (t : R) : derives (fun s => 1 - gval * eval_ s)%C t (gval * D * eval_ t)%C.
Proof.
  eapply derives_eq. { apply (derives_ext (fun s => 1 + - gval * eval_ s)%C); [intros s; ring|]. apply derives_plus; [apply derives_const | apply derives_scal, derives_e]. }
  ring.
Qed.
Lemma derives_b (t : R) : 0 <= t ->
  derives fun_b t ((eta ^ 2 / 2)%R * fun_b t * fun_b t - W * fun_b t - (1 / 2)%R * (u * u + Ci * u))%C.
Proof.
  intros T. eapply derives_eq.
  { apply derives_scal, derives_scal. apply derives_div; [|apply derives_1ge | apply half_nz, ge_re, T].
    apply (derives_ext (fun s => 1 + - (1) * eval_ s)%C); [intros s; ring|]. apply derives_plus; [apply derives_const | apply derives_scal, derives_e]. }
  cbn beta. pose proof eta_nz as N. pose proof (half_nz _ (ge_re t T)) as G. pose proof wd_nz as Z. pose proof d_sq as Q.
  assert (U : (u * u + Ci * u)%C = ((D * D - W * W) / (eta ^ 2)%R)%C).
  { unfold csq in Q. rewrite Q. fold eta. field. exact N. }
  rewrite U. unfold fun_b. set (e := eval_ t) in *.
  assert (R1 : RtoC (/ eta ^ 2) = (/ (eta ^ 2)%R)%C) by (apply RtoC_inv; intros H; apply N; rewrite H; reflexivity).
  assert (R2 : RtoC (eta ^ 2 / 2) = ((eta ^ 2)%R / 2)%C) by (apply RtoC_div; lra).
  assert (R3 : RtoC (1 / 2) = (/ 2)%C) by (apply c_eq; cbn; field).
  rewrite R1, R2, R3. set (n := RtoC (eta ^ 2)) in *.
  assert (G1 : (1 - gval * e)%C = ((W + D - (W - D) * e) / (W + D))%C) by (unfold gval; field; exact Z).
  assert (G2 : (W + D - (W - D) * e)%C <> RtoC 0). { intros H. apply G. rewrite G1, H. unfold Cdiv. apply Cmult_0_l. }
  rewrite G1. unfold gval. replace (RtoC 2) with (1 + 1)%C by (apply c_eq; cbn; lra). field. repeat split; try assumption. intros H; apply (f_equal fst) in H; cbn in H; lra.
Qed.
Lemma derives_l (t : R) : 0 <= t -> derives fun_l t (fun_b t).
Proof.
  intros T. eapply derives_eq.
  { apply derives_scal. apply (derives_ext (fun s => (W - D) * s + (-2) * (hlog (1 - gval * eval_ s)%C + - hlog (1 - gval)%C))%C).
    { intros s. replace (RtoC (-2)) with (- RtoC 2)%C by (apply c_eq; cbn; ring). ring. }
    apply derives_plus; [apply derives_id|]. apply derives_scal, derives_plus; [|apply derives_const].
    apply derives_hlog; [apply derives_1ge | apply ge_re, T]. }
  cbn beta. unfold fun_b. pose proof (half_nz _ (ge_re t T)) as G. pose proof wd_nz as Z. set (e := eval_ t) in *.
  assert (G1 : (1 - gval * e)%C = ((W + D - (W - D) * e) / (W + D))%C) by (unfold gval; field; exact Z).
  assert (G2 : (W + D - (W - D) * e)%C <> RtoC 0). { intros H. apply G. rewrite G1, H. unfold Cdiv. apply Cmult_0_l. }
  rewrite G1. unfold gval. replace (RtoC (-2)) with (- (1 + 1))%C by (apply c_eq; cbn; ring). field. split; assumption.
Qed.
Lemma zero_b : fun_b 0 = RtoC 0.
Proof.
  unfold fun_b, eval_. replace (- D * 0)%C with (RtoC 0) by ring. rewrite cexp_0. unfold Cdiv. ring.
Qed.
Lemma zero_l : fun_l 0 = RtoC 0.
Proof.
  unfold fun_l, eval_. replace (- D * 0)%C with (RtoC 0) by ring. rewrite cexp_0, Cmult_1_r. ring.
Qed.
Definition sol_a (t : R) : C := ((p_kappa p * p_theta p)%R * fun_l t)%C.
Lemma riccati_solved : riccati p u sol_a fun_b.
Proof.
  split; [unfold sol_a; rewrite zero_l; ring|]. split; [exact zero_b|]. intros t T. split; [exact (derives_b t T)|].
  apply derives_scal, derives_l, T.
Qed.
End Strip.
