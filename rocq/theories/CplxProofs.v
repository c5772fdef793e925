(* Complex exponential, principal square root and logarithm *)
From Coq Require Import Reals Lra Psatz.
From Coquelicot Require Import Complex.
From Verif Require Import ChfModel.
Open Scope R_scope.

Lemma c_eq (x y : C) : fst x = fst y -> snd x = snd y -> x = y.
Proof. destruct x, y; cbn; intros; congruence. Qed.
Ltac c_ring := apply c_eq; cbn -[sqrt exp cos sin]; ring.

Lemma cexp_add (x y : C) : cexp (x + y) = (cexp x * cexp y)%C.
Proof. apply c_eq; cbn [cexp fst snd Cplus Cmult]; rewrite exp_plus; [rewrite cos_plus | rewrite sin_plus]; ring. Qed.
Lemma cexp_0 : cexp 0 = 1%C.
Proof. apply c_eq; cbn; rewrite exp_0; [rewrite cos_0 | rewrite sin_0]; ring. Qed.
Lemma cexp_real (x : R) : cexp x = RtoC (exp x).
Proof. apply c_eq; cbn; [rewrite cos_0 | rewrite sin_0]; ring. Qed.
Lemma mod2 (z : C) : (Cmod z) ^ 2 = fst z ^ 2 + snd z ^ 2.
Proof. unfold Cmod. rewrite <- Rsqr_pow2, Rsqr_sqrt; [reflexivity | nra]. Qed.
Lemma cexp_mod (z : C) : Cmod (cexp z) = exp (fst z).
Proof.
  unfold Cmod, cexp. cbn [fst snd].
  replace ((exp (fst z) * cos (snd z)) ^ 2 + (exp (fst z) * sin (snd z)) ^ 2) with (exp (fst z) ^ 2 * (Rsqr (sin (snd z)) + Rsqr (cos (snd z)))) by (unfold Rsqr; ring).
  rewrite sin2_cos2, Rmult_1_r, <- Rsqr_pow2. apply sqrt_Rsqr. left; apply exp_pos.
Qed.
Lemma cexp_nz (z : C) : cexp z <> 0.
Proof. intros H. pose proof (cexp_mod z) as M. rewrite H, Cmod_0 in M. pose proof (exp_pos (fst z)). lra. Qed.
Lemma cexp_opp (z : C) : cexp (- z) = (/ cexp z)%C.
Proof.
  assert (H : (cexp (- z) * cexp z)%C = 1%C). { rewrite <- cexp_add. rewrite <- cexp_0. f_equal. c_ring. }
  rewrite <- (Cmult_1_r (cexp (- z))), <- (Cinv_r (cexp z)) by apply cexp_nz. rewrite Cmult_assoc, H. c_ring.
Qed.
Lemma cexp_conj (z : C) : cexp (Cconj z) = Cconj (cexp z).
Proof. apply c_eq; cbn; [rewrite cos_neg | rewrite sin_neg]; ring. Qed.

(* ---- square root ---- *)
Lemma mod_bounds (z : C) : Rabs (fst z) <= Cmod z /\ 0 <= Cmod z.
Proof.
  split; [|apply Cmod_ge_0]. pose proof (mod2 z) as M. pose proof (Cmod_ge_0 z).
  apply Rsqr_incr_0_var; [|assumption]. rewrite <- Rsqr_abs. unfold Rsqr. nra.
Qed.
Lemma csqrt_sq (z : C) : csq (csqrt z) = z.
Proof.
  destruct z as [x y]. pose proof (mod2 (x, y)) as M. destruct (mod_bounds (x, y)) as [B B0]. cbn [fst snd] in *.
  assert (H1 : 0 <= (Cmod (x, y) + x) / 2) by (unfold Rabs in B; destruct (Rcase_abs x); lra).
  assert (H2 : 0 <= (Cmod (x, y) - x) / 2) by (unfold Rabs in B; destruct (Rcase_abs x); lra).
  assert (P : sqrt ((Cmod (x, y) + x) / 2) * sqrt ((Cmod (x, y) - x) / 2) = Rabs y / 2).
  { rewrite <- sqrt_mult by assumption.
    replace ((Cmod (x, y) + x) / 2 * ((Cmod (x, y) - x) / 2)) with (Rsqr (Rabs y / 2)).
    - apply sqrt_Rsqr. pose proof (Rabs_pos y). lra.
    - unfold Rsqr. replace (Rabs y / 2 * (Rabs y / 2)) with (Rsqr (Rabs y) / 4) by (unfold Rsqr; field). rewrite <- Rsqr_abs. unfold Rsqr. lra. }
  unfold csq, csqrt. set (s := if Rle_dec 0 y then 1 else -1).
  apply c_eq; cbn [Cmult fst snd].
  - replace (s * sqrt ((Cmod (x, y) - x) / 2) * (s * sqrt ((Cmod (x, y) - x) / 2))) with (s * s * (sqrt ((Cmod (x, y) - x) / 2) * sqrt ((Cmod (x, y) - x) / 2))) by ring.
    rewrite !sqrt_sqrt by assumption. assert (s * s = 1) by (unfold s; destruct Rle_dec; lra). rewrite H. lra.
  - replace (sqrt ((Cmod (x, y) + x) / 2) * (s * sqrt ((Cmod (x, y) - x) / 2)) + s * sqrt ((Cmod (x, y) - x) / 2) * sqrt ((Cmod (x, y) + x) / 2)) with (2 * s * (sqrt ((Cmod (x, y) + x) / 2) * sqrt ((Cmod (x, y) - x) / 2))) by ring.
    rewrite P. unfold s, Rabs. destruct (Rle_dec 0 y), (Rcase_abs y); lra.
Qed.
Lemma csqrt_re_ge (z : C) : 0 <= fst (csqrt z).
Proof. destruct z. apply sqrt_pos. Qed.
Lemma csqrt_re_pos (z : C) : 0 < fst z -> 0 < fst (csqrt z).
Proof. destruct z as [x y]. cbn [fst]. intros H. apply sqrt_lt_R0. pose proof (Cmod_ge_0 (x, y)). lra. Qed.
Lemma csqrt_re_ge_sqrt (z : C) : 0 <= fst z -> fst z <= fst (csqrt z) ^ 2.
Proof.
  destruct z as [x y]. intros H. cbn [csqrt fst]. destruct (mod_bounds (x, y)) as [B B0]. cbn [fst] in *. rewrite Rabs_pos_eq in B by assumption.
  rewrite <- Rsqr_pow2, Rsqr_sqrt; lra.
Qed.
Lemma csqrt_square (x : R) : csqrt (RtoC (x * x)) = RtoC (Rabs x).
Proof.
  unfold csqrt, RtoC. assert (M : Cmod (x * x, 0) = x * x).
  { change (x * x, 0) with (RtoC (x * x)). rewrite Cmod_R. apply Rabs_pos_eq. nra. }
  rewrite M. apply c_eq; cbn [fst snd].
  - replace ((x * x + x * x) / 2) with (Rsqr x) by (unfold Rsqr; lra). apply sqrt_Rsqr_abs.
  - replace ((x * x - x * x) / 2) with 0 by lra. rewrite sqrt_0. ring.
Qed.
Lemma csqrt_conj (z : C) : (snd z = 0 -> 0 <= fst z) -> csqrt (Cconj z) = Cconj (csqrt z).
Proof.
  destruct z as [x y]. cbn [fst snd]. intros H. unfold csqrt, Cconj. cbn [fst snd].
  assert (M : Cmod (x, - y) = Cmod (x, y)). { unfold Cmod. cbn [fst snd]. f_equal. ring. }
  rewrite M. f_equal. destruct (Rle_dec 0 (- y)), (Rle_dec 0 y); try lra.
  assert (y = 0) by lra. subst y. assert (E : Cmod (x, 0) = x). { change (x, 0) with (RtoC x). rewrite Cmod_R. apply Rabs_pos_eq, H; reflexivity. }
  rewrite E. replace ((x - x) / 2) with 0 by lra. rewrite sqrt_0. ring.
Qed.

(* ---- logarithm ---- *)
Lemma carg_polar (z : C) : z <> 0 -> fst z = Cmod z * cos (carg z) /\ snd z = Cmod z * sin (carg z).
Proof.
  destruct z as [x y]. intros N. pose proof (proj1 (Cmod_gt_0 (x, y)) N) as P. pose proof (mod2 (x, y)) as M. cbn [fst snd carg] in *.
  assert (A : x <> 0 -> cos (atan (y / x)) = Rabs x / Cmod (x, y) /\ sin (atan (y / x)) = y / x * (Rabs x / Cmod (x, y))).
  { intros X. assert (S : sqrt (1 + (y / x)²) = Cmod (x, y) / Rabs x).
    { assert (0 < Rabs x) by (apply Rabs_pos_lt; assumption). apply Rsqr_inj; [apply sqrt_pos | apply Rlt_le, Rdiv_lt_0_compat; assumption |].
      rewrite Rsqr_sqrt by (pose proof (Rle_0_sqr (y / x)); lra). replace ((Cmod (x, y) / Rabs x)²) with ((Cmod (x, y) ^ 2) / Rsqr (Rabs x)) by (unfold Rsqr; field; lra). rewrite <- Rsqr_abs, M. unfold Rsqr. field. assumption. }
    rewrite cos_atan, sin_atan, S. assert (0 < Rabs x) by (apply Rabs_pos_lt; assumption). split; field; repeat split; lra. }
  destruct (Rlt_dec 0 x).
  - destruct A as [A1 A2]; [lra|]. rewrite A1, A2, Rabs_pos_eq by lra. split; field; lra.
  - destruct (Rlt_dec x 0).
    + destruct A as [A1 A2]; [lra|]. rewrite Rabs_left in A1, A2 by lra. destruct (Rle_dec 0 y).
      * rewrite neg_cos, neg_sin, A1, A2. split; field; lra.
      * replace (atan (y / x) - PI) with (- (- atan (y / x) + PI)) by ring. rewrite cos_neg, sin_neg, neg_cos, neg_sin, cos_neg, sin_neg, A1, A2. split; field; lra.
    + assert (x = 0) by lra. subst x. assert (Cmod (0, y) = Rabs y).
      { unfold Cmod. cbn [fst snd]. replace (0 ^ 2 + y ^ 2) with (Rsqr y) by (unfold Rsqr; ring). apply sqrt_Rsqr_abs. }
      rewrite H. destruct (Rlt_dec 0 y).
      * rewrite cos_PI2, sin_PI2, Rabs_pos_eq; lra.
      * rewrite cos_neg, sin_neg, cos_PI2, sin_PI2, Rabs_left1; lra.
Qed.
Lemma cexp_clog (z l : C) : clog z = Some l -> cexp l = z.
Proof.
  unfold clog. destruct Ceq_dec as [|N]; [discriminate|]. intros [= <-]. destruct (carg_polar z N) as [H1 H2].
  apply c_eq; cbn [cexp fst snd]; rewrite exp_ln by (apply Cmod_gt_0; assumption); congruence.
Qed.
Lemma clog_1 : clog 1 = Some (RtoC 0).
Proof.
  unfold clog. destruct Ceq_dec as [E|N]; [injection E; lra|]. f_equal. apply c_eq; cbn [fst snd RtoC].
  - rewrite Cmod_1. apply ln_1.
  - cbn. destruct Rlt_dec; [|lra]. replace (0 / 1) with 0 by lra. apply atan_0.
Qed.
Lemma clog_none (z : C) : clog z = None <-> z = 0.
Proof. unfold clog. destruct Ceq_dec; split; intros; congruence. Qed.
Lemma cdiv_some (x y : C) : y <> 0 -> cdiv x y = Some (x / y)%C.
Proof. intros H. unfold cdiv. destruct Ceq_dec; congruence. Qed.
Lemma cdiv_none (x : C) : cdiv x 0 = None.
Proof. unfold cdiv. destruct Ceq_dec; congruence. Qed.
