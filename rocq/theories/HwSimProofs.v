(* Hull-White: simulated paths, and the moments of hw1f2 *)
From Coq Require Import ZArith Reals String List Bool Lra Lia Psatz.
From Coquelicot Require Import Coquelicot.
From Verif Require Import Base NormalModel MonteModel MonteSpec MonteProofs HwModel HwSpec HwProofs.
Import ListNotations.
Open Scope R_scope.

(* ---- interpolation ---- *)
Lemma interp_from_at (h : R) (y : nat -> R) (i k j : nat) (s : R) : 0 < h -> (i <= j < i + k)%nat -> INR j * h <= s < INR (S j) * h ->
  interp_from h y i k s = y j + (y (S j) - y j) / h * (s - INR j * h).
Proof.
  intros H. revert i. induction k as [|k IH]; intros i B S; [lia|]. cbn [interp_from]. destruct Rlt_dec as [L|L].
  - assert (E : j = i). { assert (INR j < INR (Datatypes.S i)) by (apply (Rmult_lt_reg_r h); lra). apply INR_lt in H0. lia. } subst. reflexivity.
  - apply IH; [|exact S]. assert (INR (Datatypes.S i) < INR (Datatypes.S j)) by (apply (Rmult_lt_reg_r h); lra). apply INR_lt in H0. lia.
Qed.
Lemma interp_at (h : R) (y : nat -> R) (n j : nat) (s : R) : 0 < h -> (j < n)%nat -> INR j * h < s < INR (S j) * h ->
  interp_grid h y n s = y j + (y (S j) - y j) / h * (s - INR j * h).
Proof.
  intros H B S. unfold interp_grid. destruct Rle_dec as [L|L]. { assert (0 <= INR j * h) by (apply Rmult_le_pos; [apply pos_INR|lra]). lra. }
  apply interp_from_at; [exact H|lia|lra].
Qed.
Lemma line_integral (alpha a b t0 t1 : R) : alpha <> 0 ->
  is_RInt (fun s => (a + b * (s - t0)) * exp (- alpha * (t1 - s))) t0 t1 ((a + b * (t1 - t0)) / alpha - b / alpha ^ 2 - exp (- alpha * (t1 - t0)) * (a / alpha - b / alpha ^ 2)).
Proof.
  intros A. set (G := fun s => exp (- alpha * (t1 - s)) * ((a + b * (s - t0)) / alpha - b / alpha ^ 2)).
  replace ((a + b * (t1 - t0)) / alpha - b / alpha ^ 2 - exp (- alpha * (t1 - t0)) * (a / alpha - b / alpha ^ 2)) with (minus (G t1) (G t0)).
  2: { unfold G, minus, plus, opp; cbn -[exp pow]. replace (- alpha * (t1 - t1)) with 0 by ring. rewrite exp_0. replace (b * (t0 - t0)) with 0 by ring. field. exact A. }
  apply (is_RInt_derive (V := R_CompleteNormedModule)); intros s _.
  - unfold G. auto_derive; [trivial|]. replace (t1 + - s) with (t1 - s) by ring. field. exact A.
  - apply (ex_derive_continuous (K := R_AbsRing) (V := R_NormedModule)). auto_derive. trivial.
Qed.
Lemma step_excess (quad : integrator) (alpha sigma r0 h : R) (n : nat) (z : nat -> R) (m : scheme) (i : nat) (x : R) : alpha <> 0 -> m <> Other -> (m = Exact -> exact_quad quad /\ 0 < h /\ (i < n)%nat) ->
  step quad alpha sigma h (fun k => alpha * r0 + sigma ^ 2 / (2 * alpha) * (1 - exp (-2 * alpha * (INR k * h)))) n z m i x - r0
  = decay m alpha h * (x - r0) + drift m alpha sigma h i + noise m alpha sigma h * z i.
Proof.
  intros A M X. destruct m; [| | |contradiction].
  - cbn [step]. unfold decay, drift, noise, decay, rate_variance. field. exact A.
  - cbn [step]. unfold decay, drift, noise, decay, rate_variance. field. exact A.
  - destruct (X eq_refl) as (Q & H & B). cbn [step]. set (theta := fun k => alpha * r0 + sigma ^ 2 / (2 * alpha) * (1 - exp (-2 * alpha * (INR k * h)))).
    set (f := fun s => interp_grid h theta n s * exp (- alpha * (INR (S i) * h - s))). set (t0 := INR i * h). set (t1 := INR (S i) * h).
    assert (T : t1 = t0 + h) by (unfold t0, t1; rewrite S_INR; ring).
    assert (I : is_RInt f t0 t1 ((theta i + (theta (S i) - theta i) / h * (t1 - t0)) / alpha - (theta (S i) - theta i) / h / alpha ^ 2 - exp (- alpha * (t1 - t0)) * (theta i / alpha - (theta (S i) - theta i) / h / alpha ^ 2))).
    { eapply (is_RInt_ext (fun s => (theta i + (theta (S i) - theta i) / h * (s - t0)) * exp (- alpha * (t1 - s)))); [|apply line_integral; exact A].
      intros s. rewrite Rmin_left, Rmax_right by lra. intros S. unfold f. rewrite (interp_at h theta n i s H B) by (fold t0 t1; lra). reflexivity. }
    assert (E : quad f t0 t1 = (theta i + (theta (S i) - theta i) / h * (t1 - t0)) / alpha - (theta (S i) - theta i) / h / alpha ^ 2 - exp (- alpha * (t1 - t0)) * (theta i / alpha - (theta (S i) - theta i) / h / alpha ^ 2)).
    { etransitivity; [symmetry; apply (is_RInt_unique (V := R_CompleteNormedModule)), Q; eexists; exact I|]. apply (is_RInt_unique (V := R_CompleteNormedModule)). exact I. }
    rewrite E. replace (t1 - t0) with h by lra. unfold decay, drift, noise, rate_variance. fold t0 t1. unfold theta. fold t0 t1. field. repeat split; lra || exact A.
Qed.
Lemma excess_S (m : scheme) (alpha sigma h : R) (z : nat -> R) (i : nat) :
  excess m alpha sigma h z (S i) = decay m alpha h * excess m alpha sigma h z i + drift m alpha sigma h i + noise m alpha sigma h * z i.
Proof.
  unfold excess. rewrite total_S. replace (S i - 1 - i)%nat with O by lia. rewrite <- total_scal.
  rewrite (total_ext i (fun k => decay m alpha h ^ (S i - 1 - k) * (drift m alpha sigma h k + noise m alpha sigma h * z k)) (fun k => decay m alpha h * (decay m alpha h ^ (i - 1 - k) * (drift m alpha sigma h k + noise m alpha sigma h * z k)))).
  - cbn [pow]. ring.
  - intros k K. replace (S i - 1 - k)%nat with (S (i - 1 - k)) by lia. cbn [pow]. ring.
Qed.
Lemma path_excess (quad : integrator) (alpha sigma r0 h : R) (n : nat) (z : nat -> R) (m : scheme) (i : nat) : alpha <> 0 -> m <> Other -> (m = Exact -> exact_quad quad /\ 0 < h) -> (i <= n)%nat ->
  rate_path quad alpha sigma r0 h (fun k => alpha * r0 + sigma ^ 2 / (2 * alpha) * (1 - exp (-2 * alpha * (INR k * h)))) n z m i = r0 + excess m alpha sigma h z i.
Proof.
  intros A M X B. induction i as [|i IH]. { cbn [rate_path]. unfold excess. rewrite total_0. ring. }
  cbn [rate_path]. rewrite excess_S. pose proof (step_excess quad alpha sigma r0 h n z m i (r0 + excess m alpha sigma h z i) A M) as S.
  rewrite IH by lia. rewrite <- (Rplus_minus r0 (step _ _ _ _ _ _ _ _ _ _)). rewrite S by (intros E; destruct (X E); repeat split; [assumption|assumption|lia]). ring.
Qed.
Lemma excess_ext (m : scheme) (alpha sigma h : R) (z w : nat -> R) (i : nat) : (forall k, (k < i)%nat -> z k = w k) -> excess m alpha sigma h z i = excess m alpha sigma h w i.
Proof. intros E. unfold excess. apply total_ext. intros k K. rewrite E by exact K. reflexivity. Qed.
Lemma excess_total (m : scheme) (alpha sigma h : R) (s : nat) (z : nat -> nat -> R) (i : nat) : (forall k, (k < i)%nat -> total s (fun j => z j k) = 0) ->
  total s (fun j => excess m alpha sigma h (z j) i) = INR s * excess m alpha sigma h (fun _ => 0) i.
Proof.
  induction i as [|i IH]; intros Z. { rewrite (total_ext s _ (fun _ => 0)) by (intros; unfold excess; apply total_0). rewrite total_const. unfold excess. rewrite total_0. ring. }
  rewrite excess_S. rewrite (total_ext s _ (fun j => (decay m alpha h * excess m alpha sigma h (z j) i + drift m alpha sigma h i) + noise m alpha sigma h * z j i)) by (intros; apply excess_S).
  rewrite !total_plus, !total_scal, total_const, IH by (intros; apply Z; lia). rewrite Z by lia. ring.
Qed.

(* ---- the simulation ---- *)
Lemma steps_pos (normal : normals) (steps sims : Z) (anti : bool) (seed : Z) (a : arr3 R) : generate_rand_nbs normal steps 1 sims anti seed = Ok a -> (1 <= steps)%Z /\ (1 <= sims)%Z.
Proof. intros G. destruct (proj1 (generate_iff normal steps 1 sims anti seed) (ex_intro _ a G)) as (_ & S & _ & T & _). split; assumption. Qed.
Lemma draws_width (normal : normals) (steps sims : Z) (anti : bool) (seed : Z) (a : arr3 R) : generate_rand_nbs normal steps 1 sims anti seed = Ok a -> d2 a = Z.to_nat sims \/ (d2 a <> 1%nat).
Proof.
  unfold generate_rand_nbs. intros G. repeat match type of G with (bind (guard ?b _) _ = _) => destruct b; [cbn [guard bind] in G|discriminate] end.
  destruct anti; injection G as <-; cbn [d2]; [right; lia|left; reflexivity].
Qed.
Lemma simulate_inv (normal : normals) (quad : integrator) (r0 alpha sigma tau : R) (steps sims : Z) (anti : bool) (seed : Z) (method : string) (x : simulation) :
  hw_simulate normal quad r0 alpha sigma tau steps sims anti seed method = Ok x ->
  exists a : arr3 R, generate_rand_nbs normal steps 1 sims anti seed = Ok a /\ alpha <> 0 /\ s_steps x = Z.to_nat steps /\ s_sims x = Z.to_nat sims
  /\ (scheme_of method <> Other -> d2 a = Z.to_nat sims)
  /\ (let h := tau / IZR steps in let theta := fun k => alpha * r0 + sigma ^ 2 / (2 * alpha) * (1 - exp (-2 * alpha * (INR k * h))) in
      let draw := fun j i => el a i 0%nat (if Nat.eqb (d2 a) 1 then O else j) in
      (forall i, s_time x i = INR i * h)
      /\ (forall i j, s_rate x i j = rate_path quad alpha sigma r0 h theta (Z.to_nat steps) (draw j) (scheme_of method) i)
      /\ (forall i j, s_discount x i j = exp (- rate_integral quad alpha sigma r0 h theta (Z.to_nat steps) (draw j) (scheme_of method) i))
      /\ (forall i j, s_zero_rate x i j = zero_rate_of (INR i * h) (s_discount x i j))
      /\ (forall i, s_avg_discount x i = average (Z.to_nat sims) (s_discount x i))
      /\ (forall i, s_avg_zero_rate x i = zero_rate_of (INR i * h) (s_avg_discount x i))).
Proof.
  intros H. unfold hw_simulate in H. destruct (generate_rand_nbs normal steps 1 sims anti seed) as [a|] eqn:G; [|discriminate]. cbn [bind] in H.
  unfold eqb in H. destruct (Req_EM_T (2 * alpha) 0) as [|A]; [discriminate|]. cbn [negb guard bind] in H.
  match type of H with (bind (guard ?b _) _ = _) => destruct b eqn:W; [|discriminate] end. cbn [guard bind] in H. injection H as <-. exists a. cbn.
  split; [reflexivity|]. split; [intros ->; apply A; ring|]. split; [reflexivity|]. split; [reflexivity|]. split.
  { intros M. assert (W' : Nat.eqb (d2 a) (Z.to_nat sims) || Nat.eqb (d2 a) 1 = true) by (destruct (scheme_of method); (exact W || contradiction)). clear W.
    apply orb_prop in W'. destruct W' as [W|W]; apply Nat.eqb_eq in W; [exact W|]. destruct (draws_width _ _ _ _ _ _ G) as [E|E]; [exact E|contradiction]. }
  repeat split. intros i. unfold average. rewrite sum_to_total. reflexivity.
Qed.
Lemma simulate_rate (normal : normals) (quad : integrator) (r0 alpha sigma tau : R) (steps sims : Z) (anti : bool) (seed : Z) (method : string) (x : simulation) :
  hw_simulate normal quad r0 alpha sigma tau steps sims anti seed method = Ok x -> scheme_of method <> Other -> (scheme_of method = Exact -> exact_quad quad /\ 0 < tau) ->
  exists a : arr3 R, generate_rand_nbs normal steps 1 sims anti seed = Ok a /\ d2 a = Z.to_nat sims /\
  forall i j, (i <= Z.to_nat steps)%nat -> (j < Z.to_nat sims)%nat -> s_rate x i j = r0 + excess (scheme_of method) alpha sigma (tau / IZR steps) (fun k => el a k 0%nat j) i.
Proof.
  intros H M X. destruct (simulate_inv _ _ _ _ _ _ _ _ _ _ _ _ H) as (a & G & A & _ & _ & W & _ & Rt & _). exists a. specialize (W M). split; [exact G|]. split; [exact W|]. intros i j I J.
  destruct (steps_pos _ _ _ _ _ _ G) as [S1 _]. assert (SP : 0 < IZR steps) by (apply IZR_lt; lia).
  rewrite Rt, path_excess; [|exact A|exact M| |exact I].
  - f_equal. apply excess_ext. intros k _. destruct (Nat.eqb (d2 a) 1) eqn:E; [|reflexivity]. apply Nat.eqb_eq in E. f_equal. lia.
  - intros E. destruct (X E). split; [assumption|]. apply Rdiv_lt_0_compat; assumption.
Qed.
Lemma average_total (n : nat) (f : nat -> R) (c : R) : (0 < n)%nat -> total n f = INR n * c -> average n f = c.
Proof. intros N E. unfold average. rewrite E. field. apply not_0_INR. lia. Qed.
Lemma even_average (normal : normals) (quad : integrator) (r0 alpha sigma tau : R) (steps seed : Z) (m : nat) (method : string) (x : simulation) :
  hw_simulate normal quad r0 alpha sigma tau steps (2 * Z.of_nat m) true seed method = Ok x -> scheme_of method <> Other -> (scheme_of method = Exact -> exact_quad quad /\ 0 < tau) ->
  forall i, (i <= Z.to_nat steps)%nat -> average (2 * m) (s_rate x i) = r0 + excess (scheme_of method) alpha sigma (tau / IZR steps) (fun _ => 0) i.
Proof.
  intros H M X i I. destruct (simulate_rate _ _ _ _ _ _ _ _ _ _ _ _ H M X) as (a & G & W & Rt). destruct (steps_pos _ _ _ _ _ _ G) as [_ S1].
  pose proof (proj1 (generate_iff _ _ _ _ _ _) (ex_intro _ a G)) as D. destruct (generate_even normal steps 1 m seed D) as (a' & G' & Sh & _ & Z0). rewrite G in G'. injection G' as <-.
  replace (Z.to_nat (2 * Z.of_nat m)) with (2 * m)%nat in * by lia. apply average_total; [lia|].
  rewrite (total_ext (2 * m) _ (fun j => r0 + excess (scheme_of method) alpha sigma (tau / IZR steps) (fun k => el a k 0%nat j) i)) by (intros j J; apply Rt; [exact I|exact J]).
  rewrite total_plus, total_const, (excess_total (scheme_of method) alpha sigma (tau / IZR steps) (2 * m) (fun j k => el a k 0%nat j)); [ring|]. intros k _. rewrite <- W. apply (Z0 k 0%nat).
Qed.
Lemma excess_sigma_0 (m : scheme) (alpha h : R) (z : nat -> R) (i : nat) : excess m alpha 0 h z i = 0.
Proof.
  induction i as [|i IH]; [unfold excess; apply total_0|]. rewrite excess_S, IH. assert (N : noise m alpha 0 h = 0). { unfold noise. destruct m; try ring. replace (0 ^ 2 / (2 * alpha) * (1 - exp (-2 * alpha * h))) with 0 by (unfold Rdiv; ring). apply sqrt_0. }
  assert (D : drift m alpha 0 h i = 0) by (unfold drift, rate_variance, Rdiv; destruct m; ring). rewrite N, D. ring.
Qed.
Lemma integral_const (quad : integrator) (alpha sigma r0 h : R) (theta : nat -> R) (n : nat) (z : nat -> R) (m : scheme) (c : R) (i : nat) :
  (forall k, (k <= i)%nat -> rate_path quad alpha sigma r0 h theta n z m k = c) -> rate_integral quad alpha sigma r0 h theta n z m i = c * (INR i * h).
Proof.
  induction i as [|i IH]; intros E; [cbn; ring|]. cbn [rate_integral]. rewrite IH by (intros; apply E; lia). rewrite !E by lia. rewrite S_INR. field.
Qed.
(* ---- the mean of the exact scheme ---- *)
Lemma sinh_gt (x : R) : 0 < x -> 2 * x < exp x - exp (- x).
Proof.
  intros H. set (f := fun y => exp y - exp (- y) - 2 * y).
  destruct (MVT_cor2 f (fun c => exp c + exp (- c) - 2) 0 x H) as (c & E & B).
  - intros c _. apply is_derive_Reals. unfold f. auto_derive; [trivial|ring].
  - unfold f in E. rewrite Ropp_0, exp_0 in E. assert (P : exp c + exp (- c) - 2 = (exp (c / 2) - exp (- (c / 2))) ^ 2).
    { replace (exp c) with (exp (c / 2) * exp (c / 2)) by (rewrite <- exp_plus; f_equal; field). replace (exp (- c)) with (exp (- (c / 2)) * exp (- (c / 2))) by (rewrite <- exp_plus; f_equal; field).
      assert (U : exp (c / 2) * exp (- (c / 2)) = 1) by (rewrite <- exp_plus, Rplus_opp_r; apply exp_0). nra. }
    assert (Q : exp (- (c / 2)) < exp (c / 2)) by (apply exp_increasing; lra). assert (0 < exp c + exp (- c) - 2) by (rewrite P; apply pow2_gt_0; lra). nra.
Qed.
Definition mean_excess (alpha sigma t : R) : R := sigma ^ 2 / (2 * alpha ^ 2) * (1 - exp (- alpha * t)) ^ 2.
Lemma exp_sq (x : R) : exp (-2 * x) = exp (- x) * exp (- x). Proof. rewrite <- exp_plus. f_equal. ring. Qed.
Lemma drift_gap (alpha sigma h : R) (k : nat) : 0 < alpha -> 0 < h ->
  mean_excess alpha sigma (INR (S k) * h) - exp (- alpha * h) * mean_excess alpha sigma (INR k * h) - drift Exact alpha sigma h k
  = sigma ^ 2 / (2 * alpha ^ 2) * ((1 - exp (- (alpha * h))) * exp (- (alpha * (INR k * h))) ^ 2 * exp (- (alpha * h)) * (exp (alpha * h) - exp (- (alpha * h)) - 2 * (alpha * h)) / (alpha * h)).
Proof.
  intros A H. unfold mean_excess, drift, rate_variance. replace (-2 * alpha * (INR k * h)) with (-2 * (alpha * (INR k * h))) by ring. replace (-2 * alpha * (INR (S k) * h)) with (-2 * (alpha * (INR (S k) * h))) by ring. rewrite !exp_sq.
  replace (- (alpha * (INR (S k) * h))) with (- (alpha * (INR k * h)) + - (alpha * h)) by (rewrite S_INR; ring). replace (- alpha * (INR (S k) * h)) with (- (alpha * (INR k * h)) + - (alpha * h)) by (rewrite S_INR; ring).
  replace (- alpha * (INR k * h)) with (- (alpha * (INR k * h))) by ring. replace (- alpha * h) with (- (alpha * h)) by ring. rewrite !exp_plus.
  rewrite (exp_Ropp (alpha * h)). assert (N : exp (alpha * h) <> 0) by (apply Rgt_not_eq, exp_pos). field. repeat split; lra || assumption.
Qed.
Lemma exact_biased (alpha sigma h : R) (i : nat) : 0 < alpha -> sigma <> 0 -> 0 < h -> excess Exact alpha sigma h (fun _ => 0) (S i) < mean_excess alpha sigma (INR (S i) * h).
Proof.
  intros A Sg H. assert (Gap : forall k, exp (- alpha * h) * mean_excess alpha sigma (INR k * h) + drift Exact alpha sigma h k < mean_excess alpha sigma (INR (S k) * h)).
  { intros k. pose proof (drift_gap alpha sigma h k A H) as E. assert (AH : 0 < alpha * h) by (apply Rmult_lt_0_compat; assumption). pose proof (sinh_gt _ AH) as Sh.
    assert (0 < sigma ^ 2 / (2 * alpha ^ 2)). { apply Rdiv_lt_0_compat; [|nra]. pose proof (pow2_gt_0 sigma Sg). lra. }
    assert (exp (- (alpha * h)) < 1) by (rewrite <- exp_0; apply exp_increasing; lra).
    assert (0 < sigma ^ 2 / (2 * alpha ^ 2) * ((1 - exp (- (alpha * h))) * exp (- (alpha * (INR k * h))) ^ 2 * exp (- (alpha * h)) * (exp (alpha * h) - exp (- (alpha * h)) - 2 * (alpha * h)) / (alpha * h))).
    { apply Rmult_lt_0_compat; [assumption|]. apply Rdiv_lt_0_compat; [|assumption]. repeat apply Rmult_lt_0_compat; try apply exp_pos; lra. } lra. }
  induction i as [|i IH].
  - rewrite excess_S. unfold excess. rewrite total_0. pose proof (Gap O) as G. replace (mean_excess alpha sigma (INR 0 * h)) with 0 in G; [unfold decay; lra|].
    unfold mean_excess. cbn [INR]. replace (- alpha * (0 * h)) with 0 by ring. rewrite exp_0. unfold Rdiv. ring.
  - rewrite excess_S. pose proof (Gap (S i)) as G. pose proof (exp_pos (- alpha * h)). unfold decay. nra.
Qed.
(* ---- average discount factors ---- *)
Lemma ln_le (y : R) : 0 < y -> ln y <= y - 1.
Proof. intros P. pose proof (exp_ineq1_le (ln y)) as E. rewrite exp_ln in E by exact P. lra. Qed.
Lemma total_pos_sum (n : nat) (f : nat -> R) : (0 < n)%nat -> (forall j, (j < n)%nat -> 0 < f j) -> 0 < total n f.
Proof.
  intros N P. destruct n; [lia|]. rewrite total_S. assert (0 <= total n f) by (apply total_nonneg; intros; left; apply P; lia). pose proof (P n ltac:(lia)). lra.
Qed.
Lemma jensen (n : nat) (f : nat -> R) : (0 < n)%nat -> (forall j, (j < n)%nat -> 0 < f j) -> average n (fun j => ln (f j)) <= ln (average n f).
Proof.
  intros N P. assert (Np : 0 < INR n) by (apply lt_0_INR; exact N). set (a := average n f).
  assert (A : 0 < a) by (apply Rdiv_lt_0_compat; [apply total_pos_sum; assumption|exact Np]).
  assert (L : total n (fun j => ln (f j)) <= total n (fun j => (/ a * f j) + (ln a - 1))).
  { assert (G : forall k, (k <= n)%nat -> total k (fun j => ln (f j)) <= total k (fun j => / a * f j + (ln a - 1))).
    { induction k as [|k IH]; intros K; [rewrite !total_0; lra|]. rewrite !total_S. specialize (IH ltac:(lia)). assert (F : 0 < f k) by (apply P; lia).
      pose proof (ln_le (f k / a) (Rdiv_lt_0_compat _ _ F A)) as E. unfold Rdiv in E. rewrite ln_mult, ln_Rinv in E by (try apply Rinv_0_lt_compat; assumption). lra. }
    apply G. lia. }
  rewrite total_plus, total_scal, total_const in L. assert (T : total n f = INR n * a) by (unfold a, average; field; lra). rewrite T in L. unfold average.
  apply Rmult_le_reg_r with (INR n); [exact Np|]. unfold Rdiv. rewrite Rmult_assoc, Rinv_l by lra. assert (/ a * (INR n * a) = INR n) by (field; lra). lra.
Qed.
Lemma exact_variance (alpha sigma h : R) (i : nat) : 0 < alpha -> 0 <= h ->
  total i (fun k => (decay Exact alpha h ^ (i - 1 - k) * noise Exact alpha sigma h) ^ 2) = rate_variance alpha sigma (INR i * h).
Proof.
  intros A H. assert (N : noise Exact alpha sigma h ^ 2 = sigma ^ 2 / (2 * alpha) * (1 - exp (-2 * alpha * h))).
  { unfold noise. rewrite <- Rsqr_pow2. apply Rsqr_sqrt. pose proof (decay_nonneg alpha h A H). replace (sigma ^ 2 / (2 * alpha) * (1 - exp (-2 * alpha * h))) with (sigma ^ 2 * ((1 - exp (-2 * alpha * h)) / (2 * alpha))) by (field; lra).
    apply Rmult_le_pos; [apply pow2_ge_0|assumption]. }
  induction i as [|i IH]. { rewrite total_0. unfold rate_variance. cbn [INR]. replace (-2 * alpha * (0 * h)) with 0 by ring. rewrite exp_0. ring. }
  rewrite total_S. replace (S i - 1 - i)%nat with O by lia.
  rewrite (total_ext i _ (fun k => decay Exact alpha h ^ 2 * (decay Exact alpha h ^ (i - 1 - k) * noise Exact alpha sigma h) ^ 2)).
  2: { intros k K. replace (S i - 1 - k)%nat with (S (i - 1 - k)) by lia. cbn [pow]. ring. }
  rewrite total_scal, IH. cbn [pow]. rewrite Rmult_1_l. replace (noise Exact alpha sigma h * (noise Exact alpha sigma h * 1)) with (noise Exact alpha sigma h ^ 2) by ring. rewrite N. unfold rate_variance, decay.
  replace (-2 * alpha * (INR (S i) * h)) with (-2 * alpha * (INR i * h) + -2 * alpha * h) by (rewrite S_INR; ring). rewrite exp_plus. replace (-2 * alpha * h) with (- alpha * h + - alpha * h) by ring. rewrite exp_plus. ring.
Qed.
Lemma excess_split (m : scheme) (alpha sigma h : R) (z : nat -> R) (i : nat) :
  excess m alpha sigma h z i = excess m alpha sigma h (fun _ => 0) i + total i (fun k => decay m alpha h ^ (i - 1 - k) * noise m alpha sigma h * z k).
Proof. unfold excess. rewrite <- total_plus. apply total_ext. intros k _. ring. Qed.

(* ---- hw1f2 ---- *)
Lemma y_integral_is (k vol t0 t : R) : k <> 0 -> is_RInt (fun u => vol ^ 2 * exp (2 * k * u)) t0 t (y_integral t0 t vol k).
Proof.
  intros K. set (G := fun u => vol ^ 2 * exp (2 * k * u) / (2 * k)). replace (y_integral t0 t vol k) with (minus (G t) (G t0)) by (unfold y_integral, G, minus, plus, opp; cbn -[exp pow]; field; exact K).
  apply (is_RInt_derive (V := R_CompleteNormedModule)); intros u _; [unfold G; auto_derive; [trivial|]; field; exact K|]. apply (ex_derive_continuous (K := R_AbsRing) (V := R_NormedModule)). auto_derive. trivial.
Qed.
Lemma y_from_integral (k vol t0 t y0 : R) : k <> 0 ->
  is_RInt (fun s => exp (k * s) * y_from t0 y0 vol k s) t0 t (ex_integral t0 t vol k (exp (2 * k * t0) * y0)).
Proof.
  intros K. set (G := fun s => vol ^ 2 / (2 * k ^ 2) * exp (k * s) + (vol ^ 2 / (2 * k ^ 2) - y0 / k) * (exp (2 * k * t0) * exp (- k * s))).
  replace (ex_integral t0 t vol k (exp (2 * k * t0) * y0)) with (minus (G t) (G t0)) by (unfold ex_integral, G, minus, plus, opp; cbn -[exp pow]; field; exact K).
  apply (is_RInt_derive (V := R_CompleteNormedModule)); intros u _.
  - unfold G. auto_derive; [trivial|]. unfold y_from. replace (exp (-2 * k * (u - t0))) with (exp (2 * k * t0) * (exp (- k * u) * exp (- k * u))) by (rewrite <- !exp_plus; f_equal; ring).
    assert (U : exp (k * u) * exp (- k * u) = 1) by (rewrite <- exp_plus; replace (k * u + - k * u) with 0 by ring; apply exp_0).
    match goal with |- _ = exp (k * u) * (?e * (?a * ?a) * y0 + ?c * (1 - ?e * (?a * ?a))) => replace (exp (k * u) * (e * (a * a) * y0 + c * (1 - e * (a * a)))) with (exp (k * u) * a * e * a * y0 + c * (exp (k * u) - exp (k * u) * a * e * a)) by ring end.
    rewrite U. field. exact K.
  - apply (ex_derive_continuous (K := R_AbsRing) (V := R_NormedModule)). unfold y_from. auto_derive. trivial.
Qed.
Lemma y_t_closed (t vol k : R) : k <> 0 -> y_t t vol k = vol ^ 2 / (2 * k) * (1 - exp (-2 * k * t)).
Proof. intros K. unfold y_t, y_integral. replace (2 * k * 0) with 0 by ring. rewrite exp_0. assert (U : exp (-2 * k * t) * exp (2 * k * t) = 1) by (rewrite <- exp_plus; replace (-2 * k * t + 2 * k * t) with 0 by ring; apply exp_0).
  replace (exp (-2 * k * t) * (vol * vol / (2 * k) * (exp (2 * k * t) - 1))) with (vol * vol / (2 * k) * (exp (-2 * k * t) * exp (2 * k * t) - exp (-2 * k * t))) by ring. rewrite U. field. exact K. Qed.
Lemma ex_0 (k vol t : R) : k <> 0 -> ex_integral 0 t vol k 0 * exp (- k * t) = x_mean k vol t.
Proof.
  intros K. unfold ex_integral, x_mean. replace (k * 0) with 0 by ring. replace (2 * k * 0) with 0 by ring. replace (- k * 0) with 0 by ring. rewrite exp_0.
  assert (U : exp (k * t) * exp (- k * t) = 1) by (rewrite <- exp_plus; replace (k * t + - k * t) with 0 by ring; apply exp_0).
  replace (((exp (k * t) - 1 + 1 * (exp (- k * t) - 1)) * vol ^ 2 / (2 * k * k) + 0 * (1 - exp (- k * t)) / k) * exp (- k * t)) with ((exp (k * t) * exp (- k * t) - exp (- k * t) + exp (- k * t) * exp (- k * t) - exp (- k * t)) * vol ^ 2 / (2 * k * k)) by (field; exact K).
  rewrite U. field. exact K.
Qed.
Lemma cond_mean (k vol : R) (t : nat -> R) (i : nat) : k <> 0 -> conditional_mean k vol t i = x_mean k vol (t (S i)) - exp (- k * (t (S i) - t i)) * x_mean k vol (t i).
Proof.
  intros K. rewrite <- (ex_0 k vol (t (S i)) K), <- (ex_0 k vol (t i) K). unfold conditional_mean. replace (exp (- k * t (S i))) with (exp (- k * (t (S i) - t i)) * exp (- k * t i)) by (rewrite <- exp_plus; f_equal; ring). ring.
Qed.
Lemma cond_var (k vol : R) (t : nat -> R) (i : nat) : k <> 0 -> conditional_variance k vol t i = y_t (t (S i)) vol k - exp (- k * (t (S i) - t i)) ^ 2 * y_t (t i) vol k.
Proof.
  intros K. unfold conditional_variance, variance_int, y_t, y_integral. replace (exp (- k * (t (S i) - t i)) ^ 2) with (exp (-2 * k * t (S i)) * exp (2 * k * t i)) by (cbn [pow]; rewrite Rmult_1_r, <- !exp_plus; f_equal; ring).
  replace (exp (-2 * k * t (S i)) * exp (2 * k * t i) * (exp (-2 * k * t i) * (vol * vol / (2 * k) * (exp (2 * k * t i) - exp (2 * k * 0))))) with (exp (-2 * k * t (S i)) * (exp (2 * k * t i) * exp (-2 * k * t i)) * (vol * vol / (2 * k) * (exp (2 * k * t i) - exp (2 * k * 0)))) by ring.
  assert (U : exp (2 * k * t i) * exp (-2 * k * t i) = 1) by (rewrite <- exp_plus; replace (2 * k * t i + -2 * k * t i) with 0 by ring; apply exp_0). rewrite U. ring.
Qed.
Lemma cond_var_nonneg (k vol : R) (t : nat -> R) (i : nat) : k <> 0 -> t i <= t (S i) -> 0 <= conditional_variance k vol t i.
Proof.
  intros K L. unfold conditional_variance, variance_int. apply Rmult_le_pos; [|left; apply exp_pos].
  match goal with |- 0 <= ?x => replace x with (vol ^ 2 * ((exp (2 * k * t (S i)) - exp (2 * k * t i)) / (2 * k))) by (field; exact K) end. apply Rmult_le_pos; [apply pow2_ge_0|].
  destruct (Rlt_dec 0 k) as [P|P].
  - apply Rmult_le_pos; [|left; apply Rinv_0_lt_compat; lra]. assert (exp (2 * k * t i) <= exp (2 * k * t (S i))) by (apply exp_le; nra). lra.
  - assert (exp (2 * k * t (S i)) <= exp (2 * k * t i)) by (apply exp_le; nra). assert (/ (2 * k) < 0) by (apply Rinv_lt_0_compat; lra). unfold Rdiv. nra.
Qed.
Definition x_weight (k vol : R) (t : nat -> R) (i j : nat) : R := exp (- k * (t i - t (S j))) * sqrt (conditional_variance k vol t j).
Lemma x_closed (k vol : R) (t z : nat -> R) (i : nat) : k <> 0 -> t O = 0 -> (forall j, (j < i)%nat -> t j <= t (S j)) ->
  x_path k vol t z i = x_mean k vol (t i) + total i (fun j => x_weight k vol t i j * z j) /\ total i (fun j => x_weight k vol t i j ^ 2) = y_t (t i) vol k.
Proof.
  intros K T0. induction i as [|i IH]; intros Mo.
  - rewrite !total_0, T0. cbn [x_path]. split.
    + unfold x_mean. replace (- k * 0) with 0 by ring. rewrite exp_0. unfold Rdiv. ring.
    + rewrite y_t_closed by exact K. replace (-2 * k * 0) with 0 by ring. rewrite exp_0. ring.
  - destruct IH as [A B]; [intros; apply Mo; lia|]. pose proof (cond_var_nonneg k vol t i K (Mo i ltac:(lia))) as V. set (e := exp (- k * (t (S i) - t i))).
    assert (W : forall j, x_weight k vol t (S i) j = e * x_weight k vol t i j). { intros j. unfold x_weight, e. rewrite <- Rmult_assoc, <- exp_plus. do 2 f_equal. ring. }
    assert (L : x_weight k vol t (S i) i = sqrt (conditional_variance k vol t i)). { unfold x_weight. replace (- k * (t (S i) - t (S i))) with 0 by ring. rewrite exp_0. ring. }
    split.
    + cbn [x_path]. fold e. rewrite A, (cond_mean k vol t i K). fold e. rewrite Rmax_left by exact V. rewrite total_S, L.
      rewrite (total_ext i (fun j => x_weight k vol t (S i) j * z j) (fun j => e * (x_weight k vol t i j * z j))) by (intros; rewrite W; ring). rewrite total_scal. ring.
    + rewrite total_S, L. rewrite (total_ext i (fun j => x_weight k vol t (S i) j ^ 2) (fun j => e ^ 2 * x_weight k vol t i j ^ 2)) by (intros; rewrite W; ring). rewrite total_scal, B.
      rewrite pow2_sqrt by exact V. rewrite (cond_var k vol t i K). fold e. ring.
Qed.
