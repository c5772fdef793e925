(* Paths as products of growths, their moments and limits. *)
From Coq Require Import ZArith Reals List Bool Lra Lia.
From Coquelicot Require Import Coquelicot.
From Flocq Require Import Core.
From Verif Require Import Base NormalModel NormalProofs BsProofs MonteModel HwModel MeanSpec MeanProofs PathMeanProofs MomentProofs SchemeModel SchemeSpec.
Import ListNotations.
Open Scope R_scope.

Lemma power_three_halves dt : 0 < dt -> Rpower dt (3 / 2) = dt * sqrt dt.
Proof. intros H. replace (3 / 2) with (1 + / 2) by field. rewrite Rpower_plus, Rpower_1, Rpower_sqrt by assumption. reflexivity. Qed.
Lemma product_app a b : product (a ++ b) = product a * product b.
Proof. induction a as [|x a IH]; cbn; [ring|]. rewrite IH. ring. Qed.

(* ---- cumulated lists ---- *)
Lemma cumulate_length {A} (op : A -> R -> A) l : forall acc, length (cumulate op acc l) = length l.
Proof. induction l as [|a l IH]; intros acc; cbn; [reflexivity|]. rewrite IH. reflexivity. Qed.
Lemma cumulate_nth {A} (op : A -> R -> A) l : forall acc k, (k < length l)%nat -> nth_error (cumulate op acc l) k = Some (fold_left op (firstn (S k) l) acc).
Proof.
  induction l as [|a l IH]; intros acc k K; cbn in K; [lia|]. destruct k as [|k]; [reflexivity|]. cbn [cumulate nth_error]. rewrite IH by lia. reflexivity.
Qed.
Lemma fold_mult (f : R -> R) l : forall acc, fold_left (fun x r => x * f r) l acc = acc * product (map f l).
Proof. induction l as [|a l IH]; intros acc; cbn; [ring|]. rewrite IH. ring. Qed.
Lemma fold_mult' l : forall acc, fold_left Rmult l acc = acc * product l.
Proof. induction l as [|a l IH]; intros acc; cbn; [ring|]. rewrite IH. ring. Qed.
Lemma fold_plus_exp l : forall acc, exp (fold_left Rplus l acc) = exp acc * product (map exp l).
Proof. induction l as [|a l IH]; intros acc; cbn; [ring|]. rewrite IH, exp_plus. ring. Qed.
Lemma list_ext {A} (l l' : list A) : length l = length l' -> (forall k, (k < length l)%nat -> nth_error l k = nth_error l' k) -> l = l'.
Proof.
  revert l'. induction l as [|a l IH]; intros [|b l'] L H; cbn in L; try lia; [reflexivity|]. pose proof (H O ltac:(cbn; lia)) as H0. cbn in H0. injection H0 as ->. f_equal. apply IH; [lia|]. intros k K. exact (H (S k) ltac:(cbn; lia)).
Qed.

(* the path after k steps *)
Definition path (f : R -> R) (x0 : R) (z : list R) : list R := x0 :: map (fun k => x0 * product (map f (firstn (S k) z))) (seq 0 (length z)).
Lemma path_length f x0 z : length (path f x0 z) = S (length z). Proof. cbn. rewrite map_length, seq_length. reflexivity. Qed.
Lemma path_nth f x0 z k : (k <= length z)%nat -> nth_error (path f x0 z) k = Some (x0 * product (map f (firstn k z))).
Proof.
  intros K. destruct k as [|k]; [cbn; f_equal; ring|]. cbn [path nth_error]. rewrite (map_nth_error _ _ _ (d := k)); [reflexivity|]. rewrite nth_error_nth' with (d := O) by (rewrite seq_length; lia). rewrite seq_nth by lia. reflexivity.
Qed.
Lemma path_ext f g x0 z : (forall r, f r = g r) -> path f x0 z = path g x0 z.
Proof. intros H. unfold path. f_equal. apply map_ext. intros k. f_equal. f_equal. apply map_ext. exact H. Qed.
Lemma path_is f x0 z x : length x = length z -> (forall k, (k < length z)%nat -> nth_error x k = Some (x0 * product (map f (firstn (S k) z)))) -> x0 :: x = path f x0 z.
Proof.
  intros L H. apply list_ext; [rewrite path_length; cbn; lia|]. intros k K. cbn in K. destruct k as [|k]; [reflexivity|]. cbn [nth_error]. rewrite H by lia. symmetry. apply (path_nth f x0 z (S k)). lia.
Qed.
Lemma recursion_path (f : R -> R) x0 z : x0 :: cumulate (fun x r => x * f r) x0 z = path f x0 z.
Proof. apply path_is; [apply cumulate_length|]. intros k K. rewrite cumulate_nth by exact K. rewrite fold_mult. reflexivity. Qed.
Lemma product_path (f : R -> R) x0 z : x0 :: map (Rmult x0) (cumprod (map f z)) = path f x0 z.
Proof.
  apply path_is; [rewrite map_length; unfold cumprod; rewrite cumulate_length, map_length; reflexivity|]. intros k K. unfold cumprod. erewrite map_nth_error by (apply cumulate_nth; rewrite map_length; exact K). rewrite fold_mult', firstn_map. f_equal. ring.
Qed.
Lemma sum_path (f : R -> R) x0 z : x0 :: map (fun s => x0 * exp s) (cumsum (map f z)) = path (fun r => exp (f r)) x0 z.
Proof.
  apply path_is; [rewrite map_length; unfold cumsum; rewrite cumulate_length, map_length; reflexivity|]. intros k K. unfold cumsum. erewrite map_nth_error by (apply cumulate_nth; rewrite map_length; exact K). rewrite fold_plus_exp, exp_0, firstn_map, map_map. f_equal. ring.
Qed.

Lemma gbm_path x0 mu sigma T dt z method : simulate_gbm x0 mu sigma T dt z method = let* _ := checked T dt z in match growth method with Some f => Ok (path (f mu sigma dt) x0 z) | None => Err NameError end.
Proof.
  unfold simulate_gbm. destruct (checked T dt z) as [[]|e] eqn:C; cbn [bind]; [|reflexivity].
  assert (P : 0 < dt). { unfold checked in C. destruct (nb_of_steps T dt); cbn [bind] in C; [|discriminate]. destruct (guard _ _); cbn [bind] in C; [|discriminate]. unfold ltb in C. destruct (Rlt_dec 0 dt); [assumption|discriminate]. }
  destruct method as [|[[|[]|]|[]|]|]; cbn [growth bind]; try reflexivity; f_equal.
  - rewrite sum_path. apply path_ext. intros r. unfold exact_growth. f_equal. field.
  - rewrite product_path. apply path_ext. intros r. unfold second_growth, milstein_growth. rewrite power_three_halves by exact P. field.
  - rewrite product_path. apply path_ext. intros r. unfold milstein_growth. field.
  - rewrite product_path. apply path_ext. intros r. reflexivity.
Qed.
Lemma prange_path junk x0 mu sigma T dt z method : simulate_gbm_numba_prange junk x0 mu sigma T dt z method = let* _ := checked T dt z in match growth method with Some f => Ok (path (f mu sigma dt) x0 z) | None => Ok (x0 :: map (fun i => x0 * junk i) (seq 0 (length z))) end.
Proof.
  unfold simulate_gbm_numba_prange. destruct (checked T dt z) as [[]|e] eqn:C; cbn [bind]; [|reflexivity].
  assert (P : 0 < dt). { unfold checked in C. destruct (nb_of_steps T dt); cbn [bind] in C; [|discriminate]. destruct (guard _ _); cbn [bind] in C; [|discriminate]. unfold ltb in C. destruct (Rlt_dec 0 dt); [assumption|discriminate]. }
  destruct method as [|[[|[]|]|[]|]|]; cbn [growth]; try (rewrite map_map; reflexivity); f_equal; rewrite product_path; apply path_ext; intros r.
  - unfold exact_growth. f_equal. field.
  - unfold second_growth, milstein_growth. rewrite power_three_halves by exact P. field.
  - unfold milstein_growth. field.
  - reflexivity.
Qed.
Lemma numba_path junk x0 mu sigma T dt z method : simulate_gbm_numba junk x0 mu sigma T dt z method = let* _ := checked T dt z in match growth method with Some f => Ok (path (f mu sigma dt) x0 z) | None => Ok (x0 :: map junk (seq 1 (length z))) end.
Proof.
  unfold simulate_gbm_numba. destruct (checked T dt z) as [[]|e] eqn:C; cbn [bind]; [|reflexivity].
  assert (P : 0 < dt). { unfold checked in C. destruct (nb_of_steps T dt); cbn [bind] in C; [|discriminate]. destruct (guard _ _); cbn [bind] in C; [|discriminate]. unfold ltb in C. destruct (Rlt_dec 0 dt); [assumption|discriminate]. }
  destruct method as [|[[|[]|]|[]|]|]; cbn [growth]; try reflexivity; f_equal.
  - rewrite (recursion_path (fun r => exp ((mu - 1 / 2 * sigma ^ 2) * dt + sigma * sqrt dt * r))). apply path_ext. intros r. unfold exact_growth. f_equal. field.
  - rewrite (recursion_path (fun r => 1 + mu * dt + sigma * sqrt dt * r + 1 / 2 * sigma ^ 2 * dt * (r ^ 2 - 1) + mu * sigma * r * Rpower dt (3 / 2) + 1 / 2 * mu ^ 2 * dt ^ 2)). apply path_ext. intros r. unfold second_growth, milstein_growth. rewrite power_three_halves by exact P. field.
  - rewrite (recursion_path (fun r => 1 + mu * dt + sigma * sqrt dt * r + 1 / 2 * sigma ^ 2 * dt * (r ^ 2 - 1))). apply path_ext. intros r. unfold milstein_growth. field.
  - apply (recursion_path (fun r => 1 + mu * dt + sigma * sqrt dt * r)).
Qed.
Lemma checked_iff T dt z n : 0 < dt -> Zceil (T / dt) = Z.of_nat n -> length z = n -> checked T dt z = Ok tt.
Proof.
  intros P N L. unfold checked, nb_of_steps, eqb. destruct (Req_EM_T dt 0); [lra|]. cbn [negb guard bind]. rewrite N, L, Z.eqb_refl. cbn [guard bind]. unfold ltb. destruct (Rlt_dec 0 dt); [reflexivity|lra].
Qed.
Lemma steps_exact T n : 0 < T -> (0 < n)%nat -> Zceil (T / (T / INR n)) = Z.of_nat n.
Proof. intros P N. pose proof (lt_0_INR n N). replace (T / (T / INR n)) with (IZR (Z.of_nat n)) by (rewrite <- INR_IZR_INZ; field; split; lra). apply Zceil_IZR. Qed.

(* ---- expectations of products ---- *)
Lemma expected_n_product (f : R -> R) m k : expected f m -> expected_n k (fun w => product (map f (map w (seq 0 k)))) (m ^ k).
Proof.
  intros E. induction k as [|k IH]; [intros w; reflexivity|]. exists (fun z => f z * m ^ k). split.
  - intros z. eapply expected_n_ext; [|apply (expected_n_scal k _ _ (f z) IH)]. intros w. cbv beta. cbn [seq map product followed_by]. f_equal. f_equal. rewrite <- seq_shift, !map_map. reflexivity.
  - cbn [pow]. replace (m * m ^ k) with (m ^ k * m) by ring. eapply expected_ext; [|apply (expected_scal f m (m ^ k) E)]. intros z. cbv beta. ring.
Qed.
Lemma product_mult (f g : R -> R) l : product (map f l) * product (map g l) = product (map (fun r => f r * g r) l).
Proof. induction l as [|a l IH]; cbn; [ring|]. rewrite <- IH. ring. Qed.

(* ---- one step ---- *)
Lemma poly_mean p q r : expected (fun z => p + q * z + r * (z ^ 2 - 1)) p.
Proof.
  pose proof (expected_lin _ _ _ _ 1 r (expected_lin _ _ _ _ (p - r) q (expected_const 1) expected_id) expected_sq) as H. match type of H with expected _ ?m => replace m with p in H by ring end. eapply expected_ext; [|exact H]. intros z. cbv beta. ring.
Qed.
Lemma poly_square p q r : expected (fun z => (p + q * z + r * (z ^ 2 - 1)) * (p + q * z + r * (z ^ 2 - 1))) (p ^ 2 + q ^ 2 + 2 * r ^ 2).
Proof.
  pose proof (expected_lin _ _ _ _ 1 1 (expected_lin _ _ _ _ 1 (q ^ 2 + 2 * (p - r) * r) (expected_lin _ _ _ _ ((p - r) ^ 2) (2 * (p - r) * q) (expected_const 1) expected_id) expected_sq) (expected_lin _ _ _ _ (2 * q * r) (r ^ 2) expected_cube expected_fourth)) as H.
  match type of H with expected _ ?m => replace m with (p ^ 2 + q ^ 2 + 2 * r ^ 2) in H by ring end. eapply expected_ext; [|exact H]. intros z. cbv beta. ring.
Qed.
Lemma poly_shift p q r s : expected (fun z => p + q * (z + s) + r * ((z + s) ^ 2 - 1)) (p + q * s + r * s ^ 2).
Proof. eapply expected_ext; [|apply (poly_mean (p + q * s + r * s ^ 2) (q + 2 * r * s) r)]. intros z. cbv beta. ring. Qed.
Lemma exact_split mu sigma h z : 0 < h -> exact_growth mu sigma h z = exp (mu * h) * exp (sigma * sqrt h * z - (sigma * sqrt h) ^ 2 / 2).
Proof. intros H. unfold exact_growth. rewrite <- exp_plus. f_equal. replace ((sigma * sqrt h) ^ 2) with (sigma ^ 2 * h) by (rewrite Rpow_mult_distr, pow2_sqrt by lra; reflexivity). field. Qed.
Lemma poly_cross mu sigma h p q r : 0 < h -> expected (fun z => exact_growth mu sigma h z * (p + q * z + r * (z ^ 2 - 1))) (exp (mu * h) * (p + q * (sigma * sqrt h) + r * (sigma * sqrt h) ^ 2)).
Proof.
  intros H. eapply expected_ext; [|apply (expected_scal _ _ (exp (mu * h)) (expected_tilt (fun z => p + q * z + r * (z ^ 2 - 1)) _ (sigma * sqrt h) (poly_shift p q r (sigma * sqrt h))))]. intros z. cbv beta. rewrite exact_split by exact H. ring.
Qed.
Lemma sqrt_sq sigma h : 0 < h -> (sigma * sqrt h) ^ 2 = sigma ^ 2 * h. Proof. intros H. rewrite Rpow_mult_distr, pow2_sqrt by lra. reflexivity. Qed.

Section step.
  Variables (mu sigma h : R) (P : 0 < h).
  Lemma growth_poly method f : growth method = Some f -> method <> 0%Z -> exists p q r, (forall z, f mu sigma h z = p + q * z + r * (z ^ 2 - 1)) /\
    p = mean_growth method mu sigma h /\ p ^ 2 + q ^ 2 + 2 * r ^ 2 = square_growth method mu sigma h /\ exp (mu * h) * (p + q * (sigma * sqrt h) + r * (sigma * sqrt h) ^ 2) = cross_growth method mu sigma h.
  Proof.
    pose proof (sqrt_sq sigma h P) as Q. destruct method as [|[[|[]|]|[]|]|]; cbn [growth]; intros E N; try discriminate; try contradiction; injection E as <-.
    - exists (1 + mu * h + (mu * h) ^ 2 / 2), (sigma * sqrt h * (1 + mu * h)), (sigma ^ 2 * h / 2). split; [intros z; unfold second_growth, milstein_growth; field|]. split; [reflexivity|]. unfold square_growth, cross_growth. split; [replace ((sigma * sqrt h * (1 + mu * h)) ^ 2) with ((sigma * sqrt h) ^ 2 * (1 + mu * h) ^ 2) by ring; rewrite Q; field|]. rewrite Q. f_equal. replace (sigma * sqrt h * (1 + mu * h) * (sigma * sqrt h)) with ((sigma * sqrt h) ^ 2 * (1 + mu * h)) by ring. rewrite Q. field.
    - exists (1 + mu * h), (sigma * sqrt h), (sigma ^ 2 * h / 2). split; [intros z; unfold milstein_growth; field|]. split; [reflexivity|]. unfold square_growth, cross_growth. split; [rewrite Q; field|]. f_equal. replace (sigma * sqrt h * (sigma * sqrt h)) with ((sigma * sqrt h) ^ 2) by ring. rewrite Q. field.
    - exists (1 + mu * h), (sigma * sqrt h), 0. split; [intros z; unfold euler_growth; ring|]. split; [reflexivity|]. unfold square_growth, cross_growth. split; [rewrite Q; ring|]. f_equal. replace (sigma * sqrt h * (sigma * sqrt h)) with ((sigma * sqrt h) ^ 2) by ring. rewrite Q. ring.
  Qed.
  Lemma growth_mean method f : growth method = Some f -> expected (f mu sigma h) (mean_growth method mu sigma h).
  Proof.
    intros E. destruct (Z.eq_dec method 0) as [->|N].
    - injection E as <-. cbn [mean_growth]. eapply expected_ext; [|rewrite <- (Rmult_1_r (exp (mu * h))); apply (expected_scal _ _ _ (expected_tilt (fun _ => 1) 1 (sigma * sqrt h) (expected_const 1)))]. intros z. cbv beta. rewrite exact_split by exact P. ring.
    - destruct (growth_poly _ _ E N) as (p & q & r & F & <- & _ & _). eapply expected_ext; [|apply poly_mean]. intros z. symmetry. apply F.
  Qed.
  Lemma exact_square : expected (fun z => exact_growth mu sigma h z * exact_growth mu sigma h z) (exp ((2 * mu + sigma ^ 2) * h)).
  Proof.
    replace ((2 * mu + sigma ^ 2) * h) with (2 * ((mu - sigma ^ 2 / 2) * h) + (2 * (sigma * sqrt h)) ^ 2 / 2) by (rewrite Rpow_mult_distr, sqrt_sq by exact P; field). eapply expected_ext; [|apply expected_exp]. intros z. cbv beta. unfold exact_growth. rewrite <- exp_plus. f_equal. ring.
  Qed.
  Lemma growth_square method f : growth method = Some f -> expected (fun z => f mu sigma h z * f mu sigma h z) (square_growth method mu sigma h).
  Proof.
    intros E. destruct (Z.eq_dec method 0) as [->|N]; [injection E as <-; exact exact_square|]. destruct (growth_poly _ _ E N) as (p & q & r & F & _ & <- & _). eapply expected_ext; [|apply poly_square]. intros z. cbv beta. rewrite <- F. reflexivity.
  Qed.
  Lemma growth_cross method f : growth method = Some f -> expected (fun z => exact_growth mu sigma h z * f mu sigma h z) (cross_growth method mu sigma h).
  Proof.
    intros E. destruct (Z.eq_dec method 0) as [->|N].
    - injection E as <-. unfold cross_growth. rewrite <- exp_plus. replace (mu * h + (mu + sigma ^ 2) * h) with ((2 * mu + sigma ^ 2) * h) by ring. exact exact_square.
    - destruct (growth_poly _ _ E N) as (p & q & r & F & _ & _ & <-). eapply expected_ext; [|apply (poly_cross mu sigma h p q r P)]. intros z. cbv beta. rewrite <- F. reflexivity.
  Qed.
End step.

(* ---- values as functions of the numbers ---- *)
Definition value_of (f : R -> R) (x0 : R) (k : nat) (w : nat -> R) : R := x0 * product (map f (map w (seq 0 k))).
Lemma firstn_seq k : forall n s, (k <= n)%nat -> firstn k (seq s n) = seq s k.
Proof. induction k as [|k IH]; intros [|n] s H; cbn; try reflexivity; [lia|]. rewrite IH by lia. reflexivity. Qed.
Lemma value_path x0 mu sigma T dt method f n k : 0 < dt -> Zceil (T / dt) = Z.of_nat n -> growth method = Some f -> (k <= n)%nat -> path_value x0 mu sigma T dt method n k (value_of (f mu sigma dt) x0 k).
Proof.
  intros P N F K w. rewrite gbm_path, (checked_iff T dt _ n P N) by (rewrite map_length; apply seq_length). cbn [bind]. rewrite F. eexists. split; [reflexivity|]. rewrite path_nth by (rewrite map_length, seq_length; exact K). unfold value_of. do 4 f_equal. rewrite firstn_map, firstn_seq by exact K. reflexivity.
Qed.
Lemma value_mean x0 mu sigma h method f k : 0 < h -> growth method = Some f -> expected_n k (value_of (f mu sigma h) x0 k) (x0 * mean_growth method mu sigma h ^ k).
Proof. intros P F. apply (expected_n_scal k (fun w => product (map (f mu sigma h) (map w (seq 0 k))))). apply expected_n_product, growth_mean; assumption. Qed.
Lemma value_square x0 mu sigma h method f k : 0 < h -> growth method = Some f -> expected_n k (fun w => value_of (f mu sigma h) x0 k w ^ 2) (x0 ^ 2 * square_growth method mu sigma h ^ k).
Proof.
  intros P F. eapply expected_n_ext; [|apply (expected_n_scal k _ _ (x0 ^ 2) (expected_n_product _ _ k (growth_square mu sigma h P method f F)))]. intros w. cbv beta. rewrite <- product_mult. unfold value_of. ring.
Qed.
Lemma value_distance x0 mu sigma h method f k : 0 < h -> growth method = Some f ->
  expected_n k (fun w => (value_of (exact_growth mu sigma h) x0 k w - value_of (f mu sigma h) x0 k w) ^ 2) (x0 ^ 2 * (exp ((2 * mu + sigma ^ 2) * h) ^ k - 2 * cross_growth method mu sigma h ^ k + square_growth method mu sigma h ^ k)).
Proof.
  intros P F. pose proof (expected_n_lin k _ _ _ _ (x0 ^ 2) (x0 ^ 2) (expected_n_lin k _ _ _ _ 1 (-2) (expected_n_product _ _ k (exact_square mu sigma h P)) (expected_n_product _ _ k (growth_cross mu sigma h P method f F))) (expected_n_product _ _ k (growth_square mu sigma h P method f F))) as H.
  match type of H with expected_n _ _ ?m => replace m with (x0 ^ 2 * (exp ((2 * mu + sigma ^ 2) * h) ^ k - 2 * cross_growth method mu sigma h ^ k + square_growth method mu sigma h ^ k)) in H by ring end. eapply expected_n_ext; [|exact H]. intros w. cbv beta. rewrite <- !product_mult. unfold value_of. ring.
Qed.

(* ---- limits ---- *)
Lemma ln_near y : Rabs y <= 1 / 2 -> Rabs (ln (1 + y) - y) <= 2 * y ^ 2.
Proof.
  intros H. apply Rabs_le_inv in H. assert (U : forall x, -1 < x -> ln (1 + x) <= x). { intros x X. rewrite <- (ln_exp x) at 2. apply Rcomplements.ln_le; [lra|]. pose proof (exp_ineq1_le x). lra. }
  pose proof (U y ltac:(lra)) as A. assert (B : y / (1 + y) <= ln (1 + y)). { assert (Q : / (1 + y) <= 2) by (apply Rmult_le_reg_l with (1 + y); [lra|]; rewrite Rinv_r by lra; lra). assert (Q0 : 0 < / (1 + y)) by (apply Rinv_0_lt_compat; lra). pose proof (U (- (y / (1 + y)))) as V. replace (1 + - (y / (1 + y))) with (/ (1 + y)) in V by (field; lra). rewrite ln_Rinv in V by lra. assert (-1 < - (y / (1 + y))) by (replace (- (y / (1 + y))) with (-1 + / (1 + y)) by (field; lra); lra). specialize (V ltac:(lra)). lra. }
  assert (D : y / (1 + y) - y = - (y ^ 2 * / (1 + y))) by (field; lra). assert (Q : / (1 + y) <= 2) by (apply Rmult_le_reg_l with (1 + y); [lra|]; rewrite Rinv_r by lra; lra). assert (Q0 : 0 < / (1 + y)) by (apply Rinv_0_lt_compat; lra). pose proof (pow2_ge_0 y). apply Rabs_le. split; nra.
Qed.
Lemma inv_lim : is_lim_seq (fun n => / INR n) 0.
Proof. replace (Finite 0) with (Rbar_inv p_infty) by reflexivity. apply is_lim_seq_inv; [apply is_lim_seq_INR|discriminate]. Qed.
Lemma compound_lim (u : nat -> R) (x : R) : is_lim_seq u x -> is_lim_seq (fun n => (1 + u n * / INR n) ^ n) (exp x).
Proof.
  intros U. assert (Y : is_lim_seq (fun n => u n * / INR n) 0) by (replace 0 with (x * 0) by ring; apply is_lim_seq_mult'; [exact U|apply inv_lim]).
  assert (S1 : eventually (fun n => Rabs (u n * / INR n) <= 1 / 2)). { destruct (proj2 (is_lim_seq_spec _ _) Y (mkposreal (1 / 2) ltac:(lra))) as [N HN]. exists N. intros n Hn. specialize (HN n Hn). cbn in HN. rewrite Rminus_0_r in HN. lra. }
  apply (is_lim_seq_ext_loc (fun n => exp (INR n * ln (1 + u n * / INR n)))).
  { destruct S1 as [N HN]. exists N. intros n Hn. specialize (HN n Hn). apply Rabs_le_inv in HN. rewrite Rmult_comm, <- (Rpower_pow n) by lra. unfold Rpower. f_equal. ring. }
  apply (is_lim_seq_continuous exp); [apply derivable_continuous_pt, derivable_pt_exp|].
  apply (is_lim_seq_ext (fun n => u n + (INR n * ln (1 + u n * / INR n) - u n))); [intros n; ring|]. replace x with (x + 0) by ring. apply is_lim_seq_plus'; [exact U|].
  apply is_lim_seq_abs_0. apply (is_lim_seq_le_le_loc (fun _ => 0) _ (fun n => 2 * (u n ^ 2 * / INR n))); [|apply is_lim_seq_const|].
  - destruct S1 as [N HN]. exists (S N). intros n Hn. split; [apply Rabs_pos|]. pose proof (lt_0_INR n ltac:(lia)) as I. pose proof (ln_near _ (HN n ltac:(lia))) as L. replace (INR n * ln (1 + u n * / INR n) - u n) with (INR n * (ln (1 + u n * / INR n) - u n * / INR n)) by (field; lra). rewrite Rabs_mult, (Rabs_pos_eq (INR n)) by lra. replace (2 * (u n ^ 2 * / INR n)) with (INR n * (2 * (u n * / INR n) ^ 2)) by (field; lra). apply Rmult_le_compat_l; [lra|exact L].
  - replace (Finite 0) with (Finite (2 * (x ^ 2 * 0))) by (f_equal; ring). apply is_lim_seq_mult'; [apply is_lim_seq_const|]. apply is_lim_seq_mult'; [|apply inv_lim]. apply (is_lim_seq_continuous (fun y => y ^ 2)); [reg|exact U].
Qed.
(* (1 + h G(h))^n with h = T / n *)
Lemma compound_poly (G : R -> R) T : continuity_pt G 0 -> is_lim_seq (fun n => (1 + T / INR n * G (T / INR n)) ^ n) (exp (T * G 0)).
Proof.
  intros C. apply (is_lim_seq_ext (fun n => (1 + T * G (T / INR n) * / INR n) ^ n)); [intros n; f_equal; unfold Rdiv; ring|]. apply compound_lim. apply is_lim_seq_mult'; [apply is_lim_seq_const|]. apply (is_lim_seq_continuous G _ 0); [exact C|]. replace 0 with (T * 0) by ring. apply is_lim_seq_mult'; [apply is_lim_seq_const|apply inv_lim].
Qed.
Lemma compound_of (G : R -> R) T (a : nat -> R) x : continuity_pt G 0 -> (forall n, a n = 1 + T / INR n * G (T / INR n)) -> x = T * G 0 -> is_lim_seq (fun n => a n ^ n) (exp x).
Proof. intros C A ->. apply (is_lim_seq_ext (fun n => (1 + T / INR n * G (T / INR n)) ^ n)); [intros n; rewrite A; reflexivity|]. apply compound_poly. exact C. Qed.
Section limits.
  Variables (mu sigma T : R) (P : 0 < T).
  Lemma exact_power a n : (0 < n)%nat -> exp (a * (T / INR n)) ^ n = exp (a * T).
  Proof. intros N. pose proof (lt_0_INR n N). rewrite <- Rpower_pow by apply exp_pos. unfold Rpower. rewrite ln_exp. f_equal. field. lra. Qed.
  Lemma mean_lim method f : growth method = Some f -> is_lim_seq (fun n => mean_growth method mu sigma (T / INR n) ^ n) (exp (mu * T)).
  Proof.
    rewrite (Rmult_comm mu T). destruct method as [|[[|[]|]|[]|]|]; cbn [growth mean_growth]; intros E; try discriminate.
    - apply (is_lim_seq_ext_loc (fun _ => exp (T * mu))); [|apply is_lim_seq_const]. exists 1%nat. intros n N. rewrite exact_power by lia. f_equal. ring.
    - apply (is_lim_seq_ext (fun n => (1 + T / INR n * (mu + mu ^ 2 * (T / INR n) / 2)) ^ n)); [intros n; f_equal; generalize (T / INR n); intros h; field|]. evar_last; [apply (compound_poly (fun h => mu + mu ^ 2 * h / 2)); reg|]. do 3 f_equal. field.
    - apply (is_lim_seq_ext (fun n => (1 + T / INR n * mu) ^ n)); [intros n; f_equal; ring|]. apply (compound_poly (fun _ => mu)). reg.
    - apply (is_lim_seq_ext (fun n => (1 + T / INR n * mu) ^ n)); [intros n; f_equal; ring|]. apply (compound_poly (fun _ => mu)). reg.
  Qed.
  Lemma square_lim method f : growth method = Some f -> is_lim_seq (fun n => square_growth method mu sigma (T / INR n) ^ n) (exp ((2 * mu + sigma ^ 2) * T)).
  Proof.
    rewrite (Rmult_comm _ T). destruct method as [|[[|[]|]|[]|]|]; cbn [growth]; intros E; try discriminate.
    - apply (is_lim_seq_ext_loc (fun _ => exp (T * (2 * mu + sigma ^ 2)))); [|apply is_lim_seq_const]. exists 1%nat. intros n N. cbn [square_growth]. rewrite exact_power by lia. f_equal. ring.
    - apply (compound_of (fun h => 2 * mu + 2 * mu ^ 2 * h + mu ^ 3 * h ^ 2 + mu ^ 4 * h ^ 3 / 4 + sigma ^ 2 * (1 + mu * h) ^ 2 + sigma ^ 4 * h / 2) T); [reg|intros n; cbn [square_growth]; generalize (T / INR n); intros h; field|field].
    - apply (compound_of (fun h => 2 * mu + mu ^ 2 * h + sigma ^ 2 + sigma ^ 4 * h / 2) T); [reg|intros n; cbn [square_growth]; generalize (T / INR n); intros h; field|field].
    - apply (compound_of (fun h => 2 * mu + mu ^ 2 * h + sigma ^ 2) T); [reg|intros n; cbn [square_growth]; generalize (T / INR n); intros h; field|field].
  Qed.
  Lemma cross_lim method f : growth method = Some f -> is_lim_seq (fun n => cross_growth method mu sigma (T / INR n) ^ n) (exp ((2 * mu + sigma ^ 2) * T)).
  Proof.
    intros E. replace ((2 * mu + sigma ^ 2) * T) with (mu * T + T * (mu + sigma ^ 2)) by ring. rewrite exp_plus. unfold cross_growth.
    match goal with |- is_lim_seq (fun n => (_ * @?g n) ^ n) _ => apply (is_lim_seq_ext_loc (fun n => exp (mu * T) * (g n) ^ n)) end.
    { exists 1%nat. intros n N. cbv beta; rewrite (Rpow_mult_distr (exp (mu * (T / INR n)))), exact_power by lia. reflexivity. }
    apply is_lim_seq_mult'; [apply is_lim_seq_const|]. destruct method as [|[[|[]|]|[]|]|]; cbn [growth] in E; try discriminate; cbv beta iota.
    - apply (is_lim_seq_ext_loc (fun _ => exp (T * (mu + sigma ^ 2)))); [|apply is_lim_seq_const]. exists 1%nat. intros n N. rewrite exact_power by lia. f_equal. ring.
    - apply (compound_of (fun h => mu + mu ^ 2 * h / 2 + sigma ^ 2 * (1 + mu * h) + sigma ^ 4 * h / 2) T); [reg|intros n; cbn [square_growth]; generalize (T / INR n); intros h; field|field].
    - apply (compound_of (fun h => mu + sigma ^ 2 + sigma ^ 4 * h / 2) T); [reg|intros n; cbn [square_growth]; generalize (T / INR n); intros h; field|field].
    - apply (compound_of (fun h => mu + sigma ^ 2) T); [reg|intros n; cbn [square_growth]; generalize (T / INR n); intros h; field|field].
  Qed.
End limits.
