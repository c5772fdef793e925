From Coq Require Import Reals List Bool Lra Lia.
From Verif Require Import Base NormalModel BlackModel BlackSpec SabrModel SabrSpec SabrProofs SabrRootProofs SabrSmileProofs.
Import ListNotations.
Open Scope R_scope.

(* C55 alpha from the at the money volatility; np.roots is taken to be exact *)
Theorem C55_alpha_reprices (roots : solver) (tau F beta rho v vol shift alpha : R) : exact_solver roots -> 0 < F + shift ->
  solve_alpha roots tau F beta rho v vol shift = Ok alpha -> sabr_vol_is tau F alpha beta rho v F shift vol.
Proof. exact (alpha_reprices roots tau F beta rho v vol shift alpha). Qed.
Theorem C55_alpha_closest (roots : solver) (tau F beta rho v vol shift alpha other : R) : exact_solver roots -> 0 < F + shift -> vol <> 0 ->
  solve_alpha roots tau F beta rho v vol shift = Ok alpha -> sabr_vol_is tau F other beta rho v F shift vol ->
  Rabs (alpha - vol * Rpower (F + shift) (1 - beta)) <= Rabs (other - vol * Rpower (F + shift) (1 - beta)).
Proof. exact (alpha_closest roots tau F beta rho v vol shift alpha other). Qed.
Theorem C55_alpha_found_iff_one_exists (roots : solver) (tau F beta rho v vol shift : R) : exact_solver roots -> 0 < F + shift -> vol <> 0 ->
  ((exists alpha, solve_alpha roots tau F beta rho v vol shift = Ok alpha) <-> exists alpha, sabr_vol_is tau F alpha beta rho v F shift vol)
  /\ ((~ exists alpha, sabr_vol_is tau F alpha beta rho v F shift vol) -> solve_alpha roots tau F beta rho v vol shift = Err ValueError).
Proof. exact (alpha_iff roots tau F beta rho v vol shift). Qed.
Theorem C55_alpha_exists_unless_lognormal (tau F beta rho v vol shift : R) : 0 < F + shift -> 0 < tau -> beta <> 1 ->
  (exists alpha, sabr_vol_is tau F alpha beta rho v F shift vol) /\ (0 < vol -> exists alpha, 0 < alpha /\ sabr_vol_is tau F alpha beta rho v F shift vol).
Proof. exact (alpha_exists tau F beta rho v vol shift). Qed.
Theorem C55_alpha_exists_lognormal (tau F rho v vol shift : R) : 0 < F + shift -> rho * v * tau <> 0 ->
  ((exists alpha, sabr_vol_is tau F alpha 1 rho v F shift vol) <-> 0 <= (1 + (2 - 3 * rho ^ 2) * v ^ 2 * tau / 24) ^ 2 + rho * v * tau * vol).
Proof. exact (alpha_lognormal tau F rho v vol shift). Qed.
Theorem C55_alpha_positive (roots : solver) (tau F beta rho v vol shift alpha y : R) : exact_solver roots -> 0 < F + shift -> 0 < vol ->
  sabr_vol_is tau F (2 * (vol * Rpower (F + shift) (1 - beta))) beta rho v F shift y -> vol <= y ->
  solve_alpha roots tau F beta rho v vol shift = Ok alpha -> 0 < alpha.
Proof. exact (alpha_positive roots tau F beta rho v vol shift alpha y). Qed.

(* C91 the smile *)
Theorem C91_off_the_money (tau F alpha beta rho v K shift : R) : 0 < F + shift -> 0 < K + shift -> alpha <> 0 -> v <> 0 -> -1 < rho < 1 ->
  / 1000000 <= Rabs (ln (F + shift) - ln (K + shift)) -> sabr_vol_is tau F alpha beta rho v K shift (hagan_vol tau (F + shift) alpha beta rho v (K + shift)).
Proof. intros. apply vol_is. apply elem_off; assumption. Qed.
Theorem C91_near_the_money (tau F alpha beta rho v K shift : R) : 0 < F + shift -> 0 < K + shift -> Rabs (ln (F + shift) - ln (K + shift)) < / 1000000 ->
  sabr_vol_is tau F alpha beta rho v K shift (alpha / Rpower ((F + shift) * (K + shift)) ((1 - beta) / 2) * hagan_time tau (F + shift) alpha beta rho v (K + shift)).
Proof. intros. apply vol_is. apply elem_atm; assumption. Qed.
Theorem C91_at_the_money (tau F alpha beta rho v shift : R) : 0 < F + shift -> sabr_vol_is tau F alpha beta rho v F shift (hagan_atm tau (F + shift) alpha beta rho v).
Proof. intros. apply vol_is. apply atm_at_forward; assumption. Qed.
Theorem C91_continuous_at_the_forward (tau F alpha beta rho v shift : R) : 0 < F + shift -> alpha <> 0 -> v <> 0 -> -1 < rho < 1 ->
  exists y0, sabr_vol_is tau F alpha beta rho v F shift y0 /\
  forall e : R, 0 < e -> exists d, 0 < d /\ forall K : R, Rabs (K - F) < d -> exists y, sabr_vol_is tau F alpha beta rho v K shift y /\ Rabs (y - y0) < e.
Proof. exact (continuous_at_forward tau F alpha beta rho v shift). Qed.
Theorem C91_positive (tau F alpha beta rho v K shift y : R) : 0 < F + shift -> 0 < K + shift -> 0 < alpha -> v <> 0 -> -1 < rho < 1 ->
  0 < hagan_time tau (F + shift) alpha beta rho v (K + shift) \/ (0 <= tau /\ 0 <= rho * beta * v /\ rho ^ 2 <= 2 / 3) -> sabr_vol_is tau F alpha beta rho v K shift y -> 0 < y.
Proof. intros A B C D E [G | (T & S & Q)] Y; apply (vol_positive tau F alpha beta rho v K shift y); auto. apply time_positive; auto. lra. Qed.
Theorem C91_shift_invariant (tau F alpha beta rho v K shift h : R) :
  calc_sln_vol (smile1 tau (F + h) alpha beta rho v) [K + h] [shift - h] = calc_sln_vol (smile1 tau F alpha beta rho v) [K] [shift].
Proof. exact (shift_invariant tau F alpha beta rho v K shift h). Qed.
Theorem C91_scale_invariant (tau F alpha beta rho v K shift c : R) : 0 < c -> 0 < F + shift -> 0 < K + shift ->
  calc_sln_vol (smile1 tau (c * F) (Rpower c (1 - beta) * alpha) beta rho v) [c * K] [c * shift] = calc_sln_vol (smile1 tau F alpha beta rho v) [K] [shift].
Proof. exact (scale_invariant tau F alpha beta rho v K shift c). Qed.
Theorem C91_mirror (tau F alpha rho v K shift : R) : 0 < F + shift -> 0 < K + shift -> alpha <> 0 -> v <> 0 -> -1 < rho < 1 ->
  calc_sln_vol (smile1 tau K alpha 0 (- rho) v) [F] [shift] = calc_sln_vol (smile1 tau F alpha 0 rho v) [K] [shift].
Proof. exact (swap_mirror tau F alpha rho v K shift). Qed.

(* C92 degenerate parameters *)
Theorem C92_no_volvol_or_alpha (tau F alpha beta rho v K shift : R) : 0 < F + shift -> 0 < K + shift -> v = 0 \/ alpha = 0 ->
  / 1000000 <= Rabs (ln (F + shift) - ln (K + shift)) -> calc_sln_vol (smile1 tau F alpha beta rho v) [K] [shift] = Ok [NaN].
Proof. intros. rewrite calc1, elem_off_nan; auto. Qed.
Theorem C92_perfect_correlation (tau F alpha beta v K shift : R) : 0 < F + shift -> 0 < K + shift -> alpha <> 0 -> / 1000000 <= Rabs (ln (F + shift) - ln (K + shift)) ->
  (1 < hagan_z (F + shift) alpha beta v (K + shift) -> calc_sln_vol (smile1 tau F alpha beta 1 v) [K] [shift] = Ok [Fin 0])
  /\ (hagan_z (F + shift) alpha beta v (K + shift) <= 1 -> calc_sln_vol (smile1 tau F alpha beta 1 v) [K] [shift] = Ok [NaN])
  /\ (hagan_z (F + shift) alpha beta v (K + shift) <= -1 -> calc_sln_vol (smile1 tau F alpha beta (-1) v) [K] [shift] = Ok [Fin 0]).
Proof.
  intros A B C D. rewrite !calc1. rewrite elem_rho_one by assumption. destruct (Rlt_dec 1 _) as [L | L].
  - split; [reflexivity | split; [lra | lra]].
  - split; [lra | split; [reflexivity | ]]. intros E. rewrite elem_rho_minus_one; auto.
Qed.
Theorem C92_opposite_signs (tau F alpha beta rho v K shift : R) : (F + shift) * (K + shift) < 0 -> calc_sln_vol (smile1 tau F alpha beta rho v) [K] [shift] = Ok [NaN].
Proof. intros. rewrite calc1, elem_opposite_signs; auto. Qed.
Theorem C92_zero_forward_or_strike (tau F alpha beta rho v K shift : R) : F + shift = 0 \/ K + shift = 0 -> calc_sln_vol (smile1 tau F alpha beta rho v) [K] [shift] = Ok [NaN].
Proof. intros. rewrite calc1, elem_zero; auto. Qed.
Theorem C92_both_negative_accepted (tau F alpha beta rho v K shift : R) : K + shift <> 0 ->
  calc_sln_vol (smile1 tau (- F) alpha beta rho v) [- K] [- shift] = calc_sln_vol (smile1 tau F alpha beta rho v) [K] [shift].
Proof. intros. rewrite !calc1. replace (- F + - shift) with (- (F + shift)) by ring. replace (- K + - shift) with (- (K + shift)) by ring. rewrite elem_reflected; auto. Qed.

(* C93 arrays *)
Theorem C93_elementwise (s : smile) (n : nat) (K : list R) (shift : R) : smile_ok s n -> (0 < n)%nat -> K <> [] -> length K = n \/ length K = 1%nat \/ n = 1%nat ->
  exists vols, calc_sln_vol s K [shift] = Ok vols /\ length vols = Nat.max n (length K) /\
  forall (i : nat) (t f a b r v k : R), used (s_tau s) i t -> used (s_F s) i f -> used (s_alpha s) i a -> used (s_beta s) i b -> used (s_rho s) i r -> used (s_volvol s) i v -> used K i k ->
  (i < Nat.max n (length K))%nat -> exists y, nth_error vols i = Some y /\ calc_sln_vol (smile1 t f a b r v) [k] [shift] = Ok [y].
Proof. exact (calc_elementwise s n K shift). Qed.
Theorem C93_rejected (s : smile) (K : list R) (shift : list R) :
  calc_sln_vol s K shift = Err AssertionError <-> ~ smile_ok s (length (s_tau s)) \/ ((1 < length K)%nat /\ length (s_tau s) <> length K /\ length (s_tau s) <> 1%nat) \/ length shift <> 1%nat.
Proof. exact (calc_rejects s K shift). Qed.
(* an empty array of strikes goes with a single smile only *)
Theorem C93_no_strikes (s : smile) (n : nat) (shift : R) : smile_ok s n -> (n <= 1 -> calc_sln_vol s [] [shift] = Ok [])%nat /\ (1 < n -> calc_sln_vol s [] [shift] = Err ValueError)%nat.
Proof.
  intros H. assert (L : length (s_tau s) = n) by apply H.
  assert (G : forallb (Nat.eqb (length (s_tau s))) (smile_lengths s) = true). { apply forallb_forall. intros x I. apply Nat.eqb_eq. unfold smile_ok, smile_lengths in *. cbn [In] in I. intuition congruence. }
  unfold calc_sln_vol. rewrite G. cbn [guard bind length Nat.leb orb]. rewrite L. split; intros N.
  - destruct n as [|[|n]]; [reflexivity|reflexivity|lia].
  - destruct n as [|[|n]]; [lia|lia|reflexivity].
Qed.

(* C94 fitting *)
Theorem C94_fit_reprices (roots : solver) (tau F : R) (K vols : list R) (shift : R) (beta_override : option R) (opt : fit_search) (alpha beta rho v : R) :
  exact_solver roots -> 0 < F + shift -> fit_sabr roots tau F K vols (Some shift) beta_override opt = Ok (alpha, beta, rho, v) ->
  (exists (i : nat) (k vol : R), nth_error K i = Some k /\ nth_error vols i = Some vol /\ near F k
     /\ (forall (j : nat) (k' : R), nth_error K j = Some k' -> near F k' -> j = i)
     /\ sabr_vol_is tau F alpha beta rho v F shift vol)
  /\ (forall b : R, beta_override = Some b -> beta = b).
Proof. exact (fit_reprices roots tau F K vols shift beta_override opt alpha beta rho v). Qed.
Theorem C94_fit_needs_shift (roots : solver) (tau F : R) (K vols : list R) (beta_override : option R) (opt : fit_search) (r : R * R * R * R) :
  fit_sabr roots tau F K vols None beta_override opt <> Ok r.
Proof. exact (fit_needs_shift roots tau F K vols beta_override opt r). Qed.
Theorem C94_default_shift_type_error (roots : solver) (tau F : R) (K vols : list R) (b rho v : R) (k : num -> fit_search) (i : nat) (kk vol : R) :
  length K = length vols -> nth_error K i = Some kk -> nth_error vols i = Some vol -> near F kk -> (forall (j : nat) (k' : R), nth_error K j = Some k' -> near F k' -> j = i) ->
  fit_sabr roots tau F K vols None (Some b) (FitProbe [rho; v] k) = Err TypeError.
Proof. exact (fit_none_type_error roots tau F K vols b rho v k i kk vol). Qed.
Theorem C94_fit_needs_one_atm_quote (roots : solver) (tau F : R) (K vols : list R) (shift beta_override : option R) (opt : fit_search) :
  length K = length vols ->
  (forall k : R, In k K -> ~ near F k) \/ (exists (i j : nat) (k k' : R), i <> j /\ nth_error K i = Some k /\ nth_error K j = Some k' /\ near F k /\ near F k') ->
  fit_sabr roots tau F K vols shift beta_override opt = Err ValueError.
Proof. exact (fit_without_atm roots tau F K vols shift beta_override opt). Qed.
(* with a shift, the ways a fit can fail *)
Theorem C94_fit_errors (roots : solver) (tau F : R) (K vols : list R) (shift : R) (beta_override : option R) (opt : fit_search) (e : exn) :
  fit_sabr roots tau F K vols (Some shift) beta_override opt = Err e -> (length K <> length vols /\ e = IndexError) \/ (length K = length vols /\ e = ValueError).
Proof.
  assert (U : forall x e, unpack beta_override x = Err e -> e = ValueError) by (intros x e'; unfold unpack; destruct beta_override, x as [|? [|? [|? [|? ?]]]]; intros E; inversion E; reflexivity).
  assert (A : forall b r v w e, solve_alpha roots tau F b r v w shift = Err e -> e = ValueError) by (intros b r v w e'; unfold solve_alpha; generalize (real_roots (roots (cubic_a tau (F + shift) b) (cubic_b tau (F + shift) b r v) (cubic_c tau r v) (- w * Rpower (F + shift) (1 - b)))); intros l; destruct l as [|? [|? ?]]; cbn; intros E; inversion E; reflexivity).
  assert (V : forall w x e, vol_sse roots tau F K vols (Some shift) beta_override w x = Err e -> e = ValueError).
  { intros w x e'. unfold vol_sse. destruct (unpack beta_override x) as [[[b r] v]|e1] eqn:E1; cbn [bind]; [|intros E; injection E as <-; eapply U, E1]. cbn [need_shift bind].
    destruct (solve_alpha roots tau F b r v w shift) as [a|e1] eqn:E2; cbn [bind]; [|intros E; injection E as <-; eapply A, E2].
    unfold calc_sln_vol. cbn [smile1 s_tau s_F s_alpha s_beta s_rho s_volvol smile_lengths length forallb Nat.eqb andb guard bind]. rewrite !orb_true_r. cbn [guard bind].
    destruct (broadcast [1%nat; length K]) eqn:B; cbn [bind]; [discriminate|]. intros E. injection E as <-. reflexivity. }
  unfold fit_sabr. destruct (Nat.eqb_spec (length K) (length vols)) as [L|L]; cbn [guard bind]; [|intros E; injection E as <-; left; split; [exact L|reflexivity]]. intros E. right. split; [exact L|]. revert E.
  destruct (map snd (filter (fun p => isclose (fst p) F) (combine K vols))) as [|w [|? ?]]; try (intros E; injection E as <-; reflexivity).
  destruct (fit_run (vol_sse roots tau F K vols (Some shift) beta_override w) opt) as [x|e1] eqn:E1; cbn [bind].
  - destruct (unpack beta_override x) as [[[b r] v]|e1] eqn:E2; cbn [bind need_shift]; [|intros E; injection E as <-; eapply U, E2].
    destruct (solve_alpha roots tau F b r v w shift) as [a|e1] eqn:E3; cbn [bind]; [discriminate|intros E; injection E as <-; eapply A, E3].
  - intros E. injection E as <-. revert E1. induction opt as [s x|x k IH]; cbn [fit_run]; [destruct s; intros E; inversion E; reflexivity|].
    destruct (vol_sse roots tau F K vols (Some shift) beta_override w x) as [y|e2] eqn:E2; cbn [bind]; [apply IH|intros E; injection E as <-; eapply V, E2].
Qed.
(* a search that does not succeed gives no parameters: a ValueError *)
Theorem C94_unsuccessful_search (roots : solver) (tau F : R) (K vols : list R) (shift : R) (beta_override : option R) (opt : fit_search) :
  never_successful opt -> length K = length vols -> fit_sabr roots tau F K vols (Some shift) beta_override opt = Err ValueError.
Proof.
  intros N L. destruct (fit_sabr roots tau F K vols (Some shift) beta_override opt) as [r|e] eqn:E.
  - exfalso. revert E. unfold fit_sabr. rewrite L, Nat.eqb_refl. cbn [guard bind]. destruct (map snd (filter (fun p => isclose (fst p) F) (combine K vols))) as [|w [|? ?]]; try discriminate.
    destruct (fit_run (vol_sse roots tau F K vols (Some shift) beta_override w) opt) as [x|e1] eqn:E1; cbn [bind]; [|discriminate]. exfalso. revert E1.
    induction N as [x0|x0 k H IH]; cbn [fit_run]; [discriminate|]. destruct (vol_sse roots tau F K vols (Some shift) beta_override w x0) as [y|]; cbn [bind]; [apply IH|discriminate].
  - destruct (C94_fit_errors _ _ _ _ _ _ _ _ _ E) as [[NL _]|[_ ->]]; [contradiction|reflexivity].
Qed.

Definition all_theorems := (C55_alpha_reprices, C55_alpha_closest, C55_alpha_found_iff_one_exists, C55_alpha_exists_unless_lognormal, C55_alpha_exists_lognormal, C55_alpha_positive,
  C91_off_the_money, C91_near_the_money, C91_at_the_money, C91_continuous_at_the_forward, C91_positive, C91_shift_invariant, C91_scale_invariant, C91_mirror,
  C92_no_volvol_or_alpha, C92_perfect_correlation, C92_opposite_signs, C92_zero_forward_or_strike, C92_both_negative_accepted, C93_elementwise, C93_rejected, C93_no_strikes,
  C94_fit_reprices, C94_fit_needs_shift, C94_default_shift_type_error, C94_fit_needs_one_atm_quote, C94_fit_errors, C94_unsuccessful_search).
Print Assumptions all_theorems.

(* ---- cases meeting the hypotheses ---- *)
(* an exact solver exists *)
Example C55_solver : exact_solver cubic_solver.
Proof. exact cubic_solver_exact. Qed.
(* beta 0, forward 1, 24 years, no volvol: alpha^3 + alpha = 2 has the root 1 *)
Example C55_ex_reprices : sabr_vol_is 24 (1/2) 1 0 0 0 (1/2) (1/2) 2.
Proof.
  assert (E : hagan_atm 24 (1/2 + 1/2) 1 0 0 0 = 2) by (replace (1/2 + 1/2) with 1 by lra; unfold hagan_atm, Rpower; rewrite ln_1, !Rmult_0_r, exp_0; field).
  pose proof (C91_at_the_money 24 (1/2) 1 0 0 0 (1/2) ltac:(lra)) as Q. rewrite E in Q. exact Q.
Qed.
Example C55_ex : exists alpha, solve_alpha cubic_solver 24 (1/2) 0 0 0 2 (1/2) = Ok alpha /\ Rabs (alpha - 2) <= 1.
Proof.
  destruct (C55_alpha_found_iff_one_exists cubic_solver 24 (1/2) 0 0 0 2 (1/2) cubic_solver_exact ltac:(lra) ltac:(lra)) as [[_ E] _].
  destruct E as (alpha & E); [exists 1; exact C55_ex_reprices | ]. exists alpha. split; auto.
  pose proof (C55_alpha_closest cubic_solver 24 (1/2) 0 0 0 2 (1/2) alpha 1 cubic_solver_exact ltac:(lra) ltac:(lra) E C55_ex_reprices) as C.
  replace (1/2 + 1/2) with 1 in C by lra. unfold Rpower in C. rewrite ln_1, Rmult_0_r, exp_0, Rmult_1_r in C.
  replace (1 - 2) with (- (1)) in C by ring. rewrite Rabs_Ropp, Rabs_R1 in C. exact C.
Qed.
Example C55_ex_exists : exists alpha, 0 < alpha /\ sabr_vol_is 1 (3/100) alpha (1/2) (-1/4) (2/5) (3/100) (1/100) (1/5).
Proof. apply C55_alpha_exists_unless_lognormal; lra. Qed.
(* lognormal with strong negative correlation: no alpha gives a volatility of 300% *)
Example C55_ex_none : solve_alpha cubic_solver 1 1 1 (-1/2) 1 3 0 = Err ValueError.
Proof.
  apply C55_alpha_found_iff_one_exists; [exact cubic_solver_exact | lra | lra | ]. intros E. apply (proj1 (C55_alpha_exists_lognormal 1 1 (-1/2) 1 3 0 ltac:(lra) ltac:(lra))) in E. lra.
Qed.
Example C55_ex_positive : exists alpha, solve_alpha cubic_solver 24 (1/2) 0 0 0 2 (1/2) = Ok alpha /\ 0 < alpha.
Proof.
  destruct C55_ex as (alpha & E & _). exists alpha. split; auto.
  eapply (C55_alpha_positive cubic_solver 24 (1/2) 0 0 0 2 (1/2) alpha (hagan_atm 24 (1/2 + 1/2) (2 * (2 * Rpower (1/2 + 1/2) (1 - 0))) 0 0 0));
    [exact cubic_solver_exact | lra | lra | apply C91_at_the_money; lra | | exact E].
  replace (1/2 + 1/2) with 1 by lra. unfold hagan_atm, Rpower. rewrite ln_1, !Rmult_0_r, exp_0. lra.
Qed.
Lemma strike_far : / 1000000 <= Rabs (ln (1 + 0) - ln (exp 1 - 0 + 0)).
Proof. replace (exp 1 - 0 + 0) with (exp 1) by ring. rewrite Rplus_0_r, ln_1, ln_exp. replace (0 - 1) with (- (1)) by ring. rewrite Rabs_Ropp, Rabs_R1. lra. Qed.
Lemma strike_pos : 0 < exp 1 - 0 + 0.
Proof. pose proof (exp_pos 1). lra. Qed.
Example C91_ex : exists y, sabr_vol_is 1 1 (1/5) (1/2) (-1/4) (2/5) (exp 1 - 0) 0 y /\ (0 < hagan_time 1 (1 + 0) (1/5) (1/2) (-1/4) (2/5) (exp 1 - 0 + 0) -> 0 < y).
Proof.
  eexists. split; [apply C91_off_the_money; try lra; [exact strike_pos | exact strike_far] | ]. intros T.
  refine (C91_positive 1 1 (1/5) (1/2) (-1/4) (2/5) (exp 1 - 0) 0 _ _ _ _ _ _ (or_introl T) _); try lra; [exact strike_pos | ].
  apply C91_off_the_money; try lra; [exact strike_pos | exact strike_far].
Qed.
Example C91_ex_positive (y : R) : sabr_vol_is 1 1 (1/5) (1/2) (1/4) (2/5) (exp 1 - 0) 0 y -> 0 < y.
Proof. apply C91_positive; try exact strike_pos; try lra. Qed.
Example C91_ex_continuous : exists y0, sabr_vol_is 1 1 (1/5) (1/2) (-1/4) (2/5) 1 0 y0 /\
  exists d, 0 < d /\ forall K : R, Rabs (K - 1) < d -> exists y, sabr_vol_is 1 1 (1/5) (1/2) (-1/4) (2/5) K 0 y /\ Rabs (y - y0) < 1/1000.
Proof. destruct (C91_continuous_at_the_forward 1 1 (1/5) (1/2) (-1/4) (2/5) 0) as (y0 & Y & E); try lra. exists y0. split; auto. apply E. lra. Qed.
Example C92_ex : calc_sln_vol (smile1 1 1 (1/5) (1/2) (1/4) 0) [exp 1 - 0] [0] = Ok [NaN].
Proof. apply C92_no_volvol_or_alpha; try lra; [exact strike_pos | exact strike_far]. Qed.
Example C92_ex_signs : calc_sln_vol (smile1 1 (1/100) (1/5) (1/2) (1/4) (1/2)) [- (1/100)] [0] = Ok [NaN].
Proof. apply C92_opposite_signs. lra. Qed.
Example C93_ex : exists vols, calc_sln_vol (smile1 1 1 (1/5) (1/2) (1/4) (1/2)) [1; 2; 3] [0] = Ok vols /\ length vols = 3%nat.
Proof. destruct (C93_elementwise (smile1 1 1 (1/5) (1/2) (1/4) (1/2)) 1 [1; 2; 3] 0) as (vols & E & L & _); [repeat split | auto | discriminate | auto | ]. exists vols. auto. Qed.
Example C93_ex_rejected : calc_sln_vol (mk_smile [1; 2] [1; 1] [1; 1] [1; 1] [0; 0] [1; 1]) [1; 2; 3] [0] = Err AssertionError.
Proof. apply C93_rejected. right. left. cbn. repeat split; auto; discriminate. Qed.
Lemma near_self (F : R) : near F F.
Proof. unfold near. replace (F - F) with 0 by ring. rewrite Rabs_R0. pose proof (Rabs_pos F). lra. Qed.
Lemma near_far : ~ near 1 2.
Proof. unfold near. replace (2 - 1) with 1 by ring. rewrite Rabs_R1. lra. Qed.
Example C94_ex : exists a, fit_sabr cubic_solver 24 (1/2) [1/2] [2] (Some (1/2)) (Some 0) (FitEnd true [0; 0]) = Ok (a, 0, 0, 0).
Proof.
  destruct C55_ex as (a & E & _). exists a. unfold fit_sabr. cbn [length Nat.eqb guard bind combine filter fst]. rewrite (proj2 (isclose_near _ _) (near_self _)).
  cbn [map snd fit_run bind unpack need_shift]. rewrite E. reflexivity.
Qed.
Example C94_ex_none : fit_sabr cubic_solver 24 1 [2; 1] [1/4; 1/5] None (Some 0) (FitProbe [0; 0] (fun _ => FitEnd true [0; 0])) = Err TypeError.
Proof.
  apply (C94_default_shift_type_error _ _ _ _ _ _ _ _ _ 1%nat 1 (1/5)); auto; [apply near_self | ].
  intros j k' N Q. destruct j as [ | [ | [ | j]]]; cbn in N; try discriminate; auto. injection N as <-. exfalso. exact (near_far Q).
Qed.
Example C94_ex_no_atm : fit_sabr cubic_solver 24 1 [2] [1/4] (Some 0) None (FitEnd true [0; 0; 0]) = Err ValueError.
Proof. apply C94_fit_needs_one_atm_quote; auto. left. intros k [<- | []]. exact near_far. Qed.
(* a search that gives up after one evaluation *)
Example C94_ex_unsuccessful : fit_sabr cubic_solver 24 (1/2) [1/2] [2] (Some (1/2)) (Some 0) (FitProbe [0; 0] (fun _ => FitEnd false [0; 0])) = Err ValueError.
Proof. apply C94_unsuccessful_search; [|reflexivity]. apply never_probe. intros y. apply never_end. Qed.
