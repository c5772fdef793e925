(* Property C154: Heston's characteristic function for a vanishing volatility of variance. *)
From Coq Require Import ZArith Reals Lra.
From Coquelicot Require Import Coquelicot.
From Verif Require Import Base NumModel CurveModel ChfModel ChfSpec CplxProofs ChfProofs RiccatiProofs HestonLimitSpec HestonLimitProofs.
Open Scope R_scope.

(* at every complex argument the function tends to that of a lognormal asset whose total variance is the integral of the variance path *)
Theorem C154_limit (p : params) (u : C) (v : R -> R) : 0 < p_kappa p -> -1 <= p_rho p <= 1 -> 0 <= p_tau p -> variance_path p v ->
  tends_at_zero (fun eta => chf_fang (with_vv p eta) u) (lognormal_chf ((p_r p - p_q p) * p_tau p) (RInt v 0 (p_tau p)) u).
Proof.
  intros K Rh T V. rewrite (is_RInt_unique _ _ _ _ (path_integral p v K T V)). exact (fang_limit p u K Rh T).
Qed.
(* the other representation and the original one with the asset's price *)
Theorem C154_albrecher (p : params) (u : C) (s : R) (v : R -> R) : 0 < p_kappa p -> -1 <= p_rho p <= 1 -> 0 <= p_tau p -> 0 <= p_var0 p -> variance_path p v ->
  tends_at_zero (fun eta => chf_albrecher (with_vv p eta) s u) (lognormal_chf (s + (p_r p - p_q p) * p_tau p) (RInt v 0 (p_tau p)) u)
  /\ tends_at_zero (fun eta => chf_1993 (with_vv p eta) 0 s 2 u) (lognormal_chf (s + (p_r p - p_q p) * p_tau p) (RInt v 0 (p_tau p)) u).
Proof.
  intros K Rh T P V.
  assert (A : tends_at_zero (fun eta => chf_albrecher (with_vv p eta) s u) (lognormal_chf (s + (p_r p - p_q p) * p_tau p) (RInt v 0 (p_tau p)) u)).
  { intros eps E. set (c := cexp (Ci * u * s)%C). assert (Mc : 0 < Cmod c) by (unfold c; rewrite cexp_mod; apply exp_pos).
    destruct (C154_limit p u v K Rh T V (eps / Cmod c)) as (d & D & H); [apply Rdiv_lt_0_compat; assumption|]. exists d. split; [exact D|]. intros eta Eta.
    destruct (H eta Eta) as (z & Z & B). exists (c * z)%C. split; [rewrite (fang_albrecher (with_vv p eta) s u P), Z; reflexivity|].
    assert (L : lognormal_chf (s + (p_r p - p_q p) * p_tau p) (RInt v 0 (p_tau p)) u = (c * lognormal_chf ((p_r p - p_q p) * p_tau p) (RInt v 0 (p_tau p)) u)%C).
    { unfold lognormal_chf, c. rewrite <- cexp_add. f_equal. rewrite RtoC_plus. ring. }
    rewrite L. set (l := lognormal_chf _ _ u) in *. replace (c * z - c * l)%C with (c * (z - l))%C by ring. rewrite Cmod_mult.
    apply (Rmult_lt_compat_l (Cmod c)) in B; [|exact Mc]. replace (Cmod c * (eps / Cmod c)) with eps in B by (field; lra). exact B. }
  split; [exact A|]. intros eps E. destruct (A eps E) as (d & D & H). exists d. split; [exact D|]. intros eta Eta. rewrite second_1993 by exact P. exact (H eta Eta).
Qed.
(* with a variance at its long run mean this is the Black-Scholes characteristic function *)
Theorem C154_black_scholes (p : params) (u : C) : 0 < p_kappa p -> -1 <= p_rho p <= 1 -> 0 <= p_tau p -> p_theta p = p_var0 p ->
  tends_at_zero (fun eta => chf_fang (with_vv p eta) u) (lognormal_chf ((p_r p - p_q p) * p_tau p) (p_var0 p * p_tau p) u).
Proof.
  intros K Rh T Th. assert (V : variance_path p (fun _ => p_var0 p)).
  { split; [reflexivity|]. intros t _. rewrite Th. replace (p_kappa p * (p_var0 p - p_var0 p)) with 0 by ring. apply (is_derive_const (K := R_AbsRing) (V := R_NormedModule)). }
  pose proof (C154_limit p u _ K Rh T V) as L. rewrite RInt_const in L. unfold scal in L; cbn in L. unfold mult in L; cbn in L. replace ((p_tau p - 0) * p_var0 p) with (p_var0 p * p_tau p) in L by ring. exact L.
Qed.
(* zero itself is never answered: a division by the volatility of variance *)
Theorem C154_zero (p : params) (u : C) : chf_fang (with_vv p 0) u = None.
Proof.
  rewrite fang_core. unfold core. destruct (cdiv _ _); cbn [obind]; [|reflexivity]. change (p_vv (with_vv p 0)) with 0. destruct (Req_EM_T 0 0); [reflexivity|contradiction].
Qed.

Example C154_ex (u : C) : let p := mk_params 1 (1 / 20) 0 (1 / 25) (1 / 2) 2 (1 / 10) (- (7 / 10)) in
  variance_path p (fun t => 1 / 10 - 6 / 100 * exp (- 2 * t)) /\
  tends_at_zero (fun eta => chf_fang (with_vv p eta) u) (lognormal_chf (1 / 20 - 0) (RInt (fun t => 1 / 10 - 6 / 100 * exp (- 2 * t)) 0 1) u).
Proof.
  cbv zeta. set (p := mk_params _ _ _ _ _ _ _ _). assert (V : variance_path p (fun t => 1 / 10 - 6 / 100 * exp (- 2 * t))).
  { split; [unfold p; cbn [p_var0]; replace (- 2 * 0) with 0 by ring; rewrite exp_0; lra|]. intros t _. auto_derive; [trivial|]. unfold p; cbn [p_kappa p_theta]. field. }
  split; [exact V|]. pose proof (C154_limit p u _ ltac:(cbn; lra) ltac:(cbn; lra) ltac:(cbn; lra) V) as L. cbn [p_r p_q p_tau p] in L. replace ((1 / 20 - 0) * 1) with (1 / 20 - 0) in L by ring. exact L.
Qed.
Definition all_theorems := (C154_limit, C154_albrecher, C154_black_scholes, C154_zero).
Print Assumptions all_theorems.
