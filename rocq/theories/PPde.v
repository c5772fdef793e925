(* C157: the prices solve the equations that define them, with the reported greeks as the derivatives. *)
From Coq Require Import String Reals List Bool Lra Lia.
From Verif Require Import Base NormalModel NormalProofs BsProofs BlackModel BlackSpec BlackProofs BlackVecProofs GkModel GkSpec GkProofs.
Import ListNotations.
Open Scope R_scope.

Lemma bd1_dF (s K v F : R) : 0 < F + s -> 0 < K -> 0 < v -> derivable_pt_lim (fun x => bd1 (x + s) K v) F (/ (F + s) / v).
Proof.
  intros HF HK Hv. unfold bd1. assert (P : 0 < (F + s) / K) by (apply Rdiv_lt_0_compat; auto).
  assert (LN : derivable_pt_lim (fun x => ln ((x + s) / K)) F (/ (F + s))).
  { refine (dlim_val _ F _ _ _ (derivable_pt_lim_comp (fun x => (x + s) / K) ln F (/ K) _ _ (derivable_pt_lim_ln _ P))).
    - field. lra.
    - refine (dlim_val _ F _ _ _ (derivable_pt_lim_mult _ _ F _ _ (derivable_pt_lim_plus _ _ F _ _ (derivable_pt_lim_id F) (derivable_pt_lim_const s F)) (derivable_pt_lim_const (/ K) F))).
      unfold fct_cte. field. lra. }
  refine (dlim_val _ F _ _ _ (derivable_pt_lim_mult _ _ F _ _ (derivable_pt_lim_plus _ _ F _ _ LN (derivable_pt_lim_const (v * v / 2) F)) (derivable_pt_lim_const (/ v) F))).
  unfold fct_cte. field. lra.
Qed.

(* Black 76: the price gains in time to expiry half the squared volatility times the squared shifted forward times the slope of its delta *)
Theorem C157_black76_equation (F tau cp K vol s A : R) : call_or_put cp -> 0 < F + s -> 0 < K + s -> 0 < tau -> 0 < vol ->
  exists g, derivative (fun f => delta76 f tau cp K vol s A) F g /\
    derivative (fun t => price76 F t cp K vol s A) tau (1 / 2 * (vol * vol) * ((F + s) * (F + s)) * g).
Proof.
  intros W HF HK Ht Hv. pose proof (total_pos vol tau Hv Ht) as T. pose proof (sqrt_lt_R0 tau Ht) as Hs.
  set (v := vol * sqrt tau) in *. exists (A * (pdf (bd1 (F + s) (K + s) v) * (/ (F + s) / v))). split.
  - exists (fun f => A * cp * cdf (cp * bd1 (f + s) (K + s) v)). split.
    + destruct (near_pos _ HF) as (e & He & B). exists e. split; auto. intros y Hy.
      assert (0 < y + s) by (apply B; replace (y + s - (F + s)) with (y - F) by ring; auto).
      rewrite delta76_elem. unfold b76_delta_elem. rewrite b76_d1_fin by (fold v; lra). fold v. cbn [mul ncdf]. f_equal. ring.
    + refine (dlim_val _ F _ _ _ (derivable_pt_lim_scal _ (A * cp) F _ (cdf_comp _ F _ (derivable_pt_lim_scal _ cp F _ (bd1_dF s (K + s) v F HF HK T))))).
      unfold mult_real_fct. rewrite (Rmult_comm cp (bd1 _ _ _)), pdf_cp by auto. destruct W as [-> | ->]; ring.
  - exists (fun t => A * blk cp (F + s) (K + s) (vol * sqrt t)). split.
    + destruct (near_pos _ Ht) as (e & He & B). exists e. split; auto. intros y Hy. specialize (B y Hy). pose proof (total_pos vol y Hv B). apply price76_fin; auto; lra.
    + refine (dlim_val _ tau _ _ _ (derivable_pt_lim_scal _ A tau _
        (blk_path cp (fun _ => F + s) (fun _ => K + s) (fun t => vol * sqrt t) tau 0 0 _ W HF HK T (derivable_pt_lim_const _ tau) (derivable_pt_lim_const _ tau)
           (derivable_pt_lim_scal _ vol tau _ (sqrt_dlim tau Ht))))).
      fold v. set (p := pdf _). unfold v. field. lra.
Qed.

(* Bachelier: the same with the forward's volatility in absolute terms *)
Theorem C157_bachelier_equation (F tau cp K vol A : R) : call_or_put cp -> 0 < tau -> 0 < vol ->
  exists g, derivative (fun f => delta_n f tau cp K vol A) F g /\
    derivative (fun t => price_n F t cp K vol A) tau (1 / 2 * (vol * vol) * g).
Proof.
  intros W Ht Hv. pose proof (total_pos vol tau Hv Ht) as T. pose proof (sqrt_lt_R0 tau Ht) as Hs.
  set (v := vol * sqrt tau) in *. exists (A * (pdf ((F - K) / v) / v)). split.
  - exists (fun f => A * cp * cdf (cp * ((f - K) / v))). split.
    + exists 1. split; [lra | ]. intros y _. rewrite delta_n_elem. unfold bach_delta_elem. rewrite bach_d_fin by (fold v; lra). fold v. cbn [mul ncdf]. f_equal. ring.
    + assert (D : derivable_pt_lim (fun f => (f - K) / v) F (/ v)).
      { refine (dlim_val _ F _ _ _ (derivable_pt_lim_mult _ _ F _ _ (derivable_pt_lim_minus _ _ F _ _ (derivable_pt_lim_id F) (derivable_pt_lim_const K F)) (derivable_pt_lim_const (/ v) F))).
        unfold fct_cte. field. lra. }
      refine (dlim_val _ F _ _ _ (derivable_pt_lim_scal _ (A * cp) F _ (cdf_comp _ F _ (derivable_pt_lim_scal _ cp F _ D)))).
      unfold mult_real_fct. rewrite nrm_w by auto. unfold Rdiv. destruct W as [-> | ->]; ring.
  - exists (fun t => A * nrm cp F K (vol * sqrt t)). split.
    + destruct (near_pos _ Ht) as (e & He & B). exists e. split; auto. intros y Hy. specialize (B y Hy). pose proof (total_pos vol y Hv B). apply price_n_fin; lra.
    + refine (dlim_val _ tau _ _ _ (derivable_pt_lim_scal _ A tau _
        (nrm_path cp (fun _ => F) (fun t => vol * sqrt t) K tau 0 _ W _ (derivable_pt_lim_const _ tau) (derivable_pt_lim_scal _ vol tau _ (sqrt_dlim tau Ht))))); [ | fold v; lra].
      fold v. set (p := pdf _). unfold v. field. lra.
Qed.

(* Garman-Kohlhagen: the reported price, spot delta and gamma (per one per cent of spot) solve the equation of the model;
   the theta that would follow is not the one reported (C50) *)
Theorem C157_garman_kohlhagen_equation (S tau rd rf cp K vol : R) : call_or_put cp -> 0 < S -> 0 < K -> 0 < tau -> 0 < vol ->
  exists x d g, price_gk S tau rd rf cp K vol None = Fin x /\ spot_delta_gk S tau rd rf cp K vol None = Fin d /\ gamma_gk S tau rd rf cp K vol None = Fin g /\
    derivative (fun t => price_gk S t rd rf cp K vol None) tau (1 / 2 * (vol * vol) * (S * S) * (g * 100 / S) + (rd - rf) * S * d - rd * x).
Proof.
  intros W HS HK Ht Hv. pose proof (total_pos vol tau Hv Ht) as T. pose proof (sqrt_lt_R0 tau Ht) as Hs.
  rewrite gamma_live, spot_delta_live, price_gk_live by (cbn; auto; lra).
  do 3 eexists. do 3 (split; [reflexivity | ]).
  exists (fun t => exp (- rd * t) * blk cp (S * exp ((rd - rf) * t)) K (vol * sqrt t)). split.
  - destruct (near_pos _ Ht) as (e & He & B). exists e. split; auto. intros y Hy. specialize (B y Hy). pose proof (total_pos vol y Hv B).
    rewrite price_gk_live by (cbn; auto; lra). rewrite df_rate by (cbn; auto). reflexivity.
  - pose proof (exp_pos ((rd - rf) * tau)) as P.
    refine (dlim_val _ tau _ _ _ (derivable_pt_lim_mult _ _ tau _ _ (exp_lin_dlim (- rd) tau)
      (blk_path cp (fun t => S * exp ((rd - rf) * t)) (fun _ => K) (fun t => vol * sqrt t) tau _ 0 _ W _ HK T
         (derivable_pt_lim_scal _ S tau _ (exp_lin_dlim (rd - rf) tau)) (derivable_pt_lim_const _ tau) (derivable_pt_lim_scal _ vol tau _ (sqrt_dlim tau Ht))))).
    2: { cbn beta. apply Rmult_lt_0_compat; auto. }
    rewrite df_rate by (cbn; auto). cbn [forward_of rate]. set (f := S * exp ((rd - rf) * tau)) in *. set (v := vol * sqrt tau) in *.
    assert (C : S * exp (- rf * tau) = exp (- rd * tau) * f) by apply carry.
    unfold blk. set (p1 := pdf (bd1 f K v)). set (c1 := cdf (cp * bd1 f K v)). set (c2 := cdf (cp * bd2 f K v)).
    replace (S * ((rd - rf) * exp ((rd - rf) * tau))) with ((rd - rf) * f) by (unfold f; ring).
    replace ((rd - rf) * S * (cp * exp (- rf * tau) * c1)) with ((rd - rf) * cp * c1 * (S * exp (- rf * tau))) by ring.
    replace (1 / 2 * (vol * vol) * (S * S) * (1 / 100 * S * (exp (- rf * tau) * p1 / (S * vol * sqrt tau)) * 100 / S))
      with ((S * exp (- rf * tau)) * p1 * vol / (2 * sqrt tau)) by (field; lra).
    rewrite C. field. lra.
Qed.

(* vega per point of volatility is gamma per one per cent of spot, times volatility, time to expiry and spot, whatever the market forward *)
Theorem C157_vega_from_gamma (S tau rd rf cp K vol : R) (F : option R) : call_or_put cp -> 0 < S -> 0 < K -> 0 < tau -> 0 < vol -> good_forward F ->
  exists w g, vega_gk S tau rd rf cp K vol F = Fin w /\ gamma_gk S tau rd rf cp K vol F = Fin g /\ w = vol * tau * S * g.
Proof.
  intros W HS HK Ht Hv HF. pose proof (total_pos vol tau Hv Ht) as T. pose proof (sqrt_lt_R0 tau Ht) as Hs.
  rewrite vega_live, gamma_live by (auto; lra). do 2 eexists. do 2 (split; [reflexivity | ]).
  assert (SS : tau = sqrt tau * sqrt tau) by (rewrite sqrt_sqrt; lra).
  set (q := sqrt tau) in *. set (p := pdf _). set (e := exp _). rewrite SS. field. lra.
Qed.

(* the price is homogeneous: spot times spot delta plus strike times the slope in the strike is the price *)
Theorem C157_euler (S tau rd rf cp K vol : R) (F : option R) : call_or_put cp -> 0 < S -> 0 < K -> 0 < tau -> 0 < vol -> good_forward F ->
  exists x d k, price_gk S tau rd rf cp K vol F = Fin x /\ spot_delta_gk S tau rd rf cp K vol F = Fin d /\
    derivative (fun y => price_gk S tau rd rf cp y vol F) K k /\ S * d + K * k = x.
Proof.
  intros W HS HK Ht Hv HF. pose proof (total_pos vol tau Hv Ht) as T. pose proof (fwd_pos S tau rd rf F HS HF) as Hf.
  rewrite spot_delta_live, price_gk_live by (auto; lra).
  set (f := forward_of S tau rd rf F) in *. set (v := vol * sqrt tau) in *.
  exists (dom_df S tau rd rf F * blk cp f K v), (cp * exp (- rf * tau) * cdf (cp * bd1 f K v)), (- dom_df S tau rd rf F * (cp * cdf (cp * bd2 f K v))).
  split; [reflexivity | ]. split; [reflexivity | ]. split.
  - exists (fun y => dom_df S tau rd rf F * blk cp f y v). split.
    + destruct (near_pos _ HK) as (e & He & B). exists e. split; auto. intros y Hy. specialize (B y Hy). rewrite price_gk_live by (auto; fold v; lra). reflexivity.
    + refine (dlim_val _ K _ _ _ (derivable_pt_lim_scal _ (dom_df S tau rd rf F) K _
        (blk_path cp (fun _ => f) (fun y => y) (fun _ => v) K 0 1 0 W Hf HK T (derivable_pt_lim_const _ K) (derivable_pt_lim_id K) (derivable_pt_lim_const _ K)))).
      ring.
  - unfold blk, dom_df. fold f. field. lra.
Qed.

Definition all_theorems := (@C157_black76_equation, @C157_bachelier_equation, @C157_garman_kohlhagen_equation, @C157_vega_from_gamma, @C157_euler).
Print Assumptions all_theorems.

Example C157_ex : call_or_put 1 /\ call_or_put (-1) /\ good_forward (Some 1) /\ good_forward None.
Proof. cbn. unfold call_or_put. repeat split; auto; lra. Qed.
