From Coq Require Import String Reals List Bool Lra Lia.
From Verif Require Import Base NormalModel NormalProofs BsProofs BlackModel BlackSpec BlackProofs BlackVecProofs GkModel GkSpec.
Import ListNotations.
Open Scope R_scope.

(* the rate in force *)
Definition rate (S tau rd rf : R) (F : option R) : R := match F with Some f => ln (f / S) / tau + rf | None => rd end.
Definition nF (F : option R) : option num := match F with Some f => Some (Fin f) | None => None end.

Lemma gk_rate_fin (S tau rd rf : R) (F : option R) : 0 < S -> 0 < tau -> good_forward F ->
  gk_rate (Fin S) (Fin tau) (Fin rd) (Fin rf) (nF F) = Fin (rate S tau rd rf F).
Proof.
  intros HS Ht HF. destruct F as [f | ]; [ | reflexivity]. cbn in HF. cbn [nF gk_rate rate]. rewrite div_fin by lra.
  rewrite nlog_fin by (apply quot_pos; auto). rewrite div_fin by lra. reflexivity.
Qed.

Lemma fwd_rate (S tau rd rf : R) (F : option R) : 0 < S -> 0 < tau -> good_forward F ->
  S * exp ((rate S tau rd rf F - rf) * tau) = forward_of S tau rd rf F.
Proof.
  intros HS Ht HF. destruct F as [f | ]; [ | reflexivity]. cbn in HF |- *. replace ((ln (f / S) / tau + rf - rf) * tau) with (ln (f / S)) by (field; lra).
  rewrite exp_ln by (apply quot_pos; auto). field. lra.
Qed.

Lemma fwd_pos (S tau rd rf : R) (F : option R) : 0 < S -> good_forward F -> 0 < forward_of S tau rd rf F.
Proof. intros HS HF. destruct F as [f | ]; cbn in *; auto. apply Rmult_lt_0_compat; auto. apply exp_pos. Qed.

Lemma df_rate (S tau rd rf : R) (F : option R) : 0 < S -> 0 < tau -> good_forward F -> dom_df S tau rd rf F = exp (- rate S tau rd rf F * tau).
Proof.
  intros HS Ht HF. unfold dom_df. rewrite <- (fwd_rate S tau rd rf F) by auto. set (r := rate S tau rd rf F).
  replace ((r - rf) * tau) with (- rf * tau - - r * tau) by ring. unfold Rminus. rewrite exp_plus, (exp_Ropp (- r * tau)).
  pose proof (exp_pos (- rf * tau)). pose proof (exp_pos (- r * tau)). field. lra.
Qed.

Lemma gk_d1_fin (S tau r q K vol : R) : 0 < S -> 0 < K -> 0 <= tau -> vol * sqrt tau <> 0 ->
  gk_d1 (Fin S) (Fin tau) (Fin r) (Fin q) (Fin K) (Fin vol) = Fin (bd1 (S * exp ((r - q) * tau)) K (vol * sqrt tau)).
Proof.
  intros HS HK Ht Hv. unfold gk_d1. rewrite div_fin by lra. rewrite nlog_fin by (apply quot_pos; auto). rewrite nsqrt_fin by auto.
  cbn [mul add sub neg]. rewrite div_fin by auto. f_equal. unfold bd1. f_equal.
  pose proof (exp_pos ((r - q) * tau)). rewrite ln_quot by auto. rewrite (ln_quot (S * _)) by (auto; apply Rmult_lt_0_compat; auto).
  rewrite ln_mult, ln_exp by auto.
  replace (vol * sqrt tau * (vol * sqrt tau)) with (vol * vol * (sqrt tau * sqrt tau)) by ring. rewrite sqrt_sqrt by auto. field.
Qed.

Lemma gk_d2_fin (S tau r q K vol : R) : 0 < S -> 0 < K -> 0 <= tau -> vol * sqrt tau <> 0 ->
  gk_d2 (Fin S) (Fin tau) (Fin r) (Fin q) (Fin K) (Fin vol) = Fin (bd2 (S * exp ((r - q) * tau)) K (vol * sqrt tau)).
Proof. intros. unfold gk_d2. rewrite gk_d1_fin by auto. rewrite nsqrt_fin by auto. reflexivity. Qed.

Lemma carry (S tau r q : R) : S * exp (- q * tau) = exp (- r * tau) * (S * exp ((r - q) * tau)).
Proof. replace (- q * tau) with (- r * tau + (r - q) * tau) by ring. rewrite exp_plus. ring. Qed.

Lemma gk_elem_fin (S tau r q cp K vol : R) : 0 < S -> 0 < K -> 0 <= tau -> vol * sqrt tau <> 0 ->
  gk_elem (Fin S) (Fin tau) (Fin r) (Fin q) (Fin cp) (Fin K) (Fin vol) = Fin (exp (- r * tau) * blk cp (S * exp ((r - q) * tau)) K (vol * sqrt tau)).
Proof.
  intros. unfold gk_elem, disc. rewrite gk_d1_fin, gk_d2_fin by auto. cbn [mul ncdf sub neg add nexp]. f_equal. unfold blk.
  rewrite (carry S tau r q). ring.
Qed.

(* ---- scalar calls ---- *)
Lemma cp_true (cp : R) : call_or_put cp -> is_cp cp = true.
Proof. intros [-> | ->]; unfold is_cp; destruct (Req_EM_T _ _); auto; destruct (Req_EM_T _ _); auto; lra. Qed.
Lemma cp_inv (cp : R) : is_cp cp = true -> call_or_put cp.
Proof. unfold is_cp, call_or_put. destruct (Req_EM_T _ _); auto; destruct (Req_EM_T _ _); auto; discriminate. Qed.
Lemma all_pos_iff (l : list R) : all_pos l = true <-> Forall (fun x => 0 < x) l.
Proof.
  unfold all_pos. rewrite forallb_forall, Forall_forall. split; intros H x I; specialize (H x I); destruct (Rlt_dec 0 x); auto; discriminate.
Qed.
Lemma all_nonneg_iff (l : list R) : all_nonneg l = true <-> Forall (fun x => 0 <= x) l.
Proof.
  unfold all_nonneg. rewrite forallb_forall, Forall_forall. split; intros H x I; specialize (H x I); destruct (Rle_dec 0 x); auto; discriminate.
Qed.

Definition elem_of (S tau rd rf cp K vol : R) (F : option R) (f : num -> num -> num -> num -> num -> num -> num -> num) : num :=
  f (Fin S) (Fin tau) (gk_rate (Fin S) (Fin tau) (Fin rd) (Fin rf) (nF F)) (Fin rf) (Fin cp) (Fin K) (Fin vol).

Lemma core_scalar (S tau rd rf cp K vol : R) (F : option R) (sp an : bool) : 0 < S -> 0 <= tau -> call_or_put cp -> good_forward F ->
  let E := elem_of S tau rd rf cp K vol F in
  let X := if is_zero (Fin tau) then intrinsic_elem (Fin S) (Fin cp) (Fin K) else E gk_elem in
  let i := if is_pos (Fin tau) then E (fun s t r q c k _ => gk_intrinsic s t r q c k) else if is_zero (Fin tau) then X else NaN in
  garman_kohlhagen_price (scalar_gk S tau rd rf cp K vol F) sp an false =
  Ok (mk_priced [X] (if sp then Some ([i], [sub X i]) else None)
        (if an then Some [[E gk_spot_delta]; [E gk_forward_delta]; [E (fun s t r q _ k v => gk_vega s t r q k v)]; [E gk_theta];
                          [E (fun s t r q _ k v => gk_gamma s t r q k v)]; [E gk_rho]] else None) None).
Proof.
  intros HS Ht Hc HF. cbv zeta. unfold garman_kohlhagen_price, gk_core, scalar_gk. cbn [g_S g_tau g_rd g_rf g_cp g_K g_vol g_F].
  rewrite (proj2 (all_pos_iff [S])) by auto. rewrite (proj2 (all_nonneg_iff [tau])) by auto.
  replace (forallb is_cp [cp]) with true by (cbn; rewrite cp_true by auto; reflexivity).
  destruct F as [f | ]; [cbn in HF; rewrite (proj2 (all_pos_iff [f])) by auto | ]; destruct sp, an; reflexivity.
Qed.

Lemma price_gk_elem (S tau rd rf cp K vol : R) (F : option R) : 0 < S -> 0 <= tau -> call_or_put cp -> good_forward F ->
  price_gk S tau rd rf cp K vol F = if is_zero (Fin tau) then intrinsic_elem (Fin S) (Fin cp) (Fin K) else elem_of S tau rd rf cp K vol F gk_elem.
Proof. intros. unfold price_gk. rewrite (core_scalar S tau rd rf cp K vol F false false) by auto. reflexivity. Qed.

Lemma is_zero_pos (t : R) : 0 < t -> is_zero (Fin t) = false.
Proof. intros. cbn. destruct (Req_EM_T t 0); [lra | reflexivity]. Qed.

Section live.
  Variables S tau rd rf cp K vol : R.
  Variable F : option R.
  Hypotheses (HS : 0 < S) (Ht : 0 < tau) (Hc : call_or_put cp) (HF : good_forward F) (HK : 0 < K) (Hv : vol * sqrt tau <> 0).
  Let f := forward_of S tau rd rf F.
  Let v := vol * sqrt tau.
  Let r := rate S tau rd rf F.

  Lemma price_gk_live : price_gk S tau rd rf cp K vol F = Fin (dom_df S tau rd rf F * blk cp f K v).
  Proof.
    rewrite price_gk_elem by (auto; lra). rewrite is_zero_pos by auto. unfold elem_of. rewrite gk_rate_fin by auto.
    rewrite gk_elem_fin by (auto; lra). rewrite fwd_rate, df_rate by auto. reflexivity.
  Qed.

  Ltac greek := unfold greek_gk; rewrite (core_scalar S tau rd rf cp K vol F false true) by (auto; lra);
    cbn [the_greek p_analytical nth_error]; unfold elem_of; rewrite gk_rate_fin by auto.

  Lemma spot_delta_live : spot_delta_gk S tau rd rf cp K vol F = Fin (cp * exp (- rf * tau) * cdf (cp * bd1 f K v)).
  Proof. unfold spot_delta_gk. greek. unfold gk_spot_delta, disc. rewrite gk_d1_fin, fwd_rate by (auto; lra). reflexivity. Qed.
  Lemma forward_delta_live : forward_delta_gk S tau rd rf cp K vol F = Fin (cp * cdf (cp * bd1 f K v)).
  Proof. unfold forward_delta_gk. greek. unfold gk_forward_delta. rewrite gk_d1_fin, fwd_rate by (auto; lra). reflexivity. Qed.
  Lemma vega_live : vega_gk S tau rd rf cp K vol F = Fin (S * sqrt tau * pdf (bd1 f K v) * exp (- rf * tau) * (1 / 100)).
  Proof. unfold vega_gk. greek. unfold gk_vega, disc. rewrite gk_d1_fin, fwd_rate, nsqrt_fin by (auto; lra). reflexivity. Qed.
  Lemma gamma_live : gamma_gk S tau rd rf cp K vol F = Fin (1 / 100 * S * (exp (- rf * tau) * pdf (bd1 f K v) / (S * vol * sqrt tau))).
  Proof.
    unfold gamma_gk. greek. unfold gk_gamma, disc. rewrite gk_d1_fin, fwd_rate, nsqrt_fin by (auto; lra). cbn [mul neg nexp npdf].
    rewrite div_fin; [reflexivity | ]. rewrite Rmult_assoc. apply Rmult_integral_contrapositive. split; [lra | exact Hv].
  Qed.
  Lemma rho_live : rho_gk S tau rd rf cp K vol F = Fin (K * tau * exp (- rf * tau) * cdf (cp * bd2 f K v) * (1 / 100)).
  Proof. unfold rho_gk. greek. unfold gk_rho, disc. rewrite gk_d2_fin, fwd_rate by (auto; lra). reflexivity. Qed.
  Lemma theta_live : theta_gk S tau rd rf cp K vol F =
    Fin ((- (S * exp (- r * tau) * pdf (bd1 f K v * cp) * vol) / (2 * sqrt tau) + rf * exp (- rf * tau) * S * cdf (bd1 f K v * cp) -
          r * exp (- r * tau) * K * cdf (bd2 f K v * cp)) * (4 / 1461)).
  Proof.
    unfold theta_gk. greek. unfold gk_theta, disc. cbv zeta. rewrite gk_d1_fin, gk_d2_fin, fwd_rate, nsqrt_fin by (auto; lra). cbn [mul neg nexp npdf].
    pose proof (sqrt_lt_R0 tau Ht). rewrite div_fin by lra. reflexivity.
  Qed.
  Lemma split_gk_live : split_gk S tau rd rf cp K vol F =
    let x := dom_df S tau rd rf F * blk cp f K v in let i := Rmax 0 (cp * (S * exp (- rf * tau) - K * exp (- r * tau))) in Some (Fin i, Fin (x - i)).
  Proof.
    cbv zeta. unfold split_gk. rewrite (core_scalar S tau rd rf cp K vol F true false) by (auto; lra).
    cbn [the_split p_split]. rewrite is_pos_fin, is_zero_pos by auto. unfold elem_of. rewrite gk_rate_fin by auto.
    rewrite gk_elem_fin by (auto; lra). rewrite fwd_rate, df_rate by auto. reflexivity.
  Qed.
End live.

Lemma price_gk_expired (S rd rf cp K vol : R) (F : option R) : 0 < S -> call_or_put cp -> good_forward F ->
  price_gk S 0 rd rf cp K vol F = Fin (Rmax 0 (cp * (S - K))).
Proof. intros. rewrite price_gk_elem by (auto; lra). cbn [is_zero]. destruct (Req_EM_T 0 0); [reflexivity | lra]. Qed.

Lemma nlog_quot_sign (S K : R) : 0 < S -> 0 < K -> (S < K -> ln (S / K) < 0) /\ (K < S -> 0 < ln (S / K)).
Proof.
  intros. rewrite ln_quot by auto. split; intros L; [pose proof (ln_increasing S K) | pose proof (ln_increasing K S)]; lra.
Qed.

(* no volatility left before expiry *)
Lemma price_gk_flat (S tau rd rf cp K : R) (F : option R) : 0 < S -> 0 < tau -> call_or_put cp -> good_forward F -> 0 < K ->
  let f := forward_of S tau rd rf F in
  price_gk S tau rd rf cp K 0 F = if Req_EM_T f K then NaN else Fin (dom_df S tau rd rf F * Rmax 0 (cp * (f - K))).
Proof.
  intros HS Ht Hc HF HK. cbv zeta. rewrite price_gk_elem by (auto; lra). rewrite is_zero_pos by auto. unfold elem_of. rewrite gk_rate_fin by auto.
  rewrite df_rate by auto. rewrite <- (fwd_rate S tau rd rf F) by auto. set (r := rate S tau rd rf F).
  unfold gk_elem, gk_d2, gk_d1, disc. rewrite div_fin by lra. rewrite nlog_fin by (apply quot_pos; auto). rewrite nsqrt_fin by lra.
  cbn [mul add sub neg nexp]. rewrite (Rmult_0_l (sqrt tau)), div_zero. rewrite (carry S tau r rf).
  replace (ln (S / K) + (r + - rf + 1 / 2 * (0 * 0)) * tau) with (ln (S * exp ((r - rf) * tau) / K)).
  2: { pose proof (exp_pos ((r - rf) * tau)). rewrite (ln_quot (S * _)), (ln_quot S) by (auto; apply Rmult_lt_0_compat; auto). rewrite ln_mult, ln_exp by auto. ring. }
  set (f := S * exp ((r - rf) * tau)) in *. assert (Hf : 0 < f) by (apply Rmult_lt_0_compat; [auto | apply exp_pos]).
  pose proof (nlog_quot_sign f K Hf HK) as [P1 P2].
  destruct (Req_EM_T f K) as [-> | N].
  - replace (K / K) with 1 by (field; lra). rewrite ln_1, scale_0. reflexivity.
  - destruct (Rlt_or_le f K) as [L | L].
    + rewrite scale_neg by auto. destruct Hc as [-> | ->]; cbn [sub add neg mul].
      * rewrite (scale_neg (- (1))) by lra. cbn. f_equal. rewrite Rmax_left by lra. ring.
      * rewrite (scale_pos (- (-1))) by lra. cbn. f_equal. rewrite Rmax_right by lra. ring.
    + rewrite scale_pos by (apply P2; lra). destruct Hc as [-> | ->]; cbn [sub add neg mul].
      * rewrite (scale_pos 1) by lra. cbn. f_equal. rewrite Rmax_right by lra. ring.
      * rewrite (scale_neg (-1)) by lra. cbn. f_equal. rewrite Rmax_left by lra. ring.
Qed.

(* ---- C48 ---- *)
Lemma gk_parity (S tau rd rf K vol : R) (F : option R) : 0 < S -> 0 < K -> 0 < tau -> good_forward F -> vol <> 0 \/ forward_of S tau rd rf F <> K ->
  exists c p, price_gk S tau rd rf 1 K vol F = Fin c /\ price_gk S tau rd rf (-1) K vol F = Fin p /\
    c - p = S * exp (- rf * tau) - K * dom_df S tau rd rf F.
Proof.
  intros HS HK Ht HF C. pose proof (fwd_pos S tau rd rf F HS HF) as Hf.
  assert (D : S * exp (- rf * tau) = dom_df S tau rd rf F * forward_of S tau rd rf F) by (unfold dom_df; field; lra). rewrite D.
  pose proof (sqrt_lt_R0 tau Ht) as Hs.
  destruct (Req_dec vol 0) as [-> | N].
  - destruct C as [C | C]; [lra | ]. rewrite !price_gk_flat by (unfold call_or_put; auto). cbv zeta.
    destruct (Req_EM_T _ _); [contradiction | ]. do 2 eexists. split; [reflexivity | split; [reflexivity | ]].
    set (f := forward_of S tau rd rf F) in *. destruct (Rle_or_lt f K); [rewrite Rmax_left, Rmax_right by lra | rewrite Rmax_right, Rmax_left by lra]; ring.
  - assert (vol * sqrt tau <> 0) by (apply Rmult_integral_contrapositive; split; lra).
    rewrite !price_gk_live by (unfold call_or_put; auto). do 2 eexists. split; [reflexivity | split; [reflexivity | ]].
    pose proof (blk_parity (forward_of S tau rd rf F) K (vol * sqrt tau)) as P. 
    replace (dom_df S tau rd rf F * forward_of S tau rd rf F - K * dom_df S tau rd rf F) with (dom_df S tau rd rf F * (forward_of S tau rd rf F - K)) by ring.
    rewrite <- P. ring.
Qed.

Lemma gk_parity_expired (S rd rf K vol : R) (F : option R) : 0 < S -> good_forward F ->
  exists c p, price_gk S 0 rd rf 1 K vol F = Fin c /\ price_gk S 0 rd rf (-1) K vol F = Fin p /\ c - p = S - K.
Proof.
  intros HS HF. rewrite !price_gk_expired by (unfold call_or_put; auto). do 2 eexists. split; [reflexivity | split; [reflexivity | ]].
  destruct (Rle_or_lt S K); [rewrite Rmax_left, Rmax_right by lra | rewrite Rmax_right, Rmax_left by lra]; ring.
Qed.

(* ---- C49 ---- *)
Lemma df_pos (S tau rd rf : R) (F : option R) : 0 < S -> good_forward F -> 0 < dom_df S tau rd rf F.
Proof. intros HS HF. unfold dom_df. apply Rdiv_lt_0_compat; [apply Rmult_lt_0_compat; [auto | apply exp_pos] | apply fwd_pos; auto]. Qed.

Lemma df_forward (S tau rd rf : R) (F : option R) : 0 < S -> good_forward F -> dom_df S tau rd rf F * forward_of S tau rd rf F = S * exp (- rf * tau).
Proof. intros HS HF. pose proof (fwd_pos S tau rd rf F HS HF). unfold dom_df. field. lra. Qed.

Lemma max_scale (d x : R) : 0 < d -> d * Rmax 0 x = Rmax 0 (d * x).
Proof. intros. destruct (Rle_or_lt 0 x); [rewrite !Rmax_right | rewrite !Rmax_left]; try lra; nra. Qed.

Lemma gk_bounds (S tau rd rf cp K vol : R) (F : option R) : call_or_put cp -> 0 < S -> 0 < K -> 0 < tau -> 0 < vol -> good_forward F ->
  exists x, price_gk S tau rd rf cp K vol F = Fin x /\
    Rmax 0 (cp * (S * exp (- rf * tau) - K * dom_df S tau rd rf F)) < x /\ x < (if Rlt_dec 0 cp then S * exp (- rf * tau) else K * dom_df S tau rd rf F).
Proof.
  intros W HS HK Ht Hv HF. pose proof (total_pos vol tau Hv Ht) as T. pose proof (fwd_pos S tau rd rf F HS HF) as Hf. pose proof (df_pos S tau rd rf F HS HF) as Hd.
  rewrite price_gk_live by (auto; lra). eexists. split; [reflexivity | ]. rewrite <- (df_forward S tau rd rf F) by auto.
  set (f := forward_of S tau rd rf F) in *. set (D := dom_df S tau rd rf F) in *. split.
  - replace (cp * (D * f - K * D)) with (D * (cp * (f - K))) by ring. rewrite <- max_scale by auto. apply Rmult_lt_compat_l; auto. apply blk_lower; auto.
  - pose proof (blk_upper cp f K (vol * sqrt tau) W Hf HK T) as U. destruct (Rlt_dec 0 cp); [ | rewrite (Rmult_comm K)]; apply Rmult_lt_compat_l; auto.
Qed.

Lemma gk_vol_mono (S tau rd rf cp K v1 v2 : R) (F : option R) : call_or_put cp -> 0 < S -> 0 < K -> 0 < tau -> 0 < v1 -> v1 < v2 -> good_forward F ->
  exists x y, price_gk S tau rd rf cp K v1 F = Fin x /\ price_gk S tau rd rf cp K v2 F = Fin y /\ x < y.
Proof.
  intros W HS HK Ht H1 H2 HF. pose proof (total_pos v1 tau H1 Ht) as T1. pose proof (total_pos v2 tau ltac:(lra) Ht) as T2.
  pose proof (fwd_pos S tau rd rf F HS HF) as Hf. pose proof (df_pos S tau rd rf F HS HF) as Hd. pose proof (sqrt_lt_R0 tau Ht).
  rewrite !price_gk_live by (auto; lra). do 2 eexists. split; [reflexivity | split; [reflexivity | ]].
  apply Rmult_lt_compat_l; auto. apply blk_mono; auto.
Qed.

Lemma blk_opp (w F K v : R) : v <> 0 -> blk w F K (- v) = - blk (- w) F K v.
Proof.
  intros Hv. unfold blk. assert (E : bd1 F K (- v) = - bd1 F K v) by (unfold bd1; field; lra).
  assert (E2 : bd2 F K (- v) = - bd2 F K v) by (unfold bd2; rewrite E; ring). rewrite E, E2.
  replace (w * - bd1 F K v) with (- w * bd1 F K v) by ring. replace (w * - bd2 F K v) with (- w * bd2 F K v) by ring. ring.
Qed.

(* volatilities below zero, which solvers may try, price the opposite option with a minus sign *)
Lemma gk_negative_vol (S tau rd rf cp K vol : R) (F : option R) : call_or_put cp -> 0 < S -> 0 < K -> 0 < tau -> 0 < vol -> good_forward F ->
  exists x, price_gk S tau rd rf (- cp) K vol F = Fin x /\ 0 < x /\ price_gk S tau rd rf cp K (- vol) F = Fin (- x).
Proof.
  intros W HS HK Ht Hv HF. pose proof (total_pos vol tau Hv Ht) as T. pose proof (fwd_pos S tau rd rf F HS HF) as Hf. pose proof (df_pos S tau rd rf F HS HF) as Hd.
  assert (W' : call_or_put (- cp)) by (destruct W as [-> | ->]; [right | left]; ring).
  rewrite !price_gk_live by (auto; lra). eexists. split; [reflexivity | ]. split.
  - apply Rmult_lt_0_compat; auto. apply blk_pos; auto.
  - f_equal. replace (- vol * sqrt tau) with (- (vol * sqrt tau)) by ring. rewrite blk_opp by lra. ring.
Qed.

Lemma gk_implied (S tau rd rf cp K p : R) (F : option R) : call_or_put cp -> 0 < S -> 0 < K -> 0 < tau -> good_forward F ->
  let low := Rmax 0 (cp * (S * exp (- rf * tau) - K * dom_df S tau rd rf F)) in
  let high := if Rlt_dec 0 cp then S * exp (- rf * tau) else K * dom_df S tau rd rf F in
  ((exists vol, 0 < vol /\ price_gk S tau rd rf cp K vol F = Fin p) <-> low < p < high) /\
  (low < p -> forall v1 v2, price_gk S tau rd rf cp K v1 F = Fin p -> price_gk S tau rd rf cp K v2 F = Fin p -> 0 < v1 /\ v1 = v2).
Proof.
  intros W HS HK Ht HF. cbv zeta. pose proof (fwd_pos S tau rd rf F HS HF) as Hf. pose proof (df_pos S tau rd rf F HS HF) as Hd. split; [split | ].
  - intros (vol & Hv & E). destruct (gk_bounds S tau rd rf cp K vol F W HS HK Ht Hv HF) as (x & E' & B). rewrite E in E'. injection E' as ->. exact B.
  - rewrite <- (df_forward S tau rd rf F) by auto. set (D := dom_df S tau rd rf F) in *. set (f := forward_of S tau rd rf F) in *.
    intros [L U]. replace (cp * (D * f - K * D)) with (D * (cp * (f - K))) in L by ring. rewrite <- max_scale in L by auto.
    destruct (blk_onto cp f K (p / D) W Hf HK) as (v & Hv & E).
    + apply (Rmult_lt_reg_l D); auto. replace (D * (p / D)) with p by (field; lra). auto.
    + apply (Rmult_lt_reg_l D); auto. replace (D * (p / D)) with p by (field; lra). destruct (Rlt_dec 0 cp); lra.
    + pose proof (sqrt_lt_R0 tau Ht). exists (v / sqrt tau). split; [apply Rdiv_lt_0_compat; auto | ].
      assert (V : v / sqrt tau * sqrt tau = v) by (field; lra). rewrite price_gk_live by (rewrite ?V; auto; lra). fold f D. rewrite V, E. f_equal. field. lra.
  - intros L. assert (P : forall v, price_gk S tau rd rf cp K v F = Fin p -> 0 < v).
    { intros v E. destruct (Rtotal_order v 0) as [N | [N | N]]; auto; exfalso.
      - destruct (gk_negative_vol S tau rd rf cp K (- v) F W HS HK Ht ltac:(lra) HF) as (x & _ & X & E'). rewrite Ropp_involutive, E in E'. injection E' as E'.
        pose proof (Rmax_l 0 (cp * (S * exp (- rf * tau) - K * dom_df S tau rd rf F))). lra.
      - rewrite N, price_gk_flat in E by auto. cbv zeta in E. destruct (Req_EM_T _ _); [discriminate | ]. injection E as E. rewrite max_scale in E by auto.
        rewrite <- (df_forward S tau rd rf F) in L by auto.
        replace (cp * (dom_df S tau rd rf F * forward_of S tau rd rf F - K * dom_df S tau rd rf F)) with (dom_df S tau rd rf F * (cp * (forward_of S tau rd rf F - K))) in L by ring. lra. }
    intros v1 v2 E1 E2. pose proof (P v1 E1) as H1. pose proof (P v2 E2) as H2. split; auto.
    destruct (Rtotal_order v1 v2) as [M | [M | M]]; auto; exfalso.
    + destruct (gk_vol_mono S tau rd rf cp K v1 v2 F W HS HK Ht H1 M HF) as (x & y & X & Y & C). rewrite E1 in X. rewrite E2 in Y. injection X as ->. injection Y as ->. lra.
    + destruct (gk_vol_mono S tau rd rf cp K v2 v1 F W HS HK Ht H2 M HF) as (x & y & X & Y & C). rewrite E2 in X. rewrite E1 in Y. injection X as ->. injection Y as ->. lra.
Qed.

(* ---- C50 ---- *)
Lemma carried_good (F : option R) (S s : R) : 0 < S -> 0 < s -> good_forward F -> good_forward (carried F S s).
Proof. intros HS Hs HF. destruct F as [f | ]; cbn in *; auto. apply Rdiv_lt_0_compat; auto. apply Rmult_lt_0_compat; auto. Qed.
Lemma carried_forward (F : option R) (S s tau rd rf : R) : 0 < S -> forward_of s tau rd rf (carried F S s) = forward_of S tau rd rf F / S * s.
Proof. intros HS. destruct F as [f | ]; cbn; field; lra. Qed.
Lemma carried_df (F : option R) (S s tau rd rf : R) : 0 < S -> 0 < s -> good_forward F -> dom_df s tau rd rf (carried F S s) = dom_df S tau rd rf F.
Proof.
  intros HS Hs HF. unfold dom_df. rewrite carried_forward by auto. pose proof (fwd_pos S tau rd rf F HS HF). field. lra.
Qed.

Lemma lin_dlim (a x : R) : derivable_pt_lim (fun y => a * y) x a.
Proof. refine (dlim_val _ x _ _ _ (derivable_pt_lim_scal _ a x _ (derivable_pt_lim_id x))). ring. Qed.

Lemma gk_spot_delta_ok (S tau rd rf cp K vol : R) (F : option R) : call_or_put cp -> 0 < S -> 0 < K -> 0 < tau -> 0 < vol -> good_forward F ->
  exists d, spot_delta_gk S tau rd rf cp K vol F = Fin d /\ derivative (fun s => price_gk s tau rd rf cp K vol (carried F S s)) S d.
Proof.
  intros W HS HK Ht Hv HF. pose proof (total_pos vol tau Hv Ht) as T. pose proof (fwd_pos S tau rd rf F HS HF) as Hf.
  rewrite spot_delta_live by (auto; lra). eexists. split; [reflexivity | ].
  exists (fun s => dom_df S tau rd rf F * blk cp (forward_of S tau rd rf F / S * s) K (vol * sqrt tau)). split.
  - destruct (near_pos _ HS) as (e & He & B). exists e. split; auto. intros y Hy. specialize (B y Hy).
    rewrite price_gk_live; auto; try lra. { now rewrite carried_forward, carried_df by auto. } apply carried_good; auto.
  - assert (E : forward_of S tau rd rf F / S * S = forward_of S tau rd rf F) by (field; lra).
    refine (dlim_val _ S _ _ _ (derivable_pt_lim_scal _ (dom_df S tau rd rf F) S _
      (blk_path cp (fun s => forward_of S tau rd rf F / S * s) (fun _ => K) (fun _ => vol * sqrt tau) S _ 0 0 W _ HK T (lin_dlim _ S) (derivable_pt_lim_const _ S) (derivable_pt_lim_const _ S)))).
    + cbn beta. rewrite E. set (f := forward_of S tau rd rf F) in *. unfold dom_df. fold f. field. lra.
    + rewrite E. auto.
Qed.

Lemma gk_forward_delta_ok (S tau rd rf cp K vol f : R) : call_or_put cp -> 0 < S -> 0 < K -> 0 < tau -> 0 < vol -> 0 < f ->
  exists d, forward_delta_gk S tau rd rf cp K vol (Some f) = Fin d /\ derivative (fun g => forward_value_gk S tau rd rf cp K vol g) f d.
Proof.
  intros W HS HK Ht Hv Hf. pose proof (total_pos vol tau Hv Ht) as T. rewrite forward_delta_live by (auto; lra). eexists. split; [reflexivity | ].
  exists (fun g => blk cp g K (vol * sqrt tau)). split.
  - destruct (near_pos _ Hf) as (e & He & B). exists e. split; auto. intros y Hy. specialize (B y Hy).
    unfold forward_value_gk. rewrite price_gk_live by (auto; lra). pose proof (df_pos S tau rd rf (Some y) HS B). rewrite div_fin by lra. f_equal. cbn [forward_of]. field. lra.
  - apply blk_dF; auto.
Qed.

(* spot and forward delta differ by the foreign discount factor *)
Lemma gk_deltas (S tau rd rf cp K vol : R) (F : option R) : call_or_put cp -> 0 < S -> 0 < K -> 0 < tau -> 0 < vol -> good_forward F ->
  exists d, forward_delta_gk S tau rd rf cp K vol F = Fin d /\ spot_delta_gk S tau rd rf cp K vol F = Fin (exp (- rf * tau) * d) /\ 0 < cp * d < 1.
Proof.
  intros W HS HK Ht Hv HF. pose proof (total_pos vol tau Hv Ht) as T. rewrite forward_delta_live, spot_delta_live by (auto; lra).
  eexists. split; [reflexivity | ]. split; [f_equal; ring | ].
  set (x := cp * bd1 _ _ _). pose proof (cdf_gt_0 x). pose proof (cdf_lt_1 x). destruct W as [-> | ->]; lra.
Qed.

Lemma gk_vega_ok (S tau rd rf cp K vol : R) (F : option R) : call_or_put cp -> 0 < S -> 0 < K -> 0 < tau -> 0 < vol -> good_forward F ->
  exists w, vega_gk S tau rd rf cp K vol F = Fin w /\ 0 < w /\ derivative (fun v => price_gk S tau rd rf cp K v F) vol (w * 100).
Proof.
  intros W HS HK Ht Hv HF. pose proof (total_pos vol tau Hv Ht) as T. pose proof (fwd_pos S tau rd rf F HS HF) as Hf. pose proof (sqrt_lt_R0 tau Ht) as Hs.
  rewrite vega_live by (auto; lra). eexists. split; [reflexivity | ]. split.
  { pose proof (exp_pos (- rf * tau)). pose proof (pdf_pos (bd1 (forward_of S tau rd rf F) K (vol * sqrt tau))). repeat (apply Rmult_lt_0_compat; auto; try lra). }
  exists (fun v => dom_df S tau rd rf F * blk cp (forward_of S tau rd rf F) K (v * sqrt tau)). split.
  - destruct (near_pos _ Hv) as (e & He & B). exists e. split; auto. intros y Hy. specialize (B y Hy). pose proof (total_pos y tau B Ht). apply price_gk_live; auto; lra.
  - assert (D : derivable_pt_lim (fun v => v * sqrt tau) vol (sqrt tau)).
    { refine (dlim_val _ vol _ _ _ (derivable_pt_lim_mult _ _ vol _ _ (derivable_pt_lim_id vol) (derivable_pt_lim_const (sqrt tau) vol))). unfold id, fct_cte. ring. }
    refine (dlim_val _ vol _ _ _ (derivable_pt_lim_scal _ (dom_df S tau rd rf F) vol _
      (blk_path cp (fun _ => forward_of S tau rd rf F) (fun _ => K) (fun v => v * sqrt tau) vol 0 0 _ W Hf HK T (derivable_pt_lim_const _ vol) (derivable_pt_lim_const _ vol) D))).
    set (f := forward_of S tau rd rf F) in *. unfold dom_df. fold f. field. lra.
Qed.

Lemma gk_gamma_ok (S tau rd rf cp K vol : R) (F : option R) : call_or_put cp -> 0 < S -> 0 < K -> 0 < tau -> 0 < vol -> good_forward F ->
  exists g, gamma_gk S tau rd rf cp K vol F = Fin g /\ 0 < g /\
    derivative (fun s => spot_delta_gk s tau rd rf cp K vol (carried F S s)) S (g * 100 / S).
Proof.
  intros W HS HK Ht Hv HF. pose proof (total_pos vol tau Hv Ht) as T. pose proof (fwd_pos S tau rd rf F HS HF) as Hf. pose proof (sqrt_lt_R0 tau Ht) as Hs.
  rewrite gamma_live by (auto; lra). eexists. split; [reflexivity | ]. split.
  { pose proof (exp_pos (- rf * tau)). pose proof (pdf_pos (bd1 (forward_of S tau rd rf F) K (vol * sqrt tau))). apply Rmult_lt_0_compat; [lra | ].
    apply Rdiv_lt_0_compat; repeat (apply Rmult_lt_0_compat; auto). }
  set (f := forward_of S tau rd rf F) in *. set (v := vol * sqrt tau) in *.
  exists (fun s => cp * exp (- rf * tau) * cdf (cp * bd1 (f / S * s) K v)). split.
  - destruct (near_pos _ HS) as (e & He & B). exists e. split; auto. intros y Hy. specialize (B y Hy).
    rewrite spot_delta_live; auto; fold v; try lra. { now rewrite carried_forward by auto. } apply carried_good; auto.
  - assert (E : f / S * S = f) by (field; lra). assert (Q : 0 < f / S) by (apply Rdiv_lt_0_compat; auto).
    assert (L : derivable_pt_lim (fun s => bd1 (f / S * s) K v) S (/ S / v)).
    { unfold bd1. assert (LN : derivable_pt_lim (fun s => ln (f / S * s / K)) S (/ S)).
      { assert (P : 0 < f / S * S / K) by (rewrite E; apply Rdiv_lt_0_compat; auto).
        refine (dlim_val _ S _ _ _ (derivable_pt_lim_comp (fun s => f / S * s / K) ln S (f / S / K) _ _ (derivable_pt_lim_ln _ P))).
        - field. lra.
        - refine (dlim_val _ S _ _ _ (derivable_pt_lim_mult _ _ S _ _ (lin_dlim (f / S) S) (derivable_pt_lim_const (/ K) S))). unfold fct_cte. field. lra. }
      refine (dlim_val _ S _ _ _ (derivable_pt_lim_mult _ _ S _ _ (derivable_pt_lim_plus _ _ S _ _ LN (derivable_pt_lim_const (v * v / 2) S)) (derivable_pt_lim_const (/ v) S))).
      unfold fct_cte. field. lra. }
    refine (dlim_val _ S _ _ _ (derivable_pt_lim_scal _ (cp * exp (- rf * tau)) S _ (cdf_comp _ S _ (derivable_pt_lim_scal _ cp S _ L)))).
    unfold mult_real_fct. cbn beta. rewrite E. assert (PE : pdf (cp * bd1 f K v) = pdf (bd1 f K v)).
    { destruct W as [-> | ->]; [now rewrite Rmult_1_l | ]. replace (-1 * bd1 f K v) with (- bd1 f K v) by ring. apply pdf_even. }
    rewrite PE. replace (S * vol * sqrt tau) with (S * v) by (unfold v; ring).
    destruct W as [-> | ->]; field; lra.
Qed.

Lemma exp_lin_dlim (a x : R) : derivable_pt_lim (fun t => exp (a * t)) x (a * exp (a * x)).
Proof. refine (dlim_val _ x _ _ _ (derivable_pt_lim_comp (fun t => a * t) exp x a _ (lin_dlim a x) (derivable_pt_lim_exp (a * x)))). ring. Qed.

Lemma pdf_cp (cp x : R) : call_or_put cp -> pdf (x * cp) = pdf x.
Proof. intros [-> | ->]; [now rewrite Rmult_1_r | ]. replace (x * -1) with (- x) by ring. apply pdf_even. Qed.

Lemma gk_theta_value (S tau rd rf cp K vol : R) : call_or_put cp -> 0 < S -> 0 < K -> 0 < tau -> 0 < vol ->
  exists th w d x, theta_gk S tau rd rf cp K vol None = Fin th /\ vega_gk S tau rd rf cp K vol None = Fin w /\
    spot_delta_gk S tau rd rf cp K vol None = Fin d /\ price_gk S tau rd rf cp K vol None = Fin x /\
    derivative (fun t => price_gk S t rd rf cp K vol None) tau
      (- (th * (1461 / 4)) + w * 50 * vol / tau * (1 - exp ((rf - rd) * tau)) - (1 - cp) * (rf * (S * d) + rd * (x - S * d))).
Proof.
  intros W HS HK Ht Hv. pose proof (total_pos vol tau Hv Ht) as T. pose proof (sqrt_lt_R0 tau Ht) as Hs.
  rewrite theta_live, vega_live, spot_delta_live, price_gk_live by (cbn; auto; lra).
  do 4 eexists. do 4 (split; [reflexivity | ]).
  exists (fun t => exp (- rd * t) * blk cp (S * exp ((rd - rf) * t)) K (vol * sqrt t)). split.
  - destruct (near_pos _ Ht) as (e & He & B). exists e. split; auto. intros y Hy. specialize (B y Hy). pose proof (total_pos vol y Hv B).
    rewrite price_gk_live by (cbn; auto; lra). rewrite df_rate by (cbn; auto). reflexivity.
  - pose proof (exp_pos ((rd - rf) * tau)) as P.
    refine (dlim_val _ tau _ _ _ (derivable_pt_lim_mult _ _ tau _ _ (exp_lin_dlim (- rd) tau)
      (blk_path cp (fun t => S * exp ((rd - rf) * t)) (fun _ => K) (fun t => vol * sqrt t) tau _ 0 _ W _ HK T
         (derivable_pt_lim_scal _ S tau _ (exp_lin_dlim (rd - rf) tau)) (derivable_pt_lim_const _ tau) (derivable_pt_lim_scal _ vol tau _ (sqrt_dlim tau Ht))))).
    2: { cbn beta. apply Rmult_lt_0_compat; auto. }
    rewrite df_rate by (cbn; auto). cbn [forward_of rate]. set (f := S * exp ((rd - rf) * tau)) in *. set (v := vol * sqrt tau) in *.
    rewrite pdf_cp by auto. rewrite (Rmult_comm (bd1 f K v) cp), (Rmult_comm (bd2 f K v) cp).
    assert (C : S * exp (- rf * tau) = exp (- rd * tau) * f) by apply carry.
    assert (C2 : exp (- rf * tau) * exp ((rf - rd) * tau) = exp (- rd * tau)) by (rewrite <- exp_plus; f_equal; ring).
    assert (SS : tau = sqrt tau * sqrt tau) by (rewrite sqrt_sqrt; lra).
    assert (Q : sqrt tau / tau = / sqrt tau) by (rewrite SS at 2; field; lra).
    unfold blk. set (p1 := pdf (bd1 f K v)). set (c1 := cdf (cp * bd1 f K v)). set (c2 := cdf (cp * bd2 f K v)).
    replace (S * sqrt tau * p1 * exp (- rf * tau) * (1 / 100) * 50 * vol / tau * (1 - exp ((rf - rd) * tau)))
      with (S * p1 * vol * (exp (- rf * tau) - exp (- rf * tau) * exp ((rf - rd) * tau)) / (2 * sqrt tau)).
    2: { replace (S * sqrt tau * p1 * exp (- rf * tau) * (1 / 100) * 50 * vol / tau) with (S * p1 * exp (- rf * tau) * vol / 2 * (sqrt tau / tau)) by (field; lra). rewrite Q. field. lra. }
    rewrite C2. replace (S * p1 * vol * (exp (- rf * tau) - exp (- rd * tau)) / (2 * sqrt tau))
      with ((S * exp (- rf * tau)) * p1 * vol / (2 * sqrt tau) - S * exp (- rd * tau) * p1 * vol / (2 * sqrt tau)) by (field; lra).
    replace (rf * exp (- rf * tau) * S) with (rf * (S * exp (- rf * tau))) by ring.
    replace (S * (cp * exp (- rf * tau) * c1)) with (cp * c1 * (S * exp (- rf * tau))) by ring. rewrite C.
    replace (S * ((rd - rf) * exp ((rd - rf) * tau))) with ((rd - rf) * f) by (unfold f; ring).
    destruct W as [-> | ->]; field; lra.
Qed.

Lemma derivative_unique (f : R -> num) (x d d' : R) : derivative f x d -> derivative f x d' -> d = d'.
Proof.
  intros (g & (e & He & G) & D) (g' & (e' & He' & G') & D'). apply (uniqueness_limite g x d d'); auto.
  intros eps Heps. destruct (D' eps Heps) as (del & HD). assert (P : 0 < Rmin del (Rmin e e')) by (repeat apply Rmin_glb_lt; auto; apply cond_pos).
  assert (Q : forall y, Rabs (y - x) < Rmin del (Rmin e e') -> g y = g' y).
  { intros y Hy. assert (A : Rabs (y - x) < e). { eapply Rlt_le_trans; [exact Hy | ]. eapply Rle_trans; [apply Rmin_r | apply Rmin_l]. }
    assert (B : Rabs (y - x) < e'). { eapply Rlt_le_trans; [exact Hy | ]. eapply Rle_trans; [apply Rmin_r | apply Rmin_r]. }
    specialize (G y A). specialize (G' y B). rewrite G in G'. now injection G'. }
  exists (mkposreal _ P). intros h N Hh. cbn in Hh. rewrite (Q (x + h)), (Q x).
  - apply HD; auto. eapply Rlt_le_trans; [exact Hh | apply Rmin_l].
  - replace (x - x) with 0 by ring. rewrite Rabs_R0. auto.
  - replace (x + h - x) with h by ring. auto.
Qed.

Lemma exp_eq_1 (x : R) : exp x = 1 <-> x = 0.
Proof. split; [intros E; apply exp_inv; now rewrite exp_0 | intros ->; apply exp_0]. Qed.

(* one day's decay is minus the derivative over 365.25 *)
Lemma gk_theta_calls (S tau rd rf K vol : R) : 0 < S -> 0 < K -> 0 < tau -> 0 < vol ->
  exists th, theta_gk S tau rd rf 1 K vol None = Fin th /\ (derivative (fun t => price_gk S t rd rf 1 K vol None) tau (- (th * (1461 / 4))) <-> rd = rf).
Proof.
  intros HS HK Ht Hv. destruct (gk_theta_value S tau rd rf 1 K vol (or_introl eq_refl) HS HK Ht Hv) as (th & w & d & x & E & V & _ & _ & D).
  exists th. split; auto. split.
  - intros D'. pose proof (derivative_unique _ _ _ _ D D') as U. destruct (gk_vega_ok S tau rd rf 1 K vol None (or_introl eq_refl) HS HK Ht Hv I) as (w' & V' & P & _).
    rewrite V in V'. injection V' as <-. assert (Z : w * 50 * vol / tau * (1 - exp ((rf - rd) * tau)) = 0) by lra.
    apply Rmult_integral in Z as [Z | Z].
    + assert (0 < w * 50 * vol / tau) by (apply Rdiv_lt_0_compat; auto; repeat apply Rmult_lt_0_compat; auto; lra). lra.
    + assert (Z' : exp ((rf - rd) * tau) = 1) by lra. apply exp_eq_1 in Z'. apply Rmult_integral in Z' as [Z' | Z']; lra.
  - intros ->. replace (- (th * (1461 / 4))) with (- (th * (1461 / 4)) + w * 50 * vol / tau * (1 - exp ((rf - rf) * tau)) - (1 - 1) * (rf * (S * d) + rf * (x - S * d))); auto.
    replace ((rf - rf) * tau) with 0 by ring. rewrite exp_0. ring.
Qed.

(* with equal rates the put theta is off by twice the rate times the premium *)
Lemma gk_theta_puts (S tau r K vol : R) : 0 < S -> 0 < K -> 0 < tau -> 0 < vol ->
  exists th x, theta_gk S tau r r (-1) K vol None = Fin th /\ price_gk S tau r r (-1) K vol None = Fin x /\ 0 < x /\
    derivative (fun t => price_gk S t r r (-1) K vol None) tau (- (th * (1461 / 4)) - 2 * r * x).
Proof.
  intros HS HK Ht Hv. destruct (gk_theta_value S tau r r (-1) K vol (or_intror eq_refl) HS HK Ht Hv) as (th & w & d & x & E & _ & _ & X & D).
  exists th, x. do 2 (split; auto). split.
  - destruct (gk_bounds S tau r r (-1) K vol None (or_intror eq_refl) HS HK Ht Hv I) as (x' & X' & B & _). rewrite X in X'. injection X' as <-.
    eapply Rle_lt_trans; [apply Rmax_l | exact B].
  - replace (- (th * (1461 / 4)) - 2 * r * x) with (- (th * (1461 / 4)) + w * 50 * vol / tau * (1 - exp ((r - r) * tau)) - (1 - -1) * (r * (S * d) + r * (x - S * d))); auto.
    replace ((r - r) * tau) with 0 by ring. rewrite exp_0. ring.
Qed.

Lemma gk_rho_value (S tau rd rf cp K vol : R) : call_or_put cp -> 0 < S -> 0 < K -> 0 < tau -> 0 < vol ->
  exists rho, rho_gk S tau rd rf cp K vol None = Fin rho /\ 0 < rho /\
    derivative (fun r => price_gk S tau r rf cp K vol None) rd (cp * exp ((rf - rd) * tau) * (rho * 100)).
Proof.
  intros W HS HK Ht Hv. pose proof (total_pos vol tau Hv Ht) as T. rewrite rho_live by (cbn; auto; lra). eexists. split; [reflexivity | ]. split.
  { pose proof (exp_pos (- rf * tau)). pose proof (cdf_gt_0 (cp * bd2 (forward_of S tau rd rf None) K (vol * sqrt tau))). repeat (apply Rmult_lt_0_compat; auto; try lra). }
  exists (fun r => exp (- tau * r) * blk cp (S * exp (- rf * tau) * exp (tau * r)) K (vol * sqrt tau)). split.
  - exists 1. split; [lra | ]. intros y _. rewrite price_gk_live by (cbn; auto; lra). rewrite df_rate by (cbn; auto). cbn [forward_of rate].
    f_equal. f_equal; [f_equal; ring | ]. f_equal. rewrite Rmult_assoc, <- exp_plus. do 2 f_equal. ring.
  - set (v := vol * sqrt tau) in *. assert (FE : S * exp (- rf * tau) * exp (tau * rd) = forward_of S tau rd rf None).
    { cbn. rewrite Rmult_assoc, <- exp_plus. do 2 f_equal. ring. }
    pose proof (fwd_pos S tau rd rf None HS I) as Hf.
    refine (dlim_val _ rd _ _ _ (derivable_pt_lim_mult _ _ rd _ _ (exp_lin_dlim (- tau) rd)
      (blk_path cp (fun r => S * exp (- rf * tau) * exp (tau * r)) (fun _ => K) (fun _ => v) rd _ 0 0 W _ HK T
        (derivable_pt_lim_scal _ (S * exp (- rf * tau)) rd _ (exp_lin_dlim tau rd)) (derivable_pt_lim_const _ rd) (derivable_pt_lim_const _ rd)))).
    2: { rewrite FE. auto. }
    rewrite FE. set (f := forward_of S tau rd rf None) in *.
    replace (S * exp (- rf * tau) * (tau * exp (tau * rd))) with (tau * f) by (rewrite <- FE; ring).
    assert (C : exp (- tau * rd) = exp ((rf - rd) * tau) * exp (- rf * tau)) by (rewrite <- exp_plus; f_equal; ring). rewrite C.
    unfold blk. destruct W as [-> | ->]; field.
Qed.

Lemma gk_rho_right (S tau rd rf cp K vol : R) : call_or_put cp -> 0 < S -> 0 < K -> 0 < tau -> 0 < vol ->
  exists rho, rho_gk S tau rd rf cp K vol None = Fin rho /\ (derivative (fun r => price_gk S tau r rf cp K vol None) rd (rho * 100) <-> cp = 1 /\ rd = rf).
Proof.
  intros W HS HK Ht Hv. destruct (gk_rho_value S tau rd rf cp K vol W HS HK Ht Hv) as (rho & E & P & D). exists rho. split; auto. split.
  - intros D'. pose proof (derivative_unique _ _ _ _ D D') as U. pose proof (exp_pos ((rf - rd) * tau)) as X.
    assert (Z : cp * exp ((rf - rd) * tau) = 1) by (apply (Rmult_eq_reg_r (rho * 100)); lra).
    destruct W as [-> | ->]; [ | lra]. split; auto. rewrite Rmult_1_l in Z. apply exp_eq_1 in Z. apply Rmult_integral in Z as [Z | Z]; lra.
  - intros [-> ->]. replace (rho * 100) with (1 * exp ((rf - rf) * tau) * (rho * 100)); auto. replace ((rf - rf) * tau) with 0 by ring. rewrite exp_0. ring.
Qed.

(* with a market forward the domestic rate is ignored, yet rho is reported as positive *)
Lemma gk_rho_forward (S tau rd rf cp K vol f : R) : call_or_put cp -> 0 < S -> 0 < K -> 0 < tau -> 0 < vol -> 0 < f ->
  exists rho, rho_gk S tau rd rf cp K vol (Some f) = Fin rho /\ 0 < rho /\ derivative (fun r => price_gk S tau r rf cp K vol (Some f)) rd 0.
Proof.
  intros W HS HK Ht Hv Hf. pose proof (total_pos vol tau Hv Ht) as T. rewrite rho_live by (cbn; auto; lra). eexists. split; [reflexivity | ]. split.
  { pose proof (exp_pos (- rf * tau)). pose proof (cdf_gt_0 (cp * bd2 (forward_of S tau rd rf (Some f)) K (vol * sqrt tau))). repeat (apply Rmult_lt_0_compat; auto; try lra). }
  exists (fun _ => dom_df S tau rd rf (Some f) * blk cp f K (vol * sqrt tau)). split.
  - exists 1. split; [lra | ]. intros y _. rewrite price_gk_live by (cbn; auto; lra). reflexivity.
  - apply derivable_pt_lim_const.
Qed.

(* ---- C53 ---- *)
Lemma gk_forward_or_rate (S tau rd rf cp K vol f : R) (sp an nu : bool) : 0 < S -> 0 < tau -> call_or_put cp -> 0 < f ->
  garman_kohlhagen_price (scalar_gk S tau rd rf cp K vol (Some f)) sp an nu =
  garman_kohlhagen_price (scalar_gk S tau (ln (f / S) / tau + rf) rf cp K vol None) sp an nu.
Proof.
  intros HS Ht W Hf. assert (E : forall s a, gk_core (scalar_gk S tau rd rf cp K vol (Some f)) s a = gk_core (scalar_gk S tau (ln (f / S) / tau + rf) rf cp K vol None) s a).
  { intros s a. pose proof (core_scalar S tau rd rf cp K vol (Some f) s a HS ltac:(lra) W Hf) as A.
    pose proof (core_scalar S tau (ln (f / S) / tau + rf) rf cp K vol None s a HS ltac:(lra) W I) as B.
    assert (C : forall x, garman_kohlhagen_price x s a false = gk_core x s a) by (intros x; unfold garman_kohlhagen_price; cbn [negb]; destruct (gk_core x s a); reflexivity).
    rewrite C in A, B. rewrite A, B. cbv zeta. unfold elem_of. rewrite !gk_rate_fin by (cbn; auto). reflexivity. }
  unfold garman_kohlhagen_price. rewrite E. destruct (gk_core (scalar_gk S tau (ln (f / S) / tau + rf) rf cp K vol None) sp an) as [r | e]; [ | reflexivity].
  destruct nu; [ | reflexivity]. cbn [bind negb].
  assert (E' : forall k, 0 < k -> gk_core (gk_bump k (scalar_gk S tau rd rf cp K vol (Some f))) false true = gk_core (gk_bump k (scalar_gk S tau (ln (f / S) / tau + rf) rf cp K vol None)) false true).
  { intros k Hk. assert (HkS : 0 < k * S) by (apply Rmult_lt_0_compat; auto). assert (Hkf : 0 < k * f) by (apply Rmult_lt_0_compat; auto).
    pose proof (core_scalar (k * S) tau rd rf cp K vol (Some (k * f)) false true HkS ltac:(lra) W Hkf) as A.
    pose proof (core_scalar (k * S) tau (ln (f / S) / tau + rf) rf cp K vol None false true HkS ltac:(lra) W I) as B.
    assert (C : forall x, garman_kohlhagen_price x false true false = gk_core x false true) by (intros x; unfold garman_kohlhagen_price; cbn [negb]; destruct (gk_core x false true); reflexivity).
    rewrite C in A, B. change (gk_bump k (scalar_gk S tau rd rf cp K vol (Some f))) with (scalar_gk (k * S) tau rd rf cp K vol (Some (k * f))).
    change (gk_bump k (scalar_gk S tau (ln (f / S) / tau + rf) rf cp K vol None)) with (scalar_gk (k * S) tau (ln (f / S) / tau + rf) rf cp K vol None).
    rewrite A, B. cbv zeta. unfold elem_of. rewrite !gk_rate_fin by (cbn; auto). unfold rate. replace (k * f / (k * S)) with (f / S) by (field; lra). reflexivity. }
  rewrite !E' by lra. reflexivity.
Qed.

(* ---- split ---- *)
Lemma gk_split (S tau rd rf cp K vol : R) (F : option R) : call_or_put cp -> 0 < S -> 0 < K -> 0 < tau -> 0 < vol -> good_forward F ->
  exists x i, price_gk S tau rd rf cp K vol F = Fin x /\ split_gk S tau rd rf cp K vol F = Some (Fin i, Fin (x - i)) /\
    i = Rmax 0 (cp * (S * exp (- rf * tau) - K * dom_df S tau rd rf F)) /\ 0 < x - i.
Proof.
  intros W HS HK Ht Hv HF. pose proof (total_pos vol tau Hv Ht) as T. destruct (gk_bounds S tau rd rf cp K vol F W HS HK Ht Hv HF) as (x & E & B & _).
  exists x. eexists. split; [exact E | ]. split; [ | split; [reflexivity | lra]].
  rewrite split_gk_live by (auto; lra). cbv zeta. rewrite price_gk_live in E by (auto; lra). injection E as E. rewrite E. rewrite <- df_rate by auto. reflexivity.
Qed.
Lemma gk_split_expired (S rd rf cp K vol : R) (F : option R) : call_or_put cp -> 0 < S -> good_forward F ->
  let p := Rmax 0 (cp * (S - K)) in split_gk S 0 rd rf cp K vol F = Some (Fin p, Fin (p - p)).
Proof.
  intros W HS HF. cbv zeta. unfold split_gk. rewrite (core_scalar S 0 rd rf cp K vol F true false) by (auto; lra). cbn [the_split p_split].
  cbn [is_zero is_pos]. destruct (Req_EM_T 0 0); [ | lra]. destruct (Rlt_dec 0 0); [lra | ]. reflexivity.
Qed.
