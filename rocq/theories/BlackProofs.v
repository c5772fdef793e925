From Coq Require Import Reals List Bool Lra Lia.
From Verif Require Import Base NormalModel NormalProofs BsProofs BlackModel BlackSpec.
Import ListNotations.
Open Scope R_scope.

(* ---- floats ---- *)
Lemma div_fin (a b : R) : b <> 0 -> div (Fin a) (Fin b) = Fin (a / b).
Proof. intros. unfold div. destruct (Req_EM_T b 0); [contradiction | reflexivity]. Qed.
Lemma div_zero (a : R) : div (Fin a) (Fin 0) = scale_inf a.
Proof. unfold div. destruct (Req_EM_T 0 0); [reflexivity | lra]. Qed.
Lemma nlog_fin (a : R) : 0 < a -> nlog (Fin a) = Fin (ln a).
Proof. intros. unfold nlog. destruct (Rlt_dec 0 a); [reflexivity | contradiction]. Qed.
Lemma nsqrt_fin (a : R) : 0 <= a -> nsqrt (Fin a) = Fin (sqrt a).
Proof. intros. unfold nsqrt. destruct (Rlt_dec a 0); [lra | reflexivity]. Qed.
Lemma scale_pos (a : R) : 0 < a -> scale_inf a = PInf.
Proof. intros. unfold scale_inf. destruct (Rlt_dec 0 a); [reflexivity | lra]. Qed.
Lemma scale_neg (a : R) : a < 0 -> scale_inf a = NInf.
Proof. intros. unfold scale_inf. destruct (Rlt_dec 0 a); [lra | ]. destruct (Rlt_dec a 0); [reflexivity | lra]. Qed.
Lemma scale_0 : scale_inf 0 = NaN.
Proof. unfold scale_inf. destruct (Rlt_dec 0 0); [lra | reflexivity]. Qed.

Lemma quot_pos (a b : R) : 0 < a -> 0 < b -> 0 < a / b.
Proof. intros. apply Rdiv_lt_0_compat; auto. Qed.

Lemma b76_d1_fin (F K vol tau : R) : 0 < F -> 0 < K -> 0 <= tau -> vol * sqrt tau <> 0 ->
  b76_d1 (Fin F) (Fin K) (Fin vol) (Fin tau) = Fin (bd1 F K (vol * sqrt tau)).
Proof.
  intros HF HK Ht Hv. unfold b76_d1. rewrite div_fin by lra. rewrite nlog_fin by (apply quot_pos; auto). rewrite nsqrt_fin by auto.
  cbn [mul add]. rewrite div_fin by auto. f_equal. unfold bd1. f_equal. f_equal.
  replace (vol * sqrt tau * (vol * sqrt tau)) with (vol * vol * (sqrt tau * sqrt tau)) by ring. rewrite sqrt_sqrt by auto. field.
Qed.

Lemma b76_d2_fin (F K vol tau : R) : 0 < F -> 0 < K -> 0 <= tau -> vol * sqrt tau <> 0 ->
  b76_d2 (Fin F) (Fin K) (Fin vol) (Fin tau) = Fin (bd2 F K (vol * sqrt tau)).
Proof. intros. unfold b76_d2. rewrite b76_d1_fin by auto. rewrite nsqrt_fin by auto. reflexivity. Qed.

Lemma b76_elem_fin (F K vol tau cp A : R) : 0 < F -> 0 < K -> 0 <= tau -> vol * sqrt tau <> 0 ->
  b76_elem (Fin F) (Fin tau) (Fin cp) (Fin K) (Fin vol) (Fin A) = Fin (A * blk cp F K (vol * sqrt tau)).
Proof.
  intros. unfold b76_elem. rewrite b76_d1_fin, b76_d2_fin by auto. cbn [mul ncdf sub neg add]. f_equal. unfold blk. ring.
Qed.

(* no volatility left *)
Lemma b76_elem_zero (F K vol tau cp A : R) : cp = 1 \/ cp = -1 -> 0 < F -> 0 < K -> 0 <= tau -> vol * sqrt tau = 0 ->
  b76_elem (Fin F) (Fin tau) (Fin cp) (Fin K) (Fin vol) (Fin A) =
  if Req_EM_T F K then NaN else Fin (A * Rmax 0 (cp * (F - K))).
Proof.
  intros W HF HK Ht Hv. unfold b76_elem, b76_d2, b76_d1. rewrite div_fin by lra. rewrite nlog_fin by (apply quot_pos; auto). rewrite nsqrt_fin by auto.
  cbn [mul add]. rewrite Hv, div_zero.
  assert (V : 1 / 2 * (vol * vol) * tau = 0).
  { replace (1 / 2 * (vol * vol) * tau) with (1 / 2 * (vol * vol) * (sqrt tau * sqrt tau)) by (rewrite sqrt_sqrt by auto; reflexivity).
    replace (1 / 2 * (vol * vol) * (sqrt tau * sqrt tau)) with (1 / 2 * (vol * sqrt tau) * (vol * sqrt tau)) by ring. rewrite Hv. ring. }
  rewrite V, Rplus_0_r. destruct (Req_EM_T F K) as [-> | N].
  - replace (K / K) with 1 by (field; lra). rewrite ln_1, scale_0. cbn. reflexivity.
  - destruct (Rlt_or_le F K) as [L | L].
    + assert (S : ln (F / K) < 0). { rewrite ln_quot by auto. pose proof (ln_increasing F K HF L). lra. }
      rewrite scale_neg by auto. cbn [sub add neg mul].
      destruct W as [-> | ->].
      * rewrite (scale_neg (- (1))) by lra. cbn. f_equal. rewrite Rmax_left by lra. ring.
      * rewrite (scale_pos (- (-1))) by lra. cbn. f_equal. rewrite Rmax_right by lra. ring.
    + assert (S : 0 < ln (F / K)). { rewrite ln_quot by auto. pose proof (ln_increasing K F HK ltac:(lra)). lra. }
      rewrite scale_pos by auto. cbn [sub add neg mul].
      destruct W as [-> | ->].
      * rewrite (scale_pos 1) by lra. cbn. f_equal. rewrite Rmax_right by lra. ring.
      * rewrite (scale_neg (-1)) by lra. cbn. f_equal. rewrite Rmax_left by lra. ring.
Qed.

Lemma bach_d_fin (F K vol tau : R) : 0 <= tau -> vol * sqrt tau <> 0 -> bach_d (Fin F) (Fin K) (Fin vol) (Fin tau) = Fin ((F - K) / (vol * sqrt tau)).
Proof. intros. unfold bach_d. rewrite nsqrt_fin by auto. cbn [sub add neg mul]. rewrite div_fin by auto. reflexivity. Qed.

Lemma bach_elem_fin (F K vol tau cp A : R) : 0 <= tau -> vol * sqrt tau <> 0 ->
  bach_elem (Fin F) (Fin tau) (Fin cp) (Fin K) (Fin vol) (Fin A) = Fin (A * nrm cp F K (vol * sqrt tau)).
Proof. intros. unfold bach_elem. rewrite bach_d_fin by auto. rewrite nsqrt_fin by auto. reflexivity. Qed.

Lemma bach_elem_zero (F K vol tau cp A : R) : cp = 1 \/ cp = -1 -> 0 <= tau -> vol * sqrt tau = 0 ->
  bach_elem (Fin F) (Fin tau) (Fin cp) (Fin K) (Fin vol) (Fin A) =
  if Req_EM_T F K then NaN else Fin (A * Rmax 0 (cp * (F - K))).
Proof.
  intros W Ht Hv. unfold bach_elem, bach_d. rewrite nsqrt_fin by auto. cbn [sub add neg mul]. rewrite Hv, div_zero.
  destruct (Req_EM_T F K) as [-> | N].
  - replace (K + - K) with 0 by ring. rewrite scale_0. reflexivity.
  - destruct (Rlt_or_le F K) as [L | L].
    + rewrite scale_neg by lra. destruct W as [-> | ->]; cbn [mul].
      * rewrite (scale_neg (- (1))) by lra. cbn. f_equal. rewrite Rmax_left by lra. ring.
      * rewrite (scale_pos (- (-1))) by lra. cbn. f_equal. rewrite Rmax_right by lra. ring.
    + rewrite scale_pos by lra. destruct W as [-> | ->]; cbn [mul].
      * rewrite (scale_pos 1) by lra. cbn. f_equal. rewrite Rmax_right by lra. ring.
      * rewrite (scale_neg (-1)) by lra. cbn. f_equal. rewrite Rmax_left by lra. ring.
Qed.

(* ---- scalar calls ---- *)
Lemma price76_elem (F tau cp K vol s A : R) : price76 F tau cp K vol s A = b76_elem (Fin (F + s)) (Fin tau) (Fin cp) (Fin (K + s)) (Fin vol) (Fin A).
Proof. reflexivity. Qed.
Lemma delta76_elem (F tau cp K vol s A : R) : delta76 F tau cp K vol s A = b76_delta_elem (Fin (F + s)) (Fin tau) (Fin cp) (Fin (K + s)) (Fin vol) (Fin A).
Proof. reflexivity. Qed.
Lemma vega76_elem (F tau cp K vol s A : R) : vega76 F tau cp K vol s A = b76_vega_elem (Fin (F + s)) (Fin tau) (Fin (K + s)) (Fin vol) (Fin A).
Proof. reflexivity. Qed.
Lemma price_n_elem (F tau cp K vol A : R) : price_n F tau cp K vol A = bach_elem (Fin F) (Fin tau) (Fin cp) (Fin K) (Fin vol) (Fin A).
Proof. reflexivity. Qed.
Lemma delta_n_elem (F tau cp K vol A : R) : delta_n F tau cp K vol A = bach_delta_elem (Fin F) (Fin tau) (Fin cp) (Fin K) (Fin vol) (Fin A).
Proof. reflexivity. Qed.
Lemma vega_n_elem (F tau cp K vol A : R) : vega_n F tau cp K vol A = bach_vega_elem (Fin F) (Fin tau) (Fin cp) (Fin K) (Fin vol) (Fin A).
Proof. reflexivity. Qed.
Lemma theta_n_elem (F tau cp K vol A : R) : theta_n F tau cp K vol A = bach_theta_elem (Fin F) (Fin tau) (Fin K) (Fin vol) (Fin A).
Proof. reflexivity. Qed.

Lemma price76_fin (F tau cp K vol s A : R) : 0 < F + s -> 0 < K + s -> 0 <= tau -> vol * sqrt tau <> 0 ->
  price76 F tau cp K vol s A = Fin (A * blk cp (F + s) (K + s) (vol * sqrt tau)).
Proof. intros. rewrite price76_elem. apply b76_elem_fin; auto. Qed.

Lemma price_n_fin (F tau cp K vol A : R) : 0 <= tau -> vol * sqrt tau <> 0 -> price_n F tau cp K vol A = Fin (A * nrm cp F K (vol * sqrt tau)).
Proof. intros. rewrite price_n_elem. apply bach_elem_fin; auto. Qed.

Lemma total_pos (vol tau : R) : 0 < vol -> 0 < tau -> 0 < vol * sqrt tau.
Proof. intros. apply Rmult_lt_0_compat; auto. apply sqrt_lt_R0; auto. Qed.

(* ---- C48 ---- *)
Lemma b76_parity (F tau K vol s A : R) : 0 < F + s -> 0 < K + s -> 0 <= tau -> vol * sqrt tau <> 0 \/ F <> K ->
  exists c p, price76 F tau 1 K vol s A = Fin c /\ price76 F tau (-1) K vol s A = Fin p /\ c - p = A * (F - K).
Proof.
  intros HF HK Ht C. destruct (Req_dec (vol * sqrt tau) 0) as [Z | N].
  - destruct C as [C | C]; [contradiction | ]. rewrite !price76_elem, !b76_elem_zero by auto.
    destruct (Req_EM_T (F + s) (K + s)); [lra | ]. do 2 eexists. split; [reflexivity | split; [reflexivity | ]].
    destruct (Rle_or_lt F K); [rewrite Rmax_left, Rmax_right by lra | rewrite Rmax_right, Rmax_left by lra]; ring.
  - rewrite !price76_fin by auto. do 2 eexists. split; [reflexivity | split; [reflexivity | ]].
    pose proof (blk_parity (F + s) (K + s) (vol * sqrt tau)) as P.
    replace (A * (F - K)) with (A * (F + s - (K + s))) by ring. rewrite <- P. ring.
Qed.

Lemma bach_parity (F tau K vol A : R) : 0 <= tau -> vol * sqrt tau <> 0 \/ F <> K ->
  exists c p, price_n F tau 1 K vol A = Fin c /\ price_n F tau (-1) K vol A = Fin p /\ c - p = A * (F - K).
Proof.
  intros Ht C. destruct (Req_dec (vol * sqrt tau) 0) as [Z | N].
  - destruct C as [C | C]; [contradiction | ]. rewrite !price_n_elem, !bach_elem_zero by auto.
    destruct (Req_EM_T F K); [lra | ]. do 2 eexists. split; [reflexivity | split; [reflexivity | ]].
    destruct (Rle_or_lt F K); [rewrite Rmax_left, Rmax_right by lra | rewrite Rmax_right, Rmax_left by lra]; ring.
  - rewrite !price_n_fin by auto. do 2 eexists. split; [reflexivity | split; [reflexivity | ]].
    rewrite <- (nrm_parity F K (vol * sqrt tau)). ring.
Qed.

(* ---- C49 ---- *)
Lemma b76_bounds (F tau cp K vol s A : R) : call_or_put cp -> 0 < F + s -> 0 < K + s -> 0 < tau -> 0 < vol -> 0 < A ->
  exists x, price76 F tau cp K vol s A = Fin x /\ A * Rmax 0 (cp * (F - K)) < x /\ x < A * (if Rlt_dec 0 cp then F + s else K + s).
Proof.
  intros W HF HK Ht Hv HA. pose proof (total_pos vol tau Hv Ht). rewrite price76_fin by lra. eexists. split; [reflexivity | ].
  split; apply Rmult_lt_compat_l; auto.
  - replace (cp * (F - K)) with (cp * (F + s - (K + s))) by ring. apply blk_lower; auto.
  - apply blk_upper; auto.
Qed.

Lemma b76_vol_mono (F tau cp K v1 v2 s A : R) : call_or_put cp -> 0 < F + s -> 0 < K + s -> 0 < tau -> 0 < v1 -> v1 < v2 -> 0 < A ->
  exists x y, price76 F tau cp K v1 s A = Fin x /\ price76 F tau cp K v2 s A = Fin y /\ x < y.
Proof.
  intros W HF HK Ht H1 H2 HA. pose proof (total_pos v1 tau H1 Ht). pose proof (sqrt_lt_R0 tau Ht).
  assert (v1 * sqrt tau < v2 * sqrt tau) by (apply Rmult_lt_compat_r; auto).
  rewrite !price76_fin by lra. do 2 eexists. split; [reflexivity | split; [reflexivity | ]].
  apply Rmult_lt_compat_l; auto. apply blk_mono; auto.
Qed.

Lemma b76_tau_mono (F t1 t2 cp K vol s A : R) : call_or_put cp -> 0 < F + s -> 0 < K + s -> 0 < t1 -> t1 < t2 -> 0 < vol -> 0 < A ->
  exists x y, price76 F t1 cp K vol s A = Fin x /\ price76 F t2 cp K vol s A = Fin y /\ x < y.
Proof.
  intros W HF HK H1 H2 Hv HA. pose proof (total_pos vol t1 Hv H1).
  assert (vol * sqrt t1 < vol * sqrt t2) by (apply Rmult_lt_compat_l; auto; apply sqrt_lt_1; lra).
  rewrite !price76_fin by lra. do 2 eexists. split; [reflexivity | split; [reflexivity | ]].
  apply Rmult_lt_compat_l; auto. apply blk_mono; auto.
Qed.

Lemma b76_implied (F tau cp K s A p : R) : call_or_put cp -> 0 < F + s -> 0 < K + s -> 0 < tau -> 0 < A ->
  ((exists vol, 0 < vol /\ price76 F tau cp K vol s A = Fin p) <->
   A * Rmax 0 (cp * (F - K)) < p /\ p < A * (if Rlt_dec 0 cp then F + s else K + s)) /\
  (forall v1 v2, 0 < v1 -> 0 < v2 -> price76 F tau cp K v1 s A = Fin p -> price76 F tau cp K v2 s A = Fin p -> v1 = v2).
Proof.
  intros W HF HK Ht HA. split; [split | ].
  - intros (vol & Hv & E). destruct (b76_bounds F tau cp K vol s A W HF HK Ht Hv HA) as (x & E' & B). rewrite E in E'. injection E' as ->. exact B.
  - intros [L U]. destruct (blk_onto cp (F + s) (K + s) (p / A) W HF HK) as (v & Hv & E).
    + apply (Rmult_lt_reg_l A); auto. replace (A * (p / A)) with p by (field; lra). replace (F + s - (K + s)) with (F - K) by ring. auto.
    + apply (Rmult_lt_reg_l A); auto. replace (A * (p / A)) with p by (field; lra). auto.
    + pose proof (sqrt_lt_R0 tau Ht). exists (v / sqrt tau). split; [apply Rdiv_lt_0_compat; auto | ].
      assert (V : v / sqrt tau * sqrt tau = v) by (field; lra). rewrite price76_fin by (rewrite ?V; lra). rewrite V, E. f_equal. field. lra.
  - intros v1 v2 H1 H2 E1 E2. destruct (Rtotal_order v1 v2) as [L | [L | L]]; auto; exfalso.
    + destruct (b76_vol_mono F tau cp K v1 v2 s A W HF HK Ht H1 L HA) as (x & y & X & Y & C). rewrite E1 in X. rewrite E2 in Y. injection X as ->. injection Y as ->. lra.
    + destruct (b76_vol_mono F tau cp K v2 v1 s A W HF HK Ht H2 L HA) as (x & y & X & Y & C). rewrite E2 in X. rewrite E1 in Y. injection X as ->. injection Y as ->. lra.
Qed.

Lemma bach_bounds (F tau cp K vol A : R) : call_or_put cp -> 0 < tau -> 0 < vol -> 0 < A ->
  exists x, price_n F tau cp K vol A = Fin x /\ A * Rmax 0 (cp * (F - K)) < x.
Proof.
  intros W Ht Hv HA. pose proof (total_pos vol tau Hv Ht). rewrite price_n_fin by lra. eexists. split; [reflexivity | ].
  apply Rmult_lt_compat_l; auto. apply nrm_lower; auto.
Qed.

Lemma bach_vol_mono (F tau cp K v1 v2 A : R) : call_or_put cp -> 0 < tau -> 0 < v1 -> v1 < v2 -> 0 < A ->
  exists x y, price_n F tau cp K v1 A = Fin x /\ price_n F tau cp K v2 A = Fin y /\ x < y.
Proof.
  intros W Ht H1 H2 HA. pose proof (total_pos v1 tau H1 Ht). pose proof (sqrt_lt_R0 tau Ht).
  assert (v1 * sqrt tau < v2 * sqrt tau) by (apply Rmult_lt_compat_r; auto).
  rewrite !price_n_fin by lra. do 2 eexists. split; [reflexivity | split; [reflexivity | ]].
  apply Rmult_lt_compat_l; auto. apply nrm_mono; auto.
Qed.

Lemma bach_implied (F tau cp K A p : R) : call_or_put cp -> 0 < tau -> 0 < A ->
  ((exists vol, 0 < vol /\ price_n F tau cp K vol A = Fin p) <-> A * Rmax 0 (cp * (F - K)) < p) /\
  (forall v1 v2, 0 < v1 -> 0 < v2 -> price_n F tau cp K v1 A = Fin p -> price_n F tau cp K v2 A = Fin p -> v1 = v2).
Proof.
  intros W Ht HA. split; [split | ].
  - intros (vol & Hv & E). destruct (bach_bounds F tau cp K vol A W Ht Hv HA) as (x & E' & B). rewrite E in E'. injection E' as ->. exact B.
  - intros L. destruct (nrm_onto cp F K (p / A) W) as (v & Hv & E).
    + apply (Rmult_lt_reg_l A); auto. replace (A * (p / A)) with p by (field; lra). auto.
    + pose proof (sqrt_lt_R0 tau Ht). exists (v / sqrt tau). split; [apply Rdiv_lt_0_compat; auto | ].
      assert (V : v / sqrt tau * sqrt tau = v) by (field; lra). rewrite price_n_fin by (rewrite ?V; lra). rewrite V, E. f_equal. field. lra.
  - intros v1 v2 H1 H2 E1 E2. destruct (Rtotal_order v1 v2) as [L | [L | L]]; auto; exfalso.
    + destruct (bach_vol_mono F tau cp K v1 v2 A W Ht H1 L HA) as (x & y & X & Y & C). rewrite E1 in X. rewrite E2 in Y. injection X as ->. injection Y as ->. lra.
    + destruct (bach_vol_mono F tau cp K v2 v1 A W Ht H2 L HA) as (x & y & X & Y & C). rewrite E2 in X. rewrite E1 in Y. injection X as ->. injection Y as ->. lra.
Qed.

(* ---- C50 ---- *)
Lemma near_pos (x : R) : 0 < x -> exists e, 0 < e /\ forall y, Rabs (y - x) < e -> 0 < y.
Proof. intros H. exists x. split; auto. intros y B. apply Rabs_def2 in B. lra. Qed.

Lemma b76_delta (F tau cp K vol s A : R) : call_or_put cp -> 0 < F + s -> 0 < K + s -> 0 < tau -> 0 < vol ->
  exists d, delta76 F tau cp K vol s A = Fin d /\ derivative (fun f => price76 f tau cp K vol s A) F d.
Proof.
  intros W HF HK Ht Hv. pose proof (total_pos vol tau Hv Ht) as T. rewrite delta76_elem. unfold b76_delta_elem. rewrite b76_d1_fin by lra.
  cbn [mul ncdf]. eexists. split; [reflexivity | ].
  exists (fun f => A * blk cp (f + s) (K + s) (vol * sqrt tau)). split.
  - destruct (near_pos _ HF) as (e & He & B). exists e. split; auto. intros y Hy. rewrite price76_fin; auto; try lra.
    apply B. replace (y + s - (F + s)) with (y - F) by ring. auto.
  - assert (S : derivable_pt_lim (fun f => f + s) F 1).
    { refine (dlim_val _ F _ _ _ (derivable_pt_lim_plus _ _ F _ _ (derivable_pt_lim_id F) (derivable_pt_lim_const s F))). ring. }
    refine (dlim_val _ F _ _ _ (derivable_pt_lim_scal _ A F _
      (blk_path cp (fun f => f + s) (fun _ => K + s) (fun _ => vol * sqrt tau) F 1 0 0 W HF HK T S (derivable_pt_lim_const _ F) (derivable_pt_lim_const _ F)))).
    ring.
Qed.

Lemma scale_dlim (k x : R) : derivable_pt_lim (fun y => y * k) x k.
Proof.
  refine (dlim_val _ x _ _ _ (derivable_pt_lim_mult _ _ x _ _ (derivable_pt_lim_id x) (derivable_pt_lim_const k x))). unfold id, fct_cte. ring.
Qed.

Lemma b76_vega (F tau cp K vol s A : R) : call_or_put cp -> 0 < F + s -> 0 < K + s -> 0 < tau -> 0 < vol ->
  exists d, vega76 F tau cp K vol s A = Fin d /\ derivative (fun v => price76 F tau cp K v s A) vol (d * 100).
Proof.
  intros W HF HK Ht Hv. pose proof (total_pos vol tau Hv Ht) as T. rewrite vega76_elem. unfold b76_vega_elem. rewrite b76_d1_fin by lra. rewrite nsqrt_fin by lra.
  cbn [mul npdf]. eexists. split; [reflexivity | ].
  exists (fun v => A * blk cp (F + s) (K + s) (v * sqrt tau)). split.
  - destruct (near_pos _ Hv) as (e & He & B). exists e. split; auto. intros y Hy. specialize (B y Hy). pose proof (total_pos y tau B Ht). rewrite price76_fin; auto; lra.
  - refine (dlim_val _ vol _ _ _ (derivable_pt_lim_scal _ A vol _
      (blk_path cp (fun _ => F + s) (fun _ => K + s) (fun v => v * sqrt tau) vol 0 0 (sqrt tau) W HF HK T (derivable_pt_lim_const _ vol) (derivable_pt_lim_const _ vol) (scale_dlim (sqrt tau) vol)))).
    field.
Qed.

Lemma bach_delta (F tau cp K vol A : R) : call_or_put cp -> 0 < tau -> 0 < vol ->
  exists d, delta_n F tau cp K vol A = Fin d /\ derivative (fun f => price_n f tau cp K vol A) F d.
Proof.
  intros W Ht Hv. pose proof (total_pos vol tau Hv Ht) as T. rewrite delta_n_elem. unfold bach_delta_elem. rewrite bach_d_fin by lra.
  cbn [mul ncdf]. eexists. split; [reflexivity | ].
  exists (fun f => A * nrm cp f K (vol * sqrt tau)). split.
  - exists 1. split; [lra | ]. intros y _. apply price_n_fin; lra.
  - refine (dlim_val _ F _ _ _ (derivable_pt_lim_scal _ A F _ (nrm_dF cp F K _ W _))); try lra.
Qed.

Lemma bach_vega (F tau cp K vol A : R) : call_or_put cp -> 0 < tau -> 0 < vol ->
  exists d, vega_n F tau cp K vol A = Fin d /\ derivative (fun v => price_n F tau cp K v A) vol (d * 10000).
Proof.
  intros W Ht Hv. pose proof (total_pos vol tau Hv Ht) as T. rewrite vega_n_elem. unfold bach_vega_elem. rewrite bach_d_fin by lra. rewrite nsqrt_fin by lra.
  cbn [mul npdf]. rewrite nrm_w by auto. eexists. split; [reflexivity | ].
  exists (fun v => A * nrm cp F K (v * sqrt tau)). split.
  - destruct (near_pos _ Hv) as (e & He & B). exists e. split; auto. intros y Hy. specialize (B y Hy). pose proof (total_pos y tau B Ht). apply price_n_fin; lra.
  - refine (dlim_val _ vol _ _ _ (derivable_pt_lim_scal _ A vol _
      (nrm_path cp (fun _ => F) (fun v => v * sqrt tau) K vol 0 (sqrt tau) W _ (derivable_pt_lim_const _ vol) (scale_dlim (sqrt tau) vol)))); [field | lra].
Qed.

Lemma sqrt_dlim (x : R) : 0 < x -> derivable_pt_lim sqrt x (/ (2 * sqrt x)).
Proof. intros. apply derivable_pt_lim_sqrt. auto. Qed.

(* theta should be minus the derivative in time to expiry, over a calendar day: divided, not multiplied, by 365.25 *)
Lemma bach_theta (F tau cp K vol A : R) : call_or_put cp -> 0 < tau -> 0 < vol ->
  exists d, theta_n F tau cp K vol A = Fin d /\ derivative (fun t => price_n F t cp K vol A) tau (- (d * (4 / 1461))).
Proof.
  intros W Ht Hv. pose proof (total_pos vol tau Hv Ht) as T. pose proof (sqrt_lt_R0 tau Ht) as Hs. rewrite theta_n_elem. unfold bach_theta_elem. rewrite bach_d_fin by lra. rewrite nsqrt_fin by lra.
  cbn [mul npdf]. rewrite div_fin by lra. cbn [mul]. rewrite div_fin by lra. eexists. split; [reflexivity | ].
  exists (fun t => A * nrm cp F K (vol * sqrt t)). split.
  - destruct (near_pos _ Ht) as (e & He & B). exists e. split; auto. intros y Hy. specialize (B y Hy). pose proof (total_pos vol y Hv B). apply price_n_fin; lra.
  - refine (dlim_val _ tau _ _ _ (derivable_pt_lim_scal _ A tau _
      (nrm_path cp (fun _ => F) (fun t => vol * sqrt t) K tau 0 (vol * / (2 * sqrt tau)) W _ (derivable_pt_lim_const _ tau) (derivable_pt_lim_scal _ vol tau _ (sqrt_dlim tau Ht))))); [ | lra].
    field. lra.
Qed.

(* ---- C51 ---- *)
Lemma b76_shift_invariant (F tau cp K vol s A h : R) : price76 (F + h) tau cp (K + h) vol (s - h) A = price76 F tau cp K vol s A.
Proof. rewrite !price76_elem. replace (F + h + (s - h)) with (F + s) by ring. replace (K + h + (s - h)) with (K + s) by ring. reflexivity. Qed.

Lemma b76_d1_scale (F K vol tau k : R) : 0 < k -> b76_d1 (Fin (k * F)) (Fin (k * K)) (Fin vol) (Fin tau) = b76_d1 (Fin F) (Fin K) (Fin vol) (Fin tau).
Proof.
  intros Hk. unfold b76_d1. f_equal. f_equal. f_equal. unfold div. destruct (Req_EM_T K 0) as [-> | N].
  - destruct (Req_EM_T (k * 0) 0); [ | lra]. unfold scale_inf.
    destruct (Rlt_dec 0 F), (Rlt_dec 0 (k * F)); try nra; auto. destruct (Rlt_dec F 0), (Rlt_dec (k * F) 0); auto; nra.
  - destruct (Req_EM_T (k * K) 0) as [Z | Z]. { apply Rmult_integral in Z. lra. } f_equal. field. lra.
Qed.


Lemma b76_homogeneous (F tau cp K vol s A k : R) : 0 < k ->
  scaled k (price76 F tau cp K vol s A) (price76 (k * F) tau cp (k * K) vol (k * s) A).
Proof.
  intros Hk. rewrite !price76_elem. replace (k * F + k * s) with (k * (F + s)) by ring. replace (k * K + k * s) with (k * (K + s)) by ring.
  set (f := F + s). set (g := K + s). unfold b76_elem, b76_d2. rewrite b76_d1_scale by auto.
  set (d1 := b76_d1 (Fin f) (Fin g) (Fin vol) (Fin tau)). set (d2 := sub d1 _).
  destruct (ncdf (mul (Fin cp) d1)) as [u | | | ] eqn:E1; destruct (ncdf (mul (Fin cp) d2)) as [w | | | ] eqn:E2; cbn [mul sub neg add scaled]; try exact I;
    try (destruct (mul (Fin cp) d1); discriminate); try (destruct (mul (Fin cp) d2); discriminate).
  ring.
Qed.
