(* C158: the closed-form normal volatility (Hagan's expansion), frm/pricing_engine/black76_bachelier.py:333-376. *)
From Coq Require Import String Reals List Bool Lra Lia Psatz.
From Coquelicot Require Import Coquelicot.
From Verif Require Import Base NormalModel NormalProofs BsProofs BlackModel BlackSpec BlackProofs.
Import ListNotations.
Open Scope R_scope.

Definition hv (a b vol : R) : R :=
  vol * sqrt (a * b) * (1 + 1 / 24 * (ln (a / b) * ln (a / b)) + 1 / 1920 * (ln (a / b) * ln (a / b) * (ln (a / b) * ln (a / b)))).
Definition hden (l q : R) : R := 1 + 1 / 24 * (1 - 1 / 120 * (l * l)) * q + 1 / 5760 * (q * q).

Lemma hagan_value (F tau K vol s : R) : 0 < F + s -> 0 < K + s ->
  hagan_normal_vol F tau K vol s =
    Ok (div (Fin (hv (F + s) (K + s) vol)) (Fin (hden (ln ((F + s) / (K + s))) (vol * vol * tau)))).
Proof.
  intros HF HK. unfold hagan_normal_vol, nonzero. destruct (Req_EM_T (K + s) 0); [lra | ]. cbn [bind].
  rewrite div_fin by lra. assert (0 < (F + s) / (K + s)) by (apply Rdiv_lt_0_compat; auto). rewrite nlog_fin by auto.
  unfold npow2. cbn [mul]. rewrite nsqrt_fin by nra. unfold hv, hden, sub. cbn [mul add neg]. apply f_equal. apply f_equal2; apply f_equal; ring.
Qed.

Lemma ln_swap (a b : R) : 0 < a -> 0 < b -> ln (b / a) = - ln (a / b).
Proof. intros. rewrite <- ln_Rinv by (apply Rdiv_lt_0_compat; auto). f_equal. field. lra. Qed.

(* the same whichever of the two rates is called the strike *)
Theorem C158_symmetric (F tau K vol s : R) : 0 < F + s -> 0 < K + s -> hagan_normal_vol F tau K vol s = hagan_normal_vol K tau F vol s.
Proof.
  intros HF HK. rewrite !hagan_value by auto. unfold hv, hden. rewrite (ln_swap (F + s) (K + s)) by auto.
  rewrite (Rmult_comm (K + s) (F + s)). do 3 f_equal; ring.
Qed.

(* a shifted strike of zero is divided by, as a python float *)
Theorem C158_zero_strike (F tau vol s : R) : hagan_normal_vol F tau (- s) vol s = Err ZeroDivisionError.
Proof. unfold hagan_normal_vol, nonzero. rewrite Rplus_opp_l. destruct (Req_EM_T 0 0); [reflexivity | lra]. Qed.

(* only the shifted rates matter *)
Theorem C158_shift (F tau K vol s h : R) : hagan_normal_vol (F + h) tau (K + h) vol (s - h) = hagan_normal_vol F tau K vol s.
Proof. unfold hagan_normal_vol. replace (F + h + (s - h)) with (F + s) by ring. replace (K + h + (s - h)) with (K + s) by ring. reflexivity. Qed.

(* rates quoted in another unit: the volatility is in that unit *)
Theorem C158_unit (c F tau K vol s : R) : 0 < c -> 0 < F + s -> 0 < K + s ->
  hagan_normal_vol (c * F) tau (c * K) vol (c * s) = (let* x := hagan_normal_vol F tau K vol s in Ok (mul (Fin c) x)).
Proof.
  intros Hc HF HK. rewrite !hagan_value by nra. cbn [bind].
  assert (E : (c * F + c * s) / (c * K + c * s) = (F + s) / (K + s)) by (field; nra). rewrite E. set (d := hden _ _).
  assert (E2 : hv (c * F + c * s) (c * K + c * s) vol = c * hv (F + s) (K + s) vol).
  { unfold hv. rewrite E. replace ((c * F + c * s) * (c * K + c * s)) with (c * c * ((F + s) * (K + s))) by ring.
    rewrite sqrt_mult, sqrt_square by nra. ring. }
  rewrite E2. f_equal. unfold div. destruct (Req_EM_T d 0).
  - unfold scale_inf. set (x := hv _ _ _). destruct (Rlt_dec 0 x), (Rlt_dec 0 (c * x)); try (exfalso; nra).
    + cbn. unfold scale_inf. destruct (Rlt_dec 0 c); [reflexivity | lra].
    + destruct (Rlt_dec x 0), (Rlt_dec (c * x) 0); try (exfalso; nra); cbn [mul]; unfold scale_inf;
        repeat match goal with |- context [Rlt_dec ?u ?w] => destruct (Rlt_dec u w) end; auto; exfalso; lra.
  - cbn [mul]. f_equal. field. auto.
Qed.

Lemma hv_pos (a b vol : R) : 0 < a -> 0 < b -> 0 < vol -> 0 < hv a b vol.
Proof.
  intros. unfold hv. set (l := ln (a / b)). assert (0 < sqrt (a * b)) by (apply sqrt_lt_R0; nra). repeat apply Rmult_lt_0_compat; auto.
  assert (0 <= l * l) by nra. nra.
Qed.

(* a positive volatility as long as the logarithm of the ratio of the shifted rates is below root 195 (a ratio of about a million) ... *)
Theorem C158_positive (F tau K vol s : R) : 0 < F + s -> 0 < K + s -> 0 <= tau -> 0 < vol -> Rsqr (ln ((F + s) / (K + s))) <= 195 ->
  exists x, hagan_normal_vol F tau K vol s = Ok (Fin x) /\ 0 < x.
Proof.
  intros HF HK Ht Hv HL. rewrite hagan_value by auto. unfold Rsqr in HL. set (l := ln _) in *. set (q := vol * vol * tau). assert (Q : 0 <= q) by (unfold q; nra).
  assert (D : 0 < hden l q).
  { unfold hden. assert (A : 0 <= (195 - l * l) * q) by (apply Rmult_le_pos; lra). assert (B : 0 <= (q - 75) * (q - 75)) by apply Rle_0_sqr.
    replace (1 + 1 / 24 * (1 - 1 / 120 * (l * l)) * q + 1 / 5760 * (q * q)) with (((q - 75) * (q - 75) + 135 + 2 * ((195 - l * l) * q)) / 5760) by field. lra. }
  rewrite div_fin by lra. eexists. split; [reflexivity | ]. apply Rdiv_lt_0_compat; auto. apply hv_pos; auto.
Qed.

(* ... and a negative one for some volatilities beyond that *)
Theorem C158_negative (F tau K vol s : R) : 0 < F + s -> 0 < K + s -> 0 < vol -> 196 <= Rsqr (ln ((F + s) / (K + s))) ->
  vol * vol * tau = Rsqr (ln ((F + s) / (K + s))) - 120 -> exists x, hagan_normal_vol F tau K vol s = Ok (Fin x) /\ x < 0.
Proof.
  intros HF HK Hv HL E. rewrite hagan_value by auto. rewrite E. unfold Rsqr in *. set (l := ln _) in *. clearbody l.
  assert (D : hden l (l * l - 120) < 0).
  { unfold hden. set (y := l * l) in *. assert (0 <= (y - 196) * (y - 196)) by nra. nra. }
  rewrite div_fin by lra. eexists. split; [reflexivity | ]. pose proof (hv_pos (F + s) (K + s) vol HF HK Hv).
  unfold Rdiv. assert (/ hden l (l * l - 120) < 0) by (apply Rinv_lt_0_compat; auto). nra.
Qed.

(* ---- at the money: distance to the exact conversion ---- *)
Lemma nonneg_by_slope (f g : R -> R) : f 0 = 0 -> (forall x, derivable_pt_lim f x (g x)) -> (forall x, 0 <= x -> 0 <= g x) -> forall x, 0 <= x -> 0 <= f x.
Proof.
  intros F0 D G x Hx. destruct (Req_dec x 0) as [-> | N]; [lra | ].
  destruct (MVT_cor2 f g 0 x) as (c & E & C); [lra | intros; apply D | ]. rewrite F0 in E. pose proof (G c). nra.
Qed.

Lemma exp1 (y : R) : 0 <= y -> 0 <= exp (- y) - 1 + y.
Proof.
  apply (nonneg_by_slope (fun y => exp (- y) - 1 + y) (fun y => 1 - exp (- y))).
  - rewrite Ropp_0, exp_0. ring.
  - intros x. apply is_derive_Reals. auto_derive; auto. ring.
  - intros x Hx. assert (exp (- x) <= exp 0) by (destruct (Req_dec x 0) as [-> | ]; [rewrite Ropp_0; lra | left; apply exp_increasing; lra]). rewrite exp_0 in *. lra.
Qed.
Lemma exp2 (y : R) : 0 <= y -> 0 <= 1 - y + y * y / 2 - exp (- y).
Proof.
  apply (nonneg_by_slope (fun y => 1 - y + y * y / 2 - exp (- y)) (fun y => exp (- y) - 1 + y)).
  - rewrite Ropp_0, exp_0. field.
  - intros x. apply is_derive_Reals. auto_derive; auto. field.
  - exact exp1.
Qed.
Lemma exp3 (y : R) : 0 <= y -> 0 <= exp (- y) - (1 - y + y * y / 2 - y * y * y / 6).
Proof.
  apply (nonneg_by_slope (fun y => exp (- y) - (1 - y + y * y / 2 - y * y * y / 6)) (fun y => 1 - y + y * y / 2 - exp (- y))).
  - rewrite Ropp_0, exp_0. field.
  - intros x. apply is_derive_Reals. auto_derive; auto. field.
  - exact exp2.
Qed.

Lemma pdf_exp (h : R) : pdf h = pdf 0 * exp (- (h * h / 2)).
Proof. unfold pdf. replace (- (0 * 0) / 2) with 0 by field. rewrite exp_0. replace (- (h * h) / 2) with (- (h * h / 2)) by field. field. pose proof s2p_pos. unfold Rdiv in *. apply Rgt_not_eq, sqrt_lt_R0. pose proof PI_RGT_0. lra. Qed.

Lemma cdf_upper (h : R) : 0 <= h -> 0 <= 2 * pdf 0 * (h - h * h * h / 6 + h * h * h * h * h / 40) - (2 * cdf h - 1).
Proof.
  apply (nonneg_by_slope (fun h => 2 * pdf 0 * (h - h * h * h / 6 + h * h * h * h * h / 40) - (2 * cdf h - 1))
           (fun h => 2 * pdf 0 * (1 - h * h / 2 + h * h * (h * h) / 8) - 2 * pdf h)).
  - rewrite cdf_0. field.
  - intros x. refine (dlim_val _ x _ _ _ (derivable_pt_lim_minus (fun h => 2 * pdf 0 * (h - h * h * h / 6 + h * h * h * h * h / 40)) (fun h => 2 * cdf h - 1) x
      (2 * pdf 0 * (1 - x * x / 2 + x * x * (x * x) / 8)) _ _ (derivable_pt_lim_minus _ _ x _ _ (derivable_pt_lim_scal _ 2 x _ (cdf_dlim x)) (derivable_pt_lim_const 1 x)))).
    + ring.
    + apply is_derive_Reals. auto_derive; auto. field.
  - intros x Hx. rewrite (pdf_exp x). pose proof (pdf_pos 0). pose proof (exp2 (x * x / 2) ltac:(nra)). nra.
Qed.
Lemma cdf_lower (h : R) : 0 <= h -> 0 <= (2 * cdf h - 1) - 2 * pdf 0 * (h - h * h * h / 6 + h * h * h * h * h / 40 - h * h * h * h * h * h * h / 336).
Proof.
  apply (nonneg_by_slope (fun h => (2 * cdf h - 1) - 2 * pdf 0 * (h - h * h * h / 6 + h * h * h * h * h / 40 - h * h * h * h * h * h * h / 336))
           (fun h => 2 * pdf h - 2 * pdf 0 * (1 - h * h / 2 + h * h * (h * h) / 8 - h * h * (h * h) * (h * h) / 48))).
  - rewrite cdf_0. field.
  - intros x. refine (dlim_val _ x _ _ _ (derivable_pt_lim_minus (fun h => 2 * cdf h - 1) (fun h => 2 * pdf 0 * (h - h * h * h / 6 + h * h * h * h * h / 40 - h * h * h * h * h * h * h / 336)) x
      _ (2 * pdf 0 * (1 - x * x / 2 + x * x * (x * x) / 8 - x * x * (x * x) * (x * x) / 48)) (derivable_pt_lim_minus _ _ x _ _ (derivable_pt_lim_scal _ 2 x _ (cdf_dlim x)) (derivable_pt_lim_const 1 x)) _)).
    + ring.
    + apply is_derive_Reals. auto_derive; auto. field.
  - intros x Hx. rewrite (pdf_exp x). pose proof (pdf_pos 0). pose proof (exp3 (x * x / 2) ltac:(nra)) as E.
    replace (x * x / 2 * (x * x / 2) / 2) with (x * x * (x * x) / 8) in E by field.
    replace (x * x / 2 * (x * x / 2) * (x * x / 2) / 6) with (x * x * (x * x) * (x * x) / 48) in E by field. nra.
Qed.

Theorem C158_at_the_money_error (F tau vol s : R) brent lbfgs : 0 < F + s -> 0 < tau -> 0 < vol ->
  exists x y, hagan_normal_vol F tau F vol s = Ok (Fin x) /\ black76_sln_to_normal_vol F tau F vol s brent lbfgs = Ok (Fin y) /\
    Rabs (x - y) <= vol * (F + s) * (vol * vol * tau) ^ 3 / 17280.
Proof.
  intros HF Ht Hv. rewrite hagan_value by auto. pose proof (sqrt_lt_R0 tau Ht) as Hs. pose proof (pdf_pos 0) as P0.
  unfold black76_sln_to_normal_vol. destruct (Rlt_dec (Rabs (F - F)) atm_tol) as [_ | N].
  2: { exfalso. apply N. unfold Rminus. rewrite Rplus_opp_r, Rabs_R0. unfold atm_tol. apply Rinv_0_lt_compat. lra. }
  cbv zeta. rewrite nsqrt_fin by lra. cbn [mul]. rewrite (div_fin (vol * sqrt tau) 2) by lra. unfold sub. cbn [ncdf mul add neg]. rewrite (div_fin _ (sqrt tau * pdf 0)) by nra.
  replace ((F + s) / (F + s)) with 1 by (field; lra). rewrite ln_1.
  unfold hv. replace ((F + s) / (F + s)) with 1 by (field; lra). rewrite ln_1, sqrt_square by lra.
  set (q := vol * vol * tau). set (h := vol * sqrt tau / 2). set (a := F + s) in *.
  assert (SS : sqrt tau * sqrt tau = tau) by (apply sqrt_sqrt; lra).
  assert (Q : q = 4 * (h * h)) by (transitivity (vol * vol * (sqrt tau * sqrt tau)); [rewrite SS; reflexivity | unfold h; field]).
  assert (Q0 : 0 < q) by (unfold q; apply Rmult_lt_0_compat; nra).
  assert (H0 : 0 < h) by (unfold h; apply Rdiv_lt_0_compat; [apply Rmult_lt_0_compat; auto | lra]).
  assert (D : 0 < hden 0 q) by (unfold hden; nra).
  rewrite div_fin by lra. do 2 eexists. split; [reflexivity | split; [reflexivity | ]].
  pose proof (cdf_upper h ltac:(lra)) as U. pose proof (cdf_lower h ltac:(lra)) as L.
  set (P := 1 - q / 24 + q * q / 640).
  (* the exact one *)
  set (g := (2 * cdf h - 1) / (2 * h * pdf 0)).
  assert (EY : (2 * a * cdf h + - a) / (sqrt tau * pdf 0) = vol * a * g).
  { unfold g, h. field. repeat split; lra. }
  clearbody q h. assert (HP : 0 < 2 * h * pdf 0) by nra.
  assert (G : P - q * q * q / 17280 <= g <= P).
  { unfold g. split.
    - apply (Rmult_le_reg_r (2 * h * pdf 0)); auto. replace ((2 * cdf h - 1) / (2 * h * pdf 0) * (2 * h * pdf 0)) with (2 * cdf h - 1) by (field; lra).
      apply Rle_trans with (2 * pdf 0 * (h - h * h * h / 6 + h * h * h * h * h / 40 - h * h * h * h * h * h * h / 336)); [ | lra].
      unfold P. rewrite Q. assert (0 < h * h * h * h * h * h * h) by (repeat apply Rmult_lt_0_compat; auto).
      apply Rminus_le. replace ((1 - 4 * (h * h) / 24 + 4 * (h * h) * (4 * (h * h)) / 640 - 4 * (h * h) * (4 * (h * h)) * (4 * (h * h)) / 17280) * (2 * h * pdf 0) -
        2 * pdf 0 * (h - h * h * h / 6 + h * h * h * h * h / 40 - h * h * h * h * h * h * h / 336)) with (- (2 * (64 / 17280 - 1 / 336)) * (pdf 0 * (h * h * h * h * h * h * h))) by field.
      assert (0 < pdf 0 * (h * h * h * h * h * h * h)) by (apply Rmult_lt_0_compat; auto). lra.
    - apply (Rmult_le_reg_r (2 * h * pdf 0)); auto. replace ((2 * cdf h - 1) / (2 * h * pdf 0) * (2 * h * pdf 0)) with (2 * cdf h - 1) by (field; lra).
      unfold P. rewrite Q. replace ((1 - 4 * (h * h) / 24 + 4 * (h * h) * (4 * (h * h)) / 640) * (2 * h * pdf 0)) with (2 * pdf 0 * (h - h * h * h / 6 + h * h * h * h * h / 40)) by field. lra. }
  (* the expansion *)
  set (e := / hden 0 q).
  assert (EX : vol * a * (1 + 1 / 24 * (0 * 0) + 1 / 1920 * (0 * 0 * (0 * 0))) / hden 0 q = vol * a * e) by (unfold e; field; lra).
  assert (E1 : e = P - (q * q * q / 17280 + q * q * q * q / 3686400) / hden 0 q) by (unfold e, P, hden in *; field; lra).
  assert (T : 0 < q * q * q) by (repeat apply Rmult_lt_0_compat; auto).
  assert (E : P - q * q * q / 17280 <= e <= P).
  { rewrite E1. assert (A0 : 0 <= (q * q * q / 17280 + q * q * q * q / 3686400) / hden 0 q) by (apply Rlt_le, Rdiv_lt_0_compat; auto; nra).
    assert (A1 : (q * q * q / 17280 + q * q * q * q / 3686400) / hden 0 q <= q * q * q / 17280).
    { apply (Rmult_le_reg_r (hden 0 q)); auto. unfold Rdiv at 1. rewrite Rmult_assoc, Rinv_l, Rmult_1_r by lra. unfold hden.
      assert (0 < q * q * q * q) by (apply Rmult_lt_0_compat; auto). assert (0 < q * q * q * q * q) by (apply Rmult_lt_0_compat; auto). nra. }
    lra. }
  rewrite EX, EY. replace (vol * a * e - vol * a * g) with (vol * a * (e - g)) by ring.
  assert (VA : 0 < vol * a) by nra. rewrite Rabs_mult, (Rabs_right (vol * a)) by lra.
  replace (vol * a * q ^ 3 / 17280) with (vol * a * (q * q * q / 17280)) by (cbn [pow]; field).
  apply Rmult_le_compat_l; [lra | ]. apply Rabs_le. lra.
Qed.

(* ---- at expiry: between the volatility times the geometric mean and the volatility times the logarithmic mean of the two rates ---- *)
Lemma sinh_low1 (x : R) : 0 <= x -> 0 <= sinh x - x.
Proof.
  apply (nonneg_by_slope (fun x => sinh x - x) (fun x => cosh x - 1)).
  - unfold sinh. rewrite Ropp_0. field.
  - intros y. refine (dlim_val _ y _ _ _ (derivable_pt_lim_minus _ _ y _ _ (derivable_pt_lim_sinh y) (derivable_pt_lim_id y))). ring.
  - intros y _. unfold cosh. pose proof (exp_pos y) as Y. assert (E : exp y * exp (- y) = 1) by (rewrite <- exp_plus, Rplus_opp_r; apply exp_0).
    set (u := exp y) in *. set (w := exp (- y)) in *. apply (Rmult_le_reg_l u); auto. replace (u * ((u + w) / 2 - 1)) with ((u * u + u * w - 2 * u) / 2) by field. rewrite E. pose proof (Rle_0_sqr (u - 1)) as Sq. unfold Rsqr in Sq. lra.
Qed.
Lemma cosh_low2 (x : R) : 0 <= x -> 0 <= cosh x - 1 - x * x / 2.
Proof.
  apply (nonneg_by_slope (fun x => cosh x - 1 - x * x / 2) (fun x => sinh x - x)); [ | | exact sinh_low1].
  - unfold cosh. rewrite Ropp_0, exp_0. field.
  - intros y. refine (dlim_val _ y _ _ _ (derivable_pt_lim_minus _ (fun x => x * x / 2) y _ y (derivable_pt_lim_minus _ _ y _ _ (derivable_pt_lim_cosh y) (derivable_pt_lim_const 1 y)) _)).
    + ring. + apply is_derive_Reals. auto_derive; auto. field.
Qed.
Lemma sinh_low3 (x : R) : 0 <= x -> 0 <= sinh x - x - x * x * x / 6.
Proof.
  apply (nonneg_by_slope (fun x => sinh x - x - x * x * x / 6) (fun x => cosh x - 1 - x * x / 2)); [ | | exact cosh_low2].
  - unfold sinh. rewrite Ropp_0. field.
  - intros y. refine (dlim_val _ y _ _ _ (derivable_pt_lim_minus _ (fun x => x * x * x / 6) y _ (y * y / 2) (derivable_pt_lim_minus _ _ y _ _ (derivable_pt_lim_sinh y) (derivable_pt_lim_id y)) _)).
    + ring. + apply is_derive_Reals. auto_derive; auto. field.
Qed.
Lemma cosh_low4 (x : R) : 0 <= x -> 0 <= cosh x - 1 - (x * x / 2 + x * x * x * x / 24).
Proof.
  apply (nonneg_by_slope (fun x => cosh x - 1 - (x * x / 2 + x * x * x * x / 24)) (fun x => sinh x - x - x * x * x / 6)); [ | | exact sinh_low3].
  - unfold cosh. rewrite Ropp_0, exp_0. field.
  - intros y. refine (dlim_val _ y _ _ _ (derivable_pt_lim_minus (fun x => cosh x - 1) (fun x => x * x / 2 + x * x * x * x / 24) y _ (y + y * y * y / 6) (derivable_pt_lim_minus _ _ y _ _ (derivable_pt_lim_cosh y) (derivable_pt_lim_const 1 y)) _)).
    + ring. + apply is_derive_Reals. auto_derive; auto. field.
Qed.
Lemma sinh_low5 (x : R) : 0 <= x -> 0 <= sinh x - x - (x * x * x / 6 + x * x * x * x * x / 120).
Proof.
  apply (nonneg_by_slope (fun x => sinh x - x - (x * x * x / 6 + x * x * x * x * x / 120)) (fun x => cosh x - 1 - (x * x / 2 + x * x * x * x / 24))); [ | | exact cosh_low4].
  - unfold sinh. rewrite Ropp_0. field.
  - intros y. refine (dlim_val _ y _ _ _ (derivable_pt_lim_minus (fun x => sinh x - x) (fun x => x * x * x / 6 + x * x * x * x * x / 120) y _ (y * y / 2 + y * y * y * y / 24) (derivable_pt_lim_minus _ _ y _ _ (derivable_pt_lim_sinh y) (derivable_pt_lim_id y)) _)).
    + ring. + apply is_derive_Reals. auto_derive; auto. field.
Qed.

Lemma log_mean (a b : R) : 0 < b -> b < a -> a - b = 2 * sqrt (a * b) * sinh (ln (a / b) / 2).
Proof.
  intros Hb Hab. assert (Q : 0 < a / b) by (apply Rdiv_lt_0_compat; lra). set (l := ln (a / b)). assert (E : exp l = a / b) by (apply exp_ln; auto).
  set (u := exp (l / 2)). assert (U : 0 < u) by apply exp_pos. assert (UU : u * u = a / b) by (unfold u; rewrite <- exp_plus, <- E; f_equal; field).
  assert (A : a = b * (u * u)) by (rewrite UU; field; lra).
  assert (SQ : sqrt (a * b) = b * u). { replace (a * b) with ((b * u) * (b * u)) by (rewrite A; ring). apply sqrt_square. nra. }
  rewrite SQ. unfold sinh. fold u. replace (exp (- (l / 2))) with (/ u) by (unfold u; rewrite <- exp_Ropp; reflexivity). rewrite A. field. lra.
Qed.

Theorem C158_expiry_bounds (F K vol s : R) : 0 < K + s -> K < F -> 0 < vol ->
  exists x, hagan_normal_vol F 0 K vol s = Ok (Fin x) /\
    vol * sqrt ((F + s) * (K + s)) < x <= vol * ((F - K) / ln ((F + s) / (K + s))).
Proof.
  intros HK HF Hv. rewrite hagan_value by lra. set (a := F + s). set (b := K + s) in *. assert (Hab : b < a) by (unfold a, b; lra).
  set (l := ln (a / b)). assert (D : hden l (vol * vol * 0) = 1) by (unfold hden; ring). rewrite D, div_fin by lra. eexists. split; [reflexivity | ].
  assert (L : 0 < l). { unfold l. rewrite <- ln_1. apply ln_increasing; [lra | ]. apply (Rmult_lt_reg_r b); auto. unfold Rdiv. rewrite Rmult_assoc, Rinv_l by lra. lra. }
  unfold hv. fold l. replace (F - K) with (a - b) by (unfold a, b; ring). rewrite (log_mean a b) by auto. fold l.
  assert (SQ : 0 < sqrt (a * b)) by (apply sqrt_lt_R0; nra). set (q := sqrt (a * b)) in *.
  assert (VQ : 0 < vol * q) by nra. split.
  - assert (0 < l * l) by nra. assert (0 < l * l * (l * l)) by nra. unfold Rdiv at 1. rewrite Rinv_1, Rmult_1_r. nra.
  - pose proof (sinh_low5 (l / 2) ltac:(lra)) as B. replace (vol * (2 * q * sinh (l / 2) / l)) with (vol * q * (2 * sinh (l / 2) / l)) by (field; lra).
    unfold Rdiv at 1. rewrite Rinv_1, Rmult_1_r. apply Rmult_le_compat_l; [lra | ].
    apply (Rmult_le_reg_r l); auto. replace (2 * sinh (l / 2) / l * l) with (2 * sinh (l / 2)) by (field; lra).
    replace (l / 2 * (l / 2) * (l / 2) / 6) with (l * l * l / 48) in B by field. replace (l / 2 * (l / 2) * (l / 2) * (l / 2) * (l / 2) / 120) with (l * l * l * l * l / 3840) in B by field. lra.
Qed.

Definition all_theorems := (@C158_symmetric, @C158_zero_strike, @C158_shift, @C158_unit, @C158_positive, @C158_negative, @C158_at_the_money_error, @C158_expiry_bounds).
Print Assumptions all_theorems.

(* a forward of 3 per cent, a strike of 1 per cent and a shift of 2 per cent: inside the range of C158_positive *)
Example C158_ex : 0 < 3 / 100 + 2 / 100 /\ 0 < 1 / 100 + 2 / 100 /\ Rsqr (ln ((3 / 100 + 2 / 100) / (1 / 100 + 2 / 100))) <= 195.
Proof.
  repeat split; try lra. replace ((3 / 100 + 2 / 100) / (1 / 100 + 2 / 100)) with (5 / 3) by field.
  assert (0 < ln (5 / 3)) by (rewrite <- ln_1; apply ln_increasing; lra).
  assert (ln (5 / 3) < 1). { rewrite <- (ln_exp 1). apply ln_increasing; [lra | ]. pose proof (exp_ineq1 1). lra. }
  unfold Rsqr. nra.
Qed.
(* rates so far apart that the expansion turns negative: a ratio of exp 14 *)
Example C158_ex_negative : 196 <= Rsqr (ln ((exp 14 + 0) / (1 + 0))).
Proof. rewrite !Rplus_0_r. unfold Rdiv. rewrite Rinv_1, Rmult_1_r, ln_exp. unfold Rsqr. lra. Qed.
