From Coq Require Import Reals List Bool Lra Lia Arith.
From Coquelicot Require Import Coquelicot.
From Verif Require Import Base NormalModel BlackModel BlackSpec BlackVecProofs SabrModel SabrSpec SabrProofs SabrRootProofs.
Import ListNotations.
Open Scope R_scope.

(* ---- continuity at the forward ---- *)
Lemma hagan_x_0 (rho : R) : -1 < rho < 1 -> hagan_x rho 0 = 0.
Proof.
  intros H. unfold hagan_x. replace (1 - 2 * rho * 0 + 0 ^ 2) with 1 by ring. rewrite sqrt_1. replace ((1 + 0 - rho) / (1 - rho)) with 1 by (field; lra). apply ln_1.
Qed.
Lemma hagan_x_derive (rho : R) : -1 < rho < 1 -> is_derive (hagan_x rho) 0 1.
Proof.
  intros H. unfold hagan_x. auto_derive.
  - replace (1 + - (2 * rho * 0) + 0 * (0 * 1)) with 1 by ring. rewrite sqrt_1. repeat split; try lra.
    replace ((1 + 0 + - rho) * / (1 - rho)) with 1 by (field; lra). lra.
  - replace (1 + - (2 * rho * 0) + 0 * (0 * 1)) with 1 by ring. rewrite sqrt_1. field. lra.
Qed.

Definition ratio (rho z : R) : R := if Req_EM_T z 0 then 1 else z / hagan_x rho z.
Lemma ratio_continuous (rho : R) : -1 < rho < 1 -> continuous (ratio rho) 0.
Proof.
  intros H. apply (continuity_pt_filterlim (ratio rho) 0). pose proof (hagan_x_derive rho H) as D. apply is_derive_Reals in D.
  intros eps E. set (e := Rmin (1 / 2) (eps / 2)). assert (E0 : 0 < e) by (unfold e; apply Rmin_pos; lra).
  assert (E1 : e <= 1 / 2) by apply Rmin_l. assert (E2 : e <= eps / 2) by apply Rmin_r.
  destruct (D e E0) as [d Hd]. exists d. split; [apply cond_pos | ].
  intros z [_ Z]. unfold R_dist in *. simpl in Z. unfold R_dist in Z. rewrite Rminus_0_r in Z.
  change (Rabs (ratio rho z - ratio rho 0) < eps). unfold ratio at 2. destruct (Req_EM_T 0 0) as [_ | N]; [ | exfalso; auto].
  unfold ratio. destruct (Req_EM_T z 0) as [-> | N]; [rewrite Rminus_diag_eq, Rabs_R0 by auto; auto | ].
  specialize (Hd z N Z). rewrite Rplus_0_l, (hagan_x_0 rho H), Rminus_0_r in Hd.
  pose proof (hagan_x_nonzero rho z H N) as X. set (q := hagan_x rho z / z) in *.
  assert (Q : 1 / 2 < q). { apply Rabs_def2 in Hd. lra. }
  replace (z / hagan_x rho z - 1) with ((1 - q) * / q) by (unfold q; field; auto).
  rewrite Rabs_mult, (Rabs_pos_eq (/ q)) by (left; apply Rinv_0_lt_compat; lra). rewrite Rabs_minus_sym.
  assert (I : / q < 2). { rewrite <- (Rinv_inv 2). apply Rinv_lt_contravar; lra. }
  assert (0 <= Rabs (q - 1)) by apply Rabs_pos. assert (0 < / q) by (apply Rinv_0_lt_compat; lra). nra.
Qed.

Definition level (tau f alpha beta rho v k : R) : R := alpha / Rpower (f * k) ((1 - beta) / 2) * hagan_time tau f alpha beta rho v k.
Definition skew (f beta k : R) : R := 1 + (1 - beta) ^ 2 / 24 * (ln f - ln k) ^ 2 + (1 - beta) ^ 4 / 1920 * (ln f - ln k) ^ 4.

Lemma level_continuous (tau f alpha beta rho v : R) : 0 < f -> continuous (level tau f alpha beta rho v) f.
Proof.
  intros H. assert (0 < f * f) by nra. apply (ex_derive_continuous (K := R_AbsRing) (V := R_NormedModule)). unfold level, hagan_time, Rpower. auto_derive.
  pose proof (exp_pos ((1 - beta) / 2 * ln (f * f))). pose proof (exp_pos ((1 - beta) * ln (f * f))).
  repeat split; auto; lra.
Qed.
Lemma skew_continuous (f beta : R) : 0 < f -> continuous (skew f beta) f.
Proof. intros H. apply (ex_derive_continuous (K := R_AbsRing) (V := R_NormedModule)). unfold skew. auto_derive. repeat split; auto. Qed.
Lemma z_continuous (f alpha beta v : R) : 0 < f -> continuous (fun k => hagan_z f alpha beta v k) f.
Proof. intros H. assert (0 < f * f) by nra. apply (ex_derive_continuous (K := R_AbsRing) (V := R_NormedModule)). unfold hagan_z, Rpower. auto_derive. repeat split; auto. Qed.

Definition smooth (tau f alpha beta rho v k : R) : R := level tau f alpha beta rho v k * (ratio rho (hagan_z f alpha beta v k) * / skew f beta k).
Lemma skew_at (f beta : R) : skew f beta f = 1.
Proof. unfold skew. replace (ln f - ln f) with 0 by ring. field. Qed.
Lemma z_at (f alpha beta v : R) : hagan_z f alpha beta v f = 0.
Proof. unfold hagan_z. replace (ln f - ln f) with 0 by ring. ring. Qed.
Lemma smooth_continuous (tau f alpha beta rho v : R) : 0 < f -> -1 < rho < 1 -> continuous (smooth tau f alpha beta rho v) f.
Proof.
  intros F H. unfold smooth. apply (continuous_mult (K := R_AbsRing)); [apply level_continuous; auto | ].
  apply (continuous_mult (K := R_AbsRing)).
  - apply (continuous_comp (fun k => hagan_z f alpha beta v k) (ratio rho)); [apply z_continuous; auto | rewrite z_at; apply ratio_continuous; auto].
  - apply (continuous_comp (skew f beta) Rinv); [apply skew_continuous; auto | ]. apply continuous_Rinv. rewrite skew_at. lra.
Qed.

Lemma eps_delta (g : R -> R) (x e : R) : continuous g x -> 0 < e -> exists d, 0 < d /\ forall y : R, Rabs (y - x) < d -> Rabs (g y - g x) < e.
Proof.
  intros C E. assert (P : locally (g x) (fun u : R => Rabs (u - g x) < e)). { exists (mkposreal e E). intros u U. exact U. }
  apply C in P. destruct P as [d D]. exists d. split; [apply cond_pos | ]. intros y Y. apply D. exact Y.
Qed.

Lemma continuous_at_forward (tau F alpha beta rho v shift : R) : 0 < F + shift -> alpha <> 0 -> v <> 0 -> -1 < rho < 1 ->
  exists y0, sabr_vol_is tau F alpha beta rho v F shift y0 /\
  forall e : R, 0 < e -> exists d, 0 < d /\ forall K : R, Rabs (K - F) < d -> exists y, sabr_vol_is tau F alpha beta rho v K shift y /\ Rabs (y - y0) < e.
Proof.
  intros P A V H. set (f := F + shift) in *. exists (level tau f alpha beta rho v f). split.
  { apply vol_is. fold f. rewrite elem_atm; auto. replace (ln f - ln f) with 0 by ring. rewrite Rabs_R0. apply tol_pos. }
  intros e E. destruct (eps_delta _ f e (level_continuous tau f alpha beta rho v P) E) as (d1 & D1 & L1).
  destruct (eps_delta _ f e (smooth_continuous tau f alpha beta rho v P H) E) as (d2 & D2 & L2).
  assert (S0 : smooth tau f alpha beta rho v f = level tau f alpha beta rho v f).
  { unfold smooth. rewrite skew_at, z_at. unfold ratio. destruct (Req_EM_T 0 0) as [_ | N]; [field | exfalso; auto]. }
  exists (Rmin (Rmin d1 d2) (f / 2)). split; [repeat apply Rmin_pos; lra | ].
  intros K HK. set (k := K + shift). assert (B : Rabs (k - f) < Rmin (Rmin d1 d2) (f / 2)) by (unfold k, f; replace (K + shift - (F + shift)) with (K - F) by ring; auto).
  assert (B1 : Rabs (k - f) < d1). { eapply Rlt_le_trans; [exact B | ]. eapply Rle_trans; [apply Rmin_l | apply Rmin_l]. }
  assert (B2 : Rabs (k - f) < d2). { eapply Rlt_le_trans; [exact B | ]. eapply Rle_trans; [apply Rmin_l | apply Rmin_r]. }
  assert (B3 : 0 < k). { assert (Q : Rabs (k - f) < f / 2) by (eapply Rlt_le_trans; [exact B | apply Rmin_r]). apply Rabs_def2 in Q. lra. }
  destruct (Rlt_dec (Rabs (ln f - ln k)) sabr_atm_tol) as [L | L].
  - exists (level tau f alpha beta rho v k). split; [apply vol_is; fold f k; apply elem_atm; auto | apply L1; auto].
  - exists (smooth tau f alpha beta rho v k). split; [ | rewrite <- S0; apply L2; auto].
    apply vol_is. fold f k. rewrite elem_off; auto; [ | lra]. f_equal. unfold smooth, hagan_vol, level.
    assert (LN : ln f - ln k <> 0). { intros Q. rewrite Q, Rabs_R0 in L. pose proof tol_pos. lra. }
    unfold ratio. destruct (Req_EM_T (hagan_z f alpha beta v k) 0) as [Z | Z]; [exfalso; exact (z_nonzero f alpha beta v k A V LN Z) | ].
    pose proof (beta_skew beta (ln f - ln k)) as S. fold (skew f beta k) in S. fold (skew f beta k).
    pose proof (hagan_x_nonzero rho _ H Z). pose proof (rpower_pos (f * k) ((1 - beta) / 2)). field. repeat split; auto; lra.
Qed.

(* ---- positivity ---- *)
Lemma vol_positive (tau F alpha beta rho v K shift y : R) : 0 < F + shift -> 0 < K + shift -> 0 < alpha -> v <> 0 -> -1 < rho < 1 ->
  0 < hagan_time tau (F + shift) alpha beta rho v (K + shift) -> sabr_vol_is tau F alpha beta rho v K shift y -> 0 < y.
Proof.
  intros HF HK A V H T Y. apply vol_is in Y. set (f := F + shift) in *. set (k := K + shift) in *.
  pose proof (rpower_pos (f * k) ((1 - beta) / 2)) as P.
  destruct (Rlt_dec (Rabs (ln f - ln k)) sabr_atm_tol) as [L | L].
  - rewrite elem_atm in Y by auto. injection Y as <-. apply Rmult_lt_0_compat; auto. apply Rdiv_lt_0_compat; auto.
  - rewrite elem_off in Y; auto; [ | lra | lra]. injection Y as <-. unfold hagan_vol. cbv zeta.
    assert (LN : ln f - ln k <> 0). { intros Q. rewrite Q, Rabs_R0 in L. pose proof tol_pos. lra. }
    apply Rmult_lt_0_compat; auto. apply Rmult_lt_0_compat.
    + apply Rdiv_lt_0_compat; auto. apply Rmult_lt_0_compat; auto. apply beta_skew.
    + apply hagan_ratio_pos; auto. apply z_nonzero; auto. lra.
Qed.
Lemma time_positive (tau f alpha beta rho v k : R) : 0 <= tau -> 0 <= alpha -> 0 <= rho * beta * v -> rho ^ 2 <= 2 / 3 -> 0 < hagan_time tau f alpha beta rho v k.
Proof.
  intros T A B R1. unfold hagan_time. pose proof (rpower_pos (f * k) (1 - beta)). pose proof (rpower_pos (f * k) ((1 - beta) / 2)).
  assert (H1 : 0 <= (1 - beta) ^ 2 * alpha ^ 2 / (24 * Rpower (f * k) (1 - beta))).
  { apply Rmult_le_pos; [ | left; apply Rinv_0_lt_compat; lra]. apply Rmult_le_pos; apply pow2_ge_0. }
  assert (H2 : 0 <= rho * beta * v * alpha / (4 * Rpower (f * k) ((1 - beta) / 2))).
  { apply Rmult_le_pos; [ | left; apply Rinv_0_lt_compat; lra]. apply Rmult_le_pos; auto. }
  assert (H3 : 0 <= (2 - 3 * rho ^ 2) / 24 * v ^ 2) by (apply Rmult_le_pos; [lra | apply pow2_ge_0]).
  assert (0 <= tau * ((1 - beta) ^ 2 * alpha ^ 2 / (24 * Rpower (f * k) (1 - beta)) + rho * beta * v * alpha / (4 * Rpower (f * k) ((1 - beta) / 2)) + (2 - 3 * rho ^ 2) / 24 * v ^ 2)) by (apply Rmult_le_pos; lra).
  lra.
Qed.

(* ---- invariances ---- *)
Lemma shift_invariant (tau F alpha beta rho v K shift h : R) :
  calc_sln_vol (smile1 tau (F + h) alpha beta rho v) [K + h] [shift - h] = calc_sln_vol (smile1 tau F alpha beta rho v) [K] [shift].
Proof. rewrite !calc1. replace (F + h + (shift - h)) with (F + shift) by ring. replace (K + h + (shift - h)) with (K + shift) by ring. reflexivity. Qed.

Lemma power_mul (a b y : R) : 0 < a -> 0 < b -> Rpower (a * b) y = Rpower a y * Rpower b y.
Proof. intros A B. symmetry. apply Rpower_mult_distr; auto. Qed.

Lemma scale_invariant (tau F alpha beta rho v K shift c : R) : 0 < c -> 0 < F + shift -> 0 < K + shift ->
  calc_sln_vol (smile1 tau (c * F) (Rpower c (1 - beta) * alpha) beta rho v) [c * K] [c * shift] = calc_sln_vol (smile1 tau F alpha beta rho v) [K] [shift].
Proof.
  intros C HF HK. rewrite !calc1. do 2 f_equal. set (f := F + shift) in *. set (k := K + shift) in *.
  replace (c * F + c * shift) with (c * f) by (unfold f; ring). replace (c * K + c * shift) with (c * k) by (unfold k; ring).
  assert (HFK : 0 < f * k) by (apply Rmult_lt_0_compat; auto). assert (CF : 0 < c * f) by (apply Rmult_lt_0_compat; auto). assert (CK : 0 < c * k) by (apply Rmult_lt_0_compat; auto).
  assert (CC : 0 < c * c) by (apply Rmult_lt_0_compat; auto).
  assert (E : c * f * (c * k) = (c * c) * (f * k)) by ring.
  assert (P1 : Rpower (c * f * (c * k)) ((1 - beta) / 2) = Rpower c (1 - beta) * Rpower (f * k) ((1 - beta) / 2)).
  { rewrite E, power_mul, power_sq by auto. do 2 f_equal. field. }
  assert (P2 : Rpower (c * f * (c * k)) (1 - beta) = (Rpower c (1 - beta) * Rpower c (1 - beta)) * Rpower (f * k) (1 - beta)).
  { rewrite E, power_mul, power_sq by auto. f_equal. rewrite <- power_double. reflexivity. }
  pose proof (rpower_pos c (1 - beta)) as Q. pose proof (rpower_pos (f * k) ((1 - beta) / 2)) as Q1. pose proof (rpower_pos (f * k) (1 - beta)) as Q2.
  assert (T : hagan_time tau (c * f) (Rpower c (1 - beta) * alpha) beta rho v (c * k) = hagan_time tau f alpha beta rho v k).
  { unfold hagan_time. rewrite P1, P2. field. repeat split; lra. }
  assert (L : ln (c * f) - ln (c * k) = ln f - ln k) by (rewrite !ln_mult by auto; ring).
  unfold sabr_elem. rewrite !log_ratio by auto. rewrite L. rewrite !bracket_fin by (auto; nra). rewrite T. rewrite !npow_pos by (auto; nra). rewrite P1.
  set (p := Rpower (f * k) ((1 - beta) / 2)) in *. set (w := Rpower c (1 - beta)) in *.
  destruct (abs_below sabr_atm_tol (Fin (ln f - ln k))).
  - f_equal. unfold div. destruct (Req_EM_T (w * p) 0); [nra | ]. destruct (Req_EM_T p 0); [lra | ]. f_equal. field. split; lra.
  - cbv zeta.
    assert (Z : mul (mul (div (Fin v) (Fin (w * alpha))) (Fin (w * p))) (Fin (ln f - ln k)) = mul (mul (div (Fin v) (Fin alpha)) (Fin p)) (Fin (ln f - ln k))).
    { f_equal. unfold div. destruct (Req_EM_T (w * alpha) 0) as [B | B]; destruct (Req_EM_T alpha 0) as [D | D].
      - unfold scale_inf. destruct (Rlt_dec 0 v); [ | destruct (Rlt_dec v 0)]; cbn [mul]; auto; unfold scale_inf.
        + destruct (Rlt_dec 0 (w * p)); [ | nra]. destruct (Rlt_dec 0 p); [auto | lra].
        + destruct (Rlt_dec 0 (- (w * p))); [nra | ]. destruct (Rlt_dec (- (w * p)) 0); [ | nra]. destruct (Rlt_dec 0 (- p)); [lra | ]. destruct (Rlt_dec (- p) 0); [auto | lra].
      - exfalso. apply Rmult_integral in B as [B | B]; [lra | auto].
      - exfalso. apply B. rewrite D. ring.
      - cbn [mul]. f_equal. field. split; auto. lra. }
    rewrite Z. set (r := div _ (sabr_x rho _)). f_equal. unfold npow2. cbn [mul add].
    set (s := 1 + _ + _). assert (S : 0 < s). { unfold s. pose proof (beta_skew beta (ln f - ln k)) as S. replace ((ln f - ln k) * (ln f - ln k)) with ((ln f - ln k) ^ 2) by ring. replace ((ln f - ln k) ^ 2 * (ln f - ln k) ^ 2) with ((ln f - ln k) ^ 4) by ring. exact S. }
    assert (WP : 0 < w * p) by (apply Rmult_lt_0_compat; auto). assert (WPS : 0 < w * p * s) by (apply Rmult_lt_0_compat; auto). assert (PS : 0 < p * s) by (apply Rmult_lt_0_compat; auto).
    assert (SG : forall x : R, scale_inf (w * x) = scale_inf x).
    { intros x. unfold scale_inf. destruct (Rtotal_order x 0) as [X | [-> | X]].
      - assert (w * x < 0) by (apply Ropp_lt_cancel; rewrite Ropp_0, <- Ropp_mult_distr_r_reverse; apply Rmult_lt_0_compat; lra).
        destruct (Rlt_dec 0 (w * x)); [lra | ]. destruct (Rlt_dec 0 x); [lra | ]. destruct (Rlt_dec (w * x) 0); [ | lra]. destruct (Rlt_dec x 0); [auto | lra].
      - rewrite Rmult_0_r. reflexivity.
      - assert (0 < w * x) by (apply Rmult_lt_0_compat; auto). destruct (Rlt_dec 0 (w * x)); [ | lra]. destruct (Rlt_dec 0 x); [auto | lra]. }
    assert (SP : forall y : num, (y = PInf \/ y = NInf \/ y = NaN) -> div y (Fin (w * p * s)) = div y (Fin (p * s))).
    { intros y [-> | [-> | ->]]; unfold div; destruct (Rlt_dec (w * p * s) 0); try lra; destruct (Rlt_dec (p * s) 0); try lra; reflexivity. }
    assert (SI : forall x : R, scale_inf x = PInf \/ scale_inf x = NInf \/ scale_inf x = NaN).
    { intros x. unfold scale_inf. destruct (Rlt_dec 0 x); auto. destruct (Rlt_dec x 0); auto. }
    destruct r as [r | | | ]; cbn [mul].
    + unfold div. destruct (Req_EM_T (w * p * s) 0); [lra | ]. destruct (Req_EM_T (p * s) 0); [lra | ]. f_equal. field. repeat split; lra.
    + rewrite SG. apply SP, SI.
    + rewrite <- Ropp_mult_distr_r_reverse, SG. apply SP, SI.
    + reflexivity.
Qed.

(* swapping forward and strike mirrors x *)
Lemma hagan_x_mirror (rho z : R) : -1 < rho < 1 -> hagan_x (- rho) (- z) = - hagan_x rho z.
Proof.
  intros H. assert (H' : -1 < - rho < 1) by lra. unfold hagan_x. pose proof (root_gt rho z H) as G1. pose proof (root_gt (- rho) (- z) H') as G2.
  replace (1 - 2 * - rho * - z + (- z) ^ 2) with (1 - 2 * rho * z + z ^ 2) in * by ring.
  set (s := sqrt _) in *. assert (SS : s * s = 1 - 2 * rho * z + z ^ 2) by (apply sqrt_sqrt; left; apply disc_pos; auto).
  assert (1 - rho <> 0) by lra. assert (1 + rho <> 0) by lra.
  rewrite <- ln_Rinv by (apply Rdiv_lt_0_compat; lra). f_equal.
  replace (1 - - rho) with (1 + rho) by ring. apply (Rmult_eq_reg_r ((s + z - rho) * (1 + rho))); [ | apply Rmult_integral_contrapositive_currified; lra].
  transitivity ((s + - z - - rho) * (s + z - rho)); [field; lra | ]. transitivity ((1 - rho) * (1 + rho)); [ | field; split; lra].
  transitivity (s * s - z * z + 2 * rho * z - rho * rho); [ring | ]. rewrite SS. ring.
Qed.
Lemma swap_mirror (tau F alpha rho v K shift : R) : 0 < F + shift -> 0 < K + shift -> alpha <> 0 -> v <> 0 -> -1 < rho < 1 ->
  calc_sln_vol (smile1 tau K alpha 0 (- rho) v) [F] [shift] = calc_sln_vol (smile1 tau F alpha 0 rho v) [K] [shift].
Proof.
  intros HF HK A V H. rewrite !calc1. do 2 f_equal. set (f := F + shift) in *. set (k := K + shift) in *. assert (H' : -1 < - rho < 1) by lra.
  assert (AB : Rabs (ln k - ln f) = Rabs (ln f - ln k)) by apply Rabs_minus_sym.
  assert (T : hagan_time tau k alpha 0 (- rho) v f = hagan_time tau f alpha 0 rho v k).
  { unfold hagan_time. rewrite (Rmult_comm k f). unfold Rdiv. ring. }
  destruct (Rlt_dec (Rabs (ln f - ln k)) sabr_atm_tol) as [L | L].
  - rewrite !elem_atm by (auto; rewrite ?AB; auto). rewrite T, (Rmult_comm k f). reflexivity.
  - rewrite !elem_off by (auto; rewrite ?AB; lra). unfold hagan_vol. rewrite T.
    assert (Z : hagan_z k alpha 0 v f = - hagan_z f alpha 0 v k) by (unfold hagan_z; rewrite (Rmult_comm k f); ring).
    assert (LN : ln f - ln k <> 0). { intros Q. rewrite Q, Rabs_R0 in L. pose proof tol_pos. lra. }
    pose proof (z_nonzero f alpha 0 v k A V LN) as ZN. pose proof (hagan_x_nonzero rho _ H ZN) as XN.
    cbv zeta. rewrite Z, hagan_x_mirror, (Rmult_comm k f) by auto.
    replace ((ln k - ln f) ^ 2) with ((ln f - ln k) ^ 2) by ring. replace ((ln k - ln f) ^ 4) with ((ln f - ln k) ^ 4) by ring.
    do 2 f_equal. f_equal. field. auto.
Qed.

(* ---- degenerate inputs ---- *)
Lemma elem_off_nan (tau F alpha beta rho v K : R) : 0 < F -> 0 < K -> sabr_atm_tol <= Rabs (ln F - ln K) -> v = 0 \/ alpha = 0 ->
  sabr_elem tau F alpha beta rho v K = NaN.
Proof.
  intros HF HK A D. assert (P : 0 < F * K) by nra. unfold sabr_elem. rewrite log_ratio by auto. unfold abs_below.
  destruct (Rlt_dec (Rabs (ln F - ln K)) sabr_atm_tol); [lra | ]. rewrite npow_pos by auto. cbv zeta.
  set (p := Rpower (F * K) ((1 - beta) / 2)). assert (PP : 0 < p) by apply rpower_pos. set (l := ln F - ln K) in *.
  assert (Z : let z := mul (mul (div (Fin v) (Fin alpha)) (Fin p)) (Fin l) in div z (sabr_x rho z) = NaN).
  { cbv zeta. destruct (Req_EM_T alpha 0) as [-> | NA].
    - assert (DV : div (Fin v) (Fin 0) = scale_inf v) by (unfold div; destruct (Req_EM_T 0 0) as [_ | N0]; [auto | exfalso; auto]). rewrite DV.
      assert (L : l <> 0). { intros Q. rewrite Q, Rabs_R0 in A. pose proof tol_pos. lra. }
      assert (IP : scale_inf p = PInf) by (unfold scale_inf; destruct (Rlt_dec 0 p); [auto | lra]).
      assert (IN : scale_inf (- p) = NInf) by (unfold scale_inf; destruct (Rlt_dec 0 (- p)); [lra | destruct (Rlt_dec (- p) 0); [auto | lra]]).
      assert (C : exists z, mul (mul (scale_inf v) (Fin p)) (Fin l) = z /\ (z = PInf \/ z = NInf \/ z = NaN)).
      { eexists. split; [reflexivity | ]. assert (M1 : forall x : R, scale_inf x = PInf \/ scale_inf x = NInf \/ scale_inf x = NaN).
        { intros x. unfold scale_inf. destruct (Rlt_dec 0 x); auto. destruct (Rlt_dec x 0); auto. }
        assert (M2 : forall (y : num) (x : R), y = PInf \/ y = NInf \/ y = NaN -> mul y (Fin x) = PInf \/ mul y (Fin x) = NInf \/ mul y (Fin x) = NaN).
        { intros y x [-> | [-> | ->]]; cbn [mul]; auto. }
        apply M2, M2, M1. }
      destruct C as (z & -> & [-> | [-> | ->]]); [ | | reflexivity].
      + unfold sabr_x, sub. cbn [mul neg add]. unfold scale_inf at 1. destruct (Rlt_dec 0 (2 * rho)); [reflexivity | ]. destruct (Rlt_dec (2 * rho) 0); [ | reflexivity].
        cbn [neg add nsqrt]. cbn [div]. destruct (Rlt_dec (1 - rho) 0); reflexivity.
      + unfold sabr_x, sub. cbn [mul neg add]. unfold scale_inf at 1. destruct (Rlt_dec 0 (- (2 * rho))); [reflexivity | ]. destruct (Rlt_dec (- (2 * rho)) 0); reflexivity.
    - destruct D as [-> | D]; [ | contradiction].
      assert (DV : div (Fin 0) (Fin alpha) = Fin (0 / alpha)) by (unfold div; destruct (Req_EM_T alpha 0); [contradiction | auto]). rewrite DV.
      cbn [mul]. replace (0 / alpha * p * l) with 0 by (field; auto). unfold sabr_x, sub. cbn [mul neg add].
      replace (1 + - (2 * rho * 0) + 0 * 0) with 1 by ring. unfold nsqrt. destruct (Rlt_dec 1 0); [lra | ]. rewrite sqrt_1. cbn [add].
      unfold div at 2. destruct (Req_EM_T (1 - rho) 0) as [E | E].
      + replace (1 + 0 + - rho) with 0 by lra. unfold scale_inf. destruct (Rlt_dec 0 0); [lra | ]. reflexivity.
      + replace ((1 + 0 + - rho) / (1 - rho)) with 1 by (field; auto). unfold nlog. destruct (Rlt_dec 0 1); [ | lra]. rewrite ln_1. unfold div.
        destruct (Req_EM_T 0 0) as [_ | N]; [ | exfalso; auto]. unfold scale_inf. destruct (Rlt_dec 0 0); [lra | ]. reflexivity. }
  cbv zeta in Z. rewrite Z. reflexivity.
Qed.

Lemma elem_rho (tau F alpha beta rho v K : R) (zx : num) : 0 < F -> 0 < K -> sabr_atm_tol <= Rabs (ln F - ln K) -> alpha <> 0 ->
  div (Fin (hagan_z F alpha beta v K)) (sabr_x rho (Fin (hagan_z F alpha beta v K))) = zx ->
  (zx = NaN -> sabr_elem tau F alpha beta rho v K = NaN) /\ (zx = Fin 0 -> sabr_elem tau F alpha beta rho v K = Fin 0).
Proof.
  intros HF HK A HA ZX. assert (P : 0 < F * K) by nra. unfold sabr_elem. rewrite log_ratio by auto. unfold abs_below.
  destruct (Rlt_dec (Rabs (ln F - ln K)) sabr_atm_tol); [lra | ]. rewrite bracket_fin, npow_pos by auto. cbv zeta.
  pose proof (rpower_pos (F * K) ((1 - beta) / 2)) as HP.
  assert (Z : mul (mul (div (Fin v) (Fin alpha)) (Fin (Rpower (F * K) ((1 - beta) / 2)))) (Fin (ln F - ln K)) = Fin (hagan_z F alpha beta v K)).
  { unfold div. destruct (Req_EM_T alpha 0); [contradiction | ]. reflexivity. }
  rewrite Z, ZX. split; intros ->; [reflexivity | ]. unfold npow2. cbn [mul add]. unfold div.
  pose proof (beta_skew beta (ln F - ln K)) as S.
  set (d := Rpower (F * K) ((1 - beta) / 2) * (1 + (1 - beta) ^ 2 / 24 * ((ln F - ln K) * (ln F - ln K)) + (1 - beta) ^ 4 / 1920 * ((ln F - ln K) * (ln F - ln K) * ((ln F - ln K) * (ln F - ln K))))).
  assert (E : d = Rpower (F * K) ((1 - beta) / 2) * (1 + (1 - beta) ^ 2 / 24 * (ln F - ln K) ^ 2 + (1 - beta) ^ 4 / 1920 * (ln F - ln K) ^ 4)) by (unfold d; ring).
  assert (D : d <> 0). { rewrite E. apply Rmult_integral_contrapositive_currified; lra. }
  destruct (Req_EM_T d 0); [contradiction | ]. cbn [mul]. f_equal. field. auto.
Qed.

Lemma abs_sqrt (x : R) : sqrt (x * x) = Rabs x.
Proof. change (x * x) with (Rsqr x). apply sqrt_Rsqr_abs. Qed.

Lemma elem_rho_one (tau F alpha beta v K : R) : 0 < F -> 0 < K -> sabr_atm_tol <= Rabs (ln F - ln K) -> alpha <> 0 ->
  sabr_elem tau F alpha beta 1 v K = if Rlt_dec 1 (hagan_z F alpha beta v K) then Fin 0 else NaN.
Proof.
  intros HF HK A HA. set (z := hagan_z F alpha beta v K).
  assert (ZX : div (Fin z) (sabr_x 1 (Fin z)) = if Rlt_dec 1 z then Fin 0 else NaN).
  { unfold sabr_x, sub. cbn [mul neg add]. replace (1 + - (2 * 1 * z) + z * z) with ((1 - z) * (1 - z)) by ring.
    unfold nsqrt. destruct (Rlt_dec ((1 - z) * (1 - z)) 0) as [B | B]; [pose proof (Rle_0_sqr (1 - z)) as Q; unfold Rsqr in Q; lra | ].
    rewrite abs_sqrt. cbn [add]. unfold div at 2. destruct (Req_EM_T (1 - 1) 0) as [_ | N]; [ | exfalso; apply N; ring].
    destruct (Rlt_dec 1 z) as [L | L].
    - rewrite Rabs_left by lra. unfold scale_inf. destruct (Rlt_dec 0 (- (1 - z) + z + - (1))); [ | lra]. reflexivity.
    - rewrite Rabs_pos_eq by lra. unfold scale_inf. replace (1 - z + z + - (1)) with 0 by ring. destruct (Rlt_dec 0 0); [lra | reflexivity]. }
  destruct (elem_rho tau F alpha beta 1 v K _ HF HK A HA ZX) as [H1 H2]. fold z. destruct (Rlt_dec 1 z); auto.
Qed.
Lemma elem_rho_minus_one (tau F alpha beta v K : R) : 0 < F -> 0 < K -> sabr_atm_tol <= Rabs (ln F - ln K) -> alpha <> 0 ->
  hagan_z F alpha beta v K <= -1 -> sabr_elem tau F alpha beta (-1) v K = Fin 0.
Proof.
  intros HF HK A HA Z. set (z := hagan_z F alpha beta v K) in *.
  assert (ZX : div (Fin z) (sabr_x (-1) (Fin z)) = Fin 0).
  { unfold sabr_x, sub. cbn [mul neg add]. replace (1 + - (2 * -1 * z) + z * z) with ((1 + z) * (1 + z)) by ring.
    unfold nsqrt. destruct (Rlt_dec ((1 + z) * (1 + z)) 0) as [B | B]; [pose proof (Rle_0_sqr (1 + z)) as Q; unfold Rsqr in Q; lra | ].
    rewrite abs_sqrt. cbn [add]. unfold div at 2. destruct (Req_EM_T (1 - -1) 0) as [E | _]; [lra | ].
    rewrite Rabs_left1 by lra. replace (- (1 + z) + z + - -1) with 0 by ring. unfold nlog, Rdiv. rewrite Rmult_0_l.
    destruct (Rlt_dec 0 0); [lra | ]. destruct (Req_EM_T 0 0); [reflexivity | exfalso; auto]. }
  apply (proj2 (elem_rho tau F alpha beta (-1) v K _ HF HK A HA ZX)). reflexivity.
Qed.

Lemma elem_opposite_signs (tau F alpha beta rho v K : R) : F * K < 0 -> sabr_elem tau F alpha beta rho v K = NaN.
Proof.
  intros H. unfold sabr_elem. assert (KN : K <> 0) by (intros ->; lra).
  assert (L : nlog (div (Fin F) (Fin K)) = NaN).
  { unfold div. destruct (Req_EM_T K 0); [contradiction | ]. unfold nlog. assert (F / K < 0).
    { replace (F / K) with ((F * K) * (/ K * / K)) by (field; auto). assert (0 < / K * / K). { pose proof (Rlt_0_sqr (/ K) (Rinv_neq_0_compat _ KN)) as Q. exact Q. } nra. }
    destruct (Rlt_dec 0 (F / K)); [lra | ]. destruct (Req_EM_T (F / K) 0); [lra | reflexivity]. }
  rewrite L. cbn [abs_below]. cbv zeta. set (w := mul (div (Fin v) (Fin alpha)) _).
  assert (W : mul w NaN = NaN) by (destruct w; reflexivity). rewrite W. reflexivity.
Qed.
Lemma elem_reflected (tau F alpha beta rho v K : R) : K <> 0 -> sabr_elem tau (- F) alpha beta rho v (- K) = sabr_elem tau F alpha beta rho v K.
Proof.
  intros H. unfold sabr_elem, sabr_bracket. replace (- F * - K) with (F * K) by ring.
  assert (D : div (Fin (- F)) (Fin (- K)) = div (Fin F) (Fin K)).
  { unfold div. destruct (Req_EM_T (- K) 0); [exfalso; apply H; lra | ]. destruct (Req_EM_T K 0); [contradiction | ]. f_equal. field. auto. }
  rewrite D. reflexivity.
Qed.

(* ---- shapes ---- *)
Lemma smile_lengths_ok (s : smile) : forallb (Nat.eqb (length (s_tau s))) (smile_lengths s) = true <-> smile_ok s (length (s_tau s)).
Proof.
  unfold smile_lengths, smile_ok. cbn [forallb]. rewrite !andb_true_iff, !Nat.eqb_eq. intuition auto.
Qed.

Lemma calc_elementwise (s : smile) (n : nat) (K : list R) (shift : R) : smile_ok s n -> (0 < n)%nat -> K <> [] -> length K = n \/ length K = 1%nat \/ n = 1%nat ->
  exists vols, calc_sln_vol s K [shift] = Ok vols /\ length vols = Nat.max n (length K) /\
  forall (i : nat) (t f a b r v k : R), used (s_tau s) i t -> used (s_F s) i f -> used (s_alpha s) i a -> used (s_beta s) i b -> used (s_rho s) i r -> used (s_volvol s) i v -> used K i k ->
  (i < Nat.max n (length K))%nat -> exists y, nth_error vols i = Some y /\ calc_sln_vol (smile1 t f a b r v) [k] [shift] = Ok [y].
Proof.
  intros OK N0 KN LK. assert (L0 : length K <> 0%nat) by (destruct K; [contradiction | discriminate]).
  pose proof OK as (L1 & L2 & L3 & L4 & L5 & L6). unfold calc_sln_vol.
  assert (G1 : forallb (Nat.eqb (length (s_tau s))) (smile_lengths s) = true) by (apply smile_lengths_ok; rewrite L1; auto).
  rewrite G1. cbn [guard bind]. rewrite L1.
  assert (G2 : (Nat.leb (length K) 1 || Nat.eqb n (length K) || Nat.eqb n 1)%bool = true).
  { destruct LK as [-> | [-> | ->]]; [rewrite Nat.eqb_refl; rewrite orb_true_r; auto | reflexivity | rewrite orb_true_r; auto]. }
  rewrite G2. cbn [guard bind].
  assert (B : broadcast [n; length K] = Some (Nat.max n (length K))).
  { rewrite (broadcast_fits _ (Nat.max n (length K))).
    - destruct (in_dec Nat.eq_dec (Nat.max n (length K)) [n; length K]) as [I | I]; [reflexivity | ]. exfalso. apply I.
      destruct (Nat.max_dec n (length K)) as [-> | ->]; [left | right; left]; reflexivity.
    - constructor; [lia | constructor; [lia | constructor]]. }
  rewrite B. eexists. split; [reflexivity | ]. split; [unfold vec; rewrite map_length, seq_length; auto | ].
  intros i t f a b r v k U1 U2 U3 U4 U5 U6 U7 I. eexists. split.
  - unfold vec. rewrite nth_error_map. rewrite (nth_error_nth' _ 0%nat) by (rewrite seq_length; auto). rewrite seq_nth by auto. cbn [option_map Nat.add]. reflexivity.
  - rewrite (used_at _ _ _ U1), (used_at _ _ _ U2), (used_at _ _ _ U3), (used_at _ _ _ U4), (used_at _ _ _ U5), (used_at _ _ _ U6), (used_at _ _ _ U7). reflexivity.
Qed.
Lemma calc_rejects (s : smile) (K : list R) (shift : list R) :
  calc_sln_vol s K shift = Err AssertionError <-> ~ smile_ok s (length (s_tau s)) \/ ((1 < length K)%nat /\ length (s_tau s) <> length K /\ length (s_tau s) <> 1%nat) \/ length shift <> 1%nat.
Proof.
  unfold calc_sln_vol. destruct (forallb (Nat.eqb (length (s_tau s))) (smile_lengths s)) eqn:G.
  - apply smile_lengths_ok in G. cbn [guard bind].
    destruct (Nat.leb (length K) 1) eqn:E1; [apply Nat.leb_le in E1 | apply Nat.leb_gt in E1]; cbn [orb].
    + cbn [guard bind]. destruct shift as [ | h [ | h2 r]]; cbn [length].
      * split; [intros _; right; right; discriminate | intros _; reflexivity].
      * split; [ | intros [N | [N | N]]; [contradiction | lia | lia]]. destruct (broadcast [length (s_tau s); length K]); discriminate.
      * split; [intros _; right; right; discriminate | intros _; reflexivity].
    + destruct (Nat.eqb (length (s_tau s)) (length K)) eqn:E2; [apply Nat.eqb_eq in E2 | apply Nat.eqb_neq in E2]; cbn [orb guard bind].
      * destruct shift as [ | h [ | h2 r]]; cbn [length].
        -- split; [intros _; right; right; discriminate | intros _; reflexivity].
        -- split; [ | intros [N | [N | N]]; [contradiction | lia | lia]]. destruct (broadcast [length (s_tau s); length K]); discriminate.
        -- split; [intros _; right; right; discriminate | intros _; reflexivity].
      * destruct (Nat.eqb (length (s_tau s)) 1) eqn:E3; [apply Nat.eqb_eq in E3 | apply Nat.eqb_neq in E3]; cbn [guard bind].
        -- destruct shift as [ | h [ | h2 r]]; cbn [length].
           ++ split; [intros _; right; right; discriminate | intros _; reflexivity].
           ++ split; [ | intros [N | [N | N]]; [contradiction | lia | lia]]. destruct (broadcast [length (s_tau s); length K]); discriminate.
           ++ split; [intros _; right; right; discriminate | intros _; reflexivity].
        -- split; auto.
  - cbn [guard bind]. split; auto. intros _. left. intros Q. apply smile_lengths_ok in Q. congruence.
Qed.

(* ---- fitting ---- *)
Lemma isclose_near (k F : R) : isclose k F = true <-> near F k.
Proof. unfold isclose, near. destruct (Rle_dec _ _); split; auto; try discriminate; contradiction. Qed.

Lemma filter_single {A} (f : A -> bool) (l : list A) (x : A) : filter f l = [x] -> exists i, nth_error l i = Some x /\ forall (j : nat) (y : A), nth_error l j = Some y -> f y = true -> j = i.
Proof.
  induction l as [ | a r IH]; cbn [filter]; intros H; [discriminate | ]. destruct (f a) eqn:E.
  - injection H as -> H. exists 0%nat. split; auto. intros j y Y T. destruct j as [ | j]; auto. cbn in Y. apply nth_error_In in Y.
    assert (I : In y (filter f r)) by (apply filter_In; auto). rewrite H in I. destruct I.
  - destruct (IH H) as (i & I & U). exists (Datatypes.S i). split; auto. intros j y Y T. destruct j as [ | j]; [cbn in Y; injection Y as ->; congruence | ]. f_equal. eapply U; eauto.
Qed.
Lemma nth_combine {A B} (l : list A) (m : list B) (i : nat) (a : A) (b : B) : nth_error (combine l m) i = Some (a, b) -> nth_error l i = Some a /\ nth_error m i = Some b.
Proof. revert m i. induction l as [ | x r IH]; intros m i H; [destruct i; discriminate | ]. destruct m as [ | y s]; [destruct i; discriminate | ]. destruct i as [ | i]; [injection H as -> ->; auto | apply IH in H; auto]. Qed.
Lemma combine_nth_error {A B} (l : list A) (m : list B) (i : nat) (a : A) (b : B) : nth_error l i = Some a -> nth_error m i = Some b -> nth_error (combine l m) i = Some (a, b).
Proof. revert m i. induction l as [ | x r IH]; intros m i H1 H2; [destruct i; discriminate | ]. destruct m as [ | y s]; [destruct i; discriminate | ]. destruct i as [ | i]; [injection H1 as ->; injection H2 as ->; auto | apply IH; auto]. Qed.

Lemma fit_reprices (roots : solver) (tau F : R) (K vols : list R) (shift : R) (beta_override : option R) (opt : fit_search) (alpha beta rho v : R) :
  exact_solver roots -> 0 < F + shift -> fit_sabr roots tau F K vols (Some shift) beta_override opt = Ok (alpha, beta, rho, v) ->
  (exists (i : nat) (k vol : R), nth_error K i = Some k /\ nth_error vols i = Some vol /\ near F k
     /\ (forall (j : nat) (k' : R), nth_error K j = Some k' -> near F k' -> j = i)
     /\ sabr_vol_is tau F alpha beta rho v F shift vol)
  /\ (forall b : R, beta_override = Some b -> beta = b).
Proof.
  intros X P. unfold fit_sabr. destruct (Nat.eqb (length K) (length vols)) eqn:LE; [ | discriminate]. cbn [guard bind]. apply Nat.eqb_eq in LE.
  destruct (filter (fun p => isclose (fst p) F) (combine K vols)) as [ | p [ | q r]] eqn:FE; try discriminate. cbn [map].
  destruct (fit_run _ _) as [x | e]; [ | discriminate]. cbn [bind].
  destruct (unpack beta_override x) as [[[b0 r0] v0] | e] eqn:U; [ | discriminate]. cbn [bind need_shift].
  destruct (solve_alpha roots tau F b0 r0 v0 (snd p) shift) as [a | e] eqn:S; [ | discriminate]. cbn [bind]. intros H. injection H as -> -> -> ->.
  split.
  - destruct (filter_single _ _ _ FE) as (i & I & UQ). destruct p as [k vol]. cbn [snd fst] in *.
    destruct (nth_combine _ _ _ _ _ I) as [I1 I2]. exists i, k, vol. repeat split; auto.
    + assert (J : In (k, vol) (filter (fun p => isclose (fst p) F) (combine K vols))) by (rewrite FE; left; auto). apply filter_In in J as [_ J]. apply isclose_near. exact J.
    + intros j k' J N. assert (JL : (j < length vols)%nat) by (rewrite <- LE; apply nth_error_Some; congruence).
      destruct (nth_error vols j) as [vj | ] eqn:VJ; [ | apply nth_error_None in VJ; lia].
      apply (UQ j (k', vj)); [apply combine_nth_error; auto | apply isclose_near; auto].
    + apply (alpha_reprices roots); auto.
  - intros b ->. cbn [unpack] in U. destruct x as [ | r1 [ | v1 [ | ? ?]]]; try discriminate. injection U as -> _ _. reflexivity.
Qed.

(* without a shift *)
Lemma fit_needs_shift (roots : solver) (tau F : R) (K vols : list R) (beta_override : option R) (opt : fit_search) (r : R * R * R * R) :
  fit_sabr roots tau F K vols None beta_override opt <> Ok r.
Proof.
  unfold fit_sabr. destruct (Nat.eqb (length K) (length vols)); [ | discriminate]. cbn [guard bind].
  destruct (map snd _) as [ | a [ | ? ?]]; try discriminate. destruct (fit_run _ _) as [x | ?]; [ | discriminate]. cbn [bind].
  destruct (unpack beta_override x) as [[[? ?] ?] | ?]; discriminate.
Qed.
Lemma fit_none_type_error (roots : solver) (tau F : R) (K vols : list R) (b rho v : R) (k : num -> fit_search) (i : nat) (kk vol : R) :
  length K = length vols -> nth_error K i = Some kk -> nth_error vols i = Some vol -> near F kk -> (forall (j : nat) (k' : R), nth_error K j = Some k' -> near F k' -> j = i) ->
  fit_sabr roots tau F K vols None (Some b) (FitProbe [rho; v] k) = Err TypeError.
Proof.
  intros LE I V N U. unfold fit_sabr. rewrite LE, Nat.eqb_refl. cbn [guard bind].
  destruct (filter (fun p => isclose (fst p) F) (combine K vols)) as [ | p [ | q r]] eqn:FE; cbn [map].
  - assert (Q : In (kk, vol) (filter (fun p => isclose (fst p) F) (combine K vols))).
    { apply filter_In. split; [eapply nth_error_In, combine_nth_error; eauto | apply isclose_near; auto]. }
    rewrite FE in Q. destruct Q.
  - reflexivity.
  - exfalso. assert (G : forall (l : list (R * R)) (f : R * R -> bool) (i : nat), (forall (j : nat) (y : R * R), nth_error l j = Some y -> f y = true -> j = i) -> (length (filter f l) <= 1)%nat).
    { clear. induction l as [ | a r IH]; intros f i H; cbn [filter length]; [lia | ]. destruct (f a) eqn:E.
      - assert (E0 : 0%nat = i) by (apply (H 0%nat a); auto). subst i. cbn [length].
        destruct (filter f r) as [ | y s] eqn:FR; [cbn; lia | ]. exfalso. assert (Y : In y (filter f r)) by (rewrite FR; left; auto). apply filter_In in Y as [Y1 Y2].
        apply In_nth_error in Y1 as (j & J). specialize (H (Datatypes.S j) y J Y2). discriminate.
      - apply (IH f (pred i)). intros j y J Y. specialize (H (Datatypes.S j) y J Y). lia. }
    assert (L : (length (filter (fun p => isclose (fst p) F) (combine K vols)) <= 1)%nat).
    { apply (G _ _ i). intros j [y1 y2] J Y. apply nth_combine in J as [J _]. apply (U j y1 J). apply isclose_near. exact Y. }
    rewrite FE in L. cbn in L. lia.
Qed.
Lemma fit_without_atm (roots : solver) (tau F : R) (K vols : list R) (shift beta_override : option R) (opt : fit_search) :
  length K = length vols ->
  (forall k : R, In k K -> ~ near F k) \/ (exists (i j : nat) (k k' : R), i <> j /\ nth_error K i = Some k /\ nth_error K j = Some k' /\ near F k /\ near F k') ->
  fit_sabr roots tau F K vols shift beta_override opt = Err ValueError.
Proof.
  intros LE H. unfold fit_sabr. rewrite LE, Nat.eqb_refl. cbn [guard bind].
  destruct (filter (fun p => isclose (fst p) F) (combine K vols)) as [ | p [ | q r]] eqn:FE; cbn [map]; auto. exfalso.
  destruct H as [N | (i & j & k & k' & D & I & J & N1 & N2)].
  - assert (Q : In p (filter (fun p => isclose (fst p) F) (combine K vols))) by (rewrite FE; left; auto). apply filter_In in Q as [Q1 Q2].
    destruct p as [k vol]. apply in_combine_l in Q1. apply (N k Q1). apply isclose_near; auto.
  - destruct (filter_single _ _ _ FE) as (m & _ & U).
    assert (A : forall (n : nat) (x : R), nth_error K n = Some x -> near F x -> n = m).
    { intros n x X NX. assert (JL : (n < length vols)%nat) by (rewrite <- LE; apply nth_error_Some; congruence).
      destruct (nth_error vols n) as [vj | ] eqn:VJ; [ | apply nth_error_None in VJ; lia].
      apply (U n (x, vj)); [apply combine_nth_error; auto | apply isclose_near; auto]. }
    apply D. transitivity m; [eapply A; eauto | symmetry; eapply A; eauto].
Qed.

(* ---- a shifted forward or strike of zero ---- *)
Lemma log_of_zero_ratio (F K : R) : F = 0 \/ K = 0 -> forall r, nlog (div (Fin F) (Fin K)) <> Fin r.
Proof.
  intros H r. unfold div, scale_inf. destruct (Req_EM_T K 0) as [-> | N].
  - destruct (Rlt_dec 0 F); [discriminate | ]. destruct (Rlt_dec F 0); discriminate.
  - destruct H as [-> | ]; [ | contradiction]. unfold nlog. replace (0 / K) with 0 by (field; auto).
    destruct (Rlt_dec 0 0); [lra | ]. destruct (Req_EM_T 0 0); [discriminate | contradiction].
Qed.
Lemma mul_not_finite (x y : num) : (forall r, y <> Fin r) -> forall r, mul x y <> Fin r.
Proof.
  intros H r. destruct y; [destruct (H _ eq_refl) | | | ]; destruct x; cbn; try discriminate; unfold scale_inf;
    repeat match goal with |- context [Rlt_dec ?a ?b] => destruct (Rlt_dec a b) end; discriminate.
Qed.
Lemma div_not_finite (rho : R) (z : num) : (forall r, z <> Fin r) -> div z (sabr_x rho z) = NaN.
Proof.
  intros H. destruct z; [destruct (H _ eq_refl) | | | ]; try reflexivity;
    unfold sabr_x; unfold mul, sub, add, neg, nsqrt, nlog, div, scale_inf;
    repeat match goal with |- context [Rlt_dec ?a ?b] => destruct (Rlt_dec a b) end; reflexivity.
Qed.
Lemma elem_zero (tau F alpha beta rho v K : R) : F = 0 \/ K = 0 -> sabr_elem tau F alpha beta rho v K = NaN.
Proof.
  intros H. unfold sabr_elem. pose proof (log_of_zero_ratio F K H) as L. set (l := nlog _) in *.
  replace (abs_below sabr_atm_tol l) with false by (destruct l; [destruct (L _ eq_refl) | | | ]; reflexivity).
  cbv zeta. rewrite div_not_finite by (apply mul_not_finite; exact L). reflexivity.
Qed.
