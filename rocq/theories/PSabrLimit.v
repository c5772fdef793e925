(* C156: the SABR smile as the volatility of volatility vanishes, and its wings for a lognormal backbone *)
From Coq Require Import Reals List Lra Lia.
From Coquelicot Require Import Coquelicot.
From Verif Require Import Base NormalModel SabrModel SabrSpec SabrProofs SabrSmileProofs SabrLimitSpec.
Import ListNotations.
Open Scope R_scope.

(* ---- no volatility of volatility ---- *)
Local Lemma time_at_0 tau f alpha beta rho k : hagan_time tau f alpha beta rho 0 k = cev_time tau f alpha beta k.
Proof. unfold hagan_time, cev_time. pose proof (rpower_pos (f * k) ((1 - beta) / 2)). pose proof (rpower_pos (f * k) (1 - beta)). field. split; lra. Qed.
Local Lemma level_v_continuous tau f alpha beta rho k v : continuous (fun v : R => level tau f alpha beta rho v k) v.
Proof.
  apply (ex_derive_continuous (K := R_AbsRing) (V := R_NormedModule)). unfold level, hagan_time. pose proof (rpower_pos (f * k) ((1 - beta) / 2)). pose proof (rpower_pos (f * k) (1 - beta)). auto_derive. repeat split; lra.
Qed.
Local Lemma smooth_v_continuous tau f alpha beta rho k : -1 < rho < 1 -> continuous (fun v : R => smooth tau f alpha beta rho v k) 0.
Proof.
  intros H. unfold smooth. apply (continuous_mult (K := R_AbsRing)); [apply level_v_continuous|]. apply (continuous_mult (K := R_AbsRing)); [|apply continuous_const].
  apply (continuous_comp (fun v => hagan_z f alpha beta v k) (ratio rho)).
  - unfold hagan_z. apply (ex_derive_continuous (K := R_AbsRing) (V := R_NormedModule)). auto_derive. exact I.
  - replace (hagan_z f alpha beta 0 k) with 0 by (unfold hagan_z, Rdiv; ring). apply ratio_continuous. exact H.
Qed.
Local Lemma smooth_elem tau f alpha beta rho v k : 0 < f -> 0 < k -> alpha <> 0 -> v <> 0 -> -1 < rho < 1 -> sabr_atm_tol <= Rabs (ln f - ln k) ->
  sabr_elem tau f alpha beta rho v k = Fin (smooth tau f alpha beta rho v k).
Proof.
  intros P Q A V H L. rewrite elem_off; auto. f_equal. unfold smooth, hagan_vol, level.
  assert (LN : ln f - ln k <> 0). { intros W. rewrite W, Rabs_R0 in L. pose proof tol_pos. lra. }
  unfold ratio. destruct (Req_EM_T (hagan_z f alpha beta v k) 0) as [Z | Z]; [exfalso; exact (z_nonzero f alpha beta v k A V LN Z) | ].
  pose proof (beta_skew beta (ln f - ln k)) as S0. fold (skew f beta k) in S0. fold (skew f beta k).
  pose proof (hagan_x_nonzero rho _ H Z). pose proof (rpower_pos (f * k) ((1 - beta) / 2)). field. repeat split; auto; lra.
Qed.

Theorem C156_vanishing_volvol (tau F alpha beta rho K shift : R) : 0 < F + shift -> 0 < K + shift -> alpha <> 0 -> -1 < rho < 1 -> / 1000000 <= Rabs (ln (F + shift) - ln (K + shift)) ->
  forall e : R, 0 < e -> exists d, 0 < d /\ forall v : R, v <> 0 -> Rabs v < d ->
    exists y, sabr_vol_is tau F alpha beta rho v K shift y /\ Rabs (y - cev_vol tau (F + shift) alpha beta (K + shift)) < e.
Proof.
  intros P Q A H L e E. destruct (eps_delta _ 0 e (smooth_v_continuous tau (F + shift) alpha beta rho (K + shift) H) E) as (d & D & C). exists d. split; [exact D|].
  intros v V Vd. exists (smooth tau (F + shift) alpha beta rho v (K + shift)). split; [apply vol_is; apply smooth_elem; assumption|].
  replace (cev_vol tau (F + shift) alpha beta (K + shift)) with (smooth tau (F + shift) alpha beta rho 0 (K + shift)); [apply C; rewrite Rminus_0_r; exact Vd|].
  unfold smooth, level, cev_vol, cev_level. rewrite time_at_0. replace (hagan_z (F + shift) alpha beta 0 (K + shift)) with 0 by (unfold hagan_z, Rdiv; ring).
  unfold ratio. destruct (Req_EM_T 0 0) as [_|N]; [|congruence]. fold (cev_skew (F + shift) beta (K + shift)). unfold skew. fold (cev_skew (F + shift) beta (K + shift)). unfold Rdiv. ring.
Qed.
(* Near the money the formula already applies without it, with the factor for the distance from the forward left out. *)
Theorem C156_no_volvol_near_the_money (tau F alpha beta rho K shift : R) : 0 < F + shift -> 0 < K + shift -> Rabs (ln (F + shift) - ln (K + shift)) < / 1000000 ->
  sabr_vol_is tau F alpha beta rho 0 K shift (cev_level (F + shift) alpha beta (K + shift) * cev_time tau (F + shift) alpha beta (K + shift)).
Proof. intros P Q L. apply vol_is. rewrite elem_atm by assumption. unfold cev_level. rewrite time_at_0. reflexivity. Qed.
(* A lognormal backbone: the limit is flat. *)
Theorem C156_flat (tau F alpha rho K shift : R) : 0 < F + shift -> 0 < K + shift -> alpha <> 0 -> -1 < rho < 1 ->
  forall e : R, 0 < e -> exists d, 0 < d /\ forall v : R, v <> 0 -> Rabs v < d -> exists y, sabr_vol_is tau F alpha 1 rho v K shift y /\ Rabs (y - alpha) < e.
Proof.
  intros P Q A H e E. destruct (Rlt_dec (Rabs (ln (F + shift) - ln (K + shift))) sabr_atm_tol) as [L|L].
  - destruct (eps_delta _ 0 e (level_v_continuous tau (F + shift) alpha 1 rho (K + shift) 0) E) as (d & D & C). exists d. split; [exact D|]. intros v _ Vd.
    exists (level tau (F + shift) alpha 1 rho v (K + shift)). split; [apply vol_is; apply elem_atm; assumption|].
    replace alpha with (level tau (F + shift) alpha 1 rho 0 (K + shift)) at 2; [apply C; rewrite Rminus_0_r; exact Vd|].
    unfold level, hagan_time. replace ((1 - 1) / 2) with 0 by field. replace (1 - 1) with 0 by ring. rewrite Rpower_O by nra. field.
  - apply Rnot_lt_le in L. destruct (C156_vanishing_volvol tau F alpha 1 rho K shift P Q A H L e E) as (d & D & C). exists d. split; [exact D|]. intros v V Vd. destruct (C v V Vd) as (y & Y & B). exists y. split; [exact Y|].
    replace alpha with (cev_vol tau (F + shift) alpha 1 (K + shift)) at 1; [exact B|]. unfold cev_vol, cev_level, cev_skew, cev_time. replace ((1 - 1) / 2) with 0 by field. replace (1 - 1) with 0 by ring. rewrite Rpower_O by nra. field.
Qed.

(* ---- the wings ---- *)
Definition disc (rho z : R) : R := 1 - 2 * rho * z + z ^ 2.
Local Lemma x_derive rho z : -1 < rho < 1 -> is_derive (hagan_x rho) z (/ sqrt (disc rho z)).
Proof.
  intros H. pose proof (disc_pos rho z H) as D. pose proof (root_gt rho z H) as G. pose proof (sqrt_lt_R0 _ D) as Sq. unfold hagan_x, disc. auto_derive.
  - replace (1 + - (2 * rho * z) + z * (z * 1)) with (1 - 2 * rho * z + z ^ 2) by ring. split; [lra|]. split; [|exact I]. apply Rmult_lt_0_compat; [lra|apply Rinv_0_lt_compat; lra].
  - replace (1 + - (2 * rho * z) + z * (z * 1)) with (1 - 2 * rho * z + z ^ 2) by ring. replace (1 - 2 * rho * z + z ^ 2) with (1 - 2 * rho * z + z ^ 2) by ring. set (s := sqrt (1 - 2 * rho * z + z ^ 2)) in *. field. repeat split; lra.
Qed.
Local Lemma excess_pos rho z : -1 < rho <= 0 -> 0 < z -> 0 < hagan_x rho z - z * / sqrt (disc rho z) /\ hagan_x rho z < z.
Proof.
  intros H Z. assert (H' : -1 < rho < 1) by lra. assert (DP : forall c, 0 < disc rho c) by (intros c; apply disc_pos; exact H'). split.
  - destruct (MVT_cor2 (fun t => hagan_x rho t - t * / sqrt (disc rho t)) (fun t => t * (t - rho) / (disc rho t * sqrt (disc rho t))) 0 z Z) as (c & E & C).
    + intros c _. apply is_derive_Reals. pose proof (DP c) as P.
      assert (DV : is_derive (fun t => t * / sqrt (disc rho t)) c (/ sqrt (disc rho c) - c * (c - rho) / (disc rho c * sqrt (disc rho c)))).
      { unfold disc in *. pose proof (sqrt_lt_R0 _ P) as SP. pose proof (sqrt_sqrt (1 - 2 * rho * c + c ^ 2) (Rlt_le _ _ P)) as SS. auto_derive; replace (1 + - (2 * rho * c) + c * (c * 1)) with (1 - 2 * rho * c + c ^ 2) by ring; [repeat split; lra|].
        set (s := sqrt (1 - 2 * rho * c + c ^ 2)) in *. rewrite <- SS. field. lra. }
      evar_last; [apply (is_derive_minus (K := R_AbsRing) (V := R_NormedModule)); [apply x_derive; exact H'|exact DV]|]. unfold minus, plus, opp. cbn. ring.
    + rewrite (hagan_x_0 rho H') in E. assert (0 < c * (c - rho) / (disc rho c * sqrt (disc rho c)) * (z - 0)); [|lra].
      apply Rmult_lt_0_compat; [|lra]. apply Rdiv_lt_0_compat; [nra|]. apply Rmult_lt_0_compat; [apply DP|apply sqrt_lt_R0; apply DP].
  - destruct (MVT_cor2 (hagan_x rho) (fun t => / sqrt (disc rho t)) 0 z Z) as (c & E & C); [intros c _; apply is_derive_Reals; apply x_derive; exact H'|].
    rewrite (hagan_x_0 rho H') in E. assert (B : 1 < disc rho c) by (unfold disc; nra). assert (SB : 1 < sqrt (disc rho c)) by (rewrite <- sqrt_1; apply sqrt_lt_1; lra).
    assert (/ sqrt (disc rho c) < 1) by (rewrite <- Rinv_1; apply Rinv_lt_contravar; lra). nra.
Qed.
Local Lemma ratio_increasing rho a b : -1 < rho <= 0 -> 0 < a -> a < b -> a / hagan_x rho a < b / hagan_x rho b.
Proof.
  intros H A B. assert (H' : -1 < rho < 1) by lra. assert (HP : forall z, 0 < z -> 0 < hagan_x rho z) by (intros z Z; apply (proj1 (hagan_x_sign rho z H')); exact Z).
  destruct (MVT_cor2 (fun t => t / hagan_x rho t) (fun t => (hagan_x rho t - t * / sqrt (disc rho t)) / (hagan_x rho t) ^ 2) a b B) as (c & E & C).
  - intros c Cc. apply is_derive_Reals. assert (CP : 0 < c) by lra. pose proof (HP c CP). evar_last; [apply is_derive_div; [apply is_derive_id|apply x_derive; exact H'|lra]|]. unfold one. cbn. field. split; [apply Rgt_not_eq, sqrt_lt_R0, disc_pos; exact H'|lra].
  - assert (CP : 0 < c) by lra. pose proof (HP c CP) as X. destruct (excess_pos rho c H CP) as [X2 _].
    assert (0 < (hagan_x rho c - c * / sqrt (disc rho c)) / hagan_x rho c ^ 2 * (b - a)); [|lra]. apply Rmult_lt_0_compat; [|lra]. apply Rdiv_lt_0_compat; [exact X2|]. nra.
Qed.
Local Lemma ratio_wing rho z1 z2 : -1 < rho < 1 -> (rho <= 0 /\ 0 < z1 < z2) \/ (0 <= rho /\ z2 < z1 < 0) -> 1 < z1 / hagan_x rho z1 /\ z1 / hagan_x rho z1 < z2 / hagan_x rho z2.
Proof.
  intros H W. assert (Pos : forall r a b, -1 < r <= 0 -> 0 < a < b -> 1 < a / hagan_x r a /\ a / hagan_x r a < b / hagan_x r b).
  { intros r a b R0 AB. assert (H' : -1 < r < 1) by lra. split; [|apply ratio_increasing; lra]. destruct (excess_pos r a R0 (proj1 AB)) as [_ X]. pose proof (proj1 (hagan_x_sign r a H') (proj1 AB)) as Y.
    apply (Rmult_lt_reg_r (hagan_x r a)); [exact Y|]. unfold Rdiv. rewrite Rmult_assoc, Rinv_l by lra. lra. }
  destruct W as [[R0 AB]|[R0 AB]]; [apply Pos; lra|]. destruct (Pos (- rho) (- z1) (- z2)) as [A B]; [lra|lra|]. rewrite (hagan_x_mirror rho z1 H) in A, B. rewrite (hagan_x_mirror rho z2 H) in B.
  assert (N1 : hagan_x rho z1 <> 0) by (apply hagan_x_nonzero; [exact H|lra]). assert (N2 : hagan_x rho z2 <> 0) by (apply hagan_x_nonzero; [exact H|lra]).
  replace (- z1 / - hagan_x rho z1) with (z1 / hagan_x rho z1) in A, B by (field; auto). replace (- z2 / - hagan_x rho z2) with (z2 / hagan_x rho z2) in B by (field; auto). split; [exact A|exact B].
Qed.
Local Lemma lognormal_elem tau f alpha rho v k : 0 < f -> 0 < k -> 0 < alpha -> 0 < v -> -1 < rho < 1 ->
  sabr_elem tau f alpha 1 rho v k = Fin (alpha * (1 + tau * (rho * v * alpha / 4 + (2 - 3 * rho ^ 2) / 24 * v ^ 2)) *
    (if Rlt_dec (Rabs (ln f - ln k)) sabr_atm_tol then 1 else let z := v / alpha * (ln f - ln k) in z / hagan_x rho z)).
Proof.
  intros P Q A V H. assert (FK : 0 < f * k) by nra. destruct Rlt_dec as [L|L].
  - rewrite elem_atm by assumption. f_equal. unfold hagan_time. replace ((1 - 1) / 2) with 0 by field. replace (1 - 1) with 0 by ring. rewrite Rpower_O by exact FK. field.
  - rewrite elem_off by (auto; lra). f_equal. unfold hagan_vol. replace (hagan_z f alpha 1 v k) with (v / alpha * (ln f - ln k)).
    + unfold hagan_time. replace ((1 - 1) / 2) with 0 by field. replace (1 - 1) with 0 by ring. rewrite Rpower_O by exact FK. cbv zeta. set (q := _ / hagan_x _ _). field.
    + unfold hagan_z. replace ((1 - 1) / 2) with 0 by field. rewrite Rpower_O by exact FK. ring.
Qed.
(* Negative correlation lifts the strikes below the forward, positive correlation those above: on that side the volatility never falls with the
   distance from the forward, and rises outside the band taken for at the money. *)
Theorem C156_wings (tau F alpha rho v K1 K2 shift y1 y2 : R) : 0 < F + shift -> 0 < alpha -> 0 < v -> -1 < rho < 1 ->
  0 < 1 + tau * (rho * v * alpha / 4 + (2 - 3 * rho ^ 2) / 24 * v ^ 2) ->
  (rho <= 0 /\ 0 < K2 + shift /\ K2 < K1 <= F) \/ (0 <= rho /\ F <= K1 < K2) ->
  sabr_vol_is tau F alpha 1 rho v K1 shift y1 -> sabr_vol_is tau F alpha 1 rho v K2 shift y2 ->
  y1 <= y2 /\ (/ 1000000 <= Rabs (ln (F + shift) - ln (K2 + shift)) -> y1 < y2).
Proof.
  intros P A V H T W Y1 Y2. assert (P1 : 0 < K1 + shift) by (destruct W; lra). assert (P2 : 0 < K2 + shift) by (destruct W; lra).
  apply vol_is in Y1. apply vol_is in Y2. rewrite lognormal_elem in Y1, Y2 by assumption. injection Y1 as <-. injection Y2 as <-.
  set (m := alpha * _). assert (M : 0 < m) by (apply Rmult_lt_0_compat; assumption). clearbody m.
  set (l1 := ln (F + shift) - ln (K1 + shift)). set (l2 := ln (F + shift) - ln (K2 + shift)).
  assert (LL : (rho <= 0 /\ 0 <= l1 < l2) \/ (0 <= rho /\ l2 < l1 <= 0)).
  { unfold l1, l2. destruct W as [(R0 & _ & B & C)|(R0 & B & C)]; [left|right]; (split; [exact R0|]).
    - assert (ln (K2 + shift) < ln (K1 + shift)) by (apply ln_increasing; lra). assert (ln (K1 + shift) <= ln (F + shift)) by (apply ln_le; lra). lra.
    - assert (ln (K1 + shift) < ln (K2 + shift)) by (apply ln_increasing; lra). assert (ln (F + shift) <= ln (K1 + shift)) by (apply ln_le; lra). lra. }
  clearbody l1 l2. assert (AB : Rabs l1 <= Rabs l2) by (destruct LL as [[_ ?]|[_ ?]]; [rewrite !Rabs_pos_eq by lra|rewrite !Rabs_left1 by lra]; lra).
  assert (VA : 0 < v / alpha) by (apply Rdiv_lt_0_compat; assumption). pose proof tol_pos as TP.
  destruct (Rlt_dec (Rabs l2) sabr_atm_tol) as [L2|L2].
  - destruct (Rlt_dec (Rabs l1) sabr_atm_tol) as [L1|L1]; [|lra]. split; [lra|]. unfold sabr_atm_tol in L2. lra.
  - cbv zeta. set (z2 := v / alpha * l2).
    assert (Z2 : (rho <= 0 /\ 0 < z2 / 2 < z2) \/ (0 <= rho /\ z2 < z2 / 2 < 0)).
    { destruct LL as [[R0 B]|[R0 B]]; [left|right]; (split; [exact R0|]); unfold z2; [assert (0 < v / alpha * l2) by (apply Rmult_lt_0_compat; lra)|assert (v / alpha * l2 < 0) by (apply Ropp_lt_cancel; rewrite Ropp_0, Ropp_mult_distr_r; apply Rmult_lt_0_compat; lra)]; lra. }
    destruct (Rlt_dec (Rabs l1) sabr_atm_tol) as [L1|L1].
    + destruct (ratio_wing rho (z2 / 2) z2 H Z2) as [B1 B2]. assert (m * 1 < m * (z2 / hagan_x rho z2)) by (apply Rmult_lt_compat_l; lra). lra.
    + set (z1 := v / alpha * l1). assert (Z1 : (rho <= 0 /\ 0 < z1 < z2) \/ (0 <= rho /\ z2 < z1 < 0)).
      { assert (l1 <> 0) by (intros ->; rewrite Rabs_R0 in L1; lra). destruct LL as [[R0 B]|[R0 B]]; [left|right]; (split; [exact R0|]); unfold z1, z2.
        - split; [apply Rmult_lt_0_compat; lra|apply Rmult_lt_compat_l; lra].
        - split; [apply Rmult_lt_compat_l; lra|]. apply Ropp_lt_cancel. rewrite Ropp_0, Ropp_mult_distr_r. apply Rmult_lt_0_compat; lra. }
      destruct (ratio_wing rho z1 z2 H Z1) as [_ B2]. assert (m * (z1 / hagan_x rho z1) < m * (z2 / hagan_x rho z2)) by (apply Rmult_lt_compat_l; assumption). lra.
Qed.
(* Without correlation the lognormal smile is symmetric in the logarithm of the strike. *)
Theorem C156_symmetric (tau F alpha v K1 K2 shift : R) : 0 < F + shift -> 0 < K1 + shift -> 0 < alpha -> 0 < v -> (K1 + shift) * (K2 + shift) = (F + shift) ^ 2 ->
  calc_sln_vol (smile1 tau F alpha 1 0 v) [K1] [shift] = calc_sln_vol (smile1 tau F alpha 1 0 v) [K2] [shift].
Proof.
  intros P Q A V E. assert (Q2 : 0 < K2 + shift) by (apply (Rmult_lt_reg_l (K1 + shift)); [exact Q|rewrite E; nra]).
  rewrite !calc1. rewrite !lognormal_elem by (auto; lra). assert (L : ln (F + shift) - ln (K2 + shift) = - (ln (F + shift) - ln (K1 + shift))).
  { assert (G : ln (K1 + shift) + ln (K2 + shift) = 2 * ln (F + shift)); [|lra]. rewrite <- ln_mult by assumption. rewrite E. replace ((F + shift) ^ 2) with ((F + shift) * (F + shift)) by ring. rewrite ln_mult by assumption. ring. }
  rewrite L, Rabs_Ropp. do 3 f_equal. destruct Rlt_dec as [|N]; [reflexivity|]. set (l := ln (F + shift) - ln (K1 + shift)) in *. f_equal. cbv zeta.
  assert (N0 : l <> 0) by (intros Z; rewrite Z, Rabs_R0 in N; pose proof tol_pos; lra). assert (Z0 : v / alpha * l <> 0) by (apply Rmult_integral_contrapositive_currified; [apply Rgt_not_eq, Rdiv_lt_0_compat; assumption|exact N0]).
  assert (H0 : -1 < 0 < 1) by lra. pose proof (hagan_x_nonzero 0 _ H0 Z0) as X. replace (v / alpha * - l) with (- (v / alpha * l)) by ring. replace (hagan_x 0 (- (v / alpha * l))) with (- hagan_x 0 (v / alpha * l)) by (rewrite <- (hagan_x_mirror 0 _ H0); f_equal; ring). field. split; [lra|exact X].
Qed.

Definition all_theorems := (C156_vanishing_volvol, C156_no_volvol_near_the_money, C156_flat, C156_wings, C156_symmetric).
Print Assumptions all_theorems.

(* ---- concrete cases ---- *)

(* ---- a concrete case ---- *)
Example C156_ex_wings : exists y1 y2, sabr_vol_is 1 1 1 1 (- (1 / 2)) 1 1 0 y1 /\ sabr_vol_is 1 1 1 1 (- (1 / 2)) 1 (exp (-1)) 0 y2 /\ y1 < y2.
Proof.
  assert (E : 0 < exp (-1) + 0) by (pose proof (exp_pos (-1)); lra). assert (E1 : exp (-1) < 1) by (rewrite <- exp_0; apply exp_increasing; lra).
  pose proof (proj2 (vol_is 1 1 1 1 (- (1 / 2)) 1 1 0 _) (lognormal_elem 1 (1 + 0) 1 (- (1 / 2)) 1 (1 + 0) ltac:(lra) ltac:(lra) ltac:(lra) ltac:(lra) ltac:(lra))) as Y1.
  pose proof (proj2 (vol_is 1 1 1 1 (- (1 / 2)) 1 (exp (-1)) 0 _) (lognormal_elem 1 (1 + 0) 1 (- (1 / 2)) 1 (exp (-1) + 0) ltac:(lra) E ltac:(lra) ltac:(lra) ltac:(lra))) as Y2.
  eexists. eexists. split; [exact Y1|]. split; [exact Y2|].
  apply (C156_wings 1 1 1 (- (1 / 2)) 1 1 (exp (-1)) 0 _ _ ltac:(lra) ltac:(lra) ltac:(lra) ltac:(lra) ltac:(lra) ltac:(lra) Y1 Y2).
  rewrite !Rplus_0_r, ln_1, ln_exp. rewrite Rabs_pos_eq by lra. lra.
Qed.
