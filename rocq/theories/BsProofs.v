(* Real analysis of the Black and Bachelier formulas in the total volatility v = vol * sqrt tau. *)
From Coq Require Import Reals Lra Lia.
From Coquelicot Require Import Coquelicot.
From Verif Require Import Base NormalModel NormalProofs.
Open Scope R_scope.

Definition bd1 (F K v : R) : R := (ln (F / K) + v * v / 2) / v.
Definition bd2 (F K v : R) : R := bd1 F K v - v.
Definition blk (w F K v : R) : R := w * (F * cdf (w * bd1 F K v) - K * cdf (w * bd2 F K v)).
Definition nrm (w F K v : R) : R := w * (F - K) * cdf (w * ((F - K) / v)) + v * pdf ((F - K) / v).

Lemma ln_quot (F K : R) : 0 < F -> 0 < K -> ln (F / K) = ln F - ln K.
Proof. intros. unfold Rdiv. rewrite ln_mult, ln_Rinv; auto. apply Rinv_0_lt_compat; auto. Qed.

Lemma bd2_alt (F K v : R) : 0 < v -> bd2 F K v = (ln (F / K) - v * v / 2) / v.
Proof. intros. unfold bd2, bd1. field. lra. Qed.

Lemma bd1_swap (F K v : R) : 0 < F -> 0 < K -> 0 < v -> bd1 K F v = - bd2 F K v.
Proof. intros. rewrite bd2_alt by auto. unfold bd1. rewrite !ln_quot by auto. field. lra. Qed.

Lemma bd2_swap (F K v : R) : 0 < F -> 0 < K -> 0 < v -> bd2 K F v = - bd1 F K v.
Proof. intros. rewrite bd2_alt by auto. unfold bd1. rewrite !ln_quot by auto. field. lra. Qed.

Lemma blk_swap (F K v : R) : 0 < F -> 0 < K -> 0 < v -> blk (-1) F K v = blk 1 K F v.
Proof.
  intros. unfold blk. rewrite (bd1_swap F K v), (bd2_swap F K v) by auto.
  replace (-1 * bd1 F K v) with (1 * - bd1 F K v) by ring. replace (-1 * bd2 F K v) with (1 * - bd2 F K v) by ring. ring.
Qed.

Lemma blk_parity (F K v : R) : blk 1 F K v - blk (-1) F K v = F - K.
Proof.
  unfold blk. rewrite !Rmult_1_l. replace (-1 * bd1 F K v) with (- bd1 F K v) by ring. replace (-1 * bd2 F K v) with (- bd2 F K v) by ring.
  rewrite !cdf_sym. ring.
Qed.

Lemma pdf_ratio (F K x v : R) : 0 < F -> 0 < K -> F * pdf (x + v) = K * pdf x * exp (ln (F / K) - x * v - v * v / 2).
Proof.
  intros HF HK. unfold pdf. rewrite ln_quot by auto.
  replace (ln F - ln K - x * v - v * v / 2) with (ln F + (- ln K + (- (x * v) - v * v / 2))) by ring.
  rewrite exp_plus, exp_ln by auto. rewrite exp_plus, exp_Ropp, exp_ln by auto.
  replace (- ((x + v) * (x + v)) / 2) with (- (x * x) / 2 + (- (x * v) - v * v / 2)) by field. rewrite exp_plus.
  pose proof s2p_pos as S; unfold s2p in S. field. repeat split; lra.
Qed.

Lemma fpdf_kpdf (F K v : R) : 0 < F -> 0 < K -> 0 < v -> F * pdf (bd1 F K v) = K * pdf (bd2 F K v).
Proof.
  intros HF HK Hv. replace (bd1 F K v) with (bd2 F K v + v) by (unfold bd2; ring). rewrite (pdf_ratio F K) by auto.
  rewrite bd2_alt by auto. replace (ln (F / K) - (ln (F / K) - v * v / 2) / v * v - v * v / 2) with 0 by (field; lra). rewrite exp_0. ring.
Qed.

(* ---- derivatives ---- *)
Lemma dlim_val (f : R -> R) (x l l' : R) : l = l' -> derivable_pt_lim f x l -> derivable_pt_lim f x l'.
Proof. intros ->. auto. Qed.

Lemma cdf_comp (f : R -> R) (x l : R) : derivable_pt_lim f x l -> derivable_pt_lim (fun y => cdf (f y)) x (pdf (f x) * l).
Proof. intros D. exact (derivable_pt_lim_comp f cdf x l (pdf (f x)) D (cdf_dlim (f x))). Qed.

(* the price along a path of forwards, strikes and volatilities: the terms in the derivative of d1 and d2 cancel up to the vega term *)
Lemma blk_path (w : R) (F K v : R -> R) (x F' K' v' : R) : w = 1 \/ w = -1 ->
  0 < F x -> 0 < K x -> 0 < v x ->
  derivable_pt_lim F x F' -> derivable_pt_lim K x K' -> derivable_pt_lim v x v' ->
  derivable_pt_lim (fun y => blk w (F y) (K y) (v y)) x
    (w * (F' * cdf (w * bd1 (F x) (K x) (v x)) - K' * cdf (w * bd2 (F x) (K x) (v x))) + F x * pdf (bd1 (F x) (K x) (v x)) * v').
Proof.
  intros W HF HK Hv DF DK Dv.
  set (d := ((F' / F x - K' / K x) + v x * v') / v x - bd1 (F x) (K x) (v x) * v' / v x).
  assert (D1 : derivable_pt_lim (fun y => bd1 (F y) (K y) (v y)) x d).
  { unfold bd1. apply is_derive_Reals. apply is_derive_Reals in DF. apply is_derive_Reals in DK. apply is_derive_Reals in Dv.
    assert (EF : ex_derive F x) by (exists F'; auto). assert (EK : ex_derive K x) by (exists K'; auto). assert (Ev : ex_derive v x) by (exists v'; auto).
    auto_derive.
    - repeat split; auto; try lra. unfold Rdiv; apply Rmult_lt_0_compat; auto. apply Rinv_0_lt_compat; auto.
    - replace (Derive (fun y => F y) x) with F' by (symmetry; apply is_derive_unique; auto).
      replace (Derive (fun y => K y) x) with K' by (symmetry; apply is_derive_unique; auto).
      replace (Derive (fun y => v y) x) with v' by (symmetry; apply is_derive_unique; auto).
      unfold d, bd1. change (F x * / K x) with (F x / K x). set (l := ln (F x / K x)). field. repeat split; lra. }
  assert (D2 : derivable_pt_lim (fun y => bd2 (F y) (K y) (v y)) x (d - v')).
  { unfold bd2. exact (derivable_pt_lim_minus _ _ x _ _ D1 Dv). }
  pose proof (cdf_comp _ x _ (derivable_pt_lim_scal _ w x _ D1)) as C1.
  pose proof (cdf_comp _ x _ (derivable_pt_lim_scal _ w x _ D2)) as C2.
  pose proof (derivable_pt_lim_scal _ w x _
               (derivable_pt_lim_minus _ _ x _ _ (derivable_pt_lim_mult _ _ x _ _ DF C1) (derivable_pt_lim_mult _ _ x _ _ DK C2))) as T.
  refine (dlim_val _ x _ _ _ T). unfold mult_real_fct.
  pose proof (fpdf_kpdf _ _ _ HF HK Hv) as I.
  destruct W as [-> | ->].
  - rewrite !Rmult_1_l. set (a := bd1 (F x) (K x) (v x)) in *. set (b := bd2 (F x) (K x) (v x)) in *.
    replace (F x * pdf a * v') with (F x * pdf a * d - F x * pdf a * (d - v')) by ring. rewrite I at 2. ring.
  - replace (-1 * bd1 (F x) (K x) (v x)) with (- bd1 (F x) (K x) (v x)) by ring. replace (-1 * bd2 (F x) (K x) (v x)) with (- bd2 (F x) (K x) (v x)) by ring.
    rewrite !pdf_even. set (a := bd1 (F x) (K x) (v x)) in *. set (b := bd2 (F x) (K x) (v x)) in *.
    replace (F x * pdf a * v') with (F x * pdf a * d - F x * pdf a * (d - v')) by ring. rewrite I at 2. ring.
Qed.

Lemma blk_dv (w F K v : R) : w = 1 \/ w = -1 -> 0 < F -> 0 < K -> 0 < v -> derivable_pt_lim (fun y => blk w F K y) v (F * pdf (bd1 F K v)).
Proof.
  intros W HF HK Hv.
  refine (dlim_val _ v _ _ _ (blk_path w (fun _ => F) (fun _ => K) (fun y => y) v 0 0 1 W HF HK Hv (derivable_pt_lim_const F v) (derivable_pt_lim_const K v) (derivable_pt_lim_id v))).
  ring.
Qed.

Lemma blk_dF (w F K v : R) : w = 1 \/ w = -1 -> 0 < F -> 0 < K -> 0 < v -> derivable_pt_lim (fun y => blk w y K v) F (w * cdf (w * bd1 F K v)).
Proof.
  intros W HF HK Hv.
  refine (dlim_val _ F _ _ _ (blk_path w (fun y => y) (fun _ => K) (fun _ => v) F 1 0 0 W HF HK Hv (derivable_pt_lim_id F) (derivable_pt_lim_const K F) (derivable_pt_lim_const v F))).
  ring.
Qed.

(* ---- bounds ---- *)
Lemma blk_call_pos (F K v : R) : 0 < F -> 0 < K -> 0 < v -> 0 < blk 1 F K v.
Proof.
  intros HF HK Hv. unfold blk. rewrite !Rmult_1_l.
  set (G := fun x => F * cdf (x + v) - K * cdf x).
  assert (D : forall x, derivable_pt_lim G x (F * pdf (x + v) - K * pdf x)).
  { intros x. unfold G.
    assert (S : derivable_pt_lim (fun y => y + v) x 1).
    { refine (dlim_val _ x _ _ _ (derivable_pt_lim_plus _ _ x _ _ (derivable_pt_lim_id x) (derivable_pt_lim_const v x))). ring. }
    refine (dlim_val _ x _ _ _ (derivable_pt_lim_minus _ _ x _ _ (derivable_pt_lim_scal _ F x _ (cdf_comp _ x _ S)) (derivable_pt_lim_scal _ K x _ (cdf_dlim x)))).
    ring. }
  assert (P : forall x, x < bd2 F K v -> 0 < F * pdf (x + v) - K * pdf x).
  { intros x Hx. rewrite (pdf_ratio F K) by auto. rewrite bd2_alt in Hx by auto.
    assert (Y : 0 < ln (F / K) - x * v - v * v / 2).
    { assert (x * v < (ln (F / K) - v * v / 2) / v * v) by (apply Rmult_lt_compat_r; auto).
      replace ((ln (F / K) - v * v / 2) / v * v) with (ln (F / K) - v * v / 2) in H by (field; lra). lra. }
    pose proof (exp_ineq1 (ln (F / K) - x * v - v * v / 2) ltac:(lra)). pose proof (pdf_pos x).
    assert (0 < K * pdf x) by (apply Rmult_lt_0_compat; auto). nra. }
  assert (M : forall x y, x < y -> y <= bd2 F K v -> G x < G y).
  { intros x y L B. destruct (MVT_cor2 G (fun x => F * pdf (x + v) - K * pdf x) x y L) as (c & E & C). { intros; apply D. }
    assert (0 < (F * pdf (c + v) - K * pdf c) * (y - x)) by (apply Rmult_lt_0_compat; [apply P; lra | lra]). lra. }
  change (0 < G (bd2 F K v)) || idtac.
  replace (F * cdf (bd1 F K v) - K * cdf (bd2 F K v)) with (G (bd2 F K v)) by (unfold G; f_equal; f_equal; f_equal; unfold bd2; ring).
  destruct (Rlt_or_le 0 (G (bd2 F K v))) as [L | L]; auto. exfalso.
  set (e := - G (bd2 F K v - 1)). assert (E : 0 < e) by (unfold e; pose proof (M (bd2 F K v - 1) (bd2 F K v) ltac:(lra) ltac:(lra)); lra).
  destruct (cdf_near_0 (e / K) ltac:(apply Rdiv_lt_0_compat; auto)) as (N & HN & B).
  set (x := Rmin (- N - 1) (bd2 F K v - 2)).
  assert (X1 : x < - N) by (unfold x; pose proof (Rmin_l (- N - 1) (bd2 F K v - 2)); lra).
  assert (X2 : x < bd2 F K v - 1) by (unfold x; pose proof (Rmin_r (- N - 1) (bd2 F K v - 2)); lra).
  pose proof (M x (bd2 F K v - 1) X2 ltac:(lra)) as Lt. specialize (B x X1).
  assert (K * cdf x < e). { apply Rmult_lt_compat_l with (r := K) in B; auto. replace (K * (e / K)) with e in B by (field; lra). exact B. }
  pose proof (cdf_gt_0 (x + v)). assert (0 < F * cdf (x + v)) by (apply Rmult_lt_0_compat; auto). unfold G in Lt at 1. unfold e in *. lra.
Qed.

Lemma blk_pos (w F K v : R) : w = 1 \/ w = -1 -> 0 < F -> 0 < K -> 0 < v -> 0 < blk w F K v.
Proof. intros [-> | ->] HF HK Hv; [ | rewrite blk_swap by auto]; apply blk_call_pos; auto. Qed.

Lemma blk_lower (w F K v : R) : w = 1 \/ w = -1 -> 0 < F -> 0 < K -> 0 < v -> Rmax 0 (w * (F - K)) < blk w F K v.
Proof.
  intros W HF HK Hv. pose proof (blk_pos 1 F K v (or_introl eq_refl) HF HK Hv). pose proof (blk_pos (-1) F K v (or_intror eq_refl) HF HK Hv).
  pose proof (blk_parity F K v). apply Rmax_lub_lt; destruct W as [-> | ->]; lra.
Qed.

Lemma blk_call_upper (F K v : R) : 0 < F -> 0 < K -> blk 1 F K v < F.
Proof.
  intros HF HK. unfold blk. rewrite !Rmult_1_l.
  assert (F * cdf (bd1 F K v) < F * 1) by (apply Rmult_lt_compat_l; auto; apply cdf_lt_1).
  assert (0 < K * cdf (bd2 F K v)) by (apply Rmult_lt_0_compat; auto; apply cdf_gt_0). lra.
Qed.

Lemma blk_upper (w F K v : R) : w = 1 \/ w = -1 -> 0 < F -> 0 < K -> 0 < v -> blk w F K v < (if Rlt_dec 0 w then F else K).
Proof.
  intros [-> | ->] HF HK Hv; (destruct (Rlt_dec _ _); [try lra | try lra]).
  - apply blk_call_upper; auto.
  - rewrite blk_swap by auto. apply blk_call_upper; auto.
Qed.

Lemma blk_mono (w F K v v' : R) : w = 1 \/ w = -1 -> 0 < F -> 0 < K -> 0 < v -> v < v' -> blk w F K v < blk w F K v'.
Proof.
  intros W HF HK Hv L.
  destruct (MVT_cor2 (fun y => blk w F K y) (fun y => F * pdf (bd1 F K y)) v v' L) as (c & E & C).
  { intros c C. apply blk_dv; auto; lra. }
  assert (0 < F * pdf (bd1 F K c) * (v' - v)).
  { apply Rmult_lt_0_compat; [ | lra]. apply Rmult_lt_0_compat; auto. apply pdf_pos. }
  lra.
Qed.

(* ---- every price inside the bounds is reached ---- *)
Lemma blk_cont (w F K v : R) : w = 1 \/ w = -1 -> 0 < F -> 0 < K -> 0 < v -> continuity_pt (fun y => blk w F K y) v.
Proof. intros. apply derivable_continuous_pt. eexists. apply blk_dv; auto. Qed.

(* out of the money or at the money calls are worth nearly nothing at small volatilities *)
Lemma blk_call_small (F K e : R) : 0 < F -> F <= K -> 0 < e -> exists d, 0 < d /\ forall v, 0 < v -> v < d -> blk 1 F K v < e.
Proof.
  intros HF [L | <-] He.
  - destruct (cdf_near_0 (e / F) ltac:(apply Rdiv_lt_0_compat; auto)) as (M & HM & B).
    assert (N : ln (F / K) < 0). { rewrite <- ln_1. apply ln_increasing. apply Rdiv_lt_0_compat; lra. apply (Rmult_lt_reg_r K); try lra. unfold Rdiv. rewrite Rmult_assoc, Rinv_l; lra. }
    exists (Rmin 1 (- ln (F / K) / (M + 1))). split. { apply Rmin_glb_lt; [lra | apply Rdiv_lt_0_compat; lra]. }
    intros v Hv Hd. unfold blk. rewrite !Rmult_1_l.
    assert (V1 : v < 1) by (pose proof (Rmin_l 1 (- ln (F / K) / (M + 1))); lra).
    assert (V2 : v < - ln (F / K) / (M + 1)) by (pose proof (Rmin_r 1 (- ln (F / K) / (M + 1))); lra).
    assert (V3 : v * (M + 1) < - ln (F / K)).
    { apply Rmult_lt_compat_r with (r := M + 1) in V2; [ | lra]. replace (- ln (F / K) / (M + 1) * (M + 1)) with (- ln (F / K)) in V2 by (field; lra). exact V2. }
    assert (D : bd1 F K v < - M).
    { unfold bd1. apply (Rmult_lt_reg_r v); auto. replace ((ln (F / K) + v * v / 2) / v * v) with (ln (F / K) + v * v / 2) by (field; lra). nra. }
    specialize (B _ D). apply Rmult_lt_compat_l with (r := F) in B; auto. replace (F * (e / F)) with e in B by (field; lra).
    assert (0 < K * cdf (bd2 F K v)) by (apply Rmult_lt_0_compat; [lra | apply cdf_gt_0]). lra.
  - assert (C : continuity_pt cdf 0) by apply cdf_continuity.
    destruct (C (e / (2 * F))) as (d & D & B). { apply Rdiv_lt_0_compat; lra. }
    exists d. split; auto. intros v Hv Hd. unfold blk. rewrite !Rmult_1_l. unfold bd2, bd1.
    replace (F / F) with 1 by (field; lra). rewrite ln_1.
    replace ((0 + v * v / 2) / v) with (v / 2) by (field; lra). replace (v / 2 - v) with (- (v / 2)) by field. rewrite cdf_sym.
    assert (Q : Rabs (cdf (v / 2) - cdf 0) < e / (2 * F)).
    { apply B. split. { split; [exact I | lra]. } simpl. unfold R_dist. rewrite Rabs_right; lra. }
    rewrite cdf_0 in Q. apply Rabs_def2 in Q. destruct Q as [Q _].
    apply Rmult_lt_compat_l with (r := 2 * F) in Q; [ | lra]. replace (2 * F * (e / (2 * F))) with e in Q by (field; lra). lra.
Qed.

Lemma blk_small (w F K e : R) : w = 1 \/ w = -1 -> 0 < F -> 0 < K -> 0 < e ->
  exists d, 0 < d /\ forall v, 0 < v -> v < d -> blk w F K v < Rmax 0 (w * (F - K)) + e.
Proof.
  intros W HF HK He. destruct (Rle_or_lt F K) as [L | L].
  - destruct (blk_call_small F K e HF L He) as (d & D & B). exists d. split; auto. intros v Hv Hd. specialize (B v Hv Hd).
    pose proof (blk_parity F K v). pose proof (Rmax_l 0 (w * (F - K))). pose proof (Rmax_r 0 (w * (F - K))). destruct W as [-> | ->]; lra.
  - destruct (blk_call_small K F e HK ltac:(lra) He) as (d & D & B). exists d. split; auto. intros v Hv Hd. specialize (B v Hv Hd).
    rewrite <- blk_swap in B by auto.
    pose proof (blk_parity F K v). pose proof (Rmax_l 0 (w * (F - K))). pose proof (Rmax_r 0 (w * (F - K))). destruct W as [-> | ->]; lra.
Qed.

Lemma blk_call_large (F K e : R) : 0 < F -> 0 < K -> 0 < e -> exists M, 0 < M /\ forall v, M < v -> F - e < blk 1 F K v.
Proof.
  intros HF HK He.
  destruct (cdf_near_1 (e / (2 * F)) ltac:(apply Rdiv_lt_0_compat; lra)) as (A & HA & BA).
  destruct (cdf_near_0 (e / (2 * K)) ltac:(apply Rdiv_lt_0_compat; lra)) as (B & HB & BB).
  set (l := Rabs (ln (F / K))). assert (0 <= l) by apply Rabs_pos.
  exists (2 * (A + B + l + 1)). split; [lra | ]. intros v Hv. unfold blk. rewrite !Rmult_1_l.
  assert (I1 : - l <= ln (F / K)) by (unfold l; pose proof (Rle_abs (- ln (F / K))); rewrite Rabs_Ropp in *; lra).
  assert (I2 : ln (F / K) <= l) by (unfold l; apply Rle_abs).
  assert (Q : - l <= ln (F / K) / v <= l).
  { assert (- l * v <= - l) by nra. assert (l <= l * v) by nra.
    split; apply (Rmult_le_reg_r v); try lra; replace (ln (F / K) / v * v) with (ln (F / K)) by (field; lra); lra. }
  assert (D1 : A < bd1 F K v) by (unfold bd1; replace ((ln (F / K) + v * v / 2) / v) with (ln (F / K) / v + v / 2) by (field; lra); lra).
  assert (D2 : bd2 F K v < - B) by (rewrite bd2_alt by lra; replace ((ln (F / K) - v * v / 2) / v) with (ln (F / K) / v - v / 2) by (field; lra); lra).
  specialize (BA _ D1). specialize (BB _ D2).
  apply Rmult_lt_compat_l with (r := F) in BA; auto. apply Rmult_lt_compat_l with (r := K) in BB; auto.
  replace (F * (1 - e / (2 * F))) with (F - e / 2) in BA by (field; lra). replace (K * (e / (2 * K))) with (e / 2) in BB by (field; lra). lra.
Qed.

Lemma blk_large (w F K e : R) : w = 1 \/ w = -1 -> 0 < F -> 0 < K -> 0 < e ->
  exists M, 0 < M /\ forall v, M < v -> (if Rlt_dec 0 w then F else K) - e < blk w F K v.
Proof.
  intros [-> | ->] HF HK He; (destruct (Rlt_dec _ _); [try lra | try lra]).
  - apply blk_call_large; auto.
  - destruct (blk_call_large K F e HK HF He) as (M & HM & B). exists M. split; auto. intros v Hv. rewrite blk_swap by (auto; lra). auto.
Qed.

Lemma ivt_pos (f : R -> R) (a b y : R) : 0 < a -> a < b -> (forall x, 0 < x -> continuity_pt f x) -> f a < y -> y < f b -> exists x, a < x < b /\ f x = y.
Proof.
  intros Ha L C A B.
  destruct (IVT_Rbar_incr f (Finite a) (Finite b) (Finite (f a)) (Finite (f b)) y) as (x & X1 & X2 & E).
  - apply is_lim_continuity. apply C. lra.
  - apply is_lim_continuity. apply C. lra.
  - intros x X _. apply C. simpl in X. lra.
  - exact L.
  - split; [exact A | exact B].
  - exists x. simpl in X1, X2. split; auto.
Qed.

Lemma blk_onto (w F K p : R) : w = 1 \/ w = -1 -> 0 < F -> 0 < K ->
  Rmax 0 (w * (F - K)) < p -> p < (if Rlt_dec 0 w then F else K) -> exists v, 0 < v /\ blk w F K v = p.
Proof.
  intros W HF HK L U.
  destruct (blk_small w F K (p - Rmax 0 (w * (F - K))) W HF HK ltac:(lra)) as (d & Hd & D).
  destruct (blk_large w F K ((if Rlt_dec 0 w then F else K) - p) W HF HK ltac:(lra)) as (M & HM & B).
  specialize (D (d / 2) ltac:(lra) ltac:(lra)). specialize (B (M + d) ltac:(lra)).
  destruct (ivt_pos (fun y => blk w F K y) (d / 2) (M + d) p) as (x & X & E); try lra.
  - intros x X. apply blk_cont; auto.
  - exists x. split; [lra | exact E].
Qed.

(* ---- Bachelier ---- *)
Lemma pdf_derive (x : R) : derivable_pt_lim pdf x (- x * pdf x).
Proof.
  apply is_derive_Reals. unfold pdf. pose proof s2p_pos as S. unfold s2p in S. auto_derive. { trivial. }
  change (- (x * x) * / 2) with (- (x * x) / 2). set (e := exp (- (x * x) / 2)). set (q := sqrt (2 * PI)) in *. field. lra.
Qed.

Lemma pdf_comp (f : R -> R) (x l : R) : derivable_pt_lim f x l -> derivable_pt_lim (fun y => pdf (f y)) x (- f x * pdf (f x) * l).
Proof. intros D. exact (derivable_pt_lim_comp f pdf x l (- f x * pdf (f x)) D (pdf_derive (f x))). Qed.

Lemma nrm_w (w F K v : R) : w = 1 \/ w = -1 -> pdf (w * ((F - K) / v)) = pdf ((F - K) / v).
Proof. intros [-> | ->]; [now rewrite Rmult_1_l | replace (-1 * ((F - K) / v)) with (- ((F - K) / v)) by ring; apply pdf_even]. Qed.

Lemma nrm_path (w : R) (F v : R -> R) (K x F' v' : R) : w = 1 \/ w = -1 -> v x <> 0 ->
  derivable_pt_lim F x F' -> derivable_pt_lim v x v' ->
  derivable_pt_lim (fun y => nrm w (F y) K (v y)) x
    (w * F' * cdf (w * ((F x - K) / v x)) + pdf ((F x - K) / v x) * v').
Proof.
  intros W Hv DF Dv.
  set (d := F' / v x - (F x - K) / v x * v' / v x).
  assert (D0 : derivable_pt_lim (fun y => (F y - K) / v y) x d).
  { apply is_derive_Reals. apply is_derive_Reals in DF. apply is_derive_Reals in Dv.
    assert (EF : ex_derive F x) by (exists F'; auto). assert (Ev : ex_derive v x) by (exists v'; auto).
    auto_derive. { repeat split; auto. }
    replace (Derive (fun y => F y) x) with F' by (symmetry; apply is_derive_unique; auto).
    replace (Derive (fun y => v y) x) with v' by (symmetry; apply is_derive_unique; auto).
    unfold d. field. auto. }
  assert (D1 : derivable_pt_lim (fun y => w * (F y - K)) x (w * F')).
  { refine (dlim_val _ x _ _ _ (derivable_pt_lim_scal _ w x _ (derivable_pt_lim_minus _ _ x _ _ DF (derivable_pt_lim_const K x)))). ring. }
  pose proof (cdf_comp _ x _ (derivable_pt_lim_scal _ w x _ D0)) as C.
  pose proof (pdf_comp _ x _ D0) as P.
  refine (dlim_val _ x _ _ _ (derivable_pt_lim_plus _ _ x _ _ (derivable_pt_lim_mult _ _ x _ _ D1 C) (derivable_pt_lim_mult _ _ x _ _ Dv P))).
  unfold mult_real_fct. rewrite (nrm_w w (F x) K (v x) W). unfold d.
  assert (W2 : w * w = 1) by (destruct W as [-> | ->]; ring).
  set (p := pdf ((F x - K) / v x)). set (c := cdf (w * ((F x - K) / v x))).
  replace (w * (F x - K) * (p * (w * (F' / v x - (F x - K) / v x * v' / v x))))
    with (w * w * ((F x - K) * (p * (F' / v x - (F x - K) / v x * v' / v x)))) by ring.
  rewrite W2. field. auto.
Qed.

Lemma nrm_dv (w F K v : R) : w = 1 \/ w = -1 -> v <> 0 -> derivable_pt_lim (fun y => nrm w F K y) v (pdf ((F - K) / v)).
Proof.
  intros W Hv. refine (dlim_val _ v _ _ _ (nrm_path w (fun _ => F) (fun y => y) K v 0 1 W Hv (derivable_pt_lim_const F v) (derivable_pt_lim_id v))). ring.
Qed.

Lemma nrm_dF (w F K v : R) : w = 1 \/ w = -1 -> v <> 0 -> derivable_pt_lim (fun y => nrm w y K v) F (w * cdf (w * ((F - K) / v))).
Proof.
  intros W Hv. refine (dlim_val _ F _ _ _ (nrm_path w (fun y => y) (fun _ => v) K F 1 0 W Hv (derivable_pt_lim_id F) (derivable_pt_lim_const v F))). ring.
Qed.

Lemma nrm_parity (F K v : R) : nrm 1 F K v - nrm (-1) F K v = F - K.
Proof.
  unfold nrm. rewrite !Rmult_1_l. replace (-1 * ((F - K) / v)) with (- ((F - K) / v)) by ring. rewrite cdf_sym. ring.
Qed.

Lemma cdf_gauss_bound (x : R) : x < 0 -> cdf x <= gauss x.
Proof.
  intros Hx. pose proof (cdf_sq (- x)) as S. pose proof (jint_le (- x)) as J. pose proof PI_RGT_0.
  assert (U : 4 / PI * jint (- x) <= gauss (- x)).
  { replace (gauss (- x)) with (4 / PI * (gauss (- x) * (PI / 4))) by (field; lra). apply Rmult_le_compat_l; auto. left; apply Rdiv_lt_0_compat; lra. }
  assert (1 / 2 < cdf (- x)) by (rewrite <- cdf_0; apply cdf_incr; lra).
  pose proof (cdf_lt_1 (- x)). rewrite cdf_sym in *. 
  replace (gauss x) with (gauss (- x)) by (unfold gauss; f_equal; field). pose proof (cdf_gt_0 x). nra.
Qed.

Definition hfun (x : R) : R := x * cdf x + pdf x.

Lemma hfun_derive (x : R) : derivable_pt_lim hfun x (cdf x).
Proof.
  refine (dlim_val _ x _ _ _ (derivable_pt_lim_plus _ _ x _ _ (derivable_pt_lim_mult _ _ x _ _ (derivable_pt_lim_id x) (cdf_dlim x)) (pdf_derive x))).
  unfold id. ring.
Qed.

Lemma hfun_mono (x y : R) : x < y -> hfun x < hfun y.
Proof.
  intros L. destruct (MVT_cor2 hfun cdf x y L) as (c & E & _). { intros; apply hfun_derive. }
  assert (0 < cdf c * (y - x)) by (apply Rmult_lt_0_compat; [apply cdf_gt_0 | lra]). lra.
Qed.

Lemma hfun_pos (x : R) : 0 < hfun x.
Proof.
  destruct (Rlt_or_le 0 (hfun x)) as [L | L]; auto. exfalso.
  set (e := - hfun (x - 1)). assert (E : 0 < e) by (unfold e; pose proof (hfun_mono (x - 1) x ltac:(lra)); lra).
  set (m := Rmax 1 (Rmax (2 / e) (- x + 2))).
  assert (m >= 1 /\ 2 / e <= m /\ - x + 2 <= m) as (M1 & M2 & M3).
  { unfold m. pose proof (Rmax_l 1 (Rmax (2 / e) (- x + 2))). pose proof (Rmax_r 1 (Rmax (2 / e) (- x + 2))).
    pose proof (Rmax_l (2 / e) (- x + 2)). pose proof (Rmax_r (2 / e) (- x + 2)). lra. }
  pose proof (hfun_mono (- m) (x - 1) ltac:(lra)) as H.
  assert (B : m * cdf (- m) < e).
  { pose proof (cdf_gauss_bound (- m) ltac:(lra)) as G. 
    assert (G2 : gauss (- m) < 2 / (m * m)).
    { unfold gauss. replace (- (- m * - m) / 2) with (- (m * m / 2)) by field. rewrite exp_Ropp.
      replace (2 / (m * m)) with (/ (m * m / 2)) by (field; lra).
      assert (E2 : m * m / 2 < exp (m * m / 2)) by (pose proof (exp_ineq1 (m * m / 2) ltac:(nra)); lra).
      apply Rinv_lt_contravar; auto. apply Rmult_lt_0_compat; [nra | apply exp_pos]. }
    assert (m * cdf (- m) < m * (2 / (m * m))) by (apply Rmult_lt_compat_l; lra).
    replace (m * (2 / (m * m))) with (2 / m) in H0 by (field; lra).
    assert (2 / m <= e). { apply (Rmult_le_reg_r m); [lra | ]. unfold Rdiv. rewrite Rmult_assoc, Rinv_l by lra.
      apply Rmult_le_compat_l with (r := e) in M2; [ | lra]. replace (e * (2 / e)) with 2 in M2 by (field; lra). lra. }
    lra. }
  unfold hfun in H at 1. pose proof (pdf_pos (- m)). unfold e in *. lra.
Qed.

Lemma nrm_hfun (w F K v : R) : w = 1 \/ w = -1 -> 0 < v -> nrm w F K v = v * hfun (w * ((F - K) / v)).
Proof.
  intros W Hv. unfold nrm, hfun. rewrite (nrm_w w F K v W). field. lra.
Qed.

Lemma nrm_pos (w F K v : R) : w = 1 \/ w = -1 -> 0 < v -> 0 < nrm w F K v.
Proof. intros W Hv. rewrite nrm_hfun by auto. apply Rmult_lt_0_compat; auto. apply hfun_pos. Qed.

Lemma nrm_lower (w F K v : R) : w = 1 \/ w = -1 -> 0 < v -> Rmax 0 (w * (F - K)) < nrm w F K v.
Proof.
  intros W Hv. pose proof (nrm_pos 1 F K v (or_introl eq_refl) Hv). pose proof (nrm_pos (-1) F K v (or_intror eq_refl) Hv).
  pose proof (nrm_parity F K v). apply Rmax_lub_lt; destruct W as [-> | ->]; lra.
Qed.

Lemma nrm_mono (w F K v v' : R) : w = 1 \/ w = -1 -> 0 < v -> v < v' -> nrm w F K v < nrm w F K v'.
Proof.
  intros W Hv L.
  destruct (MVT_cor2 (fun y => nrm w F K y) (fun y => pdf ((F - K) / y)) v v' L) as (c & E & C).
  { intros c C. apply nrm_dv; auto; lra. }
  assert (0 < pdf ((F - K) / c) * (v' - v)) by (apply Rmult_lt_0_compat; [apply pdf_pos | lra]). lra.
Qed.

Lemma pdf_le_0 (x : R) : pdf x <= pdf 0.
Proof.
  unfold pdf. pose proof s2p_pos as S. unfold s2p in S. apply Rmult_le_compat_r. { left; apply Rinv_0_lt_compat; auto. }
  replace (- (0 * 0) / 2) with 0 by field. destruct (Req_dec x 0) as [-> | N]. { right. f_equal. field. }
  left. apply exp_increasing. assert (0 < x * x) by nra. lra.
Qed.

(* time value is at most v * pdf 0 *)
Lemma nrm_small (w F K v : R) : w = 1 \/ w = -1 -> 0 < v -> nrm w F K v <= Rmax 0 (w * (F - K)) + v * pdf 0.
Proof.
  intros W Hv. unfold nrm. pose proof (pdf_le_0 ((F - K) / v)). assert (v * pdf ((F - K) / v) <= v * pdf 0) by (apply Rmult_le_compat_l; lra).
  enough (w * (F - K) * cdf (w * ((F - K) / v)) <= Rmax 0 (w * (F - K))) by lra.
  pose proof (cdf_gt_0 (w * ((F - K) / v))). pose proof (cdf_lt_1 (w * ((F - K) / v))).
  destruct (Rle_or_lt (w * (F - K)) 0).
  - rewrite Rmax_left by auto. nra.
  - rewrite Rmax_right by lra. nra.
Qed.

Lemma nrm_onto (w F K p : R) : w = 1 \/ w = -1 -> Rmax 0 (w * (F - K)) < p -> exists v, 0 < v /\ nrm w F K v = p.
Proof.
  intros W L. pose proof (pdf_pos 0). pose proof (pdf_pos 1).
  set (d := (p - Rmax 0 (w * (F - K))) / (2 * pdf 0)). assert (D : 0 < d) by (unfold d; apply Rdiv_lt_0_compat; lra).
  pose proof (nrm_small w F K d W D) as S.
  assert (E : d * pdf 0 = (p - Rmax 0 (w * (F - K))) / 2) by (unfold d; field; lra). rewrite E in S.
  set (m := Rabs (F - K)). assert (0 <= m) by apply Rabs_pos.
  set (b := d + m + 1 + (Rabs p + m) / pdf 1).
  assert (Q : 0 <= (Rabs p + m) / pdf 1) by (apply Rmult_le_pos; [pose proof (Rabs_pos p); lra | left; apply Rinv_0_lt_compat; auto]).
  assert (B : p < nrm w F K b).
  { assert (Hb : 0 < b) by (unfold b; lra).
    unfold nrm.
    assert (P1 : pdf 1 <= pdf ((F - K) / b)).
    { assert (A : Rabs ((F - K) / b) <= 1).
      { unfold Rdiv. rewrite Rabs_mult, (Rabs_right (/ b)) by (left; apply Rinv_0_lt_compat; auto). fold m.
        apply (Rmult_le_reg_r b); auto. rewrite Rmult_assoc, Rinv_l by lra. unfold b; lra. }
      unfold pdf. pose proof s2p_pos as S2. unfold s2p in S2. apply Rmult_le_compat_r. { left; apply Rinv_0_lt_compat; auto. }
      set (z := (F - K) / b) in *. assert (z * z <= 1) by (apply Rabs_le_between in A; nra).
      destruct (Req_dec (z * z) 1) as [Ez | Nz]. { right. f_equal. lra. } left. apply exp_increasing. lra. }
    assert (P2 : b * pdf 1 <= b * pdf ((F - K) / b)) by (apply Rmult_le_compat_l; lra).
    assert (P3 : Rabs p + m + pdf 1 <= b * pdf 1).
    { unfold b. replace ((d + m + 1 + (Rabs p + m) / pdf 1) * pdf 1) with ((d + m) * pdf 1 + pdf 1 + (Rabs p + m)) by (field; lra).
      assert (0 <= (d + m) * pdf 1) by (apply Rmult_le_pos; lra). lra. }
    assert (P4 : - m <= w * (F - K) * cdf (w * ((F - K) / b))).
    { pose proof (cdf_gt_0 (w * ((F - K) / b))). pose proof (cdf_lt_1 (w * ((F - K) / b))).
      assert (- m <= w * (F - K)). { unfold m. pose proof (Rle_abs (F - K)). pose proof (Rle_abs (- (F - K))). rewrite Rabs_Ropp in *. destruct W as [-> | ->]; lra. }
      nra. }
    pose proof (Rle_abs p). lra. }
  destruct (ivt_pos (fun y => nrm w F K y) d b p) as (x & X & Ex); auto.
  - unfold b; lra.
  - intros x X. apply derivable_continuous_pt. eexists. apply nrm_dv; auto. lra.
  - lra.
  - exists x. split; [lra | exact Ex].
Qed.
