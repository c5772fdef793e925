From Coq Require Import Reals List Lra Lia.
From Coquelicot Require Import Coquelicot.
From Verif Require Import Base NormalModel NormalProofs BsProofs BlackModel BlackSpec BlackProofs BlackVecProofs GkModel GkSpec GkProofs MeanSpec MeanProofs PathMeanProofs StaticSpec.
Open Scope R_scope.

Definition cpw (w : R) : Prop := w = 1 \/ w = -1.
Lemma blk_swap_any w F K v : cpw w -> 0 < F -> 0 < K -> 0 < v -> blk w F K v = blk (- w) K F v.
Proof. intros [-> | ->] HF HK Hv; [replace (- (1)) with (-1) by ring; symmetry; apply blk_swap; assumption|replace (- (-1)) with 1 by ring; apply blk_swap; assumption]. Qed.
Lemma nrm_swap_any w F K v : cpw w -> 0 < v -> nrm w F K v = nrm (- w) K F v.
Proof. intros W V. rewrite !nrm_hfun by (try exact V; destruct W as [-> | ->]; lra). do 2 f_equal. unfold Rdiv. ring. Qed.

(* ---- slopes ---- *)
Lemma cpw_opp w : cpw w -> - w = 1 \/ - w = -1. Proof. intros [-> | ->]; lra. Qed.
Lemma near_dlim (f g : R -> R) x l e : 0 < e -> (forall y, Rabs (y - x) < e -> f y = g y) -> derivable_pt_lim f x l -> derivable_pt_lim g x l.
Proof.
  intros E H D. apply is_derive_Reals. apply is_derive_Reals in D. apply (is_derive_ext_loc f); [|exact D]. exists (mkposreal e E). intros y Y. apply H. exact Y.
Qed.
Lemma blk_dK w F K v : cpw w -> 0 < F -> 0 < K -> 0 < v -> derivable_pt_lim (fun k => blk w F k v) K (- w * cdf (w * bd2 F K v)).
Proof.
  intros W HF HK Hv. apply (near_dlim (fun k => blk (- w) k F v) _ K _ K HK).
  - intros k Hk. apply Rabs_def2 in Hk. symmetry. apply blk_swap_any; try assumption; lra.
  - refine (dlim_val _ K _ _ _ (blk_dF (- w) K F v (cpw_opp w W) HK HF Hv)). rewrite bd1_swap by assumption. do 2 f_equal. ring.
Qed.
Lemma nrm_dK w F K v : cpw w -> 0 < v -> derivable_pt_lim (fun k => nrm w F k v) K (- w * cdf (w * ((F - K) / v))).
Proof.
  intros W Hv. apply (near_dlim (fun k => nrm (- w) k F v) _ K _ 1 ltac:(lra)).
  - intros k _. symmetry. apply nrm_swap_any; assumption.
  - refine (dlim_val _ K _ _ _ (nrm_dF (- w) K F v (cpw_opp w W) ltac:(lra))). do 2 f_equal. unfold Rdiv. ring.
Qed.
Lemma bd2_decr F K K' v : 0 < F -> 0 < K -> 0 < v -> K < K' -> bd2 F K' v < bd2 F K v.
Proof. intros HF HK Hv L. rewrite !bd2_alt by assumption. apply Rmult_lt_compat_r; [apply Rinv_0_lt_compat; exact Hv|]. rewrite !ln_quot by lra. pose proof (ln_increasing K K' HK L). lra. Qed.
Lemma bd1_incr F F' K v : 0 < F -> 0 < K -> 0 < v -> F < F' -> bd1 F K v < bd1 F' K v.
Proof. intros HF HK Hv L. unfold bd1. apply Rmult_lt_compat_r; [apply Rinv_0_lt_compat; exact Hv|]. rewrite !ln_quot by lra. pose proof (ln_increasing F F' HF L). lra. Qed.
Lemma wcdf_incr w x y : cpw w -> x < y -> w * cdf (w * x) < w * cdf (w * y).
Proof. intros [-> | ->] L; [rewrite !Rmult_1_l; apply cdf_incr; exact L|]. pose proof (cdf_incr (-1 * y) (-1 * x) ltac:(lra)). lra. Qed.

(* ---- spreads from slopes ---- *)
Section spreads.
  Variables (f g : R -> R) (dom : R -> Prop).
  Hypothesis between : forall a b x, dom a -> a < x < b -> dom x.
  Hypothesis slope : forall x, dom x -> derivable_pt_lim f x (g x).
  Lemma spread_value a b : dom a -> dom b -> a < b -> exists c, a < c < b /\ dom c /\ f b - f a = g c * (b - a).
  Proof.
    intros A B L. destruct (MVT_cor2 f g a b L) as (c & E & C). { intros c [C1 C2]. apply slope. destruct C1 as [C1|<-]; [|exact A]. apply (between a (b + 1)); [exact A|lra]. }
    exists c. split; [exact C|]. split; [apply (between a b); assumption|exact E].
  Qed.
  Lemma butterfly_value a b c : (forall x y, dom x -> x < y -> g x < g y) -> dom a -> dom b -> dom c -> a < b -> b < c -> (c - a) * f b < (c - b) * f a + (b - a) * f c.
  Proof.
    intros M A B C L1 L2. destruct (spread_value a b A B L1) as (x & X & DX & EX), (spread_value b c B C L2) as (y & Y & _ & EY). pose proof (M x y DX ltac:(lra)) as G.
    assert (P : 0 < (b - a) * (c - b)) by (apply Rmult_lt_0_compat; lra). nra.
  Qed.
End spreads.

(* ---- probabilities ---- *)
Lemma prob_above c : expected (fun z => if Rlt_dec c z then 1 else 0) (cdf (- c)).
Proof.
  replace (cdf (- c)) with (1 - cdf c) by (rewrite cdf_sym; ring). apply (expected_from _ (fun _ => 1) cdf c 1).
  - intros x. rewrite Rmult_1_l. apply cdf_derive.
  - intros x. apply continuous_const.
  - intros x X. destruct (Rlt_dec c x); lra.
  - intros x X. destruct (Rlt_dec c x); lra.
  - intros e E. destruct (cdf_far 0 e E) as (M & H). exists M. intros x X. rewrite <- (Rplus_0_r x). apply H. exact X.
Qed.
Lemma prob_below c : expected (fun z => if Rlt_dec z c then 1 else 0) (cdf c).
Proof.
  replace (cdf c) with (cdf (- - c)) by (rewrite Ropp_involutive; reflexivity). eapply expected_ext; [|apply (expected_opp _ _ (prob_above (- c)))].
  intros z. cbv beta. destruct (Rlt_dec (- c) (- z)), (Rlt_dec z c); lra.
Qed.
Lemma exercised_above cp X K : cp = 1 -> exercised cp X K = if Rlt_dec K X then 1 else 0.
Proof. intros ->. unfold exercised. destruct (Rlt_dec 0 _), (Rlt_dec K X); lra. Qed.
Lemma exercised_below cp X K : cp = -1 -> exercised cp X K = if Rlt_dec X K then 1 else 0.
Proof. intros ->. unfold exercised. destruct (Rlt_dec 0 _), (Rlt_dec X K); lra. Qed.
(* an increasing terminal value crosses the strike at -d *)
Lemma prob_exercised cp (X : R -> R) K d : cpw cp -> (forall z, K < X z <-> - d < z) -> (forall z, X z < K <-> z < - d) -> expected (fun z => exercised cp (X z) K) (cdf (cp * d)).
Proof.
  intros [-> | ->] U L.
  - rewrite Rmult_1_l. replace (cdf d) with (cdf (- - d)) by (rewrite Ropp_involutive; reflexivity). eapply expected_ext; [|apply prob_above].
    intros z. cbv beta. rewrite exercised_above by reflexivity. specialize (U z). destruct (Rlt_dec (- d) z), (Rlt_dec K (X z)); tauto.
  - replace (-1 * d) with (- d) by ring. eapply expected_ext; [|apply prob_below].
    intros z. cbv beta. rewrite exercised_below by reflexivity. specialize (L z). destruct (Rlt_dec z (- d)), (Rlt_dec (X z) K); tauto.
Qed.
Lemma lognormal_cross F K v z : 0 < F -> 0 < K -> 0 < v -> (K < lognormal_value F v z <-> - bd2 F K v < z) /\ (lognormal_value F v z < K <-> z < - bd2 F K v).
Proof.
  intros HF HK Hv. assert (E : K = lognormal_value F v (- bd2 F K v)).
  { unfold lognormal_value. rewrite bd2_alt by exact Hv. replace (v * - ((ln (F / K) - v * v / 2) / v) - v ^ 2 / 2) with (- ln (F / K)) by (field; lra).
    rewrite ln_quot by assumption. replace (- (ln F - ln K)) with (ln K - ln F) by ring. unfold Rminus. rewrite exp_plus, exp_Ropp, !exp_ln by assumption. field. lra. }
  assert (M : forall x y, x < y -> lognormal_value F v x < lognormal_value F v y).
  { intros x y L. unfold lognormal_value. apply Rmult_lt_compat_l; [exact HF|]. apply exp_increasing. assert (v * x < v * y) by (apply Rmult_lt_compat_l; assumption). lra. }
  split; split; intros H.
  - apply Rnot_le_lt. intros [C|C]; [apply M in C; lra|subst z; lra].
  - apply M in H. lra.
  - apply Rnot_le_lt. intros [C|C]; [apply M in C; lra|subst z; lra].
  - apply M in H. lra.
Qed.

(* ---- implied distributions ---- *)
Lemma cdf_lim w d k l : cpw w -> derivable_pt_lim d k l -> derivable_pt_lim (fun x => w * cdf (w * d x)) k (pdf (d k) * l).
Proof.
  intros W D. refine (dlim_val _ k _ _ _ (derivable_pt_lim_scal _ w k _ (cdf_comp (fun x => w * d x) k (w * l) (derivable_pt_lim_scal d w k l D)))).
  destruct W as [-> | ->]; [rewrite !Rmult_1_l; reflexivity|]. replace (-1 * d k) with (- d k) by ring. rewrite pdf_even. ring.
Qed.
Lemma implied_core (price : R -> num) (X d d' f : R -> R) (dom : R -> Prop) cp A : cpw cp -> 0 < A ->
  (forall k, dom k -> forall z, (k < X z <-> - d k < z) /\ (X z < k <-> z < - d k)) -> (forall k, dom k -> derivable_pt_lim d k (- d' k) /\ 0 < d' k) ->
  (forall k, dom k -> derivable_pt_lim f k (- cp * cdf (cp * d k))) -> (forall k, dom k -> price k = Fin (A * f k)) -> (forall k, dom k -> exists e, 0 < e /\ forall y, Rabs (y - k) < e -> dom y) ->
  implied_distribution price X dom cp A.
Proof.
  intros W HA Cr D Df Pr Op. exists (fun k => cdf (cp * d k)), (fun k => cdf (-1 * d k)), (fun k => pdf (d k) * d' k). intros k Hk.
  split; [|split; [|split; [|split; [|split]]]].
  - apply prob_exercised; [exact W| |]; intros z; apply (Cr k Hk z).
  - apply prob_exercised; [right; reflexivity| |]; intros z; apply (Cr k Hk z).
  - exists (fun y => A * f y). split. + destruct (Op k Hk) as (e & He & B). exists e. split; [exact He|]. intros y Y. apply Pr. apply B. exact Y.
    + refine (dlim_val _ k _ _ _ (derivable_pt_lim_scal _ A k _ (Df k Hk))). ring.
  - apply Rmult_lt_0_compat; [apply pdf_pos|apply D; exact Hk].
  - refine (dlim_val _ k _ _ _ (cdf_comp (fun x => -1 * d x) k _ (derivable_pt_lim_scal d (-1) k _ (proj1 (D k Hk))))). replace (-1 * d k) with (- d k) by ring. rewrite pdf_even. ring.
  - apply (near_dlim (fun x => - A * (cp * cdf (cp * d x))) _ k _ 1 ltac:(lra)). { intros y _. ring. }
    refine (dlim_val _ k _ _ _ (derivable_pt_lim_scal _ (- A) k _ (cdf_lim cp d k _ W (proj1 (D k Hk))))). ring.
Qed.
Lemma bd2_dK F K v : 0 < F -> 0 < K -> 0 < v -> derivable_pt_lim (fun k => bd2 F k v) K (- (/ (K * v))) /\ 0 < / (K * v).
Proof.
  intros HF HK Hv. split; [|apply Rinv_0_lt_compat; apply Rmult_lt_0_compat; assumption].
  apply (near_dlim (fun k => / v * (ln F - ln k - v * v / 2)) _ K _ K HK).
  { intros y Y. apply Rabs_def2 in Y. rewrite bd2_alt by exact Hv. rewrite ln_quot by lra. field. lra. }
  apply is_derive_Reals. auto_derive; [exact HK|]. field. lra.
Qed.
Lemma implied76 F tau cp vol s A : call_or_put cp -> 0 < F + s -> 0 < tau -> 0 < vol -> 0 < A ->
  implied_distribution (fun K => price76 F tau cp K vol s A) (fun z => lognormal_value (F + s) (vol * sqrt tau) z - s) (fun K => 0 < K + s) cp A.
Proof.
  intros W HF Ht Hv HA. pose proof (total_pos vol tau Hv Ht) as T.
  apply (implied_core _ _ (fun k => bd2 (F + s) (k + s) (vol * sqrt tau)) (fun k => / ((k + s) * (vol * sqrt tau))) (fun k => blk cp (F + s) (k + s) (vol * sqrt tau))); try assumption.
  - intros k Hk z. destruct (lognormal_cross (F + s) (k + s) (vol * sqrt tau) z HF Hk T) as [U L]. split; [rewrite <- U|rewrite <- L]; split; lra.
  - intros k Hk. destruct (bd2_dK (F + s) (k + s) (vol * sqrt tau) HF Hk T) as [D P]. split; [|exact P].
    refine (dlim_val _ k _ _ _ (derivable_pt_lim_comp (fun x => x + s) (fun y => bd2 (F + s) y (vol * sqrt tau)) k 1 _ _ D)); [ring|].
    refine (dlim_val _ k _ _ _ (derivable_pt_lim_plus _ _ k _ _ (derivable_pt_lim_id k) (derivable_pt_lim_const s k))). ring.
  - intros k Hk. refine (dlim_val _ k _ _ _ (derivable_pt_lim_comp (fun x => x + s) (fun y => blk cp (F + s) y (vol * sqrt tau)) k 1 _ _ (blk_dK cp (F + s) (k + s) _ W HF Hk T))); [ring|].
    refine (dlim_val _ k _ _ _ (derivable_pt_lim_plus _ _ k _ _ (derivable_pt_lim_id k) (derivable_pt_lim_const s k))). ring.
  - intros k Hk. apply price76_fin; lra.
  - intros k Hk. exists (k + s). split; [exact Hk|]. intros y Y. apply Rabs_def2 in Y. lra.
Qed.
Lemma implied_n F tau cp vol A : call_or_put cp -> 0 < tau -> 0 < vol -> 0 < A ->
  implied_distribution (fun K => price_n F tau cp K vol A) (normal_value F (vol * sqrt tau)) (fun _ => True) cp A.
Proof.
  intros W Ht Hv HA. pose proof (total_pos vol tau Hv Ht) as T. set (v := vol * sqrt tau) in *.
  apply (implied_core _ _ (fun k => (F - k) / v) (fun _ => / v) (fun k => nrm cp F k v)); try assumption.
  - intros k _ z. unfold normal_value. replace (- ((F - k) / v)) with ((k - F) / v) by (unfold Rdiv; ring).
    assert (M : (k - F) / v * v = k - F) by (field; lra). split; split; intros H.
    + apply (Rmult_lt_reg_r v); [exact T|]. lra.
    + apply (Rmult_lt_compat_r v) in H; lra.
    + apply (Rmult_lt_reg_r v); [exact T|]. lra.
    + apply (Rmult_lt_compat_r v) in H; lra.
  - intros k _. split; [|apply Rinv_0_lt_compat; exact T]. apply is_derive_Reals. auto_derive; [exact I|]. ring.
  - intros k _. apply nrm_dK; assumption.
  - intros k _. apply price_n_fin; fold v; lra.
  - intros k _. exists 1. split; [lra|auto].
Qed.
Lemma implied_gk S tau rd rf cp vol F : call_or_put cp -> 0 < S -> 0 < tau -> 0 < vol -> good_forward F ->
  implied_distribution (fun K => price_gk S tau rd rf cp K vol F) (lognormal_value (forward_of S tau rd rf F) (vol * sqrt tau)) (fun K => 0 < K) cp (dom_df S tau rd rf F).
Proof.
  intros W HS Ht Hv G. pose proof (total_pos vol tau Hv Ht) as T. pose proof (fwd_pos S tau rd rf F HS G) as HF.
  apply (implied_core _ _ (fun k => bd2 (forward_of S tau rd rf F) k (vol * sqrt tau)) (fun k => / (k * (vol * sqrt tau))) (fun k => blk cp (forward_of S tau rd rf F) k (vol * sqrt tau))); try assumption.
  - apply df_pos; assumption.
  - intros k Hk z. apply lognormal_cross; assumption.
  - intros k Hk. apply bd2_dK; assumption.
  - intros k Hk. apply blk_dK; assumption.
  - intros k Hk. apply price_gk_live; try assumption; lra.
  - intros k Hk. exists k. split; [exact Hk|]. intros y Y. apply Rabs_def2 in Y. lra.
Qed.

(* ---- spreads and butterflies ---- *)
Lemma spreads_core (price : R -> num) (f d : R -> R) (dom : R -> Prop) w w' A : cpw w -> cpw w' -> 0 < A -> (forall a b x, dom a -> a < x < b -> dom x) ->
  (forall k, dom k -> price k = Fin (A * f k)) -> (forall k, dom k -> derivable_pt_lim f k (- w * cdf (w' * d k))) -> (forall x y, dom x -> x < y -> w * cdf (w' * d y) < w * cdf (w' * d x)) ->
  vertical_spreads price dom w A /\ butterflies price dom.
Proof.
  intros W W' HA Bt Pr Df M. split.
  - intros a b Ha Hb L. exists (A * f a), (A * f b). do 2 (split; [apply Pr; assumption|]).
    destruct (spread_value f (fun k => - w * cdf (w' * d k)) dom Bt Df a b Ha Hb L) as (c & C & _ & E).
    assert (E' : w * (A * f a - A * f b) = A * (b - a) * cdf (w' * d c)) by (replace (w * (A * f a - A * f b)) with (- (w * A * (f b - f a))) by ring; rewrite E; destruct W as [-> | ->]; ring). rewrite E'.
    pose proof (cdf_gt_0 (w' * d c)). pose proof (cdf_lt_1 (w' * d c)). assert (0 < A * (b - a)) by (apply Rmult_lt_0_compat; lra). split; nra.
  - intros a b c Ha Hb Hc L1 L2. exists (A * f a), (A * f b), (A * f c). do 3 (split; [apply Pr; assumption|]).
    pose proof (butterfly_value f (fun k => - w * cdf (w' * d k)) dom Bt Df a b c ltac:(intros x y X Y; pose proof (M x y X Y); lra) Ha Hb Hc L1 L2) as Q.
    apply (Rmult_lt_compat_l A) in Q; [|exact HA]. replace ((c - a) * (A * f b)) with (A * ((c - a) * f b)) by ring. replace ((c - b) * (A * f a) + (b - a) * (A * f c)) with (A * ((c - b) * f a + (b - a) * f c)) by ring. exact Q.
Qed.
Lemma shift_lim (f : R -> R) s k l : derivable_pt_lim f (k + s) l -> derivable_pt_lim (fun x => f (x + s)) k l.
Proof.
  intros D. refine (dlim_val _ k _ _ _ (derivable_pt_lim_comp (fun x => x + s) f k 1 _ _ D)); [ring|].
  refine (dlim_val _ k _ _ _ (derivable_pt_lim_plus _ _ k _ _ (derivable_pt_lim_id k) (derivable_pt_lim_const s k))). ring.
Qed.
Lemma strikes76 F tau cp vol s A : call_or_put cp -> 0 < F + s -> 0 < tau -> 0 < vol -> 0 < A ->
  vertical_spreads (fun K => price76 F tau cp K vol s A) (fun K => 0 < K + s) cp A /\ butterflies (fun K => price76 F tau cp K vol s A) (fun K => 0 < K + s).
Proof.
  intros W HF Ht Hv HA. pose proof (total_pos vol tau Hv Ht) as T.
  apply (spreads_core _ (fun k => blk cp (F + s) (k + s) (vol * sqrt tau)) (fun k => bd2 (F + s) (k + s) (vol * sqrt tau)) _ cp cp); try assumption.
  - intros a b x Ha Hx. lra.
  - intros k Hk. apply price76_fin; lra.
  - intros k Hk. apply (shift_lim (fun y => blk cp (F + s) y (vol * sqrt tau))). apply blk_dK; assumption.
  - intros x y Hx L. apply wcdf_incr; [exact W|]. apply bd2_decr; lra.
Qed.
Lemma strikes_n F tau cp vol A : call_or_put cp -> 0 < tau -> 0 < vol -> 0 < A ->
  vertical_spreads (fun K => price_n F tau cp K vol A) (fun _ => True) cp A /\ butterflies (fun K => price_n F tau cp K vol A) (fun _ => True).
Proof.
  intros W Ht Hv HA. pose proof (total_pos vol tau Hv Ht) as T.
  apply (spreads_core _ (fun k => nrm cp F k (vol * sqrt tau)) (fun k => (F - k) / (vol * sqrt tau)) _ cp cp); try assumption; auto.
  - intros k Hk. apply price_n_fin; lra.
  - intros k Hk. apply nrm_dK; assumption.
  - intros x y _ L. apply wcdf_incr; [exact W|]. apply Rmult_lt_compat_r; [apply Rinv_0_lt_compat; exact T|lra].
Qed.
Lemma strikes_gk S tau rd rf cp vol F : call_or_put cp -> 0 < S -> 0 < tau -> 0 < vol -> good_forward F ->
  vertical_spreads (fun K => price_gk S tau rd rf cp K vol F) (fun K => 0 < K) cp (dom_df S tau rd rf F) /\ butterflies (fun K => price_gk S tau rd rf cp K vol F) (fun K => 0 < K).
Proof.
  intros W HS Ht Hv G. pose proof (total_pos vol tau Hv Ht) as T. pose proof (fwd_pos S tau rd rf F HS G) as HF.
  apply (spreads_core _ (fun k => blk cp (forward_of S tau rd rf F) k (vol * sqrt tau)) (fun k => bd2 (forward_of S tau rd rf F) k (vol * sqrt tau)) _ cp cp); try assumption.
  - apply df_pos; assumption.
  - intros a b x Ha Hx. lra.
  - intros k Hk. apply price_gk_live; try assumption; lra.
  - intros k Hk. apply blk_dK; assumption.
  - intros x y Hx L. apply wcdf_incr; [exact W|]. apply bd2_decr; lra.
Qed.
(* the same in the forward, with the sides exchanged *)
Lemma forwards76 tau cp K vol s A : call_or_put cp -> 0 < K + s -> 0 < tau -> 0 < vol -> 0 < A ->
  vertical_spreads (fun F => price76 F tau cp K vol s A) (fun F => 0 < F + s) (- cp) A /\ butterflies (fun F => price76 F tau cp K vol s A) (fun F => 0 < F + s).
Proof.
  intros W HK Ht Hv HA. pose proof (total_pos vol tau Hv Ht) as T.
  apply (spreads_core _ (fun f => blk cp (f + s) (K + s) (vol * sqrt tau)) (fun f => bd1 (f + s) (K + s) (vol * sqrt tau)) _ (- cp) cp); try assumption.
  - apply cpw_opp. exact W.
  - intros a b x Ha Hx. lra.
  - intros k Hk. apply price76_fin; lra.
  - intros k Hk. apply (shift_lim (fun y => blk cp y (K + s) (vol * sqrt tau))). rewrite Ropp_involutive. apply blk_dF; assumption.
  - intros x y Hx L. pose proof (wcdf_incr cp _ _ W (bd1_incr (x + s) (y + s) (K + s) (vol * sqrt tau) Hx HK T ltac:(lra))). lra.
Qed.
Lemma forwards_n tau cp K vol A : call_or_put cp -> 0 < tau -> 0 < vol -> 0 < A ->
  vertical_spreads (fun F => price_n F tau cp K vol A) (fun _ => True) (- cp) A /\ butterflies (fun F => price_n F tau cp K vol A) (fun _ => True).
Proof.
  intros W Ht Hv HA. pose proof (total_pos vol tau Hv Ht) as T.
  apply (spreads_core _ (fun f => nrm cp f K (vol * sqrt tau)) (fun f => (f - K) / (vol * sqrt tau)) _ (- cp) cp); try assumption; auto.
  - apply cpw_opp. exact W.
  - intros k Hk. apply price_n_fin; lra.
  - intros k Hk. rewrite Ropp_involutive. apply nrm_dF; [assumption|lra].
  - intros x y _ L. assert (Q : (x - K) / (vol * sqrt tau) < (y - K) / (vol * sqrt tau)) by (apply Rmult_lt_compat_r; [apply Rinv_0_lt_compat; exact T|lra]). pose proof (wcdf_incr cp _ _ W Q). lra.
Qed.
(* spot moves, the carry stays *)
Lemma spots_gk tau rd rf cp K vol : call_or_put cp -> 0 < K -> 0 < tau -> 0 < vol ->
  vertical_spreads (fun S => price_gk S tau rd rf cp K vol None) (fun S => 0 < S) (- cp) (exp (- rf * tau)) /\ butterflies (fun S => price_gk S tau rd rf cp K vol None) (fun S => 0 < S).
Proof.
  intros W HK Ht Hv. pose proof (total_pos vol tau Hv Ht) as T. set (v := vol * sqrt tau) in *. set (c := exp ((rd - rf) * tau)). assert (HC : 0 < c) by apply exp_pos.
  assert (CR : forall S, 0 < S -> dom_df S tau rd rf None = exp (- rf * tau) / c) by (intros S HS; unfold dom_df; cbn [forward_of]; fold c; field; lra).
  apply (spreads_core _ (fun S => / c * blk cp (S * c) K v) (fun S => bd1 (S * c) K v) _ (- cp) cp); try assumption.
  - apply cpw_opp. exact W.
  - apply exp_pos.
  - intros a b x Ha Hx. lra.
  - intros S HS. rewrite price_gk_live by (try assumption; try exact I; fold v; lra). f_equal. rewrite CR by exact HS. cbn [forward_of]. fold c v. field. lra.
  - intros S HS. refine (dlim_val _ S _ _ _ (derivable_pt_lim_scal _ (/ c) S _ (derivable_pt_lim_comp (fun x => x * c) (fun y => blk cp y K v) S c _ _ (blk_dF cp (S * c) K v W (Rmult_lt_0_compat _ _ HS HC) HK T)))).
    + field. lra.
    + refine (dlim_val _ S _ _ _ (derivable_pt_lim_mult _ _ S _ _ (derivable_pt_lim_id S) (derivable_pt_lim_const c S))). unfold id, fct_cte. ring.
  - intros x y Hx L. assert (Q : x * c < y * c) by (apply Rmult_lt_compat_r; assumption). pose proof (wcdf_incr cp _ _ W (bd1_incr (x * c) (y * c) K v (Rmult_lt_0_compat _ _ Hx HC) HK T Q)). lra.
Qed.

(* ---- symmetries ---- *)
Lemma sym76 F tau cp K vol s A : call_or_put cp -> 0 < F + s -> 0 < K + s -> 0 <= tau -> 0 <= vol -> price76 F tau cp K vol s A = price76 K tau (- cp) F vol s A.
Proof.
  intros W HF HK Ht Hv. pose proof (cpw_opp cp W) as W'. destruct Ht as [Ht|Ht], Hv as [Hv|Hv].
  1: { pose proof (total_pos vol tau Hv Ht) as T. rewrite !price76_fin by lra. rewrite (blk_swap_any cp) by assumption. reflexivity. }
  all: assert (Z : vol = 0 \/ tau = 0) by (subst; auto); assert (Ht' : 0 <= tau) by lra;
    destruct (b76_no_vol F tau cp K vol s A W HF HK Ht' Z) as [N E], (b76_no_vol K tau (- cp) F vol s A W' HK HF Ht' Z) as [N' E'];
    destruct (Req_dec F K) as [Q|Q]; [rewrite E, E' by lra; reflexivity|rewrite N, N' by lra; do 3 f_equal; ring].
Qed.
Lemma sym_n F tau cp K vol A : call_or_put cp -> 0 <= tau -> 0 <= vol -> price_n F tau cp K vol A = price_n K tau (- cp) F vol A.
Proof.
  intros W Ht Hv. pose proof (cpw_opp cp W) as W'. destruct Ht as [Ht|Ht], Hv as [Hv|Hv].
  1: { pose proof (total_pos vol tau Hv Ht) as T. rewrite !price_n_fin by lra. rewrite (nrm_swap_any cp) by assumption. reflexivity. }
  all: assert (Z : vol = 0 \/ tau = 0) by (subst; auto); assert (Ht' : 0 <= tau) by lra;
    destruct (bach_no_vol F tau cp K vol A W Ht' Z) as [N E], (bach_no_vol K tau (- cp) F vol A W' Ht' Z) as [N' E'];
    destruct (Req_dec F K) as [Q|Q]; [rewrite E, E' by lra; reflexivity|rewrite N, N' by lra; do 3 f_equal; ring].
Qed.
Lemma mirror_n F tau cp K vol A : call_or_put cp -> 0 <= tau -> 0 <= vol -> price_n F tau cp K vol A = price_n (- F) tau (- cp) (- K) vol A.
Proof.
  intros W Ht Hv. pose proof (cpw_opp cp W) as W'. destruct Ht as [Ht|Ht], Hv as [Hv|Hv].
  1: { pose proof (total_pos vol tau Hv Ht) as T. rewrite !price_n_fin by lra. rewrite !nrm_hfun by assumption. do 4 f_equal. unfold Rdiv. ring. }
  all: assert (Z : vol = 0 \/ tau = 0) by (subst; auto); assert (Ht' : 0 <= tau) by lra;
    destruct (bach_no_vol F tau cp K vol A W Ht' Z) as [N E], (bach_no_vol (- F) tau (- cp) (- K) vol A W' Ht' Z) as [N' E'];
    destruct (Req_dec F K) as [Q|Q]; [rewrite E, E' by lra; reflexivity|rewrite N, N' by lra; do 3 f_equal; ring].
Qed.
Lemma blk_scale w c F K v : 0 < c -> 0 < F -> 0 < K -> blk w (c * F) (c * K) v = c * blk w F K v.
Proof. intros. unfold blk, bd2, bd1. replace (c * F / (c * K)) with (F / K) by (field; lra). ring. Qed.
(* a call on the foreign currency is a put on the domestic currency *)
Lemma sym_gk S tau rd rf cp K vol F : call_or_put cp -> 0 < S -> 0 < K -> 0 < tau -> 0 < vol -> good_forward F ->
  exists p q, price_gk S tau rd rf cp K vol F = Fin p /\
    price_gk (/ S) tau rf (domestic_rate S tau rd rf F) (- cp) (/ K) vol (inverse_forward F) = Fin q /\ p = S * K * q.
Proof.
  intros W HS HK Ht Hv G. pose proof (total_pos vol tau Hv Ht) as T. pose proof (Rinv_0_lt_compat S HS) as HS'. pose proof (Rinv_0_lt_compat K HK) as HK'.
  set (f := forward_of S tau rd rf F). assert (Hf : 0 < f) by (apply fwd_pos; assumption).
  exists (dom_df S tau rd rf F * blk cp f K (vol * sqrt tau)), (exp (- rf * tau) * blk (- cp) (/ f) (/ K) (vol * sqrt tau)). split; [|split].
  - apply price_gk_live; try assumption; lra.
  - rewrite price_gk_live; try assumption; [|apply cpw_opp; exact W|destruct F; [apply Rinv_0_lt_compat; exact G|exact I]|lra]. f_equal. f_equal.
    + unfold dom_df. destruct F as [x|]; cbn [forward_of domestic_rate inverse_forward] in *.
      * cbn in G. subst f. replace (- (ln (x / S) / tau + rf) * tau) with (- rf * tau + - ln (x / S)) by (field; lra). rewrite exp_plus, exp_Ropp, exp_ln by (apply Rdiv_lt_0_compat; assumption). field. lra.
      * replace (- rd * tau) with (- rf * tau + (rf - rd) * tau) by ring. rewrite exp_plus. pose proof (exp_pos ((rf - rd) * tau)). field. lra.
    + f_equal. destruct F as [x|]; cbn [forward_of domestic_rate inverse_forward] in *; [reflexivity|]. subst f. replace ((rf - rd) * tau) with (- ((rd - rf) * tau)) by ring. rewrite exp_Ropp. pose proof (exp_pos ((rd - rf) * tau)). field. lra.
  - assert (Q : blk (- cp) (/ f) (/ K) (vol * sqrt tau) = / (f * K) * blk cp f K (vol * sqrt tau)).
    { replace (/ f) with (/ (f * K) * K) by (field; lra). replace (/ K) with (/ (f * K) * f) at 1 by (field; lra).
      rewrite blk_scale by (try assumption; apply Rinv_0_lt_compat; apply Rmult_lt_0_compat; assumption). rewrite (blk_swap_any cp f K) by assumption. reflexivity. }
    rewrite Q. unfold dom_df. fold f. field. lra.
Qed.

(* ---- limits ---- *)
Lemma tends_right_intro (f : R -> num) (p : R -> R) l : (forall y, 0 < y -> f y = Fin (p y)) -> (forall e, 0 < e -> exists d, 0 < d /\ forall y, 0 < y -> y < d -> Rabs (p y - l) < e) -> tends_right f 0 l.
Proof. intros E H e He. destruct (H e He) as (d & D & B). exists d. split; [exact D|]. intros y Y1 Y2. exists (p y). split; [apply E; exact Y1|apply B; lra]. Qed.
Lemma blk_near w F K e : cpw w -> 0 < F -> 0 < K -> 0 < e -> exists d, 0 < d /\ forall v, 0 < v -> v < d -> Rabs (blk w F K v - Rmax 0 (w * (F - K))) < e.
Proof.
  intros W HF HK He. destruct (blk_small w F K e W HF HK He) as (d & D & B). exists d. split; [exact D|]. intros v V1 V2.
  pose proof (blk_lower w F K v W HF HK V1). specialize (B v V1 V2). rewrite Rabs_right; lra.
Qed.
Lemma nrm_near w F K e : cpw w -> 0 < e -> exists d, 0 < d /\ forall v, 0 < v -> v < d -> Rabs (nrm w F K v - Rmax 0 (w * (F - K))) < e.
Proof.
  intros W He. pose proof (pdf_pos 0) as P. exists (e / pdf 0). split; [apply Rdiv_lt_0_compat; assumption|]. intros v V1 V2.
  pose proof (nrm_lower w F K v W V1). pose proof (nrm_small w F K v W V1). apply (Rmult_lt_compat_r (pdf 0)) in V2; [|exact P]. replace (e / pdf 0 * pdf 0) with e in V2 by (field; lra). rewrite Rabs_right; lra.
Qed.
Lemma sqrt_small c e : 0 < c -> 0 < e -> exists d, 0 < d /\ forall y, 0 < y -> y < d -> c * sqrt y < e.
Proof.
  intros C E. exists ((e / c) ^ 2). assert (Q : 0 < e / c) by (apply Rdiv_lt_0_compat; assumption). split; [apply pow_lt; exact Q|]. intros y Y1 Y2.
  assert (S : sqrt y < sqrt ((e / c) ^ 2)) by (apply sqrt_lt_1; lra). rewrite sqrt_pow2 in S by lra. apply (Rmult_lt_compat_l c) in S; [|exact C]. replace (c * (e / c)) with e in S by (field; lra). exact S.
Qed.
Lemma scale_near A x l e : 0 < e -> Rabs (x - l) < e / (Rabs A + 1) -> Rabs (A * x - A * l) < e.
Proof.
  intros He H. replace (A * x - A * l) with (A * (x - l)) by ring. rewrite Rabs_mult. pose proof (Rabs_pos A). pose proof (Rabs_pos (x - l)). 
  apply (Rmult_lt_compat_r (Rabs A + 1)) in H; [|lra]. replace (e / (Rabs A + 1) * (Rabs A + 1)) with e in H by (field; lra). nra.
Qed.
Lemma share_pos e A : 0 < e -> 0 < e / (Rabs A + 1). Proof. intros. apply Rdiv_lt_0_compat; [assumption|]. pose proof (Rabs_pos A). lra. Qed.
Lemma vol_near (h : R -> R) l A c : 0 < c -> (forall e, 0 < e -> exists d, 0 < d /\ forall v, 0 < v -> v < d -> Rabs (h v - l) < e) ->
  forall e, 0 < e -> exists d, 0 < d /\ forall y, 0 < y -> y < d -> Rabs (A * h (y * c) - A * l) < e.
Proof.
  intros C H e He. destruct (H _ (share_pos e A He)) as (d & D & B). exists (d / c). split; [apply Rdiv_lt_0_compat; assumption|]. intros y Y1 Y2. apply scale_near; [exact He|]. apply B; [apply Rmult_lt_0_compat; assumption|].
  apply (Rmult_lt_compat_r c) in Y2; [|exact C]. replace (d / c * c) with d in Y2 by (field; lra). exact Y2.
Qed.
Lemma time_near (h : R -> R) l A c : 0 < c -> (forall e, 0 < e -> exists d, 0 < d /\ forall v, 0 < v -> v < d -> Rabs (h v - l) < e) ->
  forall e, 0 < e -> exists d, 0 < d /\ forall y, 0 < y -> y < d -> Rabs (A * h (c * sqrt y) - A * l) < e.
Proof.
  intros C H e He. destruct (H _ (share_pos e A He)) as (d & D & B). destruct (sqrt_small c d C D) as (d' & D' & B'). exists d'. split; [exact D'|]. intros y Y1 Y2. apply scale_near; [exact He|].
  apply B; [apply Rmult_lt_0_compat; [exact C|apply sqrt_lt_R0; exact Y1]|apply B'; assumption].
Qed.
Lemma vol_limit76 F tau cp K s A : call_or_put cp -> 0 < F + s -> 0 < K + s -> 0 < tau -> tends_right (fun vol => price76 F tau cp K vol s A) 0 (A * Rmax 0 (cp * (F - K))).
Proof.
  intros W HF HK Ht. pose proof (sqrt_lt_R0 tau Ht) as Q. apply (tends_right_intro _ (fun y => A * blk cp (F + s) (K + s) (y * sqrt tau))).
  - intros y Y. pose proof (total_pos y tau Y Ht). apply price76_fin; lra.
  - apply (vol_near (fun v => blk cp (F + s) (K + s) v)); [exact Q|]. intros e He. replace (F - K) with (F + s - (K + s)) by ring. apply blk_near; assumption.
Qed.
Lemma time_limit76 F vol cp K s A : call_or_put cp -> 0 < F + s -> 0 < K + s -> 0 < vol -> tends_right (fun tau => price76 F tau cp K vol s A) 0 (A * Rmax 0 (cp * (F - K))).
Proof.
  intros W HF HK Hv. apply (tends_right_intro _ (fun y => A * blk cp (F + s) (K + s) (vol * sqrt y))).
  - intros y Y. pose proof (total_pos vol y Hv Y). apply price76_fin; lra.
  - apply (time_near (fun v => blk cp (F + s) (K + s) v)); [exact Hv|]. intros e He. replace (F - K) with (F + s - (K + s)) by ring. apply blk_near; assumption.
Qed.
Lemma vol_limit_n F tau cp K A : call_or_put cp -> 0 < tau -> tends_right (fun vol => price_n F tau cp K vol A) 0 (A * Rmax 0 (cp * (F - K))).
Proof.
  intros W Ht. pose proof (sqrt_lt_R0 tau Ht) as Q. apply (tends_right_intro _ (fun y => A * nrm cp F K (y * sqrt tau))).
  - intros y Y. pose proof (total_pos y tau Y Ht). apply price_n_fin; lra.
  - apply (vol_near (fun v => nrm cp F K v)); [exact Q|]. intros e He. apply nrm_near; assumption.
Qed.
Lemma time_limit_n F vol cp K A : call_or_put cp -> 0 < vol -> tends_right (fun tau => price_n F tau cp K vol A) 0 (A * Rmax 0 (cp * (F - K))).
Proof.
  intros W Hv. apply (tends_right_intro _ (fun y => A * nrm cp F K (vol * sqrt y))).
  - intros y Y. pose proof (total_pos vol y Hv Y). apply price_n_fin; lra.
  - apply (time_near (fun v => nrm cp F K v)); [exact Hv|]. intros e He. apply nrm_near; assumption.
Qed.
Lemma vol_limit_gk S tau rd rf cp K F : call_or_put cp -> 0 < S -> 0 < K -> 0 < tau -> good_forward F ->
  tends_right (fun vol => price_gk S tau rd rf cp K vol F) 0 (Rmax 0 (cp * (S * exp (- rf * tau) - K * dom_df S tau rd rf F))).
Proof.
  intros W HS HK Ht G. pose proof (sqrt_lt_R0 tau Ht) as Q. pose proof (fwd_pos S tau rd rf F HS G) as HF. pose proof (df_pos S tau rd rf F HS G) as HD.
  rewrite <- (df_forward S tau rd rf F) by assumption. replace (cp * (dom_df S tau rd rf F * forward_of S tau rd rf F - K * dom_df S tau rd rf F)) with (dom_df S tau rd rf F * (cp * (forward_of S tau rd rf F - K))) by ring.
  rewrite <- max_scale by exact HD. apply (tends_right_intro _ (fun y => dom_df S tau rd rf F * blk cp (forward_of S tau rd rf F) K (y * sqrt tau))).
  - intros y Y. pose proof (total_pos y tau Y Ht). apply price_gk_live; try assumption; lra.
  - apply (vol_near (fun v => blk cp (forward_of S tau rd rf F) K v)); [exact Q|]. intros e He. apply blk_near; assumption.
Qed.
(* the forward moves the price by less than itself *)
Lemma blk_lip w F F' K v : cpw w -> 0 < F -> 0 < F' -> 0 < K -> 0 < v -> Rabs (blk w F K v - blk w F' K v) <= Rabs (F - F').
Proof.
  intros W HF HF' HK Hv. assert (L : forall a b, 0 < a -> a < b -> Rabs (blk w b K v - blk w a K v) <= b - a).
  { intros a b Ha L. destruct (spread_value (fun f => blk w f K v) (fun f => w * cdf (w * bd1 f K v)) (fun f => 0 < f)) with (a := a) (b := b) as (c & C & _ & E); try lra.
    - intros x y z X Y. lra.
    - intros x X. apply blk_dF; assumption.
    - rewrite E, !Rabs_mult. pose proof (cdf_gt_0 (w * bd1 c K v)). pose proof (cdf_lt_1 (w * bd1 c K v)). rewrite (Rabs_right (b - a)) by lra. rewrite (Rabs_right (cdf _)) by lra.
      replace (Rabs w) with 1 by (destruct W as [-> | ->]; [rewrite Rabs_right|rewrite Rabs_left]; lra). nra. }
  destruct (Rtotal_order F F') as [H|[<-|H]].
  - rewrite (Rabs_minus_sym (blk w F K v)), (Rabs_minus_sym F F'). rewrite (Rabs_right (F' - F)) by lra. apply L; assumption.
  - rewrite !Rminus_diag_eq by reflexivity. lra.
  - rewrite (Rabs_right (F - F')) by lra. apply L; assumption.
Qed.
Lemma cont_near (g : R -> R) e : continuous g 0 -> 0 < e -> exists d, 0 < d /\ forall y, 0 < y -> y < d -> Rabs (g y - g 0) < e.
Proof.
  intros C He. destruct (C (fun z => Rabs (z - g 0) < e)) as [d D]; [exists (mkposreal e He); intros z Z; exact Z|]. exists d. split; [apply cond_pos|]. intros y Y1 Y2. apply D.
  change (Rabs (y - 0) < d). rewrite Rabs_right; lra.
Qed.
Lemma time_limit_gk S rd rf cp K vol F : call_or_put cp -> 0 < S -> 0 < K -> 0 < vol -> good_forward F ->
  tends_right (fun tau => price_gk S tau rd rf cp K vol F) 0 (S / forward_of S 0 rd rf F * Rmax 0 (cp * (forward_of S 0 rd rf F - K))).
Proof.
  intros W HS HK Hv G. set (f := fun y => forward_of S y rd rf F). set (D := fun y => dom_df S y rd rf F).
  assert (Pf : forall y, 0 < f y) by (intros y; apply fwd_pos; assumption). assert (PD : forall y, 0 < D y) by (intros y; apply df_pos; assumption).
  assert (Cf : continuous f 0) by (subst f; destruct F as [x|]; cbn [forward_of]; [apply continuous_const|apply (ex_derive_continuous (V := R_NormedModule)); auto_derive; exact I]).
  assert (CD : continuous D 0).
  { subst D. unfold dom_df. destruct F as [x|]; cbn [forward_of]; apply (ex_derive_continuous (V := R_NormedModule)); auto_derive; auto. specialize (Pf 0). cbn [forward_of] in Pf. unfold f in Pf. cbn [forward_of] in Pf. lra. }
  assert (D0 : D 0 = S / f 0) by (subst D f; unfold dom_df; cbv beta; rewrite Rmult_0_r, exp_0, Rmult_1_r; reflexivity). fold (f 0). rewrite <- D0.
  set (m := Rmax 0 (cp * (f 0 - K))). assert (M : 0 <= m) by apply Rmax_l.
  apply (tends_right_intro _ (fun y => D y * blk cp (f y) K (vol * sqrt y))).
  { intros y Y. pose proof (total_pos vol y Hv Y). unfold D, f. apply price_gk_live; try assumption; lra. }
  intros e He. pose proof (PD 0) as P0.
  assert (E1 : 0 < Rmin 1 (e / 4 / (m + 1))) by (apply Rmin_glb_lt; [lra|apply Rdiv_lt_0_compat; lra]).
  assert (E2 : 0 < Rmin 1 (e / 4 / (D 0 + 1))) by (apply Rmin_glb_lt; [lra|apply Rdiv_lt_0_compat; lra]).
  destruct (cont_near D _ CD E1) as (d1 & H1 & B1). destruct (cont_near f _ Cf E2) as (d2 & H2 & B2).
  destruct (blk_near cp (f 0) K _ W (Pf 0) HK E2) as (d3 & H3 & B3). destruct (sqrt_small vol d3 Hv H3) as (d4 & H4 & B4).
  exists (Rmin d1 (Rmin d2 d4)). split; [repeat apply Rmin_glb_lt; assumption|]. intros y Y1 Y2.
  pose proof (Rmin_l d1 (Rmin d2 d4)). pose proof (Rmin_r d1 (Rmin d2 d4)). pose proof (Rmin_l d2 d4). pose proof (Rmin_r d2 d4).
  specialize (B1 y Y1 ltac:(lra)). specialize (B2 y Y1 ltac:(lra)). assert (V : 0 < vol * sqrt y) by (apply total_pos; assumption). specialize (B3 _ V (B4 y Y1 ltac:(lra))). fold m in B3.
  pose proof (blk_lip cp (f y) (f 0) K _ W (Pf y) (Pf 0) HK V) as Lp.
  set (b := blk cp (f y) K (vol * sqrt y)) in *. set (b0 := blk cp (f 0) K (vol * sqrt y)) in *.
  pose proof (Rmin_l 1 (e / 4 / (m + 1))). pose proof (Rmin_r 1 (e / 4 / (m + 1))). pose proof (Rmin_r 1 (e / 4 / (D 0 + 1))).
  set (u := e / 4 / (m + 1)) in *. set (t := e / 4 / (D 0 + 1)) in *.
  assert (U : u * (m + 1) = e / 4) by (unfold u; field; lra). assert (T : t * (D 0 + 1) = e / 4) by (unfold t; field; lra).
  assert (X : Rabs (b - m) < 2 * t). { replace (b - m) with ((b - b0) + (b0 - m)) by ring. eapply Rle_lt_trans; [apply Rabs_triang|]. lra. }
  replace (D y * b - D 0 * m) with (D y * (b - m) + (D y - D 0) * m) by ring. eapply Rle_lt_trans; [apply Rabs_triang|]. rewrite !Rabs_mult, (Rabs_right m) by lra. rewrite (Rabs_right (D y)) by (pose proof (PD y); lra).
  assert (DY : D y < D 0 + 1) by (apply Rabs_def2 in B1; lra). pose proof (PD y). pose proof (Rabs_pos (b - m)). pose proof (Rabs_pos (D y - D 0)).
  assert (D y * Rabs (b - m) <= (D 0 + 1) * (2 * t)) by (apply Rmult_le_compat; lra). assert (Rabs (D y - D 0) * m <= u * (m + 1)) by (apply Rmult_le_compat; lra). lra.
Qed.
(* without bound *)
Lemma tends_up_intro (f : R -> num) (p : R -> R) N l : (forall y, N < y -> f y = Fin (p y)) -> (forall e, 0 < e -> exists M, forall y, M < y -> Rabs (p y - l) < e) -> tends_up f l.
Proof.
  intros E H e He. destruct (H e He) as (M & B). exists (Rmax M N). intros y Y. pose proof (Rmax_l M N). pose proof (Rmax_r M N). exists (p y). split; [apply E; lra|apply B; lra].
Qed.
Lemma blk_far w F K e : cpw w -> 0 < F -> 0 < K -> 0 < e -> exists M, 0 < M /\ forall v, M < v -> Rabs (blk w F K v - (if Rlt_dec 0 w then F else K)) < e.
Proof.
  intros W HF HK He. destruct (blk_large w F K e W HF HK He) as (M & HM & B). exists M. split; [exact HM|]. intros v V. specialize (B v V). pose proof (blk_upper w F K v W HF HK ltac:(lra)). rewrite Rabs_left; lra.
Qed.
Lemma vol_far76 F tau cp K s A : call_or_put cp -> 0 < F + s -> 0 < K + s -> 0 < tau -> tends_up (fun vol => price76 F tau cp K vol s A) (A * (if Rlt_dec 0 cp then F + s else K + s)).
Proof.
  intros W HF HK Ht. pose proof (sqrt_lt_R0 tau Ht) as Q. apply (tends_up_intro _ (fun y => A * blk cp (F + s) (K + s) (y * sqrt tau)) 0).
  - intros y Y. pose proof (total_pos y tau Y Ht). apply price76_fin; lra.
  - intros e He. destruct (blk_far cp (F + s) (K + s) _ W HF HK (share_pos e A He)) as (M & HM & B). exists (M / sqrt tau). intros y Y. apply scale_near; [exact He|]. apply B.
    apply (Rmult_lt_compat_r (sqrt tau)) in Y; [|exact Q]. replace (M / sqrt tau * sqrt tau) with M in Y by (field; lra). exact Y.
Qed.
Lemma time_far76 F cp K vol s A : call_or_put cp -> 0 < F + s -> 0 < K + s -> 0 < vol -> tends_up (fun tau => price76 F tau cp K vol s A) (A * (if Rlt_dec 0 cp then F + s else K + s)).
Proof.
  intros W HF HK Hv. apply (tends_up_intro _ (fun y => A * blk cp (F + s) (K + s) (vol * sqrt y)) 0).
  - intros y Y. pose proof (total_pos vol y Hv Y). apply price76_fin; lra.
  - intros e He. destruct (blk_far cp (F + s) (K + s) _ W HF HK (share_pos e A He)) as (M & HM & B). assert (P : 0 < M / vol) by (apply Rdiv_lt_0_compat; assumption). exists ((M / vol) ^ 2). intros y Y. apply scale_near; [exact He|]. apply B.
    assert (Q : sqrt ((M / vol) ^ 2) < sqrt y) by (apply sqrt_lt_1; [apply pow2_ge_0| |exact Y]; pose proof (pow2_ge_0 (M / vol)); lra). rewrite sqrt_pow2 in Q by lra.
    apply (Rmult_lt_compat_l vol) in Q; [|exact Hv]. replace (vol * (M / vol)) with M in Q by (field; lra). exact Q.
Qed.
Lemma vol_far_gk S tau rd rf cp K F : call_or_put cp -> 0 < S -> 0 < K -> 0 < tau -> good_forward F ->
  tends_up (fun vol => price_gk S tau rd rf cp K vol F) (if Rlt_dec 0 cp then S * exp (- rf * tau) else K * dom_df S tau rd rf F).
Proof.
  intros W HS HK Ht G. pose proof (sqrt_lt_R0 tau Ht) as Q. pose proof (fwd_pos S tau rd rf F HS G) as HF. rewrite <- (df_forward S tau rd rf F) by assumption.
  replace (if Rlt_dec 0 cp then dom_df S tau rd rf F * forward_of S tau rd rf F else K * dom_df S tau rd rf F) with (dom_df S tau rd rf F * (if Rlt_dec 0 cp then forward_of S tau rd rf F else K)) by (destruct (Rlt_dec 0 cp); ring).
  apply (tends_up_intro _ (fun y => dom_df S tau rd rf F * blk cp (forward_of S tau rd rf F) K (y * sqrt tau)) 0).
  - intros y Y. pose proof (total_pos y tau Y Ht). apply price_gk_live; try assumption; lra.
  - intros e He. destruct (blk_far cp (forward_of S tau rd rf F) K _ W HF HK (share_pos e (dom_df S tau rd rf F) He)) as (M & HM & B). exists (M / sqrt tau). intros y Y. apply scale_near; [exact He|]. apply B.
    apply (Rmult_lt_compat_r (sqrt tau)) in Y; [|exact Q]. replace (M / sqrt tau * sqrt tau) with M in Y by (field; lra). exact Y.
Qed.
(* the normal model has no upper bound *)
Lemma nrm_large w F K v : cpw w -> 0 < v -> v * pdf 0 - Rabs (F - K) <= nrm w F K v.
Proof.
  intros W Hv. rewrite nrm_hfun by assumption. set (x := w * ((F - K) / v)).
  assert (X : Rabs x * v = Rabs (F - K)). { unfold x. rewrite Rabs_mult. replace (Rabs w) with 1 by (destruct W as [-> | ->]; [rewrite Rabs_right|rewrite Rabs_left]; lra). unfold Rdiv. rewrite Rabs_mult, (Rabs_right (/ v)) by (pose proof (Rinv_0_lt_compat v Hv); lra). field. lra. }
  enough (H : pdf 0 - Rabs x <= hfun x). { apply (Rmult_le_compat_l v) in H; [|lra]. rewrite <- X. lra. }
  assert (L : forall a b, a < b -> hfun b - hfun a <= b - a). { intros a b L. destruct (MVT_cor2 hfun cdf a b L) as (c & E & C); [intros; apply hfun_derive|]. rewrite E. pose proof (cdf_lt_1 c). nra. }
  assert (H0 : hfun 0 = pdf 0) by (unfold hfun; ring). rewrite <- H0. destruct (Rtotal_order x 0) as [C|[C|C]].
  - rewrite Rabs_left by exact C. pose proof (L x 0 C). lra.
  - rewrite C, Rabs_R0. lra.
  - rewrite Rabs_right by lra. pose proof (hfun_mono 0 x C). lra.
Qed.
Lemma vol_far_n F tau cp K A : call_or_put cp -> 0 < tau -> 0 < A -> diverges_up (fun vol => price_n F tau cp K vol A).
Proof.
  intros W Ht HA M. pose proof (sqrt_lt_R0 tau Ht) as Q. pose proof (pdf_pos 0) as P. set (N := (Rabs M / A + Rabs (F - K)) / pdf 0). assert (HN : 0 <= N).
  { unfold N. apply Rmult_le_pos; [|left; apply Rinv_0_lt_compat; exact P]. apply Rplus_le_le_0_compat; [|apply Rabs_pos]. apply Rmult_le_pos; [apply Rabs_pos|left; apply Rinv_0_lt_compat; exact HA]. }
  exists (N / sqrt tau). intros y Y. assert (V : N < y * sqrt tau) by (apply (Rmult_lt_compat_r (sqrt tau)) in Y; [|exact Q]; replace (N / sqrt tau * sqrt tau) with N in Y by (field; lra); exact Y).
  rewrite price_n_fin by lra. eexists. split; [reflexivity|]. pose proof (nrm_large cp F K (y * sqrt tau) W ltac:(lra)) as B. apply (Rmult_lt_compat_r (pdf 0)) in V; [|exact P].
  replace (N * pdf 0) with (Rabs M / A + Rabs (F - K)) in V by (unfold N; field; lra). assert (X : Rabs M / A < nrm cp F K (y * sqrt tau)) by lra. apply (Rmult_lt_compat_l A) in X; [|exact HA].
  replace (A * (Rabs M / A)) with (Rabs M) in X by (field; lra). pose proof (Rle_abs M). lra.
Qed.

(* ---- the normal model as a limit of shifted lognormal models ---- *)
Lemma ln_le x : 0 < x -> ln x <= x - 1.
Proof. intros X. pose proof (exp_ineq1_le (ln x)) as H. rewrite exp_ln in H by exact X. lra. Qed.
Lemma ln_bounds a D : 0 < a -> 0 < a - D -> D <= a * ln (a / (a - D)) <= D + D ^ 2 / (a - D).
Proof.
  intros A B. assert (Q : 0 < a / (a - D)) by (apply Rdiv_lt_0_compat; assumption). assert (Q' : 0 < (a - D) / a) by (apply Rdiv_lt_0_compat; assumption).
  assert (E : ln ((a - D) / a) = - ln (a / (a - D))) by (rewrite !ln_quot by assumption; ring). pose proof (ln_le _ Q) as U. pose proof (ln_le _ Q') as L. rewrite E in L. split.
  - assert (H : D / a <= ln (a / (a - D))) by (replace (D / a) with (- ((a - D) / a - 1)) by (field; lra); lra). apply (Rmult_le_compat_l a) in H; [|lra]. replace (a * (D / a)) with D in H by (field; lra). exact H.
  - apply (Rmult_le_compat_l a) in U; [|lra]. replace (a * (a / (a - D) - 1)) with (D + D ^ 2 / (a - D)) in U by (field; lra). exact U.
Qed.
Lemma shifted_d a D m : 0 < a -> 0 < a - D -> 0 < m -> Rabs (bd1 a (a - D) (m / a) - D / m) <= D ^ 2 / (a - D) / m + m / a /\ Rabs (bd2 a (a - D) (m / a) - D / m) <= D ^ 2 / (a - D) / m + m / a.
Proof.
  intros A B M. destruct (ln_bounds a D A B) as [L U]. set (l := ln (a / (a - D))) in *. assert (I : 0 < / m) by (apply Rinv_0_lt_compat; exact M). assert (MA : 0 < m / a) by (apply Rdiv_lt_0_compat; assumption).
  assert (X1 : 0 <= (a * l - D) / m) by (apply Rmult_le_pos; lra). assert (X2 : (a * l - D) / m <= D ^ 2 / (a - D) / m) by (apply Rmult_le_compat_r; lra).
  assert (E1 : bd1 a (a - D) (m / a) - D / m = (a * l - D) / m + m / a / 2) by (unfold bd1; fold l; field; lra).
  assert (E2 : bd2 a (a - D) (m / a) - D / m = (a * l - D) / m - m / a / 2) by (unfold bd2, bd1; fold l; field; lra).
  rewrite E1, E2. split; apply Rabs_le; lra.
Qed.
Lemma shifted_call D m e : 0 < m -> 0 < e -> exists M, forall a, M < a -> 0 < a /\ 0 < a - D /\ Rabs (blk 1 a (a - D) (m / a) - (D * cdf (D / m) + m * pdf (D / m))) < e.
Proof.
  intros Hm He. set (d := D / m).
  assert (Cp : continuity_pt pdf d) by (apply derivable_continuous_pt; eexists; apply pdf_derive). assert (Cc : continuity_pt cdf d) by (apply derivable_continuous_pt; exists (pdf d); apply is_derive_Reals; apply cdf_derive).
  destruct (Cp (e / 2 / m)) as (h1 & H1 & B1). { apply Rdiv_lt_0_compat; lra. } destruct (Cc (e / 2 / (Rabs D + 1))) as (h2 & H2 & B2). { apply share_pos. lra. }
  assert (near1 : forall x, Rabs (x - d) < h1 -> Rabs (pdf x - pdf d) < e / 2 / m). { intros x X. destruct (Req_dec d x) as [<-|N]; [rewrite Rminus_diag_eq, Rabs_R0 by reflexivity; apply Rdiv_lt_0_compat; lra|]. apply B1. split; [split; [exact I|exact N]|exact X]. }
  assert (near2 : forall x, Rabs (x - d) < h2 -> Rabs (cdf x - cdf d) < e / 2 / (Rabs D + 1)). { intros x X. destruct (Req_dec d x) as [<-|N]; [rewrite Rminus_diag_eq, Rabs_R0 by reflexivity; apply share_pos; lra|]. apply B2. split; [split; [exact I|exact N]|exact X]. }
  set (h := Rmin h1 h2). assert (H : 0 < h) by (apply Rmin_glb_lt; assumption).
  set (M := Rmax (2 * m / h) (D + 1 + 2 * (D ^ 2 / m) / h)). exists (Rmax 0 (Rmax M (D + 1))). intros a Ha.
  pose proof (Rmax_l 0 (Rmax M (D + 1))). pose proof (Rmax_r 0 (Rmax M (D + 1))). pose proof (Rmax_l M (D + 1)). pose proof (Rmax_r M (D + 1)). pose proof (Rmax_l (2 * m / h) (D + 1 + 2 * (D ^ 2 / m) / h)). pose proof (Rmax_r (2 * m / h) (D + 1 + 2 * (D ^ 2 / m) / h)). fold M in H6, H7.
  assert (A : 0 < a) by lra. assert (B : 0 < a - D) by lra. split; [exact A|]. split; [exact B|].
  destruct (shifted_d a D m A B Hm) as [S1 S2]. fold d in S1, S2.
  assert (T1 : m / a < h / 2). { apply (Rmult_lt_reg_r a); [exact A|]. replace (m / a * a) with m by (field; lra). assert (X : 2 * m / h < a) by lra. apply (Rmult_lt_compat_r (h / 2)) in X; [|lra]. replace (2 * m / h * (h / 2)) with m in X by (field; lra). lra. }
  assert (T2 : D ^ 2 / (a - D) / m < h / 2).
  { apply (Rmult_lt_reg_r (a - D)); [exact B|]. replace (D ^ 2 / (a - D) / m * (a - D)) with (D ^ 2 / m) by (field; lra). assert (X : 2 * (D ^ 2 / m) / h < a - D) by lra. apply (Rmult_lt_compat_r (h / 2)) in X; [|lra]. replace (2 * (D ^ 2 / m) / h * (h / 2)) with (D ^ 2 / m) in X by (field; lra). lra. }
  set (d1 := bd1 a (a - D) (m / a)) in *. set (d2 := bd2 a (a - D) (m / a)) in *. assert (E : d1 = d2 + m / a) by (unfold d1, d2, bd2; ring). assert (MA : 0 < m / a) by (apply Rdiv_lt_0_compat; assumption).
  destruct (MVT_cor2 cdf pdf d2 d1) as (c & EC & C). { lra. } { intros c _. apply is_derive_Reals. apply cdf_derive. }
  assert (K1 : Rabs (d2 - d) < h) by lra. assert (K2 : Rabs (c - d) < h). { apply Rabs_def1; [apply Rle_lt_trans with (d1 - d); [lra|]; apply Rle_lt_trans with (Rabs (d1 - d)); [apply Rle_abs|lra]|]. apply Rlt_le_trans with (d2 - d); [|lra]. apply Rabs_def2 in K1. lra. }
  pose proof (Rmin_l h1 h2) as R1. pose proof (Rmin_r h1 h2) as R2. fold h in R1, R2. specialize (near1 c ltac:(lra)). specialize (near2 d2 ltac:(lra)).
  assert (V : blk 1 a (a - D) (m / a) = D * cdf d2 + m * pdf c).
  { unfold blk. fold d1 d2. rewrite !Rmult_1_l. replace (a * cdf d1) with (a * (cdf d1 - cdf d2) + a * cdf d2) by ring. rewrite EC, E. replace (d2 + m / a - d2) with (m / a) by ring. field. lra. }
  rewrite V. replace (D * cdf d2 + m * pdf c - (D * cdf d + m * pdf d)) with ((D * cdf d2 - D * cdf d) + m * (pdf c - pdf d)) by ring. eapply Rle_lt_trans; [apply Rabs_triang|].
  pose proof (scale_near D (cdf d2) (cdf d) (e / 2) ltac:(lra) near2) as Y1. rewrite (Rabs_mult m), (Rabs_right m) by lra. apply (Rmult_lt_compat_l m) in near1; [|exact Hm]. replace (m * (e / 2 / m)) with (e / 2) in near1 by (field; lra). lra.
Qed.
Lemma shifted_limit F tau cp K n A : call_or_put cp -> 0 < tau -> 0 < n -> exists p, price_n F tau cp K n A = Fin p /\ tends_up (fun s => price76 F tau cp K (n / (F + s)) s A) p.
Proof.
  intros W Ht Hn. pose proof (total_pos n tau Hn Ht) as T. rewrite price_n_fin by lra. eexists. split; [reflexivity|]. set (m := n * sqrt tau) in *.
  intros e He. destruct (shifted_call (F - K) m _ T (share_pos e A He)) as (M & H). exists (M - F). intros s Hs. destruct (H (F + s) ltac:(lra)) as (Ha & Hb & B).
  assert (E : n / (F + s) * sqrt tau = m / (F + s)) by (unfold m; field; lra). assert (V : 0 < m / (F + s)) by (apply Rdiv_lt_0_compat; assumption). replace (F + s - (F - K)) with (K + s) in * by ring.
  rewrite price76_fin by (try rewrite E; lra). eexists. split; [reflexivity|]. rewrite E. apply scale_near; [exact He|].
  assert (C : blk cp (F + s) (K + s) (m / (F + s)) - nrm cp F K m = blk 1 (F + s) (K + s) (m / (F + s)) - ((F - K) * cdf ((F - K) / m) + m * pdf ((F - K) / m))).
  { replace ((F - K) * cdf ((F - K) / m) + m * pdf ((F - K) / m)) with (nrm 1 F K m) by (unfold nrm; rewrite !Rmult_1_l; reflexivity). pose proof (blk_parity (F + s) (K + s) (m / (F + s))). pose proof (nrm_parity F K m). destruct W as [-> | ->]; lra. }
  rewrite C. exact B.
Qed.
