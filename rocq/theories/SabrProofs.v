From Coq Require Import Reals List Bool Lra Lia Arith.
From Verif Require Import Base NormalModel BlackModel SabrModel SabrSpec.
Import ListNotations.
Open Scope R_scope.

(* ---- powers and logarithms ---- *)
Lemma npow_pos (x y : R) : 0 < x -> npow x y = Fin (Rpower x y).
Proof.
  intros X. unfold npow. destruct (Req_EM_T y 0) as [-> | N]; [rewrite Rpower_O; auto | ]. destruct (Rlt_dec 0 x); [reflexivity | contradiction].
Qed.

Lemma log_ratio (F K : R) : 0 < F -> 0 < K -> nlog (div (Fin F) (Fin K)) = Fin (ln F - ln K).
Proof.
  intros HF HK. unfold div. destruct (Req_EM_T K 0); [lra | ]. unfold nlog.
  assert (P : 0 < F / K) by (apply Rdiv_lt_0_compat; auto). destruct (Rlt_dec 0 (F / K)); [ | contradiction].
  f_equal. unfold Rdiv. rewrite ln_mult; [ | auto | apply Rinv_0_lt_compat; auto]. rewrite ln_Rinv; auto.
Qed.

Lemma rpower_pos (x y : R) : 0 < Rpower x y. Proof. apply exp_pos. Qed.

Lemma bracket_fin (tau F alpha beta rho v K : R) : 0 < F * K ->
  sabr_bracket tau F alpha beta rho v K = Fin (hagan_time tau F alpha beta rho v K).
Proof.
  intros P. unfold sabr_bracket. rewrite !npow_pos by auto.
  pose proof (rpower_pos (F * K) ((1 - beta) / 2)) as H1. pose proof (rpower_pos (F * K) (1 - beta)) as H2.
  unfold div. destruct (Req_EM_T (Rpower (F * K) (1 - beta)) 0); [lra | ]. destruct (Req_EM_T (Rpower (F * K) ((1 - beta) / 2)) 0); [lra | ].
  cbn [add mul]. f_equal. unfold hagan_time. field. split; lra.
Qed.

(* ---- the square root inside x(z) ---- *)
Lemma disc_eq (rho z : R) : 1 - 2 * rho * z + z ^ 2 = (z - rho) * (z - rho) + (1 - rho * rho). Proof. ring. Qed.
Lemma disc_pos (rho z : R) : -1 < rho < 1 -> 0 < 1 - 2 * rho * z + z ^ 2.
Proof. intros H. rewrite disc_eq. pose proof (Rle_0_sqr (z - rho)) as Q. unfold Rsqr in Q. assert (0 < (1 - rho) * (1 + rho)) by (apply Rmult_lt_0_compat; lra). lra. Qed.
Lemma root_gt (rho z : R) : -1 < rho < 1 -> 0 < sqrt (1 - 2 * rho * z + z ^ 2) + z - rho.
Proof.
  intros H. set (s := sqrt _). assert (S0 : 0 <= s) by apply sqrt_pos. assert (SS : s * s = 1 - 2 * rho * z + z ^ 2) by (apply sqrt_sqrt; left; apply disc_pos; auto).
  rewrite disc_eq in SS. assert (0 < (1 - rho) * (1 + rho)) by (apply Rmult_lt_0_compat; lra).
  assert (Q : Rsqr (rho - z) < Rsqr s) by (unfold Rsqr; lra). destruct (Rle_dec 0 (rho - z)) as [P | P].
  - apply Rsqr_incrst_0 in Q; lra.
  - lra.
Qed.
Lemma root_minus (rho z : R) : -1 < rho < 1 ->
  sqrt (1 - 2 * rho * z + z ^ 2) + z - rho - (1 - rho) = 0 <-> z = 0.
Proof.
  intros H. set (s := sqrt _). assert (S0 : 0 <= s) by apply sqrt_pos. assert (SS : s * s = 1 - 2 * rho * z + z ^ 2) by (apply sqrt_sqrt; left; apply disc_pos; auto).
  split; intros E.
  - assert (s = 1 - z) by lra. assert ((1 - z) * (1 - z) = 1 - 2 * rho * z + z ^ 2) by congruence. nra.
  - subst z. assert (s * s = 1) by (rewrite SS; ring). assert (s = 1) by nra. lra.
Qed.
Lemma root_sign (rho z : R) : -1 < rho < 1 -> (0 < z -> 1 - rho < sqrt (1 - 2 * rho * z + z ^ 2) + z - rho) /\ (z < 0 -> sqrt (1 - 2 * rho * z + z ^ 2) + z - rho < 1 - rho).
Proof.
  intros H. set (s := sqrt _). assert (S0 : 0 <= s) by apply sqrt_pos. assert (SS : s * s = 1 - 2 * rho * z + z ^ 2) by (apply sqrt_sqrt; left; apply disc_pos; auto).
  split; intros Z.
  - destruct (Rlt_dec z 1); [ | nra]. assert (1 - z < s); [ | lra]. apply Rsqr_incrst_0; [ | lra | auto]. unfold Rsqr. nra.
  - assert (s < 1 - z); [ | lra]. apply Rsqr_incrst_0; [ | auto | lra]. unfold Rsqr. nra.
Qed.

Lemma hagan_x_sign (rho z : R) : -1 < rho < 1 -> (0 < z -> 0 < hagan_x rho z) /\ (z < 0 -> hagan_x rho z < 0).
Proof.
  intros H. unfold hagan_x. pose proof (root_gt rho z H) as G. destruct (root_sign rho z H) as [S1 S2].
  assert (D : 0 < 1 - rho) by lra. split; intros Z.
  - rewrite <- ln_1. apply ln_increasing; [lra | ]. apply (Rmult_lt_reg_r (1 - rho)); auto. rewrite Rmult_1_l. unfold Rdiv. rewrite Rmult_assoc, Rinv_l, Rmult_1_r by lra. auto.
  - rewrite <- ln_1. apply ln_increasing; [apply Rdiv_lt_0_compat; lra | ]. apply (Rmult_lt_reg_r (1 - rho)); auto. rewrite Rmult_1_l. unfold Rdiv. rewrite Rmult_assoc, Rinv_l, Rmult_1_r by lra. auto.
Qed.
Lemma hagan_x_nonzero (rho z : R) : -1 < rho < 1 -> z <> 0 -> hagan_x rho z <> 0.
Proof. intros H Z. destruct (hagan_x_sign rho z H) as [A B]. destruct (Rdichotomy _ _ Z) as [L | G]; [specialize (B L) | specialize (A G)]; lra. Qed.
Lemma hagan_ratio_pos (rho z : R) : -1 < rho < 1 -> z <> 0 -> 0 < z / hagan_x rho z.
Proof.
  intros H Z. destruct (hagan_x_sign rho z H) as [A B]. destruct (Rdichotomy _ _ Z) as [L | G].
  - specialize (B L). replace (z / hagan_x rho z) with ((- z) / (- hagan_x rho z)) by (field; lra). apply Rdiv_lt_0_compat; lra.
  - apply Rdiv_lt_0_compat; auto.
Qed.

Lemma sabr_x_fin (rho z : R) : -1 < rho < 1 -> sabr_x rho (Fin z) = Fin (hagan_x rho z).
Proof.
  intros H. unfold sabr_x, sub. cbn [add mul neg].
  pose proof (disc_pos rho z H) as D. pose proof (root_gt rho z H) as G.
  replace (1 + - (2 * rho * z) + z * z) with (1 - 2 * rho * z + z ^ 2) by ring.
  unfold nsqrt. destruct (Rlt_dec (1 - 2 * rho * z + z ^ 2) 0); [lra | ]. cbn [add].
  unfold div. destruct (Req_EM_T (1 - rho) 0); [lra | ].
  unfold nlog. change (sqrt (1 - 2 * rho * z + z ^ 2) + z + - rho) with (sqrt (1 - 2 * rho * z + z ^ 2) + z - rho).
  destruct (Rlt_dec 0 ((sqrt (1 - 2 * rho * z + z ^ 2) + z - rho) / (1 - rho))) as [P | P]; [reflexivity | ].
  exfalso. apply P. apply Rdiv_lt_0_compat; lra.
Qed.

Lemma skew_pos (c d l : R) : 0 <= c -> 0 <= d -> 0 < 1 + c * l ^ 2 + d * l ^ 4.
Proof.
  intros C D. assert (0 <= l ^ 2) by (replace (l ^ 2) with (l * l) by ring; nra). assert (0 <= l ^ 4) by (replace (l ^ 4) with ((l * l) * (l * l)) by ring; nra). nra.
Qed.
Lemma beta_skew (beta l : R) : 0 < 1 + (1 - beta) ^ 2 / 24 * l ^ 2 + (1 - beta) ^ 4 / 1920 * l ^ 4.
Proof.
  apply skew_pos.
  - replace ((1 - beta) ^ 2 / 24) with ((1 - beta) * (1 - beta) / 24) by field. pose proof (Rle_0_sqr (1 - beta)) as Q. unfold Rsqr in Q. lra.
  - replace ((1 - beta) ^ 4 / 1920) with (((1 - beta) * (1 - beta)) * ((1 - beta) * (1 - beta)) / 1920) by field.
    pose proof (Rle_0_sqr ((1 - beta) * (1 - beta))) as Q. unfold Rsqr in Q. lra.
Qed.

(* ---- one element ---- *)
Lemma elem_atm (tau F alpha beta rho v K : R) : 0 < F -> 0 < K -> Rabs (ln F - ln K) < sabr_atm_tol ->
  sabr_elem tau F alpha beta rho v K = Fin (alpha / Rpower (F * K) ((1 - beta) / 2) * hagan_time tau F alpha beta rho v K).
Proof.
  intros HF HK A. assert (P : 0 < F * K) by nra. unfold sabr_elem. rewrite log_ratio by auto. unfold abs_below.
  destruct (Rlt_dec (Rabs (ln F - ln K)) sabr_atm_tol); [ | contradiction].
  rewrite bracket_fin, npow_pos by auto. unfold div. pose proof (rpower_pos (F * K) ((1 - beta) / 2)).
  destruct (Req_EM_T (Rpower (F * K) ((1 - beta) / 2)) 0); [lra | ]. reflexivity.
Qed.

Lemma tol_pos : 0 < sabr_atm_tol. Proof. apply Rinv_0_lt_compat. lra. Qed.

Lemma z_nonzero (F alpha beta v K : R) : alpha <> 0 -> v <> 0 -> ln F - ln K <> 0 -> hagan_z F alpha beta v K <> 0.
Proof.
  intros A V L. unfold hagan_z. pose proof (rpower_pos (F * K) ((1 - beta) / 2)).
  repeat apply Rmult_integral_contrapositive_currified; auto; try lra. apply Rinv_neq_0_compat; auto.
Qed.

Lemma elem_off (tau F alpha beta rho v K : R) : 0 < F -> 0 < K -> alpha <> 0 -> v <> 0 -> -1 < rho < 1 -> sabr_atm_tol <= Rabs (ln F - ln K) ->
  sabr_elem tau F alpha beta rho v K = Fin (hagan_vol tau F alpha beta rho v K).
Proof.
  intros HF HK HA HV HR A. assert (P : 0 < F * K) by nra. unfold sabr_elem. rewrite log_ratio by auto. unfold abs_below.
  destruct (Rlt_dec (Rabs (ln F - ln K)) sabr_atm_tol); [lra | ].
  assert (L : ln F - ln K <> 0). { intros Q. rewrite Q, Rabs_R0 in A. pose proof tol_pos. lra. }
  rewrite bracket_fin, npow_pos by auto. pose proof (rpower_pos (F * K) ((1 - beta) / 2)) as HP.
  assert (Z : mul (mul (div (Fin v) (Fin alpha)) (Fin (Rpower (F * K) ((1 - beta) / 2)))) (Fin (ln F - ln K)) = Fin (hagan_z F alpha beta v K)).
  { unfold div. destruct (Req_EM_T alpha 0); [contradiction | ]. reflexivity. }
  cbv zeta. rewrite Z. rewrite sabr_x_fin by auto.
  pose proof (z_nonzero F alpha beta v K HA HV L) as ZN. pose proof (hagan_x_nonzero rho _ HR ZN) as XN.
  unfold npow2, div. destruct (Req_EM_T (hagan_x rho (hagan_z F alpha beta v K)) 0); [contradiction | ]. cbn [mul add].
  pose proof (beta_skew beta (ln F - ln K)) as S.
  set (d := Rpower (F * K) ((1 - beta) / 2) * (1 + (1 - beta) ^ 2 / 24 * ((ln F - ln K) * (ln F - ln K)) + (1 - beta) ^ 4 / 1920 * ((ln F - ln K) * (ln F - ln K) * ((ln F - ln K) * (ln F - ln K))))).
  assert (E : d = Rpower (F * K) ((1 - beta) / 2) * (1 + (1 - beta) ^ 2 / 24 * (ln F - ln K) ^ 2 + (1 - beta) ^ 4 / 1920 * (ln F - ln K) ^ 4)) by (unfold d; ring).
  assert (D : d <> 0). { rewrite E. apply Rmult_integral_contrapositive_currified; lra. }
  destruct (Req_EM_T d 0); [contradiction | ]. cbn [mul]. f_equal. unfold hagan_vol. rewrite <- E. unfold Rdiv. ring.
Qed.

Lemma calc1 (tau F alpha beta rho v K shift : R) :
  calc_sln_vol (smile1 tau F alpha beta rho v) [K] [shift] = Ok [sabr_elem tau (F + shift) alpha beta rho v (K + shift)].
Proof. reflexivity. Qed.

Lemma vol_is (tau F alpha beta rho v K shift y : R) : sabr_vol_is tau F alpha beta rho v K shift y <-> sabr_elem tau (F + shift) alpha beta rho v (K + shift) = Fin y.
Proof. unfold sabr_vol_is. rewrite calc1. split; intros H; [injection H as H; auto | rewrite H; auto]. Qed.

(* ---- at the money: a cubic in alpha ---- *)
Lemma power_sq (f y : R) : 0 < f -> Rpower (f * f) y = Rpower f (2 * y).
Proof. intros H. unfold Rpower. rewrite ln_mult by auto. f_equal. ring. Qed.

Lemma power_double (f y : R) : Rpower f (2 * y) = Rpower f y * Rpower f y.
Proof. rewrite <- Rpower_plus. f_equal. ring. Qed.

Lemma atm_at_forward (tau f alpha beta rho v : R) : 0 < f ->
  sabr_elem tau f alpha beta rho v f = Fin (hagan_atm tau f alpha beta rho v).
Proof.
  intros H. rewrite elem_atm; auto.
  - f_equal. unfold hagan_time, hagan_atm. rewrite !power_sq by auto.
    replace (2 * ((1 - beta) / 2)) with (1 - beta) by field. replace (2 * (1 - beta)) with (2 - 2 * beta) by ring. reflexivity.
  - replace (ln f - ln f) with 0 by ring. rewrite Rabs_R0. apply tol_pos.
Qed.

Lemma atm_cubic (tau f alpha beta rho v : R) : 0 < f ->
  hagan_atm tau f alpha beta rho v * Rpower f (1 - beta)
  = cubic_a tau f beta * alpha ^ 3 + cubic_b tau f beta rho v * alpha ^ 2 + cubic_c tau rho v * alpha.
Proof.
  intros H. unfold hagan_atm, cubic_a, cubic_b, cubic_c. pose proof (rpower_pos f (1 - beta)). pose proof (rpower_pos f (2 - 2 * beta)).
  field. split; lra.
Qed.

Definition poly (a b c d x : R) : R := a * x ^ 3 + b * x ^ 2 + c * x + d.
Lemma reprices (tau F alpha beta rho v shift vol : R) : 0 < F + shift ->
  sabr_vol_is tau F alpha beta rho v F shift vol
  <-> poly (cubic_a tau (F + shift) beta) (cubic_b tau (F + shift) beta rho v) (cubic_c tau rho v) (- vol * Rpower (F + shift) (1 - beta)) alpha = 0.
Proof.
  intros H. rewrite vol_is, atm_at_forward by auto. pose proof (rpower_pos (F + shift) (1 - beta)) as P.
  unfold poly. rewrite <- atm_cubic by auto. split.
  - intros E. injection E as ->. ring.
  - intros E. f_equal. apply (Rmult_eq_reg_r (Rpower (F + shift) (1 - beta))); lra.
Qed.

(* ---- the closest root ---- *)
Lemma closest_spec (g : R) (l : list R) : forall (b : R), (closest g b l = b \/ In (closest g b l) l) /\ (forall y : R, y = b \/ In y l -> Rabs (closest g b l - g) <= Rabs (y - g)).
Proof.
  induction l as [ | x r IH]; intros b; cbn [closest].
  - split; [left; auto | ]. intros y [-> | []]. lra.
  - destruct (Rlt_dec (Rabs (x - g)) (Rabs (b - g))) as [L | L].
    + destruct (IH x) as [I M]. split; [right; destruct I as [-> | I]; [left | right]; auto | ].
      intros y [-> | [<- | Y]]; [ | apply M; auto | apply M; auto]. specialize (M x (or_introl eq_refl)). lra.
    + destruct (IH b) as [I M]. split; [destruct I as [-> | I]; [left | right; right]; auto | ].
      intros y [-> | [<- | Y]]; [apply M; auto | | apply M; auto]. specialize (M b (or_introl eq_refl)). lra.
Qed.
Lemma pick_spec (g : R) (l : list R) :
  match pick g l with
  | Ok x => In x l /\ forall y : R, In y l -> Rabs (x - g) <= Rabs (y - g)
  | Err e => e = ValueError /\ l = []
  end.
Proof.
  destruct l as [ | x r]; cbn [pick]; [auto | ]. destruct (closest_spec g r x) as [I M]. split.
  - destruct I as [-> | I]; [left | right]; auto.
  - intros y [<- | Y]; apply M; auto.
Qed.
Lemma real_roots_in (l : list (R * R)) (x : R) : In x (real_roots l) <-> In (x, 0) l.
Proof.
  unfold real_roots. rewrite in_map_iff. split.
  - intros ([a b] & <- & I). apply filter_In in I as [I E]. cbn in E. destruct (Req_EM_T b 0) as [-> | N]; [auto | discriminate].
  - intros I. exists (x, 0). split; auto. apply filter_In. split; auto. cbn. destruct (Req_EM_T 0 0); auto.
Qed.

Lemma solve_alpha_cases (roots : solver) (tau F beta rho v vol shift : R) :
  match solve_alpha roots tau F beta rho v vol shift with
  | Ok x => In (x, 0) (roots (cubic_a tau (F + shift) beta) (cubic_b tau (F + shift) beta rho v) (cubic_c tau rho v) (- vol * Rpower (F + shift) (1 - beta)))
            /\ forall y : R, In (y, 0) (roots (cubic_a tau (F + shift) beta) (cubic_b tau (F + shift) beta rho v) (cubic_c tau rho v) (- vol * Rpower (F + shift) (1 - beta)))
               -> Rabs (x - vol * Rpower (F + shift) (1 - beta)) <= Rabs (y - vol * Rpower (F + shift) (1 - beta))
  | Err e => e = ValueError /\ forall y : R, ~ In (y, 0) (roots (cubic_a tau (F + shift) beta) (cubic_b tau (F + shift) beta rho v) (cubic_c tau rho v) (- vol * Rpower (F + shift) (1 - beta)))
  end.
Proof.
  unfold solve_alpha. set (l := roots _ _ _ _). set (g := vol * Rpower (F + shift) (1 - beta)).
  pose proof (pick_spec g (real_roots l)) as P. destruct (pick g (real_roots l)) as [x | e].
  - destruct P as [I M]. split; [apply real_roots_in; auto | ]. intros y Y. apply M, real_roots_in; auto.
  - destruct P as [-> E]. split; auto. intros y Y. apply real_roots_in in Y. rewrite E in Y. destruct Y.
Qed.
