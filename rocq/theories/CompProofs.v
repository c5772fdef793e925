From Coq Require Import ZArith Reals Lra Psatz.
From Verif Require Import Base NumModel CompModel CompSpec.
Open Scope R_scope.

Lemma ppy_pos f n : periods_per_year f = Some n -> 0 < n.
Proof. destruct f; cbn; intros H; try discriminate; injection H as <-; lra. Qed.

Lemma df_spec f t r : valid_rate f t r -> df_from_zero_rate f t r = Some (/ accumulation f t r) /\ 0 < accumulation f t r.
Proof.
  unfold valid_rate, accumulation. intros V.
  destruct f; cbn [periods_per_year] in *; cbn [df_from_zero_rate periods_per_year obind].
  - rewrite np_div_nz by lra. split; [f_equal; lra | exact V].
  - split; [|apply exp_pos]. f_equal. rewrite <- exp_Ropp. f_equal. lra.
  - rewrite (np_pow_pos _ _ V). cbn [obind]. pose proof (exp_pos (365 * t * ln (1 + r / 365))) as E.
    change (exp (365 * t * ln (1 + r / 365))) with (Rpower (1 + r / 365) (365 * t)) in E. rewrite np_div_nz by lra. split; [f_equal; unfold Rdiv; ring | exact E].
  - rewrite (np_pow_pos _ _ V). cbn [obind]. pose proof (exp_pos (52 * t * ln (1 + r / 52))) as E.
    change (exp (52 * t * ln (1 + r / 52))) with (Rpower (1 + r / 52) (52 * t)) in E. rewrite np_div_nz by lra. split; [f_equal; unfold Rdiv; ring | exact E].
  - rewrite (np_pow_pos _ _ V). cbn [obind]. pose proof (exp_pos (12 * t * ln (1 + r / 12))) as E.
    change (exp (12 * t * ln (1 + r / 12))) with (Rpower (1 + r / 12) (12 * t)) in E. rewrite np_div_nz by lra. split; [f_equal; unfold Rdiv; ring | exact E].
  - rewrite (np_pow_pos _ _ V). cbn [obind]. pose proof (exp_pos (4 * t * ln (1 + r / 4))) as E.
    change (exp (4 * t * ln (1 + r / 4))) with (Rpower (1 + r / 4) (4 * t)) in E. rewrite np_div_nz by lra. split; [f_equal; unfold Rdiv; ring | exact E].
  - rewrite (np_pow_pos _ _ V). cbn [obind]. pose proof (exp_pos (2 * t * ln (1 + r / 2))) as E.
    change (exp (2 * t * ln (1 + r / 2))) with (Rpower (1 + r / 2) (2 * t)) in E. rewrite np_div_nz by lra. split; [f_equal; unfold Rdiv; ring | exact E].
  - rewrite (np_pow_pos _ _ V). cbn [obind]. pose proof (exp_pos (1 * t * ln (1 + r / 1))) as E.
    change (exp (1 * t * ln (1 + r / 1))) with (Rpower (1 + r / 1) (1 * t)) in E. rewrite np_div_nz by lra. split; [f_equal; unfold Rdiv; ring | exact E].
Qed.

(* The periodic branch of both conversions, for any number of periods *)
Lemma zero_rate_periodic f n t d : periods_per_year f = Some n -> 0 < t -> 0 < d ->
  zero_rate_from_df f t d = Some (n * (Rpower (/ d) (/ (n * t)) - 1)).
Proof.
  intros P T D. pose proof (ppy_pos f n P) as N.
  assert (NT : n * t <> 0) by (apply Rmult_integral_contrapositive; split; lra).
  assert (E : zero_rate_from_df f t d = (let? i := np_div 1 d in let? e := np_div 1 (n * t) in let? p := np_pow i e in Some (n * (p - 1)))).
  { destruct f; cbn in P |- *; try discriminate; injection P as <-; reflexivity. }
  rewrite E, np_div_nz by lra. cbn [obind]. rewrite np_div_nz by exact NT. cbn [obind].
  assert (0 < 1 / d) by (apply Rdiv_lt_0_compat; lra). rewrite np_pow_pos by assumption. cbn [obind].
  unfold Rdiv. rewrite !Rmult_1_l. reflexivity.
Qed.

Lemma acc_pos f t r : valid_rate f t r -> 0 < accumulation f t r.
Proof. intros V. apply (df_spec f t r V). Qed.

Lemma Rpower_inv_exp x y : 0 < x -> y <> 0 -> Rpower (Rpower x y) (/ y) = x.
Proof. intros X Y. rewrite Rpower_mult, Rinv_r by exact Y. apply Rpower_1. exact X. Qed.

Lemma zero_of_df f t r : 0 < t -> valid_rate f t r -> zero_rate_from_df f t (/ accumulation f t r) = Some r.
Proof.
  intros T V. pose proof (acc_pos f t r V) as A.
  destruct (periods_per_year f) as [n|] eqn:P.
  - pose proof (ppy_pos f n P) as N. rewrite (zero_rate_periodic f n) by (auto using Rinv_0_lt_compat).
    unfold accumulation, valid_rate in *. rewrite P in *. rewrite Rinv_involutive by lra.
    rewrite Rpower_inv_exp; [f_equal; field; lra | exact V | apply Rmult_integral_contrapositive; split; lra].
  - destruct f; try discriminate; unfold accumulation, valid_rate in *; cbn [periods_per_year zero_rate_from_df] in *.
    + rewrite np_div_nz by (apply Rinv_neq_0_compat; lra). cbn [obind]. rewrite np_div_nz by lra. f_equal. field. split; lra.
    + rewrite np_log_pos by (apply Rinv_0_lt_compat; exact A). cbn [obind]. rewrite np_div_nz by lra. f_equal.
      rewrite ln_Rinv by exact A. rewrite ln_exp. field. lra.
Qed.

Lemma df_of_zero f t d : 0 < t -> 0 < d -> exists r, zero_rate_from_df f t d = Some r /\ valid_rate f t r /\ df_from_zero_rate f t r = Some d.
Proof.
  intros T D. destruct (periods_per_year f) as [n|] eqn:P.
  - pose proof (ppy_pos f n P) as N. rewrite (zero_rate_periodic f n t d P T D).
    assert (NT : n * t <> 0) by (apply Rmult_integral_contrapositive; split; lra).
    eexists. split; [reflexivity|].
    assert (E : 1 + n * (Rpower (/ d) (/ (n * t)) - 1) / n = Rpower (/ d) (/ (n * t))) by (field; lra).
    assert (V : valid_rate f t (n * (Rpower (/ d) (/ (n * t)) - 1))).
    { unfold valid_rate. rewrite P, E. apply exp_pos. }
    split; [exact V|]. rewrite (proj1 (df_spec f t _ V)). f_equal. unfold accumulation. rewrite P, E.
    rewrite Rpower_mult, Rinv_l by exact NT. rewrite Rpower_1 by (apply Rinv_0_lt_compat; exact D). apply Rinv_involutive. lra.
  - destruct f; try discriminate; cbn [zero_rate_from_df].
    + rewrite np_div_nz by lra. cbn [obind]. rewrite np_div_nz by lra. eexists. split; [reflexivity|].
      assert (E : 1 + (1 / d - 1) / t * t = / d) by (field; lra).
      assert (V : valid_rate Simple t ((1 / d - 1) / t)). { unfold valid_rate. cbn. rewrite E. apply Rinv_0_lt_compat. exact D. }
      split; [exact V|]. rewrite (proj1 (df_spec _ t _ V)). f_equal. unfold accumulation. cbn. rewrite E. apply Rinv_involutive. lra.
    + rewrite np_log_pos by exact D. cbn [obind]. rewrite np_div_nz by lra. eexists. split; [reflexivity|]. split; [exact I|].
      cbn. f_equal. replace (- (- ln d / t) * t) with (ln d) by (field; lra). apply exp_ln. exact D.
Qed.

Lemma df_at_zero_rate f t : df_from_zero_rate f t 0 = Some 1.
Proof.
  assert (V : valid_rate f t 0).
  { unfold valid_rate. destruct (periods_per_year f) as [n|]; [|destruct f; try exact I]; unfold Rdiv; rewrite Rmult_0_l; lra. }
  rewrite (proj1 (df_spec f t 0 V)). f_equal. unfold accumulation.
  destruct (periods_per_year f) as [n|].
  - unfold Rdiv. rewrite Rmult_0_l, Rplus_0_r. unfold Rpower. rewrite ln_1, Rmult_0_r, exp_0. apply Rinv_1.
  - destruct f; rewrite Rmult_0_l, ?exp_0; try (rewrite Rplus_0_r); apply Rinv_1.
Qed.

Lemma acc_increasing f t r s : 0 < t -> valid_rate f t r -> r < s -> valid_rate f t s /\ accumulation f t r < accumulation f t s.
Proof.
  intros T V L. unfold valid_rate, accumulation in *. destruct (periods_per_year f) as [n|] eqn:P.
  - pose proof (ppy_pos f n P) as N. assert (r / n < s / n) by (apply Rmult_lt_compat_r; [apply Rinv_0_lt_compat; exact N|exact L]).
    split; [lra|]. unfold Rpower. apply exp_increasing. apply Rmult_lt_compat_l; [apply Rmult_lt_0_compat; assumption|]. apply ln_increasing; lra.
  - assert (r * t < s * t) by (apply Rmult_lt_compat_r; assumption).
    destruct f; try (split; [exact I | apply exp_increasing; assumption]). split; lra.
Qed.

Lemma df_decreasing f t r s : 0 < t -> valid_rate f t r -> r < s ->
  exists a b, df_from_zero_rate f t r = Some a /\ df_from_zero_rate f t s = Some b /\ 0 < b < a.
Proof.
  intros T V L. destruct (acc_increasing f t r s T V L) as [V' H].
  destruct (df_spec f t r V) as [E1 A1]. destruct (df_spec f t s V') as [E2 A2].
  do 2 eexists. split; [exact E1|]. split; [exact E2|]. split; [apply Rinv_0_lt_compat; exact A2|].
  apply Rinv_lt_contravar; [apply Rmult_lt_0_compat; assumption|exact H].
Qed.

(* At zero years the rate cannot be recovered. *)
Lemma zero_rate_at_zero_years f d : 0 < d -> zero_rate_from_df f 0 d = None.
Proof.
  intros D. destruct f; cbn [zero_rate_from_df periods_per_year obind]; try rewrite (np_div_nz 1 d) by lra; cbn [obind].
  1: apply np_div_zero.
  1: rewrite np_log_pos by exact D; cbn [obind]; apply np_div_zero.
  all: rewrite Rmult_0_r, np_div_zero; reflexivity.
Qed.

(* ---- conversions ---- *)
Definition simple_free (f : comp) : Prop := f <> Simple.

Lemma to_continuous_spec f r : convertible f r -> exists c, to_continuous f r = Some c /\ exp c = accumulation f 1 r /\
  (f <> Simple -> forall t, exp (c * t) = accumulation f t r).
Proof.
  unfold convertible. intros V. destruct (periods_per_year f) as [n|] eqn:P.
  - pose proof (ppy_pos f n P) as N. unfold valid_rate, accumulation in *. rewrite P in *.
    assert (E : to_continuous f r = Some (n * ln (1 + r / n))).
    { destruct f; cbn in P |- *; try discriminate; injection P as <-; unfold np_log1p; rewrite np_log_pos by exact V; reflexivity. }
    rewrite E. eexists. split; [reflexivity|]. unfold Rpower. split; [f_equal; ring|]. intros _ t. f_equal. ring.
  - destruct f; try discriminate; unfold valid_rate, accumulation in *; cbn in *.
    + unfold np_log1p. rewrite np_log_pos by lra. eexists. split; [reflexivity|]. split; [|congruence]. rewrite exp_ln by lra. ring.
    + eexists. split; [reflexivity|]. split; [f_equal; ring|]. intros _ t. reflexivity.
Qed.

Lemma from_continuous_spec g c : exists s, from_continuous g c = Some s /\ convertible g s /\ accumulation g 1 s = exp c /\
  (g <> Simple -> forall t, accumulation g t s = exp (c * t) /\ valid_rate g t s).
Proof.
  unfold convertible, valid_rate, accumulation. destruct (periods_per_year g) as [n|] eqn:P.
  - pose proof (ppy_pos g n P) as N.
    assert (E : from_continuous g c = Some (n * np_expm1 (c / n))) by (destruct g; cbn in P |- *; try discriminate; injection P as <-; reflexivity).
    rewrite E. eexists. split; [reflexivity|].
    assert (F : 1 + n * np_expm1 (c / n) / n = exp (c / n)) by (unfold np_expm1; field; lra). rewrite F.
    split; [apply exp_pos|]. unfold Rpower. rewrite ln_exp. split; [f_equal; field; lra|]. intros _ t. split; [f_equal; field; lra | apply exp_pos].
  - destruct g; try discriminate; cbn.
    + eexists. split; [reflexivity|]. unfold np_expm1. split; [pose proof (exp_pos c); lra|]. split; [ring|]. congruence.
    + eexists. split; [reflexivity|]. split; [exact I|]. split; [f_equal; ring|]. intros _ t. split; [reflexivity|exact I].
Qed.

Lemma from_to_continuous f r c : to_continuous f r = Some c -> from_continuous f c = Some r.
Proof.
  destruct (periods_per_year f) as [n|] eqn:P.
  - pose proof (ppy_pos f n P) as N.
    assert (E : to_continuous f r = (let? l := np_log1p (r / n) in Some (n * l))) by (destruct f; cbn in P |- *; try discriminate; injection P as <-; reflexivity).
    assert (F : from_continuous f c = Some (n * np_expm1 (c / n))) by (destruct f; cbn in P |- *; try discriminate; injection P as <-; reflexivity).
    rewrite E, F. unfold np_log1p. destruct (np_log (1 + r / n)) as [l|] eqn:L; cbn [obind]; [|discriminate].
    apply np_log_some in L as [V ->]. intros H. injection H as <-. f_equal. unfold np_expm1.
    replace (n * ln (1 + r / n) / n) with (ln (1 + r / n)) by (field; lra). rewrite exp_ln by exact V. field. lra.
  - destruct f; try discriminate; cbn; intros H.
    + unfold np_log1p in H. apply np_log_some in H as [V ->]. f_equal. unfold np_expm1. rewrite exp_ln by exact V. ring.
    + congruence.
Qed.
Lemma to_from_continuous f c r : from_continuous f c = Some r -> to_continuous f r = Some c.
Proof.
  intros H. destruct (from_continuous_spec f c) as (s & E & V & A & _). rewrite E in H. injection H as ->.
  destruct (to_continuous_spec f r V) as (c' & E' & A' & _). rewrite E'. f_equal. apply exp_inv. congruence.
Qed.

Lemma convert_defined f g r : convertible f r -> exists s, convert_rate_to f r g = Some s /\ convertible g s /\ accumulation g 1 s = accumulation f 1 r.
Proof.
  intros V. unfold convert_rate_to. destruct (to_continuous_spec f r V) as (c & -> & A & _). cbn [obind].
  destruct (from_continuous_spec g c) as (s & -> & V' & A' & _). exists s. split; [reflexivity|]. split; [exact V'|]. congruence.
Qed.

Lemma convert_preserves f g r s t : f <> Simple -> g <> Simple -> convertible f r -> convert_rate_to f r g = Some s ->
  df_from_zero_rate g t s = df_from_zero_rate f t r /\ exists d, df_from_zero_rate f t r = Some d.
Proof.
  intros Hf Hg V E. unfold convert_rate_to in E. destruct (to_continuous_spec f r V) as (c & E1 & A1 & G). rewrite E1 in E. cbn [obind] in E.
  destruct (from_continuous_spec g c) as (s' & E2 & _ & _ & G2). rewrite E2 in E. injection E as ->.
  destruct (G2 Hg t) as [A2 V2].
  assert (V3 : valid_rate f t r). { unfold convertible, valid_rate in *. destruct (periods_per_year f); [exact V|]. destruct f; try exact I. congruence. }
  rewrite (proj1 (df_spec g t s V2)), (proj1 (df_spec f t r V3)), A2, (G Hf t). eauto.
Qed.

Lemma convert_preserves_one_year f g r s : convertible f r -> convert_rate_to f r g = Some s ->
  df_from_zero_rate g 1 s = df_from_zero_rate f 1 r /\ exists d, df_from_zero_rate f 1 r = Some d.
Proof.
  intros V E. destruct (convert_defined f g r V) as (s' & E' & V' & A). rewrite E in E'. injection E' as <-.
  rewrite (proj1 (df_spec g 1 s V')), (proj1 (df_spec f 1 r V)), A. eauto.
Qed.

Lemma convert_back f g r s : convertible f r -> convert_rate_to f r g = Some s -> convert_rate_to g s f = Some r.
Proof.
  intros V E. unfold convert_rate_to in *. destruct (to_continuous f r) as [c|] eqn:C; [|discriminate]. cbn [obind] in E.
  rewrite (to_from_continuous g c s E). cbn [obind]. exact (from_to_continuous f r c C).
Qed.

(* strict Bernoulli: simple and compounded accumulation agree only over one year (or at rate zero) *)
Lemma ln_lt_sub1 y : 0 < y -> y <> 1 -> ln y < y - 1.
Proof.
  intros Y N. pose proof (exp_ineq1 (ln y)) as E. rewrite exp_ln in E by exact Y.
  assert (ln y <> 0). { intros Z0. apply N. rewrite <- (exp_ln y Y), Z0. apply exp_0. }
  specialize (E H). lra.
Qed.

Lemma ln_strict_concave a b t : 0 < a -> 0 < b -> a <> b -> 0 < t < 1 -> (1 - t) * ln a + t * ln b < ln ((1 - t) * a + t * b).
Proof.
  intros A B N T. set (m := (1 - t) * a + t * b). assert (M : 0 < m) by (unfold m; nra).
  assert (X : a / m <> 1). { intros E. assert (a = m) by (rewrite <- (Rmult_1_l m), <- E; field; lra). unfold m in H. apply N. nra. }
  assert (Y : b / m <> 1). { intros E. assert (b = m) by (rewrite <- (Rmult_1_l m), <- E; field; lra). unfold m in H. apply N. nra. }
  assert (Pa : 0 < a / m) by (apply Rdiv_lt_0_compat; assumption). assert (Pb : 0 < b / m) by (apply Rdiv_lt_0_compat; assumption).
  pose proof (ln_lt_sub1 _ Pa X) as L1. pose proof (ln_lt_sub1 _ Pb Y) as L2.
  unfold Rdiv in L1, L2. rewrite ln_mult, ln_Rinv in L1, L2; try assumption; try (apply Rinv_0_lt_compat; assumption).
  assert (S : (1 - t) * (a * / m - 1) + t * (b * / m - 1) = 0).
  { transitivity (((1 - t) * a + t * b) / m - 1); [field; lra|]. change ((1 - t) * a + t * b) with m. field. lra. }
  nra.
Qed.

Lemma bernoulli_strict r t : 0 < 1 + r -> 0 < 1 + r * t -> r <> 0 -> 0 < t -> t <> 1 -> Rpower (1 + r) t <> 1 + r * t.
Proof.
  intros P Q N T T1 E. assert (L : t * ln (1 + r) = ln (1 + r * t)). { rewrite <- E. unfold Rpower. rewrite ln_exp. reflexivity. }
  destruct (Rlt_le_dec t 1) as [H|H].
  - pose proof (ln_strict_concave 1 (1 + r) t ltac:(lra) P ltac:(lra) ltac:(lra)) as C. rewrite ln_1 in C.
    replace ((1 - t) * 1 + t * (1 + r)) with (1 + r * t) in C by ring. lra.
  - assert (1 < t) by lra. assert (I : 0 < / t < 1). { split; [apply Rinv_0_lt_compat; lra|]. rewrite <- Rinv_1. apply Rinv_lt_contravar; lra. }
    assert (r * t <> 0) by (apply Rmult_integral_contrapositive; split; lra).
    pose proof (ln_strict_concave 1 (1 + r * t) (/ t) ltac:(lra) Q ltac:(lra) I) as C. rewrite ln_1 in C.
    replace ((1 - / t) * 1 + / t * (1 + r * t)) with (1 + r) in C by (field; lra). rewrite <- L in C.
    replace (/ t * (t * ln (1 + r))) with (ln (1 + r)) in C by (field; lra). lra.
Qed.

Lemma convert_simple_iff g r s t : g <> Simple -> convertible Simple r -> valid_rate Simple t r -> 0 < t -> convert_rate_to Simple r g = Some s ->
  (df_from_zero_rate g t s = df_from_zero_rate Simple t r <-> t = 1 \/ r = 0).
Proof.
  intros Hg V Vt T E. pose proof E as E0. unfold convert_rate_to in E. destruct (to_continuous_spec Simple r V) as (c & E1 & A1 & _). rewrite E1 in E. cbn [obind] in E.
  destruct (from_continuous_spec g c) as (s' & E2 & _ & _ & G2). rewrite E2 in E. injection E as ->. destruct (G2 Hg t) as [A2 V2].
  rewrite (proj1 (df_spec g t s V2)), (proj1 (df_spec Simple t r Vt)), A2.
  unfold accumulation, convertible, valid_rate in *. cbn [periods_per_year] in *.
  assert (C : exp (c * t) = Rpower (1 + r) t).
  { unfold Rpower. f_equal. rewrite Rmult_comm. f_equal. rewrite Rmult_1_r in A1. rewrite <- A1. symmetry. apply ln_exp. }
  rewrite C. split.
  - intros H. injection H as H. assert (H' : Rpower (1 + r) t = 1 + r * t).
    { rewrite <- (Rinv_involutive (Rpower (1 + r) t)), H, Rinv_involutive; [reflexivity|lra|]. pose proof (exp_pos (t * ln (1 + r))). unfold Rpower. lra. }
    destruct (Req_dec t 1); [auto|]. destruct (Req_dec r 0); [auto|]. exfalso. revert H'. apply bernoulli_strict; lra.
  - intros [->| ->]; f_equal; f_equal.
    + rewrite Rpower_1 by lra. ring.
    + unfold Rpower. rewrite Rplus_0_r, ln_1, Rmult_0_r, exp_0. ring.
Qed.

Lemma convert_to_simple_iff f r s t : f <> Simple -> convertible f r -> 0 < t -> convert_rate_to f r Simple = Some s -> valid_rate Simple t s ->
  (df_from_zero_rate Simple t s = df_from_zero_rate f t r <-> t = 1 \/ s = 0).
Proof.
  intros Hf V T E Vt. destruct (convert_defined f Simple r V) as (s' & E' & V' & _). rewrite E in E'. injection E' as <-.
  pose proof (convert_back f Simple r s V E) as B. rewrite <- (convert_simple_iff f s r t Hf V' Vt T B). split; intros H; symmetry; exact H.
Qed.
