(* Properties C35 and C36: compounding conventions. *)
From Coq Require Import Reals Lra.
From Verif Require Import Base NumModel CompModel CompSpec CompProofs.
Open Scope R_scope.

(* ---- C35 ---- *)
Theorem C35_discount_factor : forall f t r, valid_rate f t r ->
  df_from_zero_rate f t r = Some (/ accumulation f t r) /\ 0 < accumulation f t r.
Proof. exact df_spec. Qed.
Print Assumptions C35_discount_factor.

Theorem C35_rate_recovered : forall f t r d, 0 < t -> valid_rate f t r -> df_from_zero_rate f t r = Some d -> zero_rate_from_df f t d = Some r.
Proof.
  intros f t r d T V E. rewrite (proj1 (df_spec f t r V)) in E. injection E as <-. exact (zero_of_df f t r T V).
Qed.
Print Assumptions C35_rate_recovered.

Theorem C35_discount_factor_recovered : forall f t d, 0 < t -> 0 < d ->
  exists r, zero_rate_from_df f t d = Some r /\ valid_rate f t r /\ df_from_zero_rate f t r = Some d.
Proof. exact df_of_zero. Qed.
Print Assumptions C35_discount_factor_recovered.

Theorem C35_zero_rate_gives_one : forall f t, df_from_zero_rate f t 0 = Some 1.
Proof. exact df_at_zero_rate. Qed.
Print Assumptions C35_zero_rate_gives_one.

Theorem C35_strictly_decreasing : forall f t r s, 0 < t -> valid_rate f t r -> r < s ->
  exists a b, df_from_zero_rate f t r = Some a /\ df_from_zero_rate f t s = Some b /\ 0 < b < a.
Proof. exact df_decreasing. Qed.
Print Assumptions C35_strictly_decreasing.

(* At zero years no rate comes back. *)
Theorem C35_no_rate_at_zero_years : forall f d, 0 < d -> zero_rate_from_df f 0 d = None.
Proof. exact zero_rate_at_zero_years. Qed.
Print Assumptions C35_no_rate_at_zero_years.

Example C35_ex : valid_rate CQuarterly 2 (/ 10) /\ valid_rate Simple 2 (- / 10) /\ accumulation CSemiannual 1 (/ 10) = 441 / 400.
Proof.
  unfold valid_rate, accumulation. cbn. split; [lra|]. split; [lra|].
  replace (2 * 1) with (INR 2) by (cbn; lra). rewrite Rpower_pow by lra. cbn. field.
Qed.

(* ---- C36 ---- *)
Theorem C36_preserves_discount_factors : forall f g r s t, f <> Simple -> g <> Simple -> convertible f r -> convert_rate_to f r g = Some s ->
  df_from_zero_rate g t s = df_from_zero_rate f t r /\ exists d, df_from_zero_rate f t r = Some d.
Proof. exact convert_preserves. Qed.
Print Assumptions C36_preserves_discount_factors.

Theorem C36_always_defined_and_invertible : forall f g r, convertible f r ->
  exists s, convert_rate_to f r g = Some s /\ convertible g s /\ convert_rate_to g s f = Some r.
Proof.
  intros f g r V. destruct (convert_defined f g r V) as (s & E & V' & _). exists s. split; [exact E|]. split; [exact V'|].
  exact (convert_back f g r s V E).
Qed.
Print Assumptions C36_always_defined_and_invertible.

Theorem C36_one_year : forall f g r s, convertible f r -> convert_rate_to f r g = Some s ->
  df_from_zero_rate g 1 s = df_from_zero_rate f 1 r /\ exists d, df_from_zero_rate f 1 r = Some d.
Proof. exact convert_preserves_one_year. Qed.
Print Assumptions C36_one_year.

(* A simple rate converted to any other convention gives another discount factor at every other maturity. *)
Theorem C36_from_simple_only_one_year : forall g r s t, g <> Simple -> convertible Simple r -> valid_rate Simple t r -> 0 < t ->
  convert_rate_to Simple r g = Some s ->
  (df_from_zero_rate g t s = df_from_zero_rate Simple t r <-> t = 1 \/ r = 0).
Proof. exact convert_simple_iff. Qed.
Print Assumptions C36_from_simple_only_one_year.

Theorem C36_to_simple_only_one_year : forall f r s t, f <> Simple -> convertible f r -> 0 < t -> convert_rate_to f r Simple = Some s ->
  valid_rate Simple t s ->
  (df_from_zero_rate Simple t s = df_from_zero_rate f t r <-> t = 1 \/ s = 0).
Proof. exact convert_to_simple_iff. Qed.
Print Assumptions C36_to_simple_only_one_year.

Example C36_ex : convertible Simple (/ 10) /\ valid_rate Simple 2 (/ 10) /\ convert_rate_to Simple (/ 10) CAnnual = Some (/ 10).
Proof.
  unfold convertible, valid_rate. cbn. split; [lra|]. split; [lra|]. unfold convert_rate_to, to_continuous, np_log1p.
  rewrite np_log_pos by lra. cbn. f_equal. unfold np_expm1. replace (ln (1 + / 10) / 1) with (ln (1 + / 10)) by field. rewrite exp_ln by lra. lra.
Qed.
