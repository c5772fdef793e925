(* Bond volatilities of the Hull-White model as functions of its parameters *)
From Coq Require Import ZArith Reals Lra.
From Verif Require Import Base HwModel HwSpec HwProofs.
Open Scope R_scope.

Lemma monotone_from_derivative (f f' : R -> R) : (forall x, 0 < x -> derivable_pt_lim f x (f' x)) -> (forall x, 0 < x -> 0 < f' x) -> forall x y, 0 < x -> x < y -> f x < f y.
Proof.
  intros D P x y X L. destruct (MVT_cor2 f f' x y L) as (c & E & C); [intros c C; apply D; lra|]. assert (0 < f' c) by (apply P; lra). nra.
Qed.
(* (1 - exp (-x)) / x decreases *)
Lemma decay_decreasing x y : 0 < x -> x < y -> (1 - exp (- y)) / y < (1 - exp (- x)) / x.
Proof.
  intros X L. apply Ropp_lt_cancel. apply (monotone_from_derivative (fun x => - ((1 - exp (- x)) / x)) (fun x => (1 - exp (- x) * (1 + x)) / (x * x))); [| |exact X|exact L].
  - intros z Z. assert (z <> 0) by lra. replace ((1 - exp (- z) * (1 + z)) / (z * z)) with (- ((exp (- z) * z - (1 - exp (- z)) * 1) / (Rsqr z))) by (unfold Rsqr; field; assumption).
    apply (derivable_pt_lim_opp (fun x => (1 - exp (- x)) / x)). replace (exp (- z) * z - (1 - exp (- z)) * 1) with (exp (- z) * id z - 1 * (1 - exp (- z))) by (unfold id; ring). apply (derivable_pt_lim_div (fun x => 1 - exp (- x)) id z (exp (- z)) 1); [|apply derivable_pt_lim_id|assumption].
    replace (exp (- z)) with (0 - exp (- z) * (- 1)) by ring. apply (derivable_pt_lim_minus (fun _ => 1) (fun x => exp (- x))); [apply derivable_pt_lim_const|]. apply (derivable_pt_lim_comp (fun x => - x) exp); [apply (derivable_pt_lim_opp id), derivable_pt_lim_id|apply derivable_pt_lim_exp].
  - intros z Z. apply Rdiv_lt_0_compat; [|nra]. pose proof (exp_ineq1 z ltac:(lra)). pose proof (exp_pos (- z)). assert (exp (- z) * exp z = 1) by (rewrite <- exp_plus, Rplus_opp_l; apply exp_0). nra.
Qed.
(* (exp x - 1) / x increases *)
Lemma growth_increasing x y : 0 < x -> x < y -> (exp x - 1) / x < (exp y - 1) / y.
Proof.
  intros X L. apply (monotone_from_derivative (fun x => (exp x - 1) / x) (fun x => (exp x * x - (exp x - 1)) / (x * x))); [| |exact X|exact L].
  - intros z Z. assert (z <> 0) by lra. replace ((exp z * z - (exp z - 1)) / (z * z)) with ((exp z * id z - 1 * (exp z - 1)) / Rsqr z) by (unfold Rsqr, id; field; assumption).
    apply (derivable_pt_lim_div (fun x => exp x - 1) id z (exp z) 1); [|apply derivable_pt_lim_id|assumption]. assert (E : exp z - 0 = exp z) by ring. rewrite <- E. apply (derivable_pt_lim_minus exp (fun _ => 1)); [apply derivable_pt_lim_exp|apply derivable_pt_lim_const].
  - intros z Z. apply Rdiv_lt_0_compat; [|nra]. pose proof (exp_ineq1 (- z) ltac:(lra)). pose proof (exp_pos z). assert (exp (- z) * exp z = 1) by (rewrite <- exp_plus, Rplus_opp_l; apply exp_0). nra.
Qed.
Lemma below_one x : 0 < x -> 0 < 1 - exp (- x).
Proof. intros X. assert (exp (- x) < exp 0) by (apply exp_increasing; lra). rewrite exp_0 in *. lra. Qed.
(* (1 - exp (-a k)) / (1 - exp (-c k)) increases in k when a < c *)
Lemma ratio_increasing a c k k' : 0 < a -> a < c -> 0 < k -> k < k' -> (1 - exp (- (k * a))) * (1 - exp (- (k' * c))) < (1 - exp (- (k' * a))) * (1 - exp (- (k * c))).
Proof.
  intros A C K L.
  assert (P : forall x u, 0 < x -> 0 < u -> 0 < 1 - exp (- (x * u))) by (intros; apply below_one; nra).
  assert (D : forall u x, 0 < u -> 0 < x -> derivable_pt_lim (fun x => ln (1 - exp (- (x * u)))) x (u / (exp (x * u) - 1))).
  { intros u x U X. pose proof (P x u X U) as Q. pose proof (exp_pos (x * u)) as E. assert (V : exp (- (x * u)) = / exp (x * u)) by apply exp_Ropp.
    assert (N : 0 < exp (x * u) - 1). { rewrite V in Q. assert (exp (x * u) * (1 - / exp (x * u)) = exp (x * u) - 1) by (field; lra). nra. }
    replace (u / (exp (x * u) - 1)) with (/ (1 - exp (- (x * u))) * (exp (- (x * u)) * u)) by (rewrite V; field; split; lra).
    apply (derivable_pt_lim_comp (fun x => 1 - exp (- (x * u))) ln); [|apply derivable_pt_lim_ln; exact Q].
    replace (exp (- (x * u)) * u) with (0 - exp (- (x * u)) * - (1 * u)) by ring. apply (derivable_pt_lim_minus (fun _ => 1) (fun x => exp (- (x * u)))); [apply derivable_pt_lim_const|].
    apply (derivable_pt_lim_comp (fun x => - (x * u)) exp); [|apply derivable_pt_lim_exp]. apply (derivable_pt_lim_opp (fun x => x * u)). replace (1 * u) with (1 * u + x * 0) by ring. apply (derivable_pt_lim_mult id (fun _ => u)); [apply derivable_pt_lim_id|apply derivable_pt_lim_const]. }
  assert (M : ln (1 - exp (- (k * a))) - ln (1 - exp (- (k * c))) < ln (1 - exp (- (k' * a))) - ln (1 - exp (- (k' * c)))).
  { apply (monotone_from_derivative (fun k => ln (1 - exp (- (k * a))) - ln (1 - exp (- (k * c)))) (fun k => a / (exp (k * a) - 1) - c / (exp (k * c) - 1))); [| |exact K|exact L].
    - intros x X. apply (derivable_pt_lim_minus (fun x => ln (1 - exp (- (x * a)))) (fun x => ln (1 - exp (- (x * c))))); apply D; lra.
    - intros x X. assert (U1 : 0 < x * a) by nra. assert (U2 : x * a < x * c) by nra. pose proof (growth_increasing (x * a) (x * c) U1 U2) as G.
      assert (E1 : 0 < exp (x * a) - 1) by (pose proof (exp_ineq1 (x * a) ltac:(lra)); lra). assert (E2 : 0 < exp (x * c) - 1) by (pose proof (exp_ineq1 (x * c) ltac:(nra)); nra).
      assert (G' : (exp (x * a) - 1) * c < (exp (x * c) - 1) * a). { apply (Rmult_lt_compat_r (x * a * c)) in G; [|apply Rmult_lt_0_compat; nra]. replace ((exp (x * a) - 1) / (x * a) * (x * a * c)) with ((exp (x * a) - 1) * c) in G by (field; lra). replace ((exp (x * c) - 1) / (x * c) * (x * a * c)) with ((exp (x * c) - 1) * a) in G by (field; nra). exact G. }
      replace (a / (exp (x * a) - 1) - c / (exp (x * c) - 1)) with (((exp (x * c) - 1) * a - (exp (x * a) - 1) * c) / ((exp (x * a) - 1) * (exp (x * c) - 1))) by (field; lra). apply Rdiv_lt_0_compat; [lra|apply Rmult_lt_0_compat; assumption]. }
  assert (K' : 0 < k') by lra. assert (C' : 0 < c) by lra. pose proof (P k a K A) as P1. pose proof (P k c K C') as P2. pose proof (P k' a K' A) as P3. pose proof (P k' c K' C') as P4.
  apply ln_lt_inv; [apply Rmult_lt_0_compat; assumption|apply Rmult_lt_0_compat; assumption|]. rewrite !ln_mult by assumption. lra.
Qed.

(* the bond volatility: proportional to the volatility, decreasing in the mean reversion *)
Lemma sdev_scale k vol c T S : sdev k (c * vol) T S = c * sdev k vol T S. Proof. unfold sdev. ring. Qed.
Lemma sdev_unit k vol T S : sdev k vol T S = vol * sdev k 1 T S. Proof. unfold sdev. ring. Qed.
Lemma sdev_decreasing k k' vol T S : mean_reverting k -> k < k' -> 0 < vol -> 0 < T -> T < S -> sdev k' vol T S < sdev k vol T S.
Proof.
  intros A L V HT HS. pose proof (small_pos _ A) as K. assert (A' : mean_reverting k') by (unfold mean_reverting in *; lra).
  unfold sdev. rewrite (b_large k T S A), (b_large k' T S A').
  assert (D : (1 - exp (-2 * k' * T)) / (2 * k') < (1 - exp (-2 * k * T)) / (2 * k)).
  { pose proof (decay_decreasing (2 * k * T) (2 * k' * T) ltac:(nra) ltac:(nra)) as H. apply (Rmult_lt_compat_r T) in H; [|exact HT].
    replace (- (2 * k' * T)) with (-2 * k' * T) in H by ring. replace (- (2 * k * T)) with (-2 * k * T) in H by ring. replace ((1 - exp (-2 * k' * T)) / (2 * k' * T) * T) with ((1 - exp (-2 * k' * T)) / (2 * k')) in H by (field; lra). replace ((1 - exp (-2 * k * T)) / (2 * k * T) * T) with ((1 - exp (-2 * k * T)) / (2 * k)) in H by (field; lra). exact H. }
  assert (B : (1 - exp (- k' * (S - T))) / k' < (1 - exp (- k * (S - T))) / k).
  { pose proof (decay_decreasing (k * (S - T)) (k' * (S - T)) ltac:(nra) ltac:(nra)) as H. apply (Rmult_lt_compat_r (S - T)) in H; [|lra].
    replace (- (k' * (S - T))) with (- k' * (S - T)) in H by ring. replace (- (k * (S - T))) with (- k * (S - T)) in H by ring. replace ((1 - exp (- k' * (S - T))) / (k' * (S - T)) * (S - T)) with ((1 - exp (- k' * (S - T))) / k') in H by (field; lra). replace ((1 - exp (- k * (S - T))) / (k * (S - T)) * (S - T)) with ((1 - exp (- k * (S - T))) / k) in H by (field; lra). exact H. }
  assert (K' : 0 < k') by lra. pose proof (decay_pos k' T K' HT) as D0. pose proof (sqrt_lt_R0 _ D0) as S0. assert (SD : sqrt ((1 - exp (-2 * k' * T)) / (2 * k')) < sqrt ((1 - exp (-2 * k * T)) / (2 * k))) by (apply sqrt_lt_1; lra).
  assert (B0 : 0 < (1 - exp (- k' * (S - T))) / k'). { pose proof (below_one (k' * (S - T)) ltac:(nra)) as H. replace (- (k' * (S - T))) with (- k' * (S - T)) in H by ring. apply Rdiv_lt_0_compat; lra. }
  rewrite (Rmult_assoc vol), (Rmult_assoc vol). apply Rmult_lt_compat_l; [exact V|]. apply Rmult_le_0_lt_compat; [apply sqrt_pos|left; exact B0|exact SD|exact B].
Qed.
(* two maturities determine the parameters *)
Lemma sdev_two k k' vol vol' T S1 S2 : mean_reverting k -> mean_reverting k' -> 0 < vol -> 0 < vol' -> 0 < T -> T < S1 -> S1 < S2 ->
  sdev k vol T S1 = sdev k' vol' T S1 -> sdev k vol T S2 = sdev k' vol' T S2 -> k = k' /\ vol = vol'.
Proof.
  assert (H : forall k k' vol vol', mean_reverting k -> mean_reverting k' -> 0 < vol -> 0 < vol' -> 0 < T -> T < S1 -> S1 < S2 -> sdev k vol T S1 = sdev k' vol' T S1 -> sdev k vol T S2 = sdev k' vol' T S2 -> ~ k < k').
  { clear. intros k k' vol vol' A A' V V' HT L1 L2 E1 E2 L. pose proof (small_pos _ A) as K. pose proof (small_pos _ A') as K'.
    pose proof (ratio_increasing (S1 - T) (S2 - T) k k' ltac:(lra) ltac:(lra) K L) as M. unfold sdev in E1, E2. rewrite (b_large k T S1 A), (b_large k' T S1 A') in E1. rewrite (b_large k T S2 A), (b_large k' T S2 A') in E2.
    set (c := vol * sqrt ((1 - exp (-2 * k * T)) / (2 * k))) in *. set (c' := vol' * sqrt ((1 - exp (-2 * k' * T)) / (2 * k'))) in *.
    assert (C : 0 < c) by (apply Rmult_lt_0_compat; [exact V|apply sqrt_lt_R0, decay_pos; assumption]). assert (C' : 0 < c') by (apply Rmult_lt_0_compat; [exact V'|apply sqrt_lt_R0, decay_pos; assumption]).
    replace (- (k * (S1 - T))) with (- k * (S1 - T)) in M by ring. replace (- (k * (S2 - T))) with (- k * (S2 - T)) in M by ring. replace (- (k' * (S1 - T))) with (- k' * (S1 - T)) in M by ring. replace (- (k' * (S2 - T))) with (- k' * (S2 - T)) in M by ring.
    set (a := 1 - exp (- k * (S1 - T))) in *. set (b := 1 - exp (- k * (S2 - T))) in *. set (a' := 1 - exp (- k' * (S1 - T))) in *. set (b' := 1 - exp (- k' * (S2 - T))) in *.
    assert (X1 : c * a / k = c' * a' / k') by (unfold Rdiv in *; rewrite !Rmult_assoc; exact E1). assert (X2 : c * b / k = c' * b' / k') by (unfold Rdiv in *; rewrite !Rmult_assoc; exact E2).
    assert (Y : (c / k) * (a * b') * (c' / k') = (c / k) * (a' * b) * (c' / k')). { replace ((c / k) * (a * b') * (c' / k')) with ((c * a / k) * (c' * b' / k')) by (field; lra). rewrite <- X2, X1. field; lra. }
    assert (0 < c / k) by (apply Rdiv_lt_0_compat; assumption). assert (0 < c' / k') by (apply Rdiv_lt_0_compat; assumption). apply Rmult_eq_reg_r in Y; [|lra]. apply Rmult_eq_reg_l in Y; [|lra]. lra. }
  intros A A' V V' HT L1 L2 E1 E2. assert (k = k') as <-.
  { destruct (Rtotal_order k k') as [L|[E|L]]; [|exact E|].
    - exfalso. exact (H k k' vol vol' A A' V V' HT L1 L2 E1 E2 L).
    - exfalso. exact (H k' k vol' vol A' A V' V HT L1 L2 (eq_sym E1) (eq_sym E2) L). }
  split; [reflexivity|]. rewrite (sdev_unit k vol), (sdev_unit k vol') in E1. apply Rmult_eq_reg_r in E1; [exact E1|]. apply Rgt_not_eq, sdev_pos; [apply small_pos, A|lra|assumption|assumption].
Qed.
