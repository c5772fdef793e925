(* C150: which Hull-White parameters can be calibrated to prices of bond options *)
From Coq Require Import ZArith Reals List Lra.
From Verif Require Import Base NormalModel NormalProofs BsProofs BlackModel BlackSpec BlackProofs MonteModel MonteSpec MonteProofs HwModel HwSpec HwProofs HwCalProofs.
Import ListNotations.
Open Scope R_scope.

Lemma price (df : R -> R) (k vol T S K cp : R) : mean_reverting k -> 0 < vol -> 0 < T -> T < S -> 0 < df T -> 0 < df S -> 0 < K ->
  zcbo df k vol [T] [S] [K] [cp] 0 = Ok [Fin (df T * blk cp (df S / df T) K (sdev k vol T S))].
Proof. intros. rewrite zcbo_single, zcbo_elem_fin; auto. apply small_pos. assumption. Qed.
Lemma blk_inj w F K v v' : w = 1 \/ w = -1 -> 0 < F -> 0 < K -> 0 < v -> 0 < v' -> blk w F K v = blk w F K v' -> v = v'.
Proof.
  intros W HF HK V V' E. destruct (Rtotal_order v v') as [L|[L|L]]; [|exact L|].
  - pose proof (blk_mono w F K v v' W HF HK V L). lra.
  - pose proof (blk_mono w F K v' v W HF HK V' L). lra.
Qed.
Lemma same_price (df : R -> R) (k k' vol vol' T S K cp : R) : mean_reverting k -> mean_reverting k' -> 0 < vol -> 0 < vol' -> 0 < T -> T < S -> 0 < df T -> 0 < df S -> 0 < K -> call_or_put cp ->
  zcbo df k vol [T] [S] [K] [cp] 0 = zcbo df k' vol' [T] [S] [K] [cp] 0 -> sdev k vol T S = sdev k' vol' T S.
Proof.
  intros A A' V V' HT HS PT PS HK C E. rewrite !price in E by assumption. injection E as E. apply Rmult_eq_reg_l in E; [|lra].
  apply blk_inj in E; auto; try (apply sdev_pos; auto; apply small_pos; assumption). apply quot_pos; assumption.
Qed.

(* with the mean reversion given, every price inside the no-arbitrage bounds has exactly one volatility, and no other price has any *)
Theorem C150_volatility (df : R -> R) (k T S K cp x : R) : mean_reverting k -> 0 < T -> T < S -> 0 < df T -> 0 < df S -> 0 < K -> call_or_put cp ->
  ((exists vol, 0 < vol /\ zcbo df k vol [T] [S] [K] [cp] 0 = Ok [Fin x]) <-> Rmax 0 (cp * (df S - K * df T)) < x < (if Rlt_dec 0 cp then df S else K * df T))
  /\ forall v1 v2, 0 < v1 -> 0 < v2 -> zcbo df k v1 [T] [S] [K] [cp] 0 = Ok [Fin x] -> zcbo df k v2 [T] [S] [K] [cp] 0 = Ok [Fin x] -> v1 = v2.
Proof.
  intros A HT HS PT PS HK C. pose proof (small_pos _ A) as Ap. pose proof (quot_pos _ _ PS PT) as F. pose proof (sdev_pos k 1 T S Ap Rlt_0_1 HT HS) as U.
  assert (B1 : Rmax 0 (cp * (df S - K * df T)) = df T * Rmax 0 (cp * (df S / df T - K))) by (rewrite <- RmaxRmult by lra; f_equal; [ring|field; lra]).
  assert (B2 : (if Rlt_dec 0 cp then df S else K * df T) = df T * (if Rlt_dec 0 cp then df S / df T else K)) by (destruct Rlt_dec; [field; lra|ring]).
  split; [split|].
  - intros (vol & V & E). rewrite price in E by assumption. injection E as <-. pose proof (sdev_pos k vol T S Ap V HT HS) as W. rewrite B1, B2.
    split; apply Rmult_lt_compat_l; try exact PT; [apply blk_lower|apply blk_upper]; assumption.
  - intros [L1 L2]. rewrite B1 in L1. rewrite B2 in L2. assert (E : x = df T * (x / df T)) by (field; lra). rewrite E in L1, L2. apply Rmult_lt_reg_l in L1, L2; try exact PT.
    destruct (blk_onto cp (df S / df T) K (x / df T) C F HK L1 L2) as (v & V & Hv). exists (v / sdev k 1 T S). assert (V' : 0 < v / sdev k 1 T S) by (apply Rdiv_lt_0_compat; assumption). split; [exact V'|].
    rewrite price by assumption. rewrite sdev_unit. replace (v / sdev k 1 T S * sdev k 1 T S) with v by (field; lra). rewrite Hv, <- E. reflexivity.
  - intros v1 v2 V1 V2 E1 E2. rewrite <- E2 in E1. apply same_price in E1; try assumption. rewrite (sdev_unit k v1), (sdev_unit k v2) in E1. apply Rmult_eq_reg_r in E1; [exact E1|lra].
Qed.
(* with the volatility given, prices fall strictly as the mean reversion rises: at most one speed fits *)
Theorem C150_mean_reversion (df : R -> R) (k k' vol T S K cp : R) : mean_reverting k -> k < k' -> 0 < vol -> 0 < T -> T < S -> 0 < df T -> 0 < df S -> 0 < K -> call_or_put cp ->
  exists x x', zcbo df k vol [T] [S] [K] [cp] 0 = Ok [Fin x] /\ zcbo df k' vol [T] [S] [K] [cp] 0 = Ok [Fin x'] /\ x' < x.
Proof.
  intros A L V HT HS PT PS HK C. assert (A' : mean_reverting k') by (unfold mean_reverting in *; lra). rewrite !price by assumption. do 2 eexists. split; [reflexivity|]. split; [reflexivity|].
  apply Rmult_lt_compat_l; [exact PT|]. apply blk_mono; auto; [apply quot_pos; assumption|apply sdev_pos; auto; apply small_pos, A'|apply sdev_decreasing; assumption].
Qed.
(* one expiry and one bond do not determine both: for every other speed exactly one volatility reproduces the options of every strike, calls and puts *)
Theorem C150_not_identified (df : R -> R) (k k' vol T S : R) : mean_reverting k -> mean_reverting k' -> 0 < vol -> 0 < T -> T < S -> 0 < df T -> 0 < df S ->
  exists vol', 0 < vol'
    /\ (forall K cp, 0 < K -> call_or_put cp -> zcbo df k' vol' [T] [S] [K] [cp] 0 = zcbo df k vol [T] [S] [K] [cp] 0)
    /\ (forall v K cp, 0 < v -> 0 < K -> call_or_put cp -> zcbo df k' v [T] [S] [K] [cp] 0 = zcbo df k vol [T] [S] [K] [cp] 0 -> v = vol')
    /\ (k < k' -> vol < vol').
Proof.
  intros A A' V HT HS PT PS. pose proof (sdev_pos k vol T S (small_pos _ A) V HT HS) as W. pose proof (sdev_pos k' 1 T S (small_pos _ A') Rlt_0_1 HT HS) as U.
  set (vol' := sdev k vol T S / sdev k' 1 T S). assert (V' : 0 < vol') by (apply Rdiv_lt_0_compat; assumption). assert (E : sdev k' vol' T S = sdev k vol T S) by (rewrite sdev_unit; unfold vol'; field; lra).
  exists vol'. split; [exact V'|]. split; [|split].
  - intros K cp HK C. rewrite !price by assumption. rewrite E. reflexivity.
  - intros v K cp Hv HK C H. apply same_price in H; try assumption. rewrite <- E, (sdev_unit k' v), (sdev_unit k' vol') in H. apply Rmult_eq_reg_r in H; [exact H|lra].
  - intros L. pose proof (sdev_decreasing k k' vol T S A L V HT HS) as D. rewrite <- E, (sdev_unit k' vol), (sdev_unit k' vol') in D. apply Rmult_lt_reg_r in D; assumption.
Qed.
(* options of one expiry on two bonds do: whatever the strikes and types, no other pair of parameters gives both prices *)
Theorem C150_identified (df : R -> R) (k k' vol vol' T S1 S2 K1 K2 cp1 cp2 : R) : mean_reverting k -> mean_reverting k' -> 0 < vol -> 0 < vol' -> 0 < T -> T < S1 -> S1 < S2 ->
  0 < df T -> 0 < df S1 -> 0 < df S2 -> 0 < K1 -> 0 < K2 -> call_or_put cp1 -> call_or_put cp2 ->
  zcbo df k vol [T] [S1] [K1] [cp1] 0 = zcbo df k' vol' [T] [S1] [K1] [cp1] 0 -> zcbo df k vol [T] [S2] [K2] [cp2] 0 = zcbo df k' vol' [T] [S2] [K2] [cp2] 0 -> k = k' /\ vol = vol'.
Proof.
  intros A A' V V' HT L1 L2 PT P1 P2 H1 H2 C1 C2 E1 E2. apply same_price in E1, E2; try assumption; try lra. apply (sdev_two k k' vol vol' T S1 S2); assumption.
Qed.

(* a five year expiry, bonds of six and ten years, flat discount factors: a call at 99% of the bond has a volatility; speeds 3% and 10% *)
Example volatility_case : exists vol, 0 < vol /\ zcbo (fun t => exp (- (3 / 100) * t)) (1 / 10) vol [5] [10] [9 / 10] [1] 0 = Ok [Fin (exp (- (3 / 100) * 10) * (99 / 100))].
Proof.
  apply C150_volatility; try (left; reflexivity); try apply exp_pos; try lra; [unfold mean_reverting; lra|].
  pose proof (exp_pos (- (3 / 100) * 10)) as P. destruct (Rlt_dec 0 1); [|lra]. split; [|lra]. apply Rmax_lub_lt; [lra|].
  assert (exp (- (3 / 100) * 10) < exp (- (3 / 100) * 5)) by (apply exp_increasing; lra). lra.
Qed.
Example other_speed : exists vol', 1 / 100 < vol' /\ zcbo (fun t => exp (- (3 / 100) * t)) (1 / 10) vol' [5] [10] [9 / 10] [-1] 0 = zcbo (fun t => exp (- (3 / 100) * t)) (3 / 100) (1 / 100) [5] [10] [9 / 10] [-1] 0.
Proof.
  destruct (C150_not_identified (fun t => exp (- (3 / 100) * t)) (3 / 100) (1 / 10) (1 / 100) 5 10) as (v & P & E & _ & L); try apply exp_pos; try lra; try (unfold mean_reverting; lra).
  exists v. split; [apply L; lra|apply E; [lra|right; reflexivity]].
Qed.

Definition all_theorems := (C150_volatility, C150_mean_reversion, C150_not_identified, C150_identified).
Print Assumptions all_theorems.
