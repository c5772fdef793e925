(* C64, C106, C107: Hull-White bond options, the decomposition of swaptions, and discount factors *)
From Coq Require Import ZArith Reals String List Bool Lra Lia Psatz.
From Coquelicot Require Import Coquelicot.
From Verif Require Import Base NormalModel NormalProofs BsProofs BlackModel BlackSpec BlackProofs MonteModel MonteSpec MonteProofs HwModel HwSpec HwProofs.
Import ListNotations.
Open Scope R_scope.

(* ---- C64 ---- *)
Theorem C64_b_equation (alpha t T : R) : mean_reverting alpha -> calc_b alpha T T = 0 /\ is_derive (fun s => calc_b alpha s T) t (alpha * calc_b alpha t T - 1).
Proof. intros H. split; [apply b_end|apply b_ode; exact H]. Qed.
Theorem C64_b_composition (alpha t1 t2 t3 : R) : mean_reverting alpha -> calc_b alpha t1 t3 = calc_b alpha t1 t2 + exp (- alpha * (t2 - t1)) * calc_b alpha t2 t3.
Proof. exact (b_compose alpha t1 t2 t3). Qed.
(* slower speeds, and negative ones, are treated as no mean reversion: the equation holds for none of them but zero *)
Theorem C64_b_slow (alpha t T : R) : alpha < 1 / 100000000 -> t < T ->
  calc_b alpha t T = T - t /\ (is_derive (fun s => calc_b alpha s T) t (alpha * calc_b alpha t T - 1) <-> alpha = 0).
Proof.
  intros A L. assert (B : forall s, calc_b alpha s T = T - s) by (intros s; unfold calc_b; destruct Rlt_dec; [reflexivity|contradiction]). split; [apply B|]. rewrite B.
  assert (D : is_derive (fun s => calc_b alpha s T) t (-1)). { apply (is_derive_ext (fun s => T - s)); [intros s; symmetry; apply B|]. auto_derive; [trivial|]. ring. }
  split.
  - intros H. apply is_derive_unique in D, H. rewrite D in H. assert (E : alpha * (T - t) = 0) by lra. apply Rmult_integral in E. destruct E; [assumption|lra].
  - intros ->. replace (0 * (T - t) - 1) with (-1) by ring. exact D.
Qed.
(* the price is the Black-76 price on the forward bond price; v is the standard deviation of its logarithm *)
Theorem C64_is_black (df : R -> R) (alpha sigma T S K cp : R) : mean_reverting alpha -> 0 < sigma -> 0 < T -> T < S -> 0 < df T -> 0 < df S -> 0 < K ->
  exists v : R, 0 < v /\ is_RInt (fun u => (sigma * (calc_b alpha u S - calc_b alpha u T)) ^ 2) 0 T (v ^ 2)
    /\ zcbo df alpha sigma [T] [S] [K] [cp] 0 = Ok [price76 (df S / df T) 1 cp K v 0 (df T)].
Proof.
  intros A Sg HT HS PT PS HK. pose proof (small_pos _ A) as Ap. exists (sdev alpha sigma T S). pose proof (sdev_pos alpha sigma T S Ap Sg HT HS) as V. split; [exact V|]. split; [apply sdev_sq; [exact A|lra]|].
  rewrite zcbo_single, zcbo_elem_fin by assumption. rewrite price76_fin; [|rewrite Rplus_0_r; apply quot_pos; assumption|lra|lra|rewrite sqrt_1; lra]. rewrite sqrt_1, !Rplus_0_r, Rmult_1_r. reflexivity.
Qed.
Theorem C64_parity (df : R -> R) (alpha sigma T S K : R) : mean_reverting alpha -> 0 < sigma -> 0 < T -> T < S -> 0 < df T -> 0 < df S -> 0 < K ->
  exists c p : R, zcbo df alpha sigma [T] [S] [K] [1] 0 = Ok [Fin c] /\ zcbo df alpha sigma [T] [S] [K] [-1] 0 = Ok [Fin p] /\ c - p = df S - K * df T
    /\ Rmax 0 (df S - K * df T) < c < df S /\ Rmax 0 (K * df T - df S) < p < K * df T.
Proof.
  intros A Sg HT HS PT PS HK. pose proof (small_pos _ A) as Ap. pose proof (sdev_pos alpha sigma T S Ap Sg HT HS) as V. pose proof (quot_pos _ _ PS PT) as F. set (v := sdev alpha sigma T S) in *.
  rewrite !zcbo_single. rewrite !zcbo_elem_fin by assumption. fold v. set (c := blk 1 (df S / df T) K v). set (p := blk (-1) (df S / df T) K v).
  exists (df T * c), (df T * p). split; [reflexivity|]. split; [reflexivity|]. assert (FS : df T * (df S / df T) = df S) by (field; lra).
  pose proof (blk_parity (df S / df T) K v) as Pa. fold c p in Pa.
  pose proof (blk_lower 1 (df S / df T) K v (or_introl eq_refl) F HK V) as L1. pose proof (blk_lower (-1) (df S / df T) K v (or_intror eq_refl) F HK V) as L2. fold c in L1. fold p in L2.
  pose proof (blk_upper 1 (df S / df T) K v (or_introl eq_refl) F HK V) as U1. pose proof (blk_upper (-1) (df S / df T) K v (or_intror eq_refl) F HK V) as U2. fold c in U1. fold p in U2.
  destruct (Rlt_dec 0 1) in U1; [|lra]. destruct (Rlt_dec 0 (-1)) in U2; [lra|].
  assert (E1 : df T * Rmax 0 (1 * (df S / df T - K)) = Rmax 0 (df S - K * df T)). { rewrite <- RmaxRmult by lra. f_equal; [ring|]. field. lra. }
  assert (E2 : df T * Rmax 0 (-1 * (df S / df T - K)) = Rmax 0 (K * df T - df S)). { rewrite <- RmaxRmult by lra. f_equal; [ring|]. field. lra. }
  split; [|split].
  - replace (df T * c - df T * p) with (df T * (c - p)) by ring. rewrite Pa. field. lra.
  - rewrite <- E1. rewrite <- FS at 2. split; apply Rmult_lt_compat_l; assumption.
  - rewrite <- E2. replace (K * df T) with (df T * K) by ring. split; apply Rmult_lt_compat_l; assumption.
Qed.
Theorem C64_increasing_in_volatility (df : R -> R) (alpha s1 s2 T S K cp : R) : mean_reverting alpha -> 0 < s1 -> s1 < s2 -> 0 < T -> T < S -> 0 < df T -> 0 < df S -> 0 < K -> call_or_put cp ->
  exists x y : R, zcbo df alpha s1 [T] [S] [K] [cp] 0 = Ok [Fin x] /\ zcbo df alpha s2 [T] [S] [K] [cp] 0 = Ok [Fin y] /\ x < y.
Proof.
  intros A P1 P2 HT HS PT PS HK C. pose proof (small_pos _ A) as Ap. rewrite !zcbo_single. rewrite !zcbo_elem_fin by (try assumption; lra). eexists. eexists. split; [reflexivity|]. split; [reflexivity|].
  apply Rmult_lt_compat_l; [exact PT|]. apply blk_mono; [exact C|apply quot_pos; assumption|exact HK|apply sdev_pos; assumption|].
  unfold sdev. apply Rmult_lt_compat_r; [apply b_pos; exact HS|]. apply Rmult_lt_compat_r; [apply sqrt_lt_R0, decay_pos; assumption|exact P2].
Qed.
(* no volatility: the payoff is not discounted, unlike the prices next to it *)
Theorem C64_zero_volatility (df : R -> R) (alpha sigma T S K cp : R) : mean_reverting alpha -> 0 <= T -> T <= S -> df T <> 0 -> sigma = 0 \/ S = T \/ T = 0 ->
  zcbo df alpha sigma [T] [S] [K] [cp] 0 = Ok [Fin (Rmax 0 (cp * (df S / df T - K)))].
Proof.
  intros A HT HS D Z. rewrite zcbo_single, zcbo_elem_zero; [reflexivity|exact A|exact HT|exact HS| |exact D]. right. unfold sdev. destruct Z as [-> | [-> | ->]]; [ring|rewrite b_end; ring|].
  replace (-2 * alpha * 0) with 0 by ring. rewrite exp_0. replace ((1 - 1) / (2 * alpha)) with 0 by (unfold Rdiv; ring). rewrite sqrt_0. ring.
Qed.
Theorem C64_small_volatility (df : R -> R) (alpha T S K cp e : R) : mean_reverting alpha -> 0 < T -> T < S -> 0 < df T -> 0 < df S -> 0 < K -> call_or_put cp -> 0 < e ->
  exists d : R, 0 < d /\ forall sigma : R, 0 < sigma < d -> exists x : R, zcbo df alpha sigma [T] [S] [K] [cp] 0 = Ok [Fin x] /\ Rabs (x - df T * Rmax 0 (cp * (df S / df T - K))) < e.
Proof.
  intros A HT HS PT PS HK C He. pose proof (small_pos _ A) as Ap. pose proof (quot_pos _ _ PS PT) as F. assert (Ee : 0 < e / df T) by (apply Rdiv_lt_0_compat; assumption).
  destruct (blk_small cp (df S / df T) K (e / df T) C F HK Ee) as (d & Dp & Hd). set (u := sqrt ((1 - exp (-2 * alpha * T)) / (2 * alpha)) * calc_b alpha T S).
  assert (U : 0 < u) by (apply Rmult_lt_0_compat; [apply sqrt_lt_R0, decay_pos; assumption|apply b_pos; exact HS]).
  exists (d / u). split; [apply Rdiv_lt_0_compat; assumption|]. intros sigma [S0 S1]. rewrite zcbo_single, zcbo_elem_fin by assumption. eexists. split; [reflexivity|].
  assert (V : sdev alpha sigma T S = sigma * u) by (unfold sdev, u; ring). pose proof (sdev_pos alpha sigma T S Ap S0 HT HS) as Vp.
  assert (Vd : sdev alpha sigma T S < d). { rewrite V. apply (Rmult_lt_compat_r u) in S1; [|exact U]. unfold Rdiv in S1. rewrite Rmult_assoc, Rinv_l in S1 by lra. lra. }
  pose proof (Hd _ Vp Vd) as H1. pose proof (blk_lower cp (df S / df T) K _ C F HK Vp) as H2. rewrite <- Rmult_minus_distr_l, Rabs_pos_eq by (apply Rmult_le_pos; lra).
  apply (Rmult_lt_reg_l (/ df T)); [apply Rinv_0_lt_compat; exact PT|]. rewrite <- Rmult_assoc, Rinv_l, Rmult_1_l by lra. unfold Rdiv in H1. lra.
Qed.
Theorem C64_no_mean_reversion (df : R -> R) (sigma T S K cp : R) : T <= S -> zcbo df 0 sigma [T] [S] [K] [cp] 0 = Ok [NaN].
Proof. intros H. rewrite zcbo_single, zcbo_elem_flat by exact H. reflexivity. Qed.
Theorem C64_matured (df : R -> R) (alpha sigma T S K cp : R) : S < T -> zcbo df alpha sigma [T] [S] [K] [cp] 0 = Ok [Fin 0].
Proof. intros H. rewrite zcbo_single, zcbo_elem_after by exact H. reflexivity. Qed.
(* arrays: as many prices as dates, each the price of its own arguments; several strikes need several dates *)
Theorem C64_arrays (df : R -> R) (alpha sigma : R) (T S K cp : list R) (n : nat) : fits [List.length T; List.length S; List.length K; List.length cp] n -> (0 < n)%nat ->
  (List.length T = n \/ List.length S = n ->
   exists out, zcbo df alpha sigma T S K cp 0 = Ok out /\ List.length out = n /\
     forall (i : nat) (t s k c : R), (i < n)%nat -> used T i t -> used S i s -> used K i k -> used cp i c -> zcbo df alpha sigma [t] [s] [k] [c] 0 = Ok [nth i out NaN])
  /\ (List.length T <> n -> List.length S <> n -> zcbo df alpha sigma T S K cp 0 = Err IndexError).
Proof.
  intros [Fa In] N. assert (Len : fold_right Nat.max O [List.length T; List.length S; List.length K; List.length cp] = n).
  { pose proof (proj1 (List.Forall_forall _ _) Fa) as H. cbn [fold_right]. assert (forall m, List.In m [List.length T; List.length S; List.length K; List.length cp] -> (m <= n)%nat) as Le by (intros m I; destruct (H m I); lia).
    pose proof (Le (List.length T) ltac:(cbn; tauto)). pose proof (Le (List.length S) ltac:(cbn; tauto)). pose proof (Le (List.length K) ltac:(cbn; tauto)). pose proof (Le (List.length cp) ltac:(cbn; tauto)). cbn in In. lia. }
  assert (G : forallb (fun m => Nat.eqb m 1 || Nat.eqb m n) [List.length T; List.length S; List.length K; List.length cp] = true).
  { apply forallb_forall. intros m I. destruct (proj1 (List.Forall_forall _ _) Fa m I) as [-> | ->]; [reflexivity|]. rewrite (Nat.eqb_refl n). apply orb_true_r. }
  assert (E : forall b, zcbo df alpha sigma T S K cp 0 = b <-> (let* _ := guard (Nat.eqb (Nat.max (List.length T) (List.length S)) n) IndexError in Ok (map (fun i => zcbo_elem df alpha sigma (at_ T i) (at_ S i) (at_ K i) (at_ cp i)) (seq 0 n))) = b).
  { intros b. unfold zcbo. rewrite Len, G. cbn [guard bind]. unfold eqb. destruct (Req_EM_T 0 0); [|contradiction]. cbn [guard bind]. tauto. }
  pose proof (proj1 (List.Forall_forall _ _) Fa) as Ones. split.
  - intros W. eexists. split; [apply E; replace (Nat.eqb (Nat.max (List.length T) (List.length S)) n) with true; [cbn [guard bind]; reflexivity|]|].
    { symmetry. apply Nat.eqb_eq. destruct (Ones (List.length T) ltac:(cbn; tauto)), (Ones (List.length S) ltac:(cbn; tauto)); lia. }
    split; [rewrite map_length, seq_length; reflexivity|]. intros i t s k c I UT US UK UC. rewrite zcbo_single.
    assert (At : forall l x, used l i x -> (List.length l = 1%nat \/ List.length l = n) -> at_ l i = x).
    { intros l x U L. unfold at_. destruct U as [U| ->]; [|reflexivity]. destruct (Nat.eqb (List.length l) 1) eqn:L1; [|apply nth_error_nth; exact U]. apply Nat.eqb_eq in L1. assert (i = O) by (apply nth_error_Some_lt in U || (assert (i < List.length l)%nat by (apply nth_error_Some; congruence)); lia). subst i. apply nth_error_nth. exact U. }
    do 2 f_equal. assert (Nth : forall (f : nat -> num), nth i (map f (seq 0 n)) NaN = f i). { intros f. rewrite (nth_indep _ NaN (f O)) by (rewrite map_length, seq_length; exact I). rewrite map_nth, seq_nth by exact I. reflexivity. }
    rewrite Nth. rewrite (At T t UT), (At S s US), (At K k UK), (At cp c UC) by (apply Ones; cbn; tauto). reflexivity.
  - intros A B. apply E. replace (Nat.eqb (Nat.max (List.length T) (List.length S)) n) with false; [reflexivity|]. symmetry. apply Nat.eqb_neq. destruct (Ones (List.length T) ltac:(cbn; tauto)), (Ones (List.length S) ltac:(cbn; tauto)); lia.
Qed.
Theorem C64_later_valuation (df : R -> R) (alpha sigma T S K cp t0 : R) : t0 <> 0 -> zcbo df alpha sigma [T] [S] [K] [cp] t0 = Err ValueError.
Proof. intros N. unfold zcbo. cbn [List.length fold_right Nat.max forallb Nat.eqb orb andb guard bind]. unfold eqb. destruct Req_EM_T; [contradiction|]. reflexivity. Qed.
(* caplets and swaptions are never priced: the keywords of the call do not exist *)
Theorem C64_optionlet_never_priced (df : R -> R) (alpha sigma t1 t2 K cp : R) :
  price_optionlet df alpha sigma t1 t2 K cp = Err (if Req_EM_T (1 + K * (t2 - t1)) 0 then ZeroDivisionError else TypeError).
Proof. unfold price_optionlet, eqb. destruct Req_EM_T; reflexivity. Qed.
Theorem C64_swaption_never_priced (brentq : root_finder) (P : R -> R -> result R) (df : R -> R) (alpha sigma expiry : R) (times fractions : list R) (notional_time rate notional : R) (payer : bool) (x : list num) :
  price_swaption brentq P df alpha sigma expiry times fractions notional_time rate payer notional <> Ok x.
Proof. unfold price_swaption. destruct (jamshidian _ _ _ _ _ _); cbn [bind]; [|discriminate]. replace (accepts zcbo_parameters used_keywords) with false by reflexivity. discriminate. Qed.
Theorem C64_construction (pillars : list (R * R)) (y0 c0 : R) :
  hw_init false ((y0, c0) :: pillars) = Err AssertionError
  /\ (hw_init true ((y0, c0) :: pillars) = Ok c0 <-> (forall p, In p ((y0, c0) :: pillars) -> 0 <= fst p) /\ exists p, In p ((y0, c0) :: pillars) /\ fst p = 0)
  /\ (hw_init true ((y0, c0) :: pillars) <> Ok c0 -> hw_init true ((y0, c0) :: pillars) = Err TypeError).
Proof.
  split; [reflexivity|]. cbn [hw_init guard bind]. unfold eqb.
  assert (M : forall l, fold_right Rmin y0 (map fst l) = 0 <-> (forall p, In p ((y0, c0) :: l) -> 0 <= fst p) /\ exists p, In p ((y0, c0) :: l) /\ fst p = 0).
  { assert (Lo : forall l : list (R * R), (forall p, In p ((y0, c0) :: l) -> fold_right Rmin y0 (map fst l) <= fst p) /\ exists p, In p ((y0, c0) :: l) /\ fst p = fold_right Rmin y0 (map fst l)).
    { induction l as [|q l [I1 (p & I2 & I3)]]; cbn [map fold_right]; [split; [intros p [<-|[]]; cbn; lra|exists (y0, c0); split; [left; reflexivity|reflexivity]]|]. split.
      - intros p' [<-|[<-|I]]; [|apply Rmin_l|]; (eapply Rle_trans; [apply Rmin_r|apply I1]); [left; reflexivity|right; exact I].
      - unfold Rmin at 1. destruct (Rle_dec (fst q) (fold_right Rmin y0 (map fst l))); [exists q; split; [right; left; reflexivity|reflexivity]|exists p; split; [destruct I2 as [<-|I2]; [left; reflexivity|right; right; exact I2]|exact I3]]. }
    intros l. destruct (Lo l) as [L1 (p & L2 & L3)]. split.
    - intros E. rewrite E in *. split; [exact L1|exists p; split; assumption].
    - intros [A (q & Q1 & Q2)]. pose proof (L1 q Q1). pose proof (A p L2). lra. }
  split; [rewrite <- M|]; destruct Req_EM_T as [E|E].
  - tauto.
  - split; [discriminate|contradiction].
  - intros N. contradiction.
  - reflexivity.
Qed.

(* ---- C106 ---- *)
(* the strikes are the bond prices at the critical rate, and price the fixed leg at one *)
Theorem C106_strikes (brentq : root_finder) (P : R -> R -> result R) (times fractions : list R) (nt rate : R) (ks : list R) : exact_root brentq ->
  jamshidian brentq P times fractions nt rate = Ok ks ->
  List.length times = List.length fractions /\ coupon_sum rate fractions ks + last ks 0 = 1 /\ exists r : R, P nt r = Ok (last ks 0) /\ Forall2 (fun t k => P t r = Ok k) times (firstn (List.length times) ks).
Proof.
  intros X J. destruct (jamshidian_inv _ _ _ _ _ _ _ X J) as (r & ss & L & G & K & Ks & One). pose proof (forall2_len _ _ _ G) as Ls. split; [exact L|]. split.
  - destruct Ks as [-> | [k ->]]; [exact One|]. rewrite coupon_app by congruence. exact One.
  - exists r. split; [exact K|]. destruct Ks as [-> | [k ->]]; [rewrite Ls, firstn_all; exact G|]. rewrite Ls, firstn_app, Nat.sub_diag, firstn_all, firstn_O, app_nil_r. exact G.
Qed.
(* the swaption pays what the options on the single payments pay, in every state of the short rate at expiry *)
Theorem C106_decomposition (brentq : root_finder) (quad : integrator) (theta : R -> R) (r0 alpha sigma expiry : R) (times fractions : list R) (nt rate : R) (ks : list R) : exact_root brentq ->
  let P := fun t r => ode_1 quad (Some theta) r0 alpha sigma expiry t (Some r) in
  jamshidian brentq P times fractions nt rate = Ok ks -> List.Forall (fun f => 0 <= rate * f) fractions ->
  forall (cp r p : R) (ps : list R), call_or_put cp -> Forall2 (fun t x => P t r = Ok x) times ps -> P nt r = Ok p ->
  Rmax 0 (cp * (coupon_sum rate fractions ps + p - 1)) = option_sum cp rate fractions ps ks + Rmax 0 (cp * (p - last ks 0)).
Proof. exact (decomposition brentq quad theta r0 alpha sigma expiry times fractions nt rate ks). Qed.
Theorem C106_unique (quad : integrator) (theta : R -> R) (r0 alpha sigma expiry : R) (times fractions : list R) (nt rate r s : R) : expiry <> 0 -> List.length times = List.length fractions -> List.Forall (fun f => 0 <= rate * f) fractions ->
  let P := fun t r => ode_1 quad (Some theta) r0 alpha sigma expiry t (Some r) in
  zero_function P times fractions nt rate r = Ok 0 -> zero_function P times fractions nt rate s = Ok 0 -> r = s.
Proof.
  intros Ne L N P A B. destruct (Rtotal_order r s) as [H|[H|H]]; [|exact H|].
  - pose proof (zero_decreasing _ _ _ _ _ _ _ _ _ _ _ _ _ _ Ne L N A B H). lra.
  - pose proof (zero_decreasing _ _ _ _ _ _ _ _ _ _ _ _ _ _ Ne L N B A H). lra.
Qed.
(* an option that expires today has no critical rate to find: the objective ignores it *)
Theorem C106_expiring_now (quad : integrator) (theta : R -> R) (r0 alpha sigma : R) (times fractions : list R) (nt rate r s : R) :
  let P := fun t r => ode_1 quad (Some theta) r0 alpha sigma 0 t (Some r) in zero_function P times fractions nt rate r = zero_function P times fractions nt rate s.
Proof. exact (zero_constant quad theta r0 alpha sigma times fractions nt rate r s). Qed.
Lemma increasing_iff (l : list R) : increasing l = true <-> forall i, (S i < List.length l)%nat -> nth i l 0 < nth (S i) l 0.
Proof.
  induction l as [|x [|y t] IH]; [split; [intros _ i H; cbn in H; lia|reflexivity]|split; [intros _ i H; cbn in H; lia|reflexivity]|].
  change (increasing (x :: y :: t)) with (ltb x y && increasing (y :: t))%bool. rewrite andb_true_iff, IH. unfold ltb. split.
  - intros [A B] [|i] H; [cbn; destruct (Rlt_dec x y); [assumption|discriminate]|]. apply B. cbn in *. lia.
  - intros H. split; [destruct (Rlt_dec x y) as [|N]; [reflexivity|exfalso; apply N; exact (H O ltac:(cbn; lia))]|]. intros i I. apply (H (S i)). cbn in *. lia.
Qed.
Theorem C106_validation (brentq : root_finder) (P : R -> R -> result R) (times fractions : list R) (nt rate : R) :
  let J := jamshidian brentq P times fractions nt rate in let n := List.length times in
  (n <> List.length fractions -> J = Err ValueError)
  /\ (n = List.length fractions -> (exists i, (S i < n)%nat /\ nth (S i) times 0 <= nth i times 0) -> J = Err ValueError)
  /\ (n = List.length fractions -> (n < 2)%nat -> J = Err IndexError)
  /\ (n = List.length fractions -> (2 <= n)%nat -> (forall i, (S i < n)%nat -> nth i times 0 < nth (S i) times 0) -> nt < nth (n - 2) times 0 -> J = Err ValueError)
  /\ (n = List.length fractions -> (2 <= n)%nat -> (forall i, (S i < n)%nat -> nth i times 0 < nth (S i) times 0) -> nth (n - 2) times 0 <= nt ->
      forall e : exn, brentq (zero_function P times fractions nt rate) (-1) 1 = Err e -> J = Err e).
Proof.
  intros J n. unfold J, jamshidian. fold n. split; [|split; [|split; [|split]]].
  - intros N. rewrite (proj2 (Nat.eqb_neq _ _) N). reflexivity.
  - intros E (i & I & L). rewrite (proj2 (Nat.eqb_eq _ _) E). cbn [guard bind]. destruct (increasing times) eqn:Inc; [|reflexivity]. pose proof (proj1 (increasing_iff times) Inc i I). lra.
  - intros E L. rewrite (proj2 (Nat.eqb_eq _ _) E). cbn [guard bind]. replace (increasing times) with true by (symmetry; apply increasing_iff; intros i H; fold n in H; lia). cbn [guard bind]. replace (Nat.leb 2 n) with false by (symmetry; apply Nat.leb_gt; lia). reflexivity.
  - intros E L Inc T. rewrite (proj2 (Nat.eqb_eq _ _) E). cbn [guard bind]. rewrite (proj2 (increasing_iff times) Inc). cbn [guard bind]. rewrite (proj2 (Nat.leb_le 2 n) L). cbn [guard bind]. unfold ltb. destruct Rlt_dec; [reflexivity|contradiction].
  - intros E L Inc T e B. rewrite (proj2 (Nat.eqb_eq _ _) E). cbn [guard bind]. rewrite (proj2 (increasing_iff times) Inc). cbn [guard bind]. rewrite (proj2 (Nat.leb_le 2 n) L). cbn [guard bind]. unfold ltb. destruct Rlt_dec; [lra|]. cbn [negb guard bind]. rewrite B. reflexivity.
Qed.

(* ---- C107 ---- *)
(* the numerical route prices on the flat curve r0, whatever the zero curve *)
Theorem C107_ode_1 (quad : integrator) (theta : R -> R) (r0 alpha sigma t1 t2 r : R) : exact_quad quad -> mean_reverting alpha -> t1 < t2 -> t1 <> 0 ->
  (forall t : R, t1 <= t <= t2 -> get_theta r0 alpha sigma t = Ok (theta t)) ->
  ode_1 quad (Some theta) r0 alpha sigma t1 t2 (Some r)
  = Ok (exp (- r0 * (t2 - t1)) * exp (calc_b alpha t1 t2 * (r0 - r) - sigma ^ 2 / (4 * alpha) * (1 - exp (-2 * alpha * t1)) * calc_b alpha t1 t2 ^ 2)).
Proof.
  intros Q A L N Th. rewrite (ode_1_closed quad theta r0 alpha sigma t1 t2 (Some r) r Q A L).
  - f_equal. rewrite <- exp_plus. f_equal. unfold log_a. ring.
  - intros t B. specialize (Th t B). rewrite theta_ok in Th by (pose proof (small_pos _ A); lra). congruence.
  - unfold short_rate, eqb. destruct Req_EM_T; [contradiction|reflexivity].
Qed.
Theorem C107_ode_1_today (quad : integrator) (theta : R -> R) (r0 alpha sigma T : R) (r : option R) : exact_quad quad -> mean_reverting alpha -> 0 < T ->
  (forall t : R, 0 <= t <= T -> get_theta r0 alpha sigma t = Ok (theta t)) -> ode_1 quad (Some theta) r0 alpha sigma 0 T r = Ok (exp (- r0 * T)).
Proof.
  intros Q A L Th. rewrite (ode_1_closed quad theta r0 alpha sigma 0 T r r0 Q A L).
  - do 2 f_equal. unfold log_a. replace (-2 * alpha * 0) with 0 by ring. rewrite exp_0. ring.
  - intros t B. specialize (Th t B). rewrite theta_ok in Th by (pose proof (small_pos _ A); lra). congruence.
  - unfold short_rate, eqb. destruct Req_EM_T; [reflexivity|contradiction].
Qed.
(* so it recovers the curve at every maturity only when the curve is flat *)
Theorem C107_ode_1_recovers (quad : integrator) (theta : R -> R) (df : R -> R) (r0 alpha sigma : R) : exact_quad quad -> mean_reverting alpha ->
  (forall t : R, 0 <= t -> get_theta r0 alpha sigma t = Ok (theta t)) ->
  ((forall T : R, 0 < T -> ode_1 quad (Some theta) r0 alpha sigma 0 T None = Ok (df T)) <-> (forall T : R, 0 < T -> df T = exp (- r0 * T))).
Proof.
  intros Q A Th. assert (E : forall T, 0 < T -> ode_1 quad (Some theta) r0 alpha sigma 0 T None = Ok (exp (- r0 * T))) by (intros T HT; apply C107_ode_1_today; [exact Q|exact A|exact HT|]; intros t B; apply Th; lra).
  split; intros H T HT; [pose proof (H T HT) as H1; rewrite (E T HT) in H1; congruence|rewrite (E T HT), (H T HT); reflexivity].
Qed.
(* the curve route recovers the curve exactly when the instantaneous forward rate today is r0 *)
Theorem C107_ode_2_today (df fwd : R -> R) (r0 alpha sigma T : R) (r : option R) : mean_reverting alpha -> 0 < T -> df 0 = 1 -> df T <> 0 ->
  exists x : R, ode_2 df fwd r0 alpha sigma 0 T r = Ok x /\ (x = df T <-> fwd 0 = r0).
Proof.
  intros A L D0 DT. pose proof (small_pos _ A) as Ap. eexists. split; [apply (ode_2_closed _ _ _ _ _ _ _ _ r0); [lra|exact L|lra|unfold short_rate, eqb; destruct Req_EM_T; [reflexivity|contradiction]]|].
  replace (-2 * alpha * 0) with 0 by ring. rewrite exp_0, D0. replace (1 - 1) with 0 by ring. rewrite Rmult_0_r, Rmult_0_l, Rminus_0_r. pose proof (b_pos alpha 0 T L) as B. split.
  - intros E. assert (X : exp (calc_b alpha 0 T * (fwd 0 - r0)) = 1). { apply (Rmult_eq_reg_l (df T)); [|exact DT]. rewrite Rmult_1_r. rewrite <- E at 2. field. }
    assert (Y : calc_b alpha 0 T * (fwd 0 - r0) = 0) by (apply exp_inv; rewrite exp_0; exact X). apply Rmult_integral in Y. destruct Y; lra.
  - intros ->. replace (calc_b alpha 0 T * (r0 - r0)) with 0 by ring. rewrite exp_0. field.
Qed.
(* on the flat curve the two routes agree *)
Theorem C107_flat_agreement (quad : integrator) (theta df fwd : R -> R) (r0 alpha sigma t1 t2 : R) (r : option R) : exact_quad quad -> mean_reverting alpha -> t1 < t2 -> flat r0 df fwd ->
  (forall t : R, t1 <= t <= t2 -> get_theta r0 alpha sigma t = Ok (theta t)) -> ode_1 quad (Some theta) r0 alpha sigma t1 t2 r = ode_2 df fwd r0 alpha sigma t1 t2 r.
Proof.
  intros Q A L F Th. pose proof (small_pos _ A) as Ap. destruct (short_rate r0 t1 r) as [rt|e] eqn:S.
  - rewrite (ode_1_closed quad theta r0 alpha sigma t1 t2 r rt Q A L); [|intros t B; specialize (Th t B); rewrite theta_ok in Th by lra; congruence|exact S].
    rewrite (ode_2_closed df fwd r0 alpha sigma t1 t2 r rt); [|lra|exact L|rewrite (proj1 (F t1)); apply Rgt_not_eq, exp_pos|exact S]. rewrite (proj1 (F t1)), (proj1 (F t2)), (proj2 (F t1)). f_equal.
    replace (exp (- r0 * t2) / exp (- r0 * t1)) with (exp (- r0 * (t2 - t1))). { rewrite <- exp_plus. f_equal. unfold log_a. ring. }
    replace (- r0 * (t2 - t1)) with (- r0 * t2 + - (- r0 * t1)) by ring. rewrite exp_plus, exp_Ropp. reflexivity.
  - unfold ode_1, ode_2. unfold ltb. destruct Rlt_dec; [|contradiction]. cbn [guard bind]. rewrite S. reflexivity.
Qed.
Theorem C107_rejections (quad : integrator) (theta : option (R -> R)) (df fwd : R -> R) (r0 alpha sigma t1 t2 : R) (r : option R) :
  (t2 <= t1 -> ode_1 quad theta r0 alpha sigma t1 t2 r = Err AssertionError /\ ode_2 df fwd r0 alpha sigma t1 t2 r = Err AssertionError)
  /\ (t1 < t2 -> t1 <> 0 -> ode_1 quad theta r0 alpha sigma t1 t2 None = Err AssertionError /\ ode_2 df fwd r0 alpha sigma t1 t2 None = Err AssertionError)
  /\ (0 < t2 -> ode_1 quad None r0 alpha sigma 0 t2 r = Err AttributeError)
  /\ (t1 < t2 -> forall x : R, df t1 <> 0 -> ode_2 df fwd r0 0 sigma t1 t2 (Some x) = Err ZeroDivisionError)
  /\ (forall t : R, get_theta r0 0 sigma t = Err ZeroDivisionError).
Proof.
  split; [|split; [|split; [|split]]].
  - intros L. unfold ode_1, ode_2. rewrite ltb_false by exact L. split; reflexivity.
  - intros L N. unfold ode_1, ode_2, short_rate, ltb, eqb. destruct Rlt_dec; [|contradiction]. destruct Req_EM_T; [contradiction|]. split; reflexivity.
  - intros L. unfold ode_1, short_rate, ltb, eqb. destruct Rlt_dec; [|contradiction]. destruct Req_EM_T; [|contradiction]. reflexivity.
  - intros L x D. unfold ode_2, short_rate, ltb, eqb. destruct Rlt_dec; [|contradiction]. cbn [guard bind]. replace (4 * 0) with 0 by ring. destruct (Req_EM_T (df t1) 0); [contradiction|]. destruct (Req_EM_T 0 0); [|contradiction]. destruct (Req_EM_T t1 0); reflexivity.
  - intros t. unfold get_theta, eqb. replace (2 * 0) with 0 by ring. destruct Req_EM_T; [reflexivity|contradiction].
Qed.

Definition all_theorems := (C64_b_equation, C64_b_composition, C64_b_slow, C64_is_black, C64_parity, C64_increasing_in_volatility, C64_zero_volatility, C64_small_volatility, C64_no_mean_reversion, C64_matured, C64_arrays, C64_later_valuation,
  C64_optionlet_never_priced, C64_swaption_never_priced, C64_construction, C106_strikes, C106_decomposition, C106_unique, C106_expiring_now, C106_validation, C107_ode_1, C107_ode_1_today, C107_ode_1_recovers, C107_ode_2_today, C107_flat_agreement, C107_rejections).
Print Assumptions all_theorems.

(* ---- cases ---- *)
Definition ex_df (t : R) : R := exp (- (1 / 50) * t).
Example ex_rev : mean_reverting (3 / 100). Proof. unfold mean_reverting. lra. Qed.
Example ex_parity : exists c p : R, zcbo ex_df (3 / 100) (1 / 50) [1] [5] [9 / 10] [1] 0 = Ok [Fin c] /\ zcbo ex_df (3 / 100) (1 / 50) [1] [5] [9 / 10] [-1] 0 = Ok [Fin p] /\ c - p = ex_df 5 - 9 / 10 * ex_df 1.
Proof. destruct (C64_parity ex_df (3 / 100) (1 / 50) 1 5 (9 / 10) ex_rev ltac:(lra) ltac:(lra) ltac:(lra) (exp_pos _) (exp_pos _) ltac:(lra)) as (c & p & A & B & C & _). exists c, p. tauto. Qed.
Example ex_several_strikes : zcbo ex_df (3 / 100) (1 / 50) [1] [5] [8 / 10; 9 / 10] [1] 0 = Err IndexError.
Proof. apply (C64_arrays ex_df (3 / 100) (1 / 50) [1] [5] [8 / 10; 9 / 10] [1] 2); [split; [repeat (constructor; [first [left; reflexivity|right; reflexivity]|]); constructor|cbn; tauto]|lia|cbn; lia|cbn; lia]. Qed.
Example ex_no_discounting : zcbo ex_df (3 / 100) 0 [1] [1] [1 / 2] [1] 0 = Ok [Fin (1 / 2)].
Proof.
  rewrite (C64_zero_volatility ex_df (3 / 100) 0 1 1 (1 / 2) 1 ex_rev ltac:(lra) ltac:(lra) (Rgt_not_eq _ _ (exp_pos _)) (or_introl eq_refl)). do 3 f_equal. replace (ex_df 1 / ex_df 1) with 1 by (field; apply Rgt_not_eq, exp_pos).
  rewrite Rmax_right by lra. lra.
Qed.
(* an exact integrator, an exact root finder, and a swap with two payments *)
Definition ex_quad : integrator := fun f a b => RInt f a b.
Example ex_quad_exact : exact_quad ex_quad. Proof. intros f a b H. apply (RInt_correct (V := R_CompleteNormedModule)). exact H. Qed.
Definition ex_theta (t : R) : R := theta_of (1 / 50) (3 / 100) (1 / 50) t.
Example ex_today : ode_1 ex_quad (Some ex_theta) (1 / 50) (3 / 100) (1 / 50) 0 5 None = Ok (exp (- (1 / 50) * 5)).
Proof. apply C107_ode_1_today; [exact ex_quad_exact|exact ex_rev|lra|]. intros t _. apply theta_ok. lra. Qed.
(* the bond maturing at 2 costs one at the rate 0, the coupon of 2 years is zero *)
Definition ex_root (r : R) : root_finder := fun f _ _ => match f r with Ok v => if Req_EM_T v 0 then Ok r else Err ValueError | Err e => Err e end.
Example ex_root_exact (r : R) : exact_root (ex_root r).
Proof. intros f a b x. unfold ex_root. destruct (f r) as [v|] eqn:E; [|discriminate]. destruct Req_EM_T; [|discriminate]. intros H. injection H as <-. congruence. Qed.
Definition ex_null : integrator := fun _ _ _ => 0.
Example ex_jamshidian : let P := fun t r => ode_1 ex_null (Some (fun _ => 0)) 0 (3 / 100) (1 / 50) 1 t (Some r) in
  exists r ks, 0 < r /\ jamshidian (ex_root r) P [2; 3] [1; 1] 3 (1 / 10) = Ok ks /\ coupon_sum (1 / 10) [1; 1] ks + last ks 0 = 1.
Proof.
  intros P. assert (V : forall t r, 1 < t -> P t r = Ok (exp (- r * calc_b (3 / 100) 1 t))).
  { intros t r L. unfold P, ode_1, ltb, short_rate, eqb. destruct Rlt_dec; [|contradiction]. cbn [guard bind]. destruct Req_EM_T; [lra|]. cbn [bind]. do 2 f_equal. unfold ex_null. ring. }
  set (g := fun r => 1 / 10 * 1 * exp (- r * calc_b (3 / 100) 1 2) + (1 / 10 * 1 * exp (- r * calc_b (3 / 100) 1 3) + 0) + exp (- r * calc_b (3 / 100) 1 3) - 1).
  pose proof (b_pos (3 / 100) 1 2 ltac:(lra)) as B2. pose proof (b_pos (3 / 100) 1 3 ltac:(lra)) as B3. set (b2 := calc_b (3 / 100) 1 2) in *. set (b3 := calc_b (3 / 100) 1 3) in *.
  (* at large rates the leg is worth less than one *)
  assert (Root : exists r, 0 < r /\ g r = 0).
  { set (M := (1 / b2 + 1 / b3) * ln 4). assert (L4 : 0 < ln 4) by (rewrite <- ln_1; apply ln_increasing; lra). assert (I2 : 0 < 1 / b2) by (apply Rdiv_lt_0_compat; lra). assert (I3 : 0 < 1 / b3) by (apply Rdiv_lt_0_compat; lra).
    assert (Mp : 0 < M) by (apply Rmult_lt_0_compat; lra).
    assert (E4 : exp (- ln 4) = 1 / 4) by (rewrite exp_Ropp, exp_ln by lra; lra).
    assert (M2 : exp (- M * b2) <= 1 / 4). { rewrite <- E4. apply exp_le. unfold M. replace (- ((1 / b2 + 1 / b3) * ln 4) * b2) with (- ln 4 - (1 / b3 * b2) * ln 4) by (field; lra). assert (0 < 1 / b3 * b2) by (apply Rmult_lt_0_compat; lra). nra. }
    assert (M3 : exp (- M * b3) <= 1 / 4). { rewrite <- E4. apply exp_le. unfold M. replace (- ((1 / b2 + 1 / b3) * ln 4) * b3) with (- ln 4 - (1 / b2 * b3) * ln 4) by (field; lra). assert (0 < 1 / b2 * b3) by (apply Rmult_lt_0_compat; lra). nra. }
    destruct (IVT_gen g 0 M 0) as (r & Br & Er).
    - intros x. apply continuity_pt_filterlim. apply (ex_derive_continuous (K := R_AbsRing) (V := R_NormedModule)). unfold g. auto_derive. trivial.
    - assert (g 0 = 2 / 10) by (unfold g; replace (- 0 * b2) with 0 by ring; replace (- 0 * b3) with 0 by ring; rewrite exp_0; lra). assert (g M < 0) by (unfold g; lra). rewrite Rmin_right, Rmax_left by lra. lra.
    - exists r. rewrite Rmin_left, Rmax_right in Br by lra. split; [|exact Er]. destruct (Req_dec r 0) as [-> |]; [|lra]. exfalso. unfold g in Er. replace (- 0 * b2) with 0 in Er by ring. replace (- 0 * b3) with 0 in Er by ring. rewrite exp_0 in Er. lra. }
  destruct Root as (r & Rp & Er). exists r. exists [exp (- r * b2); exp (- r * b3)]. split; [exact Rp|].
  assert (Z : zero_function P [2; 3] [1; 1] 3 (1 / 10) r = Ok 0).
  { unfold zero_function. cbn [combine map fst snd]. rewrite !V by lra. cbn [bind sequence fold_right]. fold b2 b3. f_equal. unfold g in Er. lra. }
  split.
  - unfold jamshidian. cbn [List.length Nat.eqb guard bind increasing]. unfold ltb at 1. destruct (Rlt_dec 2 3); [|lra]. cbn [andb guard bind Nat.leb Nat.sub nth]. unfold ltb at 1. destruct (Rlt_dec 3 2); [lra|]. cbn [negb guard bind].
    unfold ex_root. rewrite Z. destruct (Req_EM_T 0 0); [|contradiction]. cbn [bind map]. rewrite !V by lra. cbn [sequence bind last]. unfold eqb. destruct (Req_EM_T 3 3); [|contradiction]. reflexivity.
  - cbn. unfold g in Er. lra.
Qed.
