From Coq Require Import ZArith Reals Lra Psatz Lia String List.
From Coquelicot Require Import Coquelicot.
From Verif Require Import Base NumModel CurveModel NormalModel MonteModel MonteSpec MonteProofs ChfModel ChfSpec CplxProofs ChfProofs RiccatiProofs RiccatiUniqueProofs CosModel CosSpec.
Import ListNotations.
Open Scope R_scope.

(* ---- the two integrals ---- *)
Lemma chi_integral (a b c d : R) (k : nat) : b <> a ->
  is_RInt (fun y => exp y * basis a b k y) c d
    (calc_chi a b k c d + (exp d - 1) * (INR k * PI / (b - a)) * sin (INR k * PI * (d - a) / (b - a)) / (1 + (INR k * PI / (b - a)) ^ 2)).
Proof.
  intros N. set (w := INR k * PI / (b - a)). assert (W : 0 < 1 + w ^ 2) by nra.
  assert (A : forall y, INR k * PI * (y - a) / (b - a) = w * (y - a)) by (intros y; unfold w; field; lra).
  set (F := fun y => exp y * (cos (w * (y - a)) + w * sin (w * (y - a))) / (1 + w ^ 2)).
  apply (is_RInt_ext (fun y => exp y * cos (w * (y - a)))). { intros y _. unfold basis. rewrite A. reflexivity. }
  replace (calc_chi a b k c d + _) with (minus (F d) (F c)).
  2:{ unfold calc_chi, F, minus, plus, opp. cbn [AbelianGroup.plus AbelianGroup.opp R_AbelianGroup]. fold w. rewrite !A. cbn. field. lra. }
  apply (is_RInt_derive F).
  - intros y _. unfold F, Rminus. clearbody w. auto_derive; [trivial|]. cbn [pow]. field. nra.
  - intros y _. apply (ex_derive_continuous (K := R_AbsRing) (V := R_NormedModule)). auto_derive. trivial.
Qed.
Lemma psi_integral (a b c d : R) (k : nat) : b <> a -> is_RInt (basis a b k) c d (calc_psi a b k c d).
Proof.
  intros N. destruct k as [|k].
  - apply (is_RInt_ext (fun _ => 1)). { intros y _. unfold basis. cbn [INR]. replace (0 * PI * (y - a) / (b - a)) with 0 by (field; lra). rewrite cos_0. reflexivity. }
    cbn [calc_psi]. replace (d - c) with (scal (d - c) 1) by (unfold scal; cbn; unfold mult; cbn; ring). apply (is_RInt_const (V := R_NormedModule)).
  - set (w := INR (S k) * PI / (b - a)). assert (K : INR (S k) <> 0) by (apply not_0_INR; lia). pose proof PI_neq0 as P.
    assert (W : w <> 0). { unfold w, Rdiv. apply Rmult_integral_contrapositive_currified; [apply Rmult_integral_contrapositive_currified; assumption|]. apply Rinv_neq_0_compat. lra. }
    assert (A : forall y, INR (S k) * PI * (y - a) / (b - a) = w * (y - a)) by (intros y; unfold w; field; lra).
    set (F := fun y => sin (w * (y - a)) / w).
    apply (is_RInt_ext (fun y => cos (w * (y - a)))). { intros y _. unfold basis. rewrite A. reflexivity. }
    replace (calc_psi a b (S k) c d) with (minus (F d) (F c)).
    2:{ unfold calc_psi, F, minus, plus, opp. cbn [AbelianGroup.plus AbelianGroup.opp R_AbelianGroup]. rewrite !A.
        replace (INR (S k) * PI) with (w * (b - a)) by (unfold w; field; lra). cbn. field. repeat split; try assumption; lra. }
    apply (is_RInt_derive F).
    + intros y _. unfold F, Rminus. clearbody w. auto_derive; [trivial|]. field. assumption.
    + intros y _. apply (ex_derive_continuous (K := R_AbsRing) (V := R_NormedModule)). auto_derive. trivial.
Qed.
Lemma sin_k (k : nat) : sin (INR k * PI) = 0.
Proof. apply sin_eq_0_1. exists (Z.of_nat k). rewrite <- INR_IZR_INZ. reflexivity. Qed.
Lemma chi_put (a b : R) (k : nat) : b <> a -> is_RInt (fun y => exp y * basis a b k y) a 0 (calc_chi a b k a 0).
Proof. intros N. pose proof (chi_integral a b a 0 k N) as H. rewrite exp_0 in H. replace (calc_chi a b k a 0) with (calc_chi a b k a 0 + (1 - 1) * (INR k * PI / (b - a)) * sin (INR k * PI * (0 - a) / (b - a)) / (1 + (INR k * PI / (b - a)) ^ 2)); [exact H|]. unfold Rdiv. ring. Qed.
Lemma chi_call (a b : R) (k : nat) : b <> a -> is_RInt (fun y => exp y * basis a b k y) 0 b (calc_chi a b k 0 b).
Proof.
  intros N. pose proof (chi_integral a b 0 b k N) as H. replace (INR k * PI * (b - a) / (b - a)) with (INR k * PI) in H by (field; lra). rewrite sin_k in H.
  replace (calc_chi a b k 0 b) with (calc_chi a b k 0 b + (exp b - 1) * (INR k * PI / (b - a)) * 0 / (1 + (INR k * PI / (b - a)) ^ 2)); [exact H|]. unfold Rdiv. ring.
Qed.
Lemma chi_exact_iff (a b c d : R) (k : nat) : b <> a -> (is_RInt (fun y => exp y * basis a b k y) c d (calc_chi a b k c d) <-> d = 0 \/ INR k * PI / (b - a) * sin (INR k * PI * (d - a) / (b - a)) = 0).
Proof.
  intros N. pose proof (chi_integral a b c d k N) as H. set (w := INR k * PI / (b - a)) in *. set (s := sin _) in *. assert (W : 0 < 1 + w ^ 2) by nra. split.
  - intros G. pose proof (is_RInt_unique _ _ _ _ H) as U1. pose proof (is_RInt_unique _ _ _ _ G) as U2. rewrite U2 in U1.
    assert (E : (exp d - 1) * (w * s) = 0). { apply (Rmult_eq_reg_r (/ (1 + w ^ 2))); [|apply Rinv_neq_0_compat; lra]. unfold Rdiv in U1. nra. }
    apply Rmult_integral in E. destruct E as [E|E]; [left; rewrite <- (ln_exp d); replace (exp d) with 1 by lra; apply ln_1 | right; exact E].
  - intros E. replace (calc_chi a b k c d) with (calc_chi a b k c d + (exp d - 1) * w * s / (1 + w ^ 2)); [exact H|].
    destruct E as [-> | E]; [rewrite exp_0 | rewrite Rmult_assoc, E]; unfold Rdiv; ring.
Qed.

(* ---- payoff coefficients ---- *)
Lemma split_RInt (f : R -> R) (a b : R) (x : R) : a <= 0 <= b -> is_RInt f a 0 x -> (forall y, 0 < y < b -> f y = 0) -> is_RInt f a b x.
Proof.
  intros [A B] H Z. replace x with (plus x 0) by (unfold plus; cbn; ring). apply (is_RInt_Chasles f a 0 b); [exact H|].
  apply (is_RInt_ext (fun _ => 0)). { intros y Y. rewrite Rmin_left, Rmax_right in Y by lra. symmetry. apply Z, Y. }
  pose proof (is_RInt_const (V := R_NormedModule) 0 b 0) as C. unfold scal in C. cbn in C. unfold mult in C. cbn in C. rewrite Rmult_0_r in C. exact C.
Qed.
Lemma split_RInt_r (f : R -> R) (a b : R) (x : R) : a <= 0 <= b -> is_RInt f 0 b x -> (forall y, a < y < 0 -> f y = 0) -> is_RInt f a b x.
Proof.
  intros [A B] H Z. replace x with (plus 0 x) by (unfold plus; cbn; ring). apply (is_RInt_Chasles f a 0 b); [|exact H].
  apply (is_RInt_ext (fun _ => 0)). { intros y Y. rewrite Rmin_left, Rmax_right in Y by lra. symmetry. apply Z, Y. }
  pose proof (is_RInt_const (V := R_NormedModule) a 0 0) as C. unfold scal in C. cbn in C. unfold mult in C. cbn in C. rewrite Rmult_0_r in C. exact C.
Qed.
Lemma exp_sign (y : R) : (0 <= y -> 1 <= exp y) /\ (y <= 0 -> exp y <= 1).
Proof. split; intros H; rewrite <- exp_0; (destruct H as [H| H]; [left; apply exp_increasing, H | rewrite H; lra]). Qed.
Lemma uk_integral (call : bool) (a b : R) (k : nat) : a <= 0 <= b -> a < b ->
  is_RInt (fun y => payoff call y * basis a b k y) a b ((b - a) / 2 * calculate_Uk call a b k).
Proof.
  intros Z L. assert (N : b <> a) by lra. destruct call; cbn [payoff calculate_Uk].
  - apply split_RInt_r; [exact Z| |].
    + replace ((b - a) / 2 * (2 / (b - a) * (calc_chi a b k 0 b - calc_psi a b k 0 b))) with (minus (calc_chi a b k 0 b) (calc_psi a b k 0 b)) by (unfold minus, plus, opp; cbn; field; lra).
      apply (is_RInt_ext (fun y => minus (exp y * basis a b k y) (basis a b k y))).
      { intros y Y. rewrite Rmin_left, Rmax_right in Y by lra. destruct (exp_sign y) as [S _]. rewrite Rmax_left by (specialize (S ltac:(lra)); lra). unfold minus, plus, opp. cbn. ring. }
      apply (is_RInt_minus (V := R_NormedModule)); [apply chi_call, N | apply psi_integral, N].
    + intros y Y. destruct (exp_sign y) as [_ S]. rewrite Rmax_right by (specialize (S ltac:(lra)); lra). ring.
  - apply split_RInt; [exact Z| |].
    + replace ((b - a) / 2 * (2 / (b - a) * (- calc_chi a b k a 0 + calc_psi a b k a 0))) with (minus (calc_psi a b k a 0) (calc_chi a b k a 0)) by (unfold minus, plus, opp; cbn; field; lra).
      apply (is_RInt_ext (fun y => minus (basis a b k y) (exp y * basis a b k y))).
      { intros y Y. rewrite Rmin_left, Rmax_right in Y by lra. destruct (exp_sign y) as [_ S]. rewrite Rmax_left by (specialize (S ltac:(lra)); lra). unfold minus, plus, opp. cbn. ring. }
      apply (is_RInt_minus (V := R_NormedModule)); [apply psi_integral, N | apply chi_put, N].
    + intros y Y. destruct (exp_sign y) as [S _]. rewrite Rmax_right by (specialize (S ltac:(lra)); lra). ring.
Qed.

(* ---- prices are integrals against the cosine series ---- *)
Lemma osum_from (g : nat -> option R) (h : nat -> R) (l : list nat) : (forall k : nat, In k l -> g k = Some (h k)) -> osum (map g l) = Some (fold_right Rplus 0 (map h l)).
Proof.
  induction l as [|k l IH]; intros H; [reflexivity|]. cbn [map osum fold_right]. rewrite (H k (or_introl eq_refl)), IH by (intros j J; apply H; right; exact J). reflexivity.
Qed.
Lemma osum_total (g : nat -> option R) (h : nat -> R) (N : nat) : (forall k : nat, (k < N)%nat -> g k = Some (h k)) -> osum (map g (seq 0 N)) = Some (total N h).
Proof. intros H. apply osum_from. intros k K. apply in_seq in K. apply H. lia. Qed.
Lemma is_RInt_total (f : nat -> R -> R) (I : nat -> R) (a b : R) (N : nat) : (forall k : nat, (k < N)%nat -> is_RInt (f k) a b (I k)) -> is_RInt (fun y => total N (fun k => f k y)) a b (total N I).
Proof.
  induction N as [|N IH]; intros H.
  - pose proof (is_RInt_const (V := R_NormedModule) a b 0) as C. unfold scal in C. cbn in C. unfold mult in C. cbn in C. rewrite Rmult_0_r in C. exact C.
  - rewrite total_S. apply (is_RInt_ext (fun y => plus (total N (fun k => f k y)) (f N y))). { intros y _. rewrite total_S. reflexivity. }
    apply (is_RInt_plus (V := R_NormedModule)); [apply IH; intros k K; apply H; lia | apply H; lia].
Qed.
Definition weight (z : nat -> C) (a b x0 : R) (k : nat) : R := (if Nat.eqb k 0 then 1 / 2 else 1) * Re (z k * cexp (Ci * (INR k * PI / (b - a))%R * (x0 - a)%R)%C)%C.
Lemma fk_weight (p : params) (z : nat -> C) (a b x0 : R) (k : nat) : b <> a -> chf_fang p (INR k * PI / (b - a))%R = Some (z k) -> cos_Fk p a b x0 k = Some (weight z a b x0 k).
Proof.
  intros N H. unfold cos_Fk. destruct (Req_EM_T b a); [contradiction|]. rewrite H. cbn [obind]. f_equal. unfold weight.
  replace (Ci * INR k * PI * ((x0 - a) / (b - a))%R)%C with (Ci * (INR k * PI / (b - a))%R * (x0 - a)%R)%C by (apply c_eq; cbn [fst snd Cmult Ci RtoC]; field; lra).
  destruct k; cbn [Nat.eqb]; lra.
Qed.
Lemma series_weight (z : nat -> C) (a b x0 : R) (N : nat) (y : R) : series z a b x0 N y = total N (fun k => 2 / (b - a) * weight z a b x0 k * basis a b k y).
Proof. unfold series, weight. apply total_ext. intros k _. ring. Qed.
Lemma log_ratio (S0 K : R) : 0 < S0 -> 0 < K -> (if Req_EM_T K 0 then None else log_of (S0 / K)) = Some (ln (S0 / K)).
Proof. intros HS HK. destruct Req_EM_T; [lra|]. unfold log_of. destruct Rlt_dec as [|N]; [reflexivity|]. exfalso. apply N, Rdiv_lt_0_compat; assumption. Qed.
Lemma px_integral (p : params) (z : nat -> C) (a b S0 : R) (N : nat) (call : bool) (K : R) : a <= 0 <= b -> a < b -> 0 < S0 -> 0 < K ->
  (forall k : nat, (k < N)%nat -> chf_fang p (INR k * PI / (b - a))%R = Some (z k)) ->
  exists I : R, is_RInt (fun y => payoff call y * series z a b (ln (S0 / K)) N y) a b I /\ cos_px p a b S0 N call K = Some (K * exp (- p_r p * p_tau p) * I).
Proof.
  intros Z L HS HK Hz. set (x0 := ln (S0 / K)). exists (total N (fun k => weight z a b x0 k * calculate_Uk call a b k)). split.
  - apply (is_RInt_ext (fun y => total N (fun k => 2 / (b - a) * weight z a b x0 k * (payoff call y * basis a b k y)))).
    { intros y _. rewrite series_weight, <- total_scal. apply total_ext. intros k _. ring. }
    apply is_RInt_total. intros k _. replace (weight z a b x0 k * calculate_Uk call a b k) with (scal (2 / (b - a) * weight z a b x0 k) ((b - a) / 2 * calculate_Uk call a b k)).
    2:{ unfold scal. cbn. unfold mult. cbn. field. lra. }
    apply (is_RInt_scal (V := R_NormedModule)). apply uk_integral; assumption.
  - unfold cos_px. rewrite log_ratio by assumption. cbn [obind]. fold x0.
    rewrite (osum_total _ (fun k => weight z a b x0 k * calculate_Uk call a b k)).
    + cbn [obind]. f_equal. ring.
    + intros k Hk. rewrite (fk_weight p z a b x0 k) by (try lra; apply Hz, Hk). reflexivity.
Qed.
Lemma psi_full (a b : R) (k : nat) : a < b -> calc_psi a b k a b = if Nat.eqb k 0 then b - a else 0.
Proof.
  intros L. destruct k; [reflexivity|]. cbn [Nat.eqb calc_psi]. replace (INR (S k) * PI * (b - a) / (b - a)) with (INR (S k) * PI) by (field; lra).
  replace (INR (S k) * PI * (a - a) / (b - a)) with 0 by (field; lra). rewrite sin_k, sin_0. unfold Rdiv. ring.
Qed.
Lemma series_mass (z : nat -> C) (a b x0 : R) (N : nat) : a < b -> (0 < N)%nat -> z 0%nat = RtoC 1 -> is_RInt (series z a b x0 N) a b 1.
Proof.
  intros L P Z. apply (is_RInt_ext (fun y => total N (fun k => 2 / (b - a) * weight z a b x0 k * basis a b k y))). { intros y _. rewrite series_weight. reflexivity. }
  replace 1 with (total N (fun k => scal (2 / (b - a) * weight z a b x0 k) (calc_psi a b k a b))).
  - apply is_RInt_total. intros k _. apply (is_RInt_scal (V := R_NormedModule)). apply psi_integral. lra.
  - rewrite (total_single N 0).
    + assert (W : weight z a b x0 0 = 1 / 2).
      { unfold weight. cbn [Nat.eqb INR]. rewrite Z. replace (Ci * (0 * PI / (b - a))%R * (x0 - a)%R)%C with (RtoC 0) by (apply c_eq; cbn [fst snd Cmult Ci RtoC]; field; lra). rewrite cexp_0, Cmult_1_r. unfold Re. cbn [fst RtoC]. ring. }
      rewrite psi_full, W by exact L. cbn [Nat.eqb]. unfold scal. cbn. unfold mult. cbn. field. lra.
    + exact P.
    + intros i _ I. rewrite psi_full by exact L. destruct i; [lia|]. cbn [Nat.eqb]. unfold scal. cbn. unfold mult. cbn. ring.
Qed.
(* ---- the price per unit of strike is periodic in the logarithm of the strike ---- *)
Lemma cexp_period (k : nat) : cexp (Ci * (- (2 * (INR k * PI)))%R)%C = RtoC 1.
Proof.
  unfold cexp. cbn [fst snd Cmult Ci RtoC]. replace (0 * - (2 * (INR k * PI)) - 1 * 0) with 0 by ring. replace (0 * 0 + 1 * - (2 * (INR k * PI))) with (- (2 * (INR k * PI))) by ring.
  rewrite exp_0, cos_neg, sin_neg, cos_2a_sin, sin_2a, sin_k. apply c_eq; cbn; ring.
Qed.
Lemma fk_period (p : params) (a b x0 : R) (k : nat) : b <> a -> cos_Fk p a b (x0 - 2 * (b - a)) k = cos_Fk p a b x0 k.
Proof.
  intros N. unfold cos_Fk. destruct Req_EM_T; [contradiction|]. destruct (chf_fang p (INR k * PI / (b - a))%R) as [z|]; [|reflexivity]. cbn [obind].
  replace (Ci * INR k * PI * ((x0 - 2 * (b - a) - a) / (b - a))%R)%C with (Ci * INR k * PI * ((x0 - a) / (b - a))%R + Ci * (- (2 * (INR k * PI)))%R)%C.
  2:{ apply c_eq; cbn [fst snd Cmult Cplus Ci RtoC]; field; lra. }
  rewrite cexp_add, cexp_period, Cmult_1_r. reflexivity.
Qed.
Lemma px_period (p : params) (a b S0 : R) (N : nat) (call : bool) (K : R) : b <> a -> 0 < S0 -> 0 < K ->
  cos_px p a b S0 N call (K * exp (2 * (b - a))) = let? v := cos_px p a b S0 N call K in Some (exp (2 * (b - a)) * v).
Proof.
  intros Nab HS HK. pose proof (exp_pos (2 * (b - a))) as E. unfold cos_px. rewrite !log_ratio by (try assumption; apply Rmult_lt_0_compat; assumption). cbn [obind].
  assert (L : ln (S0 / (K * exp (2 * (b - a)))) = ln (S0 / K) - 2 * (b - a)).
  { replace (S0 / (K * exp (2 * (b - a)))) with (S0 / K * exp (- (2 * (b - a)))). 2:{ rewrite exp_Ropp. field. split; lra. }
    rewrite ln_mult, ln_exp; [ring | apply Rdiv_lt_0_compat; assumption | apply exp_pos]. }
  rewrite L. rewrite (map_ext (fun k => let? f := cos_Fk p a b (ln (S0 / K) - 2 * (b - a)) k in Some (f * calculate_Uk call a b k)) (fun k => let? f := cos_Fk p a b (ln (S0 / K)) k in Some (f * calculate_Uk call a b k))).
  2:{ intros k. rewrite fk_period by exact Nab. reflexivity. }
  destruct osum as [s|]; [|reflexivity]. cbn [obind]. f_equal. ring.
Qed.

(* ---- truncation range: moments ---- *)
Lemma decay_unique (c : R) (f : R -> R) : f 0 = 0 -> (forall t : R, 0 <= t -> is_derive f t (- c * f t)) -> forall t : R, 0 <= t -> f t = 0.
Proof.
  intros F0 F t T. destruct T as [T|<-]; [|exact F0].
  assert (E : f 0 * exp (c * 0) = f t * exp (c * t)).
  { apply (eq_is_derive (V := R_NormedModule) (fun s => f s * exp (c * s)) 0 t); [|exact T]. intros s [S _]. 
    assert (D : is_derive (fun s => f s * exp (c * s)) s ((- c * f s) * exp (c * s) + f s * (c * exp (c * s)))); [|replace ((- c * f s) * exp (c * s) + f s * (c * exp (c * s))) with 0 in D by ring; exact D].
    apply (is_derive_mult (K := R_AbsRing) f (fun s => exp (c * s))); [apply F, S | | intros; apply Rmult_comm].
    auto_derive; [trivial|ring]. }
  rewrite F0, Rmult_0_l in E. symmetry in E. apply Rmult_integral in E. destruct E as [E|E]; [exact E|]. pose proof (exp_pos (c * t)). lra.
Qed.
Lemma derive_diff (f g : R -> R) (t l m n : R) : is_derive f t l -> is_derive g t m -> n = l - m -> is_derive (fun s => f s - g s) t n.
Proof. intros F G ->. apply (is_derive_minus (K := R_AbsRing) (V := R_NormedModule)); assumption. Qed.
Lemma same (c : R) (f g h : R -> R) : f 0 = g 0 -> (forall t : R, 0 <= t -> is_derive f t (h t - c * f t)) -> (forall t : R, 0 <= t -> is_derive g t (h t - c * g t)) -> forall t : R, 0 <= t -> f t = g t.
Proof.
  intros Z F G t T. enough (f t - g t = 0) by lra. apply (decay_unique c (fun s => f s - g s)); [lra| |exact T].
  intros s S. eapply derive_diff; [apply F, S | apply G, S | ring].
Qed.
Section Moments.
Variables mu u0 eta lam ub rho : R.
Hypothesis lam_nz : lam <> 0.
Let E (t : R) := exp (- lam * t).
Definition m_ (t : R) : R := ub + (u0 - ub) * E t.
Definition s_ (t : R) : R := eta ^ 2 / lam * u0 * (E t - E t ^ 2) + eta ^ 2 * ub / (2 * lam) * (1 - E t) ^ 2.
Definition q_ (t : R) : R :=
  rho * eta * (ub * (1 - E t) / lam + (u0 - ub) * t * E t)
  - 1 / 2 * (eta ^ 2 * u0 / lam * (t * E t - (E t - E t ^ 2) / lam) + eta ^ 2 * ub / (2 * lam) * ((1 - E t) / lam - 2 * t * E t + (E t - E t ^ 2) / lam)).
Definition v_ (t : R) : R := heston_c2 t u0 eta lam ub rho + eta ^ 2 * ub * (1 - E t) / (4 * lam ^ 3).
Lemma d_m (t : R) : is_derive m_ t (lam * ub - lam * m_ t).
Proof. unfold m_, E. auto_derive; [trivial|]. ring. Qed.
Lemma d_s (t : R) : is_derive s_ t (eta ^ 2 * m_ t - 2 * lam * s_ t).
Proof. unfold s_, m_, E. auto_derive; [trivial|]. field. exact lam_nz. Qed.
Lemma d_q (t : R) : is_derive q_ t (rho * eta * m_ t - s_ t / 2 - lam * q_ t).
Proof. unfold q_, s_, m_, E. auto_derive; [trivial|]. field. exact lam_nz. Qed.
Lemma e2 (t : R) : exp (-2 * lam * t) = E t ^ 2.
Proof. unfold E. cbn [pow]. rewrite Rmult_1_r, <- exp_plus. f_equal. ring. Qed.
Lemma d_v (t : R) : is_derive v_ t (m_ t - q_ t).
Proof.
  apply (is_derive_ext (fun t => 1 / (8 * lam ^ 3) * (
    eta * t * lam * E t * (u0 - ub) * (8 * lam * rho - 4 * eta)
    + lam * rho * eta * (1 - E t) * (16 * ub - 8 * u0)
    + 2 * ub * lam * t * (-4 * lam * rho * eta + eta ^ 2 + 4 * lam ^ 2)
    + eta ^ 2 * ((ub - 2 * u0) * E t ^ 2 + ub * (6 * E t - 7) + 2 * u0)
    + 8 * lam ^ 2 * (u0 - ub) * (1 - E t)) + eta ^ 2 * ub * (1 - E t) / (4 * lam ^ 3))).
  { intros x. unfold v_, heston_c2. rewrite e2. fold (E x). reflexivity. }
  unfold q_, m_, E. auto_derive; [trivial|]. field. exact lam_nz.
Qed.
Lemma d_c1 (t : R) : is_derive (fun t => heston_c1 t mu u0 lam ub) t (mu - m_ t / 2).
Proof.
  apply (is_derive_ext (fun t => mu * t + (1 - E t) * (ub - u0) / (2 * lam) - 1 / 2 * ub * t)). { intros x. unfold heston_c1, E. replace (-1 * lam * x) with (- lam * x) by ring. reflexivity. }
  unfold m_, E. auto_derive; [trivial|]. field. exact lam_nz.
Qed.
Lemma e0 : E 0 = 1. Proof. unfold E. rewrite Rmult_0_r. apply exp_0. Qed.
Lemma closed_moments : heston_moments mu u0 eta lam ub rho (fun t => heston_c1 t mu u0 lam ub) m_ s_ q_ v_.
Proof.
  split.
  - assert (Z : exp (-1 * lam * 0) = 1) by (rewrite Rmult_0_r; apply exp_0). assert (Z2 : exp (-2 * lam * 0) = 1) by (rewrite Rmult_0_r; apply exp_0).
    pose proof e0 as Z0. unfold v_, heston_c2, heston_c1, m_, s_, q_. rewrite Z2, Z. fold (E 0). rewrite Z0. repeat split; field; exact lam_nz.
  - intros t _. pose proof (d_m t) as H. replace (lam * ub - lam * m_ t) with (lam * (ub - m_ t)) in H by ring. split; [apply d_c1|]. split; [exact H|]. split; [apply d_s|]. split; [apply d_q | apply d_v].
Qed.
Lemma moments_unique (M m s q V : R -> R) : heston_moments mu u0 eta lam ub rho M m s q V -> forall t : R, 0 <= t -> M t = heston_c1 t mu u0 lam ub /\ V t = v_ t.
Proof.
  intros [(M0 & m0 & s0 & q0 & V0) H] t T. destruct closed_moments as [(M0' & m0' & s0' & q0' & V0') H'].
  assert (Em : forall t : R, 0 <= t -> m t = m_ t).
  { apply (same lam m m_ (fun _ => lam * ub)); [rewrite m0, m0'; reflexivity| |]; intros x X; [destruct (H x X) as (_ & D & _) | destruct (H' x X) as (_ & D & _)];
    [replace (lam * ub - lam * m x) with (lam * (ub - m x)) by ring | replace (lam * ub - lam * m_ x) with (lam * (ub - m_ x)) by ring]; exact D. }
  assert (Es : forall t : R, 0 <= t -> s t = s_ t).
  { apply (same (2 * lam) s s_ (fun x => eta ^ 2 * m_ x)); [rewrite s0, s0'; reflexivity| |]; intros x X; [destruct (H x X) as (_ & _ & D & _); rewrite (Em x X) in D | destruct (H' x X) as (_ & _ & D & _)]; exact D. }
  assert (Eq : forall t : R, 0 <= t -> q t = q_ t).
  { apply (same lam q q_ (fun x => rho * eta * m_ x - s_ x / 2)); [rewrite q0, q0'; reflexivity| |]; intros x X; [destruct (H x X) as (_ & _ & _ & D & _); rewrite (Em x X), (Es x X) in D | destruct (H' x X) as (_ & _ & _ & D & _)]; exact D. }
  split.
  - apply (same 0 M (fun t => heston_c1 t mu u0 lam ub) (fun x => mu - m_ x / 2)); [rewrite M0, M0'; reflexivity| | |exact T]; intros x X.
    + destruct (H x X) as (D & _). rewrite (Em x X) in D. rewrite Rmult_0_l, Rminus_0_r. exact D.
    + rewrite Rmult_0_l, Rminus_0_r. apply d_c1.
  - apply (same 0 V v_ (fun x => m_ x - q_ x)); [rewrite V0, V0'; reflexivity| | |exact T]; intros x X.
    + destruct (H x X) as (_ & _ & _ & _ & D). rewrite (Em x X), (Eq x X) in D. rewrite Rmult_0_l, Rminus_0_r. exact D.
    + rewrite Rmult_0_l, Rminus_0_r. apply d_v.
Qed.
End Moments.
