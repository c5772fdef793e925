From Coq Require Import Reals List Bool String Lia Lra Arith.
From Verif Require Import Base NormalModel NormalProofs BlackModel BlackProofs MonteModel MonteSpec MonteProofs HestonSimModel HestonSimSpec.
Import ListNotations.
Open Scope R_scope.

Lemma decay (k dt : R) : 0 < k -> 0 < dt -> 0 < exp (- k * dt) < 1.
Proof. intros K D. split; [apply exp_pos | ]. rewrite <- exp_0. apply exp_increasing. assert (0 < k * dt) by (apply Rmult_lt_0_compat; assumption). lra. Qed.

Section Step.
Variables (h : heston) (dt v : R).
Hypothesis H : sound h.
Hypothesis DT : 0 < dt.
Hypothesis V : 0 <= v.

Let e := exp (- h_kappa h * dt).
Let m := cir_mean h dt v.
Let s2 := cir_variance h dt v.

Lemma e_range : 0 < e < 1. Proof. destruct H as (_ & _ & _ & K & _). apply decay; assumption. Qed.
Lemma m_pos : 0 < m.
Proof. pose proof e_range. destruct H as (_ & _ & _ & _ & T & _). unfold m, cir_mean. fold e. pose proof (Rmult_lt_0_compat _ (1 - e) T ltac:(lra)). pose proof (Rmult_le_pos v e V ltac:(lra)). lra. Qed.
Lemma s2_pos : 0 < s2.
Proof.
  pose proof e_range. destruct H as (_ & _ & W & K & T & _). unfold s2, cir_variance. fold e. cbv zeta.
  assert (A : 0 <= v * h_vv h ^ 2 * e * (1 - e) / h_kappa h).
  { apply Rmult_le_pos; [ | apply Rlt_le, Rinv_0_lt_compat, K]. repeat apply Rmult_le_pos; try lra; try (apply pow2_ge_0). }
  assert (B : 0 < h_theta h * h_vv h ^ 2 * (1 - e) ^ 2 / (2 * h_kappa h)).
  { apply Rdiv_lt_0_compat; [ | lra]. repeat apply Rmult_lt_0_compat; try lra. }
  lra.
Qed.
Lemma qe_m_fin : qe_m h dt (Fin v) = Fin m.
Proof. unfold qe_m. cbn [sub neg add mul]. f_equal. unfold m, cir_mean. fold e. ring. Qed.
Lemma qe_s2_fin : qe_s2 h dt (Fin v) = Fin s2.
Proof.
  destruct H as (_ & _ & _ & K & _). unfold qe_s2. cbn [mul]. rewrite div_fin by lra. cbn [mul add]. f_equal. unfold s2, cir_variance. fold e. cbv zeta. field. lra.
Qed.
Lemma qe_phi_fin : qe_phi h dt (Fin v) = Fin (s2 / m ^ 2).
Proof.
  pose proof m_pos as M. unfold qe_phi. rewrite qe_s2_fin, qe_m_fin. unfold npow2. cbn [mul]. rewrite div_fin by (apply Rgt_not_eq, Rmult_lt_0_compat; exact M). f_equal. f_equal. ring.
Qed.

Lemma qe_low_step : s2 <= 3 / 2 * m ^ 2 -> exists a b, quadratic_law m s2 a b /\ forall z : R, qe_variance h dt (Fin v) z = Fin (a * (b + z) ^ 2).
Proof.
  intros L. pose proof m_pos as M. pose proof s2_pos as S. assert (M2 : 0 < m ^ 2) by (apply pow_lt; exact M).
  set (phi := s2 / m ^ 2). assert (P : 0 < phi) by (apply Rdiv_lt_0_compat; assumption).
  assert (PH : phi <= 3 / 2). { unfold phi. apply Rmult_le_reg_r with (m ^ 2); [exact M2 | ]. unfold Rdiv. rewrite Rmult_assoc, Rinv_l by lra. lra. }
  set (q := 2 / phi). assert (Q : 4 / 3 <= q). { unfold q. apply Rmult_le_reg_r with phi; [exact P | ]. unfold Rdiv. rewrite (Rmult_assoc 2), Rinv_l by lra. lra. }
  assert (R0 : 0 < q * (q - 1)) by (apply Rmult_lt_0_compat; lra).
  set (r := sqrt (q * (q - 1))). assert (RR : r * r = q * (q - 1)) by (apply sqrt_sqrt; lra). assert (RP : 0 < r) by (apply sqrt_lt_R0; exact R0).
  set (b2 := q - 1 + r). assert (B : 0 < b2) by (unfold b2; lra).
  set (b := sqrt b2). assert (BB : b ^ 2 = b2) by (unfold b; rewrite <- Rsqr_pow2; apply Rsqr_sqrt; lra).
  exists (m / (1 + b2)), b. split.
  - split; [apply Rdiv_lt_0_compat; lra | ]. split; [apply sqrt_lt_R0; exact B | ]. rewrite BB. split; [field; lra | ].
    assert (K : (1 + b2) ^ 2 = q * (1 + 2 * b2)) by (unfold b2; nra).
    assert (X : 2 * (m / (1 + b2)) ^ 2 * (1 + 2 * b2) = 2 * m ^ 2 * (1 + 2 * b2) / (1 + b2) ^ 2) by (field; lra).
    rewrite X, K. assert (Y : 2 * m ^ 2 * (1 + 2 * b2) / (q * (1 + 2 * b2)) = 2 * m ^ 2 / q) by (field; split; lra).
    rewrite Y. unfold q, phi. field. split; lra.
  - intros z. unfold qe_variance. rewrite qe_phi_fin, qe_m_fin. fold phi. cbn [nle phi_c]. unfold phi_c. destruct (Rle_dec phi (3 / 2)) as [_ | N]; [ | contradiction].
    cbv zeta. unfold qe_b2. cbv zeta. rewrite div_fin by lra. fold q. cbn [sub neg add mul]. unfold nsqrt at 1 2.
    replace (q + - (1)) with (q - 1) by ring. destruct (Rlt_dec (q * (q - 1)) 0) as [N | _]; [lra | ]. cbn [add]. fold r. fold b2.
    unfold qe_a, qe_low. cbn [add]. rewrite div_fin by lra. unfold nsqrt. destruct (Rlt_dec b2 0) as [N | _]; [lra | ]. fold b. cbn [add]. unfold npow2. cbn [mul]. f_equal. ring.
Qed.

Lemma qe_high_step : 3 / 2 * m ^ 2 < s2 -> exists p beta, exponential_law m s2 p beta
  /\ forall z : R, exists v', qe_variance h dt (Fin v) z = Fin v' /\ 0 <= v' /\ forall x : R, 0 <= x -> (v' <= x <-> cdf z <= exponential_cdf p beta x).
Proof.
  intros L. pose proof m_pos as M. pose proof s2_pos as S. assert (M2 : 0 < m ^ 2) by (apply pow_lt; exact M).
  set (phi := s2 / m ^ 2). assert (PH : 3 / 2 < phi). { unfold phi. apply Rmult_lt_reg_r with (m ^ 2); [exact M2 | ]. unfold Rdiv. rewrite (Rmult_assoc s2), Rinv_l by lra. lra. }
  assert (SP : s2 = phi * m ^ 2) by (unfold phi; field; lra).
  set (p := (phi - 1) / (phi + 1)). assert (P1 : 1 - p = 2 / (phi + 1)) by (unfold p; field; lra).
  assert (P0 : 0 < p) by (unfold p; apply Rdiv_lt_0_compat; lra). assert (P2 : 0 < 1 - p) by (rewrite P1; apply Rdiv_lt_0_compat; lra).
  set (beta := (1 - p) / m). assert (B : 0 < beta) by (unfold beta; apply Rdiv_lt_0_compat; lra).
  exists p, beta. split.
  - split; [lra | ]. split; [exact B | ]. split; [unfold beta; field; lra | ].
    assert (X : (1 - p ^ 2) / beta ^ 2 = (1 + p) / (1 - p) * m ^ 2) by (unfold beta; field; split; lra). rewrite X, SP. f_equal. rewrite P1. unfold p. field. lra.
  - intros z. unfold qe_variance. rewrite qe_phi_fin, qe_m_fin. fold phi. unfold nle at 1. unfold phi_c. destruct (Rle_dec phi (3 / 2)) as [N | _]; [lra | ].
    cbv zeta. unfold qe_p. cbn [sub neg add]. rewrite div_fin by lra. replace (phi + - (1)) with (phi - 1) by ring. fold p.
    unfold qe_beta. cbn [sub neg add]. replace (1 + - p) with (1 - p) by ring. rewrite div_fin by lra. fold beta.
    pose proof (cdf_gt_0 z) as C0. pose proof (cdf_lt_1 z) as C1. cbn [nle nlt]. destruct (Rle_dec 0 (cdf z)) as [_ | N]; [ | lra]. cbn [andb].
    assert (E : forall x : R, 0 <= x -> 0 < exp (- beta * x) <= 1).
    { intros x X. split; [apply exp_pos | ]. rewrite <- exp_0. assert (0 <= beta * x) by (apply Rmult_le_pos; lra). destruct (Req_dec (beta * x) 0) as [Z | Z].
      - replace (- beta * x) with 0 by lra. lra.
      - apply Rlt_le, exp_increasing. lra. }
    destruct (Rle_dec (cdf z) p) as [LE | GT].
    + exists 0. split; [reflexivity | ]. split; [lra | ]. intros x X. split; intros _; [ | exact X]. unfold exponential_cdf. pose proof (E x X). assert (0 <= (1 - p) * (1 - exp (- beta * x))) by (apply Rmult_le_pos; lra). lra.
    + destruct (Rlt_dec p (cdf z)) as [PC | N]; [ | lra]. destruct (Rle_dec (cdf z) 1) as [_ | N]; [ | lra]. cbn [andb]. unfold qe_high.
      rewrite div_fin by lra. cbn [sub neg add]. rewrite div_fin by lra. unfold nlog.
      assert (Q : 1 < (1 + - p) / (1 + - cdf z)). { apply Rmult_lt_reg_r with (1 + - cdf z); [lra | ]. unfold Rdiv. rewrite Rmult_assoc, Rinv_l by lra. lra. }
      destruct (Rlt_dec 0 ((1 + - p) / (1 + - cdf z))) as [_ | N]; [ | lra]. cbn [mul]. eexists. split; [reflexivity | ].
      assert (LN : 0 < ln ((1 + - p) / (1 + - cdf z))) by (rewrite <- ln_1; apply ln_increasing; lra).
      assert (IB : 0 < 1 / beta) by (apply Rdiv_lt_0_compat; lra).
      split; [apply Rlt_le, Rmult_lt_0_compat; assumption | ].
      intros x X. set (y := (1 + - p) / (1 + - cdf z)) in *. unfold exponential_cdf.
      assert (A : 1 / beta * ln y <= x <-> y <= exp (beta * x)).
      { split; intros G.
        - assert (ln y <= beta * x). { replace (ln y) with (beta * (1 / beta * ln y)) by (field; lra). apply Rmult_le_compat_l; lra. }
          rewrite <- (exp_ln y) by lra. destruct (Req_dec (ln y) (beta * x)) as [-> | D]; [lra | apply Rlt_le, exp_increasing; lra].
        - assert (ln y <= beta * x). { rewrite <- (ln_exp (beta * x)). destruct (Req_dec y (exp (beta * x))) as [<- | D]; [lra | apply Rlt_le, ln_increasing; lra]. }
          apply Rmult_le_reg_l with beta; [exact B | ]. replace (beta * (1 / beta * ln y)) with (ln y) by (field; lra). exact H0. }
      rewrite A. pose proof (exp_pos (beta * x)) as EP. assert (EE : exp (- beta * x) * exp (beta * x) = 1) by (rewrite <- exp_plus; replace (- beta * x + beta * x) with 0 by ring; apply exp_0).
      assert (YM : y * (1 - cdf z) = 1 - p) by (unfold y; field; lra).
      pose proof (exp_pos (- beta * x)) as EN. split; intros G.
      * assert ((1 - p) * exp (- beta * x) <= 1 - cdf z); [ | lra]. rewrite <- YM. apply Rle_trans with (exp (beta * x) * (1 - cdf z) * exp (- beta * x)).
        -- apply Rmult_le_compat_r; [lra | ]. apply Rmult_le_compat_r; lra.
        -- replace (exp (beta * x) * (1 - cdf z) * exp (- beta * x)) with ((1 - cdf z) * (exp (- beta * x) * exp (beta * x))) by ring. rewrite EE. lra.
      * assert (G' : (1 - p) * exp (- beta * x) <= 1 - cdf z) by lra. rewrite <- YM in G'.
        apply Rmult_le_reg_r with (1 - cdf z); [lra | ]. apply Rmult_le_reg_r with (exp (- beta * x)); [exact EN | ].
        replace (exp (beta * x) * (1 - cdf z) * exp (- beta * x)) with ((1 - cdf z) * (exp (- beta * x) * exp (beta * x))) by ring. rewrite EE. lra.
Qed.
Lemma qe_nonneg (z : R) : exists v', qe_variance h dt (Fin v) z = Fin v' /\ 0 <= v'.
Proof.
  destruct (Rle_dec s2 (3 / 2 * m ^ 2)) as [L | G].
  - destruct (qe_low_step L) as (a & b & (A & _) & E). eexists. split; [apply E | ]. apply Rmult_le_pos; [lra | apply pow2_ge_0].
  - destruct (qe_high_step ltac:(lra)) as (p & beta & _ & E). destruct (E z) as (v' & Ev & P & _). exists v'. auto.
Qed.
End Step.

Lemma masked_same (h : heston) (dt : R) (v : num) (z : R) : qe_variance_masked h dt v z = qe_variance h dt v z.
Proof.
  unfold qe_variance_masked, qe_variance. destruct (nle (qe_phi h dt v) (Fin phi_c)); cbn [negb andb]; [reflexivity | ]. cbv zeta.
  destruct (nle (Fin 0) (Fin (cdf z)) && nle (Fin (cdf z)) (qe_p (qe_phi h dt v))) eqn:A; [ | reflexivity].
  destruct (nlt (qe_p (qe_phi h dt v)) (Fin (cdf z)) && nle (Fin (cdf z)) (Fin 1)) eqn:B; [ | reflexivity]. exfalso.
  apply andb_true_iff in A, B. destruct A as [_ A]. destruct B as [B _].
  destruct (qe_p (qe_phi h dt v)) as [p | | | ]; cbn [nle nlt] in A, B; try discriminate. destruct (Rle_dec (cdf z) p), (Rlt_dec p (cdf z)); try discriminate. lra.
Qed.
Lemma qe_at_same (h : heston) (dt : R) (z : nat -> nat -> R) (i : nat) : qe_at h dt (qe_variance_masked h dt) z i = qe_at h dt (qe_variance h dt) z i.
Proof. induction i; cbn [qe_at]; [reflexivity | ]. rewrite IHi. destruct (qe_at h dt (qe_variance h dt) z i). rewrite masked_same. reflexivity. Qed.

Lemma qe_path (h : heston) (dt : R) (z : nat -> nat -> R) : sound h -> 0 < dt -> forall i : nat, exists s v, qe_at h dt (qe_variance h dt) z i = (Fin s, Fin v) /\ 0 <= v.
Proof.
  intros H D. induction i.
  - cbn [qe_at]. destruct H as (S & V & _). unfold nlog. destruct (Rlt_dec 0 (h_S0 h)); [ | contradiction]. eauto.
  - cbn [qe_at]. destruct IHi as (s & v & -> & V). destruct (qe_nonneg h dt v H D V (z i 1%nat)) as (v' & -> & V').
    unfold qe_log_spot. cbn [add mul]. unfold nsqrt. destruct H as (_ & _ & _ & _ & _ & RH & _).
    assert (K : 0 <= k34 h dt). { unfold k34. apply Rmult_le_pos; [lra | ]. nra. }
    pose proof (Rmult_le_pos _ _ K V). pose proof (Rmult_le_pos _ _ K V'). destruct (Rlt_dec (k34 h dt * v + k34 h dt * v') 0); [lra | ]. cbn [mul add]. eauto.
Qed.

Definition shock (rho : R) (z : nat -> nat -> R) (i v : nat) : R := if Nat.eqb v 0 then z i 0%nat + rho * z i 1%nat else sqrt (1 - rho ^ 2) * z i 1%nat.
Lemma scalar_corr (cholesky : factorisation) (rho : R) (z : mat R) : factors cholesky 2 (correlation2 rho) -> nc z = 2%nat ->
  exists c, normal_corr cholesky (corr_matrix rho) z = Ok c /\ (forall i : nat, me c i 0%nat = shock rho (me z) i 0) /\ (forall i : nat, me c i 1%nat = shock rho (me z) i 1).
Proof.
  intros (L & E & K) N. destruct (corr_ok cholesky 2 (correlation2 rho) L z E K N) as (out & O & _ & _ & V). exists out. split; [exact O | ].
  apply cholesky_2 in K. destruct K as (_ & A0 & A1 & A2 & A3). unfold shock. cbn [Nat.eqb]. split; intros i; rewrite V, total_2, ?A0, ?A1, ?A2, ?A3; lra.
Qed.

Lemma euler_at_ext (h : heston) (dt : R) (f : num -> num) (u w : nat -> nat -> num) (i : nat) :
  (forall j : nat, u j 0%nat = w j 0%nat) -> (forall j : nat, u j 1%nat = w j 1%nat) -> euler_at h dt f u i = euler_at h dt f w i.
Proof. intros A B. induction i; cbn [euler_at]; [reflexivity | ]. rewrite IHi. destruct (euler_at h dt f w i). rewrite A, B. reflexivity. Qed.

(* both functions fail alike, and each column of the array is the scalar result *)
Lemma vector_is_scalar (cholesky : factorisation) (h : heston) (method : string) (z : arr3 R) (s : nat) :
  match heston_simulate cholesky h method z, heston_simulate_scalar cholesky h method (mk_mat (d0 z) (d1 z) (fun i v => el z i v s)) with
  | Ok x, Ok y => d0 x = nr y /\ d1 x = nc y /\ d2 x = d2 z /\ forall t v : nat, el x t v s = me y t v
  | Err a, Err b => a = b
  | _, _ => False
  end.
Proof.
  unfold heston_simulate, heston_simulate_scalar. cbn [nr nc me]. destruct (Nat.eqb (d1 z) 2) eqn:D; [ | reflexivity]. cbn [guard bind].
  destruct (negb (Nat.eqb (d0 z) 0)); [ | reflexivity]. cbn [guard bind].
  unfold normal_corr3, normal_corr. destruct (cholesky (corr_matrix (h_rho h))) as [L | e]; [ | reflexivity]. cbn [bind nc nr me].
  destruct (Nat.eqb (nr L) (d1 z)); [ | reflexivity]. cbn [guard bind el me].
  unfold heston_path. destruct (String.eqb method "quadratic_exponential").
  - unfold guard. destruct (Req_EM_T (h_kappa h) 0); [reflexivity | ]. cbn [bind]. destruct (Req_EM_T (h_vv h) 0); [reflexivity | ]. cbn [bind d0 d1 d2 nr nc el me]. repeat split. intros t v. rewrite qe_at_same. reflexivity.
  - destruct (String.eqb (substring 0 5 method) "euler"); cbn [bind d0 d1 d2 nr nc el me]; repeat split.
Qed.

Definition dt_of (h : heston) (z : mat R) : R := h_tau h / INR (nr z).
Lemma dt_pos (h : heston) (z : mat R) : 0 < h_tau h -> (0 < nr z)%nat -> 0 < dt_of h z.
Proof. intros T N. apply Rdiv_lt_0_compat; [exact T | apply lt_0_INR; exact N]. Qed.

Lemma qe_run (cholesky : factorisation) (h : heston) (z : mat R) : factors cholesky 2 (correlation2 (h_rho h)) -> nc z = 2%nat -> (0 < nr z)%nat -> h_kappa h <> 0 -> h_vv h <> 0 ->
  heston_simulate_scalar cholesky h "quadratic_exponential" z
  = Ok (mk_mat (S (nr z)) 2 (fun t c => let '(s, v) := qe_at h (dt_of h z) (qe_variance h (dt_of h z)) (me z) t in if Nat.eqb c 0 then nexp s else v)).
Proof.
  intros F C N K W. unfold heston_simulate_scalar. rewrite C, Nat.eqb_refl. cbn [guard bind]. assert (Q : Nat.eqb (nr z) 0 = false) by (apply Nat.eqb_neq; lia). rewrite Q. cbn [negb guard bind].
  destruct (scalar_corr cholesky (h_rho h) z F C) as (c & -> & _). cbn [bind]. unfold heston_path. cbn [String.eqb Ascii.eqb Bool.eqb]. unfold guard.
  destruct (Req_EM_T (h_kappa h) 0); [contradiction | ]. destruct (Req_EM_T (h_vv h) 0); [contradiction | ]. reflexivity.
Qed.
Lemma qe_zero_division (cholesky : factorisation) (h : heston) (z : mat R) : factors cholesky 2 (correlation2 (h_rho h)) -> nc z = 2%nat -> (0 < nr z)%nat -> h_kappa h = 0 \/ h_vv h = 0 ->
  heston_simulate_scalar cholesky h "quadratic_exponential" z = Err ZeroDivisionError.
Proof.
  intros F C N K. unfold heston_simulate_scalar. rewrite C, Nat.eqb_refl. cbn [guard bind]. assert (Q : Nat.eqb (nr z) 0 = false) by (apply Nat.eqb_neq; lia). rewrite Q. cbn [negb guard bind].
  destruct (scalar_corr cholesky (h_rho h) z F C) as (c & -> & _). cbn [bind]. unfold heston_path. cbn [String.eqb Ascii.eqb Bool.eqb]. unfold guard.
  destruct (Req_EM_T (h_kappa h) 0); [reflexivity | ]. destruct (Req_EM_T (h_vv h) 0); [reflexivity | ]. tauto.
Qed.
Definition shocks (h : heston) (z : mat R) (i v : nat) : num := Fin (shock (h_rho h) (me z) i v * sqrt (dt_of h z)).
Lemma euler_run (cholesky : factorisation) (h : heston) (method : string) (z : mat R) : factors cholesky 2 (correlation2 (h_rho h)) -> nc z = 2%nat -> (0 < nr z)%nat -> 0 < h_tau h ->
  substring 0 5 method = "euler"%string ->
  exists x, heston_simulate_scalar cholesky h method z = Ok x /\ nr x = S (nr z) /\ nc x = 2%nat
    /\ forall t c : nat, me x t c = let '(s, raw) := euler_at h (dt_of h z) (euler_fix method) (shocks h z) t in if Nat.eqb c 0 then s else if Nat.ltb t (nr z) then euler_fix method raw else raw.
Proof.
  intros F C N T M. unfold heston_simulate_scalar. rewrite C, Nat.eqb_refl. cbn [guard bind]. assert (Q : Nat.eqb (nr z) 0 = false) by (apply Nat.eqb_neq; lia). rewrite Q. cbn [negb guard bind].
  destruct (scalar_corr cholesky (h_rho h) z F C) as (c & -> & C0 & C1). cbn [bind]. unfold heston_path.
  destruct (String.eqb method "quadratic_exponential") eqn:E; [apply String.eqb_eq in E; subst; discriminate | ]. rewrite M, String.eqb_refl. cbn [bind].
  eexists. split; [reflexivity | ]. cbn [nr nc me]. split; [reflexivity | ]. split; [reflexivity | ]. intros t c'. fold (dt_of h z).
  rewrite (euler_at_ext _ _ _ _ (shocks h z)); [reflexivity | | ]; intros j; unfold nsqrt, shocks; pose proof (dt_pos h z T N); destruct (Rlt_dec (dt_of h z) 0); try lra; cbn [mul]; rewrite ?C0, ?C1; reflexivity.
Qed.
Lemma unknown_run (cholesky : factorisation) (h : heston) (method : string) (z : mat R) : factors cholesky 2 (correlation2 (h_rho h)) -> nc z = 2%nat -> (0 < nr z)%nat ->
  method <> "quadratic_exponential"%string -> substring 0 5 method <> "euler"%string -> heston_simulate_scalar cholesky h method z = Ok (mk_mat (S (nr z)) 2 (fun _ _ => Fin 0)).
Proof.
  intros F C N M M'. unfold heston_simulate_scalar. rewrite C, Nat.eqb_refl. cbn [guard bind]. assert (Q : Nat.eqb (nr z) 0 = false) by (apply Nat.eqb_neq; lia). rewrite Q. cbn [negb guard bind].
  destruct (scalar_corr cholesky (h_rho h) z F C) as (c & -> & _). cbn [bind]. unfold heston_path. apply String.eqb_neq in M, M'. rewrite M, M'. reflexivity.
Qed.
Lemma refused_run (cholesky : factorisation) (h : heston) (method : string) (z : mat R) :
  (forall L : mat R, cholesky (correlation2 (h_rho h)) = Ok L -> is_cholesky 2 (correlation2 (h_rho h)) L) -> nc z = 2%nat -> (0 < nr z)%nat ->
  ~ -1 < h_rho h < 1 -> exists e, cholesky (correlation2 (h_rho h)) = Err e /\ heston_simulate_scalar cholesky h method z = Err e.
Proof.
  intros F C N RH. destruct (cholesky (correlation2 (h_rho h))) as [L | e] eqn:E; [exfalso; apply RH; apply (cholesky_2 _ L), F; reflexivity | ]. exists e. split; [reflexivity | ].
  unfold heston_simulate_scalar. rewrite C, Nat.eqb_refl. cbn [guard bind]. assert (Q : Nat.eqb (nr z) 0 = false) by (apply Nat.eqb_neq; lia). rewrite Q. cbn [negb guard bind].
  unfold normal_corr. change (corr_matrix (h_rho h)) with (correlation2 (h_rho h)). rewrite E. reflexivity.
Qed.

(* the two fixing methods *)
Lemma fix_nonneg (method : string) (a : R) : In method euler_methods -> exists b, euler_fix method (Fin a) = Fin b /\ 0 <= b /\ (0 <= a -> b = a).
Proof.
  intros [<- | [<- | []]]; unfold euler_fix; cbn [String.eqb Ascii.eqb Bool.eqb positive_part nabs].
  - exists (Rmax 0 a). split; [reflexivity | ]. split; [apply Rmax_l | ]. intros. apply Rmax_right. assumption.
  - exists (Rabs a). split; [reflexivity | ]. split; [apply Rabs_pos | ]. intros. apply Rabs_right. lra.
Qed.
Lemma euler_finite (h : heston) (dt : R) (method : string) (u : nat -> nat -> R) : In method euler_methods -> forall i : nat, exists s v, euler_at h dt (euler_fix method) (fun i c => Fin (u i c)) i = (Fin s, Fin v).
Proof.
  intros M. induction i; cbn [euler_at]; [eauto | ]. destruct IHi as (s & v & ->). destruct (fix_nonneg method v M) as (b & -> & B & _).
  unfold nsqrt. destruct (Rlt_dec b 0); [lra | ]. cbn [sub neg add mul]. eauto.
Qed.
