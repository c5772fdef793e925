(* Rounding: the values and names of quotes. *)
From Coq Require Import ZArith Reals String Ascii List Bool Lra Lia Psatz.
From Flocq Require Import Core Relative.
From Verif Require Import Base CurveModel ColumnModel ColumnSpec.
Open Scope R_scope.

Definition u64 : R := / 9007199254740992. (* 2^-53 *)
Definition tiny : R := / 10 ^ 30.

Lemma bpow_tiny : / 2 * bpow radix2 (-1074) <= tiny.
Proof.
  unfold tiny. apply Rle_trans with (bpow radix2 (-100)).
  - apply Rle_trans with (1 * bpow radix2 (-1074)); [apply Rmult_le_compat_r; [apply bpow_ge_0|lra]|]. rewrite Rmult_1_l. apply bpow_le. lia.
  - change (-100)%Z with (Z.opp 100). rewrite bpow_opp. apply Rinv_le_contravar; [apply pow_lt; lra|]. rewrite <- (IZR_Zpower radix2 100) by lia. change 10 with (IZR 10) at 1. rewrite pow_IZR. apply IZR_le. vm_compute. discriminate.
Qed.
Lemma rn_err (x : R) : Rabs (rn x - x) <= u64 * Rabs x + tiny.
Proof.
  unfold rn, fexp64. destruct (error_N_FLT radix2 (-1074) 53 ltac:(lia) (fun n => negb (Z.even n)) x) as (eps & eta & H1 & H2 & _ & H4). rewrite H4.
  replace (x * (1 + eps) + eta - x) with (eps * x + eta) by ring. eapply Rle_trans; [apply Rabs_triang|]. rewrite Rabs_mult. apply Rplus_le_compat; [|eapply Rle_trans; [exact H2|apply bpow_tiny]].
  apply Rmult_le_compat_r; [apply Rabs_pos|]. eapply Rle_trans; [exact H1|]. unfold u64. change (/ 2 * bpow radix2 (Z.opp 52) <= / 9007199254740992). rewrite bpow_opp, <- (IZR_Zpower radix2 52) by lia. change (radix2 ^ 52)%Z with 4503599627370496%Z. lra.
Qed.
Lemma rn_format (x : R) : generic_format radix2 fexp64 x -> rn x = x.
Proof. intros H. apply round_generic; [apply valid_rnd_N|exact H]. Qed.
Lemma int_format (z : Z) : (Z.abs z <= 9007199254740992)%Z -> generic_format radix2 fexp64 (IZR z).
Proof.
  intros H. apply generic_format_FLT. destruct (Z.eq_dec (Z.abs z) 9007199254740992) as [E|N].
  - exists (Float radix2 (z / 2) 1); cbn [Fnum Fexp].
    + unfold F2R. cbn [Fnum Fexp]. assert (z = 2 * (z / 2))%Z as E2 by (apply Z_div_exact_2; [lia|]; destruct (Z.abs_spec z) as [[_ A]|[_ A]]; [replace z with 9007199254740992%Z by lia|replace z with (-9007199254740992)%Z by lia]; reflexivity). rewrite E2 at 1. rewrite mult_IZR. change (bpow radix2 1) with 2. ring.
    + change (radix2 ^ 53)%Z with 9007199254740992%Z. destruct (Z.abs_spec z) as [[_ A]|[_ A]]; [replace z with 9007199254740992%Z by lia|replace z with (-9007199254740992)%Z by lia]; vm_compute; reflexivity.
    + lia.
  - exists (Float radix2 z 0); cbn [Fnum Fexp]; [unfold F2R; cbn; ring|change (radix2 ^ 53)%Z with 9007199254740992%Z; lia|lia].
Qed.
Lemma rn_int (z : Z) : (Z.abs z <= 9007199254740992)%Z -> rn (IZR z) = IZR z.
Proof. intros H. apply rn_format, int_format, H. Qed.
Lemma rn_le (x y : R) : x <= y -> rn x <= rn y.
Proof. intros H. apply round_le; [apply FLT_exp_valid; reflexivity|apply valid_rnd_N|exact H]. Qed.
Lemma rn_opp (x : R) : rn (- x) = - rn x.
Proof. apply round_NE_opp. Qed.

(* the float nearest to a number strictly inside a binade *)
Lemma rn_at (m e : Z) (x : R) : (4503599627370496 < m < 9007199254740991)%Z -> (-1074 <= e)%Z -> Rabs (x - IZR m * bpow radix2 e) < / 2 * bpow radix2 e -> rn x = IZR m * bpow radix2 e.
Proof.
  intros Hm He Hx. pose proof (bpow_gt_0 radix2 e) as Be.
  assert (Lo : IZR 4503599627370496 * bpow radix2 e <= x) by (assert (IZR 4503599627370497 <= IZR m) by (apply IZR_le; lia); apply Rabs_def2 in Hx; nra).
  assert (Hi : x < IZR 9007199254740992 * bpow radix2 e) by (assert (IZR m <= IZR 9007199254740990) by (apply IZR_le; lia); apply Rabs_def2 in Hx; nra).
  assert (Mg : mag radix2 x = (e + 53)%Z :> Z).
  { apply mag_unique. rewrite Rabs_pos_eq by (apply Rle_trans with (2 := Lo); apply Rmult_le_pos; [apply IZR_le; lia|lra]).
    change 4503599627370496%Z with (radix2 ^ 52)%Z in Lo. change 9007199254740992%Z with (radix2 ^ 53)%Z in Hi. rewrite IZR_Zpower, <- bpow_plus in Lo, Hi by lia. replace (e + 53 - 1)%Z with (52 + e)%Z by lia. replace (e + 53)%Z with (53 + e)%Z by lia. split; assumption. }
  unfold rn, round, F2R. cbn [Fnum Fexp]. assert (Ce : cexp radix2 fexp64 x = e) by (unfold cexp, fexp64, FLT_exp; rewrite Mg; lia). unfold scaled_mantissa. rewrite Ce. f_equal. apply f_equal. apply Znearest_imp.
  replace (x * bpow radix2 (- e) - IZR m) with ((x - IZR m * bpow radix2 e) * bpow radix2 (- e)).
  - rewrite Rabs_mult, (Rabs_pos_eq (bpow radix2 (- e))) by apply bpow_ge_0. apply Rmult_lt_reg_r with (bpow radix2 e); [exact Be|]. rewrite Rmult_assoc, <- bpow_plus. replace (- e + e)%Z with 0%Z by lia. change (bpow radix2 0) with 1. rewrite Rmult_1_r. exact Hx.
  - rewrite Rmult_minus_distr_r. rewrite Rmult_assoc, <- bpow_plus. replace (e + - e)%Z with 0%Z by lia. change (bpow radix2 0) with 1. ring.
Qed.

Lemma round8_is (N : Z) (x : R) : Rabs (x - IZR N / 10 ^ 8) < / 2 / 10 ^ 8 -> round8 x = rn (IZR N / 10 ^ 8).
Proof.
  intros H. unfold round8. f_equal. f_equal. f_equal. apply Znearest_imp. replace (x * 10 ^ 8 - IZR N) with ((x - IZR N / 10 ^ 8) * 10 ^ 8) by (field; lra). rewrite Rabs_mult, (Rabs_pos_eq (10 ^ 8)) by lra.
  apply Rmult_lt_reg_r with (/ 10 ^ 8); [lra|]. rewrite Rmult_assoc, Rinv_r by lra. lra.
Qed.

(* the offset of a quote q in units of 1/scale *)
Lemma value_nearest (scale q : R) (N : Z) : 1 <= scale <= 10 ^ 4 -> q / scale = IZR N / 10 ^ 8 -> Rabs q / scale <= 10 ^ 7 -> round8 (rn (rn q / scale)) = rn (q / scale).
Proof.
  intros Hs E B. rewrite E. apply round8_is. rewrite <- E. pose proof (rn_err q) as E1. pose proof (rn_err (rn q / scale)) as E2.
  assert (Si : 0 < / scale) by (apply Rinv_0_lt_compat; lra). set (a := q / scale) in *. set (b := rn q / scale) in *.
  assert (A : Rabs q / scale = Rabs a) by (unfold a, Rdiv; rewrite Rabs_mult, (Rabs_pos_eq (/ scale)) by lra; reflexivity). rewrite A in B.
  assert (D : Rabs (b - a) <= u64 * Rabs a + tiny).
  { unfold b, a, Rdiv. rewrite <- Rmult_minus_distr_r, !Rabs_mult, !(Rabs_pos_eq (/ scale)) by lra. apply Rle_trans with ((u64 * Rabs q + tiny) * / scale); [apply Rmult_le_compat_r; lra|]. rewrite Rmult_plus_distr_r, Rmult_assoc. apply Rplus_le_compat_l.
    rewrite <- (Rmult_1_r tiny) at 2. apply Rmult_le_compat_l; [unfold tiny; apply Rlt_le, Rinv_0_lt_compat, pow_lt; lra|]. rewrite <- Rinv_1. apply Rinv_le_contravar; lra. }
  assert (Bb : Rabs b <= Rabs a + Rabs (b - a)) by (replace b with (a + (b - a)) at 1 by ring; apply Rabs_triang).
  assert (T : Rabs (rn b - a) <= Rabs (rn b - b) + Rabs (b - a)) by (replace (rn b - a) with ((rn b - b) + (b - a)) by ring; apply Rabs_triang).
  assert (Tn : 0 < tiny <= / 10 ^ 29) by (unfold tiny; split; [apply Rinv_0_lt_compat, pow_lt; lra|apply Rinv_le_contravar; [apply pow_lt; lra|lra]]). assert (Ta : tiny <= / 10 ^ 20) by (unfold tiny; apply Rinv_le_contravar; [apply pow_lt; lra|lra]).
  assert (Bd : Rabs (b - a) <= / 10 ^ 8 * (45 / 100) ) by (unfold u64 in D; nra).
  pose proof (Rabs_pos a). unfold u64 in *. nra.
Qed.

(* v * scale, for the offset v of the quote q *)
Lemma back_err (scale q : R) : 1 <= scale <= 10 ^ 4 -> Rabs q <= 10 ^ 7 -> Rabs (rn (rn (q / scale) * scale) - q) <= / 10 ^ 8 * (45 / 100).
Proof.
  intros Hs B. pose proof (rn_err (q / scale)) as E1. set (v := rn (q / scale)) in *. pose proof (rn_err (v * scale)) as E2.
  assert (Tn : 0 < tiny <= / 10 ^ 29) by (unfold tiny; split; [apply Rinv_0_lt_compat, pow_lt; lra|apply Rinv_le_contravar; [apply pow_lt; lra|lra]]).
  assert (D : Rabs (v * scale - q) <= u64 * Rabs q + tiny * scale).
  { replace (v * scale - q) with ((v - q / scale) * scale) by (field; lra). rewrite Rabs_mult, (Rabs_pos_eq scale) by lra. apply Rle_trans with ((u64 * Rabs (q / scale) + tiny) * scale); [apply Rmult_le_compat_r; lra|].
    unfold Rdiv. rewrite Rabs_mult, (Rabs_pos_eq (/ scale)) by (apply Rlt_le, Rinv_0_lt_compat; lra). right. field. lra. }
  assert (Bb : Rabs (v * scale) <= Rabs q + Rabs (v * scale - q)) by (replace (v * scale) with (q + (v * scale - q)) at 1 by ring; apply Rabs_triang).
  assert (T : Rabs (rn (v * scale) - q) <= Rabs (rn (v * scale) - v * scale) + Rabs (v * scale - q)) by (replace (rn (v * scale) - q) with ((rn (v * scale) - v * scale) + (v * scale - q)) by ring; apply Rabs_triang).
  assert (Ts : tiny * scale <= / 10 ^ 20) by (assert (/ 10 ^ 29 <= / 10 ^ 25) by (apply Rinv_le_contravar; [apply pow_lt; lra|lra]); assert (tiny * scale <= / 10 ^ 29 * 10 ^ 4) by (apply Rmult_le_compat; lra); lra).
  assert (Ta : tiny <= / 10 ^ 20) by (assert (/ 10 ^ 29 <= / 10 ^ 20) by (apply Rinv_le_contravar; [apply pow_lt; lra|lra]); lra).
  pose proof (Rabs_pos q). unfold u64 in *. lra.
Qed.
Lemma name_round (scale q : R) (N : Z) : 1 <= scale <= 10 ^ 4 -> Rabs q <= 10 ^ 7 -> q = IZR N / 10 ^ 8 -> round8 (rn (rn (q / scale) * scale)) = rn q.
Proof. intros Hs B E. pose proof (back_err scale q Hs B) as D. rewrite E. apply round8_is. rewrite <- E. eapply Rle_lt_trans; [exact D|]. lra. Qed.
Lemma rn_close (q : R) : Rabs q <= 10 ^ 7 -> Rabs (rn q - q) <= / 10 ^ 8 * (45 / 100).
Proof.
  intros B. pose proof (rn_err q) as E. assert (Ta : tiny <= / 10 ^ 20) by (unfold tiny; apply Rinv_le_contravar; [apply pow_lt; lra|lra]). pose proof (Rabs_pos q). unfold u64 in *. lra.
Qed.
(* decimals with eight places are told apart *)
Lemma rn_apart (N M : Z) : Rabs (IZR N / 10 ^ 8) <= 10 ^ 7 -> Rabs (IZR M / 10 ^ 8) <= 10 ^ 7 -> rn (IZR N / 10 ^ 8) = rn (IZR M / 10 ^ 8) -> N = M.
Proof.
  intros B C E. pose proof (rn_close _ B) as D1. pose proof (rn_close _ C) as D2. rewrite E in D1. apply Rabs_le_inv in D1. apply Rabs_le_inv in D2.
  assert (- 1 < IZR N - IZR M < 1) as [H1 H2] by lra. rewrite <- minus_IZR in H1, H2. apply lt_IZR in H1. apply lt_IZR in H2. lia.
Qed.
Lemma is_integer_int (z : Z) : is_integer (IZR z) = true.
Proof. unfold is_integer. rewrite Zfloor_IZR. destruct (Req_EM_T _ _); [reflexivity|contradiction]. Qed.
Lemma is_integer_spec (x : R) : is_integer x = true -> exists z, x = IZR z.
Proof. unfold is_integer. destruct (Req_EM_T _ _); [eauto|discriminate]. Qed.
Lemma rn_not_integer (N : Z) : Rabs (IZR N / 10 ^ 8) <= 10 ^ 7 -> (forall z, IZR N / 10 ^ 8 <> IZR z) -> is_integer (rn (IZR N / 10 ^ 8)) = false.
Proof.
  intros B H. destruct (is_integer (rn (IZR N / 10 ^ 8))) eqn:E; [|reflexivity]. apply is_integer_spec in E as [z E]. exfalso. apply (H z). pose proof (rn_close _ B) as D. rewrite E in D. apply Rabs_le_inv in D.
  assert (- 1 < IZR N - IZR (z * 10 ^ 8) < 1) as [H1 H2] by (rewrite mult_IZR; change (IZR (10 ^ 8)) with 100000000; lra). rewrite <- minus_IZR in H1, H2. apply lt_IZR in H1. apply lt_IZR in H2. replace N with (z * 10 ^ 8)%Z by lia. rewrite mult_IZR. change (IZR (10 ^ 8)) with 100000000. field.
Qed.
Lemma int_part_is (x : R) (z : Z) : IZR z <= x < IZR z + 1 -> Int_part x = z.
Proof.
  intros [H1 H2]. destruct (base_Int_part x) as [B1 B2]. assert (- 1 < IZR (Int_part x) - IZR z < 1) as [K1 K2] by lra. rewrite <- minus_IZR in K1, K2. apply lt_IZR in K1. apply lt_IZR in K2. lia.
Qed.
(* truncation of a number next to an integer *)
Lemma trunc_near (w : R) (n : Z) : Rabs (w - IZR n) < / 2 ->
  (IZR (Z.abs n) <= Rabs w -> py_trunc w = n) /\ (Rabs w < IZR (Z.abs n) -> py_trunc w = (n - Z.sgn n)%Z).
Proof.
  intros H. apply Rabs_def2 in H. unfold py_trunc. destruct (Z.lt_trichotomy n 0) as [L|[->|L]].
  - assert (IZR n <= -1) by (apply (IZR_le n (-1)); lia). rewrite (Rabs_left w) by lra. rewrite (Z.abs_neq n), opp_IZR by lia. destruct (Rle_dec 0 w); [lra|]. split; intros K.
    + rewrite (int_part_is _ (- n)); [lia|]. rewrite opp_IZR. lra.
    + rewrite (int_part_is _ (- n - 1)); [rewrite Z.sgn_neg by lia; lia|]. rewrite minus_IZR, opp_IZR. lra.
  - cbn [Z.abs Z.sgn]. split; [intros _|intros K; pose proof (Rabs_pos w); lra]. destruct (Rle_dec 0 w); [apply int_part_is; lra|]. rewrite (int_part_is _ 0); [reflexivity|]. lra.
  - assert (1 <= IZR n) by (apply (IZR_le 1 n); lia). rewrite (Rabs_pos_eq w) by lra. rewrite (Z.abs_eq n) by lia. destruct (Rle_dec 0 w); [|lra]. split; intros K.
    + apply int_part_is. lra.
    + rewrite (int_part_is _ (n - 1)); [rewrite Z.sgn_pos by lia; reflexivity|]. rewrite minus_IZR. lra.
Qed.

(* 3bps is called 2bps *)
Lemma three_bps : rn (rn (IZR 3 / 10000) * 10000) < 3.
Proof.
  assert (V : rn (IZR 3 / 10000) = IZR 5534023222112865 * bpow radix2 (-64)).
  { apply rn_at; [lia|lia|]. change (bpow radix2 (-64)) with (/ 18446744073709551616). apply Rabs_def1; lra. }
  rewrite V. set (w := IZR 5534023222112865 * bpow radix2 (-64) * 10000). assert (W : rn w = IZR 6755399441055743 * bpow radix2 (-51)).
  { apply rn_at; [lia|lia|]. unfold w. change (bpow radix2 (-64)) with (/ 18446744073709551616). change (bpow radix2 (-51)) with (/ 2251799813685248). apply Rabs_def1; lra. }
  rewrite W. change (bpow radix2 (-51)) with (/ 2251799813685248). lra.
Qed.
