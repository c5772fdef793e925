(* C140 - C143: relations between option prices of different strikes, sides, horizons and models *)
From Coq Require Import Reals List Lra.
From Verif Require Import Base NormalModel BlackModel BlackSpec GkModel GkSpec MeanSpec StaticSpec StaticProofs.
Open Scope R_scope.

(* C140 spreads cost between nothing and their width, butterflies cost something *)
Theorem C140_black76_strikes (F tau cp vol s A : R) : call_or_put cp -> 0 < F + s -> 0 < tau -> 0 < vol -> 0 < A ->
  vertical_spreads (fun K => price76 F tau cp K vol s A) (fun K => 0 < K + s) cp A /\ butterflies (fun K => price76 F tau cp K vol s A) (fun K => 0 < K + s).
Proof. exact (strikes76 F tau cp vol s A). Qed.
Theorem C140_bachelier_strikes (F tau cp vol A : R) : call_or_put cp -> 0 < tau -> 0 < vol -> 0 < A ->
  vertical_spreads (fun K => price_n F tau cp K vol A) (fun _ => True) cp A /\ butterflies (fun K => price_n F tau cp K vol A) (fun _ => True).
Proof. exact (strikes_n F tau cp vol A). Qed.
Theorem C140_garman_kohlhagen_strikes (S tau rd rf cp vol : R) (F : option R) : call_or_put cp -> 0 < S -> 0 < tau -> 0 < vol -> good_forward F ->
  vertical_spreads (fun K => price_gk S tau rd rf cp K vol F) (fun K => 0 < K) cp (dom_df S tau rd rf F) /\ butterflies (fun K => price_gk S tau rd rf cp K vol F) (fun K => 0 < K).
Proof. exact (strikes_gk S tau rd rf cp vol F). Qed.
(* in the forward or spot the sides are exchanged *)
Theorem C140_black76_forwards (tau cp K vol s A : R) : call_or_put cp -> 0 < K + s -> 0 < tau -> 0 < vol -> 0 < A ->
  vertical_spreads (fun F => price76 F tau cp K vol s A) (fun F => 0 < F + s) (- cp) A /\ butterflies (fun F => price76 F tau cp K vol s A) (fun F => 0 < F + s).
Proof. exact (forwards76 tau cp K vol s A). Qed.
Theorem C140_bachelier_forwards (tau cp K vol A : R) : call_or_put cp -> 0 < tau -> 0 < vol -> 0 < A ->
  vertical_spreads (fun F => price_n F tau cp K vol A) (fun _ => True) (- cp) A /\ butterflies (fun F => price_n F tau cp K vol A) (fun _ => True).
Proof. exact (forwards_n tau cp K vol A). Qed.
Theorem C140_garman_kohlhagen_spots (tau rd rf cp K vol : R) : call_or_put cp -> 0 < K -> 0 < tau -> 0 < vol ->
  vertical_spreads (fun S => price_gk S tau rd rf cp K vol None) (fun S => 0 < S) (- cp) (exp (- rf * tau)) /\ butterflies (fun S => price_gk S tau rd rf cp K vol None) (fun S => 0 < S).
Proof. exact (spots_gk tau rd rf cp K vol). Qed.
(* the distribution behind the prices: lognormal or normal around the forward *)
Theorem C140_black76_distribution (F tau cp vol s A : R) : call_or_put cp -> 0 < F + s -> 0 < tau -> 0 < vol -> 0 < A ->
  implied_distribution (fun K => price76 F tau cp K vol s A) (fun z => lognormal_value (F + s) (vol * sqrt tau) z - s) (fun K => 0 < K + s) cp A.
Proof. exact (implied76 F tau cp vol s A). Qed.
Theorem C140_bachelier_distribution (F tau cp vol A : R) : call_or_put cp -> 0 < tau -> 0 < vol -> 0 < A ->
  implied_distribution (fun K => price_n F tau cp K vol A) (normal_value F (vol * sqrt tau)) (fun _ => True) cp A.
Proof. exact (implied_n F tau cp vol A). Qed.
Theorem C140_garman_kohlhagen_distribution (S tau rd rf cp vol : R) (F : option R) : call_or_put cp -> 0 < S -> 0 < tau -> 0 < vol -> good_forward F ->
  implied_distribution (fun K => price_gk S tau rd rf cp K vol F) (lognormal_value (forward_of S tau rd rf F) (vol * sqrt tau)) (fun K => 0 < K) cp (dom_df S tau rd rf F).
Proof. exact (implied_gk S tau rd rf cp vol F). Qed.

(* C141 calls and puts exchange with forward and strike *)
Theorem C141_black76_exchange (F tau cp K vol s A : R) : call_or_put cp -> 0 < F + s -> 0 < K + s -> 0 <= tau -> 0 <= vol ->
  price76 F tau cp K vol s A = price76 K tau (- cp) F vol s A.
Proof. exact (sym76 F tau cp K vol s A). Qed.
Theorem C141_bachelier_exchange (F tau cp K vol A : R) : call_or_put cp -> 0 <= tau -> 0 <= vol -> price_n F tau cp K vol A = price_n K tau (- cp) F vol A.
Proof. exact (sym_n F tau cp K vol A). Qed.
Theorem C141_bachelier_mirror (F tau cp K vol A : R) : call_or_put cp -> 0 <= tau -> 0 <= vol -> price_n F tau cp K vol A = price_n (- F) tau (- cp) (- K) vol A.
Proof. exact (mirror_n F tau cp K vol A). Qed.
Theorem C141_garman_kohlhagen_foreign_domestic (S tau rd rf cp K vol : R) (F : option R) : call_or_put cp -> 0 < S -> 0 < K -> 0 < tau -> 0 < vol -> good_forward F ->
  exists p q, price_gk S tau rd rf cp K vol F = Fin p /\ price_gk (/ S) tau rf (domestic_rate S tau rd rf F) (- cp) (/ K) vol (inverse_forward F) = Fin q /\ p = S * K * q.
Proof. exact (sym_gk S tau rd rf cp K vol F). Qed.

(* C142 no volatility or time left, and unlimited volatility or time *)
Theorem C142_black76_small_volatility (F tau cp K s A : R) : call_or_put cp -> 0 < F + s -> 0 < K + s -> 0 < tau -> tends_right (fun vol => price76 F tau cp K vol s A) 0 (A * Rmax 0 (cp * (F - K))).
Proof. exact (vol_limit76 F tau cp K s A). Qed.
Theorem C142_black76_expiry (F vol cp K s A : R) : call_or_put cp -> 0 < F + s -> 0 < K + s -> 0 < vol -> tends_right (fun tau => price76 F tau cp K vol s A) 0 (A * Rmax 0 (cp * (F - K))).
Proof. exact (time_limit76 F vol cp K s A). Qed.
Theorem C142_bachelier_small_volatility (F tau cp K A : R) : call_or_put cp -> 0 < tau -> tends_right (fun vol => price_n F tau cp K vol A) 0 (A * Rmax 0 (cp * (F - K))).
Proof. exact (vol_limit_n F tau cp K A). Qed.
Theorem C142_bachelier_expiry (F vol cp K A : R) : call_or_put cp -> 0 < vol -> tends_right (fun tau => price_n F tau cp K vol A) 0 (A * Rmax 0 (cp * (F - K))).
Proof. exact (time_limit_n F vol cp K A). Qed.
Theorem C142_garman_kohlhagen_small_volatility (S tau rd rf cp K : R) (F : option R) : call_or_put cp -> 0 < S -> 0 < K -> 0 < tau -> good_forward F ->
  tends_right (fun vol => price_gk S tau rd rf cp K vol F) 0 (Rmax 0 (cp * (S * exp (- rf * tau) - K * dom_df S tau rd rf F))).
Proof. exact (vol_limit_gk S tau rd rf cp K F). Qed.
(* with rates only the limit is the value reported at expiry *)
Theorem C142_garman_kohlhagen_expiry (S rd rf cp K vol : R) : call_or_put cp -> 0 < S -> 0 < K -> 0 < vol ->
  exists x, price_gk S 0 rd rf cp K vol None = Fin x /\ tends_right (fun tau => price_gk S tau rd rf cp K vol None) 0 x.
Proof.
  intros W HS HK Hv. exists (Rmax 0 (cp * (S - K))). split; [apply GkProofs.price_gk_expired; try assumption; exact I|].
  pose proof (time_limit_gk S rd rf cp K vol None W HS HK Hv I) as H. cbn [forward_of] in H. rewrite Rmult_0_r, exp_0, Rmult_1_r in H. replace (S / S) with 1 in H by (field; lra). rewrite Rmult_1_l in H. exact H.
Qed.
(* a market forward held fixed leaves another limit; C142_ex shows that it can differ from the value at expiry *)
Theorem C142_garman_kohlhagen_expiry_with_forward (S rd rf cp K vol f : R) : call_or_put cp -> 0 < S -> 0 < K -> 0 < vol -> 0 < f ->
  tends_right (fun tau => price_gk S tau rd rf cp K vol (Some f)) 0 (S / f * Rmax 0 (cp * (f - K))).
Proof. intros W HS HK Hv Hf. exact (time_limit_gk S rd rf cp K vol (Some f) W HS HK Hv Hf). Qed.
Theorem C142_black76_large_volatility (F tau cp K s A : R) : call_or_put cp -> 0 < F + s -> 0 < K + s -> 0 < tau ->
  tends_up (fun vol => price76 F tau cp K vol s A) (A * (if Rlt_dec 0 cp then F + s else K + s)).
Proof. exact (vol_far76 F tau cp K s A). Qed.
Theorem C142_black76_long_time (F cp K vol s A : R) : call_or_put cp -> 0 < F + s -> 0 < K + s -> 0 < vol ->
  tends_up (fun tau => price76 F tau cp K vol s A) (A * (if Rlt_dec 0 cp then F + s else K + s)).
Proof. exact (time_far76 F cp K vol s A). Qed.
Theorem C142_garman_kohlhagen_large_volatility (S tau rd rf cp K : R) (F : option R) : call_or_put cp -> 0 < S -> 0 < K -> 0 < tau -> good_forward F ->
  tends_up (fun vol => price_gk S tau rd rf cp K vol F) (if Rlt_dec 0 cp then S * exp (- rf * tau) else K * dom_df S tau rd rf F).
Proof. exact (vol_far_gk S tau rd rf cp K F). Qed.
Theorem C142_bachelier_large_volatility (F tau cp K A : R) : call_or_put cp -> 0 < tau -> 0 < A -> diverges_up (fun vol => price_n F tau cp K vol A).
Proof. exact (vol_far_n F tau cp K A). Qed.

(* C143 *)
Theorem C143_bachelier_is_the_limit_of_shifted_black76 (F tau cp K n A : R) : call_or_put cp -> 0 < tau -> 0 < n ->
  exists p, price_n F tau cp K n A = Fin p /\ tends_up (fun s => price76 F tau cp K (n / (F + s)) s A) p.
Proof. exact (shifted_limit F tau cp K n A). Qed.

Definition all_theorems := (
  @C140_black76_strikes,
  @C140_bachelier_strikes,
  @C140_garman_kohlhagen_strikes,
  @C140_black76_forwards,
  @C140_bachelier_forwards,
  @C140_garman_kohlhagen_spots,
  @C140_black76_distribution,
  @C140_bachelier_distribution,
  @C140_garman_kohlhagen_distribution,
  @C141_black76_exchange,
  @C141_bachelier_exchange,
  @C141_bachelier_mirror,
  @C141_garman_kohlhagen_foreign_domestic,
  @C142_black76_small_volatility,
  @C142_black76_expiry,
  @C142_bachelier_small_volatility,
  @C142_bachelier_expiry,
  @C142_garman_kohlhagen_small_volatility,
  @C142_garman_kohlhagen_expiry,
  @C142_garman_kohlhagen_expiry_with_forward,
  @C142_black76_large_volatility,
  @C142_black76_long_time,
  @C142_garman_kohlhagen_large_volatility,
  @C142_bachelier_large_volatility,
  @C143_bachelier_is_the_limit_of_shifted_black76).
Print Assumptions all_theorems.

(* ---- cases meeting the hypotheses ---- *)
(* caplets at 2, 3 and 4 percent on a negative forward with a 3 percent shift, in percent *)
Example C140_ex : exists p1 p2 p3, price76 (-1) 2 1 2 (1/5) 3 1 = Fin p1 /\ price76 (-1) 2 1 3 (1/5) 3 1 = Fin p2 /\ price76 (-1) 2 1 4 (1/5) 3 1 = Fin p3 /\ (4 - 2) * p2 < (4 - 3) * p1 + (3 - 2) * p3.
Proof. destruct (C140_black76_strikes (-1) 2 1 (1/5) 3 1) as [_ B]; unfold call_or_put; try lra. apply B; lra. Qed.
Example C140_ex_gk : exists p1 p2, price_gk (7/10) 1 (1/20) (1/50) (-1) (3/5) (1/10) None = Fin p1 /\ price_gk (7/10) 1 (1/20) (1/50) (-1) (4/5) (1/10) None = Fin p2 /\
  0 < -1 * (p1 - p2) < dom_df (7/10) 1 (1/20) (1/50) None * (4/5 - 3/5).
Proof. destruct (C140_garman_kohlhagen_strikes (7/10) 1 (1/20) (1/50) (-1) (1/10) None) as [V _]; unfold call_or_put; try lra; try exact I. apply V; lra. Qed.
Example C141_ex : exists p q, price_gk (7/10) 1 (1/20) (1/50) 1 (3/5) (1/10) (Some (4/5)) = Fin p /\
  price_gk (/ (7/10)) 1 (1/50) (domestic_rate (7/10) 1 (1/20) (1/50) (Some (4/5))) (- 1) (/ (3/5)) (1/10) (inverse_forward (Some (4/5))) = Fin q /\ p = 7/10 * (3/5) * q.
Proof. apply C141_garman_kohlhagen_foreign_domestic; unfold call_or_put, good_forward; lra. Qed.
Example C142_ex : tends_right (fun tau => price_gk 1 tau (1/20) (1/50) 1 1 (1/10) (Some 2)) 0 (1 / 2) /\ price_gk 1 0 (1/20) (1/50) 1 1 (1/10) (Some 2) = Fin 0.
Proof.
  split.
  - replace (1 / 2) with (1 / 2 * Rmax 0 (1 * (2 - 1))) by (rewrite Rmax_right by lra; field). apply C142_garman_kohlhagen_expiry_with_forward; unfold call_or_put; lra.
  - rewrite GkProofs.price_gk_expired; unfold call_or_put, good_forward; try lra. f_equal. rewrite Rmax_left; lra.
Qed.
Example C143_ex : exists p, price_n (-1) 2 (-1) 3 (1/2) 10 = Fin p /\ tends_up (fun s => price76 (-1) 2 (-1) 3 (1/2 / (-1 + s)) s 10) p.
Proof. apply C143_bachelier_is_the_limit_of_shifted_black76; unfold call_or_put; lra. Qed.
