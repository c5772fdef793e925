From Coq Require Import String Reals List Bool Lra Lia.
From Verif Require Import Base NormalModel NormalProofs BlackModel BlackSpec GkModel GkSpec GkProofs GkVecProofs GkStrikeProofs.
Import ListNotations.
Open Scope R_scope.

(* C48 put-call parity *)
Theorem C48_garman_kohlhagen_parity (S tau rd rf K vol : R) (F : option R) : 0 < S -> 0 < K -> 0 < tau -> good_forward F -> vol <> 0 \/ forward_of S tau rd rf F <> K ->
  exists c p, price_gk S tau rd rf 1 K vol F = Fin c /\ price_gk S tau rd rf (-1) K vol F = Fin p /\ c - p = S * exp (- rf * tau) - K * dom_df S tau rd rf F.
Proof. exact (gk_parity S tau rd rf K vol F). Qed.
Theorem C48_garman_kohlhagen_parity_at_expiry (S rd rf K vol : R) (F : option R) : 0 < S -> good_forward F ->
  exists c p, price_gk S 0 rd rf 1 K vol F = Fin c /\ price_gk S 0 rd rf (-1) K vol F = Fin p /\ c - p = S - K.
Proof. exact (gk_parity_expired S rd rf K vol F). Qed.

(* C49 bounds, monotonicity, implied volatility *)
Theorem C49_garman_kohlhagen_bounds (S tau rd rf cp K vol : R) (F : option R) : call_or_put cp -> 0 < S -> 0 < K -> 0 < tau -> 0 < vol -> good_forward F ->
  exists x, price_gk S tau rd rf cp K vol F = Fin x /\
    Rmax 0 (cp * (S * exp (- rf * tau) - K * dom_df S tau rd rf F)) < x /\ x < (if Rlt_dec 0 cp then S * exp (- rf * tau) else K * dom_df S tau rd rf F).
Proof. exact (gk_bounds S tau rd rf cp K vol F). Qed.
Theorem C49_garman_kohlhagen_increasing_in_volatility (S tau rd rf cp K v1 v2 : R) (F : option R) : call_or_put cp -> 0 < S -> 0 < K -> 0 < tau -> 0 < v1 -> v1 < v2 -> good_forward F ->
  exists x y, price_gk S tau rd rf cp K v1 F = Fin x /\ price_gk S tau rd rf cp K v2 F = Fin y /\ x < y.
Proof. exact (gk_vol_mono S tau rd rf cp K v1 v2 F). Qed.
Theorem C49_garman_kohlhagen_implied_volatility (S tau rd rf cp K p : R) (F : option R) : call_or_put cp -> 0 < S -> 0 < K -> 0 < tau -> good_forward F ->
  let low := Rmax 0 (cp * (S * exp (- rf * tau) - K * dom_df S tau rd rf F)) in
  let high := if Rlt_dec 0 cp then S * exp (- rf * tau) else K * dom_df S tau rd rf F in
  ((exists vol, 0 < vol /\ price_gk S tau rd rf cp K vol F = Fin p) <-> low < p < high) /\
  (low < p -> forall v1 v2, price_gk S tau rd rf cp K v1 F = Fin p -> price_gk S tau rd rf cp K v2 F = Fin p -> 0 < v1 /\ v1 = v2).
Proof. exact (gk_implied S tau rd rf cp K p F). Qed.

(* C50 greeks. Spot moves carry the market forward with them. *)
Theorem C50_garman_kohlhagen_spot_delta (S tau rd rf cp K vol : R) (F : option R) : call_or_put cp -> 0 < S -> 0 < K -> 0 < tau -> 0 < vol -> good_forward F ->
  exists d, spot_delta_gk S tau rd rf cp K vol F = Fin d /\ derivative (fun s => price_gk s tau rd rf cp K vol (carried F S s)) S d.
Proof. exact (gk_spot_delta_ok S tau rd rf cp K vol F). Qed.
Theorem C50_garman_kohlhagen_forward_delta (S tau rd rf cp K vol f : R) : call_or_put cp -> 0 < S -> 0 < K -> 0 < tau -> 0 < vol -> 0 < f ->
  exists d, forward_delta_gk S tau rd rf cp K vol (Some f) = Fin d /\ derivative (fun g => forward_value_gk S tau rd rf cp K vol g) f d.
Proof. exact (gk_forward_delta_ok S tau rd rf cp K vol f). Qed.
Theorem C50_garman_kohlhagen_deltas (S tau rd rf cp K vol : R) (F : option R) : call_or_put cp -> 0 < S -> 0 < K -> 0 < tau -> 0 < vol -> good_forward F ->
  exists d, forward_delta_gk S tau rd rf cp K vol F = Fin d /\ spot_delta_gk S tau rd rf cp K vol F = Fin (exp (- rf * tau) * d) /\ 0 < cp * d < 1.
Proof. exact (gk_deltas S tau rd rf cp K vol F). Qed.
(* vega is per one percent of volatility *)
Theorem C50_garman_kohlhagen_vega (S tau rd rf cp K vol : R) (F : option R) : call_or_put cp -> 0 < S -> 0 < K -> 0 < tau -> 0 < vol -> good_forward F ->
  exists w, vega_gk S tau rd rf cp K vol F = Fin w /\ 0 < w /\ derivative (fun v => price_gk S tau rd rf cp K v F) vol (w * 100).
Proof. exact (gk_vega_ok S tau rd rf cp K vol F). Qed.
(* gamma is the change of delta for a one percent move of spot *)
Theorem C50_garman_kohlhagen_gamma (S tau rd rf cp K vol : R) (F : option R) : call_or_put cp -> 0 < S -> 0 < K -> 0 < tau -> 0 < vol -> good_forward F ->
  exists g, gamma_gk S tau rd rf cp K vol F = Fin g /\ 0 < g /\ derivative (fun s => spot_delta_gk s tau rd rf cp K vol (carried F S s)) S (g * 100 / S).
Proof. exact (gk_gamma_ok S tau rd rf cp K vol F). Qed.
(* theta per day of 1/365.25: right for calls exactly when the rates agree; for puts off by twice the interest on the premium even then *)
Theorem C50_garman_kohlhagen_theta_deviation (S tau rd rf cp K vol : R) : call_or_put cp -> 0 < S -> 0 < K -> 0 < tau -> 0 < vol ->
  exists th w d x, theta_gk S tau rd rf cp K vol None = Fin th /\ vega_gk S tau rd rf cp K vol None = Fin w /\
    spot_delta_gk S tau rd rf cp K vol None = Fin d /\ price_gk S tau rd rf cp K vol None = Fin x /\
    derivative (fun t => price_gk S t rd rf cp K vol None) tau
      (- (th * (1461 / 4)) + w * 50 * vol / tau * (1 - exp ((rf - rd) * tau)) - (1 - cp) * (rf * (S * d) + rd * (x - S * d))).
Proof. exact (gk_theta_value S tau rd rf cp K vol). Qed.
Theorem C50_garman_kohlhagen_theta_calls (S tau rd rf K vol : R) : 0 < S -> 0 < K -> 0 < tau -> 0 < vol ->
  exists th, theta_gk S tau rd rf 1 K vol None = Fin th /\ (derivative (fun t => price_gk S t rd rf 1 K vol None) tau (- (th * (1461 / 4))) <-> rd = rf).
Proof. exact (gk_theta_calls S tau rd rf K vol). Qed.
Theorem C50_garman_kohlhagen_theta_puts (S tau r K vol : R) : 0 < S -> 0 < K -> 0 < tau -> 0 < vol ->
  exists th x, theta_gk S tau r r (-1) K vol None = Fin th /\ price_gk S tau r r (-1) K vol None = Fin x /\ 0 < x /\
    derivative (fun t => price_gk S t r r (-1) K vol None) tau (- (th * (1461 / 4)) - 2 * r * x).
Proof. exact (gk_theta_puts S tau r K vol). Qed.
(* rho per one percent: the right size times e^{(rd-rf) tau}, and never negative *)
Theorem C50_garman_kohlhagen_rho_deviation (S tau rd rf cp K vol : R) : call_or_put cp -> 0 < S -> 0 < K -> 0 < tau -> 0 < vol ->
  exists rho, rho_gk S tau rd rf cp K vol None = Fin rho /\ 0 < rho /\
    derivative (fun r => price_gk S tau r rf cp K vol None) rd (cp * exp ((rf - rd) * tau) * (rho * 100)).
Proof. exact (gk_rho_value S tau rd rf cp K vol). Qed.
Theorem C50_garman_kohlhagen_rho_right (S tau rd rf cp K vol : R) : call_or_put cp -> 0 < S -> 0 < K -> 0 < tau -> 0 < vol ->
  exists rho, rho_gk S tau rd rf cp K vol None = Fin rho /\ (derivative (fun r => price_gk S tau r rf cp K vol None) rd (rho * 100) <-> cp = 1 /\ rd = rf).
Proof. exact (gk_rho_right S tau rd rf cp K vol). Qed.
Theorem C50_garman_kohlhagen_rho_with_forward (S tau rd rf cp K vol f : R) : call_or_put cp -> 0 < S -> 0 < K -> 0 < tau -> 0 < vol -> 0 < f ->
  exists rho, rho_gk S tau rd rf cp K vol (Some f) = Fin rho /\ 0 < rho /\ derivative (fun r => price_gk S tau r rf cp K vol (Some f)) rd 0.
Proof. exact (gk_rho_forward S tau rd rf cp K vol f). Qed.

(* C52 strikes from deltas *)
Theorem C52_regular_delta_reproduced (rs : root_finder) (spot : bool) (S tau rd rf : R) (vols deltas : list R) (atm : string) (F : option R) (i : nat) (vol d : R) :
  valid_quotes S tau vols deltas F -> In atm ["forward"; "per_delta_convention"]%string -> nth_error vols i = Some vol -> nth_error deltas i = Some d ->
  d <> 0 -> Rabs d * (if spot then exp (rf * tau) else 1) < 1 -> atm = "per_delta_convention"%string \/ Rabs d <> 1 / 2 ->
  exists k, strike_at (solve_strike_from_delta rs S tau rd rf vols deltas (if spot then "regular_spot" else "regular_forward") F atm) i = Fin k /\ 0 < k /\
    (if spot then spot_delta_gk else forward_delta_gk) S tau rd rf (call_put d) k vol F = Fin d.
Proof. exact (regular_ok rs spot S tau rd rf vols deltas atm F i vol d). Qed.
Theorem C52_regular_at_the_money (rs : root_finder) (spot : bool) (S tau rd rf : R) (vols deltas : list R) (F : option R) (i : nat) (vol d : R) :
  valid_quotes S tau vols deltas F -> nth_error vols i = Some vol -> nth_error deltas i = Some d -> Rabs d = 1 / 2 ->
  exists k, strike_at (solve_strike_from_delta rs S tau rd rf vols deltas (if spot then "regular_spot" else "regular_forward") F "forward") i = Fin k /\ 0 < k /\
    forward_delta_gk S tau rd rf 1 k vol F = Fin (1 / 2) /\ forward_delta_gk S tau rd rf (-1) k vol F = Fin (- (1 / 2)) /\
    exists s, spot_delta_gk S tau rd rf 1 k vol F = Fin s /\ spot_delta_gk S tau rd rf (-1) k vol F = Fin (- s).
Proof. exact (atm_forward_ok rs spot S tau rd rf vols deltas F i vol d). Qed.
(* no strike has the delta: NaN *)
Theorem C52_regular_unattainable (rs : root_finder) (S tau rd rf : R) (vols deltas : list R) (F : option R) (i : nat) (vol d : R) (atm : string) (spot : bool) :
  valid_quotes S tau vols deltas F -> In atm ["forward"; "per_delta_convention"]%string -> nth_error vols i = Some vol -> nth_error deltas i = Some d ->
  d = 0 \/ (1 < Rabs d * (if spot then exp (rf * tau) else 1) /\ (atm = "per_delta_convention"%string \/ Rabs d <> 1 / 2)) ->
  strike_at (solve_strike_from_delta rs S tau rd rf vols deltas (if spot then "regular_spot" else "regular_forward") F atm) i = NaN.
Proof. exact (regular_undefined rs S tau rd rf vols deltas F i vol d atm spot). Qed.
(* premium adjusted strikes are as good as the root finder's residual *)
Theorem C52_premium_adjusted_delta_reproduced (rs : root_finder) (eps : R) (spot : bool) (S tau rd rf : R) (vols deltas : list R) (atm : string) (F : option R) (ks : list num) (i : nat) (vol d : R) :
  valid_quotes S tau vols deltas F -> In atm ["forward"; "per_delta_convention"]%string -> accurate eps rs ->
  solve_strike_from_delta rs S tau rd rf vols deltas (pa_name spot) F atm = Ok ks ->
  nth_error vols i = Some vol -> nth_error deltas i = Some d -> d <> 0 -> d <> 1 / 2 -> d <> - (1 / 2) \/ (exists d', In d' deltas /\ Rabs d' <> 1 / 2) ->
  exists k, nth_error ks i = Some (Fin k) /\ 0 < k /\ within eps d ((if spot then pa_spot_delta else pa_forward_delta) S tau rd rf (call_put d) k vol F).
Proof. exact (pa_ok rs eps spot S tau rd rf vols deltas atm F ks i vol d). Qed.
Theorem C52_premium_adjusted_at_the_money (rs : root_finder) (spot : bool) (S tau rd rf : R) (vols deltas : list R) (atm : string) (F : option R) (ks : list num) (i : nat) (vol d : R) :
  valid_quotes S tau vols deltas F -> In atm ["forward"; "per_delta_convention"]%string ->
  solve_strike_from_delta rs S tau rd rf vols deltas (pa_name spot) F atm = Ok ks ->
  nth_error vols i = Some vol -> nth_error deltas i = Some d -> d = 1 / 2 \/ Forall (fun d' => Rabs d' = 1 / 2) deltas ->
  exists k, nth_error ks i = Some (Fin k) /\ 0 < k /\
    exists x, pa_forward_delta S tau rd rf 1 k vol F = Fin x /\ pa_forward_delta S tau rd rf (-1) k vol F = Fin (- x) /\
    exists y, pa_spot_delta S tau rd rf 1 k vol F = Fin y /\ pa_spot_delta S tau rd rf (-1) k vol F = Fin (- y).
Proof. exact (pa_atm_ok rs spot S tau rd rf vols deltas atm F ks i vol d). Qed.
Theorem C52_one_strike_per_quote (rs : root_finder) (S tau rd rf : R) (vols deltas : list R) (conv atm : string) (F : option R) (ks : list num) :
  solve_strike_from_delta rs S tau rd rf vols deltas conv F atm = Ok ks -> valid_quotes S tau vols deltas F /\ known conv atm /\ length ks = length deltas.
Proof. exact (solver_length rs S tau rd rf vols deltas conv atm F ks). Qed.

(* C53 a market forward replaces the domestic rate in every result; at expiry the payoff is left *)
Theorem C53_forward_or_rate (S tau rd rf cp K vol f : R) (sp an nu : bool) : 0 < S -> 0 < tau -> call_or_put cp -> 0 < f ->
  garman_kohlhagen_price (scalar_gk S tau rd rf cp K vol (Some f)) sp an nu =
  garman_kohlhagen_price (scalar_gk S tau (ln (f / S) / tau + rf) rf cp K vol None) sp an nu.
Proof. exact (gk_forward_or_rate S tau rd rf cp K vol f sp an nu). Qed.
Theorem C53_expired (S rd rf cp K vol : R) (F : option R) : 0 < S -> call_or_put cp -> good_forward F ->
  price_gk S 0 rd rf cp K vol F = Fin (Rmax 0 (cp * (S - K))).
Proof. exact (price_gk_expired S rd rf cp K vol F). Qed.

(* C85 vectorised calls *)
Theorem C85_accepts (a : gk) (sp an : bool) (n : nat) :
  (exists r, garman_kohlhagen_price a sp an false = Ok r /\ length (p_price r) = n) <->
  valid_gk a /\ fits (gk_lens a) n /\ length (g_tau a) = n /\ (length (g_S a) = n \/ length (g_cp a) = n).
Proof. exact (gk_accepts a sp an n). Qed.
Theorem C85_rejects (a : gk) (sp an nu : bool) :
  (~ valid_gk a -> garman_kohlhagen_price a sp an nu = Err AssertionError) /\
  (valid_gk a -> ~ (exists n, fits (gk_lens a) n) -> garman_kohlhagen_price a sp an nu = Err ValueError) /\
  (forall n, valid_gk a -> fits (gk_lens a) n -> ~ (length (g_tau a) = n /\ (length (g_S a) = n \/ length (g_cp a) = n)) -> garman_kohlhagen_price a sp an nu = Err IndexError).
Proof. exact (gk_rejects a sp an nu). Qed.
Theorem C85_elementwise (a : gk) (sp an : bool) (r : priced) : garman_kohlhagen_price a sp an false = Ok r ->
  forall (i : nat) (S tau rd rf cp K vol : R) (F : option R), (i < length (p_price r))%nat ->
  used (g_S a) i S -> used (g_tau a) i tau -> used (g_rd a) i rd -> used (g_rf a) i rf -> used (g_cp a) i cp -> used (g_K a) i K -> used (g_vol a) i vol -> used_forward (g_F a) i F ->
  nth_error (p_price r) i = Some (price_gk S tau rd rf cp K vol F) /\
  (an = true -> exists cols, p_analytical r = Some cols /\ length cols = 6%nat /\
     forall k c, nth_error cols k = Some c -> nth_error c i = Some (greek_gk k S tau rd rf cp K vol F)).
Proof. exact (gk_elementwise a sp an r). Qed.
Theorem C85_numerical_greeks_unusable (a : gk) (sp an : bool) (r : priced) : garman_kohlhagen_price a sp an false = Ok r -> garman_kohlhagen_price a sp an true = Err KeyError.
Proof. exact (gk_numerical a sp an r). Qed.

(* C86 intrinsic and time value: discounted intrinsic, positive time value *)
Theorem C86_split (S tau rd rf cp K vol : R) (F : option R) : call_or_put cp -> 0 < S -> 0 < K -> 0 < tau -> 0 < vol -> good_forward F ->
  exists x i, price_gk S tau rd rf cp K vol F = Fin x /\ split_gk S tau rd rf cp K vol F = Some (Fin i, Fin (x - i)) /\
    i = Rmax 0 (cp * (S * exp (- rf * tau) - K * dom_df S tau rd rf F)) /\ 0 < x - i.
Proof. exact (gk_split S tau rd rf cp K vol F). Qed.
Theorem C86_split_expired (S rd rf cp K vol : R) (F : option R) : call_or_put cp -> 0 < S -> good_forward F ->
  let p := Rmax 0 (cp * (S - K)) in split_gk S 0 rd rf cp K vol F = Some (Fin p, Fin (p - p)).
Proof. exact (gk_split_expired S rd rf cp K vol F). Qed.

(* C87 how the strike solver fails *)
Theorem C87_invalid_arguments (rs : root_finder) (S tau rd rf : R) (vols deltas : list R) (conv atm : string) (F : option R) :
  ~ (valid_quotes S tau vols deltas F /\ known conv atm) -> solve_strike_from_delta rs S tau rd rf vols deltas conv F atm = Err AssertionError.
Proof. exact (solver_rejects rs S tau rd rf vols deltas conv atm F). Qed.
Theorem C87_zero_delta_first (rs : root_finder) (spot : bool) (S tau rd rf vol : R) (vols deltas : list R) (atm : string) (F : option R) :
  valid_quotes S tau (vol :: vols) (0 :: deltas) F -> In atm ["forward"; "per_delta_convention"]%string ->
  solve_strike_from_delta rs S tau rd rf (vol :: vols) (0 :: deltas) (pa_name spot) F atm = Err NameError.
Proof. exact (pa_zero_first rs spot S tau rd rf vol vols deltas atm F). Qed.
Theorem C87_zero_delta_repeats_the_strike_before (rs : root_finder) (spot : bool) (S tau rd rf : R) (vols deltas : list R) (atm : string) (F : option R) (ks : list num) (i : nat) (d : R) :
  solve_strike_from_delta rs S tau rd rf vols deltas (pa_name spot) F atm = Ok ks -> nth_error deltas i = Some d -> d <> 1 / 2 -> nth_error deltas (Datatypes.S i) = Some 0 ->
  exists k, nth_error ks i = Some (Fin k) /\ nth_error ks (Datatypes.S i) = Some (Fin k).
Proof. exact (pa_zero_later rs spot S tau rd rf vols deltas atm F ks i d). Qed.
Theorem C87_put_search (rs : root_finder) (spot : bool) (S tau rd rf vol d : R) (atm : string) (F : option R) : valid_quotes S tau [vol] [d] F -> In atm ["forward"; "per_delta_convention"]%string ->
  d < 0 -> d <> - (1 / 2) ->
  let bound := regular_quote spot true (forward_of S tau rd rf F) rf tau vol d in
  solve_strike_from_delta rs S tau rd rf [vol] [d] (pa_name spot) F atm =
    match rs (solve_delta spot (forward_of S tau rd rf F) rf tau vol d) (/ 1000000) bound with
    | RS k true => Ok [Fin k] | RS _ false => Err ValueError | RSRaises e => Err e end.
Proof. exact (pa_put_fails rs spot S tau rd rf vol d atm F). Qed.
(* for calls every exception of the root finder surfaces as TypeError *)
Theorem C87_call_search (rs : root_finder) (spot : bool) (S tau rd rf vol d : R) (atm : string) (F : option R) : valid_quotes S tau [vol] [d] F -> In atm ["forward"; "per_delta_convention"]%string ->
  0 < d -> d <> 1 / 2 ->
  let bound := regular_quote spot true (forward_of S tau rd rf F) rf tau vol d in
  solve_strike_from_delta rs S tau rd rf [vol] [d] (pa_name spot) F atm =
    match rs (solve_k_lower_bound S tau rd rf vol) (/ 100000) bound with
    | RS m true => match rs (solve_delta spot (forward_of S tau rd rf F) rf tau vol d) m bound with
                   | RS k true => Ok [Fin k] | RS _ false => Err ValueError | RSRaises _ => Err TypeError end
    | RS _ false => Err ValueError | RSRaises _ => Err TypeError end.
Proof. exact (pa_call_fails rs spot S tau rd rf vol d atm F). Qed.

(* C88 premium adjusted deltas as functions of the strike *)
Theorem C88_put_delta_decreasing (spot : bool) (S tau rd rf vol K1 K2 : R) (F : option R) : 0 < S -> 0 < tau -> 0 < vol -> good_forward F -> 0 < K1 -> K1 < K2 ->
  below (pa_delta spot S tau rd rf (-1) K2 vol F) (pa_delta spot S tau rd rf (-1) K1 vol F).
Proof. exact (pa_put_mono spot S tau rd rf vol K1 K2 F). Qed.
Theorem C88_put_strike_exists_and_is_unique (spot : bool) (S tau rd rf vol d : R) (F : option R) : 0 < S -> 0 < tau -> 0 < vol -> good_forward F -> d < 0 ->
  exists K, 0 < K /\ pa_delta spot S tau rd rf (-1) K vol F = Fin d /\ forall K', 0 < K' -> pa_delta spot S tau rd rf (-1) K' vol F = Fin d -> K' = K.
Proof. exact (pa_put_onto spot S tau rd rf vol d F). Qed.
Theorem C88_below_the_regular_delta (spot : bool) (S tau rd rf cp K vol : R) (F : option R) : 0 < S -> 0 < tau -> call_or_put cp -> good_forward F -> 0 < K -> 0 < vol ->
  below (pa_delta spot S tau rd rf cp K vol F) (regular_delta spot S tau rd rf cp K vol F).
Proof. exact (pa_below_regular spot S tau rd rf cp K vol F). Qed.
(* the search bound for puts is above the strike searched for *)
Theorem C88_put_bracket (rs : root_finder) (spot : bool) (S tau rd rf vol d K : R) (F : option R) : 0 < S -> 0 < tau -> 0 < vol -> good_forward F -> d < 0 ->
  Rabs d * (if spot then exp (rf * tau) else 1) < 1 -> 0 < K -> pa_delta spot S tau rd rf (-1) K vol F = Fin d ->
  exists M, regular_strike spot (forward_of S tau rd rf F) rf tau vol d = Fin M /\ K < M.
Proof. exact (pa_put_bracket rs spot S tau rd rf vol d K F). Qed.
(* a root of the lower bound function is the peak of the call delta for the forward implied by the rates; a different market forward moves the peak, not the bound *)
Theorem C88_call_delta_has_one_peak (spot : bool) (S tau rd rf vol m K1 K2 : R) (F : option R) : 0 < S -> 0 < tau -> 0 < vol -> good_forward F -> 0 < m ->
  solve_k_lower_bound S tau rd rf vol m = Fin 0 -> 0 < K1 -> K1 < K2 ->
  let peak := m * forward_of S tau rd rf F / forward_of S tau rd rf None in
  (K2 <= peak -> below (pa_delta spot S tau rd rf 1 K1 vol F) (pa_delta spot S tau rd rf 1 K2 vol F)) /\
  (peak <= K1 -> below (pa_delta spot S tau rd rf 1 K2 vol F) (pa_delta spot S tau rd rf 1 K1 vol F)).
Proof. exact (pa_call_shape spot S tau rd rf vol m K1 K2 F). Qed.
Theorem C88_call_strike_unique_above_the_peak (spot : bool) (S tau rd rf vol m K K' d : R) : 0 < S -> 0 < tau -> 0 < vol -> 0 < m ->
  solve_k_lower_bound S tau rd rf vol m = Fin 0 -> m <= K -> m <= K' ->
  pa_delta spot S tau rd rf 1 K vol None = Fin d -> pa_delta spot S tau rd rf 1 K' vol None = Fin d -> K' = K.
Proof. exact (pa_call_unique spot S tau rd rf vol m K K' d). Qed.

(* C89 implied volatility solver *)
Theorem C89_solver_report (S tau rd rf cp K X : R) (newton : search root_outcome) (brent : search rs_outcome) : 0 < S -> 0 <= tau -> call_or_put cp ->
  let e := gk_error S tau rd rf cp K X in
  exists o, run e newton = Ended o /\
  gk_solve_implied_vol S tau rd rf cp K X newton brent =
    match o with
    | Root x => Ok (Fin x)
    | RootRaises x => Err x
    | NoConvergence => match run e brent with
                       | Ended (RS x _) => Ok (Fin x)
                       | Ended (RSRaises ValueError) => Ok PInf
                       | Ended (RSRaises x) => Err x
                       | _ => Ok NaN end
    end.
Proof. exact (gk_solver_report S tau rd rf cp K X newton brent). Qed.
Theorem C89_objective (S tau rd rf cp K X v : R) : 0 < S -> 0 <= tau -> call_or_put cp -> gk_error S tau rd rf cp K X v = Value (sub (price_gk S tau rd rf cp K v None) (Fin X)).
Proof. exact (gk_error_live S tau rd rf cp K X v). Qed.
Theorem C89_invalid_inputs (S tau rd rf cp K X x : R) (k : num -> search root_outcome) (brent : search rs_outcome) : ~ (0 < S /\ 0 <= tau /\ call_or_put cp) ->
  gk_solve_implied_vol S tau rd rf cp K X (Probe x k) brent = Err AssertionError.
Proof. exact (gk_solver_invalid S tau rd rf cp K X x k brent). Qed.
Theorem C89_fallback_bracket (S tau rd rf cp K v : R) : 0 < S -> 0 < tau -> call_or_put cp -> 0 < K -> 0 < v ->
  exists X lo hi, price_gk S tau rd rf cp K v None = Fin X /\
    gk_error S tau rd rf cp K X (1 / 10000) = Value (Fin lo) /\ gk_error S tau rd rf cp K X 2 = Value (Fin hi) /\ (lo < 0 < hi <-> 1 / 10000 < v < 2).
Proof. exact (gk_fallback_bracket S tau rd rf cp K v). Qed.

(* C90 volatilities that are not positive *)
Theorem C90_negative_volatility (S tau rd rf cp K vol : R) (F : option R) : call_or_put cp -> 0 < S -> 0 < K -> 0 < tau -> 0 < vol -> good_forward F ->
  exists x, price_gk S tau rd rf (- cp) K vol F = Fin x /\ 0 < x /\ price_gk S tau rd rf cp K (- vol) F = Fin (- x).
Proof. exact (gk_negative_vol S tau rd rf cp K vol F). Qed.
Theorem C90_zero_volatility (S tau rd rf cp K : R) (F : option R) : 0 < S -> 0 < tau -> call_or_put cp -> good_forward F -> 0 < K ->
  let f := forward_of S tau rd rf F in
  price_gk S tau rd rf cp K 0 F = if Req_EM_T f K then NaN else Fin (dom_df S tau rd rf F * Rmax 0 (cp * (f - K))).
Proof. exact (price_gk_flat S tau rd rf cp K F). Qed.

(* printed together, since each traversal of the real analysis takes seconds *)
Definition all_theorems := (
  @C48_garman_kohlhagen_parity,
  @C48_garman_kohlhagen_parity_at_expiry,
  @C49_garman_kohlhagen_bounds,
  @C49_garman_kohlhagen_increasing_in_volatility,
  @C49_garman_kohlhagen_implied_volatility,
  @C50_garman_kohlhagen_spot_delta,
  @C50_garman_kohlhagen_forward_delta,
  @C50_garman_kohlhagen_deltas,
  @C50_garman_kohlhagen_vega,
  @C50_garman_kohlhagen_gamma,
  @C50_garman_kohlhagen_theta_deviation,
  @C50_garman_kohlhagen_theta_calls,
  @C50_garman_kohlhagen_theta_puts,
  @C50_garman_kohlhagen_rho_deviation,
  @C50_garman_kohlhagen_rho_right,
  @C50_garman_kohlhagen_rho_with_forward,
  @C52_regular_delta_reproduced,
  @C52_regular_at_the_money,
  @C52_regular_unattainable,
  @C52_premium_adjusted_delta_reproduced,
  @C52_premium_adjusted_at_the_money,
  @C52_one_strike_per_quote,
  @C53_forward_or_rate,
  @C53_expired,
  @C85_accepts,
  @C85_rejects,
  @C85_elementwise,
  @C85_numerical_greeks_unusable,
  @C86_split,
  @C86_split_expired,
  @C87_invalid_arguments,
  @C87_zero_delta_first,
  @C87_zero_delta_repeats_the_strike_before,
  @C87_put_search,
  @C87_call_search,
  @C88_put_delta_decreasing,
  @C88_put_strike_exists_and_is_unique,
  @C88_below_the_regular_delta,
  @C88_put_bracket,
  @C88_call_delta_has_one_peak,
  @C88_call_strike_unique_above_the_peak,
  @C89_solver_report,
  @C89_objective,
  @C89_invalid_inputs,
  @C89_fallback_bracket,
  @C90_negative_volatility,
  @C90_zero_volatility).
Print Assumptions all_theorems.

(* ---- cases meeting the hypotheses ---- *)
Ltac dom := unfold call_or_put, good_forward; auto; try lra.
Example C48_ex : exists c p, price_gk 1 2 (1/20) (1/50) 1 (11/10) (1/5) (Some (21/20)) = Fin c /\ price_gk 1 2 (1/20) (1/50) (-1) (11/10) (1/5) (Some (21/20)) = Fin p /\
  c - p = 1 * exp (- (1/50) * 2) - 11/10 * dom_df 1 2 (1/20) (1/50) (Some (21/20)).
Proof. apply C48_garman_kohlhagen_parity; dom. Qed.
Example C49_ex : exists vol, 0 < vol /\ price_gk 1 1 0 0 1 1 vol None = Fin (1/2).
Proof.
  apply (C49_garman_kohlhagen_implied_volatility 1 1 0 0 1 1 (1/2) None); dom. destruct (Rlt_dec 0 1); [ | lra].
  unfold dom_df. cbn [forward_of]. replace (- 0 * 1) with 0 by ring. replace ((0 - 0) * 1) with 0 by ring. rewrite exp_0. rewrite Rmax_left by lra. lra.
Qed.
Example C50_ex : exists d, spot_delta_gk 1 1 0 0 (-1) 1 (1/5) None = Fin d /\ derivative (fun s => price_gk s 1 0 0 (-1) 1 (1/5) (carried None 1 s)) 1 d.
Proof. apply C50_garman_kohlhagen_spot_delta; dom. Qed.
Example C50_ex_theta : exists th, theta_gk 1 1 (1/20) (1/50) 1 1 (1/5) None = Fin th /\ ~ derivative (fun t => price_gk 1 t (1/20) (1/50) 1 1 (1/5) None) 1 (- (th * (1461/4))).
Proof.
  destruct (C50_garman_kohlhagen_theta_calls 1 1 (1/20) (1/50) 1 (1/5)) as (th & E & D); dom. exists th. split; auto. intros H. apply D in H. lra.
Qed.
Lemma quotes_ex (d : R) : Rabs d <= 1 / 2 -> valid_quotes 1 1 [1/5] [d] None.
Proof. intros. repeat split; dom; apply Forall_cons; auto; lra. Qed.
Example C52_ex : exists k, strike_at (solve_strike_from_delta (fun _ _ _ => RSRaises ValueError) 1 1 0 0 [1/5] [- (1/4)] "regular_spot" None "forward") 0 = Fin k /\ 0 < k /\
  spot_delta_gk 1 1 0 0 (call_put (- (1/4))) k (1/5) None = Fin (- (1/4)).
Proof.
  apply (C52_regular_delta_reproduced (fun _ _ _ => RSRaises ValueError) true 1 1 0 0 [1/5] [- (1/4)] "forward" None 0 (1/5) (- (1/4))); auto; dom.
  - apply quotes_ex. rewrite Rabs_left by lra. lra.
  - left. reflexivity.
  - rewrite Rabs_left by lra. rewrite Rmult_0_l, exp_0. lra.
  - right. rewrite Rabs_left by lra. lra.
Qed.
(* an exact root finder, and a premium adjusted quote it solves *)
Definition half_finder : root_finder := fun f a b =>
  match f (1/2) with Fin y => if Req_EM_T y 0 then if Rle_dec a (1/2) then RS (1/2) true else RSRaises ValueError else RSRaises ValueError | _ => RSRaises ValueError end.
Lemma half_accurate : accurate 0 half_finder.
Proof.
  intros f a b x. unfold half_finder. destruct (f (1/2)) as [y | | | ] eqn:E; try discriminate. destruct (Req_EM_T y 0) as [-> | ]; [ | discriminate]. destruct (Rle_dec a (1/2)); [ | discriminate].
  intros H. injection H as <-. split; auto. exists 0. split; auto. rewrite Rabs_R0. lra.
Qed.
Example C52_ex_premium_adjusted : exists d, d < 0 /\ valid_quotes 1 1 [1/5] [d] None /\
  solve_strike_from_delta half_finder 1 1 0 0 [1/5] [d] (pa_name true) None "forward" = Ok [Fin (1/2)] /\ within 0 d (pa_spot_delta 1 1 0 0 (call_put d) (1/2) (1/5) None).
Proof.
  destruct (C88_below_the_regular_delta true 1 1 0 0 (-1) (1/2) (1/5) None) as (d & y & E & _); dom.
  assert (B : - (1/2) < d < 0).
  { pose proof E as L. rewrite (pa_live true 1 1 0 0 (-1) (1/2) (1/5) None) in L; dom. cbv zeta in L. injection L as L. unfold pa_mult in L. cbn [forward_of] in L.
    replace (- 0 * 1) with 0 in L by ring. replace ((0 - 0) * 1) with 0 in L by ring. rewrite exp_0 in L.
    set (c := cdf _) in L. assert (0 < c < 1) by (split; [apply cdf_gt_0 | apply cdf_lt_1]). lra. }
  exists d. split; [lra | ]. assert (V : valid_quotes 1 1 [1/5] [d] None) by (apply quotes_ex; rewrite Rabs_left by lra; lra). split; auto.
  assert (C : call_put d = -1) by (unfold call_put; destruct (Rlt_dec 0 d); lra).
  assert (A : solve_strike_from_delta half_finder 1 1 0 0 [1/5] [d] (pa_name true) None "forward" = Ok [Fin (1/2)]).
  { rewrite C87_put_search; auto; try lra; [ | left; reflexivity]. unfold half_finder.
    destruct (solve_delta_live true 1 1 0 0 (1/5) d (1/2) None) as (x & X & ->); dom. rewrite C in X. cbn [pa_delta] in E. rewrite E in X. injection X as <-.
    destruct (Req_EM_T (d - d) 0); [ | lra]. destruct (Rle_dec (/ 1000000) (1/2)); [reflexivity | lra]. }
  split; auto. destruct (C52_premium_adjusted_delta_reproduced half_finder 0 true 1 1 0 0 [1/5] [d] "forward" None [Fin (1/2)] 0 (1/5) d) as (k & K1 & _ & K2); auto.
  - left; reflexivity.
  - apply half_accurate.
  - intros Q. lra.
  - intros Q. lra.
  - left. intros Q. lra.
  - injection K1 as <-. exact K2.
Qed.
Example C53_ex : price_gk 1 1 7 0 1 1 (1/5) (Some 2) = price_gk 1 1 (ln (2 / 1) / 1 + 0) 0 1 1 (1/5) None.
Proof. unfold price_gk. rewrite C53_forward_or_rate by dom. reflexivity. Qed.
Definition vec_gk : gk := mk_gk [1] [1; 2] [0] [0] [1; -1] [1; 1] [1/5; 1/5] None.
Example C85_ex : exists r, garman_kohlhagen_price vec_gk false true false = Ok r /\ length (p_price r) = 2%nat.
Proof.
  apply C85_accepts. repeat split; cbn; auto; repeat (apply Forall_cons; [dom | ]); try apply Forall_nil. 
Qed.
Example C85_ex_one_expiry : garman_kohlhagen_price (mk_gk [1] [1] [0] [0] [1; -1] [1; 1] [1/5; 1/5] None) false false false = Err IndexError.
Proof.
  apply (proj2 (proj2 (C85_rejects _ false false false)) 2%nat).
  - repeat split; cbn; auto; repeat (apply Forall_cons; [dom | ]); try apply Forall_nil.
  - repeat split; cbn; auto 10; repeat (apply Forall_cons; [auto | ]); try apply Forall_nil.
  - cbn. intros [H _]. discriminate.
Qed.
Example C85_ex_numerical : garman_kohlhagen_price vec_gk false true true = Err KeyError.
Proof. destruct C85_ex as (r & E & _). exact (C85_numerical_greeks_unusable _ _ _ _ E). Qed.
Example C86_ex : exists x i, price_gk 1 1 0 0 1 (1/2) (1/5) None = Fin x /\ split_gk 1 1 0 0 1 (1/2) (1/5) None = Some (Fin i, Fin (x - i)) /\
    i = Rmax 0 (1 * (1 * exp (- 0 * 1) - 1/2 * dom_df 1 1 0 0 None)) /\ 0 < x - i.
Proof. apply C86_split; dom. Qed.
Example C87_ex : solve_strike_from_delta half_finder 1 1 0 0 [1/5] [0] (pa_name false) None "forward" = Err NameError.
Proof. apply C87_zero_delta_first; [apply quotes_ex; rewrite Rabs_R0; lra | left; reflexivity]. Qed.
Example C87_ex_call : solve_strike_from_delta (fun _ _ _ => RSRaises ValueError) 1 1 0 0 [1/5] [1/4] (pa_name false) None "forward" = Err TypeError.
Proof. rewrite C87_call_search; try lra; auto; [apply quotes_ex; rewrite Rabs_right by lra; lra | left; reflexivity]. Qed.
Example C88_ex : exists K, 0 < K /\ pa_delta true 1 1 0 0 (-1) K (1/5) None = Fin (-5) /\ forall K', 0 < K' -> pa_delta true 1 1 0 0 (-1) K' (1/5) None = Fin (-5) -> K' = K.
Proof. apply C88_put_strike_exists_and_is_unique; dom. Qed.
(* a peak exists *)
Example C88_ex_peak : exists m, 0 < m /\ solve_k_lower_bound 1 1 0 0 1 m = Fin 0.
Proof.
  assert (L : peak_fun 1 (-1) < 0) by (apply peak_low; lra).
  assert (U : 0 < peak_fun 1 2).
  { unfold peak_fun. pose proof (cdf_incr 0 2 ltac:(lra)) as C. rewrite cdf_0 in C. assert (pdf 2 < 1/2); [ | lra].
    unfold pdf. assert (exp (- (2 * 2) / 2) < 1) by (rewrite <- exp_0; apply exp_increasing; lra). assert (2 < sqrt (2 * PI)).
    { apply Rsqr_incrst_0; [ | lra | apply sqrt_pos]. rewrite Rsqr_sqrt by (pose proof PI_RGT_0; lra). unfold Rsqr. pose proof PI2_3_2. unfold PI2 in *. lra. }
    apply (Rmult_lt_reg_r (sqrt (2 * PI))); [lra | ]. unfold Rdiv at 1. rewrite Rmult_assoc, Rinv_l by lra. pose proof (exp_pos (- (2 * 2) / 2)). lra. }
  destruct (IVT_cor (peak_fun 1) (-1) 2) as (x & _ & X); [ | lra | | ].
  - intros x. apply derivable_continuous_pt. eexists. apply peak_derive.
  - apply Rlt_le. pose proof (Rmult_lt_0_compat (- peak_fun 1 (-1)) (peak_fun 1 2)). lra.
  - exists (exp (- x - 1 / 2)). pose proof (exp_pos (- x - 1 / 2)). split; auto. rewrite lower_bound_live by dom. f_equal. rewrite sqrt_1. replace (1 * 1) with 1 by ring. transitivity (peak_fun 1 x); [f_equal | exact X].
    rewrite BsProofs.bd2_alt by lra. assert (Q : exp ((0 - 0) * 1) = 1) by (replace ((0 - 0) * 1) with 0 by ring; apply exp_0). rewrite Q, BsProofs.ln_quot by lra. rewrite ln_exp. rewrite Rmult_1_r, ln_1. lra.
Qed.
Example C89_ex : gk_solve_implied_vol 1 1 0 0 1 1 3 (Probe (1/5) (fun _ => Finish NoConvergence)) (Probe 2 (fun _ => Finish (RSRaises ValueError))) = Ok PInf.
Proof.
  destruct (C89_solver_report 1 1 0 0 1 1 3 (Probe (1/5) (fun _ => Finish NoConvergence)) (Probe 2 (fun _ => Finish (RSRaises ValueError)))) as (o & E & ->); dom.
  cbn [run] in *. rewrite C89_objective in * by dom. injection E as <-. reflexivity.
Qed.
Example C90_ex : exists x, price_gk 1 1 0 0 (- 1) 1 (1/5) None = Fin x /\ 0 < x /\ price_gk 1 1 0 0 1 1 (- (1/5)) None = Fin (- x).
Proof. apply C90_negative_volatility; dom. Qed.
