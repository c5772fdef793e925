From Coq Require Import Reals List Bool Lra Lia.
From Verif Require Import Base NormalModel NormalProofs BsProofs BlackModel BlackSpec BlackProofs BlackVecProofs BlackNumProofs.
Import ListNotations.
Open Scope R_scope.

(* C48 call minus put is the annuity times forward minus strike *)
Theorem C48_black76_parity (F tau K vol s A : R) : 0 < F + s -> 0 < K + s -> 0 <= tau -> vol * sqrt tau <> 0 \/ F <> K ->
  exists c p, price76 F tau 1 K vol s A = Fin c /\ price76 F tau (-1) K vol s A = Fin p /\ c - p = A * (F - K).
Proof. exact (b76_parity F tau K vol s A). Qed.
Theorem C48_bachelier_parity (F tau K vol A : R) : 0 <= tau -> vol * sqrt tau <> 0 \/ F <> K ->
  exists c p, price_n F tau 1 K vol A = Fin c /\ price_n F tau (-1) K vol A = Fin p /\ c - p = A * (F - K).
Proof. exact (bach_parity F tau K vol A). Qed.

(* C49 bounds, monotonicity, existence and uniqueness of implied volatilities *)
Theorem C49_black76_bounds (F tau cp K vol s A : R) : call_or_put cp -> 0 < F + s -> 0 < K + s -> 0 < tau -> 0 < vol -> 0 < A ->
  exists x, price76 F tau cp K vol s A = Fin x /\ A * Rmax 0 (cp * (F - K)) < x /\ x < A * (if Rlt_dec 0 cp then F + s else K + s).
Proof. exact (b76_bounds F tau cp K vol s A). Qed.
Theorem C49_black76_increasing_in_volatility (F tau cp K v1 v2 s A : R) : call_or_put cp -> 0 < F + s -> 0 < K + s -> 0 < tau -> 0 < v1 -> v1 < v2 -> 0 < A ->
  exists x y, price76 F tau cp K v1 s A = Fin x /\ price76 F tau cp K v2 s A = Fin y /\ x < y.
Proof. exact (b76_vol_mono F tau cp K v1 v2 s A). Qed.
Theorem C49_black76_increasing_in_expiry (F t1 t2 cp K vol s A : R) : call_or_put cp -> 0 < F + s -> 0 < K + s -> 0 < t1 -> t1 < t2 -> 0 < vol -> 0 < A ->
  exists x y, price76 F t1 cp K vol s A = Fin x /\ price76 F t2 cp K vol s A = Fin y /\ x < y.
Proof. exact (b76_tau_mono F t1 t2 cp K vol s A). Qed.
Theorem C49_black76_implied_volatility (F tau cp K s A p : R) : call_or_put cp -> 0 < F + s -> 0 < K + s -> 0 < tau -> 0 < A ->
  ((exists vol, 0 < vol /\ price76 F tau cp K vol s A = Fin p) <->
   A * Rmax 0 (cp * (F - K)) < p /\ p < A * (if Rlt_dec 0 cp then F + s else K + s)) /\
  (forall v1 v2, 0 < v1 -> 0 < v2 -> price76 F tau cp K v1 s A = Fin p -> price76 F tau cp K v2 s A = Fin p -> v1 = v2).
Proof. exact (b76_implied F tau cp K s A p). Qed.
Theorem C49_bachelier_bounds (F tau cp K vol A : R) : call_or_put cp -> 0 < tau -> 0 < vol -> 0 < A ->
  exists x, price_n F tau cp K vol A = Fin x /\ A * Rmax 0 (cp * (F - K)) < x.
Proof. exact (bach_bounds F tau cp K vol A). Qed.
Theorem C49_bachelier_increasing_in_volatility (F tau cp K v1 v2 A : R) : call_or_put cp -> 0 < tau -> 0 < v1 -> v1 < v2 -> 0 < A ->
  exists x y, price_n F tau cp K v1 A = Fin x /\ price_n F tau cp K v2 A = Fin y /\ x < y.
Proof. exact (bach_vol_mono F tau cp K v1 v2 A). Qed.
Theorem C49_bachelier_implied_volatility (F tau cp K A p : R) : call_or_put cp -> 0 < tau -> 0 < A ->
  ((exists vol, 0 < vol /\ price_n F tau cp K vol A = Fin p) <-> A * Rmax 0 (cp * (F - K)) < p) /\
  (forall v1 v2, 0 < v1 -> 0 < v2 -> price_n F tau cp K v1 A = Fin p -> price_n F tau cp K v2 A = Fin p -> v1 = v2).
Proof. exact (bach_implied F tau cp K A p). Qed.

(* C50 analytical greeks: vega per volatility point (Black76) or basis point (Bachelier) *)
Theorem C50_black76_delta (F tau cp K vol s A : R) : call_or_put cp -> 0 < F + s -> 0 < K + s -> 0 < tau -> 0 < vol ->
  exists d, delta76 F tau cp K vol s A = Fin d /\ derivative (fun f => price76 f tau cp K vol s A) F d.
Proof. exact (b76_delta F tau cp K vol s A). Qed.
Theorem C50_black76_vega (F tau cp K vol s A : R) : call_or_put cp -> 0 < F + s -> 0 < K + s -> 0 < tau -> 0 < vol ->
  exists d, vega76 F tau cp K vol s A = Fin d /\ derivative (fun v => price76 F tau cp K v s A) vol (d * 100).
Proof. exact (b76_vega F tau cp K vol s A). Qed.
Theorem C50_bachelier_delta (F tau cp K vol A : R) : call_or_put cp -> 0 < tau -> 0 < vol ->
  exists d, delta_n F tau cp K vol A = Fin d /\ derivative (fun f => price_n f tau cp K vol A) F d.
Proof. exact (bach_delta F tau cp K vol A). Qed.
Theorem C50_bachelier_vega (F tau cp K vol A : R) : call_or_put cp -> 0 < tau -> 0 < vol ->
  exists d, vega_n F tau cp K vol A = Fin d /\ derivative (fun v => price_n F tau cp K v A) vol (d * 10000).
Proof. exact (bach_vega F tau cp K vol A). Qed.
(* theta is 365.25 times minus the derivative in time to expiry, where one day's decay is that derivative divided by 365.25 *)
Theorem C50_bachelier_theta_scaled_wrongly (F tau cp K vol A : R) : call_or_put cp -> 0 < tau -> 0 < vol ->
  exists d, theta_n F tau cp K vol A = Fin d /\ derivative (fun t => price_n F t cp K vol A) tau (- (d * (4 / 1461))).
Proof. exact (bach_theta F tau cp K vol A). Qed.

(* C51 shift invariance and homogeneity, also for infinite and undefined prices *)
Theorem C51_shift_invariant (F tau cp K vol s A h : R) : price76 (F + h) tau cp (K + h) vol (s - h) A = price76 F tau cp K vol s A.
Proof. exact (b76_shift_invariant F tau cp K vol s A h). Qed.
Theorem C51_homogeneous (F tau cp K vol s A k : R) : 0 < k ->
  scaled k (price76 F tau cp K vol s A) (price76 (k * F) tau cp (k * K) vol (k * s) A).
Proof. exact (b76_homogeneous F tau cp K vol s A k). Qed.

(* C54 at-the-money conversions between lognormal and normal volatilities *)
Theorem C54_lognormal_to_normal (F tau K vol s : R) (b : search root_outcome) (l : search min_outcome) :
  0 < F + s -> 0 < tau -> 0 < vol -> Rabs (F - K) < / 10000000000 ->
  exists n, black76_sln_to_normal_vol F tau K vol s b l = Ok (Fin n) /\ 0 < n /\
    forall cp A, call_or_put cp -> price_n F tau cp F n A = price76 F tau cp F vol s A.
Proof. exact (sln_to_normal_atm F tau K vol s b l). Qed.
Theorem C54_round_trip (F tau vol s : R) (b : search root_outcome) (l : search min_outcome) : 0 < F + s -> 0 < tau -> 0 < vol ->
  exists n, black76_sln_to_normal_vol F tau F vol s b l = Ok (Fin n) /\ normal_vol_atm_to_black76_sln_atm F tau n s = Fin vol.
Proof. exact (atm_round_trip F tau vol s b l). Qed.
Theorem C54_normal_to_lognormal (F tau n s : R) : 0 < F + s -> 0 < tau -> 0 < n ->
  (n * sqrt tau * pdf 0 < F + s -> exists vol, normal_vol_atm_to_black76_sln_atm F tau n s = Fin vol /\ 0 < vol /\
     (forall cp A, call_or_put cp -> price76 F tau cp F vol s A = price_n F tau cp F n A) /\
     (forall b l, black76_sln_to_normal_vol F tau F vol s b l = Ok (Fin n))) /\
  (F + s < n * sqrt tau * pdf 0 -> normal_vol_atm_to_black76_sln_atm F tau n s = NaN) /\
  (F + s = n * sqrt tau * pdf 0 -> normal_vol_atm_to_black76_sln_atm F tau n s = PInf).
Proof. exact (normal_to_sln_atm F tau n s). Qed.
Theorem C54_lognormal_to_normal_off_the_money (F tau K vol s : R) (b : search root_outcome) (l : search min_outcome) (n : num) :
  / 10000000000 <= Rabs (F - K) -> 0 < tau -> 0 < vol -> 0 < F + s -> 0 < K + s ->
  black76_sln_to_normal_vol F tau K vol s b l = Ok n ->
  exists v p, n = Fin v /\ price76 F tau 1 K vol s 1 = Fin p /\
    ((exists q, price_n F tau 1 K v 1 = Fin q /\ close_to p q) \/
     (exists g val, run (error_function (bach_prices (bach_scalar F tau 1 K 0)) (Fin p) true) l = Ended (Minimum v g val))).
Proof. exact (sln_to_normal_off F tau K vol s b l n). Qed.
(* the general conversion drops the closed form even at the money: it returns whatever a minimiser that reports success reports *)
Theorem C54_general_conversion_unchecked (F tau K n s x : R) (val : num) : F + s <> 0 ->
  normal_vol_to_black76_sln F tau K n s (Finish (Minimum x true val)) = Ok x.
Proof. exact (normal_to_sln_any F tau K n s x val). Qed.

Theorem C54_general_conversion_reprices (F tau K n s p x : R) (l : search min_outcome) : F + s <> 0 -> price_n F tau 1 K n 1 = Fin p -> p <> 0 ->
  (honest [] l -> normal_vol_to_black76_sln F tau K n s l = Ok x -> exists q, price76 F tau 1 K x s 1 = Fin q /\ close_to p q)
  /\ (forall q : R, price76 F tau 1 K x s 1 = Fin q -> normal_vol_to_black76_sln F tau K n s (Probe x (fun y => Finish (Minimum x false y))) = Ok x <-> close_to p q).
Proof. exact (normal_vol_reprices F tau K n s p x l). Qed.
Theorem C54_shifted_volatility_reprices (F tau K vol s t p x : R) (l : search min_outcome) : F + (t - s) <> 0 -> price76 F tau 1 K vol s 1 = Fin p -> p <> 0 ->
  (honest [] l -> shift_black76_vol F tau K vol s t l = Ok x -> exists q, price76 F tau 1 K x t 1 = Fin q /\ close_to p q)
  /\ (forall q : R, price76 F tau 1 K x t 1 = Fin q -> shift_black76_vol F tau K vol s t (Probe x (fun y => Finish (Minimum x false y))) = Ok x <-> close_to p q).
Proof. exact (shift_vol_reprices F tau K vol s t p x l). Qed.
(* the initial guesses divide by a forward that may vanish *)
Theorem C54_guess_divides_by_zero (F tau K vol s t : R) (l : search min_outcome) :
  (F + s = 0 -> normal_vol_to_black76_sln F tau K vol s l = Err ZeroDivisionError) /\ (F + (t - s) = 0 -> shift_black76_vol F tau K vol s t l = Err ZeroDivisionError).
Proof. exact (conj (normal_vol_zero F tau K vol s l) (shift_vol_zero F tau K vol s t l)). Qed.

(* C80 vectorised calls: shapes accepted, and every element is the scalar call on the broadcast inputs *)
Theorem C80_black76_elementwise (a : b76) (sp an nu : bool) (r : priced) : black76_price a sp an nu = Ok r ->
  forall (i : nat) (F tau cp K vol s A : R), (i < length (p_price r))%nat ->
  used (b_F a) i F -> used (b_tau a) i tau -> used (b_cp a) i cp -> used (b_K a) i K -> used (b_vol a) i vol -> used (b_shift a) i s -> used (b_annuity a) i A ->
  nth_error (p_price r) i = Some (price76 F tau cp K vol s A) /\
  (an = true -> exists ds vs, p_analytical r = Some [ds; vs] /\ nth_error ds i = Some (delta76 F tau cp K vol s A) /\ nth_error vs i = Some (vega76 F tau cp K vol s A)).
Proof. exact (b76_elementwise a sp an nu r). Qed.
Theorem C80_black76_accepts (a : b76) (n : nat) :
  (exists r, black76_price a false false false = Ok r /\ length (p_price r) = n) <-> length (b_F a) = length (b_tau a) /\ fits (lens76 a) n.
Proof. exact (b76_accepts a n). Qed.
Theorem C80_black76_rejects (a : b76) (sp an nu : bool) : ~ (length (b_F a) = length (b_tau a) /\ exists n, fits (lens76 a) n) ->
  black76_price a sp an nu = Err AssertionError.
Proof. exact (b76_rejects a sp an nu). Qed.
(* greeks cannot be computed when only cp is an array *)
Theorem C80_black76_greeks_shape (a : b76) (n : nat) : length (b_F a) = length (b_tau a) -> fits (lens76 a) n ->
  (black76_price a false true false = Err ValueError <-> n <> 1%nat /\ ~ In n (uncp76 a)) /\
  (n = 1%nat \/ In n (uncp76 a) -> exists r, black76_price a false true false = Ok r).
Proof. exact (b76_greeks_shape a n). Qed.
(* the split cannot be computed when the forwards have to be broadcast *)
Theorem C80_black76_split_shape (a : b76) (n : nat) : length (b_F a) = length (b_tau a) -> fits (lens76 a) n ->
  (black76_price a true false false = Err IndexError <-> length (b_F a) <> n) /\ (length (b_F a) = n -> exists r, black76_price a true false false = Ok r).
Proof. exact (b76_split_shape a n). Qed.
Theorem C80_bachelier_elementwise (a : bach) (sp an nu : bool) (r : priced) : bachelier_price a sp an nu = Ok r ->
  forall (i : nat) (F tau cp K vol A : R), (i < length (p_price r))%nat ->
  used (n_F a) i F -> used (n_tau a) i tau -> used (n_cp a) i cp -> used (n_K a) i K -> used (n_vol a) i vol -> used (n_annuity a) i A ->
  nth_error (p_price r) i = Some (price_n F tau cp K vol A) /\
  (an = true -> exists ds vs ts, p_analytical r = Some [ds; vs; ts] /\ nth_error ds i = Some (delta_n F tau cp K vol A) /\
     nth_error vs i = Some (vega_n F tau cp K vol A) /\ nth_error ts i = Some (theta_n F tau cp K vol A)).
Proof. exact (bach_elementwise a sp an nu r). Qed.
Theorem C80_bachelier_accepts (a : bach) (n : nat) :
  (exists r, bachelier_price a false false false = Ok r /\ length (p_price r) = n) <-> length (n_F a) = length (n_tau a) /\ fits (lens_n a) n.
Proof. exact (bach_accepts a n). Qed.
Theorem C80_bachelier_rejects (a : bach) (sp an nu : bool) : ~ (length (n_F a) = length (n_tau a) /\ exists n, fits (lens_n a) n) ->
  bachelier_price a sp an nu = Err AssertionError.
Proof. exact (bach_rejects a sp an nu). Qed.
Theorem C80_bachelier_greeks_shape (a : bach) (n : nat) : length (n_F a) = length (n_tau a) -> fits (lens_n a) n ->
  (bachelier_price a false true false = Err ValueError <-> n <> 1%nat /\ ~ In n (uncp_n a)) /\
  (n = 1%nat \/ In n (uncp_n a) -> exists r, bachelier_price a false true false = Ok r).
Proof. exact (bach_greeks_shape a n). Qed.
Theorem C80_bachelier_split_shape (a : bach) (n : nat) : length (n_F a) = length (n_tau a) -> fits (lens_n a) n ->
  (bachelier_price a true false false = Err IndexError <-> length (n_F a) <> n) /\ (length (n_F a) = n -> exists r, bachelier_price a true false false = Ok r).
Proof. exact (bach_split_shape a n). Qed.

(* C81 intrinsic and time value: intrinsic is not multiplied by the annuity *)
Theorem C81_black76_split (F tau cp K vol s A : R) : call_or_put cp -> 0 < F + s -> 0 < K + s -> 0 < tau -> 0 < vol ->
  exists x, price76 F tau cp K vol s A = Fin x /\ split76 F tau cp K vol s A = Some (Fin (Rmax 0 (cp * (F - K))), Fin (x - Rmax 0 (cp * (F - K)))).
Proof. exact (b76_split F tau cp K vol s A). Qed.
Theorem C81_bachelier_split (F tau cp K vol A : R) : call_or_put cp -> 0 < tau -> 0 < vol ->
  exists x, price_n F tau cp K vol A = Fin x /\ split_n F tau cp K vol A = Some (Fin (Rmax 0 (cp * (F - K))), Fin (x - Rmax 0 (cp * (F - K)))).
Proof. exact (bach_split F tau cp K vol A). Qed.
Theorem C81_time_value_positive (F tau cp K vol s A : R) : call_or_put cp -> 0 < F + s -> 0 < K + s -> 0 < tau -> 0 < vol -> 1 <= A ->
  exists i t, split76 F tau cp K vol s A = Some (Fin i, Fin t) /\ 0 < t.
Proof. exact (b76_time_value_sign F tau cp K vol s A). Qed.
Theorem C81_time_value_negative_when_discounted (tau vol s A : R) : 0 < tau -> 0 < vol -> 0 < A < 1 ->
  exists F K i t, 0 < F + s /\ 0 < K + s /\ split76 F tau 1 K vol s A = Some (Fin i, Fin t) /\ t < 0.
Proof. exact (b76_time_value_negative tau vol s A). Qed.
Theorem C81_expired (F cp K vol s A : R) :
  split76 F 0 cp K vol s A = Some (price76 F 0 cp K vol s A, sub (price76 F 0 cp K vol s A) (price76 F 0 cp K vol s A)).
Proof. exact (b76_split_expired F cp K vol s A). Qed.

(* C82 implied volatility solvers: within tolerance, or the unchecked report of the fallback minimiser *)
Theorem C82_black76_solver (a : b76) (X : num) (brent : search root_outcome) (lbfgs : search min_outcome) (v : R) :
  black76_solve_implied_vol a X brent lbfgs = Ok v ->
  (exists ps S x, b76_prices a v = Ok ps /\ nsum ps = Fin S /\ X = Fin x /\ x <> 0 /\ close_to x S) \/
  (exists b val, run (error_function (b76_prices a) X true) lbfgs = Ended (Minimum v b val) /\ (b = true \/ abs_below (/ 100000 * / 100000) val = true)).
Proof. exact (solver_ok (b76_prices a) X brent lbfgs v). Qed.
Theorem C82_bachelier_solver (a : bach) (X : num) (brent : search root_outcome) (lbfgs : search min_outcome) (v : R) :
  bachelier_solve_implied_vol a X brent lbfgs = Ok v ->
  (exists ps S x, bach_prices a v = Ok ps /\ nsum ps = Fin S /\ X = Fin x /\ x <> 0 /\ close_to x S) \/
  (exists b val, run (error_function (bach_prices a) X true) lbfgs = Ended (Minimum v b val) /\ (b = true \/ abs_below (/ 100000 * / 100000) val = true)).
Proof. exact (solver_ok (bach_prices a) X brent lbfgs v). Qed.
(* an answer taken from the minimiser never meets the tolerance when the minimiser reports a point it evaluated *)
Theorem C82_black76_fallback_misses (a : b76) (x : R) (lbfgs : search min_outcome) (v : R) (b : bool) (val : num) (ps : list num) (S : R) :
  x <> 0 -> reports_evaluated [] lbfgs -> run (error_function (b76_prices a) (Fin x) true) lbfgs = Ended (Minimum v b val) ->
  b76_prices a v = Ok ps -> nsum ps = Fin S -> ~ close_to x S.
Proof. exact (solver_min_far (b76_prices a) x lbfgs v b val ps S). Qed.
Theorem C82_bachelier_fallback_misses (a : bach) (x : R) (lbfgs : search min_outcome) (v : R) (b : bool) (val : num) (ps : list num) (S : R) :
  x <> 0 -> reports_evaluated [] lbfgs -> run (error_function (bach_prices a) (Fin x) true) lbfgs = Ended (Minimum v b val) ->
  bach_prices a v = Ok ps -> nsum ps = Fin S -> ~ close_to x S.
Proof. exact (solver_min_far (bach_prices a) x lbfgs v b val ps S). Qed.

(* C83 numerical greeks are central differences without a shift; with a shift, those of the option shifted twice *)
Theorem C83_numerical_greeks_unshifted (F tau cp K vol A : R) :
  bumped_delta76 F tau cp K vol 0 A = central (fun f => price76 f tau cp K vol 0 A) F (F / 100) (2 * F / 100) /\
  bumped_vega76 F tau cp K vol 0 A = central (fun v => price76 F tau cp K v 0 A) vol (1 / 100) 2.
Proof. exact (bumped_unshifted F tau cp K vol A). Qed.
Theorem C83_numerical_greeks_shift_twice (F tau cp K vol s A : R) :
  bumped_vega76 F tau cp K vol s A = central (fun v => price76 F tau cp K v (2 * s) A) vol (1 / 100) 2 /\
  bumped_delta76 F tau cp K vol s A = central (fun f => price76 f tau cp K vol (2 * s) A) F ((F + s) / 100) (2 * (F + s) / 100).
Proof. exact (bumped_shifted F tau cp K vol s A). Qed.
(* on arrays: every element is the scalar call on the broadcast inputs, when there is a result *)
Theorem C83_numerical_greeks_elementwise (a : b76) (n : nat) : length (b_F a) = length (b_tau a) -> fits (lens76 a) n ->
  length (b_F a) <> 1%nat \/ length (b_shift a) = 1%nat -> n = 1%nat \/ In n (uncp76 a) ->
  exists (r : priced) (ds vs : list num), black76_price a false false true = Ok r /\ p_numerical r = Some [ds; vs] /\ length ds = n /\ length vs = n /\
  forall (i : nat) (F tau cp K vol s A : R), (i < n)%nat ->
    used (b_F a) i F -> used (b_tau a) i tau -> used (b_cp a) i cp -> used (b_K a) i K -> used (b_vol a) i vol -> used (b_shift a) i s -> used (b_annuity a) i A ->
    nth_error ds i = Some (bumped_delta76 F tau cp K vol s A) /\ nth_error vs i = Some (bumped_vega76 F tau cp K vol s A).
Proof. exact (num_ok a n). Qed.
(* shapes that are priced but whose numerical greeks raise: a single forward with an array of shifts, or cp the only array *)
Theorem C83_numerical_greeks_shape (a : b76) (n : nat) : length (b_F a) = length (b_tau a) -> fits (lens76 a) n ->
  (length (b_F a) = 1%nat -> length (b_shift a) <> 1%nat -> black76_price a false false true = Err AssertionError) /\
  (length (b_F a) <> 1%nat \/ length (b_shift a) = 1%nat -> n <> 1%nat -> ~ In n (uncp76 a) -> black76_price a false false true = Err ValueError).
Proof. intros E H. exact (conj (num_assert a n E H) (num_value a n E H)). Qed.
Theorem C83_bachelier_ignores_numerical_greeks (a : bach) (sp an : bool) : bachelier_price a sp an true = bachelier_price a sp an false.
Proof. exact (bach_ignores_numerical a sp an). Qed.

(* C84 no volatility left: discounted intrinsic value, undefined at the money *)
Theorem C84_black76_no_volatility (F tau cp K vol s A : R) : call_or_put cp -> 0 < F + s -> 0 < K + s -> 0 <= tau -> vol = 0 \/ tau = 0 ->
  (F <> K -> price76 F tau cp K vol s A = Fin (A * Rmax 0 (cp * (F - K)))) /\ (F = K -> price76 F tau cp K vol s A = NaN).
Proof. exact (b76_no_vol F tau cp K vol s A). Qed.
(* at the shift itself: a forward or a strike of zero (after the shift) gives the discounted intrinsic value *)
Theorem C84_black76_at_the_shift (F tau cp K vol s A : R) : call_or_put cp -> 0 < tau -> 0 < vol -> (0 < F + s /\ K + s = 0) \/ (F + s = 0 /\ 0 < K + s) ->
  price76 F tau cp K vol s A = Fin (A * Rmax 0 (cp * (F - K))).
Proof.
  intros W Ht Hv C. pose proof (total_pos vol tau Hv Ht) as V. rewrite price76_elem. unfold b76_elem, b76_d2, b76_d1. rewrite nsqrt_fin by lra.
  replace (F - K) with ((F + s) - (K + s)) by ring. cbn [mul].
  assert (D1 : forall c : R, div PInf (Fin (vol * sqrt tau)) = PInf /\ div NInf (Fin (vol * sqrt tau)) = NInf) by (intros _; cbn; destruct Rlt_dec; [lra|split; reflexivity]). destruct (D1 0) as [DP DN].
  destruct C as [[HF HK]|[HF HK]].
  - rewrite HK, div_zero, scale_pos by exact HF. cbn [nlog add]. rewrite DP. cbn [sub neg add mul]. destruct W as [-> | ->].
    + rewrite (scale_pos 1) by lra. cbn. f_equal. rewrite Rmax_right by lra. ring.
    + rewrite (scale_neg (-1)) by lra. cbn. f_equal. rewrite Rmax_left by lra. ring.
  - rewrite HF, div_fin by lra. replace (0 / (K + s)) with 0 by (unfold Rdiv; ring). cbn [nlog]. destruct (Rlt_dec 0 0); [lra|]. destruct (Req_EM_T 0 0); [|lra]. cbn [add]. rewrite DN. cbn [sub neg add mul]. destruct W as [-> | ->].
    + rewrite (scale_neg (- (1))) by lra. cbn. f_equal. rewrite Rmax_left by lra. ring.
    + rewrite (scale_pos (- (-1))) by lra. cbn. f_equal. rewrite Rmax_right by lra. ring.
Qed.
(* below it: no price *)
Theorem C84_black76_below_the_shift (F tau cp K vol s A : R) : (F + s < 0 /\ 0 <= K + s) \/ (0 < F + s /\ K + s < 0) \/ (F + s = 0 /\ K + s = 0) -> price76 F tau cp K vol s A = NaN.
Proof.
  intros C. assert (L : nlog (div (Fin (F + s)) (Fin (K + s))) = NaN).
  { destruct C as [[HF HK]|[[HF HK]|[HF HK]]].
    - destruct HK as [HK|HK].
      + rewrite div_fin by lra. cbn. assert (Q : (F + s) / (K + s) < 0) by (unfold Rdiv; pose proof (Rinv_0_lt_compat _ HK); nra). destruct Rlt_dec; [lra|]. destruct Req_EM_T; [lra|reflexivity].
      + rewrite <- HK, div_zero, scale_neg by exact HF. reflexivity.
    - rewrite div_fin by lra. cbn. assert (Q : (F + s) / (K + s) < 0) by (unfold Rdiv; pose proof (Rinv_lt_0_compat _ HK); nra). destruct Rlt_dec; [lra|]. destruct Req_EM_T; [lra|reflexivity].
    - rewrite HF, HK, div_zero, scale_0. reflexivity. }
  rewrite price76_elem. unfold b76_elem, b76_d2, b76_d1. rewrite L. cbn [add div sub neg mul ncdf]. destruct (mul (Fin vol) (nsqrt (Fin tau))); reflexivity.
Qed.
Theorem C84_bachelier_no_volatility (F tau cp K vol A : R) : call_or_put cp -> 0 <= tau -> vol = 0 \/ tau = 0 ->
  (F <> K -> price_n F tau cp K vol A = Fin (A * Rmax 0 (cp * (F - K)))) /\ (F = K -> price_n F tau cp K vol A = NaN).
Proof. exact (bach_no_vol F tau cp K vol A). Qed.
(* the distribution function used by the engines really is the normal distribution function *)
Theorem C84_normal_distribution (x : R) :
  derivable_pt_lim cdf x (exp (- (x * x) / 2) / sqrt (2 * PI)) /\ 0 < cdf x < 1 /\
  (forall e, 0 < e -> exists M, forall y, y < M -> cdf y < e) /\ (forall e, 0 < e -> exists M, forall y, M < y -> 1 - e < cdf y).
Proof. exact (normal_distribution x). Qed.

(* printed together, since each traversal of the real analysis takes seconds *)
Definition all_theorems := (
  @C48_black76_parity,
  @C48_bachelier_parity,
  @C49_black76_bounds,
  @C49_black76_increasing_in_volatility,
  @C49_black76_increasing_in_expiry,
  @C49_black76_implied_volatility,
  @C49_bachelier_bounds,
  @C49_bachelier_increasing_in_volatility,
  @C49_bachelier_implied_volatility,
  @C50_black76_delta,
  @C50_black76_vega,
  @C50_bachelier_delta,
  @C50_bachelier_vega,
  @C50_bachelier_theta_scaled_wrongly,
  @C51_shift_invariant,
  @C51_homogeneous,
  @C54_lognormal_to_normal,
  @C54_round_trip,
  @C54_normal_to_lognormal,
  @C54_lognormal_to_normal_off_the_money,
  @C54_general_conversion_unchecked,
  @C54_general_conversion_reprices,
  @C54_shifted_volatility_reprices,
  @C54_guess_divides_by_zero,
  @C80_black76_elementwise,
  @C80_black76_accepts,
  @C80_black76_rejects,
  @C80_black76_greeks_shape,
  @C80_black76_split_shape,
  @C80_bachelier_elementwise,
  @C80_bachelier_accepts,
  @C80_bachelier_rejects,
  @C80_bachelier_greeks_shape,
  @C80_bachelier_split_shape,
  @C81_black76_split,
  @C81_bachelier_split,
  @C81_time_value_positive,
  @C81_time_value_negative_when_discounted,
  @C81_expired,
  @C82_black76_solver,
  @C82_bachelier_solver,
  @C82_black76_fallback_misses,
  @C82_bachelier_fallback_misses,
  @C83_numerical_greeks_unshifted,
  @C83_numerical_greeks_shift_twice,
  @C83_numerical_greeks_elementwise, C83_numerical_greeks_shape, C83_bachelier_ignores_numerical_greeks,
  @C84_black76_no_volatility,
  @C84_black76_at_the_shift,
  @C84_black76_below_the_shift,
  @C84_bachelier_no_volatility,
  @C84_normal_distribution).
Print Assumptions all_theorems.

(* ---- cases meeting the hypotheses ---- *)
Ltac lens := split; [repeat (apply Forall_cons; [cbn; auto | ]); apply Forall_nil | cbn; auto 10].
Example C48_ex : exists c p, price76 (3/100) 1 1 (4/100) (1/5) (1/100) (1/2) = Fin c /\ price76 (3/100) 1 (-1) (4/100) (1/5) (1/100) (1/2) = Fin p /\ c - p = 1/2 * (3/100 - 4/100).
Proof. apply C48_black76_parity; try lra. Qed.
Example C48_ex_expired : exists c p, price76 3 0 1 2 (1/5) 0 (1/2) = Fin c /\ price76 3 0 (-1) 2 (1/5) 0 (1/2) = Fin p /\ c - p = 1/2 * (3 - 2).
Proof. apply C48_black76_parity; try lra. Qed.
Example C48_ex_negative_rates : exists c p, price_n (-(1/100)) 4 1 (1/100) (1/100) 1 = Fin c /\ price_n (-(1/100)) 4 (-1) (1/100) (1/100) 1 = Fin p /\ c - p = 1 * (-(1/100) - 1/100).
Proof. apply C48_bachelier_parity; try lra. Qed.
Example C49_ex : exists vol, 0 < vol /\ price76 100 1 1 100 vol 0 1 = Fin 8.
Proof.
  apply (proj1 (C49_black76_implied_volatility 100 1 1 100 0 1 8 (or_introl eq_refl) ltac:(lra) ltac:(lra) ltac:(lra) ltac:(lra))).
  destruct (Rlt_dec 0 1); [ | lra]. rewrite Rmax_left by lra. lra.
Qed.
Example C49_ex_put : ~ exists vol, 0 < vol /\ price76 100 1 (-1) 100 vol 0 1 = Fin 100.
Proof.
  intros H. apply (proj1 (C49_black76_implied_volatility 100 1 (-1) 100 0 1 100 (or_intror eq_refl) ltac:(lra) ltac:(lra) ltac:(lra) ltac:(lra))) in H.
  destruct (Rlt_dec 0 (-1)); lra.
Qed.
Example C49_ex_bachelier : exists vol, 0 < vol /\ price_n (-1) 1 (-1) 2 vol 1 = Fin 1000.
Proof.
  apply (proj1 (C49_bachelier_implied_volatility (-1) 1 (-1) 2 1 1000 (or_intror eq_refl) ltac:(lra) ltac:(lra))). rewrite Rmax_right by lra. lra.
Qed.
Example C50_ex : exists d, delta76 3 1 (-1) 2 (1/5) 0 (1/2) = Fin d /\ derivative (fun f => price76 f 1 (-1) 2 (1/5) 0 (1/2)) 3 d.
Proof. apply C50_black76_delta; try lra. right; reflexivity. Qed.
Example C51_ex : scaled 100 (price76 3 1 1 2 (1/5) 1 1) (price76 (100 * 3) 1 1 (100 * 2) (1/5) (100 * 1) 1).
Proof. apply C51_homogeneous. lra. Qed.
Example C54_ex : exists n, black76_sln_to_normal_vol 1 1 1 (1/5) 2 (Finish NoConvergence) (Finish (MinRaises ValueError)) = Ok (Fin n) /\ normal_vol_atm_to_black76_sln_atm 1 1 n 2 = Fin (1/5).
Proof. apply C54_round_trip; lra. Qed.
Example C54_ex_dropped : normal_vol_to_black76_sln 1 1 1 (1/100) 0 (Finish (Minimum 7 true NaN)) = Ok 7.
Proof. apply C54_general_conversion_unchecked. lra. Qed.
Example C80_ex : exists r, black76_price (mk_b76 [3; 4] [1; 1] [1] [2] [1/5] [0] [1]) false false false = Ok r /\ length (p_price r) = 2%nat.
Proof. apply C80_black76_accepts. split; [reflexivity | ]. lens. Qed.
Example C80_ex_one_expiry : black76_price (mk_b76 [3; 4] [1] [1] [2] [1/5] [0] [1]) false false false = Err AssertionError.
Proof. apply C80_black76_rejects. intros [H _]. discriminate. Qed.
Example C80_ex_only_cp : black76_price (mk_b76 [3] [1] [1; -1] [2] [1/5] [0] [1]) false true false = Err ValueError.
Proof.
  apply (proj1 (C80_black76_greeks_shape (mk_b76 [3] [1] [1; -1] [2] [1/5] [0] [1]) 2 eq_refl ltac:(lens))).
  split; [lia | ]. cbn. intuition discriminate.
Qed.
Example C80_ex_strikes_split : black76_price (mk_b76 [3] [1] [1] [2; 3] [1/5] [0] [1]) true false false = Err IndexError.
Proof.
  apply (proj1 (C80_black76_split_shape (mk_b76 [3] [1] [1] [2; 3] [1/5] [0] [1]) 2 eq_refl ltac:(lens))). cbn. lia.
Qed.
Example C81_ex : exists F K i t, 0 < F + 0 /\ 0 < K + 0 /\ split76 F 1 1 K (1/5) 0 (9/10) = Some (Fin i, Fin t) /\ t < 0.
Proof. apply C81_time_value_negative_when_discounted; lra. Qed.
Example C82_ex_stops : exists v, black76_solve_implied_vol (scalar76 3 0 1 2 0 0 1) (Fin 1) (Probe (1/5) (fun _ => Finish NoConvergence)) (Finish (MinRaises ValueError)) = Ok v.
Proof.
  exists (1/5). unfold black76_solve_implied_vol, solve_implied_vol. cbn [run].
  rewrite (error_not_stop (b76_prices (scalar76 3 0 1 2 0 0 1)) 1 false (1/5) [Fin 1] 1); auto; try lra.
  - rewrite b76_prices_scalar. do 2 f_equal. rewrite (proj1 (C84_black76_no_volatility 3 0 1 2 (1/5) 0 1 (or_introl eq_refl) ltac:(lra) ltac:(lra) ltac:(lra) (or_intror eq_refl)) ltac:(lra)).
    rewrite Rmax_right by lra. f_equal. lra.
  - cbn. f_equal. lra.
  - unfold close_to. replace (1 - 1) with 0 by lra. rewrite Rabs_R0, Rabs_R1. lra.
Qed.
Example C83_ex : bumped_vega76 1 1 1 1 (1/5) 1 1 = central (fun v => price76 1 1 1 1 v (2 * 1) 1) (1/5) (1/100) 2.
Proof. exact (proj1 (C83_numerical_greeks_shift_twice 1 1 1 1 (1/5) 1 1)). Qed.
Example C84_ex : price76 3 0 1 2 (1/5) 0 1 = Fin (1 * Rmax 0 (1 * (3 - 2))) /\ price76 2 1 1 2 0 0 1 = NaN.
Proof.
  split.
  - exact (proj1 (C84_black76_no_volatility 3 0 1 2 (1/5) 0 1 (or_introl eq_refl) ltac:(lra) ltac:(lra) ltac:(lra) (or_intror eq_refl)) ltac:(lra)).
  - exact (proj2 (C84_black76_no_volatility 2 1 1 2 0 0 1 (or_introl eq_refl) ltac:(lra) ltac:(lra) ltac:(lra) (or_introl eq_refl)) eq_refl).
Qed.
(* moving to the same shift keeps the volatility *)
Example C54_ex_shift : shift_black76_vol 1 1 1 (1/5) 0 0 (Probe (1/5) (fun y => Finish (Minimum (1/5) false y))) = Ok (1/5).
Proof.
  destruct (b76_bounds 1 1 1 1 (1/5) 0 1) as (p & P & L & _); try lra; [left; auto | ].
  assert (Z : 0 < p) by (pose proof (Rmax_l 0 (1 * (1 - 1))); lra).
  apply (C54_shifted_volatility_reprices 1 1 1 (1/5) 0 0 p (1/5) (Finish (MinRaises ValueError))) with (q := p); auto; try lra.
  unfold close_to. replace (p - p) with 0 by ring. rewrite Rabs_R0. apply Rdiv_lt_0_compat; [apply Rabs_pos_lt; lra | lra].
Qed.

(* two forwards and expiries, two strikes, one volatility and shift *)
Example C83_ex_shape : let a := mk_b76 [1; 2] [1; 3] [1] [1; 1] [1/5] [1/50] [1] in
  length (b_F a) = length (b_tau a) /\ fits (lens76 a) 2 /\ length (b_F a) <> 1%nat /\ In 2%nat (uncp76 a) /\ used (b_F a) 1 2 /\ used (b_vol a) 1 (1/5).
Proof. cbn. unfold fits, used. cbn. repeat split; try discriminate; auto. repeat (apply Forall_cons; [auto|]). apply Forall_nil. Qed.
Example C83_ex_shifts : black76_price (mk_b76 [1] [1] [1] [1] [1/5] [0; 1/50] [1]) false false true = Err AssertionError.
Proof. apply (proj1 (C83_numerical_greeks_shape (mk_b76 [1] [1] [1] [1] [1/5] [0; 1/50] [1]) 2 eq_refl ltac:(split; [repeat (apply Forall_cons; [cbn; auto|]); apply Forall_nil | cbn; tauto]))); cbn; [reflexivity | discriminate]. Qed.
