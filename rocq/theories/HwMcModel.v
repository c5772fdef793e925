(* Monte-Carlo valuation of a zero coupon bond option with the Hull-White simulation, as the example scripts do it *)
From Coq Require Import ZArith String Reals List.
From Verif Require Import Base NormalModel MonteModel HwModel.
Import ListNotations.
Open Scope R_scope.

(* sim_result['R'][-1, :], examples/hw1f_zcbo_valuation_v2.py:77, and sim_result['sim_dsc_factor'][-1, :], L121 *)
Definition final_rates (x : simulation) : list R := map (s_rate x (s_steps x)) (seq 0 (s_sims x)).
Definition final_discounts (x : simulation) : list R := map (s_discount x (s_steps x)) (seq 0 (s_sims x)).

(* np.maximum(cp * (P_T_S - K), 0) * discount, L86-90 *)
Definition present_values (discount K cp : R) (prices : list R) : list R := map (fun p => Rmax (cp * (p - K)) 0 * discount) prices.
(* calculate_zcbo_payoff, L81-92 *)
Definition calculate_zcbo_payoff (quad : integrator) (theta : option (R -> R)) (df : R -> R) (r0 alpha sigma : R) (rates : list R) (expiry maturity K cp : R) : result (list R) :=
  let* prices := sequence (map (fun r => ode_1 quad theta r0 alpha sigma expiry maturity (Some r)) rates) in
  Ok (present_values (df expiry) K cp prices).
(* examples/hw1f_zcbo_valuation_v2.py:124-128 and hw1f_zcbo_valuation.py:136-142: bond prices from the curve, payoffs left undiscounted ("present_values = payoffs #* discount_factor_to_expiry") *)
Definition undiscounted_payoffs (df fwd : R -> R) (r0 alpha sigma : R) (rates : list R) (expiry maturity K cp : R) : result (list R) :=
  let* prices := sequence (map (fun r => ode_2 df fwd r0 alpha sigma expiry maturity (Some r)) rates) in
  Ok (map (fun p => Rmax (cp * (p - K)) 0) prices).
(* examples/hw1f.py:65-71 calls calc_discount_factor_by_solving_ode_2(t0=expiry, T=maturity, r=r_T) *)
Definition ode_2_parameters : list string := ["t1"; "t2"; "r_t1"]%string.
Definition script_keywords : list string := ["t0"; "T"; "r"]%string.
Definition script_present_values (df fwd : R -> R) (r0 alpha sigma : R) (rates : list R) (expiry maturity K cp : R) : result (list R) :=
  let* _ := guard (accepts ode_2_parameters script_keywords) TypeError in
  let* prices := sequence (map (fun r => ode_2 df fwd r0 alpha sigma expiry maturity (Some r)) rates) in
  Ok (present_values (df expiry) K cp prices).

(* np.mean, L97 *)
Definition mc_price (values : list R) : R := fold_right Rplus 0 values / INR (List.length values).

(* simulate_hw1f, examples/hw1f.py:122-148, one path; z are standard normal numbers, dW = sqrt_dt * z; any other name than "euler" is the second branch *)
Fixpoint example_rate (a sigma theta r0 dt : R) (method : string) (z : nat -> R) (i : nat) : R :=
  match i with
  | O => r0
  | S i =>
      let x := example_rate a sigma theta r0 dt method z i in let dW := sqrt dt * z i in
      x + (if String.eqb method "euler" then (theta - a * x) * dt + sigma * dW
           else (theta - a * x) * dt + sigma * dW + 1 / 2 * sigma * sigma * (dW ^ 2 - dt))
  end.
