(* Monte-Carlo valuation of a zero coupon bond option by frm/pricing_engine/hw1f2.py:49-195 (hw1f3.py:49-245 is the same with a function renamed) *)
From Coq Require Import ZArith Reals List.
From Flocq Require Import Core.
From Verif Require Import Base NormalModel HwModel.
Import ListNotations.
Open Scope R_scope.

(* number of steps and points of sim_grid: 0, then np.arange(time_step, expiry, time_step), then the expiry; L54-55, L107 *)
Definition grid_steps (time_step expiry : R) : nat := S (Z.to_nat (Zceil ((expiry - time_step) / time_step))).
Definition sim_grid (time_step expiry : R) (i : nat) : R := if Nat.ltb i (grid_steps time_step expiry) then INR i * time_step else expiry.

Section Sample.
(* fwd: zero_curve.get_instantaneous_forward_rate, df: get_discount_factors; z: the normal draws of one sample; t, n: grid and number of its steps *)
Variables (df fwd : R -> R) (k vol : R) (t : nat -> R) (n : nat) (z : nat -> R).
(* rate_paths[i], L140-152: the state after step i plus the forward rate at its end *)
Definition hw2_rate (i : nat) : R := x_path k vol t z (S i) + fwd (t (S i)).
(* dt_ = np.concat(([0.], dt[1:])), L189 *)
Definition hw2_dt (i : nat) : R := match i with O => 0 | S _ => t (S i) - t i end.
(* np.cumprod of np.exp(-r_t * dt_), L190-191: the product of the first i factors *)
Fixpoint hw2_cumulative (i : nat) : R := match i with O => 1 | S i => hw2_cumulative i * exp (- hw2_rate i * hw2_dt i) end.
(* bond_option_prices, L193, with p_t_tau of L165-181 at the last grid point *)
Definition hw2_option (tau K cp : R) : R :=
  let x := hw2_rate (Nat.pred n) - fwd (t n) in
  cp * Rmax (cp * (bond_from_state df k vol (t n) tau x - K)) 0 * hw2_cumulative n.
End Sample.
(* the option value of a sample: expiry, maturity of the bond, time step *)
Definition hw2_value (df fwd : R -> R) (k vol time_step expiry maturity K cp : R) (z : nat -> R) : R :=
  hw2_option df fwd k vol (sim_grid time_step expiry) (grid_steps time_step expiry) z (maturity - expiry) K cp.

(* ---- examples/hw1f_tfqf_validation_from_scratch.py: the analytic valuation, one option ---- *)
(* bond_option_variance, L148-195, for a constant mean reversion k and volatility; knots: model._jump_locations, whose variances are added up; model._variance_int is variance_int above *)
Definition tff_variance (knots : list R) (k vol expiry maturity : R) : R :=
  let vn := 0 :: knots in
  let between i := variance_int (nth i vn 0) (nth (S i) vn 0) vol k in
  let index := List.length (filter (fun j => ltb j expiry) knots) in
  let at_knots := fold_right Rplus 0 (map between (seq 0 index)) in
  (variance_int (nth index vn 0) expiry vol k + at_knots) * (exp (- k * expiry) - exp (- k * maturity)) ^ 2 / k ^ 2.
Definition divide_no_nan (x y : num) : num := if is_zero y then Fin 0 else div x y.
(* analytic_valuation, L102-146; rate: discount_rate_fn; _ncdf, L46-48, is the normal distribution function *)
Definition tff_option (rate : R -> R) (knots : list R) (k vol expiry maturity K : R) (is_call : bool) : num :=
  let df_expiry := exp (- rate expiry * expiry) in
  let variance := tff_variance knots k vol expiry maturity in
  let df_maturity := exp (- rate maturity * maturity) in
  let forward := df_maturity / df_expiry in
  let sd := nsqrt (Fin variance) in
  let d1 := divide_no_nan (add (nlog (div (Fin forward) (Fin K))) (Fin (1 / 2 * variance))) sd in
  let d2 := sub d1 sd in
  let call := sub (mul (Fin df_maturity) (ncdf d1)) (mul (Fin (K * df_expiry)) (ncdf d2)) in
  let put := sub (mul (Fin (K * df_expiry)) (ncdf (neg d2))) (mul (Fin df_maturity) (ncdf (neg d1))) in
  let intrinsic := if is_call then Rmax (forward - K) 0 else Rmax (K - forward) 0 in
  if ltb maturity expiry then Fin 0 else if is_pos sd then (if is_call then call else put) else Fin intrinsic.
