(* Conditional moments of the variance process and the laws that match them *)
From Coq Require Import Reals List String.
From Verif Require Import Base NormalModel MonteModel MonteSpec HestonSimModel.
Import ListNotations.
Open Scope R_scope.

(* usual parameters *)
Definition sound (h : heston) : Prop := 0 < h_S0 h /\ 0 <= h_var0 h /\ 0 < h_vv h /\ 0 < h_kappa h /\ 0 < h_theta h /\ -1 < h_rho h < 1 /\ 0 < h_tau h.

(* mean and variance of the square root process dv = kappa (theta - v) dt + vv sqrt(v) dW after dt, from v *)
Definition cir_mean (h : heston) (dt v : R) : R := v * exp (- h_kappa h * dt) + h_theta h * (1 - exp (- h_kappa h * dt)).
Definition cir_variance (h : heston) (dt v : R) : R :=
  let e := exp (- h_kappa h * dt) in v * h_vv h ^ 2 * e * (1 - e) / h_kappa h + h_theta h * h_vv h ^ 2 * (1 - e) ^ 2 / (2 * h_kappa h).

(* a (b + Z)^2 has mean m and variance s2 for a standard normal Z *)
Definition quadratic_law (m s2 a b : R) : Prop := 0 < a /\ 0 < b /\ a * (1 + b ^ 2) = m /\ 2 * a ^ 2 * (1 + 2 * b ^ 2) = s2.
(* mass p at zero and an exponential tail of rate beta: mean m and variance s2 *)
Definition exponential_law (m s2 p beta : R) : Prop := 0 < p < 1 /\ 0 < beta /\ (1 - p) / beta = m /\ (1 - p ^ 2) / beta ^ 2 = s2.
(* probability that the variance does not exceed x *)
Definition exponential_cdf (p beta x : R) : R := p + (1 - p) * (1 - exp (- beta * x)).

(* sample moments of a standard normal, up to the fourth *)
Definition normal_moments (n : nat) (z : nat -> R) : Prop :=
  total n z = 0 /\ total n (fun s => z s ^ 2) = INR n /\ total n (fun s => z s ^ 3) = 0 /\ total n (fun s => z s ^ 4) = 3 * INR n.

Definition euler_methods : list string := ["euler_with_absorption_of_volatility_process"; "euler_with_reflection_of_volatility_process"]%string.
