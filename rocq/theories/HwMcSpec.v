(* Monte-Carlo values as functions of the random numbers of the path, and the limits of the simulation in the number of steps *)
From Coq Require Import ZArith String Reals List.
From Verif Require Import Base NormalModel MonteModel MonteSpec HwModel HwSpec MeanSpec HwMcModel.
Import ListNotations.
Open Scope R_scope.

(* g is the value computed from a simulated path as a function of the random numbers of that path: the same for every path, seed and source of random numbers *)
Definition path_values (quad : integrator) (r0 alpha sigma tau : R) (steps sims : Z) (anti : bool) (method : string) (value : simulation -> result (list R)) (g : (nat -> R) -> R) : Prop :=
  forall (normal : normals) (seed : Z) (x : simulation), hw_simulate normal quad r0 alpha sigma tau steps sims anti seed method = Ok x ->
  exists a, generate_rand_nbs normal steps 1 sims anti seed = Ok a /\ value x = Ok (map (fun j => g (fun k => el a k 0%nat j)) (seq 0 (Z.to_nat sims))).

(* the payoffs discounted along their own paths, with the simulated discount factors *)
Definition discounted_on_path (quad : integrator) (theta : option (R -> R)) (r0 alpha sigma : R) (expiry maturity K cp : R) (x : simulation) : result (list R) :=
  let* prices := sequence (map (fun r => ode_1 quad theta r0 alpha sigma expiry maturity (Some r)) (final_rates x)) in
  Ok (map (fun dp => Rmax (cp * (snd dp - K)) 0 * fst dp) (combine (final_discounts x) prices)).

(* theta_spline without interpolation error on [t1, t2] *)
Definition fitted (r0 alpha sigma t1 t2 : R) (theta : R -> R) : Prop := forall t : R, t1 <= t <= t2 -> get_theta r0 alpha sigma t = Ok (theta t).

(* mean and variance of the simulated rate after n steps of length h, its covariance with the integral of the rate, and the logarithm of the expected discount factor *)
Definition sim_mean (m : scheme) (r0 alpha sigma h : R) (n : nat) : R := r0 + excess m alpha sigma h (fun _ => 0) n.
Definition sim_variance (m : scheme) (alpha sigma h : R) (n : nat) : R := total n (fun k => rate_weight m alpha sigma h n k ^ 2).
Definition sim_covariance (m : scheme) (alpha sigma h : R) (n : nat) : R := total n (fun k => rate_weight m alpha sigma h n k * integral_weight m alpha sigma h n k).
Definition sim_log_discount (m : scheme) (r0 alpha sigma h : R) (n : nat) : R :=
  - r0 * (INR n * h) + total n (fun k => integral_weight m alpha sigma h n k ^ 2 / 2)
  - total n (fun l => h / 2 * (excess m alpha sigma h (fun _ => 0) l + excess m alpha sigma h (fun _ => 0) (S l))).
