(* The Hull-White model: exact integration and root finding, moments, payoffs *)
From Coq Require Import ZArith Reals String List.
From Coquelicot Require Import Coquelicot.
From Verif Require Import Base NormalModel MonteModel MonteSpec HwModel.
Import ListNotations.
Open Scope R_scope.

(* a numerical integrator without error, a root finder without error *)
Definition exact_quad (quad : integrator) : Prop := forall (f : R -> R) (a b : R), ex_RInt f a b -> is_RInt f a b (quad f a b).
Definition exact_root (brentq : root_finder) : Prop := forall (f : R -> result R) (a b x : R), brentq f a b = Ok x -> f x = Ok 0.

(* mean reversion speeds for which calc_b uses the exponential formula *)
Definition mean_reverting (alpha : R) : Prop := 1 / 100000000 <= alpha.

(* the curve at the constant rate c *)
Definition flat (c : R) (df fwd : R -> R) : Prop := forall t : R, df t = exp (- c * t) /\ fwd t = c.


(* the tangible value of a payer (receiver) swap at expiry: receive (pay) one, pay (receive) the fixed leg *)
Fixpoint coupon_sum (rate : R) (fractions prices : list R) : R :=
  match fractions, prices with f :: fs, p :: ps => rate * f * p + coupon_sum rate fs ps | _, _ => 0 end.
(* options on the single payments struck at ks and k: cp = 1 a call, cp = -1 a put *)
Fixpoint option_sum (cp rate : R) (fractions prices ks : list R) : R :=
  match fractions, prices, ks with f :: fs, p :: ps, k :: kt => rate * f * Rmax 0 (cp * (p - k)) + option_sum cp rate fs ps kt | _, _, _ => 0 end.
Definition average (n : nat) (f : nat -> R) : R := total n f / INR n.

(* ---- simulation ---- *)
(* the methods by name *)
Inductive named : string -> scheme -> Prop := named_euler : named "euler" Euler | named_rk4 : named "rk4" Rk4 | named_exact : named "exact" Exact.
(* one step of the rate in excess of r0: decay, scale of the noise, and drift *)
Definition decay (m : scheme) (alpha h : R) : R :=
  match m with
  | Euler => 1 - alpha * h
  | Rk4 => 1 - alpha * h + (alpha * h) ^ 2 / 2 - (alpha * h) ^ 3 / 6 + (alpha * h) ^ 4 / 24
  | _ => exp (- alpha * h)
  end.
Definition noise (m : scheme) (alpha sigma h : R) : R :=
  match m with Exact => sqrt (sigma ^ 2 / (2 * alpha) * (1 - exp (-2 * alpha * h))) | _ => sigma * sqrt h end.
(* the variance of the short rate at t: what theta adds to alpha * r0 *)
Definition rate_variance (alpha sigma t : R) : R := sigma ^ 2 / (2 * alpha) * (1 - exp (-2 * alpha * t)).
Definition drift (m : scheme) (alpha sigma h : R) (k : nat) : R :=
  let q := rate_variance alpha sigma (INR k * h) in
  match m with
  | Exact => let a := (1 - exp (- alpha * h)) / alpha in q * a + (rate_variance alpha sigma (INR (S k) * h) - q) * (h - a) / (alpha * h)
  | _ => (1 - decay m alpha h) / alpha * q
  end.
Definition excess (m : scheme) (alpha sigma h : R) (z : nat -> R) (i : nat) : R :=
  total i (fun k => decay m alpha h ^ (i - 1 - k) * (drift m alpha sigma h k + noise m alpha sigma h * z k)).
(* the mean of the short rate of the model fitted to the flat curve r0 *)
Definition mean_rate (r0 alpha sigma t : R) : R := r0 + sigma ^ 2 / (2 * alpha ^ 2) * (1 - exp (- alpha * t)) ^ 2.

(* ---- hw1f2: the state x and its variance y ---- *)
(* the solution of y' = vol^2 - 2 k y with y(t0) = y0 *)
Definition y_from (t0 y0 vol k s : R) : R := exp (-2 * k * (s - t0)) * y0 + vol ^ 2 / (2 * k) * (1 - exp (-2 * k * (s - t0))).
(* the mean of the state *)
Definition x_mean (k vol t : R) : R := vol ^ 2 / (2 * k ^ 2) * (1 - exp (- k * t)) ^ 2.
