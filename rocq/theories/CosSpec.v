(* Cosine series of a density, payoffs, moments of the Heston model *)
From Coq Require Import ZArith Reals List.
From Coquelicot Require Import Coquelicot.
From Verif Require Import Base NormalModel MonteModel MonteSpec ChfModel.
Open Scope R_scope.

(* payoff per unit of strike at log moneyness y = log(S_T / K) *)
Definition payoff (call : bool) (y : R) : R := if call then Rmax (exp y - 1) 0 else Rmax (1 - exp y) 0.
Definition basis (a b : R) (k : nat) (y : R) : R := cos (INR k * PI * (y - a) / (b - a)).

(* N-term cosine series on [a, b] of the density of x0 + X, where X has the characteristic function values z k at k pi / (b - a) *)
Definition series (z : nat -> C) (a b x0 : R) (N : nat) (y : R) : R :=
  total N (fun k => (if Nat.eqb k 0 then 1 / 2 else 1) * (2 / (b - a) * Re (z k * cexp (Ci * (INR k * PI / (b - a))%R * (x0 - a)%R))%C) * basis a b k y).

(* mean M and variance V of the log return, mean m and variance s of the variance process, covariance q of the two: Ito's formula for
   dX = (mu - v / 2) dt + sqrt(v) dW1, dv = lam (u_bar - v) dt + eta sqrt(v) dW2, d<W1, W2> = rho dt *)
Definition heston_moments (mu u0 eta lam u_bar rho : R) (M m s q V : R -> R) : Prop :=
  (M 0 = 0 /\ m 0 = u0 /\ s 0 = 0 /\ q 0 = 0 /\ V 0 = 0) /\
  forall t : R, 0 <= t ->
    is_derive M t (mu - m t / 2) /\ is_derive m t (lam * (u_bar - m t)) /\ is_derive s t (eta ^ 2 * m t - 2 * lam * s t)
    /\ is_derive q t (rho * eta * m t - s t / 2 - lam * q t) /\ is_derive V t (m t - q t).

(* left Riemann sum of f over the first n cells of the grid x *)
Definition left_sum (f : R -> R) (x : nat -> R) (n : nat) : R := total n (fun i => f (x i) * (x (S i) - x i)).

(* v is the discounted integral of the payoff against the series, per unit of strike times the strike *)
Definition discounted_payoff (p : params) (z : nat -> C) (a b S0 : R) (N : nat) (call : bool) (K v : R) : Prop :=
  is_RInt (fun y => K * exp (- p_r p * p_tau p) * (payoff call y * series z a b (ln (S0 / K)) N y)) a b v.
