(* Vocabulary for the Heston characteristic function *)
From Coq Require Import Reals.
From Coquelicot Require Import Coquelicot.
From Verif Require Import ChfModel MonteModel MonteSpec.
Open Scope R_scope.

(* parameters after the market price of volatility risk is absorbed *)
Definition with_risk (p : params) (lambda_ : R) : params :=
  mk_params (p_tau p) (p_r p) (p_q p) (p_var0 p) (p_vv p) (p_kappa p + lambda_) (p_kappa p * p_theta p / (p_kappa p + lambda_)) (p_rho p).
Definition with_tau (p : params) (t : R) : params :=
  mk_params t (p_r p) (p_q p) (p_var0 p) (p_vv p) (p_kappa p) (p_theta p) (p_rho p).

(* derivative of a complex function of time *)
Definition derives (f : R -> C) (t : R) (l : C) : Prop :=
  is_derive (fun s : R => fst (f s)) t (fst l) /\ is_derive (fun s : R => snd (f s)) t (snd l).
(* Heston's equations: dS = (r - q) S dt + sqrt(v) S dW1, dv = kappa (theta - v) dt + vv sqrt(v) dW2, d<W1, W2> = rho dt, and
   E exp(i u log(S_t / S_0)) = exp(i u (r - q) t + A(t) + var0 B(t)) *)
Definition riccati (p : params) (u : C) (A B : R -> C) : Prop :=
  A 0 = RtoC 0 /\ B 0 = RtoC 0 /\
  forall t : R, 0 <= t ->
    derives B t ((p_vv p ^ 2 / 2)%R * B t * B t - (p_kappa p - Ci * p_rho p * p_vv p * u) * B t - (1 / 2)%R * (u * u + Ci * u))%C
    /\ derives A t ((p_kappa p * p_theta p)%R * B t)%C.

(* parameters for which the exponent stays clear of the branch cut *)
Definition regular (p : params) : Prop := 0 < p_kappa p /\ 0 < p_vv p /\ -1 <= p_rho p <= 1 /\ p_rho p * p_vv p <= 2 * p_kappa p.

(* the complex arguments for which it does so: u = x - i y, with the variance mean reverting under the measure exp(y X) *)
Definition strip (p : params) (u : C) : Prop :=
  let y := - snd u in
  let k := p_kappa p - p_rho p * p_vv p * y in
  0 < p_vv p /\ -1 <= p_rho p <= 1 /\ p_rho p * p_vv p <= 2 * p_kappa p /\ 0 < k /\ p_vv p ^ 2 * (y ^ 2 - y) < k ^ 2.

(* Simpson's rule with unit spacing over the points 0 .. 2 h *)
Definition simpson (h : nat) (f : nat -> R) : R := total h (fun i => (f (2 * i)%nat + 4 * f (2 * i + 1)%nat + f (2 * i + 2)%nat) / 3).

(* what Lewis and Lipton integrate: the characteristic function of the log return on the line Im = -1/2 *)
Definition lipton_target (p : params) (S0 K v : R) : option R :=
  match chf_fang p (- v - (1 / 2)%R * Ci)%C with
  | Some z => Some (Re (cexp (((1 / 2)%R - Ci * v) * ln (S0 / K)) * z)%C / (v ^ 2 + 1 / 4))
  | None => None
  end.
Definition with_var0 (p : params) (x : R) : params :=
  mk_params (p_tau p) (p_r p) (p_q p) x (p_vv p) (p_kappa p) (p_theta p) (p_rho p).
