(* SABR lognormal volatilities in exact reals, after Hagan, Kumar, Lesniewski and Woodward (2002), equations (2.17) and (2.18); forwards and strikes already shifted *)
From Coq Require Import Reals List.
From Verif Require Import Base NormalModel SabrModel.
Import ListNotations.
Open Scope R_scope.

(* the correction for time *)
Definition hagan_time (tau f alpha beta rho nu k : R) : R :=
  1 + tau * ((1 - beta) ^ 2 * alpha ^ 2 / (24 * Rpower (f * k) (1 - beta))
             + rho * beta * nu * alpha / (4 * Rpower (f * k) ((1 - beta) / 2))
             + (2 - 3 * rho ^ 2) / 24 * nu ^ 2).
Definition hagan_z (f alpha beta nu k : R) : R := nu / alpha * Rpower (f * k) ((1 - beta) / 2) * (ln f - ln k).
Definition hagan_x (rho z : R) : R := ln ((sqrt (1 - 2 * rho * z + z ^ 2) + z - rho) / (1 - rho)).
(* (2.17) *)
Definition hagan_vol (tau f alpha beta rho nu k : R) : R :=
  let z := hagan_z f alpha beta nu k in
  alpha / (Rpower (f * k) ((1 - beta) / 2) * (1 + (1 - beta) ^ 2 / 24 * (ln f - ln k) ^ 2 + (1 - beta) ^ 4 / 1920 * (ln f - ln k) ^ 4))
  * (z / hagan_x rho z) * hagan_time tau f alpha beta rho nu k.
(* (2.18), at the money *)
Definition hagan_atm (tau f alpha beta rho nu : R) : R :=
  alpha / Rpower f (1 - beta)
  * (1 + tau * ((1 - beta) ^ 2 * alpha ^ 2 / (24 * Rpower f (2 - 2 * beta)) + rho * beta * nu * alpha / (4 * Rpower f (1 - beta)) + (2 - 3 * rho ^ 2) / 24 * nu ^ 2)).

(* the volatility for one smile and one strike *)
Definition sabr_vol_is (tau F alpha beta rho nu K shift : R) (y : R) : Prop :=
  calc_sln_vol (smile1 tau F alpha beta rho nu) [K] [shift] = Ok [Fin y].

(* the coefficients passed to the polynomial solver are those of (2.18) times a power of the forward, and its real answers are exactly the real roots *)
Definition exact_at (roots : solver) (a b c d : R) : Prop := forall x : R, In (x, 0) (roots a b c d) <-> a * x ^ 3 + b * x ^ 2 + c * x + d = 0.
Definition exact_solver (roots : solver) : Prop :=
  (forall a b c d : R, ~ (a = 0 /\ b = 0 /\ c = 0) -> exact_at roots a b c d) /\ (forall d : R, roots 0 0 0 d = []).
(* tau, F, alpha, beta, rho and volvol of one length *)
Definition smile_ok (s : smile) (n : nat) : Prop :=
  length (s_tau s) = n /\ length (s_F s) = n /\ length (s_alpha s) = n /\ length (s_beta s) = n /\ length (s_rho s) = n /\ length (s_volvol s) = n.
(* the strikes taken for at the money by a fit *)
Definition near (F k : R) : Prop := Rabs (k - F) <= / 100000000 + / 100000 * Rabs F.

(* a search that never reports success, whatever the objective values are *)
Inductive never_successful : fit_search -> Prop :=
| never_end (x : list R) : never_successful (FitEnd false x)
| never_probe (x : list R) (k : num -> fit_search) : (forall y, never_successful (k y)) -> never_successful (FitProbe x k).
