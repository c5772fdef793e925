(* The SABR smile without volatility of volatility (property C156); forwards and strikes already shifted *)
From Coq Require Import Reals.
Open Scope R_scope.

(* Hagan and Woodward's volatility for the constant elasticity model dF = alpha F^beta dW *)
Definition cev_time (tau f alpha beta k : R) : R := 1 + tau * ((1 - beta) ^ 2 * alpha ^ 2 / (24 * Rpower (f * k) (1 - beta))).
Definition cev_level (f alpha beta k : R) : R := alpha / Rpower (f * k) ((1 - beta) / 2).
Definition cev_skew (f beta k : R) : R := 1 + (1 - beta) ^ 2 / 24 * (ln f - ln k) ^ 2 + (1 - beta) ^ 4 / 1920 * (ln f - ln k) ^ 4.
Definition cev_vol (tau f alpha beta k : R) : R := cev_level f alpha beta k / cev_skew f beta k * cev_time tau f alpha beta k.
