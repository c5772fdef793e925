(* Simulated Heston paths as functions of a sequence of independent standard normal numbers *)
From Coq Require Import Reals String.
From Verif Require Import Base NormalModel MonteModel HestonSimModel.
Open Scope R_scope.

(* step i draws its variance number first and its spot number second *)
Definition paired (w : nat -> R) (i c : nat) : R := if Nat.eqb c 0 then w (2 * i + 1)%nat else w (2 * i)%nat.
(* g is entry (t, c) of the array simulated in n steps: c = 0 the spot, c = 1 the variance *)
Definition heston_value (cholesky : factorisation) (h : heston) (method : string) (n t c : nat) (g : (nat -> R) -> R) : Prop :=
  forall w, exists x, heston_simulate_scalar cholesky h method (mk_mat n 2 (paired w)) = Ok x /\ me x t c = Fin (g w).
(* the factor of the next variance in the exponent of the next spot, once the spot number has been averaged out *)
Definition exposure (h : heston) (dt : R) : R := h_rho h / h_vv h * (1 + h_kappa h * dt / 2) - h_rho h ^ 2 * dt / 4.
(* the part of the exponent known before the step *)
Definition known (h : heston) (dt v : R) : R :=
  - h_rho h * h_kappa h * h_theta h * dt / h_vv h - h_rho h / h_vv h * (1 - h_kappa h * dt / 2) * v - h_rho h ^ 2 * dt / 4 * v.
