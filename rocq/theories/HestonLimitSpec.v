(* Vocabulary for Heston's model with a vanishing volatility of variance *)
From Coq Require Import Reals.
From Coquelicot Require Import Coquelicot.
From Verif Require Import ChfModel.
Open Scope R_scope.

Definition with_vv (p : params) (eta : R) : params :=
  mk_params (p_tau p) (p_r p) (p_q p) (p_var0 p) eta (p_kappa p) (p_theta p) (p_rho p).
(* f is defined near zero from the right and tends to l there *)
Definition tends_at_zero (f : R -> option C) (l : C) : Prop :=
  forall eps : R, 0 < eps -> exists delta : R, 0 < delta /\ forall eta : R, 0 < eta < delta -> exists z : C, f eta = Some z /\ Cmod (z - l)%C < eps.
(* the variance when it does not move at random: dv = kappa (theta - v) dt *)
Definition variance_path (p : params) (v : R -> R) : Prop :=
  v 0 = p_var0 p /\ forall t : R, 0 <= t -> is_derive v t (p_kappa p * (p_theta p - v t)).
(* E exp(i u X) for a normal X with mean m - V/2 and variance V *)
Definition lognormal_chf (m V : R) (u : C) : C := cexp (Ci * u * m - (u * u + Ci * u) * (V / 2)%R)%C.
