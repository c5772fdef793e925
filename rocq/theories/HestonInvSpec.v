(* Vocabulary: quadratures that are exact, a deterministic asset, discounted intrinsic values *)
From Coq Require Import Reals.
From Coquelicot Require Import Coquelicot.
From Verif Require Import ChfModel ChfSpec.
Open Scope R_scope.

(* the quadrature finds every convergent integral over the positive half line; nothing is assumed of the integrand at 0 *)
Definition exact_quad (quad : quadrature) : Prop :=
  forall (f : R -> option R) (g : R -> R) (l : R), (forall x : R, 0 < x -> f x = Some (g x)) -> is_RInt_gen g (at_right 0) (Rbar_locally p_infty) l -> quad f = Some l.
(* the variance starts at zero and reverts to zero: it stays there *)
Definition no_variance (p : params) : Prop := p_var0 p = 0 /\ p_theta p = 0.
(* mean reverting under the pricing and under the share measure *)
Definition steady (p : params) : Prop := regular p /\ p_rho p * p_vv p < p_kappa p /\ 0 <= p_tau p.
Definition intrinsic (p : params) (S0 cp K : R) : R := exp (- p_r p * p_tau p) * Rmax 0 (cp * (S0 * exp ((p_r p - p_q p) * p_tau p) - K)).
