(* Moments of the state and of the discount factors along a grid, and curves *)
From Coq Require Import ZArith Reals.
From Coquelicot Require Import Coquelicot.
From Verif Require Import Base MonteSpec HwSpec.
Open Scope R_scope.

(* variance of the state at t, covariance of the states at s and t *)
Definition state_variance (k vol t : R) : R := vol ^ 2 / (2 * k) * (1 - exp (-2 * k * t)).
Definition state_covariance (k vol s t : R) : R := exp (- k * Rabs (t - s)) * state_variance k vol (Rmin s t).
(* the periods after the first: f at the end times the length *)
Definition later_sum (t : nat -> R) (n : nat) (f : R -> R) : R := total (Nat.pred n) (fun i => (t (S (S i)) - t (S i)) * f (t (S (S i)))).
(* covariance of the last state with the sum the discount factor is made of, and logarithm of the expected discount factor *)
Definition grid_covariance (k vol : R) (t : nat -> R) (n : nat) : R := later_sum t n (fun s => state_covariance k vol s (t n)).
Definition grid_log_discount (fwd : R -> R) (k vol : R) (t : nat -> R) (n : nat) : R :=
  - later_sum t n (fun s => fwd s + x_mean k vol s) + later_sum t n (fun s => later_sum t n (fun u => state_covariance k vol s u)) / 2.

(* discount factors of a curve with continuous instantaneous forward rates *)
Definition smooth_curve (df fwd : R -> R) : Prop := df 0 = 1 /\ forall t, 0 < df t /\ is_derive (fun s => - ln (df s)) t (fwd t) /\ continuous fwd t.

Definition option_sign (is_call : bool) : R := if is_call then 1 else -1.
