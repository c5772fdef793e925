(* Expectations of functions of independent standard normal numbers *)
From Coq Require Import ZArith String Reals List.
From Coquelicot Require Import Coquelicot.
From Verif Require Import Base NormalModel MonteModel MonteSpec HwModel HwSpec.
Open Scope R_scope.

Definition bell (z : R) : R := exp (- z ^ 2 / 2) / sqrt (2 * PI).
(* the expectation of f(Z) exists and is m *)
Definition expected (f : R -> R) (m : R) : Prop := is_RInt_gen (fun z => f z * bell z) (Rbar_locally m_infty) (Rbar_locally p_infty) m.
(* first number z, then those of w *)
Definition followed_by (z : R) (w : nat -> R) (i : nat) : R := match i with O => z | Datatypes.S j => w j end.
(* the expectation over n numbers, the later ones integrated first; f looks at no more than n *)
Fixpoint expected_n (n : nat) (f : (nat -> R) -> R) (m : R) : Prop :=
  match n with
  | O => forall w, f w = m
  | Datatypes.S n => exists g, (forall z, expected_n n (fun w => f (followed_by z w)) (g z)) /\ expected g m
  end.

(* g is the value of the simulated price after t steps as a function of the random numbers of the simulation *)
Definition gbm_value (px : R) (drift vol dt : nat -> R) (n t : nat) (g : (nat -> R) -> R) : Prop :=
  forall (z : arr3 R) (s : nat), d0 z = n -> d1 z = 1%nat ->
  exists x, simulate_gbm_path (D0 px) (D1 n drift) (D1 n vol) (D1 n dt) z = Ok x /\ el x t 0%nat s = Fin (g (fun i => el z i 0%nat s)).
(* logarithm of the expected spot over the forward after i steps of the Clewlow-Strickland recursion *)
Definition cs_bias (dt alpha sigma : R) (i : nat) : R :=
  total i (fun m => (1 - alpha * dt) ^ (2 * m) * (sigma ^ 2 * dt / 2)) - total i (fun m => (1 - alpha * dt) ^ (i - 1 - m) * (sigma ^ 2 / 4 * (1 + exp (-2 * alpha * (INR m * dt))) * dt)).

(* what the random number k adds to the simulated short rate after i steps, and to its integral by the trapezoidal rule *)
Definition rate_weight (m : scheme) (alpha sigma h : R) (i k : nat) : R := if Nat.ltb k i then decay m alpha h ^ (i - 1 - k) * noise m alpha sigma h else 0.
Definition integral_weight (m : scheme) (alpha sigma h : R) (i k : nat) : R := total i (fun l => h / 2 * (rate_weight m alpha sigma h l k + rate_weight m alpha sigma h (Datatypes.S l) k)).
(* g is the entry picked from the simulation as a function of the random numbers of its path *)
Definition hw_value (quad : integrator) (r0 alpha sigma tau : R) (steps sims : Z) (anti : bool) (method : string) (pick : simulation -> nat -> R) (g : (nat -> R) -> R) : Prop :=
  forall (normal : normals) (seed : Z) (x : simulation), hw_simulate normal quad r0 alpha sigma tau steps sims anti seed method = Ok x ->
  exists a, generate_rand_nbs normal steps 1 sims anti seed = Ok a /\ forall j, (j < Z.to_nat sims)%nat -> pick x j = g (fun k => el a k 0%nat j).
