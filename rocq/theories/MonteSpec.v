(* Finite sums, sample moments, Cholesky factors and the closed forms of the simulated paths *)
From Coq Require Import ZArith Reals List.
From Verif Require Import Base NormalModel MonteModel.
Import ListNotations.
Open Scope R_scope.

(* f 0 + ... + f (n - 1) *)
Definition total (n : nat) (f : nat -> R) : R := fold_right Rplus 0 (map f (seq 0 n)).

(* what generate_rand_nbs accepts *)
Definition drawable (steps vars sims : Z) (antithetic : bool) (seed : Z) : Prop :=
  (0 <= seed < 4294967296 /\ 1 <= steps /\ 1 <= vars /\ 1 <= sims /\ steps * sims <= 100000000 /\ (antithetic = true -> 2 <= sims))%Z.

(* L is the Cholesky factor of the n by n matrix C *)
Definition is_cholesky (n : nat) (C L : mat R) : Prop :=
  nr L = n /\ nc L = n
  /\ (forall i j : nat, (i < j < n)%nat -> me L i j = 0)
  /\ (forall i : nat, (i < n)%nat -> 0 < me L i i)
  /\ (forall i j : nat, (i < n)%nat -> (j < n)%nat -> total n (fun k => me L i k * me L j k) = me C i j).
(* the factorisation of C is right *)
Definition factors (cholesky : factorisation) (n : nat) (C : mat R) : Prop := exists L : mat R, cholesky C = Ok L /\ is_cholesky n C L.
(* sum of products of columns u and w over the samples *)
Definition moment (r : mat R) (u w : nat) : R := total (nr r) (fun s => me r s u * me r s w).
(* n columns with unit second moments and no correlation *)
Definition standard (n : nat) (r : mat R) : Prop :=
  nc r = n /\ forall u w : nat, (u < n)%nat -> (w < n)%nat -> moment r u w = if Nat.eqb u w then INR (nr r) else 0.
Definition correlation2 (rho : R) : mat R := mk_mat 2 2 (fun i j => if Nat.eqb i j then 1 else rho).

(* logarithm of the growth of a GBM path over the first t steps *)
Definition gbm_log (drift vol dt z : nat -> R) (t : nat) : R :=
  total t (fun i => (drift i - vol i ^ 2 / 2) * dt i + vol i * sqrt (dt i) * z i).

(* logarithm of spot over forward after i steps of the Clewlow-Strickland recursion *)
Definition cs_deviation (dt alpha sigma : R) (z : nat -> R) (i : nat) : R :=
  total i (fun m => (1 - alpha * dt) ^ (i - 1 - m) * (sigma * sqrt dt * z m - sigma ^ 2 / 4 * (1 + exp (-2 * alpha * (INR m * dt))) * dt)).
(* the number of simulations per loop for the given number of steps *)
Definition chunk (sims steps per : nat) : Prop :=
  (1 <= per <= sims)%nat /\ (Z.of_nat (per * steps) <= 100000000)%Z /\ (per = sims \/ (100000000 < Z.of_nat ((per + 1) * steps))%Z).
(* the forward curve is F, positive, at the grid points *)
Definition curve_on (curve : R -> result R) (F : nat -> R) (seg steps : nat) : Prop := forall i : nat, (i <= steps)%nat -> curve (INR i / INR seg) = Ok (F i) /\ 0 < F i.
(* what clewlow_strickland_1_factor_simulate accepts *)
Definition simulable (curve : R -> result R) (sims seg T : nat) : Prop :=
  (1 <= seg)%nat /\ (1 <= T)%nat /\ (1 <= sims)%nat /\ (Z.of_nat (T * seg) <= 100000000)%Z
  /\ (forall i : nat, (i <= T * seg)%nat -> exists F : R, curve (INR i / INR seg) = Ok F)
  /\ (forall per : nat, chunk sims (T * seg) per -> (Z.of_nat sims <= 4294967296 * Z.of_nat per)%Z).
