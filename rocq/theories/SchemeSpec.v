(* What is claimed about the programs of SchemeModel. *)
From Coq Require Import ZArith Reals List Bool.
From Coquelicot Require Import Coquelicot.
From Verif Require Import Base NormalModel MonteModel MeanSpec HwModel SchemeModel.
Import ListNotations.
Open Scope R_scope.

(* growth of the price over one step of length h, when the number is r *)
Definition exact_growth (mu sigma h r : R) : R := exp ((mu - sigma ^ 2 / 2) * h + sigma * sqrt h * r).
Definition euler_growth (mu sigma h r : R) : R := 1 + mu * h + sigma * sqrt h * r.
Definition milstein_growth (mu sigma h r : R) : R := 1 + mu * h + sigma * sqrt h * r + sigma ^ 2 * h * (r ^ 2 - 1) / 2.
Definition second_growth (mu sigma h r : R) : R := milstein_growth mu sigma h r + mu * h * (sigma * sqrt h) * r + (mu * h) ^ 2 / 2.
Definition growth (method : Z) : option (R -> R -> R -> R -> R) :=
  match method with 0%Z => Some exact_growth | 1%Z => Some euler_growth | 2%Z => Some milstein_growth | 3%Z => Some second_growth | _ => None end.
Fixpoint product (l : list R) : R := match l with [] => 1 | a :: r => a * product r end.

(* g is the value after k of n steps as a function of the numbers *)
Definition path_value (x0 mu sigma T dt : R) (method : Z) (n k : nat) (g : (nat -> R) -> R) : Prop :=
  forall w, exists l, simulate_gbm x0 mu sigma T dt (map w (seq 0 n)) method = Ok l /\ nth_error l k = Some (g w).

(* mean, second moment, and product with the exact growth, of one step *)
Definition mean_growth (method : Z) (mu sigma h : R) : R :=
  match method with 0%Z => exp (mu * h) | 3%Z => 1 + mu * h + (mu * h) ^ 2 / 2 | _ => 1 + mu * h end.
Definition square_growth (method : Z) (mu sigma h : R) : R :=
  match method with
  | 0%Z => exp ((2 * mu + sigma ^ 2) * h)
  | 1%Z => (1 + mu * h) ^ 2 + sigma ^ 2 * h
  | 2%Z => (1 + mu * h) ^ 2 + sigma ^ 2 * h + (sigma ^ 2 * h) ^ 2 / 2
  | _ => (1 + mu * h + (mu * h) ^ 2 / 2) ^ 2 + sigma ^ 2 * h * (1 + mu * h) ^ 2 + (sigma ^ 2 * h) ^ 2 / 2
  end.
Definition cross_growth (method : Z) (mu sigma h : R) : R :=
  exp (mu * h) * match method with
                 | 0%Z => exp ((mu + sigma ^ 2) * h)
                 | 1%Z => 1 + mu * h + sigma ^ 2 * h
                 | 2%Z => 1 + mu * h + sigma ^ 2 * h + (sigma ^ 2 * h) ^ 2 / 2
                 | _ => 1 + mu * h + (mu * h) ^ 2 / 2 + sigma ^ 2 * h * (1 + mu * h) + (sigma ^ 2 * h) ^ 2 / 2
                 end.
(* every number gives positive growth *)
Definition keeps_positive (method : Z) (mu sigma h : R) : Prop :=
  match method with
  | 0%Z => True
  | 1%Z => sigma = 0 /\ 0 < 1 + mu * h
  | 2%Z => (sigma = 0 /\ 0 < 1 + mu * h) \/ (sigma <> 0 /\ sigma ^ 2 * h < 1 + 2 * (mu * h))
  | _ => sigma ^ 2 * h < 1
  end.
(* errors at the horizon with n steps of length T/n: of the mean, and the mean squared distance to the exact solution on the same numbers *)
Definition mean_error (x0 mu sigma T : R) (method : Z) (e : nat -> R) : Prop :=
  forall n, (0 < n)%nat -> exists g, path_value x0 mu sigma T (T / INR n) method n n g /\ expected_n n g (x0 * exp (mu * T) + e n).
Definition square_error (x0 mu sigma T : R) (method : Z) (e : nat -> R) : Prop :=
  forall n, (0 < n)%nat -> exists g0 g, path_value x0 mu sigma T (T / INR n) 0 n n g0 /\ path_value x0 mu sigma T (T / INR n) method n n g /\ expected_n n (fun w => (g0 w - g w) ^ 2) (e n).
