(* No-arbitrage relations between prices of different strikes, expiries and models. *)
From Coq Require Import Reals List.
From Verif Require Import Base NormalModel BlackModel BlackSpec GkModel GkSpec MeanSpec.
Open Scope R_scope.

(* a spread of two strikes: dearer on the side nearer the money, by less than the strikes' distance *)
Definition vertical_spreads (price : R -> num) (strike : R -> Prop) (cp A : R) : Prop :=
  forall K1 K2, strike K1 -> strike K2 -> K1 < K2 -> exists p1 p2, price K1 = Fin p1 /\ price K2 = Fin p2 /\ 0 < cp * (p1 - p2) < A * (K2 - K1).
(* a butterfly costs something *)
Definition butterflies (price : R -> num) (strike : R -> Prop) : Prop :=
  forall K1 K2 K3, strike K1 -> strike K2 -> strike K3 -> K1 < K2 -> K2 < K3 ->
  exists p1 p2 p3, price K1 = Fin p1 /\ price K2 = Fin p2 /\ price K3 = Fin p3 /\ (K3 - K1) * p2 < (K3 - K2) * p1 + (K2 - K1) * p3.
(* 1 when the option ends in the money *)
Definition exercised (cp X K : R) : R := if Rlt_dec 0 (cp * (X - K)) then 1 else 0.
(* X is the terminal value as a function of a standard normal variable. q k is the probability of exercise at strike k, P k that of ending below k and dens its
   density: the price falls (calls) or rises (puts) in the strike by A times the former, and its second derivative is A times the latter *)
Definition implied_distribution (price : R -> num) (X : R -> R) (strike : R -> Prop) (cp A : R) : Prop :=
  exists q P dens, forall k, strike k ->
    expected (fun z => exercised cp (X z) k) (q k) /\ expected (fun z => exercised (-1) (X z) k) (P k) /\ derivative price k (- cp * A * q k) /\
    0 < dens k /\ derivable_pt_lim P k (dens k) /\ derivable_pt_lim (fun x => - cp * A * q x) k (A * dens k).
(* limits from the right, and at infinity *)
Definition tends_right (f : R -> num) (x l : R) : Prop := forall e, 0 < e -> exists d, 0 < d /\ forall y, x < y -> y < x + d -> exists p, f y = Fin p /\ Rabs (p - l) < e.
Definition tends_up (f : R -> num) (l : R) : Prop := forall e, 0 < e -> exists M, forall y, M < y -> exists p, f y = Fin p /\ Rabs (p - l) < e.
Definition diverges_up (f : R -> num) : Prop := forall M, exists v, forall y, v < y -> exists p, f y = Fin p /\ M < p.
(* a distribution of terminal values *)
Definition normal_value (F v z : R) : R := F + v * z.
Definition lognormal_value (F v z : R) : R := F * exp (v * z - v ^ 2 / 2).
(* the domestic rate in force, and the market forward seen from the other side *)
Definition domestic_rate (S tau rd rf : R) (F : option R) : R := match F with Some f => ln (f / S) / tau + rf | None => rd end.
Definition inverse_forward (F : option R) : option R := match F with Some f => Some (/ f) | None => None end.
