(* What users rely on for option prices, stated without the pricing formulas. *)
From Coq Require Import Reals List Bool.
From Verif Require Import Base NormalModel BlackModel.
Import ListNotations.
Open Scope R_scope.

(* a call with scalar arguments and the single number it reports; NaN also stands for a call that raises *)
Definition scalar76 (F tau cp K vol shift annuity : R) : b76 := mk_b76 [F] [tau] [cp] [K] [vol] [shift] [annuity].
Definition scalar_n (F tau cp K vol annuity : R) : bach := mk_bach [F] [tau] [cp] [K] [vol] [annuity].
Definition the_price (r : result priced) : num := match r with Ok p => match p_price p with [x] => x | _ => NaN end | Err _ => NaN end.
Definition the_greek (k : nat) (r : result priced) : num :=
  match r with
  | Ok p => match p_analytical p with Some cols => match nth_error cols k with Some [x] => x | _ => NaN end | None => NaN end
  | Err _ => NaN
  end.
Definition the_bumped (k : nat) (r : result priced) : num :=
  match r with
  | Ok p => match p_numerical p with Some cols => match nth_error cols k with Some [x] => x | _ => NaN end | None => NaN end
  | Err _ => NaN
  end.
Definition price76 (F tau cp K vol shift annuity : R) : num := the_price (black76_price (scalar76 F tau cp K vol shift annuity) false false false).
Definition delta76 (F tau cp K vol shift annuity : R) : num := the_greek 0 (black76_price (scalar76 F tau cp K vol shift annuity) false true false).
Definition vega76 (F tau cp K vol shift annuity : R) : num := the_greek 1 (black76_price (scalar76 F tau cp K vol shift annuity) false true false).
Definition price_n (F tau cp K vol annuity : R) : num := the_price (bachelier_price (scalar_n F tau cp K vol annuity) false false false).
Definition delta_n (F tau cp K vol annuity : R) : num := the_greek 0 (bachelier_price (scalar_n F tau cp K vol annuity) false true false).
Definition vega_n (F tau cp K vol annuity : R) : num := the_greek 1 (bachelier_price (scalar_n F tau cp K vol annuity) false true false).
Definition theta_n (F tau cp K vol annuity : R) : num := the_greek 2 (bachelier_price (scalar_n F tau cp K vol annuity) false true false).

Definition call_or_put (cp : R) : Prop := cp = 1 \/ cp = -1.

(* f is finite near x and d is its derivative there *)
Definition derivative (f : R -> num) (x d : R) : Prop :=
  exists g : R -> R, (exists e, 0 < e /\ forall y, Rabs (y - x) < e -> f y = Fin (g y)) /\ derivable_pt_lim g x d.

(* x is used at position i when the array is broadcast *)
Definition used (l : list R) (i : nat) (x : R) : Prop := nth_error l i = Some x \/ l = [x].

(* arrays have length 1 or n, and some array has length n *)
Definition fits (lens : list nat) (n : nat) : Prop := Forall (fun m => m = 1%nat \/ m = n) lens /\ In n lens.
Definition lens76 (a : b76) : list nat :=
  [length (b_F a); length (b_tau a); length (b_cp a); length (b_K a); length (b_vol a); length (b_shift a); length (b_annuity a)].
Definition lens_n (a : bach) : list nat :=
  [length (n_F a); length (n_tau a); length (n_cp a); length (n_K a); length (n_vol a); length (n_annuity a)].
(* all arrays except cp *)
Definition uncp76 (a : b76) : list nat := [length (b_F a); length (b_tau a); length (b_K a); length (b_vol a); length (b_shift a); length (b_annuity a)].
Definition uncp_n (a : bach) : list nat := [length (n_F a); length (n_tau a); length (n_K a); length (n_vol a); length (n_annuity a)].

(* a price within one thousandth of a percent of the target *)
Definition close_to (target price : R) : Prop := Rabs (price - target) < Rabs target / 100000.

(* y is k times x; infinite and undefined numbers stay what they are *)
Definition scaled (k : R) (x y : num) : Prop :=
  match x, y with Fin a, Fin b => b = k * a | PInf, PInf | NInf, NInf | NaN, NaN => True | _, _ => False end.

(* the single element of results['intrinsic'] and results['time'] *)
Definition the_split (r : result priced) : option (num * num) :=
  match r with Ok p => match p_split p with Some ([x], [y]) => Some (x, y) | _ => None end | Err _ => None end.
Definition split76 (F tau cp K vol shift annuity : R) : option (num * num) :=
  the_split (black76_price (scalar76 F tau cp K vol shift annuity) true false false).
Definition split_n (F tau cp K vol annuity : R) : option (num * num) := the_split (bachelier_price (scalar_n F tau cp K vol annuity) true false false).

(* central difference of a price over [x - h, x + h], divided by w *)
Definition central (f : R -> num) (x h w : R) : num := div (sub (f (x + h)) (f (x - h))) (Fin w).
Definition bumped_delta76 (F tau cp K vol shift annuity : R) : num :=
  the_bumped 0 (black76_price (scalar76 F tau cp K vol shift annuity) false false true).
Definition bumped_vega76 (F tau cp K vol shift annuity : R) : num :=
  the_bumped 1 (black76_price (scalar76 F tau cp K vol shift annuity) false false true).

(* a minimiser that claims no success and reports a point with the value the objective had there *)
Fixpoint honest (seen : list (R * num)) (s : search min_outcome) : Prop :=
  match s with
  | Finish (Minimum x success y) => success = false /\ In (x, y) seen
  | Finish (MinRaises _) => True
  | Probe x k => forall y, honest ((x, y) :: seen) (k y)
  end.

(* a minimiser that reports a point at which it evaluated the objective *)
Fixpoint reports_evaluated (seen : list R) (s : search min_outcome) : Prop :=
  match s with
  | Finish (Minimum x _ _) => In x seen
  | Finish (MinRaises _) => True
  | Probe x k => forall y, reports_evaluated (x :: seen) (k y)
  end.
