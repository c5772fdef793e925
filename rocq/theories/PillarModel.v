(* The forward and zero rates of the rows of an FX volatility surface.
   frm/term_structures/fx_volatility_surface.py:104-112 (_add_fx_ir_to_df). *)
From Coq Require Import ZArith Reals List Bool.
From Verif Require Import Base Date DayCountModel CompModel CurveModel FxModel.
Import ListNotations.

(* df[name] = array: the array must have as many elements as the frame has rows *)
Definition assign_column {A} (n : nat) (l : list A) : result (list A) := if Nat.eqb (length l) n then Ok l else Err ValueError.
(* [forwards]: the columns fixing_date (no missing dates) and fx_forward_rate of the forward curve; [expiries]: the column expiry_date.
   The columns fx_forward_rate, domestic_zero_rate and foreign_zero_rate. *)
Definition add_fx_ir (forwards : list (date * option R)) (domestic foreign : zero_curve) (expiries : list date) : result (list (option R * (option R * option R))) :=
  let n := length expiries in
  let* fx := interp_fx_forward_curve forwards expiries true in
  let* fx := assign_column n fx in
  let* rd := get_zero_rates domestic Continuous (Some (Vector (map Some expiries))) None None in
  let* rd := assign_column n (cells rd) in
  let* rf := get_zero_rates foreign Continuous (Some (Vector (map Some expiries))) None None in
  let* rf := assign_column n (cells rf) in
  Ok (combine fx (combine rd rf)).
