(* What users rely on for the rates of a row of an FX volatility surface. *)
From Coq Require Import ZArith Reals List.
From Verif Require Import Base Date DayCountModel CompModel CurveModel CurveSpec FxModel FxSpec PillarModel.

(* r is the continuous zero rate the curve gives for the day alone *)
Definition zero_rate_at (z : zero_curve) (d : date) (r : option R) : Prop := get_zero_rates z Continuous (Some (Scalar (Some d))) None None = Ok (Scalar r).
Definition own_rates (forwards : list (date * option R)) (domestic foreign : zero_curve) (d : date) (row : option R * (option R * option R)) : Prop :=
  interpolated forwards true d (fst row) /\ zero_rate_at domestic d (fst (snd row)) /\ zero_rate_at foreign d (snd (snd row)).
