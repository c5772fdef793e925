(* Vocabulary for compounding conventions. *)
From Coq Require Import Reals.
From Verif Require Import CompModel.
Open Scope R_scope.

(* The rates for which a convention gives a positive accumulation factor over t years. *)
Definition valid_rate (f : comp) (t r : R) : Prop :=
  match periods_per_year f with
  | Some n => 0 < 1 + r / n
  | None => match f with Simple => 0 < 1 + r * t | _ => True end
  end.
(* ... and for which a conversion is defined: a simple rate is treated as one year's *)
Definition convertible (f : comp) (r : R) : Prop := valid_rate f 1 r.

(* Accumulation over t years as the textbook states it *)
Definition accumulation (f : comp) (t r : R) : R :=
  match periods_per_year f with
  | Some n => Rpower (1 + r / n) (n * t)
  | None => match f with Simple => 1 + r * t | _ => exp (r * t) end
  end.
