(* Vocabulary for the day count properties, independent of the code's formulas. *)
From Coq Require Import ZArith QArith List Bool.
From Verif Require Import Base Date DayCountModel.
Import ListNotations.
Open Scope Z_scope.

(* A civil date as written on paper, and the next day on the calendar. *)
Record civil := { cy : Z; cm : Z; cd : Z }.
Definition civil_valid (c : civil) : Prop :=
  1 <= cm c <= 12 /\ 1 <= cd c <= days_in_month (cy c) (cm c).
Definition next_day (c : civil) : civil :=
  if cd c <? days_in_month (cy c) (cm c) then {| cy := cy c; cm := cm c; cd := cd c + 1 |}
  else if cm c <? 12 then {| cy := cy c; cm := cm c + 1; cd := 1 |}
  else {| cy := cy c + 1; cm := 1; cd := 1 |}.
Fixpoint days_later (n : nat) (c : civil) : civil :=
  match n with O => c | S k => next_day (days_later k c) end.
Definition of_civil (c : civil) : date := mk (cy c) (cm c) (cd c).

(* Each calendar day is worth 1/(length of its year) years: the value of the n days starting at a. *)
Fixpoint days_in_years (a : date) (n : nat) : Q :=
  match n with
  | O => 0
  | S k => days_in_years a k + 1 / inject_Z (year_len (year (a + Z.of_nat k)%Z))
  end%Q.

(* The last day of February of its year. *)
Definition feb_end (d : date) : Prop :=
  month d = 2 /\ day d = if is_leap (year d) then 29 else 28.

(* The date is a month end or the day before in a 31-day month: day-of-month at least 30 / equal to 31. *)
Definition on_31 (d : date) : bool := day d =? 31.
Definition on_30_or_31 (d : date) : bool := 30 <=? day d.

(* The four bases that count actual days. *)
Definition is_act (b : basis) : Prop := b = ACT_360 \/ b = ACT_365 \/ b = ACT_ACT \/ b = ACT_366.

(* Somewhere in the two vectors an end date precedes its start date. *)
Definition bad_pair (s e : list date) : Prop :=
  exists i x y, nth_error s i = Some x /\ nth_error e i = Some y /\ y < x.
