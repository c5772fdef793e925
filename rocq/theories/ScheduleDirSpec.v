(* Vocabulary for schedules whose term is a whole number of periods (property C155). *)
From Coq Require Import ZArith List Bool.
From Verif Require Import Base Date BusDayModel BusDaySpec ScheduleModel ScheduleSpec.
Import ListNotations.
Open Scope Z_scope.

(* counting calendar months only, e is n periods of m months after s *)
Definition months_apart (m : Z) (n : nat) (s e : date) : Prop := (1 <= n)%nat /\ month_index e = month_index s + m * Z.of_nat n.
(* the boundaries have a day of their own, or s and e are on the same day of the month *)
Definition same_days (dr : day_roll) (s e : date) : Prop := dr <> DayUnadjusted \/ day s = day e.
(* where a date goes: to the roll day of its month, then to a business day *)
Definition settles (c : calendar) (rc : roll_conv) (dr : day_roll) (x z : date) : Prop := exists y, on_roll_day dr x y /\ roll c rc y = Ok z.
(* the dates xs are the boundaries 1, 2, ... counted from s *)
Definition boundaries_from (c : calendar) (rc : roll_conv) (dr : day_roll) (f : freq) (s : date) (xs : list date) : Prop :=
  forall k d, nth_error xs k = Some d -> boundary c rc dr f s (Z.of_nat k + 1) d.
Definition kept (b : bool) (z : date) : list date := if b then [z] else [].
(* the first and last dates of the schedule *)
Definition rolled_ends (c : calendar) (rc : roll_conv) (ru : bool) (s e s' e' : date) : Prop :=
  if ru then roll c rc s = Ok s' /\ roll c rc e = Ok e' else s' = s /\ e' = e.
