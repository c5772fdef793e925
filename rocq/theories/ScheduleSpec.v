(* Vocabulary for schedule properties. *)
From Coq Require Import ZArith QArith List Bool Sorted.
From Verif Require Import Base Date BusDayModel BusDaySpec DayCountModel DayCountSpec ScheduleModel.
Import ListNotations.
Open Scope Z_scope.

(* The periods run from a to b through the interior boundaries mid, each ending where the next one starts. *)
Definition runs_through (p : schedule) (a : date) (mid : list date) (b : date) : Prop :=
  p = (a :: mid, mid ++ [b]).

(* Months in one period, for the frequencies made of whole months. *)
Definition months_of (f : freq) : option Z :=
  match f with Monthly => Some 1 | Quarterly => Some 3 | SemiAnnual => Some 6 | Annual => Some 12 | _ => None end.
(* Days in one period, for the others. *)
Definition days_of (f : freq) : option Z :=
  match f with Daily => Some 1 | Weekly => Some 7 | Days28 => Some 28 | _ => None end.
(* A lower bound in days for the length of one period. *)
Definition least_days (f : freq) : Z :=
  match days_of f, months_of f with Some n, _ => n | None, Some m => 28 * m | None, None => 1 end.

(* x is i periods of frequency f after (before, when i is negative) the anchor, counted from the anchor in one go:
   a whole number of days, or the same day of the month (or the last day, if the month is too short). *)
Definition periods_from (f : freq) (anchor : date) (i : Z) (x : date) : Prop :=
  match days_of f, months_of f with
  | Some n, _ => x = anchor + n * i
  | None, Some m => month_index x = month_index anchor + m * i /\ day x = Z.min (day anchor) (days_in_month (year x) (month x))
  | None, None => False
  end.

(* The day-of-month adjustment: y is in the month of x, on the requested day or on the last day if there is none. *)
Definition on_roll_day (r : day_roll) (x y : date) : Prop :=
  match r with
  | DayUnadjusted => y = x
  | RollDay n => month_index y = month_index x /\ day y = Z.min n (days_in_month (year x) (month x))
  | RollEOM => month_index y = month_index x /\ day y = days_in_month (year x) (month x)
  end.
Definition valid_day_roll (r : day_roll) : Prop := match r with RollDay n => 1 <= n <= 31 | _ => True end.

(* z is the i-th boundary generated from the anchor: i periods from it, moved to the roll day, then rolled to a business day. *)
Definition boundary (c : calendar) (rc : roll_conv) (dr : day_roll) (f : freq) (anchor : date) (i : Z) (z : date) : Prop :=
  exists x y, periods_from f anchor i x /\ on_roll_day dr x y /\ roll c rc y = Ok z.

(* Every calendar month has a business day. *)
Definition business_day_every_month (c : calendar) : Prop :=
  forall d, exists x, business_day c x /\ month_index x = month_index d.

Definition modified (rc : roll_conv) : Prop := rc = ModFollowing \/ rc = ModPreceding.

Definition strictly_increasing : list date -> Prop := StronglySorted Z.lt.
Definition nondecreasing : list date -> Prop := StronglySorted Z.le.

(* The frame of a schedule without missing dates. *)
Definition rows_of (p : schedule) : period_rows := combine (map Some (fst p)) (map Some (snd p)).

Definition sum_Z (l : list Z) : Z := fold_right Z.add 0 l.
Definition sum_Q (l : list Q) : Q := fold_right Qplus 0%Q l.

(* interior boundaries, listed in calendar order: forward i = 1..n from s, backward i = n..1 from e *)
Definition interior_spec (c : calendar) (rc : roll_conv) (dr : day_roll) (f : freq) (dir : direction) (s e : date) (mid : list date) : Prop :=
  match dir with
  | Forward =>
      (forall k d, nth_error mid k = Some d -> boundary c rc dr f s (Z.of_nat k + 1) d /\ d < e) /\
      exists d, boundary c rc dr f s (Z.of_nat (length mid) + 1) d /\ e <= d
  | Backward =>
      (forall k d, nth_error (rev mid) k = Some d -> boundary c rc dr f e (- (Z.of_nat k + 1)) d /\ s < d) /\
      exists d, boundary c rc dr f e (- (Z.of_nat (length mid) + 1)) d /\ d <= s
  end.

(* f moves by whole months, or the day of the month is left alone *)
Definition plain (f : freq) (dr : day_roll) : Prop := dr = DayUnadjusted \/ exists m, months_of f = Some m.

(* The rolled boundaries never leave the span on the side of the anchor. *)
Definition keeps_side (c : calendar) (rc : roll_conv) (dr : day_roll) (f : freq) (dir : direction) : Prop :=
  match dir with
  | Forward => (dr = DayUnadjusted /\ rc = Following) \/ (modified rc /\ business_day_every_month c /\ exists m, months_of f = Some m)
  | Backward => (dr = DayUnadjusted /\ rc = Preceding) \/ (modified rc /\ business_day_every_month c /\ exists m, months_of f = Some m)
  end.

(* The bases whose counts add up over consecutive periods. *)
Definition additive_basis (bs : basis) : Prop := is_act bs \/ bs = B30E_360.

(* the date a payment is counted from *)
Definition pay_from (t : timing) (row : option date * option date) : option date :=
  match t with InAdvance => fst row | _ => snd row end.

Definition spans (p : schedule) (a b : date) : Prop := exists mid, runs_through p a mid b.

(* The stub settings (no user dates): which generation and merge they select. *)
Inductive stub_choice : Set := UseBackward | UseBackwardMerged | UseForward | UseForwardMerged | Refused (x : exn).

Definition choice_of (fs ls : stub) : stub_choice :=
  match fs, ls with
  | StubDefinedFirst, _ => Refused AssertionError
  | _, StubDefinedLast => Refused AssertionError
  | StubDefault, StubDefault | StubDefault, StubNone => UseBackward
  | StubDefault, StubLong => UseForwardMerged
  | StubDefault, _ => UseForward
  | StubLong, StubDefault => UseBackwardMerged
  | _, StubDefault => UseBackward
  | _, _ => Refused ValueError
  end.

Definition merge_first_spec (p : schedule) : result schedule :=
  match p with (a :: _ :: t, _ :: u) => Ok (a :: t, u) | _ => Err ValueError end.
Definition merge_last_spec (p : schedule) : result schedule :=
  match rev (fst p), rev (snd p) with _ :: t, b :: _ :: u => Ok (rev t, rev (b :: u)) | _, _ => Err ValueError end.
