(* Vocabulary for business day properties. *)
From Coq Require Import ZArith String List Bool.
From Verif Require Import Base Date BusDayModel.
Import ListNotations.
Open Scope Z_scope.

(* A calendar numpy accepts: at least one weekday is a working day. *)
Definition wf_calendar (c : calendar) : Prop := exists w, 0 <= w <= 6 /\ nth (Z.to_nat w) (weekmask c) false = true.

(* A business day: a working weekday that is not a holiday. *)
Definition business_day (c : calendar) (d : date) : Prop := working_weekday c d = true /\ ~ In d (holidays c).

(* r is the nearest business day at or after d (at or before d). *)
Definition first_on_or_after (c : calendar) (d r : date) : Prop :=
  business_day c r /\ d <= r /\ forall x, d <= x < r -> ~ business_day c x.
Definition last_on_or_before (c : calendar) (d r : date) : Prop :=
  business_day c r /\ r <= d /\ forall x, r < x <= d -> ~ business_day c x.

(* The days a+1, ..., b and how many of them are business days. *)
Definition days_after (a b : date) : list date := map (fun i => a + 1 + Z.of_nat i) (seq 0 (Z.to_nat (b - a))).
Definition business_days_between (c : calendar) (a b : date) : nat := List.length (filter (is_busday c) (days_after a b)).

(* A holiday object (location or currency) is open on d. *)
Definition open_in (o : holiday_object) (d : date) : Prop := ~ In (weekday d) (weekend o) /\ ~ In d (holiday_dates o).

(* The holiday object registered for a key, case-insensitively; currencies take precedence over locations. *)
Definition member_calendar (ccy loc : string -> option holiday_object) (k : string) (o : holiday_object) : Prop :=
  ccy (upper k) = Some o \/ (ccy (upper k) = None /\ loc (upper k) = Some o).
