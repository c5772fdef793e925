(* Proleptic Gregorian calendar.
   Models the date values used throughout /repo (pandas Timestamp, numpy datetime64[D], datetime.date): a date is an
   integer number of days; year/month/day are derived from it.
   Simplifications: the time of day is dropped, years are unbounded (pandas restricts them to 1677..2262, datetime to 1..9999),
   time zones do not occur. *)
From Coq Require Import ZArith Bool Lia List.
From Coq Require Import ZifyBool.
Open Scope Z_scope.

(* Ordinal day number as in Python's datetime.date.toordinal: 1 January of year 1 has number 1. *)
Definition date := Z.
Bind Scope Z_scope with date.

(* calendar.isleap, used at frm/utils/daycount.py:146-147 *)
Definition is_leap (y : Z) : bool :=
  (y mod 4 =? 0) && (negb (y mod 100 =? 0) || (y mod 400 =? 0)).

(* Length of the year, frm/utils/daycount.py:146-147: 365 + isleap *)
Definition year_len (y : Z) : Z := if is_leap y then 366 else 365.

(* calendar.monthrange(y, m)[1], used at frm/utils/daycount.py:84 *)
Definition days_in_month (y m : Z) : Z :=
  if m =? 2 then (if is_leap y then 29 else 28)
  else if (m =? 4) || (m =? 6) || (m =? 9) || (m =? 11) then 30 else 31.

(* Days before 1 January of year y (datetime._days_before_year). *)
Definition days_before_year (y : Z) : Z :=
  let p := y - 1 in p * 365 + p / 4 - p / 100 + p / 400.

(* Days of year y before the first of month m (datetime._days_before_month). *)
Definition days_before_month (y m : Z) : Z :=
  let l := if is_leap y then 1 else 0 in
  if m <=? 1 then 0 else if m =? 2 then 31
  else if m =? 3 then 59 + l else if m =? 4 then 90 + l else if m =? 5 then 120 + l
  else if m =? 6 then 151 + l else if m =? 7 then 181 + l else if m =? 8 then 212 + l
  else if m =? 9 then 243 + l else if m =? 10 then 273 + l else if m =? 11 then 304 + l
  else 334 + l.

(* The date with the given year, month, day (datetime.datetime(y, m, d)); meaningful for valid components. *)
Definition mk (y m d : Z) : date := days_before_year y + days_before_month y m + d.

(* Timestamp.year: the year containing a day. The estimate is off by at most one either way. *)
Definition year (n : date) : Z :=
  let e := (400 * (n - 1)) / 146097 + 1 in
  if n <=? days_before_year e then e - 1
  else if days_before_year (e + 1) <? n then e + 1 else e.

(* Zero-based day of the year. *)
Definition day_of_year (n : date) : Z := n - days_before_year (year n) - 1.

(* Timestamp.month *)
Definition month (n : date) : Z :=
  let k := day_of_year n in
  let b := days_before_month (year n) in
  if k <? b 2 then 1 else if k <? b 3 then 2 else if k <? b 4 then 3 else if k <? b 5 then 4
  else if k <? b 6 then 5 else if k <? b 7 then 6 else if k <? b 8 then 7 else if k <? b 9 then 8
  else if k <? b 10 then 9 else if k <? b 11 then 10 else if k <? b 12 then 11 else 12.

(* Timestamp.day *)
Definition day (n : date) : Z := day_of_year n - days_before_month (year n) (month n) + 1.

(* datetime.date.weekday: Monday = 0 ... Sunday = 6 *)
Definition weekday (n : date) : Z := (n + 6) mod 7.

(* Months since year 0, the calendar month as a single number. *)
Definition month_index (n : date) : Z := 12 * year n + (month n - 1).

(* Timestamp + DateOffset(months=k) (dateutil.relativedelta): shift the month, clip the day to the month end.
   Used by frm/enums/utils.py:330-337,354-359 and frm/utils/tenor.py:63,66,71; years are 12 months. *)
Definition add_months (n : date) (k : Z) : date :=
  let mi := month_index n + k in
  let y := mi / 12 in
  let m := mi mod 12 + 1 in
  mk y m (Z.min (day n) (days_in_month y m)).

(* Timestamp + pd.offsets.MonthEnd(0), frm/utils/schedule.py:475 *)
Definition month_end (n : date) : date := mk (year n) (month n) (days_in_month (year n) (month n)).

(* Last day of its month. *)
Definition is_month_end (n : date) : bool := day n =? days_in_month (year n) (month n).

(* pandas.DateOffset(days, weeks, months, years), as constructed in /repo: a number of days and a number of months
   (weeks = 7 days, years = 12 months). frm/enums/utils.py:330-337, frm/utils/tenor.py:44-71 *)
Record date_offset := { off_days : Z; off_months : Z }.

(* Timestamp + DateOffset: dateutil applies the months (with clipping) first, then the days. *)
Definition add_offset (n : date) (o : date_offset) : date :=
  add_months n (off_months o) + off_days o.

(* Timestamp - DateOffset *)
Definition sub_offset (n : date) (o : date_offset) : date :=
  add_months n (- off_months o) - off_days o.
