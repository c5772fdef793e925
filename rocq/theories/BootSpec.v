(* Vocabulary for bootstrapping properties. *)
From Coq Require Import String Ascii ZArith QArith Qreals Reals List Bool.
From Verif Require Import Base Date BusDayModel BusDaySpec DayCountModel TenorModel TenorSpec NumModel CurveModel CurveSpec BootModel.
Import ListNotations.
Open Scope R_scope.

(* Bases under which a later day is strictly later in years. *)
Definition strict_basis (b : basis) : Prop := b = ACT_360 \/ b = ACT_365 \/ b = ACT_366 \/ b = ACT_ACT.

(* Deposits starting from the curve date on, of at least one day, with positive growth. *)
Definition sane_quotes (c : date) (qs : list cash_quote) : Prop :=
  forall q, In q qs -> (c <= k_eff q < k_mat q)%Z /\ 0 < 1 + k_rate q * k_tau q.

(* The quote of a result row *)
Definition quote_of (r : cash_row) : cash_quote :=
  {| k_delayed := b_delayed r; k_eff := b_eff r; k_mat := b_mat r; k_rate := b_rate r; k_tau := b_tau r |}.

(* Every delayed deposit starts on the day on which some deposit matures. *)
Definition chained (qs : list cash_quote) : Prop :=
  forall q, In q qs -> k_delayed q = true -> exists q', In q' qs /\ k_mat q' = k_eff q.

(* The two neighbouring knots used for t: those around t, or the outermost two on its side. *)
Definition bracket (K : list (R * R)) (p q : R * R) (t : R) : Prop :=
  neighbours K p q /\ (fst p < t \/ forall k, In k K -> fst p <= fst k) /\ (t <= fst q \/ forall k, In k K -> fst k <= fst q).

(* A knot table whose values are all present *)
Definition lift_knot (k : R * R) : R * option R := (fst k, Some (snd k)).

(* The knots known before row i of the futures strip *)
Definition row_knot (r : futures_row) (k : R * R) : Prop := fst k = r_mat_years r /\ r_mat_df r = Some (snd k).
Definition known_before (ks : list (R * R)) (rows : list futures_row) (i : nat) (K : list (R * R)) : Prop :=
  exists fs, K = (ks ++ fs)%list /\ Forall2 row_knot (firstn i rows) fs.

(* Rows in order of a date *)
Definition ordered_by {A} (key : A -> Z) (l : list A) : Prop :=
  forall i j x y, (i < j)%nat -> nth_error l i = Some x -> nth_error l j = Some y -> (key x <= key y)%Z.

(* ---- ASX contracts ---- *)
Definition in_month (y m : Z) (d : date) : Prop := year d = y /\ month d = m.
Definition friday (d : date) : Prop := (weekday d = 4)%Z.
Definition second_friday (y m : Z) (d : date) : Prop :=
  in_month y m d /\ friday d /\ exists d1, (d1 < d)%Z /\ in_month y m d1 /\ friday d1 /\
    forall x, in_month y m x -> friday x -> (x < d)%Z -> x = d1.
Definition quarter_month (m : Z) : Prop := (m = 3 \/ m = 6 \/ m = 9 \/ m = 12)%Z.
Definition contract_before (c c' : Z * Z) : Prop := (fst c < fst c' \/ fst c = fst c' /\ snd c < snd c')%Z.
(* The contracts listed oldest first, each once *)
Fixpoint chronological (cs : list (Z * Z)) : Prop :=
  match cs with [] => True | c :: t => Forall (contract_before c) t /\ chronological t end.

Open Scope Z_scope.
(* The dates of a contract *)
Definition row_for (cal : calendar) (c : Z * Z) (r : asx_row) : Prop :=
  second_friday (fst c) (snd c) (a_settlement r) /\ a_expiry r = a_settlement r - 1 /\ a_effective r = a_settlement r /\
  first_on_or_after cal (add_months (a_settlement r) 3) (a_maturity r).
(* No contract twice, quarter months only *)
Definition distinct_quarters (cs : list (Z * Z)) : Prop := NoDup cs /\ forall c, In c cs -> quarter_month (snd c).
Open Scope R_scope.

(* A ticker: IR, a month code, one digit; any case, blanks around it *)
Definition month_code (a : ascii) (m : Z) : Prop :=
  (a = "H"%char /\ m = 3 \/ a = "M"%char /\ m = 6 \/ a = "U"%char /\ m = 9 \/ a = "Z"%char /\ m = 12)%Z.
Definition ticker_of (t : string) (y m : Z) : Prop :=
  exists a d n, strip (upper t) = String "I" (String "R" (String a (String d ""))) /\ month_code a m /\
    (0 <= n <= 9)%Z /\ d = ascii_of_nat (48 + Z.to_nat n) /\ (y = 2020 + n)%Z.

(* ---- cash quotes ---- *)
(* The settlement date: as given, or the curve date moved by the settlement delay in business days *)
Definition settles (c : date) (delay : option Z) (given : option date) (cal : calendar) (s : date) : Prop :=
  given = Some s \/ given = None /\ exists n, delay = Some n /\ workday c n cal = Ok s.

(* A deposit quoted by tenor: overnight starts on the curve date, the rest on the settlement date; it matures on the first
   business day on or after the start moved by the tenor. *)
Definition overnight (t : string) : Prop := clean_tenor t = "on"%string.
Definition deposit (cal : calendar) (c s : date) (t : string) (delayed : bool) (e m : date) : Prop :=
  exists a b, tenor_means (clean_tenor t) a b /\ (delayed = false <-> overnight t) /\ e = (if delayed then s else c) /\
    first_on_or_after cal (add_months e b + a)%Z m.

(* A frame of rates and tenors, without dates *)
Definition quoted_by_tenor (f : cash_frame) (r : list R) (ts : list string) : Prop :=
  c_rate f = Some r /\ c_tenor f = Some ts /\ c_eff f = None /\ c_mat f = None.
