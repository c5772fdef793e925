(* Total variance (volatility squared times time) *)
From Coq Require Import ZArith Reals List Sorted.
From Verif Require Import Base Date DayCountModel CurveSpec NormalModel BlackSpec VolModel.
Import ListNotations.
Open Scope R_scope.

Definition tv (v t : R) : R := v ^ 2 * t.

(* the four numbers of element i of a broadcast call, and its number of elements *)
Definition elem (t1 v1 t2 v2 : arr) (i : nat) (x a y b : R) : Prop := used (vals t1) i x /\ used (vals v1) i a /\ used (vals t2) i y /\ used (vals v2) i b.
Definition shape (t1 v1 t2 v2 : arr) (n : nat) : Prop := fits [length (vals t1); length (vals v1); length (vals t2); length (vals v2)] n.
(* f carries the total variance a^2 x at x to b^2 y at y *)
Definition carries (x a y b f : R) : Prop := 0 <= f /\ tv a x + f ^ 2 * (y - x) = tv b y.
(* no real forward volatility, or minus infinity under the square root *)
Definition inconsistent (x a y b : R) : Prop := (x <> y /\ (tv b y - tv a x) * (y - x) < 0) \/ (x = y /\ tv b y < tv a x).

(* total variance at t on the straight line through both pillars, or flat in total variance for a single pillar *)
Definition line (x a y b t w : R) : Prop := (x < y -> (w - tv a x) * (y - x) = (tv b y - tv a x) * (t - x)) /\ (x = y -> w = tv a x).
(* the volatility reported for total variance w at time t *)
Definition vol_of (w t : R) (v : num) : Prop :=
  (0 < t /\ 0 <= w -> exists r, v = Fin r /\ 0 <= r /\ tv r t = w) /\ (0 < t /\ w < 0 -> v = NaN)
  /\ (t = 0 /\ 0 < w -> v = PInf) /\ (t = 0 /\ w <= 0 -> v = NaN).
(* both pillars in order, with total variance that does not fall *)
Definition usable (r : ff_row) : Prop := f_t1 r <= f_t2 r /\ (f_t1 r < f_t2 r -> forall p : R * R, In p (f_vols r) -> tv (fst p) (f_t1 r) <= tv (snd p) (f_t2 r)).

(* pillars in strictly increasing order of expiry, w volatilities each, none negative *)
Definition good_pillars (w : nat) (l : list vol_pillar) : Prop :=
  StronglySorted (fun p q => (v_expiry p < v_expiry q)%Z) l /\ forall p : vol_pillar, In p l -> length (v_vols p) = w /\ forall x : R, In x (v_vols p) -> 0 <= x.
(* p is followed by q *)
Definition consecutive {A} (p q : A) (l : list A) : Prop := exists l1 l2 : list A, l = l1 ++ p :: q :: l2.
(* no total variance falls between consecutive pillars that have a day strictly between them *)
Definition variance_rises (c : date) (b : basis) (l : list vol_pillar) : Prop :=
  forall (p q : vol_pillar) (tp tq x y : R), consecutive p q l -> (v_expiry p + 1 < v_expiry q)%Z -> year_fraction b c (v_expiry p) tp -> year_fraction b c (v_expiry q) tq ->
  In (x, y) (combine (v_vols p) (v_vols q)) -> tv x tp <= tv y tq.
(* total variance does not fall from any pillar to the next, with or without days between them *)
Definition calendar_free (c : date) (b : basis) (l : list vol_pillar) : Prop :=
  forall (p q : vol_pillar) (tp tq x y : R), consecutive p q l -> year_fraction b c (v_expiry p) tp -> year_fraction b c (v_expiry q) tq ->
  In (x, y) (combine (v_vols p) (v_vols q)) -> tv x tp <= tv y tq.
