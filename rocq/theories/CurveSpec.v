(* Vocabulary for zero curve properties. *)
From Coq Require Import String ZArith QArith Qreals Reals List Bool.
From Verif Require Import Base Date BusDayModel DayCountModel TenorModel ScheduleModel LegModel NumModel CompModel CompSpec CurveModel.
Import ListNotations.
Open Scope R_scope.

(* The curve's year fraction from its date to d. *)
Definition year_fraction (b : basis) (c d : date) (t : R) : Prop :=
  exists q, year_frac [c] [d] b None = Ok (Scalar q) /\ t = Q2R q.

(* Bases for which a year fraction does not depend on the position of the date in a vector (C06). *)
Definition plain_basis (b : basis) : Prop := b <> B30E_360_ISDA /\ b <> OtherBasis.

(* The maturity in years of each quote. *)
Inductive quoted_years (c : date) (b : basis) (cal : calendar) : column -> list R -> Prop :=
| qy_tenor l ts : Forall2 (fun s t => exists o d, tenor_to_date_offset (clean_tenor s) = Ok o /\
                                        busday_offset cal (add_offset c o) 0 Following = Ok d /\ year_fraction b c d t) l ts ->
    quoted_years c b cal (ColTenor l) ts
| qy_date l ts : Forall2 (year_fraction b c) l ts -> quoted_years c b cal (ColDate l) ts
| qy_days l ts : Forall2 (fun n t => year_fraction b c (c + n)%Z t) l ts -> quoted_years c b cal (ColDays l) ts
| qy_years l : quoted_years c b cal (ColYears l) l.

(* The discount factor of each quote. *)
Inductive quoted_dfs (freq : option comp) (ts : list R) : column -> list R -> Prop :=
| qd_df l : length l = length ts -> quoted_dfs freq ts (ColDF l) l
| qd_zero f l vs : freq = Some f -> length l = length ts ->
    Forall2 (fun q v => valid_rate f (fst q) (snd q) /\ v = / accumulation f (fst q) (snd q)) (combine ts l) vs ->
    quoted_dfs freq ts (ColZeroRate l) vs.

(* A frame that quotes the maturities ts and discount factors vs, the columns in either order. *)
Definition quotes (c : date) (b : basis) (cal : calendar) (freq : option comp) (f : frame) (ts vs : list R) : Prop :=
  exists x y, (f = [x; y] \/ f = [y; x]) /\ quoted_years c b cal x ts /\ quoted_dfs freq ts y vs.

(* What the user sees when asking for one discount factor. *)
Definition discounts (z : zero_curve) (d : date) (v : R) : Prop :=
  get_discount_factors z (Some (Scalar (Some d))) None None = Ok (Scalar (Some v)).

(* Two knots with no other knot between them. *)
Definition neighbours (knots : list (R * R)) (p q : R * R) : Prop :=
  In p knots /\ In q knots /\ fst p < fst q /\ forall k, In k knots -> fst k <= fst p \/ fst q <= fst k.

(* Growth over tau years of a forward rate of each kind *)
Definition growth (ft : forward_type) (tau r : R) : R :=
  match ft with
  | FContinuous => exp (r * tau)
  | FAnnual => Rpower (1 + r) tau
  | _ => 1 + r * tau
  end.
Definition period_type (ft : forward_type) : Prop := ft = FSimple \/ ft = FDailyCompounded \/ ft = FContinuous \/ ft = FAnnual.

(* The kinds of curve a user can build: any outcome of the constructor, on a supported extrapolation setting *)
Definition built (z : zero_curve) : Prop :=
  exists splrep c b cal im f freq em f', new_curve splrep c b cal im f freq em = Ok (z, f') /\ em <> OtherExtrap.

(* d lies in the range of daily data *)
Definition covered (z : zero_curve) (d : date) : Prop := (z_date z <= d <= z_last z)%Z.
Definition coveredo (z : zero_curve) (o : option date) : Prop := match o with Some d => covered z d | None => True end.

(* Sum over the n days starting at d *)
Fixpoint sum_days (f : date -> R) (d : date) (n : nat) : R :=
  match n with O => 0 | S k => f d + sum_days f (d + 1)%Z k end.
(* Product over the n days starting at d *)
Fixpoint prod_days (f : date -> R) (d : date) (n : nat) : R := match n with O => 1 | S k => f d * prod_days f (d + 1)%Z k end.
Fixpoint count_days (p : date -> bool) (d : date) (n : nat) : nat :=
  match n with O => O | S k => ((if p d then 1 else 0) + count_days p (d + 1)%Z k)%nat end.

(* The requested dates that survive a lookup: missing ones and those inside the range *)
Definition kept (z : zero_curve) (o : option date) : bool :=
  match o with Some d => (z_date z <=? d)%Z && (d <=? z_last z)%Z | None => true end.

(* Quotes from which a log-linear curve can be built: at least one, at distinct positive maturities, with positive discount factors. *)
Definition well_quoted (c : date) (b : basis) (cal : calendar) (freq : option comp) (f : frame) (ts vs : list R) : Prop :=
  plain_basis b /\ quotes c b cal freq f ts vs /\ ts <> [] /\ Forall (fun t => 0 < t) ts /\ NoDup ts /\ Forall (fun v => 0 < v) vs.

(* The knots: the quotes and the curve date itself *)
Definition knots (ts vs : list R) : list (R * R) := (0, 1) :: combine ts vs.

(* Weighted geometric mean of the two neighbouring discount factors *)
Definition geometric (p q : R * R) (t : R) : R :=
  let w := (t - fst p) / (fst q - fst p) in Rpower (snd p) (1 - w) * Rpower (snd q) w.

(* The date of each quote, for columns that have dates *)
Inductive quoted_dates (c : date) (cal : calendar) : column -> list date -> Prop :=
| qt_tenor l ds : Forall2 (fun s d => exists o, tenor_to_date_offset (clean_tenor s) = Ok o /\
                                        busday_offset cal (add_offset c o) 0 Following = Ok d) l ds ->
    quoted_dates c cal (ColTenor l) ds
| qt_date l : quoted_dates c cal (ColDate l) l
| qt_days l : quoted_dates c cal (ColDays l) (map (fun n => (c + n)%Z) l).

(* The root cause of C70: some payment of the leg falls on a date the curve does not cover. *)
Definition pays_outside (z : zero_curve) (l : leg) : Prop :=
  exists r, In r (l_rows l) /\ (~ coveredo z (r_ndate r) \/ ~ coveredo z (r_cdate r)).

Definition is_least (P : date -> Prop) (d : date) : Prop := P d /\ forall e, P e -> (d <= e)%Z.

(* Daily simple rate implied by the discount factors of two consecutive days, n days a year *)
Definition daily_rate (v : date -> R) (n : R) (d : date) : R := (v d / v (d + 1)%Z - 1) * n.
Definition where_ (p : date -> bool) (f : date -> R) (d : date) : R := if p d then f d else 0.
(* Average over the days d of [s, e) with p d; none without such a day *)
Definition average (p : date -> bool) (f : date -> R) (s e : date) : option R :=
  let n := count_days p s (Z.to_nat (e - s)) in
  match n with O => None | _ => Some (sum_days (where_ p f) s (Z.to_nat (e - s)) / INR n) end.
Definition any_day (d : date) : bool := true.

(* Periods that start on or after the curve date and do not end before they start *)
Definition in_order (z : zero_curve) (s e : list date) : Prop :=
  length s = length e /\ forall i x y, nth_error s i = Some x -> nth_error e i = Some y -> (z_date z <= x <= y)%Z.

(* splev(.., der=1) is the derivative of the spline *)
Definition differentiates (s : spline) : Prop :=
  forall c, (forall u, sp_at s u = Some (c u)) -> forall t, exists d, sp_deriv s t = Some d /\ derivable_pt_lim c t d.
