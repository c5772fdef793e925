(* Vocabulary for the leg and swap properties. *)
From Coq Require Import ZArith QArith Reals List Bool.
From Verif Require Import Base Date BusDayModel DayCountModel ScheduleModel LegModel.
Import ListNotations.
Open Scope R_scope.

Definition sum_R (l : list R) : R := fold_right Rplus 0 l.

(* A payment on this date is still to come. *)
Definition to_come (st : settings) (d : date) : bool :=
  (value_date st <? d)%Z || (include_on_value_date st && (d =? value_date st)%Z).

(* Value today of an amount paid on a date, if it is still to come; no date, no value. *)
Definition value_of (st : settings) (f : date -> R) (d : option date) (a : R) : R :=
  match d with Some t => if to_come st t then a * f t else 0 | None => 0 end.
(* The undiscounted version *)
Definition amount_of (st : settings) (d : option date) (a : R) : R := value_of st (fun _ => 1) d a.

(* The curve answers f d at every date d of the column. *)
Definition answers (cv : curve) (f : date -> R) (ds : list (option date)) : Prop :=
  Forall2 (fun d x => forall t, d = Some t -> x = Some (f t)) ds (cv ds).
Definition priced_by (l : leg) (f : date -> R) : Prop :=
  exists cv, l_curve l = Some cv /\ answers cv f (map r_ndate (l_rows l)) /\ answers cv f (map r_cdate (l_rows l)).

(* Every row that pays a coupon has a period length. *)
Definition has_lengths (l : leg) : Prop := forall r, In r (l_rows l) -> r_cdate r <> None -> r_yf r <> None.
Definition has_rates (l : leg) : Prop := forall r, In r (l_rows l) -> r_cdate r <> None -> r_rate r <> None.

(* A floating leg needs its index curve, although it never uses it. *)
Definition kind_ready (k : leg_kind) : bool := match k with FixedLeg | FloatTermLeg true | FloatRFRLeg true => true | _ => false end.

Definition real (o : option R) : R := match o with Some x => x | None => 0 end.

(* Value of the notional payments, and of one unit of rate on every coupon period (unsigned by side) *)
Definition notional_value (st : settings) (f : date -> R) (l : leg) : R :=
  sum_R (map (fun r => value_of st f (r_ndate r) (r_npay r)) (l_rows l)).
Definition annuity (st : settings) (f : date -> R) (l : leg) : R :=
  sum_R (map (fun r => value_of st f (r_cdate r) (multiplier (l_side l) * r_notional r * real (r_yf r))) (l_rows l)).

Definition scale_row (k : R) (r : row) : row :=
  {| r_start := r_start r; r_end := r_end r; r_notional := k * r_notional r; r_npay := k * r_npay r; r_ndate := r_ndate r;
     r_cdate := r_cdate r; r_yf := r_yf r; r_rate := r_rate r |}.
Definition scale (k : R) (l : leg) : leg := set_rows l (map (scale_row k) (l_rows l)).

(* What a row adds to the leg's value: nothing at all, not even its notional payment, when its coupon is NaN. *)
Definition row_value (st : settings) (f : date -> R) (r : row) (coupon : option R) : R :=
  match coupon with
  | Some a => value_of st f (r_ndate r) (r_npay r) + value_of st f (r_cdate r) a
  | None => 0
  end.

(* The points a root finder evaluates, and what it reports, when the objective is g. *)
Fixpoint asked (g : R -> result R) (s : solver) : list R :=
  match s with
  | Done _ => []
  | Try x k => x :: match g x with Ok y => asked g (k y) | Err _ => [] end
  end.
Fixpoint reported (g : R -> result R) (s : solver) : result (option R) :=
  match s with
  | Done o => o
  | Try x k => match g x with Ok y => reported g (k y) | Err e => Err e end
  end.
Definition objective (st : settings) (target : R) (l : leg) (x : R) : result R :=
  match snd (calc_dirty_pv st l (Some x)) with Ok v => Ok (v - target) | Err e => Err e end.
(* A root finder that reports a root only where the objective vanishes *)
Definition exact_on (g : R -> result R) (s : solver) : Prop :=
  forall x, reported g s = Ok (Some x) -> g x = Ok 0.

(* Coupons of the periods that ended by the value date and are still to be paid: what leg.py:143-146 selects *)
Definition unsettled (st : settings) (l : leg) (cs : list R) : R :=
  sum_R (map (fun q => match r_cdate (fst q), r_end (fst q) with
                       | Some t, Some e => if to_come st t && (e <=? value_date st)%Z then snd q else 0
                       | _, _ => 0 end) (combine (l_rows l) cs)).

(* More than a year away; a row without a date counts as such (leg.py:201-211) *)
Definition beyond_year (st : settings) (d : option date) : bool :=
  match d with
  | None => true
  | Some t => (add_months (value_date st) 12 <? t)%Z || (negb (include_on_value_date st) && (t =? add_months (value_date st) 12)%Z)
  end.
Definition sum_where {A} (p : A -> bool) (g : A -> R) (l : list A) : R :=
  sum_R (map (fun x => if p x then g x else 0) l).

Fixpoint increasing_from (a : Z) (l : list Z) : Prop :=
  match l with [] => True | b :: t => (a < b)%Z /\ increasing_from b t end.

(* Bucket j of bounds in years: from the bound before it, or from today, up to its own bound, which is not in it *)
Definition in_bucket (st : settings) (buckets : list Z) (j : nat) (d : option date) : bool :=
  match d with
  | None => false
  | Some t =>
      (match j with
       | O => to_come st t
       | S i => match nth_error buckets i with Some b => (add_months (value_date st) (12 * b) <=? t)%Z | None => false end
       end) && (match nth_error buckets j with Some b => (t <? add_months (value_date st) (12 * b))%Z | None => true end)
  end.

(* The notional payments of a plain schedule with n+1 periods *)
Definition expected_payments (x : exchange) (n : R) (k : nat) : list R :=
  (if at_start x then [- n] else []) ++ repeat 0 k ++ [if at_end x then n else 0].

(* Two legs with the same terms, one on each side *)
