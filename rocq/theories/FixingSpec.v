(* Vocabulary for historical fixings and floating rates. *)
From Coq Require Import ZArith QArith Qreals Reals List Bool.
From Verif Require Import Base Date BusDayModel DayCountModel ScheduleModel NumModel CurveModel CurveSpec FixingModel.
Import ListNotations.
Open Scope R_scope.

(* v is the fixing of the latest date satisfying P, missing when no date does. *)
Inductive latest (fx : list fixing) (P : date -> Prop) : option R -> Prop :=
| lt_found q : In q fx -> P (fst q) -> (forall q', In q' fx -> P (fst q') -> (fst q' <= fst q)%Z) -> latest fx P (snd q)
| lt_none : (forall q : fixing, In q fx -> ~ P (fst q)) -> latest fx P None.

(* The fixing in force on day d: the latest one up to d. *)
Definition in_force (fx : list fixing) (d : date) : option R -> Prop := latest fx (fun x => (x <= d)%Z).
(* The fixing in force on day d when only fixings from day s on are looked at. *)
Definition in_force_from (fx : list fixing) (s d : date) : option R -> Prop := latest fx (fun x => (s <= x <= d)%Z).

(* f gives the fixing in force on each day of [s, e) *)
Definition observed (fx : list fixing) (s e : date) (f : date -> option R) : Prop :=
  forall d, (s <= d < e)%Z -> in_force_from fx s d (f d).

(* One day of interest, n days a year; a day without a fixing earns nothing. *)
Definition day_factor (n : R) (f : date -> option R) (d : date) : R := match f d with Some x => 1 + x / n | None => 1 end.
Definition has_fixing (f : date -> option R) (d : date) : bool := match f d with Some _ => true | None => false end.
Definition value_or_zero (f : date -> option R) (d : date) : R := match f d with Some x => x | None => 0 end.

Definition days_between (s e : date) : nat := Z.to_nat (e - s).

(* Tables listed in date order *)
Definition in_date_order (fx : list fixing) : Prop :=
  forall i j p q, (i < j)%nat -> nth_error fx i = Some p -> nth_error fx j = Some q -> (fst p <= fst q)%Z.

(* The window of dates on which a call looks at fixings *)
Definition in_window (ps : list period) (d : date) : Prop :=
  (exists p : period, In p ps /\ (fst p <= d)%Z) /\ (exists p : period, In p ps /\ (d < snd p)%Z).

Definition act_basis (b : basis) : Prop := b = ACT_360 \/ b = ACT_365 \/ b = ACT_366.

Inductive period_class : Set := Future | Past | Straddling.
Definition classified (c : date) (p : period) (k : period_class) : Prop :=
  match k with
  | Future => (c <= fst p)%Z
  | Past => (snd p <= c)%Z
  | Straddling => (fst p < c < snd p)%Z
  end.

(* The fixings of the days of [s, e), missing ones left out, and their mean *)
Definition period_fixings (fx : list fixing) (s e : date) : list R :=
  flat_map (fun q : fixing => if (s <=? fst q)%Z && (fst q <? e)%Z then match snd q with Some x => [x] | None => [] end else []) fx.
Definition mean (l : list R) : option R := match l with [] => None | _ => Some (fold_right Rplus 0 l / INR (length l)) end.

(* When the fixings do not reach far enough: some fixing falls in the window, but none on its last day, or all of them after the
   last day of some period. *)
Definition poorly_covered (fx : list fixing) (ps : list period) : Prop :=
  (exists q : fixing, In q fx /\ in_window ps (fst q)) /\
  ((forall q : fixing, In q fx -> in_window ps (fst q) -> exists p : period, In p ps /\ (fst q + 1 < snd p)%Z) \/
   (exists p : period, In p ps /\ forall q : fixing, In q fx -> in_window ps (fst q) -> (snd p <= fst q)%Z)).

(* Periods of at least one day that the curve reaches *)
Definition good_periods (z : zero_curve) (ps : list period) : Prop :=
  forall p : period, In p ps -> (fst p < snd p)%Z /\ (snd p <= z_last z)%Z.
