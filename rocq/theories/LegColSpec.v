(* What each column of a leg's table should hold (property C27). *)
From Coq Require Import ZArith QArith Qreals Reals List Bool.
From Verif Require Import Base Date BusDayModel DayCountModel ScheduleModel LegModel.
Import ListNotations.
Open Scope R_scope.

(* A row with both period dates. *)
Definition whole_period (s : srow) : Prop := s_start s <> None /\ s_end s <> None.
(* The row before the first coupon, which an initial exchange of notional adds. *)
Definition first_exchange (x : exchange) : nat := if at_start x then 1 else 0.
(* The rate meant for row i: one rate serves every coupon row, otherwise the rates are listed in the order of the coupon rows;
   the row of the initial exchange has none. *)
Definition meant_rate (x : exchange) (param : list (option R)) (i : nat) : option R :=
  if (i <? first_exchange x)%nat then None
  else match param with [r] => r | _ => nth (i - first_exchange x) param None end.
(* The period length of a row, the last whole period ending on the termination date. *)
Definition meant_length (b : basis) (rows : list srow) (i : nat) (s : srow) (y : option R) : Prop :=
  match s_start s, s_end s with
  | Some a, Some e => exists q last, year_frac [a] [e] b (Some [last]) = Ok (Scalar q) /\ y = Some (Q2R q) /\
      (last = true <-> forall j t, (i < j)%nat -> nth_error rows j = Some t -> ~ whole_period t)
  | _, _ => y = None
  end.
