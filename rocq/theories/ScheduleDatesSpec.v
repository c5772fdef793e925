(* What make_schedule does with first_period_end and last_period_start *)
From Coq Require Import ZArith List Bool.
From Verif Require Import Base Date BusDayModel ScheduleModel ScheduleSpec.
Import ListNotations.
Open Scope Z_scope.

(* Where a user date falls: at the nearest boundary of the schedule generated away from it (no stub), at the nearest or the second boundary
   of the schedule generated towards it (a short or a long stub), at none of them, or there is no second boundary to compare with. *)
Inductive place : Set := OnGrid | AtShort | AtLong | Elsewhere | NoSecond.
Definition place_of (x : date) (away towards : list date) : place :=
  match away, towards with
  | a :: _, b :: r => if x =? a then OnGrid else if x =? b then AtShort else match r with b1 :: _ => if x =? b1 then AtLong else Elsewhere | [] => NoSecond end
  | _, _ => NoSecond
  end.
Definition place_first (x : date) (forward backward : schedule) : place := place_of x (snd forward) (snd backward).
Definition place_last (y : date) (forward backward : schedule) : place := place_of y (rev (fst backward)) (rev (fst forward)).

Inductive plan : Set :=
| Take (d : direction) (merged : bool)        (* a generated schedule, the stub merged with its neighbour *)
| FromFirst (merged : bool)                   (* a first period up to first_period_end, then forwards *)
| ToLast (merged : bool)                      (* backwards from last_period_start, then a last period *)
| Between                                     (* both periods, backwards in between *)
| Reject (x : exn).

Definition is_long (s : stub) : bool := match s with StubLong => true | _ => false end.
Definition none_or_default (s : stub) : bool := match s with StubDefault | StubNone => true | _ => false end.
(* only first_period_end given; first_stub plays no part *)
Definition plan_first (p : place) (last_stub : stub) : plan :=
  match p, last_stub with
  | NoSecond, _ => Reject IndexError
  | _, StubDefinedLast => Reject TypeError
  | OnGrid, _ => Take Forward (is_long last_stub)
  | Elsewhere, _ => FromFirst (is_long last_stub)
  | AtShort, _ => if none_or_default last_stub then Take Backward false else Reject ValueError
  | AtLong, _ => if none_or_default last_stub then Take Backward true else Reject ValueError
  end.
(* only last_period_start given; last_stub plays no part; a first stub NONE discards a date on the backward schedule *)
Definition plan_last (p : place) (first_stub : stub) : plan :=
  match p, first_stub with
  | NoSecond, _ => Reject IndexError
  | _, StubDefinedFirst => Reject TypeError
  | OnGrid, StubNone => Take Forward false
  | OnGrid, _ => Take Backward (is_long first_stub)
  | Elsewhere, _ => ToLast (is_long first_stub)
  | AtShort, _ => if none_or_default first_stub then Take Forward false else Reject ValueError
  | AtLong, _ => if none_or_default first_stub then Take Forward true else Reject ValueError
  end.
(* both given; neither stub plays a part *)
Definition plan_both (p q : place) : plan :=
  match p, q with
  | NoSecond, _ | _, NoSecond => Reject IndexError
  | Elsewhere, Elsewhere => Between
  | Elsewhere, AtLong => FromFirst true
  | Elsewhere, _ => FromFirst false
  | AtLong, Elsewhere => ToLast true
  | _, Elsewhere => ToLast false
  | OnGrid, AtShort => Take Forward false
  | OnGrid, AtLong => Take Forward true
  | AtShort, OnGrid => Take Backward false
  | AtLong, OnGrid => Take Backward true
  | _, _ => Reject AssertionError
  end.
Definition plan_of (first_end last_start : option date) (first_stub last_stub : stub) (forward backward : schedule) : plan :=
  match first_end, last_start with
  | Some x, None => plan_first (place_first x forward backward) last_stub
  | None, Some y => plan_last (place_last y forward backward) first_stub
  | Some x, Some y => plan_both (place_first x forward backward) (place_last y forward backward)
  | None, None => Reject ValueError (* not used *)
  end.

Section Carry.
  (* the generator between two dates *)
  Variable gen : date -> date -> direction -> result schedule.
  Definition merged_schedule (d : direction) (p : schedule) : result schedule := match d with Forward => merge_last_spec p | Backward => merge_first_spec p end.
  Definition carry_out (s e x y : date) (forward backward : schedule) (pl : plan) : result schedule :=
    match pl with
    | Take d m => let p := match d with Forward => forward | Backward => backward end in if m then merged_schedule d p else Ok p
    | FromFirst m => let* p := gen x e Forward in let q := (s :: fst p, x :: snd p) in if m then merge_last_spec q else Ok q
    | ToLast m => let* p := gen s y Backward in let q := (fst p ++ [y], snd p ++ [e]) in if m then merge_first_spec q else Ok q
    | Between => let* p := gen x y Backward in Ok (s :: fst p ++ [y], x :: snd p ++ [e])
    | Reject k => Err k
    end.
End Carry.
Definition given (d : option date) : date := match d with Some x => x | None => 0 end.
