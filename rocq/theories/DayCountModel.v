(* Model of frm/utils/daycount.py. *)
From Coq Require Import ZArith QArith List Bool.
From Verif Require Import Base Date.
Import ListNotations.
Open Scope Z_scope.

(* DayCountBasis, frm/enums/utils.py:175-183. OtherBasis stands for any argument that is not a member of the enum. *)
Inductive basis : Set :=
| B30_360 | B30E_360 | B30E_360_ISDA | ACT_360 | ACT_365 | ACT_ACT | ACT_366 | OtherBasis.

(* Output of day_count: .item() of a one-element array, or the array. frm/utils/daycount.py:117-120 *)
Inductive out (A : Type) : Type := Scalar (x : A) | Vector (l : list A).
Arguments Scalar {A} x.
Arguments Vector {A} l.

(* frm/utils/daycount.py:9-23 convert_to_same_shape_datetimeindex. The arguments are the DatetimeIndexes after
   to_datetimeindex (lines 163-195; a scalar date becomes a one-element index). *)
Definition same_shape (s e : list date) : list date * list date * bool :=
  let scalar := (length s =? 1)%nat && (length e =? 1)%nat in
  match s, e with
  | [x], _ :: _ :: _ => (repeat x (length e), e, scalar)
  | _ :: _ :: _, [x] => (s, repeat x (length s), scalar)
  | _, _ => (s, e, scalar)
  end.

(* (start_dti <= end_dti).all(), frm/utils/daycount.py:39 and 142. pandas raises ValueError for indexes of different lengths. *)
Definition check_order (s e : list date) : result unit :=
  if negb (length s =? length e)%nat then Err ValueError
  else guard (forallb (fun p => fst p <=? snd p) (combine s e)) AssertionError.

(* frm/utils/daycount.py:43 *)
Definition dc_act (a b : date) : Z := b - a.

(* frm/utils/daycount.py:57-59, 73-75, 102-104: the common 30/360 sum. *)
Definition dc_30 (a b : date) (d1 d2 : Z) : Z :=
  360 * (year b - year a) + 30 * (month b - month a) + d2 - d1.

(* frm/utils/daycount.py:45-60 *)
Definition dc_30_360 (a b : date) : Z :=
  let d1 := if day a =? 31 then 30 else day a in
  let d2 := if (d1 =? 30) && (day b =? 31) then 30 else day b in
  dc_30 a b d1 d2.

(* frm/utils/daycount.py:62-76 *)
Definition dc_30E_360 (a b : date) : Z :=
  let d1 := if day a =? 31 then 30 else day a in
  let d2 := if day b =? 31 then 30 else day b in
  dc_30 a b d1 d2.

(* frm/utils/daycount.py:82-87 *)
Definition is_last_day_of_feb (d : date) : bool :=
  if month d =? 2 then day d =? days_in_month (year d) (month d) else false.

(* frm/utils/daycount.py:89-105 *)
Definition dc_30E_360_isda (a b : date) (is_termination : bool) : Z :=
  let d1 := if (day a =? 31) || is_last_day_of_feb a then 30 else day a in
  let d2 := if (day b =? 31) || (is_last_day_of_feb b && negb is_termination) then 30 else day b in
  dc_30 a b d1 d2.

(* frm/utils/daycount.py:107-109: [False if i < (N-1) else True for i in range(N)] *)
Definition default_flags (n : nat) : list bool :=
  map (fun i => if (Z.of_nat i <? Z.of_nat n - 1) then false else true) (seq 0 n).

(* numpy elementwise arithmetic on two indexes of the same length. *)
Definition map2 {A B C} (f : A -> B -> C) (l : list A) (m : list B) : list C :=
  map (fun p => f (fst p) (snd p)) (combine l m).

(* frm/utils/daycount.py:117-120; .item() raises ValueError unless there is exactly one element. *)
Definition to_output {A} (scalar : bool) (l : list A) : result (out A) :=
  if scalar then match l with [x] => Ok (Scalar x) | _ => Err ValueError end
  else Ok (Vector l).

(* frm/utils/daycount.py:26-120. [flags] is is_end_date_on_termination (None, or its np.atleast_1d). *)
Definition day_count (starts ends : list date) (b : basis) (flags : option (list bool)) : result (out Z) :=
  let '(s, e, scalar) := same_shape starts ends in
  let* _ := check_order s e in
  let* r :=
    match b with
    | ACT_360 | ACT_365 | ACT_ACT | ACT_366 => Ok (map2 dc_act s e)
    | B30_360 => Ok (map2 dc_30_360 s e)
    | B30E_360 => Ok (map2 dc_30E_360 s e)
    | B30E_360_ISDA =>
        let fl := match flags with None => default_flags (length e) | Some l => l end in
        (* zip truncates to the shortest list, line 113 *)
        Ok (map2 (fun p f => dc_30E_360_isda (fst p) (snd p) f) (combine s e) fl)
    | OtherBasis => Err ValueError
    end in
  to_output scalar r.

(* scalar or array divided by a number *)
Definition out_map {A B} (f : A -> B) (o : out A) : out B :=
  match o with Scalar x => Scalar (f x) | Vector l => Vector (map f l) end.

Definition result_map {A B} (f : A -> B) (r : result A) : result B :=
  match r with Ok a => Ok (f a) | Err e => Err e end.

(* frm/utils/daycount.py:144-153, one element. Rational arithmetic instead of floats. *)
Definition yf_act_act (a b : date) : Q :=
  let year_1_diff := year_len (year a) in
  let year_2_diff := year_len (year b) in
  let total := year b - year a - 1 in
  let diff_first := mk (year a + 1) 1 1 - a in
  let diff_second := b - mk (year b) 1 1 in
  (inject_Z total + inject_Z diff_first / inject_Z year_1_diff + inject_Z diff_second / inject_Z year_2_diff)%Q.

(* frm/utils/daycount.py:123-160 *)
Definition year_frac (starts ends : list date) (b : basis) (flags : option (list bool)) : result (out Q) :=
  match b with
  | B30_360 | B30E_360 | B30E_360_ISDA | ACT_360 =>
      result_map (out_map (fun n => inject_Z n / 360)%Q) (day_count starts ends b flags)
  | ACT_365 => result_map (out_map (fun n => inject_Z n / 365)%Q) (day_count starts ends b flags)
  | ACT_366 => result_map (out_map (fun n => inject_Z n / 366)%Q) (day_count starts ends b flags)
  | ACT_ACT =>
      let '(s, e, scalar) := same_shape starts ends in
      let* _ := check_order s e in
      to_output scalar (map2 yf_act_act s e)
  | OtherBasis => Err ValueError
  end.
