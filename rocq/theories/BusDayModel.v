(* Business days: numpy's busdaycalendar / is_busday / busday_offset as used in /repo, and the calendar construction of
   frm/utils/business_day_calendar.py and helpers of frm/utils/tenor.py. *)
From Coq Require Import ZArith String Ascii List Bool.
From Verif Require Import Base Date.
Import ListNotations.
Open Scope Z_scope.

(* np.busdaycalendar(weekmask, holidays): seven flags Monday..Sunday and a list of dates in any order, possibly repeated. *)
Record calendar := { weekmask : list bool; holidays : list date }.

(* The week mask bit of a date. *)
Definition working_weekday (c : calendar) (d : date) : bool := nth (Z.to_nat (weekday d)) (weekmask c) false.

(* np.is_busday(d, busdaycal=c), frm/term_structures/zero_curve.py:239 *)
Definition is_busday (c : calendar) (d : date) : bool :=
  working_weekday c d && negb (existsb (Z.eqb d) (holidays c)).

(* numpy refuses a weekmask of all zeros, or of a length other than seven (ValueError). *)
Definition busdaycalendar (wm : list bool) (h : list date) : result calendar :=
  if (length wm =? 7)%nat && existsb (fun b => b) wm then Ok {| weekmask := wm; holidays := h |} else Err ValueError.

(* np.busdaycalendar(): Monday to Friday, no holidays. frm/utils/business_day_calendar.py:50 *)
Definition default_calendar : calendar :=
  {| weekmask := [true; true; true; true; true; false; false]; holidays := [] |}.

(* The search for the next business day on or after d (numpy's inner loop "do ++date while not a business day").
   numpy's loop has no bound; the fuel is shown to be sufficient for every calendar busdaycalendar accepts. *)
Fixpoint search_fwd (c : calendar) (fuel : nat) (d : date) : result date :=
  match fuel with
  | O => Err OutOfFuel
  | S k => if is_busday c d then Ok d else search_fwd c k (d + 1)
  end.

Fixpoint search_bwd (c : calendar) (fuel : nat) (d : date) : result date :=
  match fuel with
  | O => Err OutOfFuel
  | S k => if is_busday c d then Ok d else search_bwd c k (d - 1)
  end.

Definition search_fuel (c : calendar) : nat := (7 * (length (holidays c) + 1))%nat.

Definition following (c : calendar) (d : date) : result date := search_fwd c (search_fuel c) d.
Definition preceding (c : calendar) (d : date) : result date := search_bwd c (search_fuel c) d.

(* RollConv, frm/enums/utils.py:448-453, passed as roll=roll_conv.value. numpy knows no 'unadjusted'. *)
Inductive roll_conv : Set := Unadjusted | Following | Preceding | ModFollowing | ModPreceding.

(* numpy's apply_business_day_roll: the roll step of np.busday_offset. The modified rolls fall back to the opposite
   direction from the original date when the month changes. *)
Definition roll (c : calendar) (r : roll_conv) (d : date) : result date :=
  match r with
  | Unadjusted => Err ValueError
  | Following => following c d
  | Preceding => preceding c d
  | ModFollowing =>
      let* e := following c d in
      if month_index e =? month_index d then Ok e else preceding c d
  | ModPreceding =>
      let* e := preceding c d in
      if month_index e =? month_index d then Ok e else following c d
  end.

(* n business days after / before a business day. *)
Fixpoint step_fwd (c : calendar) (n : nat) (d : date) : result date :=
  match n with
  | O => Ok d
  | S k => let* e := following c (d + 1) in step_fwd c k e
  end.

Fixpoint step_bwd (c : calendar) (n : nat) (d : date) : result date :=
  match n with
  | O => Ok d
  | S k => let* e := preceding c (d - 1) in step_bwd c k e
  end.

(* np.busday_offset(d, offsets=n, roll=r, busdaycal=c): roll, then move n business days.
   Used at frm/utils/tenor.py:89,117,141,145; frm/utils/schedule.py:91,464 and elsewhere. *)
Definition busday_offset (c : calendar) (d : date) (n : Z) (r : roll_conv) : result date :=
  let* e := roll c r d in
  if 0 <=? n then step_fwd c (Z.to_nat n) e else step_bwd c (Z.to_nat (- n)) e.

(* frm/utils/tenor.py:83-89 *)
Definition workday (d : date) (offset : Z) (c : calendar) : result date := busday_offset c d offset Following.

(* ---- frm/utils/business_day_calendar.py ---- *)

(* A holidays.HolidayBase object: its weekend set and its dates. The pickled contents are not modelled: the registries
   are arbitrary finite maps. *)
Record holiday_object := { weekend : list Z; holiday_dates : list date }.

Section Registry.
  (* CCY_HOLIDAY and LOCALE_HOLIDAY, frm/utils/business_day_calendar.py:15-19 *)
  Variables ccy_holiday locale_holiday : string -> option holiday_object.

  (* frm/utils/business_day_calendar.py:22-28 *)
  Definition get_holidays_object (key : string) : result holiday_object :=
    match ccy_holiday key with
    | Some h => Ok h
    | None => match locale_holiday key with Some h => Ok h | None => Err ValueError end
    end.

  (* list assignment weekmask[i] = 0 with Python's negative indexes; out of range is an IndexError *)
  Fixpoint set_false (l : list bool) (i : nat) : option (list bool) :=
    match l, i with
    | [], _ => None
    | _ :: t, O => Some (false :: t)
    | x :: t, S k => match set_false t k with Some t' => Some (x :: t') | None => None end
    end.

  Definition set_day (l : list bool) (i : Z) : result (list bool) :=
    let j := if i <? 0 then i + Z.of_nat (length l) else i in
    if j <? 0 then Err IndexError
    else match set_false l (Z.to_nat j) with Some l' => Ok l' | None => Err IndexError end.

  (* frm/utils/business_day_calendar.py:31-41. The set is given as a list (iteration order is irrelevant, proved). *)
  Fixpoint convert_weekend_from (mask : list bool) (ws : list Z) : result (list bool) :=
    match ws with
    | [] => Ok mask
    | w :: t => let* m := set_day mask w in convert_weekend_from m t
    end.

  Definition convert_weekend_to_weekmask (ws : list Z) : result (list bool) :=
    convert_weekend_from (repeat true 7) ws.

  (* str.upper on ASCII *)
  Definition upper_char (a : ascii) : ascii :=
    let n := nat_of_ascii a in if (97 <=? n)%nat && (n <=? 122)%nat then ascii_of_nat (n - 32) else a.
  Fixpoint upper (s : string) : string :=
    match s with EmptyString => EmptyString | String a t => String (upper_char a) (upper t) end.

  (* lines 58-65: weekend union via reduce, holidays concatenated *)
  Definition build_calendar (ks : list string) : result calendar :=
    let* objs := sequence (map get_holidays_object ks) in
    let* mask := convert_weekend_to_weekmask (nodup Z.eq_dec (flat_map weekend objs)) in
    busdaycalendar mask (flat_map holiday_dates objs).

  (* the keys argument of get_busdaycal *)
  Inductive keys_arg := KNone | KStr (s : string) | KList (l : list string).

  (* frm/utils/business_day_calendar.py:44-65. list(set(keys)) is some list with the same elements and no duplicates;
     it is modelled by List.nodup, and the result is shown not to depend on the order. Keys of other types
     (e.g. a tuple) are used as they are by the code; not modelled. *)
  Definition get_busdaycal (keys : keys_arg) : result calendar :=
    match keys with
    | KNone => Ok default_calendar
    | KStr s => build_calendar [upper s]
    | KList l => build_calendar (map upper (nodup string_dec l))
    end.
End Registry.
