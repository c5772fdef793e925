(* Model of frm/utils/schedule.py: make_schedule, generate_date_schedule and the date columns of BaseSchedule.
   A schedule is the pair of its period_start and period_end columns. *)
From Coq Require Import ZArith QArith List Bool.
From Verif Require Import Base Date BusDayModel DayCountModel.
Import ListNotations.
Open Scope Z_scope.

(* PeriodFreq, frm/enums/utils.py:315-324 *)
Inductive freq : Set := Daily | Weekly | Days28 | Monthly | Quarterly | SemiAnnual | Annual | ZeroCoupon.

(* PeriodFreq.date_offset, frm/enums/utils.py:329-341; weeks are 7 days, years 12 months *)
Definition freq_offset (f : freq) : option date_offset :=
  match f with
  | Daily => Some {| off_days := 1; off_months := 0 |}
  | Weekly => Some {| off_days := 7; off_months := 0 |}
  | Days28 => Some {| off_days := 28; off_months := 0 |}
  | Monthly => Some {| off_days := 0; off_months := 1 |}
  | Quarterly => Some {| off_days := 0; off_months := 3 |}
  | SemiAnnual => Some {| off_days := 0; off_months := 6 |}
  | Annual => Some {| off_days := 0; off_months := 12 |}
  | ZeroCoupon => None
  end.

(* PeriodFreq.multiply_date_offset on a frequency with an offset, frm/enums/utils.py:343-359 *)
Definition multiply_offset (o : date_offset) (k : Z) : date_offset :=
  {| off_days := off_days o * k; off_months := off_months o * k |}.

(* DayRoll, frm/enums/utils.py:395-428; RollDay n stands for the members _1 .. _31 *)
Inductive day_roll : Set := DayUnadjusted | RollDay (n : Z) | RollEOM.

(* schedule.py:467-475. Timestamp.replace(day=n) raises ValueError when the month has no day n, and for 'eom'. *)
Definition apply_specific_day_roll (d : date) (r : day_roll) : date :=
  match r with
  | DayUnadjusted => d
  | RollDay n => if (1 <=? n) && (n <=? days_in_month (year d) (month d)) then mk (year d) (month d) n else month_end d
  | RollEOM => month_end d
  end.

(* Stub, frm/enums/utils.py:496-502 *)
Inductive stub : Set := StubDefault | StubNone | StubShort | StubLong | StubDefinedFirst | StubDefinedLast.
Definition stub_eqb (a b : stub) : bool :=
  match a, b with
  | StubDefault, StubDefault | StubNone, StubNone | StubShort, StubShort | StubLong, StubLong
  | StubDefinedFirst, StubDefinedFirst | StubDefinedLast, StubDefinedLast => true
  | _, _ => false
  end.
(* Stub.market_convention(), frm/enums/utils.py:516-518 *)
Definition market_convention : stub := StubShort.

(* The direction argument; other strings raise ValueError at schedule.py:478-479 and are not represented. *)
Inductive direction : Set := Forward | Backward.
Definition direction_eqb (a b : direction) : bool :=
  match a, b with Forward, Forward | Backward, Backward => true | _, _ => false end.

Definition schedule := (list date * list date)%type.

Section Generate.
  Variable c : calendar.
  Variable rc : roll_conv.
  Variable dr : day_roll.

  (* The i-th generated date: schedule.py:500-501,506-508 (forward) and 515-516,521-523 (backward).
     The first one uses freq.date_offset, which is multiply_date_offset(1). *)
  Definition nth_date (o : date_offset) (dir : direction) (anchor : date) (i : Z) : result date :=
    let raw := match dir with
               | Forward => add_offset anchor (multiply_offset o i)
               | Backward => sub_offset anchor (multiply_offset o i)
               end in
    busday_offset c (apply_specific_day_roll raw dr) 0 rc.

  (* while current_date < end_date (forward) / > start_date (backward), schedule.py:503-509, 518-524:
     the dates in the order they are appended. The loop has no bound; fuel exhaustion is a distinct error. *)
  Fixpoint date_loop (fuel : nat) (o : date_offset) (dir : direction) (anchor limit : date) (i : Z) : result (list date) :=
    match fuel with
    | O => Err OutOfFuel
    | S k =>
        let* d := nth_date o dir anchor i in
        if match dir with Forward => d <? limit | Backward => limit <? d end then
          let* t := date_loop k o dir anchor limit (i + 1) in Ok (d :: t)
        else Ok []
    end.

  (* Enough iterations for every input, see ScheduleProofs. *)
  Definition loop_fuel (s e : date) : nat := Z.to_nat (e - s + 40 + Z.of_nat (search_fuel c)).

  (* schedule.py:417-532; [roll_user] is roll_user_specified_dates. For ZERO_COUPON the addition of None is a TypeError. *)
  Definition generate_date_schedule (s e : date) (f : freq) (dir : direction) (roll_user : bool) : result schedule :=
    if e <=? s then Err ValueError else
    let* s' := if roll_user then busday_offset c s 0 rc else Ok s in
    let* e' := if roll_user then busday_offset c e 0 rc else Ok e in
    match freq_offset f with
    | None => Err TypeError
    | Some o =>
        match dir with
        | Forward =>
            let* ds := date_loop (loop_fuel s e) o Forward s e 1 in
            Ok (s' :: ds, ds ++ [e'])
        | Backward =>
            let* ds := date_loop (loop_fuel s e) o Backward e s 1 in
            Ok (rev (ds ++ [s']), rev (e' :: ds))
        end
    end.

  (* d1 = [d1[0]] + d1[2:]; d2 = d2[1:]   (schedule.py:296-297, 392-393, 408-409) *)
  Definition merge_first (p : schedule) : result schedule :=
    match fst p with
    | [] => Err IndexError
    | x :: t => Ok (x :: tl t, tl (snd p))
    end.

  (* d2[-1], IndexError on the empty list *)
  Definition py_last (l : list date) : result date :=
    match rev l with [] => Err IndexError | x :: _ => Ok x end.

  (* d1 = d1[:-1]; d2 = d2[:-2] + [d2[-1]]   (schedule.py:301-302, 384-385, 402-403) *)
  Definition merge_last (p : schedule) : result schedule :=
    let* x := py_last (snd p) in
    Ok (removelast (fst p), removelast (removelast (snd p)) ++ [x]).

  (* pd.DataFrame({'period_start': d1, 'period_end': d2}), schedule.py:413: columns of different lengths are a ValueError *)
  Definition to_frame (p : schedule) : result schedule :=
    if (length (fst p) =? length (snd p))%nat then Ok p else Err ValueError.

  (* l[0], l[1], l[-1], l[-2] *)
  Definition py_nth (l : list date) (i : nat) : result date :=
    match nth_error l i with Some x => Ok x | None => Err IndexError end.
  Definition py_nth_last (l : list date) (i : nat) : result date := py_nth (rev l) i.

  Definition opt_eqb (a b : option date) : bool :=
    match a, b with Some x, Some y => x =? y | None, None => true | _, _ => false end.

  (* schedule.py:278-306: neither first_period_end nor last_period_start given *)
  Definition schedule_by_stubs (s e : date) (f : freq) (first_stub last_stub : stub) (ru : bool) : result schedule :=
    let* _ := guard (negb (stub_eqb first_stub StubDefinedFirst)) AssertionError in
    let* _ := guard (negb (stub_eqb last_stub StubDefinedLast)) AssertionError in
    let* fl :=
      if stub_eqb first_stub StubDefault && stub_eqb last_stub StubDefault then Ok (market_convention, StubNone)
      else if stub_eqb first_stub StubDefault then Ok (StubNone, last_stub)
      else if stub_eqb last_stub StubDefault then Ok (first_stub, StubNone)
      else Err ValueError in
    let '(fs, ls) := fl in
    if stub_eqb ls StubNone then
      let* p := generate_date_schedule s e f Backward ru in
      if stub_eqb fs StubLong then merge_first p else Ok p
    else if stub_eqb fs StubNone && negb (stub_eqb ls StubNone) then
      let* p := generate_date_schedule s e f Forward ru in
      if stub_eqb ls StubLong then merge_last p else Ok p
    else Err ValueError. (* both remaining branches, schedule.py:303-306 *)

  (* schedule.py:327-339: the first stub and the direction it asks for *)
  Definition match_first (fpe : option date) (pb pf : schedule) (first_stub : stub) : result (stub * list direction) :=
    match fpe with
    | None => Ok (first_stub, [])
    | Some x =>
        let* a := py_nth (snd pf) 0 in
        if x =? a then Ok (StubNone, [Forward]) else
        let* b := py_nth (snd pb) 0 in
        if x =? b then Ok (StubShort, [Backward]) else
        let* b1 := py_nth (snd pb) 1 in
        if x =? b1 then Ok (StubLong, [Backward]) else Ok (StubDefinedFirst, [])
    end.

  (* schedule.py:342-354 *)
  Definition match_last (lps : option date) (pb pf : schedule) (last_stub : stub) : result (stub * list direction) :=
    match lps with
    | None => Ok (last_stub, [])
    | Some x =>
        let* a := py_nth_last (fst pb) 0 in
        if x =? a then Ok (StubNone, [Backward]) else
        let* b := py_nth_last (fst pf) 0 in
        if x =? b then Ok (StubShort, [Forward]) else
        let* b1 := py_nth_last (fst pf) 1 in
        if x =? b1 then Ok (StubLong, [Forward]) else Ok (StubDefinedLast, [])
    end.

  (* schedule.py:359-364 and 365-370 *)
  Definition default_first (fs ls : stub) : result stub :=
    if stub_eqb fs StubDefault && negb (stub_eqb ls StubDefinedLast) then
      let* _ := guard (negb (stub_eqb ls StubDefault)) AssertionError in
      Ok (if stub_eqb ls StubNone then market_convention else StubNone)
    else Ok fs.
  Definition default_last (fs ls : stub) : result stub :=
    if stub_eqb ls StubDefault && negb (stub_eqb fs StubDefinedFirst) then
      let* _ := guard (negb (stub_eqb fs StubDefault)) AssertionError in
      Ok (if stub_eqb fs StubNone then market_convention else StubNone)
    else Ok ls.

  (* len(set(direction)) == 1, schedule.py:396 *)
  Definition one_direction (l : list direction) : bool :=
    match l with [] => false | x :: t => forallb (direction_eqb x) t end.

  (* Dates passed on to generate_date_schedule that may be None: comparing None with a Timestamp raises TypeError
     (its isinstance check, schedule.py:480-481). *)
  Definition the_date (d : option date) : result date := match d with Some x => Ok x | None => Err TypeError end.

  (* schedule.py:308-411 *)
  Definition schedule_by_dates (s e : date) (f : freq) (fpe lps : option date) (first_stub last_stub : stub) (ru : bool)
    : result schedule :=
    let* pb := generate_date_schedule s e f Backward ru in
    let* pf := generate_date_schedule s e f Forward ru in
    let* m1 := match_first fpe pb pf first_stub in
    let* m2 := match_last lps pb pf last_stub in
    let dirs := snd m1 ++ snd m2 in
    let* fs := default_first (fst m1) (fst m2) in
    let* ls := default_last fs (fst m2) in
    if stub_eqb fs StubDefinedFirst && stub_eqb ls StubDefinedLast then
      let* a := the_date fpe in
      let* b := the_date lps in
      let* p := generate_date_schedule a b f Backward ru in
      Ok (s :: fst p ++ [b], a :: snd p ++ [e])
    else if stub_eqb fs StubDefinedFirst && negb (stub_eqb ls StubDefinedLast) then
      let* a := the_date fpe in
      let* p := generate_date_schedule a e f Forward ru in
      let p' := (s :: fst p, a :: snd p) in
      if stub_eqb ls StubLong then merge_last p' else Ok p'
    else if negb (stub_eqb fs StubDefinedFirst) && stub_eqb ls StubDefinedLast then
      let* b := the_date lps in
      let* p := generate_date_schedule s b f Backward ru in
      let p' := (fst p ++ [b], snd p ++ [e]) in
      if stub_eqb fs StubLong then merge_first p' else Ok p'
    else
      let* _ := guard (one_direction dirs) AssertionError in
      if stub_eqb fs StubNone then
        (if stub_eqb ls StubLong then merge_last pf else Ok pf)
      else if stub_eqb ls StubNone then
        (if stub_eqb fs StubLong then merge_first pb else Ok pb)
      else Err ValueError.

  (* schedule.py:199-414 *)
  Definition make_schedule (s e : date) (f : freq) (fpe lps : option date) (first_stub last_stub : stub) (ru : bool)
    : result schedule :=
    if e <=? s then Err ValueError else
    let* _ := match fpe with None => Ok tt | Some x => guard ((s <? x) && (x <=? e)) AssertionError end in
    let* _ := match lps with None => Ok tt | Some x => guard ((s <=? x) && (x <? e)) AssertionError end in
    let* p :=
      if match f with ZeroCoupon => true | _ => false end || opt_eqb fpe (Some e) || opt_eqb lps (Some s)
      then Ok ([s], [e])
      else match fpe, lps with
           | Some a, Some b =>
               if a =? b then Ok ([s; a], [b; e]) else schedule_by_dates s e f fpe lps first_stub last_stub ru
           | None, None => schedule_by_stubs s e f first_stub last_stub ru
           | _, _ => schedule_by_dates s e f fpe lps first_stub last_stub ru
           end in
    to_frame p.

  (* BaseSchedule.make_schedule, schedule.py:41-59: the schedule and the object's start_date and end_date afterwards *)
  Definition base_schedule (s e : date) (f : freq) (fpe lps : option date) (first_stub last_stub : stub) (ru : bool)
    : result (schedule * date * date) :=
    let* p := make_schedule s e f fpe lps first_stub last_stub ru in
    if ru then
      let* a := py_nth (fst p) 0 in
      let* b := py_last (snd p) in
      Ok (p, a, b)
    else Ok (p, s, e).

  (* TimingConvention, frm/enums/utils.py:472-474; other values raise ValueError at schedule.py:82-83 *)
  Inductive timing : Set := InAdvance | InArrears | OtherTiming.

  (* np.busday_offset on a vector: the roll is parsed before any date is looked at *)
  Definition busday_offsets (ds : list date) (n : Z) : result (list date) :=
    match rc with
    | Unadjusted => Err ValueError
    | _ => sequence (map (fun d => busday_offset c d n rc) ds)
    end.

  (* rows of the frame: period_start and period_end, None = NaT *)
  Definition period_rows := list (option date * option date).

  (* adjusted[mask] = rolled valid dates, adjusted[~mask] = NaT *)
  Fixpoint scatter {A B} (mask : list (option A)) (vals : list B) : list (option B) :=
    match mask, vals with
    | Some _ :: m, v :: vs => Some v :: scatter m vs
    | Some _ :: m, [] => None :: scatter m []
    | None :: m, vs => None :: scatter m vs
    | [], _ => []
    end.

  Definition valid_dates {A} (l : list (option A)) : list A :=
    flat_map (fun o => match o with Some x => [x] | None => [] end) l.

  (* BaseSchedule.add_payment_dates, schedule.py:61-95: the new column *)
  Definition add_payment_dates (rows : period_rows) (delay : Z) (t : timing) : result (list (option date)) :=
    let* ds := match t with
               | InArrears => Ok (map snd rows)
               | InAdvance => Ok (map fst rows)
               | OtherTiming => Err ValueError
               end in
    let* vs := busday_offsets (valid_dates ds) delay in
    Ok (scatter ds vs).

  (* rows where both dates are present, schedule.py:108, 123 *)
  Definition both_dates (rows : period_rows) : list (option (date * date)) :=
    map (fun r => match r with (Some a, Some b) => Some (a, b) | _ => None end) rows.

  (* assignment of a scalar or an array to the masked cells *)
  Definition out_list {A} (n : nat) (o : out A) : list A :=
    match o with Scalar x => repeat x n | Vector l => l end.

  (* BaseSchedule.add_period_daycount, schedule.py:97-111: the new column *)
  Definition add_period_daycount (rows : period_rows) (b : basis) : result (list (option Z)) :=
    let ps := both_dates rows in
    let v := valid_dates ps in
    let* o := day_count (map fst v) (map snd v) b None in
    Ok (scatter ps (out_list (length v) o)).

  (* BaseSchedule.add_period_yearfrac, schedule.py:113-126: the new column *)
  Definition add_period_yearfrac (rows : period_rows) (b : basis) : result (list (option Q)) :=
    let ps := both_dates rows in
    let v := valid_dates ps in
    let* o := year_frac (map fst v) (map snd v) b None in
    Ok (scatter ps (out_list (length v) o)).
End Generate.
