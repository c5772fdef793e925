(* Model of frm/term_structures/historical_swap_index_fixings.py and frm/term_structures/swap_curve.py.
   A fixings table is a list of (date, fixing) with None for a NaN fixing and no missing dates. The period_start and period_end
   indexes are passed together as a list of pairs, so they have equal lengths. *)
From Coq Require Import ZArith QArith Qreals Reals List Bool.
From Verif Require Import Base Date BusDayModel DayCountModel ScheduleModel NumModel CurveModel.
Import ListNotations.
Open Scope R_scope.

Definition fixing : Type := (date * option R)%type.
Definition period : Type := (date * date)%type.

(* DataFrame.sort_values('date'); pandas leaves the order of rows with equal dates unspecified *)
Fixpoint insert_fixing (x : fixing) (l : list fixing) : list fixing :=
  match l with
  | [] => [x]
  | y :: t => if (fst x <=? fst y)%Z then x :: l else y :: insert_fixing x t
  end.
Definition sort_fixings (l : list fixing) : list fixing := fold_right insert_fixing [] l.

(* pd.merge_asof(.., direction='backward') against a sorted table: the last row that is not after d, NaN if there is none *)
Definition as_of (l : list fixing) (d : date) : option R :=
  fold_left (fun acc q => if (fst q <=? d)%Z then snd q else acc) l None.

(* RFRFixingCalcMethod, frm/enums/term_structures.py:9-12; RfrOther is any other value *)
Inductive rfr_method : Set := DailyCompounded | WeightedAverage | SimpleAverage | RfrOther.

Definition within (a c : date) (q : fixing) : bool := (a <=? fst q)%Z && (fst q <=? c)%Z.

(* historical_swap_index_fixings.py:53-76; [last] is the last day observed, n days_per_year (None is NaN) *)
Definition coupon_rate (n : option R) (fx : list fixing) (m : rfr_method) (first last : date) : result (option R) :=
  let own := filter (within first last) fx in
  match m with
  | SimpleAverage => Ok (series_mean (map snd own))
  | DailyCompounded =>
      let days := date_range first last in
      let interest := map (fun d => let? f := as_of own d in let? n := n in let? q := np_div f n in Some (1 + q)) days in
      let prod := fold_right Rmult 1 (valid_dates interest) in
      Ok (let? n := n in np_div ((prod - 1) * n) (INR (length days)))
  | WeightedAverage => Ok (series_mean (map (as_of own) (date_range first last)))
  | RfrOther => Err ValueError
  end.

(* historical_swap_index_fixings.py:32-51. The comparisons with the NaT that max() and min() of no dates return are False. *)
Definition get_coupon_rates (n : option R) (fx : list fixing) (ps : list period) (m : rfr_method) : result (list (option R)) :=
  match ps with
  | [] => Ok []
  | p0 :: pt =>
      let first := min_date (fst p0) (map fst pt) in
      let ends := map (fun p : period => (snd p - 1)%Z) pt in
      let lo := min_date (snd p0 - 1)%Z ends in
      let hi := max_date (snd p0 - 1)%Z ends in
      let applicable := sort_fixings (filter (within first hi) fx) in
      let* _ := match map fst applicable with
                | [] => Ok tt
                | d0 :: dt => guard (negb ((max_date d0 dt <? hi)%Z || (lo <? min_date d0 dt)%Z)) ValueError
                end in
      sequence (map (fun p : period => coupon_rate n applicable m (fst p) (snd p - 1)%Z) ps)
  end.

(* merge_asof raises on keys that are not sorted *)
Fixpoint dates_sorted (l : list fixing) : bool :=
  match l with
  | [] => true
  | x :: t => match t with [] => true | y :: _ => (fst x <=? fst y)%Z && dates_sorted t end
  end.

(* historical_swap_index_fixings.py:83-99; the requested dates are sorted for the merge and put back afterwards *)
Definition index_historical_fixings (fx : list fixing) (ds : list date) : result (list (option R)) :=
  let* _ := guard (dates_sorted fx) ValueError in
  Ok (map (as_of fx) ds).

(* ---- swap_curve.py ---- *)

(* a[mask] = v for vectors: v must have one element per true entry, or exactly one *)
Fixpoint place (mask : list bool) (a v : list (option R)) : list (option R) :=
  match mask, a with
  | true :: ms, _ :: t => match v with x :: w => x :: place ms t w | [] => a end
  | false :: ms, x :: t => x :: place ms t v
  | _, _ => a
  end.
Definition count_true (mask : list bool) : nat := length (filter (fun x => x) mask).
Definition assign (mask : list bool) (a v : list (option R)) : result (list (option R)) :=
  if (length v =? count_true mask)%nat then Ok (place mask a v)
  else match v with [x] => Ok (place mask a (repeat x (count_true mask))) | _ => Err ValueError end.

Definition forward_rates (z : zero_curve) (ps : list period) (ft : forward_type) : result (list (option R)) :=
  get_forward_rates z (map (fun p => Some (fst p)) ps) (map (fun p => Some (snd p)) ps) ft.

(* swap_curve.py:29-53 TermSwapCurve.get_fixings: both masks are period_start >= curve_date (lines 40 and 48) *)
Definition term_get_fixings (z : zero_curve) (fx : list fixing) (ps : list period) (ft : forward_type) : result (list (option R)) :=
  let empty := map (fun _ => None) ps in
  let future := fun p : period => (z_date z <=? fst p)%Z in
  let* fwd := forward_rates z (filter future ps) ft in
  let* a := assign (map future ps) empty fwd in
  let historical := fun p : period => (z_date z <=? fst p)%Z in
  let* hist := index_historical_fixings fx (map fst (filter historical ps)) in
  assign (map historical ps) a hist.

(* the RFR methods as forward_rate_type *)
Definition forward_of (m : rfr_method) : forward_type :=
  match m with DailyCompounded => FDailyCompounded | WeightedAverage => FWeightedAverage | SimpleAverage => FSimpleAverage | RfrOther => FOther end.

(* an array or a number combined with an array *)
Definition add2 (a c : option R) : option R := let? x := a in let? y := c in Some (x + y).
Definition mul2 (a c : option R) : option R := let? x := a in let? y := c in Some (x * y).

(* the parts of a period before and after c *)
Definition until (c : date) (p : period) : period := (fst p, c).
Definition from (c : date) (p : period) : period := (c, snd p).

(* swap_curve.py:102-125 _get_crossover_coupon_rate *)
Definition crossover_rates (z : zero_curve) (fx : list fixing) (ps : list period) (m : rfr_method) : result (list (option R)) :=
  let c := z_date z in
  let* oh := year_frac (map fst ps) [c] (z_basis z) None in
  let* of := year_frac [c] (map snd ps) (z_basis z) None in
  let th := map (fun q => Some (Q2R q)) (out_list 1 oh) in
  let tf := map (fun q => Some (Q2R q)) (out_list 1 of) in
  let* hist := get_coupon_rates (days_per_year (z_basis z)) fx (map (until c) ps) m in
  let* fwd := forward_rates z (map (from c) ps) (forward_of m) in
  let* a := broadcast mul2 th hist in
  let* one_a := Ok (map (add2 (Some 1)) a) in
  let* t1 := broadcast mul2 one_a tf in
  let* t2 := broadcast mul2 t1 fwd in
  let* total := broadcast add2 a t2 in
  let* len := broadcast add2 th tf in
  broadcast nan_div total len.

(* swap_curve.py:67-100 RFRSwapCurve.get_fixings *)
Definition rfr_get_fixings (z : zero_curve) (fx : list fixing) (ps : list period) (m : rfr_method) : result (list (option R)) :=
  let c := z_date z in
  let part (mask : period -> bool) (f : list period -> result (list (option R))) (a : list (option R)) :=
    if existsb mask ps then let* v := f (filter mask ps) in assign (map mask ps) a v else Ok a in
  let* a := part (fun p => (c <=? fst p)%Z) (fun l => forward_rates z l (forward_of m)) (map (fun _ => None) ps) in
  let* a := part (fun p => (snd p <=? c)%Z) (fun l => get_coupon_rates (days_per_year (z_basis z)) fx l m) a in
  part (fun p => (fst p <? c)%Z && (c <? snd p)%Z) (fun l => crossover_rates z fx l m) a.
