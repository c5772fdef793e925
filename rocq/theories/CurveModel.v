(* Model of ZeroCurve (frm/term_structures/zero_curve.py).
   A DataFrame is a list of columns or of row records. NaN and infinities are None. flat_shift (lines 196-207) and plot are not
   modelled. Cubic splines (scipy splrep/splev) are an arbitrary function of the points. *)
From Coq Require Import String ZArith QArith Qreals Reals List Bool.
From Verif Require Import Base Date BusDayModel DayCountModel TenorModel ScheduleModel LegModel NumModel CompModel.
Import ListNotations.
Open Scope R_scope.

(* The columns of pillar_df; ColOther is a column of another name. The names of a frame are distinct, its columns equally long. *)
Inductive column : Type :=
| ColTenor (l : list string) | ColDate (l : list date) | ColDays (l : list Z) | ColYears (l : list R)
| ColZeroRate (l : list R) | ColDF (l : list R)
| ColOther.
Definition frame := list column.

Definition is_x (c : column) : bool := match c with ColTenor _ | ColDate _ | ColDays _ | ColYears _ => true | _ => false end.
Definition is_y (c : column) : bool := match c with ColZeroRate _ | ColDF _ => true | _ => false end.
Definition is_zero_rate (c : column) : bool := match c with ColZeroRate _ => true | _ => false end.

(* ZeroCurveInterpMethod and ZeroCurveExtrapMethod, frm/enums/utils.py:12-93. OtherInterp: any other argument. *)
Inductive interp_method : Set := LinearLn | SplineLn | SplineCczr | OtherInterp.
Inductive extrap_method : Set := ExtrapNone | ExtrapFlat | OtherExtrap.

(* a row of pillar_df after processing; the date is missing when the years column was given *)
Record pillar : Type := { p_date : option date; p_years : R; p_cczr : option R; p_df : option R }.
(* a row of daily_df *)
Record daily : Type := { d_date : date; d_days : Z; d_years : Q; d_cczr : option R; d_df : option R }.

(* a fitted spline and its first derivative *)
Record spline : Type := { sp_at : R -> option R; sp_deriv : R -> option R }.

Record zero_curve : Type := {
  z_date : date; z_basis : basis; z_cal : calendar; z_interp : interp_method; z_extrap : extrap_method;
  z_pillars : list pillar; z_spline : option spline; z_daily : list daily; z_last : date
}.

(* np.interp with increasing xp: constant outside, linear between the neighbours *)
Fixpoint interp_from (p : R * option R) (l : list (R * option R)) (x : R) : option R :=
  match l with
  | [] => snd p
  | q :: t =>
      if Rle_dec (fst q) x then interp_from q t x
      else if Req_EM_T x (fst p) then snd p
      else let? y0 := snd p in let? y1 := snd q in
           let? slope := np_div (y1 - y0) (fst q - fst p) in Some (slope * (x - fst p) + y0)
  end.
Definition np_interp (l : list (R * option R)) (x : R) : option R :=
  match l with
  | [] => None
  | p :: t => if Rlt_dec x (fst p) then snd p else interp_from p t x
  end.

(* DataFrame.sort_values(by='years'); the order of rows with equal years is left unspecified by pandas *)
Fixpoint insert_row {A} (key : A -> R) (x : A) (l : list A) : list A :=
  match l with
  | [] => [x]
  | y :: t => if Rle_dec (key x) (key y) then x :: l else y :: insert_row key x t
  end.
Definition sort_rows {A} (key : A -> R) (l : list A) : list A := fold_right (insert_row key) [] l.

(* int(x) of a float *)
Definition py_trunc (x : R) : Z := if Rle_dec 0 x then Int_part x else (- Int_part (- x))%Z.

(* pd.date_range(a, b, freq='d') *)
Definition date_range (a b : date) : list date := map (fun i => (a + Z.of_nat i)%Z) (seq 0 (Z.to_nat (b - a + 1))).

(* np.ndarray as list cells *)
Definition nan_div (a b : option R) : option R := let? x := a in let? y := b in np_div x y.
Definition nan_log (a : option R) : option R := let? x := a in np_log x.

Section Curve.
  (* scipy.interpolate.splrep and splev on the points: may raise *)
  Variable splrep : list (R * option R) -> result spline.

  Variable curve_date : date.
  Variable b : basis.
  Variable cal : calendar.
  Variable im : interp_method.

  (* lines 64-67, 70-84: the dates (None for the years column), the years, and the caller's frame with the columns added to it *)
  Definition process_x (x : column) : result (option (list date) * list R) :=
    let years_of (ds : list date) : result (list R) :=
      let* o := year_frac [curve_date] ds b None in Ok (map Q2R (out_list (length ds) o)) in
    match x with
    | ColTenor l =>
        let* os := sequence (map (fun s => tenor_to_date_offset (clean_tenor s)) l) in
        let* ds := sequence (map (fun o => busday_offset cal (add_offset curve_date o) 0 Following) os) in
        let* ys := years_of ds in Ok (Some ds, ys)
    | ColDate l => let* ys := years_of l in Ok (Some l, ys)
    | ColDays l =>
        let ds := map (fun n => (curve_date + n)%Z) l in
        let* ys := years_of ds in Ok (Some ds, ys)
    | ColYears l => Ok (None, l)
    | _ => Err ValueError
    end.

  (* The assignments of lines 65, 67, 71, 74 and 80 act on the DataFrame object passed by the caller. *)
  Definition mutated_frame (f : frame) (x : column) (ds : option (list date)) (ys : list R) : frame :=
    match x, ds with
    | ColTenor l, Some d =>
        (map (fun c => match c with ColTenor l => ColTenor (map clean_tenor l) | c => c end) f
          ++ [ColDate d; ColDays (map (fun e => (e - curve_date)%Z) d); ColYears ys])%list
    | ColDate l, Some d => (f ++ [ColDays (map (fun e => (e - curve_date)%Z) d); ColYears ys])%list
    | ColDays l, Some d => (f ++ [ColDate d; ColYears ys])%list
    | _, _ => f
    end.

  (* lines 89-97, one row *)
  Definition process_row (y : column) (freq : option comp) (years v : R) : option R * option R :=
    match y, freq with
    | ColZeroRate _, Some f => (df_from_zero_rate f years v, convert_rate_to f v Continuous)
    | _, _ => (Some v, let? l := np_log v in np_div (- l) years)
    end.

  Definition y_values (y : column) : list R := match y with ColZeroRate l | ColDF l => l | _ => [] end.
  Definition dates_or_none (n : nat) (ds : option (list date)) : list (option date) :=
    match ds with Some l => map Some l | None => repeat None n end.

  Definition ln_points (l : list pillar) : list (R * option R) := map (fun p => (p_years p, nan_log (p_df p))) l.
  Definition cczr_points (l : list pillar) : list (R * option R) := map (fun p => (p_years p, p_cczr p)) l.

  (* lines 103-144 *)
  Definition add_first_row (l : list pillar) : result (list pillar * option spline) :=
    match l with
    | [] => Err IndexError
    | p :: _ =>
        if Req_EM_T (p_years p) 0 then
          match im with
          | SplineLn => let* s := splrep (ln_points l) in Ok (l, Some s)
          | SplineCczr => let* s := splrep (cczr_points l) in Ok (l, Some s)
          | LinearLn | OtherInterp => Err ValueError
          end
        else
          let first c := {| p_date := match p_date p with Some _ => Some curve_date | None => None end;
                            p_years := 0; p_cczr := c; p_df := Some 1 |} in
          match im with
          | LinearLn => Ok (first (p_cczr p) :: l, None)
          | SplineLn =>
              let* s := splrep ((0, Some 0) :: ln_points l) in
              Ok (first (let? v := sp_at s (/ 1000000) in Some (- v / (/ 1000000))) :: l, Some s)
          | SplineCczr =>
              let* s := splrep (cczr_points l) in
              Ok (first (sp_at s 0) :: l, Some s)
          | OtherInterp => Err ValueError
          end
    end.

  (* lines 44-150 (with the check of lines 38-39): the pillars, the spline and the caller's frame afterwards *)
  Definition process_pillars (f : frame) (freq : option comp) : result (list pillar * option spline * frame) :=
    let* _ := guard (negb (match freq with None => true | _ => false end && existsb is_zero_rate f)) ValueError in
    let* _ := guard (length f =? 2)%nat ValueError in
    match filter is_x f with
    | [x] =>
        match filter is_y f with
        | [y] =>
            let* r := process_x x in
            let (ds, ys) := r in
            let rows := combine (combine (dates_or_none (length ys) ds) ys) (y_values y) in
            let sorted := sort_rows (fun q => snd (fst q)) rows in
            let pillars := map (fun q => match q with (d, t, v) =>
                             let (df, c) := process_row y freq t v in
                             {| p_date := d; p_years := t; p_cczr := c; p_df := df |} end) sorted in
            let* r := add_first_row pillars in
            let (ps, s) := r in
            Ok (ps, s, mutated_frame f x ds ys)
        | _ => Err ValueError
        end
    | _ => Err ValueError
    end.

  (* lines 158-161: while year_frac(curve_date, max_date) < max_years: max_date += 1 day *)
  Fixpoint extend (fuel : nat) (n : Z) (d : date) : result date :=
    match fuel with
    | O => Err OutOfFuel
    | S k =>
        let* o := year_frac [curve_date] [d] b None in
        match o with
        | Scalar q => if Qle_bool (inject_Z n) q then Ok d else extend k n (d + 1)%Z
        | Vector _ => Err ValueError
        end
    end.
  Definition max_of (x : R) (l : list R) : R := fold_left Rmax l x.

  (* lines 155-161 *)
  Definition last_date (ps : list pillar) : result date :=
    match ps with
    | [] => Err ValueError
    | p :: t =>
        match p_date p with
        | Some d => Ok (fold_left Z.max (valid_dates (map p_date t)) d)
        | None =>
            let n := py_trunc (max_of (p_years p) (map p_years t)) in
            let start := add_months curve_date (12 * n) in
            extend (Z.to_nat (366 * (n + 2))) n start
        end
    end.

  (* lines 167-193 *)
  Definition daily_cells (ps : list pillar) (s : option spline) (years : R) : option R * option R :=
    let of_ln l := (nan_div (option_map Ropp l) (Some years), option_map exp l) in
    match im, s with
    | LinearLn, _ => of_ln (np_interp (ln_points ps) years)
    | SplineLn, Some s => of_ln (sp_at s years)
    | SplineCczr, Some s => (sp_at s years, option_map (fun c => exp (- 1 * c * years)) (sp_at s years))
    | _, _ => (None, None)
    end.
  Definition setup_daily (ps : list pillar) (s : option spline) : result (list daily * date) :=
    let* m := last_date ps in
    let range := date_range curve_date m in
    let n := length range in
    let* days := day_count [curve_date] range b None in
    let* years := year_frac [curve_date] range b None in
    Ok (map (fun q => match q with (d, k, t) =>
               let (c, df) := daily_cells ps s (Q2R t) in
               {| d_date := d; d_days := k; d_years := t; d_cczr := c; d_df := df |} end)
            (combine (combine range (out_list n days)) (out_list n years)), m).

  (* ZeroCurve(...): the curve and the caller's frame afterwards, lines 35-42 *)
  Definition new_curve (f : frame) (freq : option comp) (em : extrap_method) : result (zero_curve * frame) :=
    let* r := process_pillars f freq in
    let '(ps, s, f') := r in
    let* r := setup_daily ps s in
    let (rows, m) := r in
    Ok ({| z_date := curve_date; z_basis := b; z_cal := cal; z_interp := im; z_extrap := em; z_pillars := ps; z_spline := s;
           z_daily := rows; z_last := m |}, f').
End Curve.

(* ---- lookups, lines 295-394 ---- *)
Definition find_day (z : zero_curve) (d : date) : option daily := find (fun r => (d_date r =? d)%Z) (z_daily z).

(* one row of the frame returned by index_daily_data: years, cczr, discount_factor *)
Record looked_up : Type := { u_years : option R; u_cczr : option R; u_df : option R }.
Definition missing_row : looked_up := {| u_years := None; u_cczr := None; u_df := None |}.
Definition row_of_daily (r : daily) : looked_up := {| u_years := Some (Q2R (d_years r)); u_cczr := d_cczr r; u_df := d_df r |}.

(* lines 375, 386, 388: comparisons with NaT are False, so NaT counts as in range; neither out-of-range list is ever extended
   because an enum member never equals a string (lines 366, 368, 380, 382) *)
Definition in_range (z : zero_curve) (o : option date) : bool := negb (cell_lt o (z_date z)) && negb (cell_gt o (z_last z)).
Definition index_dates (z : zero_curve) (ds : list (option date)) : result (list looked_up) :=
  match z_extrap z with
  | OtherExtrap => Err ValueError
  | _ =>
      Ok (map (fun o => match o with
                        | Some d => match find_day z d with Some r => row_of_daily r | None => missing_row end
                        | None => missing_row
                        end) (filter (in_range z) ds))
  end.

(* lines 330-345; self.interp_method == 'linear_on_ln_discount' is False for the enum member *)
Definition index_years (z : zero_curve) (ys : list R) : result (list looked_up) :=
  match z_interp z, z_spline z with
  | SplineLn, Some s =>
      Ok (map (fun t => let l := sp_at s t in
            {| u_years := Some t; u_cczr := nan_div (option_map Ropp l) (Some t); u_df := option_map exp l |}) ys)
  | SplineCczr, Some s =>
      Ok (map (fun t => let c := sp_at s t in
            {| u_years := Some t; u_cczr := c; u_df := option_map (fun c => exp (- 1 * c * t)) c |}) ys)
  | _, _ => Err ValueError
  end.

(* a scalar or a vector *)
Definition cells {A} (o : out A) : list A := match o with Scalar x => [x] | Vector l => l end.

(* lines 321-394; days is an integer *)
Definition index_daily_data (z : zero_curve) (dates : option (out (option date))) (days : option Z) (years : option (out R))
    : result (list looked_up) :=
  match dates, days, years with
  | Some o, None, None => index_dates z (cells o)
  | None, Some n, None => index_dates z [Some (z_date z + n)%Z]
  | None, None, Some ys => index_years z (cells ys)
  | _, _, _ => Err ValueError
  end.

(* the shape of the argument given first, lines 300 and 312: None when all are missing, true for a scalar *)
Definition first_is_scalar (dates : option (out (option date))) (days : option Z) (years : option (out R)) : option bool :=
  match dates, days, years with
  | Some (Scalar _), _, _ => Some true
  | Some (Vector _), _, _ => Some false
  | None, Some _, _ => Some true
  | None, None, Some (Scalar _) => Some true
  | None, None, Some (Vector _) => Some false
  | None, None, None => None
  end.
(* float(result[0]) or the array, lines 302 and 318 *)
Definition shape_result (scalar : bool) (l : list (option R)) : result (out (option R)) :=
  if scalar then match l with [] => Err IndexError | x :: _ => Ok (Scalar x) end else Ok (Vector l).

(* lines 295-302 *)
Definition get_discount_factors (z : zero_curve) (dates : option (out (option date))) (days : option Z) (years : option (out R))
    : result (out (option R)) :=
  match first_is_scalar dates days years with
  | None => Err StopIteration
  | Some scalar => let* l := index_daily_data z dates days years in shape_result scalar (map u_df l)
  end.

(* lines 305-318 *)
Definition get_zero_rates (z : zero_curve) (f : comp) (dates : option (out (option date))) (days : option Z)
    (years : option (out R)) : result (out (option R)) :=
  match first_is_scalar dates days years with
  | None => Err StopIteration
  | Some scalar =>
      let* l := index_daily_data z dates days years in
      shape_result scalar (map (fun u => match f with
        | Continuous => u_cczr u
        | _ => let? t := u_years u in let? d := u_df u in zero_rate_from_df f t d
        end) l)
  end.

(* lines 285-292: None is Python's None for linear curves *)
Definition get_instantaneous_forward_rate (z : zero_curve) (t : R) : result (option (option R)) :=
  match z_interp z, z_spline z with
  | SplineCczr, Some s =>
      let* r := get_zero_rates z Continuous None None (Some (Scalar t)) in
      match r with
      | Scalar c => Ok (Some (let? c := c in let? d := sp_deriv s t in Some (c + t * d)))
      | Vector _ => Err ValueError
      end
  | SplineLn, Some s => Ok (Some (let? d := sp_deriv s t in Some (- d)))
  | _, _ => Ok None
  end.

(* ---- forward rates, lines 209-283 ---- *)
(* TermRate and RFRFixingCalcMethod, frm/enums/term_structures.py:9-26 *)
Inductive forward_type : Set := FSimple | FContinuous | FAnnual | FDailyCompounded | FWeightedAverage | FSimpleAverage | FOther.

(* DayCountBasis.days_per_year, frm/enums/utils.py:185-195 *)
Definition days_per_year (b : basis) : option R :=
  match b with
  | B30_360 | B30E_360 | B30E_360_ISDA | ACT_360 => Some 360
  | ACT_365 => Some 365
  | ACT_366 => Some 366
  | ACT_ACT | OtherBasis => None
  end.

(* numpy broadcasting of two vectors *)
Definition broadcast {A B C} (f : A -> B -> C) (l : list A) (m : list B) : result (list C) :=
  if (length l =? length m)%nat then Ok (map2 f l m)
  else match l, m with
       | [x], _ => Ok (map (f x) m)
       | _, [y] => Ok (map (fun x => f x y) l)
       | _, _ => Err ValueError
       end.
(* a Series times or to the power of an array: the result must have the length of the Series *)
Definition with_series {A B C} (f : A -> B -> C) (s : list A) (a : list B) : result (list C) :=
  if (length a =? length s)%nat then Ok (map2 f s a)
  else match a with [y] => Ok (map (fun x => f x y) s) | _ => Err ValueError end.

(* Series.mean(): NaN is skipped; the mean of nothing is NaN *)
Definition series_mean (l : list (option R)) : option R :=
  let v := valid_dates l in
  match v with [] => None | _ => Some (fold_right Rplus 0 v / INR (length v)) end.

Definition all_dates (l : list (option date)) : result (list date) := sequence (map (fun o => match o with Some d => Ok d | None => Err AssertionError end) l).

(* DatetimeIndex.min() and max() *)
Definition min_date (x : date) (l : list date) : date := fold_left Z.min l x.
Definition max_date (x : date) (l : list date) : date := fold_left Z.max l x.

Definition vector_dfs (z : zero_curve) (ds : list date) : result (list (option R)) :=
  let* o := get_discount_factors z (Some (Vector (map Some ds))) None None in Ok (cells o).

(* lines 232-268 *)
Definition average_forwards (z : zero_curve) (business_days_only : bool) (s e : list date) : result (list (option R)) :=
  match s, e with
  | s0 :: st, e0 :: et =>
      let dates := date_range (min_date s0 st) (max_date e0 et) in
      let* dfs := vector_dfs z dates in
      let mult := map2 nan_div (removelast dfs) (tl dfs) in
      let rate := map (fun m => let? m := m in let? n := days_per_year (z_basis z) in Some ((m - 1) * n)) mult in
      let days := removelast dates in
      let* _ := guard (length rate =? length days)%nat ValueError in
      Ok (map2 (fun a c => series_mean (map snd (filter (fun q =>
             (a <=? fst q)%Z && (fst q <? c)%Z && (negb business_days_only || is_busday (z_cal z) (fst q))) (combine days rate)))) s e)
  | _, _ => Err ValueError
  end.

(* lines 270-283 *)
Definition period_forwards (z : zero_curve) (ft : forward_type) (s e : list date) : result (list (option R)) :=
  let* o := year_frac s e (z_basis z) None in
  let dt := map (fun q => Q2R q) (out_list 1 o) in
  let inv := map (fun t => np_div 1 t) dt in
  let* d1 := vector_dfs z s in
  let* d2 := vector_dfs z e in
  match ft with
  | FSimple | FDailyCompounded =>
      let* q := broadcast nan_div d1 d2 in
      with_series (fun i q => let? i := i in let? q := q in Some (i * (q - 1))) inv q
  | FContinuous =>
      let* q := broadcast (fun a c => let? x := nan_log a in let? y := nan_log c in Some (x - y)) d1 d2 in
      with_series (fun i q => let? i := i in let? q := q in Some (i * q)) inv q
  | FAnnual =>
      let* q := broadcast nan_div d1 d2 in
      with_series (fun i q => let? i := i in let? q := q in let? p := np_pow q i in Some (p - 1)) inv q
  | _ => Err ValueError
  end.

(* get_forward_rates; a scalar argument becomes a one element index, lines 215-226 *)
Definition get_forward_rates (z : zero_curve) (s e : list (option date)) (ft : forward_type) : result (list (option R)) :=
  let* _ := guard (length s =? length e)%nat AssertionError in
  let* s := all_dates s in
  let* _ := guard (forallb (fun d => (z_date z <=? d)%Z) s) AssertionError in
  let* e := all_dates e in
  let* _ := guard (forallb (fun q => (fst q <=? snd q)%Z) (combine s e)) AssertionError in
  match ft with
  | FWeightedAverage => average_forwards z false s e
  | FSimpleAverage => average_forwards z true s e
  | _ => period_forwards z ft s e
  end.

(* discount_curve.get_discount_factors(dates) as a leg calls it on a column of its schedule, leg.py:168 *)
Definition curve_of (z : zero_curve) : curve := fun l =>
  match get_discount_factors z (Some (Vector l)) None None with Ok o => cells o | Err _ => [] end.
