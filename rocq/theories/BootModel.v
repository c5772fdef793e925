(* Model of frm/term_structures/bootstrap_helpers.py.
   Data frames are records of optional columns of equal length with a unique index. Missing numbers (NaN, infinities) are None. *)
From Coq Require Import String Ascii ZArith QArith Qreals Reals List Bool.
From Verif Require Import Base Date BusDayModel DayCountModel TenorModel ScheduleModel NumModel CurveModel.
Import ListNotations.
Open Scope R_scope.

(* The columns of a frame of cash rates. *)
Record cash_frame : Type := {
  c_rate : option (list R); c_tenor : option (list string); c_eff : option (list date); c_mat : option (list date);
  c_delay : option (list bool); c_period : option (list R) }.

(* df['x'] *)
Definition column_of {A} (o : option A) : result A := match o with Some x => Ok x | None => Err KeyError end.
Definition present {A} (o : option A) : bool := match o with Some _ => true | None => false end.

(* year_frac(series, series) or year_frac(date, series) as a column *)
Definition years_column (s e : list date) (b : basis) (n : nat) : result (list R) :=
  let* o := year_frac s e b None in Ok (map Q2R (out_list n o)).

(* lines 11-39. The frame returned is the caller's frame. *)
Definition cash_rates_quote_helper (f : cash_frame) (curve_date : date) (b : basis) (settlement_delay : option Z) (settlement_date : option date)
    (cal : calendar) : result cash_frame :=
  let* _ := guard (present (c_rate f)) AssertionError in
  let* _ := guard (present (c_tenor f) || (present (c_eff f) && present (c_mat f))) AssertionError in
  let* tenor := column_of (c_tenor f) in
  let tenor := map clean_tenor tenor in
  let* settle := match settlement_date with
                 | Some d => Ok d
                 | None => match settlement_delay with Some n => workday curve_date n cal | None => Err AssertionError end
                 end in
  let delays := map (fun t => negb (t =? "on")%string) tenor in
  let '(eff, delay) := match c_eff f with
                       | Some l => (l, c_delay f)
                       | None => (map (fun d : bool => if d then settle else curve_date) delays, Some delays)
                       end in
  let* mat := match c_mat f with
              | Some l => Ok l
              | None =>
                  let* offs := sequence (map tenor_to_date_offset tenor) in
                  sequence (map2 (fun d o => workday (add_offset d o) 0 cal) eff offs)
              end in
  let* per := years_column eff mat b (length mat) in
  Ok {| c_rate := c_rate f; c_tenor := Some tenor; c_eff := Some eff; c_mat := Some mat; c_delay := delay; c_period := Some per |}.

(* ---- cash rates ---- *)
(* One row of the frame during bootstrap_cash_rates *)
Record cash_row : Type := {
  b_delayed : bool; b_eff : date; b_mat : date; b_rate : R; b_tau : R; b_eff_years : R; b_mat_years : R; b_eff_df : option R; b_mat_df : option R }.

(* df.sort_values(by=..), the order of rows with equal keys is left unspecified by pandas *)
Fixpoint insert_by {A} (key : A -> Z) (x : A) (l : list A) : list A :=
  match l with
  | [] => [x]
  | y :: t => if (key x <=? key y)%Z then x :: l else y :: insert_by key x t
  end.
Definition sort_by {A} (key : A -> Z) (l : list A) : list A := fold_right (insert_by key) [] l.

(* scipy interp1d(X, Y, kind='linear')(x): sorts the points and raises ValueError outside their range; raises on no points *)
Definition interp_inside (pts : list (R * option R)) (x : R) : result (option R) :=
  match sort_rows fst pts with
  | [] => Err IndexError
  | p :: t =>
      let* _ := guard (if Rlt_dec x (fst p) then false else true) ValueError in
      let* _ := guard (if Rlt_dec (fst (last t p)) x then false else true) ValueError in
      Ok (np_interp (p :: t) x)
  end.

Definition knot (r : cash_row) : R * option R := (b_mat_years r, b_mat_df r).
Definition with_dfs (r : cash_row) (e m : option R) : cash_row :=
  {| b_delayed := b_delayed r; b_eff := b_eff r; b_mat := b_mat r; b_rate := b_rate r; b_tau := b_tau r; b_eff_years := b_eff_years r;
     b_mat_years := b_mat_years r; b_eff_df := e; b_mat_df := m |}.

(* lines 53-66, the row r of the frame [all]. row['rate'] is a Python float, so line 55 raises on a zero denominator. *)
Definition cash_step (all : list cash_row) (r : cash_row) : result cash_row :=
  let growth := 1 + b_rate r * b_tau r in
  if b_delayed r then
    let pts := map knot (filter (fun q => (b_mat q <=? b_eff r)%Z) all) in
    let* l := interp_inside (map (fun p => (fst p, nan_log (snd p))) pts) (b_eff_years r) in
    let e := option_map exp l in
    Ok (with_dfs r e (nan_div e (Some growth)))
  else
    let* _ := guard (if Req_EM_T growth 0 then false else true) ZeroDivisionError in
    Ok (with_dfs r (Some 1) (Some (1 / growth))).

(* lines 52-66: for i, row in df.iterrows() *)
Fixpoint cash_loop (done rest : list cash_row) : result (list cash_row) :=
  match rest with
  | [] => Ok done
  | r :: t => let* r' := cash_step (done ++ r :: t) r in cash_loop (done ++ [r']) t
  end.

(* what lines 46-49 start from: flag, effective date, maturity date, rate, period years *)
Record cash_quote : Type := { k_delayed : bool; k_eff : date; k_mat : date; k_rate : R; k_tau : R }.

(* lines 41-70 *)
Definition bootstrap_cash_rates (qs : list cash_quote) (curve_date : date) (b : basis) : result (list cash_row) :=
  let* ey := years_column [curve_date] (map k_eff qs) b (length qs) in
  let* my := years_column [curve_date] (map k_mat qs) b (length qs) in
  let rows := map (fun p => let '(q, (x, y)) := p in
    {| b_delayed := k_delayed q; b_eff := k_eff q; b_mat := k_mat q; b_rate := k_rate q; b_tau := k_tau q; b_eff_years := x; b_mat_years := y;
       b_eff_df := None; b_mat_df := None |}) (combine qs (combine ey my)) in
  cash_loop [] (sort_by b_mat rows).

(* The frame as rows; the columns used by the loop only are looked up row by row, so an empty frame needs none of them. *)
Definition bootstrap_cash_frame (f : cash_frame) (curve_date : date) (b : basis) : result (list cash_row) :=
  let* eff := column_of (c_eff f) in
  let* mat := column_of (c_mat f) in
  match mat with
  | [] => bootstrap_cash_rates [] curve_date b
  | _ =>
      let* delay := column_of (c_delay f) in
      let* rate := column_of (c_rate f) in
      let* per := column_of (c_period f) in
      bootstrap_cash_rates (map (fun p => let '(d, e, m, r, t) := p in {| k_delayed := d; k_eff := e; k_mat := m; k_rate := r; k_tau := t |})
        (combine (combine (combine (combine delay eff) mat) rate) per)) curve_date b
  end.

(* ---- futures ---- *)
Record futures_frame : Type := {
  f_price : option (list R); f_rate : option (list R); f_convexity : option (list R); f_forward : option (list R); f_eff : list date; f_mat : list date }.

(* lines 81-86 *)
Definition forward_column (f : futures_frame) : result (list R) :=
  let* rate := match f_rate f with
               | Some l => Ok l
               | None => let* p := column_of (f_price f) in Ok (map (fun x => (100 - x) / 100) p)
               end in
  let* conv := match f_convexity f with
               | Some l => Ok l
               | None => let* _ := column_of (f_price f) in Ok (map (fun _ => 0) (f_eff f))
               end in
  match f_forward f with
  | Some l => Ok l
  | None => Ok (map2 (fun r c => r - c / 10000) rate conv)
  end.

Record futures_row : Type := {
  r_eff : date; r_mat : date; r_fwd : R; r_tau : R; r_eff_years : R; r_mat_years : R; r_eff_df : option R; r_mat_df : option R }.

(* the line through two points *)
Definition line (p q : R * option R) (x : R) : option R :=
  let? y0 := snd p in let? y1 := snd q in
  let? slope := np_div (y1 - y0) (fst q - fst p) in Some (slope * (x - fst p) + y0).
(* scipy interp1d(X, Y, kind='linear', fill_value='extrapolate')(x): the segment ends at the first point from x on, but not before the
   second point and not after the last one. A single point gives NaN. *)
Fixpoint extrapolate (p q : R * option R) (t : list (R * option R)) (x : R) : option R :=
  match t with
  | [] => line p q x
  | r :: t' => if Rle_dec x (fst q) then line p q x else extrapolate q r t' x
  end.
Definition interp_anywhere (pts : list (R * option R)) (x : R) : result (option R) :=
  match sort_rows fst pts with
  | [] => Err IndexError
  | [_] => Ok None
  | p :: q :: t => Ok (extrapolate p q t x)
  end.

(* lines 97-106; [pts] are X and Y *)
Fixpoint futures_loop (pts : list (R * option R)) (rows : list futures_row) : result (list futures_row) :=
  match rows with
  | [] => Ok []
  | r :: t =>
      let* l := interp_anywhere pts (r_eff_years r) in
      let e := option_map exp l in
      let m := nan_div e (Some (1 + r_fwd r * r_tau r)) in
      let r' := {| r_eff := r_eff r; r_mat := r_mat r; r_fwd := r_fwd r; r_tau := r_tau r; r_eff_years := r_eff_years r; r_mat_years := r_mat_years r;
                   r_eff_df := e; r_mat_df := m |} in
      let* t' := futures_loop (pts ++ [(r_mat_years r, nan_log m)]) t in
      Ok (r' :: t')
  end.

(* lines 74-108; [cash] are the columns maturity_date_years and maturity_date_discount_factor of cash_rates_df *)
Definition bootstrap_futures (f : futures_frame) (curve_date : date) (cash : list (R * option R)) (b b_years : basis) : result (list futures_row) :=
  let n := length (f_eff f) in
  let* fwd := forward_column f in
  let* tau := years_column (f_eff f) (f_mat f) b n in
  let* ey := years_column [curve_date] (f_eff f) b_years n in
  let* my := years_column [curve_date] (f_mat f) b_years n in
  let rows := map (fun p => let '((e, m), (w, t), (x, y)) := p in
    {| r_eff := e; r_mat := m; r_fwd := w; r_tau := t; r_eff_years := x; r_mat_years := y; r_eff_df := None; r_mat_df := None |})
    (combine (combine (combine (f_eff f) (f_mat f)) (combine fwd tau)) (combine ey my)) in
  futures_loop (map (fun p => (fst p, nan_log (snd p))) cash) (sort_by r_eff rows).

(* ---- ASX 90 day bank bill futures ---- *)
Open Scope string_scope.

(* str.strip() *)
Definition is_blank (a : ascii) : bool :=
  let n := nat_of_ascii a in ((9 <=? n)%nat && (n <=? 13)%nat) || ((28 <=? n)%nat && (n <=? 32)%nat).
Fixpoint lstrip (s : string) : string :=
  match s with String a t => if is_blank a then lstrip t else s | EmptyString => s end.
Fixpoint rstrip (s : string) : string :=
  match s with
  | EmptyString => EmptyString
  | String a t => match rstrip t with EmptyString => if is_blank a then EmptyString else String a EmptyString | r => String a r end
  end.
Definition strip (s : string) : string := rstrip (lstrip s).

(* line 129 *)
Definition month_of_code (a : ascii) : option Z :=
  match a with
  | "H"%char => Some 3%Z
  | "M"%char => Some 6%Z
  | "U"%char => Some 9%Z
  | "Z"%char => Some 12%Z
  | _ => None
  end.

(* lines 134-147, from the integer of the year code *)
Definition resolve_year (n : Z) : result Z :=
  if (n <? 10)%Z then Ok (2020 + n)%Z
  else if (n <? 100)%Z then Ok (2000 + n)%Z
  else if (1000 <=? n)%Z && (n <? 10000)%Z then Ok n
  else Err ValueError.

(* lines 123-149 for the whole column: every check is made for all rows before the next one *)
Definition decode_tickers (ts : list string) : result (list (Z * Z)) :=
  let ts := map (fun t => strip (upper t)) ts in
  let* _ := guard (forallb (fun t => substring 0 2 t =? "IR")%string ts) AssertionError in
  let months := map (fun t => match get 2 t with Some a => month_of_code a | None => None end) ts in
  let* _ := guard (forallb (fun m => match m with Some _ => true | None => false end) months) AssertionError in
  let* _ := guard (forallb (fun t => existsb (Nat.eqb (String.length t)) [1; 2; 4]%nat) ts) AssertionError in
  let* codes := sequence (map (fun t => py_int (substring 3 (String.length t - 3) t)) ts) in
  let* years := sequence (map resolve_year codes) in
  Ok (combine years (valid_dates months)).

(* pd.date_range(a, b, freq='W-FRI') *)
Definition fridays (a c : date) : list date := filter (fun d => (weekday d =? 4)%Z) (date_range a c).
(* line 170: one weekday back *)
Definition previous_weekday (d : date) : date :=
  if (weekday d =? 0)%Z then (d - 3)%Z else if (weekday d =? 6)%Z then (d - 2)%Z else (d - 1)%Z.

(* lines 158-170: the dates of the contracts listed, in chronological order *)
Definition contract_dates (cs : list (Z * Z)) (ym : Z * Z) : result (list (date * date)) :=
  if existsb (fun c => (fst c =? fst ym)%Z && (snd c =? snd ym)%Z) cs then
    let start := mk (fst ym) (snd ym) 1 in
    match nth_error (fridays start (month_end start)) 1 with
    | Some s => Ok [(previous_weekday s, s)]
    | None => Err IndexError
    end
  else Ok [].
Definition years_from (a c : Z) : list Z := map (fun i => (a + Z.of_nat i)%Z) (seq 0 (Z.to_nat (c - a + 1))).

Record asx_row : Type := { a_expiry : date; a_settlement : date; a_effective : date; a_maturity : date }.

(* lines 158-178 for the rows (year, month); [cal] is the AU-SYDNEY calendar *)
Definition asx_dates (cs : list (Z * Z)) (cal : calendar) : result (list asx_row) :=
  match cs with
  | [] => Err TypeError
  | c0 :: ct =>
      let lo := fold_left Z.min (map fst ct) (fst c0) in
      let hi := fold_left Z.max (map fst ct) (fst c0) in
      let* ds := sequence (map (contract_dates cs) (flat_map (fun y => map (fun m => (y, m)) [3; 6; 9; 12]%Z) (years_from lo hi))) in
      let ds := concat ds in
      let* _ := guard (Nat.eqb (length ds) (length cs)) ValueError in
      sequence (map (fun p => let* m := workday (add_months (snd p) 3) 0 cal in
        Ok {| a_expiry := fst p; a_settlement := snd p; a_effective := snd p; a_maturity := m |}) ds)
  end.

(* The frame: years and months columns, or the ticker column *)
Definition futures_helper_asx_90day (years_months : option (list (Z * Z))) (tickers : option (list string)) (cal : calendar) : result (list asx_row) :=
  let* cs := match years_months, tickers with
             | Some l, _ => Ok l
             | None, Some ts => decode_tickers ts
             | None, None => Err KeyError
             end in
  asx_dates cs cal.

(* line 183 *)
Definition asx_futures_rate (price : R) : R := ((100 - price) * (1 / 100))%R.
