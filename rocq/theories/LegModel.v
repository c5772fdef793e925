(* Model of NotionalSchedule and CouponSchedule (frm/utils/schedule.py:129-192), Leg, FixedLeg, FloatTermLeg and FloatRFRLeg
   (frm/instruments/leg.py) and Swap (frm/instruments/swap.py).
   A DataFrame is a list of row records. A NaT date or NaN amount is None. Amounts are exact reals.
   ZerocouponLeg (leg.py:380-422) is not modelled: it calls discount_factor_from_zero_rate, which no module of the package defines. *)
From Coq Require Import ZArith QArith Qreals Reals List Bool.
From Verif Require Import Base Date BusDayModel DayCountModel ScheduleModel.
Import ListNotations.
Open Scope R_scope.

(* NaN propagates through arithmetic; Series.sum skips it. *)
Definition nan_mult (a b : option R) : option R :=
  match a, b with Some x, Some y => Some (x * y) | _, _ => None end.
Definition nan_plus (a b : option R) : option R :=
  match a, b with Some x, Some y => Some (x + y) | _, _ => None end.
Fixpoint nansum (l : list (option R)) : R :=
  match l with [] => 0 | Some x :: t => x + nansum t | None :: t => nansum t end.

(* Comparisons of a date cell with a date are False on NaT. *)
Definition cell_lt (a : option date) (b : date) : bool := match a with Some x => (x <? b)%Z | None => false end.
Definition cell_le (a : option date) (b : date) : bool := match a with Some x => (x <=? b)%Z | None => false end.
Definition cell_gt (a : option date) (b : date) : bool := match a with Some x => (b <? x)%Z | None => false end.
Definition cell_ge (a : option date) (b : date) : bool := match a with Some x => (b <=? x)%Z | None => false end.

(* ---- NotionalSchedule and CouponSchedule ---- *)

(* ExchangeNotionals, frm/enums/utils.py:525-545 *)
Inductive exchange : Set := ExStart | ExEnd | ExBoth | ExNeither.
Definition at_start (x : exchange) : bool := match x with ExStart | ExBoth => true | _ => false end.
Definition at_end (x : exchange) : bool := match x with ExEnd | ExBoth => true | _ => false end.

Record srow : Type := {
  s_start : option date; s_end : option date;      (* period_start, period_end *)
  s_notional : R; s_npay : R;                      (* notional, notional_payment *)
  s_ndate : option date; s_cdate : option date     (* notional_payment_date, coupon_payment_date *)
}.
Definition dates_of_rows (l : list srow) : period_rows := map (fun r => (s_start r, s_end r)) l.

(* df.loc[df.index[-1], 'notional_payment'] = n, schedule.py:169-171 *)
Fixpoint set_last_payment (l : list srow) (n : R) : list srow :=
  match l with
  | [] => []
  | [r] => [{| s_start := s_start r; s_end := s_end r; s_notional := s_notional r; s_npay := n;
               s_ndate := s_ndate r; s_cdate := s_cdate r |}]
  | r :: t => r :: set_last_payment t n
  end.

Section Notional.
  Variable c : calendar.
  Variable rc : roll_conv.

  (* schedule.py:141-171. np.atleast_1d turns a scalar into a one element vector, so [n] stands for both. Line 148 compares a
     tuple with an integer, which is never equal, so every other shape ends at line 152. *)
  Definition notional_schedule (rows : period_rows) (amounts : list R) (x : exchange) (delay : Z) (t : timing)
      (initial : option date) : result (list srow) :=
    match amounts with
    | [n] =>
        let* nd := add_payment_dates c rc rows delay t in
        let base := map (fun q => {| s_start := fst (fst q); s_end := snd (fst q); s_notional := n; s_npay := 0;
                                     s_ndate := snd q; s_cdate := None |}) (combine rows nd) in
        let* l := if at_start x then
                    match base with
                    | [] => Err IndexError
                    | r :: _ =>
                        let first := match initial with Some d => Some d | None => s_start r end in
                        Ok ({| s_start := None; s_end := None; s_notional := 0; s_npay := - 1 * n; s_ndate := first;
                               s_cdate := None |} :: base)
                    end
                  else Ok base in
        if at_end x then match l with [] => Err IndexError | _ => Ok (set_last_payment l n) end else Ok l
    | _ => Err ValueError
    end.

  (* CouponSchedule.__post_init__, schedule.py:179-181 *)
  Definition coupon_schedule (rows : period_rows) (amounts : list R) (x : exchange) (ndelay : Z) (nt : timing)
      (initial : option date) (cdelay : Z) (ct : timing) : result (list srow) :=
    let* l := notional_schedule rows amounts x ndelay nt initial in
    let* cd := add_payment_dates c rc (dates_of_rows l) cdelay ct in
    Ok (map (fun q => {| s_start := s_start (fst q); s_end := s_end (fst q); s_notional := s_notional (fst q);
                         s_npay := s_npay (fst q); s_ndate := s_ndate (fst q); s_cdate := snd q |}) (combine l cd)).
End Notional.

(* ---- Legs ---- *)

(* PayRcv and its multiplier, frm/enums/utils.py:97-103 *)
Inductive payrcv : Set := Pay | Rcv.
Definition multiplier (p : payrcv) : R := match p with Pay => - 1 | Rcv => 1 end.

(* discount_curve.get_discount_factors on a whole column: an arbitrary external function that may also drop cells *)
Definition curve : Type := list (option date) -> list (option R).

(* Which class; the flag says whether the term_swap_curve or rfr_swap_curve was supplied. *)
Inductive leg_kind : Set := FixedLeg | FloatTermLeg (has_curve : bool) | FloatRFRLeg (has_curve : bool).

Record row : Type := {
  r_start : option date; r_end : option date;
  r_notional : R; r_npay : R;
  r_ndate : option date; r_cdate : option date;
  r_yf : option R;                                  (* period_yearfrac *)
  r_rate : option R                                 (* fixed_rate or spread *)
}.
Definition with_rate (r : row) (x : option R) : row :=
  {| r_start := r_start r; r_end := r_end r; r_notional := r_notional r; r_npay := r_npay r; r_ndate := r_ndate r;
     r_cdate := r_cdate r; r_yf := r_yf r; r_rate := x |}.

(* The computed columns exist only after the methods that create them ran: reading them before raises KeyError. *)
Record leg : Type := {
  l_side : payrcv; l_basis : basis; l_curve : option curve; l_kind : leg_kind;
  l_rows : list row;
  l_coupons : option (list (option R));             (* coupon_payment *)
  l_coupon_rate : option (list (option R));         (* coupon_rate, floating legs only *)
  l_pvs : option (list (option R * option R))       (* notional_payment_pv, coupon_payment_pv *)
}.

(* FixedLeg etc: leg.py:49-52 and 70-87, schedule.py:183-192 *)
Definition new_leg (p : payrcv) (b : basis) (cv : option curve) (k : leg_kind) (x : exchange) (rows : list srow)
    (param : list (option R)) : result leg :=
  let* _ := add_period_daycount (dates_of_rows rows) b in
  let* yf := add_period_yearfrac (dates_of_rows rows) b in
  let valid := if at_start x then (length rows - 1)%nat else length rows in
  let* col := match param with
              | [r] => Ok (repeat r valid)
              | _ => if (length param =? valid)%nat then Ok param else Err ValueError
              end in
  let col := if at_start x then None :: col else col in
  Ok {| l_side := p; l_basis := b; l_curve := cv; l_kind := k;
        l_rows := map (fun q => match q with (r, y, z) =>
                    {| r_start := s_start r; r_end := s_end r; r_notional := s_notional r * multiplier p;
                       r_npay := s_npay r * multiplier p; r_ndate := s_ndate r; r_cdate := s_cdate r;
                       r_yf := option_map Q2R y; r_rate := z |} end) (combine (combine rows yf) col);
        l_coupons := None; l_coupon_rate := None; l_pvs := None |}.

(* frm/utils/settings.py:6-9 *)
Record settings : Type := {
  value_date : date; include_on_value_date : bool; limit_accrued : bool
}.

(* The override replaces the whole column, leg.py:266-267, 311-312, 356-357 *)
Definition override_rows (l : list row) (ov : option R) : list row :=
  match ov with Some x => map (fun r => with_rate r (Some x)) l | None => l end.

(* leg.py:268-270 *)
Definition fixed_coupon (p : payrcv) (r : row) : option R :=
  match r_cdate r with
  | None => Some 0
  | Some _ => nan_mult (nan_mult (nan_mult (Some (multiplier p)) (Some (r_notional r))) (r_rate r)) (r_yf r)
  end.

(* leg.py:310-316, 355-361: the fixing column is set to NaN and never filled *)
Definition float_coupon_rate (r : row) : option R := nan_plus None (r_rate r).
Definition float_coupon (r : row) : option R :=
  match r_cdate r with
  | None => Some 0
  | Some _ => nan_mult (nan_mult (Some (r_notional r)) (float_coupon_rate r)) (r_yf r)
  end.

Definition set_rows (l : leg) (rows : list row) : leg :=
  {| l_side := l_side l; l_basis := l_basis l; l_curve := l_curve l; l_kind := l_kind l; l_rows := rows;
     l_coupons := l_coupons l; l_coupon_rate := l_coupon_rate l; l_pvs := l_pvs l |}.
Definition set_coupons (l : leg) (rows : list row) (cs : list (option R)) (rates : option (list (option R))) : leg :=
  {| l_side := l_side l; l_basis := l_basis l; l_curve := l_curve l; l_kind := l_kind l; l_rows := rows;
     l_coupons := Some cs; l_coupon_rate := rates; l_pvs := l_pvs l |}.
Definition set_pvs (l : leg) (pv : list (option R * option R)) : leg :=
  {| l_side := l_side l; l_basis := l_basis l; l_curve := l_curve l; l_kind := l_kind l; l_rows := l_rows l;
     l_coupons := l_coupons l; l_coupon_rate := l_coupon_rate l; l_pvs := Some pv |}.

(* calc_coupon_payment, leg.py:265-270, 306-316, 351-361. Methods return the mutated leg and the outcome. *)
Definition calc_coupon_payment (l : leg) (ov : option R) : leg * result unit :=
  let rows := override_rows (l_rows l) ov in
  match l_kind l with
  | FixedLeg => (set_coupons l rows (map (fixed_coupon (l_side l)) rows) (l_coupon_rate l), Ok tt)
  | FloatTermLeg true | FloatRFRLeg true =>
      (set_coupons l rows (map float_coupon rows) (Some (map float_coupon_rate rows)), Ok tt)
  | FloatTermLeg false | FloatRFRLeg false => (l, Err MarketDataNotAvailable)
  end.

(* _discount_payments on one column of dates, leg.py:159-175. Assigning an array of another length raises ValueError. *)
Definition discount_payments (st : settings) (cv : option curve) (dates : list (option date)) : result (list (option R)) :=
  match cv with
  | None => Err MarketDataNotAvailable
  | Some f =>
      let dfs := f dates in
      let* _ := guard (length dfs =? length dates)%nat ValueError in
      Ok (map (fun q => match q with (d, x) =>
            match d with
            | None => Some 0
            | Some _ => if (if include_on_value_date st then cell_lt d (value_date st) else cell_le d (value_date st))
                        then Some 0 else x
            end end) (combine dates dfs))
  end.

(* calc_dirty_pv, leg.py:177-188 *)
Definition calc_dirty_pv (st : settings) (l : leg) (ov : option R) : leg * result R :=
  match calc_coupon_payment l ov with
  | (l1, Err e) => (l1, Err e)
  | (l1, Ok tt) =>
      match discount_payments st (l_curve l1) (map r_ndate (l_rows l1)) with
      | Err e => (l1, Err e)
      | Ok ndf =>
          match discount_payments st (l_curve l1) (map r_cdate (l_rows l1)) with
          | Err e => (l1, Err e)
          | Ok cdf =>
              let cs := match l_coupons l1 with Some c => c | None => [] end in
              let npv := map2 nan_mult (map (fun r => Some (r_npay r)) (l_rows l1)) ndf in
              let cpv := map2 nan_mult cs cdf in
              let l2 := set_pvs l1 (combine npv cpv) in
              (l2, Ok (nansum (map2 nan_plus npv cpv)))
          end
      end
  end.

(* leg.py:273, 319, 364 *)
Definition is_current (st : settings) (r : row) : bool :=
  cell_le (r_start r) (value_date st) && cell_gt (r_end r) (value_date st).

(* year_frac on two scalars returns a scalar *)
Definition scalar_yf (a b : date) (bs : basis) : result R :=
  let* o := year_frac [a] [b] bs None in
  match o with Scalar q => Ok (Q2R q) | Vector _ => Err TypeError end.

(* _calc_accrued_interest, leg.py:272-282, 318-326, 363-371 *)
Definition accrued_part (st : settings) (l : leg) : result R :=
  let flags := map (is_current st) (l_rows l) in
  let cur := filter (is_current st) (l_rows l) in
  match cur with
  | [] => Err IndexError
  | r0 :: _ =>
      match r_start r0 with
      | None => Err ValueError
      | Some s0 =>
          let* y := scalar_yf s0 (value_date st) (l_basis l) in
          match l_kind l with
          | FixedLeg | FloatTermLeg _ =>
              Ok (nansum (map (fun r => nan_mult (nan_mult (Some (r_notional r)) (r_rate r)) (Some y)) cur))
          | FloatRFRLeg _ =>
              match l_coupon_rate l with
              | None => Err KeyError
              | Some rates =>
                  let pick := map snd (filter fst (combine flags rates)) in
                  Ok (nansum (map2 (fun r x => nan_mult (nan_mult (nan_mult (Some (multiplier (l_side l))) (Some (r_notional r))) x) (Some y))
                                   cur pick))
              end
          end
      end
  end.

(* calc_accrued_interest, leg.py:138-157. The mask of lines 143-146 only feeds a warning. *)
Definition calc_accrued_interest (st : settings) (l : leg) : result R :=
  let* a := accrued_part st l in
  match l_coupons l with
  | None => Err KeyError
  | Some cs =>
      let unsettled := nansum cs in
      if limit_accrued st then (if Rlt_dec 0 unsettled then Ok unsettled else Ok a)
      else Ok (a + unsettled)
  end.

(* calc_clean_pv, leg.py:190-191 *)
Definition calc_clean_pv (st : settings) (l : leg) : leg * result R :=
  match calc_dirty_pv st l None with
  | (l1, Err e) => (l1, Err e)
  | (l1, Ok d) => (l1, let* a := calc_accrued_interest st l1 in Ok (d - a))
  end.

Definition select {A} (mask : list bool) (l : list A) : list A := map snd (filter fst (combine mask l)).

(* get_current_non_current_split, leg.py:193-214. Line 212 adds the notional PVs again where the coupon PVs were meant. *)
Definition split_masks (st : settings) (dates : list (option date)) : list bool :=
  let u := add_months (value_date st) 12 in
  map (fun d => if include_on_value_date st then cell_le d u else cell_lt d u) dates.
Definition split_columns (st : settings) (rows : list row) (pv : list (option R * option R)) : R * R :=
  let mn := split_masks st (map r_ndate rows) in
  let mc := split_masks st (map r_cdate rows) in
  let npv := map fst pv in
  let cpv := map snd pv in
  (nansum (select mn npv) + nansum (select mc cpv),
   nansum (select (map negb mn) npv) + nansum (select (map negb mc) npv)).
Definition current_non_current (st : settings) (l : leg) (calc_npv : bool) : leg * result (R * R) :=
  let (l1, r) := if calc_npv then calc_dirty_pv st l None else (l, Ok 0) in
  match r with
  | Err e => (l1, Err e)
  | Ok _ => (l1, match l_pvs l1 with None => Err KeyError | Some pv => Ok (split_columns st (l_rows l1) pv) end)
  end.

(* _bucket_payments_helper, leg.py:216-236. With no buckets upper_pillar is unbound at line 232. *)
Definition masked_sum (mask : list bool) (pay : list (option R)) : R := nansum (select mask pay).
Fixpoint bucket_loop (v : date) (dates : list (option date)) (pay : list (option R)) (lower : list bool) (buckets : list Z)
    (upper : option date) : result (list R) :=
  match buckets with
  | [] => match upper with
          | None => Err NameError
          | Some u => Ok [masked_sum (map (fun d => cell_ge d u) dates) pay]
          end
  | b :: bs =>
      let u := add_months v (12 * b)%Z in
      let* rest := bucket_loop v dates pay (map (fun d => cell_ge d u) dates) bs (Some u) in
      Ok (masked_sum (map2 andb lower (map (fun d => cell_lt d u) dates)) pay :: rest)
  end.
Definition bucket_helper (st : settings) (buckets : list Z) (dates : list (option date)) (pay : list (option R)) : result (list R) :=
  let lower := map (fun d => if include_on_value_date st then cell_ge d (value_date st) else cell_gt d (value_date st)) dates in
  bucket_loop (value_date st) dates pay lower buckets None.

(* bucket_payments, leg.py:238-245: rows of coupon, notional and total *)
Definition bucket_payments (st : settings) (l : leg) (calc_npv : bool) (buckets : list Z) : leg * result (list (R * R * R)) :=
  let (l1, r) := if calc_npv then calc_dirty_pv st l None else (l, Ok 0) in
  match r with
  | Err e => (l1, Err e)
  | Ok _ => (l1,
      match l_coupons l1 with
      | None => Err KeyError
      | Some cs =>
          let* cb := bucket_helper st buckets (map r_cdate (l_rows l1)) cs in
          let* nb := bucket_helper st buckets (map r_ndate (l_rows l1)) (map (fun r => Some (r_npay r)) (l_rows l1)) in
          Ok (map (fun q => (fst q, snd q, fst q + snd q)) (combine cb nb))
      end)
  end.

(* The root finder is external: an arbitrary adaptive strategy that evaluates the objective at points of its choice and finally
   reports a converged root, no convergence, or an exception of its own. *)
Inductive solver : Type :=
| Done (o : result (option R))
| Try (x : R) (k : R -> solver).

(* root_scalar(objective_function, ...), leg.py:123-131: the leg after the evaluations and the reported root *)
Fixpoint run_solver (st : settings) (target : R) (s : solver) (l : leg) : leg * result (option R) :=
  match s with
  | Done o => (l, o)
  | Try x k =>
      match calc_dirty_pv st l (Some x) with
      | (l1, Err e) => (l1, Err e)
      | (l1, Ok v) => run_solver st target (k (v - target)) l1
      end
  end.

(* _solver_helper, leg.py:120-136. None is NaN. The return inside finally discards any exception in flight. *)
Definition solver_helper (st : settings) (s : solver) (target : R) (l : leg) : leg * option R :=
  let saved := map r_rate (l_rows l) in
  let (l1, o) := run_solver st target s l in
  (set_rows l1 (map2 with_rate (l_rows l1) saved),
   match o with Ok r => r | Err _ => None end).

(* target_solve, leg.py:101-103 *)
Definition target_solve (st : settings) (s : solver) (target : R) (l : leg) : leg * option R := solver_helper st s target l.

(* par_solve, leg.py:106-118; the date column always exists in a CouponSchedule *)
Definition par_value (st : settings) (l : leg) : R :=
  let mask := map (fun r => if include_on_value_date st then cell_ge (r_ndate r) (value_date st)
                            else cell_gt (r_ndate r) (value_date st)) (l_rows l) in
  nansum (select mask (map (fun r => Some (r_npay r)) (l_rows l))).
Definition par_solve (st : settings) (s : solver) (l : leg) : leg * option R := solver_helper st s (par_value st l) l.

(* ---- Swap, swap.py:64-106 ---- *)
Definition side_eqb (a b : payrcv) : bool := match a, b with Pay, Pay | Rcv, Rcv => true | _, _ => false end.

Definition swap : Type := (leg * leg)%type.
Definition new_swap (a b : leg) : result swap :=
  let* _ := guard (negb (side_eqb (l_side a) (l_side b))) AssertionError in Ok (a, b).

Definition swap_dirty_pv (st : settings) (w : swap) : swap * result R :=
  match calc_dirty_pv st (fst w) None with
  | (a, Err e) => ((a, snd w), Err e)
  | (a, Ok x) =>
      match calc_dirty_pv st (snd w) None with
      | (b, Err e) => ((a, b), Err e)
      | (b, Ok y) => ((a, b), Ok (x + y))
      end
  end.
Definition swap_accrued (st : settings) (w : swap) : result R :=
  let* x := calc_accrued_interest st (fst w) in
  let* y := calc_accrued_interest st (snd w) in Ok (x + y).
Definition swap_clean_pv (st : settings) (w : swap) : swap * result R :=
  match swap_dirty_pv st w with
  | (w1, Err e) => (w1, Err e)
  | (w1, Ok d) => (w1, let* a := swap_accrued st w1 in Ok (d - a))
  end.
Definition swap_par_solve (st : settings) (s1 s2 : solver) (w : swap) : swap * (option R * option R) :=
  let (a, x) := par_solve st s1 (fst w) in
  let (b, y) := par_solve st s2 (snd w) in
  ((a, b), (x, y)).
Definition swap_target_solve (st : settings) (s : solver) (target : R) (leg_number : Z) (w : swap) : swap * result (option R) :=
  if (leg_number =? 1)%Z then let (a, x) := target_solve st s target (fst w) in ((a, snd w), Ok x)
  else if (leg_number =? 2)%Z then let (b, x) := target_solve st s target (snd w) in ((fst w, b), Ok x)
  else (w, Err ValueError).
