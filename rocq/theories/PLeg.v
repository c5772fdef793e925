(* Properties C25, C27-C34, C68 and C69: notional exchanges, legs and swaps. *)
From Coq Require Import ZArith QArith Qreals Reals List Bool Lia Lra.
From Verif Require Import Base Date BusDayModel DayCountModel ScheduleModel LegModel LegSpec LegProofs LegColSpec LegColProofs.
Import ListNotations.
Open Scope R_scope.

(* A two row bond-like leg used in the examples: half-year coupons on 100 at 10%, final repayment of 100, discount factor 1/2. *)
Definition ex_settings : settings := {| value_date := mk 2024 3 1; include_on_value_date := false; limit_accrued := false |}.
Definition ex_curve : curve := map (fun d => match d with Some _ => Some (/ 2) | None => None end).
Definition ex_row1 : row := {| r_start := Some (mk 2024 1 1); r_end := Some (mk 2024 7 1); r_notional := 100; r_npay := 0;
  r_ndate := Some (mk 2024 7 1); r_cdate := Some (mk 2024 7 1); r_yf := Some (/ 2); r_rate := Some (/ 10) |}.
Definition ex_row2 : row := {| r_start := Some (mk 2024 7 1); r_end := Some (mk 2026 1 1); r_notional := 100; r_npay := 100;
  r_ndate := Some (mk 2026 1 1); r_cdate := Some (mk 2026 1 1); r_yf := Some (3 / 2); r_rate := Some (/ 10) |}.
Definition ex_leg : leg := {| l_side := Rcv; l_basis := ACT_365; l_curve := Some ex_curve; l_kind := FixedLeg; l_rows := [ex_row1; ex_row2];
  l_coupons := None; l_coupon_rate := None; l_pvs := None |}.

Lemma ex_priced : priced_by ex_leg (fun _ => / 2).
Proof. exists ex_curve. split; [reflexivity|]. split; repeat constructor; intros t E; injection E as <-; reflexivity. Qed.
Lemma ex_lengths : has_lengths ex_leg. Proof. intros r [<-|[<-|[]]] _; discriminate. Qed.
Lemma ex_rates : has_rates ex_leg. Proof. intros r [<-|[<-|[]]] _; discriminate. Qed.
Lemma ex_come1 : to_come ex_settings (mk 2024 7 1) = true. Proof. vm_compute. reflexivity. Qed.
Lemma ex_come2 : to_come ex_settings (mk 2026 1 1) = true. Proof. vm_compute. reflexivity. Qed.
Lemma ex_annuity : annuity ex_settings (fun _ => / 2) ex_leg = 100.
Proof.
  unfold annuity, ex_leg, sum_R. cbn [map fold_right l_rows l_side multiplier ex_row1 ex_row2 r_cdate r_notional r_yf real value_of].
  rewrite ex_come1, ex_come2. lra.
Qed.
Lemma ex_notional : notional_value ex_settings (fun _ => / 2) ex_leg = 50.
Proof.
  unfold notional_value, ex_leg, sum_R. cbn [map fold_right l_rows ex_row1 ex_row2 r_ndate r_npay value_of].
  rewrite ex_come1, ex_come2. lra.
Qed.

(* ---- C25 ---- *)
Theorem C25_notional_columns : forall c rc rows n x delay t init nd, rows <> [] -> add_payment_dates c rc rows delay t = Ok nd ->
  exists l, notional_schedule c rc rows [n] x delay t init = Ok l /\
    map s_npay l = expected_payments x n (length rows - 1) /\
    map s_ndate l = (if at_start x then [match init with Some d => Some d | None => fst (hd (None, None) rows) end] else []) ++ nd /\
    map s_notional l = (if at_start x then [0] else []) ++ repeat n (length rows) /\
    dates_of_rows l = (if at_start x then [(None, None)] else []) ++ rows.
Proof. exact notional_schedule_ok. Qed.
Print Assumptions C25_notional_columns.

Theorem C25_totals : forall c rc rows n x delay t init l, rows <> [] ->
  notional_schedule c rc rows [n] x delay t init = Ok l ->
  sum_R (map s_npay l) = match x with ExStart => - n | ExEnd => n | ExBoth | ExNeither => 0 end.
Proof. exact notional_schedule_total. Qed.
Print Assumptions C25_totals.

Theorem C25_vector_rejected : forall c rc rows amounts x delay t init, length amounts <> 1%nat ->
  notional_schedule c rc rows amounts x delay t init = Err ValueError.
Proof. exact notional_vector_rejected. Qed.
Print Assumptions C25_vector_rejected.

(* CouponSchedule only adds the coupon dates. *)
Theorem C25_coupon_schedule : forall c rc rows amounts x nd nt init cd ct l,
  coupon_schedule c rc rows amounts x nd nt init cd ct = Ok l ->
  exists l0, notional_schedule c rc rows amounts x nd nt init = Ok l0 /\
    map s_npay l = map s_npay l0 /\ map s_ndate l = map s_ndate l0 /\ map s_notional l = map s_notional l0 /\
    dates_of_rows l = dates_of_rows l0 /\ add_payment_dates c rc (dates_of_rows l0) cd ct = Ok (map s_cdate l).
Proof. exact coupon_schedule_ok. Qed.
Print Assumptions C25_coupon_schedule.

Definition ex_periods : period_rows := [(Some (mk 2024 1 2), Some (mk 2024 4 2)); (Some (mk 2024 4 2), Some (mk 2024 7 2))].
Example C25_ex : ex_periods <> [] /\ add_payment_dates default_calendar ModFollowing ex_periods 2 InArrears =
    Ok [Some (mk 2024 4 4); Some (mk 2024 7 4)] /\
  expected_payments ExBoth 100 1 = [- 100; 0; 100].
Proof. split; [discriminate|]. split; [vm_compute; reflexivity|reflexivity]. Qed.

(* ---- C27 ---- *)
(* The coupon of a fixed leg on either side: the unsigned notional of the schedule times rate times period length. *)
Theorem C27_coupon_amount : forall p b cv x rows param l, new_leg p b cv FixedLeg x rows param = Ok l ->
  l_coupons (fst (calc_coupon_payment l None)) =
  Some (map (fun q => match s_cdate (fst q) with
                      | None => Some 0
                      | Some _ => nan_mult (nan_mult (Some (s_notional (fst q))) (r_rate (snd q))) (r_yf (snd q))
                      end) (combine rows (l_rows l))).
Proof. exact coupon_terms. Qed.
Print Assumptions C27_coupon_amount.

Theorem C27_pay_coupons_equal_receive_coupons : forall b cv x rows param lp lr ov,
  new_leg Pay b cv FixedLeg x rows param = Ok lp -> new_leg Rcv b cv FixedLeg x rows param = Ok lr ->
  l_coupons (fst (calc_coupon_payment lp ov)) = l_coupons (fst (calc_coupon_payment lr ov)).
Proof. exact mirror_coupons. Qed.
Print Assumptions C27_pay_coupons_equal_receive_coupons.

Theorem C27_notional_payments_opposite : forall b cv k x rows param lp lr,
  new_leg Pay b cv k x rows param = Ok lp -> new_leg Rcv b cv k x rows param = Ok lr ->
  map r_npay (l_rows lp) = map Ropp (map r_npay (l_rows lr)).
Proof. exact mirror_npay. Qed.
Print Assumptions C27_notional_payments_opposite.

(* The accrued part has the sign of the side, unlike the coupon it accrues towards. *)
Theorem C27_accrued_opposite : forall st b cv x rows param lp lr,
  new_leg Pay b cv FixedLeg x rows param = Ok lp -> new_leg Rcv b cv FixedLeg x rows param = Ok lr ->
  accrued_part st lp = let* a := accrued_part st lr in Ok (- a).
Proof. exact mirror_accrued. Qed.
Print Assumptions C27_accrued_opposite.

(* Consequence: the par rate solved on the pay side is minus the one solved on the receive side. *)
Theorem C27_par_rate_changes_sign : forall st b cv f x rows param lp lr sp sr xp xr,
  new_leg Pay b cv FixedLeg x rows param = Ok lp -> new_leg Rcv b cv FixedLeg x rows param = Ok lr ->
  priced_by lp f -> priced_by lr f -> has_lengths lp -> has_lengths lr -> annuity st f lr <> 0 ->
  exact_on (objective st (par_value st lp) lp) sp -> exact_on (objective st (par_value st lr) lr) sr ->
  snd (par_solve st sp lp) = Some xp -> snd (par_solve st sr lr) = Some xr -> xp = - xr.
Proof. exact mirror_par. Qed.
Print Assumptions C27_par_rate_changes_sign.

(* A new leg keeps the schedule row by row, signs the notionals by side, and puts each rate and period length on its own row. *)
Theorem C27_leg_rows : forall p b cv k x rows param l, new_leg p b cv k x rows param = Ok l ->
  l_side l = p /\ l_basis l = b /\ l_kind l = k /\ l_curve l = cv /\ l_coupons l = None /\ l_coupon_rate l = None /\ l_pvs l = None /\
  length (l_rows l) = length rows /\
  forall i s, nth_error rows i = Some s -> exists r, nth_error (l_rows l) i = Some r /\
    r_start r = s_start s /\ r_end r = s_end s /\ r_ndate r = s_ndate s /\ r_cdate r = s_cdate s /\
    r_notional r = (match p with Pay => - s_notional s | Rcv => s_notional s end) /\
    r_npay r = (match p with Pay => - s_npay s | Rcv => s_npay s end) /\
    r_rate r = meant_rate x param i /\ meant_length b rows i s (r_yf r).
Proof. exact leg_rows. Qed.
Print Assumptions C27_leg_rows.

(* Whether the rates are accepted depends on how many there are only. *)
Theorem C27_parameter_lengths : forall p b cv k x rows param l, new_leg p b cv k x rows param = Ok l -> forall other,
  (length other = 1%nat \/ (length other + first_exchange x = length rows)%nat \/ (other = [] /\ rows = []) -> exists l', new_leg p b cv k x rows other = Ok l') /\
  (length other <> 1%nat -> length other <> (length rows - first_exchange x)%nat -> new_leg p b cv k x rows other = Err ValueError).
Proof. exact parameter_lengths. Qed.
Print Assumptions C27_parameter_lengths.

Definition ex_srows : list srow :=
  [{| s_start := Some (mk 2024 1 1); s_end := Some (mk 2025 1 1); s_notional := 100; s_npay := 100; s_ndate := Some (mk 2025 1 1);
      s_cdate := Some (mk 2025 1 1) |}].
Lemma ex_new_leg p : exists l, new_leg p ACT_366 (Some ex_curve) FixedLeg ExEnd ex_srows [Some (/ 10)] = Ok l /\
  l_rows l = [{| r_start := Some (mk 2024 1 1); r_end := Some (mk 2025 1 1); r_notional := 100 * multiplier p; r_npay := 100 * multiplier p;
                 r_ndate := Some (mk 2025 1 1); r_cdate := Some (mk 2025 1 1); r_yf := Some 1; r_rate := Some (/ 10) |}] /\
  l_side l = p /\ l_kind l = FixedLeg /\ l_curve l = Some ex_curve.
Proof.
  unfold new_leg.
  replace (add_period_daycount (dates_of_rows ex_srows) ACT_366) with (@Ok (list (option Z)) [Some 366%Z]) by (vm_compute; reflexivity).
  replace (add_period_yearfrac (dates_of_rows ex_srows) ACT_366) with (@Ok (list (option Q)) [Some (366 # 366)%Q]) by (vm_compute; reflexivity).
  cbn [bind]. eexists. split; [reflexivity|]. cbn [l_rows l_side l_kind l_curve]. repeat split.
  cbn. repeat f_equal. unfold Q2R. cbn. field.
Qed.
(* two coupon rows after an initial exchange, each with its own rate *)
Example C27_ex_rates : exists l r0 r1 r2,
  new_leg Rcv ACT_365 None FixedLeg ExBoth
    [{| s_start := None; s_end := Some (mk 2023 1 1); s_notional := 0; s_npay := -100; s_ndate := Some (mk 2023 1 1); s_cdate := None |};
     {| s_start := Some (mk 2023 1 1); s_end := Some (mk 2024 1 1); s_notional := 100; s_npay := 0; s_ndate := Some (mk 2024 1 1); s_cdate := Some (mk 2024 1 1) |};
     {| s_start := Some (mk 2024 1 1); s_end := Some (mk 2024 12 31); s_notional := 100; s_npay := 100; s_ndate := Some (mk 2024 12 31); s_cdate := Some (mk 2024 12 31) |}]
    [Some (/ 10); Some (/ 5)] = Ok l /\ l_rows l = [r0; r1; r2] /\ map r_rate [r0; r1; r2] = [None; Some (/ 10); Some (/ 5)].
Proof.
  unfold new_leg.
  match goal with |- context [add_period_daycount ?d ?b] => replace (add_period_daycount d b) with (@Ok (list (option Z)) [None; Some 365%Z; Some 365%Z]) by (vm_compute; reflexivity) end.
  match goal with |- context [add_period_yearfrac ?d ?b] => replace (add_period_yearfrac d b) with (@Ok (list (option Q)) [None; Some (365 # 365)%Q; Some (365 # 365)%Q]) by (vm_compute; reflexivity) end.
  cbn [bind at_start length Nat.sub Nat.eqb]. do 4 eexists. split; [reflexivity|]. cbn [l_rows combine map]. split; reflexivity.
Qed.
Example C27_ex : exists lp lr, new_leg Pay ACT_366 (Some ex_curve) FixedLeg ExEnd ex_srows [Some (/ 10)] = Ok lp /\
  new_leg Rcv ACT_366 (Some ex_curve) FixedLeg ExEnd ex_srows [Some (/ 10)] = Ok lr /\
  l_coupons (fst (calc_coupon_payment lp None)) = Some [Some 10] /\ map r_npay (l_rows lp) = [-100] /\
  annuity ex_settings (fun _ => / 2) lr <> 0 /\ priced_by lp (fun _ => / 2) /\ priced_by lr (fun _ => / 2) /\ has_lengths lp /\ has_lengths lr.
Proof.
  destruct (ex_new_leg Pay) as (lp & E & Rp & Sp & Kp & Cp). destruct (ex_new_leg Rcv) as (lr & E' & Rr & Sr & Kr & Cr).
  exists lp, lr. split; [exact E|]. split; [exact E'|].
  split. { unfold calc_coupon_payment. rewrite Kp, Rp, Sp. cbn. repeat f_equal. lra. }
  split. { rewrite Rp. cbn. f_equal. lra. }
  split. { unfold annuity. rewrite Rr, Sr. unfold sum_R. cbn [map fold_right r_cdate r_notional r_yf real multiplier value_of].
           replace (to_come ex_settings (mk 2025 1 1)) with true by (vm_compute; reflexivity). lra. }
  split. { exists ex_curve. rewrite Rp. split; [exact Cp|]. split; repeat constructor; intros t Et; injection Et as <-; reflexivity. }
  split. { exists ex_curve. rewrite Rr. split; [exact Cr|]. split; repeat constructor; intros t Et; injection Et as <-; reflexivity. }
  split; intros r Hin; [rewrite Rp in Hin | rewrite Rr in Hin]; destruct Hin as [<-|[]]; intros _; discriminate.
Qed.

(* ---- C28 ---- *)
Theorem C28_dirty_pv : forall st l ov f, priced_by l f -> kind_ready (l_kind l) = true ->
  exists l2 cs, calc_dirty_pv st l ov = (l2, Ok (sum_R (map (fun q => row_value st f (fst q) (snd q)) (combine (l_rows l) cs)))) /\
    l_coupons l2 = Some cs /\ length cs = length (l_rows l).
Proof. exact pv_columns. Qed.
Print Assumptions C28_dirty_pv.

Theorem C28_fixed_leg : forall st l f, priced_by l f -> l_kind l = FixedLeg -> has_lengths l -> has_rates l ->
  snd (calc_dirty_pv st l None) =
  Ok (sum_R (map (fun r => value_of st f (r_ndate r) (r_npay r) +
        value_of st f (r_cdate r) (multiplier (l_side l) * r_notional r * real (r_rate r) * real (r_yf r))) (l_rows l))).
Proof. exact fixed_dirty_pv. Qed.
Print Assumptions C28_fixed_leg.

Theorem C28_missing_curve : forall st l ov, l_curve l = None -> snd (calc_dirty_pv st l ov) = Err MarketDataNotAvailable.
Proof. exact pv_no_curve. Qed.
Print Assumptions C28_missing_curve.

Theorem C28_curve_drops_dates : forall st l ov cv, kind_ready (l_kind l) = true -> l_curve l = Some cv ->
  length (cv (map r_ndate (l_rows l))) <> length (l_rows l) \/ length (cv (map r_cdate (l_rows l))) <> length (l_rows l) ->
  snd (calc_dirty_pv st l ov) = Err ValueError.
Proof. exact pv_wrong_count. Qed.
Print Assumptions C28_curve_drops_dates.

Example C28_ex : priced_by ex_leg (fun _ => / 2) /\ has_lengths ex_leg /\ has_rates ex_leg /\
  snd (calc_dirty_pv ex_settings ex_leg None) = Ok 60 /\
  (* with the value date on the first payment date that payment no longer counts, unless so configured *)
  snd (calc_dirty_pv {| value_date := mk 2024 7 1; include_on_value_date := false; limit_accrued := false |} ex_leg None) = Ok (57 + / 2) /\
  snd (calc_dirty_pv {| value_date := mk 2024 7 1; include_on_value_date := true; limit_accrued := false |} ex_leg None) = Ok 60.
Proof.
  split; [exact ex_priced|]. split; [exact ex_lengths|]. split; [exact ex_rates|].
  assert (G : forall st, snd (calc_dirty_pv st ex_leg None) =
    Ok (value_of st (fun _ => / 2) (Some (mk 2024 7 1)) 5 + value_of st (fun _ => / 2) (Some (mk 2026 1 1)) 115)).
  { intros st. rewrite (fixed_dirty_pv st ex_leg _ ex_priced eq_refl ex_lengths ex_rates). f_equal.
    unfold ex_leg, sum_R. cbn [map fold_right l_rows l_side multiplier ex_row1 ex_row2 r_ndate r_npay r_cdate r_notional r_yf r_rate real value_of].
    destruct (to_come st (mk 2024 7 1)), (to_come st (mk 2026 1 1)); lra. }
  rewrite !G. unfold value_of. rewrite ex_come1, ex_come2.
  replace (to_come {| value_date := mk 2024 7 1; include_on_value_date := false; limit_accrued := false |} (mk 2024 7 1)) with false by (vm_compute; reflexivity).
  replace (to_come {| value_date := mk 2024 7 1; include_on_value_date := false; limit_accrued := false |} (mk 2026 1 1)) with true by (vm_compute; reflexivity).
  replace (to_come {| value_date := mk 2024 7 1; include_on_value_date := true; limit_accrued := false |} (mk 2024 7 1)) with true by (vm_compute; reflexivity).
  replace (to_come {| value_date := mk 2024 7 1; include_on_value_date := true; limit_accrued := false |} (mk 2026 1 1)) with true by (vm_compute; reflexivity).
  repeat split; f_equal; lra.
Qed.

(* ---- C29 ---- *)
Theorem C29_scales_with_notional : forall st k l ov f v, priced_by l f -> kind_ready (l_kind l) = true ->
  snd (calc_dirty_pv st l ov) = Ok v -> snd (calc_dirty_pv st (scale k l) ov) = Ok (k * v).
Proof. exact dirty_pv_scale. Qed.
Print Assumptions C29_scales_with_notional.

Theorem C29_affine_in_rate : forall st l f x, priced_by l f -> l_kind l = FixedLeg -> has_lengths l ->
  snd (calc_dirty_pv st l (Some x)) = Ok (notional_value st f l + x * annuity st f l).
Proof. exact fixed_affine. Qed.
Print Assumptions C29_affine_in_rate.

Theorem C29_unique_rate : forall st l f x target, priced_by l f -> l_kind l = FixedLeg -> has_lengths l -> annuity st f l <> 0 ->
  (snd (calc_dirty_pv st l (Some x)) = Ok target <-> x = (target - notional_value st f l) / annuity st f l).
Proof. exact fixed_unique. Qed.
Print Assumptions C29_unique_rate.

Theorem C29_solved_rate : forall st s target l f x, priced_by l f -> l_kind l = FixedLeg -> has_lengths l -> annuity st f l <> 0 ->
  exact_on (objective st target l) s -> snd (target_solve st s target l) = Some x ->
  x = (target - notional_value st f l) / annuity st f l /\ snd (calc_dirty_pv st l (Some x)) = Ok target.
Proof. exact solver_exact. Qed.
Print Assumptions C29_solved_rate.

(* A root finder that tries 0 and 1 and interpolates *)
Definition secant : solver := Try 0 (fun a => Try 1 (fun b => Done (Ok (Some (a / (a - b)))))).
Example C29_ex : annuity ex_settings (fun _ => / 2) ex_leg <> 0 /\ exact_on (objective ex_settings 70 ex_leg) secant /\
  snd (target_solve ex_settings secant 70 ex_leg) = Some (/ 5).
Proof.
  split; [rewrite ex_annuity; lra|].
  assert (O : forall x, objective ex_settings 70 ex_leg x = Ok (50 + x * 100 - 70)).
  { intros x. unfold objective. rewrite (fixed_affine ex_settings ex_leg _ x ex_priced eq_refl ex_lengths), ex_annuity, ex_notional. reflexivity. }
  assert (R5 : (50 + 0 * 100 - 70) / (50 + 0 * 100 - 70 - (50 + 1 * 100 - 70)) = / 5) by field.
  split.
  - intros x. cbn [reported secant]. rewrite !O. intros E. injection E as E. rewrite <- E, R5. f_equal. lra.
  - unfold target_solve. rewrite solver_result. cbn [reported secant]. rewrite !O. rewrite R5. reflexivity.
Qed.

(* ---- C30 ---- *)
Theorem C30_contract_restored : forall st s target l, l_rows (fst (target_solve st s target l)) = l_rows l.
Proof. exact solver_restores. Qed.
Print Assumptions C30_contract_restored.

Theorem C30_par_contract_restored : forall st s l, l_rows (fst (par_solve st s l)) = l_rows l.
Proof. exact (fun st s l => solver_restores st s (par_value st l) l). Qed.
Print Assumptions C30_par_contract_restored.

(* A swap solves each leg by itself for par, leg 1 with leg 1's curve and rates and leg 2 with leg 2's; both rate columns are restored. *)
Theorem C30_swap_par : forall st s1 s2 w, let r := swap_par_solve st s1 s2 w in
  fst (fst r) = fst (par_solve st s1 (fst w)) /\ snd (fst r) = fst (par_solve st s2 (snd w)) /\
  fst (snd r) = snd (par_solve st s1 (fst w)) /\ snd (snd r) = snd (par_solve st s2 (snd w)) /\
  l_rows (fst (fst r)) = l_rows (fst w) /\ l_rows (snd (fst r)) = l_rows (snd w).
Proof.
  intros st s1 s2 w. unfold swap_par_solve. cbv zeta. pose proof (C30_par_contract_restored st s1 (fst w)) as A. pose proof (C30_par_contract_restored st s2 (snd w)) as B.
  destruct (par_solve st s1 (fst w)), (par_solve st s2 (snd w)). cbn [fst snd] in *. auto 7.
Qed.
Print Assumptions C30_swap_par.

(* The coupon column is the one of the last rate tried, whatever the root finder does. *)
Theorem C30_coupons_of_last_trial : forall st s target l, kind_ready (l_kind l) = true ->
  l_coupons (fst (target_solve st s target l)) =
   match rev (asked (objective st target l) s) with
   | [] => l_coupons l
   | x :: _ => l_coupons (fst (calc_coupon_payment l (Some x)))
   end.
Proof. exact solver_coupons. Qed.
Print Assumptions C30_coupons_of_last_trial.

(* Every exception becomes NaN. *)
Theorem C30_exceptions_swallowed : forall st s target l, snd (target_solve st s target l) =
  match reported (objective st target l) s with Ok r => r | Err _ => None end.
Proof. exact solver_result. Qed.
Print Assumptions C30_exceptions_swallowed.

Theorem C30_missing_curve_is_nan : forall st target l x k, l_curve l = None -> snd (target_solve st (Try x k) target l) = None.
Proof. exact solver_no_curve. Qed.
Print Assumptions C30_missing_curve_is_nan.

(* So accrued interest read after a solve can differ from the one read before it. *)
Theorem C30_accrued_unchanged_refuted : exists st s target l,
  calc_accrued_interest st (fst (target_solve st s target (fst (calc_dirty_pv st l None)))) <>
  calc_accrued_interest st (fst (calc_dirty_pv st l None)).
Proof.
  exists ex_settings, secant, 70, ex_leg.
  destruct (dirty_pv_ok ex_settings ex_leg None _ ex_priced eq_refl) as (l2 & E & R2 & S2 & B2 & K2 & C2 & Cp & _). rewrite E. cbn [fst].
  assert (P2 : priced_by l2 (fun _ => / 2)).
  { destruct ex_priced as (cv & A & B & C). exists cv. rewrite R2, C2. auto. }
  assert (L2 : has_lengths l2) by (intros r; rewrite R2; apply ex_lengths).
  pose proof (solver_coupons ex_settings secant 70 l2 ltac:(rewrite K2; reflexivity)) as Cs.
  pose proof (solver_restores ex_settings secant 70 l2) as Rs.
  pose proof (solver_same_static ex_settings secant 70 l2) as (S3 & B3 & C3 & K3).
  unfold target_solve. destruct (solver_helper ex_settings secant 70 l2) as [l3 o]. cbn [fst] in *.
  assert (O : forall x, exists y, objective ex_settings 70 l2 x = Ok y).
  { intros x. unfold objective. rewrite (fixed_affine ex_settings l2 _ x P2 K2 L2). eauto. }
  assert (As : rev (asked (objective ex_settings 70 l2) secant) = [1; 0]).
  { cbn [asked secant]. destruct (O 0) as (y & ->). destruct (O 1) as (z & ->). reflexivity. }
  rewrite As in Cs.
  assert (Ac : accrued_part ex_settings l3 = accrued_part ex_settings l2).
  { unfold accrued_part. rewrite Rs, B3, K3, K2. reflexivity. }
  assert (A1 : exists a, accrued_part ex_settings l2 = Ok a).
  { unfold accrued_part. rewrite R2, B2, K2. cbn [override_rows l_rows ex_leg].
    assert (F : filter (is_current ex_settings) [ex_row1; ex_row2] = [ex_row1]).
    { cbn [filter]. replace (is_current ex_settings ex_row1) with true by (vm_compute; reflexivity).
      replace (is_current ex_settings ex_row2) with false by (vm_compute; reflexivity). reflexivity. }
    rewrite F. cbn [r_start ex_row1]. unfold scalar_yf.
    replace (year_frac [mk 2024 1 1] [value_date ex_settings] (l_basis ex_leg) None) with (@Ok (out Q) (Scalar (60 # 365)%Q)) by (vm_compute; reflexivity).
    cbn [bind l_kind ex_leg]. eauto. }
  destruct A1 as (a & A1).
  assert (X2 : l_coupons l2 = Some (map Some [1 * 100 * / 10 * / 2; 1 * 100 * / 10 * (3 / 2)])) by (rewrite Cp; reflexivity).
  assert (X3 : l_coupons l3 = Some (map Some [1 * 100 * 1 * / 2; 1 * 100 * 1 * (3 / 2)])).
  { rewrite Cs. unfold calc_coupon_payment. rewrite K2, R2, S2. reflexivity. }
  rewrite (accrued_value _ _ a _ (eq_trans Ac A1) X3), (accrued_value _ _ a _ A1 X2). cbn [limit_accrued ex_settings].
  intros F. injection F as F. unfold sum_R in F. cbn [fold_right] in F. lra.
Qed.
Print Assumptions C30_accrued_unchanged_refuted.

(* ---- C31 ---- *)
Theorem C31_split_adds_up_iff : forall st l f, priced_by l f -> l_kind l = FixedLeg -> has_lengths l -> has_rates l ->
  exists cur non d, snd (current_non_current st l true) = Ok (cur, non) /\ snd (calc_dirty_pv st l None) = Ok d /\
  (cur + non = d <->
   sum_where (fun r => beyond_year st (r_cdate r)) (fun r => value_of st f (r_ndate r) (r_npay r)) (l_rows l) =
   sum_where (fun r => beyond_year st (r_cdate r))
     (fun r => value_of st f (r_cdate r) (multiplier (l_side l) * r_notional r * real (r_rate r) * real (r_yf r))) (l_rows l)).
Proof. exact split_iff. Qed.
Print Assumptions C31_split_adds_up_iff.

Theorem C31_split_amounts : forall st l f, priced_by l f -> l_kind l = FixedLeg -> has_lengths l -> has_rates l ->
  exists cur non d, snd (current_non_current st l true) = Ok (cur, non) /\ snd (calc_dirty_pv st l None) = Ok d /\
   let npv r := value_of st f (r_ndate r) (r_npay r) in
   let cpv r := value_of st f (r_cdate r) (multiplier (l_side l) * r_notional r * real (r_rate r) * real (r_yf r)) in
   cur = sum_where (fun r => negb (beyond_year st (r_ndate r))) npv (l_rows l) + sum_where (fun r => negb (beyond_year st (r_cdate r))) cpv (l_rows l) /\
   non = sum_where (fun r => beyond_year st (r_ndate r)) npv (l_rows l) + sum_where (fun r => beyond_year st (r_cdate r)) npv (l_rows l) /\
   d = sum_R (map npv (l_rows l)) + sum_R (map cpv (l_rows l)).
Proof. exact split_value. Qed.
Print Assumptions C31_split_amounts.

(* without recalculation the split uses the values of the last valuation, and needs one *)
Theorem C31_without_recalculation : forall st l,
  (l_pvs l = None -> current_non_current st l false = (l, Err KeyError)) /\
  (forall l' d, calc_dirty_pv st l None = (l', Ok d) -> current_non_current st l true = current_non_current st l' false) /\
  (forall l' e, calc_dirty_pv st l None = (l', Err e) -> current_non_current st l true = (l', Err e)).
Proof.
  intros st l. unfold current_non_current. split; [|split].
  - intros ->. reflexivity.
  - intros l' d ->. reflexivity.
  - intros l' e ->. reflexivity.
Qed.
Print Assumptions C31_without_recalculation.

Theorem C31_split_adds_up_refuted : exists st l cur non d, snd (current_non_current st l true) = Ok (cur, non) /\
  snd (calc_dirty_pv st l None) = Ok d /\ cur + non <> d.
Proof.
  destruct (split_iff ex_settings ex_leg _ ex_priced eq_refl ex_lengths ex_rates) as (cur & non & d & E1 & E2 & I).
  exists ex_settings, ex_leg, cur, non, d. split; [exact E1|]. split; [exact E2|]. intros F. apply I in F. clear -F.
  unfold sum_where, ex_leg, sum_R in F. cbn [map fold_right l_rows l_side multiplier ex_row1 ex_row2 r_ndate r_npay r_cdate r_notional r_yf r_rate real value_of] in F.
  replace (beyond_year ex_settings (Some (mk 2024 7 1))) with false in F by (vm_compute; reflexivity).
  replace (beyond_year ex_settings (Some (mk 2026 1 1))) with true in F by (vm_compute; reflexivity).
  rewrite ex_come2 in F. lra.
Qed.
Print Assumptions C31_split_adds_up_refuted.

(* ---- C32 ---- *)
Theorem C32_buckets_partition : forall st buckets ds pay bs, length pay = length ds -> increasing_from 0 buckets ->
  bucket_helper st buckets ds pay = Ok bs ->
  sum_R bs = sum_R (map (fun q => amount_of st (fst q) (real (snd q))) (combine ds pay)) /\ length bs = S (length buckets).
Proof. exact bucket_partition. Qed.
Print Assumptions C32_buckets_partition.

Theorem C32_defined_iff_some_bound : forall st buckets ds pay,
  (buckets = [] -> bucket_helper st buckets ds pay = Err NameError) /\
  (buckets <> [] -> exists bs, bucket_helper st buckets ds pay = Ok bs).
Proof. intros st buckets ds pay. split; [intros ->; reflexivity|]. destruct buckets as [|b bs]; [congruence|]. intros _. apply bucket_total_defined. Qed.
Print Assumptions C32_defined_iff_some_bound.

(* With bounds that do not increase a payment can be counted twice. *)
Theorem C32_unsorted_buckets_refuted : exists st buckets ds pay bs, length pay = length ds /\ bucket_helper st buckets ds pay = Ok bs /\
  sum_R bs <> sum_R (map (fun q => amount_of st (fst q) (real (snd q))) (combine ds pay)).
Proof.
  exists ex_settings, [2; 1]%Z, [Some (mk 2025 7 1)], [Some 1]. eexists. split; [reflexivity|]. split; [vm_compute; reflexivity|].
  unfold sum_R, amount_of. cbn [map combine fold_right fst snd real value_of].
  replace (to_come ex_settings (mk 2025 7 1)) with true by (vm_compute; reflexivity). cbn. lra.
Qed.
Print Assumptions C32_unsorted_buckets_refuted.

(* The table: one row per bucket, each with what falls in that bucket, whatever the bounds. *)
Theorem C32_table : forall st l calc_npv buckets l' rows, bucket_payments st l calc_npv buckets = (l', Ok rows) ->
  length rows = S (length buckets) /\
  exists cs, l_coupons l' = Some cs /\ (calc_npv = true -> length cs = length (l_rows l')) /\
  forall j c n t, nth_error rows j = Some (c, n, t) ->
    t = c + n /\
    n = sum_where (fun r => in_bucket st buckets j (r_ndate r)) r_npay (l_rows l') /\
    (length cs = length (l_rows l') -> c = sum_where (fun q => in_bucket st buckets j (r_cdate (fst q))) (fun q => real (snd q)) (combine (l_rows l') cs)).
Proof.
  intros st l calc_npv buckets l' rows E. unfold bucket_payments in E.
  destruct (if calc_npv then calc_dirty_pv st l None else (l, Ok 0)) as [l1 [v|e]] eqn:D; [|discriminate].
  destruct (l_coupons l1) as [cs|] eqn:C; [|discriminate]. injection E as <- E. apply bind_ok in E as (cb & E1 & E). apply bind_ok in E as (nb & E2 & E). apply Ok_inj in E. subst rows.
  pose proof (bucket_length _ _ _ _ _ E1) as L1. pose proof (bucket_length _ _ _ _ _ E2) as L2.
  split; [rewrite map_length, combine_length, L1, L2; apply Nat.min_id|]. exists cs. split; [exact C|]. split.
  { intros ->. destruct (dirty_coupons_length _ _ _ _ _ D) as (cs' & C' & L). congruence. }
  intros j c n t N. rewrite nth_error_map in N. destruct (nth_error (combine cb nb) j) as [[c' n']|] eqn:Nc; [|discriminate]. cbn in N. injection N as -> -> <-.
  assert (P : forall (A B : Type) (x : list A) (y : list B) i a b, nth_error (combine x y) i = Some (a, b) -> nth_error x i = Some a /\ nth_error y i = Some b).
  { clear. intros A B. induction x as [|u x IH]; intros [|w y] [|i] a b H; cbn in *; try discriminate; [injection H as -> ->; auto|exact (IH _ _ _ _ H)]. }
  destruct (P _ _ _ _ _ _ _ Nc) as [N1 N2]. split; [reflexivity|]. split.
  - assert (L : length (map (fun r => Some (r_npay r)) (l_rows l1)) = length (map r_ndate (l_rows l1))) by (rewrite !map_length; reflexivity). rewrite (bucket_content _ _ _ _ _ _ _ L E2 N2). clear. unfold sum_where. induction (l_rows l1) as [|r rs IH]; [reflexivity|]. cbn [map combine]. rewrite !sum_R_cons, IH. reflexivity.
  - intros L. assert (L' : length cs = length (map r_cdate (l_rows l1))) by (rewrite map_length; exact L). rewrite (bucket_content _ _ _ _ _ _ _ L' E1 N1). clear -L. revert cs L. unfold sum_where. induction (l_rows l1) as [|r rs IH]; intros [|x cs] L; try discriminate; [reflexivity|]. cbn [map combine]. rewrite !sum_R_cons, IH by (cbn in L; lia). reflexivity.
Qed.
Print Assumptions C32_table.

Theorem C32_table_defined_iff : forall st l buckets, 
  (l_coupons l = None -> bucket_payments st l false buckets = (l, Err KeyError)) /\
  (forall cs, l_coupons l = Some cs -> (buckets = [] -> bucket_payments st l false buckets = (l, Err NameError)) /\ (buckets <> [] -> exists rows, bucket_payments st l false buckets = (l, Ok rows))) /\
  (forall e, snd (calc_dirty_pv st l None) = Err e -> snd (bucket_payments st l true buckets) = Err e) /\
  (forall v, snd (calc_dirty_pv st l None) = Ok v -> bucket_payments st l true buckets = bucket_payments st (fst (calc_dirty_pv st l None)) false buckets).
Proof.
  intros st l buckets. unfold bucket_payments. split; [intros ->; reflexivity|]. split; [|split].
  - intros cs ->. split; [intros ->; reflexivity|]. destruct buckets as [|b bs]; [congruence|]. intros _. destruct (bucket_total_defined st (map r_cdate (l_rows l)) cs b bs) as (x & ->).
    destruct (bucket_total_defined st (map r_ndate (l_rows l)) (map (fun r => Some (r_npay r)) (l_rows l)) b bs) as (y & ->). cbn [bind]. eauto.
  - intros e. destruct (calc_dirty_pv st l None) as [l1 [v|e1]]; cbn [snd]; [discriminate|congruence].
  - intros v. destruct (calc_dirty_pv st l None) as [l1 [w|e1]]; cbn [fst snd]; [reflexivity|discriminate].
Qed.
Print Assumptions C32_table_defined_iff.

Example C32_ex : increasing_from 0 [1; 2; 3; 5]%Z. Proof. cbn. lia. Qed.

(* ---- C33 ---- *)
Theorem C33_accrued_adds_all_coupons : forall st l a cs, accrued_part st l = Ok a -> l_coupons l = Some (map Some cs) ->
  calc_accrued_interest st l =
  Ok (if limit_accrued st then (if Rlt_dec 0 (sum_R cs) then sum_R cs else a) else a + sum_R cs).
Proof. exact accrued_value. Qed.
Print Assumptions C33_accrued_adds_all_coupons.

(* It is the accrued amount plus the unsettled coupons exactly when all other coupons total zero. *)
Theorem C33_right_iff : forall st l a cs, limit_accrued st = false -> accrued_part st l = Ok a -> l_coupons l = Some (map Some cs) ->
  length cs = length (l_rows l) ->
  (calc_accrued_interest st l = Ok (a + unsettled st l cs) <->
   sum_R (map (fun q => match r_cdate (fst q), r_end (fst q) with
                        | Some t, Some e => if to_come st t && (e <=? value_date st)%Z then 0 else snd q
                        | _, _ => snd q end) (combine (l_rows l) cs)) = 0).
Proof.
  intros st l a cs Lm A C L. rewrite (accrued_value st l a cs A C), Lm, (other_coupons st l cs L).
  split; intros H; [injection H as H; lra | f_equal; lra].
Qed.
Print Assumptions C33_right_iff.

(* Outside the schedule there is no clean PV, and before a valuation no accrued interest. *)
Theorem C33_no_current_period : forall st l, filter (is_current st) (l_rows l) = [] ->
  calc_accrued_interest st l = Err IndexError /\ forall v, snd (calc_clean_pv st l) <> Ok v.
Proof. exact (fun st l H => conj (accrued_no_period st l H) (clean_no_period st l H)). Qed.
Print Assumptions C33_no_current_period.

(* With a current period the day count decides; an overnight leg without its rates column and a leg without its coupons column are refused. *)
Theorem C33_current_period : forall st l r0 rest, filter (is_current st) (l_rows l) = r0 :: rest ->
  exists s0 : date, r_start r0 = Some s0 /\ (s0 <= value_date st)%Z /\
  (forall x, year_frac [s0] [value_date st] (l_basis l) None = Err x -> calc_accrued_interest st l = Err x) /\
  (forall y, year_frac [s0] [value_date st] (l_basis l) None = Ok (Scalar y) ->
     ((exists v, calc_accrued_interest st l = Ok v) \/ calc_accrued_interest st l = Err KeyError) /\
     (calc_accrued_interest st l = Err KeyError <-> l_coupons l = None \/ (exists b, l_kind l = FloatRFRLeg b) /\ l_coupon_rate l = None)).
Proof.
  intros st l r0 rest F. assert (C : is_current st r0 = true) by (apply (filter_In _ r0 (l_rows l)); rewrite F; left; reflexivity).
  unfold is_current in C. apply andb_true_iff in C as [C _]. unfold cell_le in C. destruct (r_start r0) as [s0|] eqn:S0; [|discriminate]. apply Z.leb_le in C. exists s0. split; [reflexivity|]. split; [exact C|].
  unfold calc_accrued_interest, accrued_part, scalar_yf. rewrite F, S0. split; [intros x ->; reflexivity|]. intros y ->. cbn [bind].
  destruct (l_kind l) eqn:K; cbn [bind].
  all: try (destruct (l_coupons l); cbn [bind]; [split; [left; destruct (limit_accrued st); [destruct Rlt_dec|]; eauto|split; [destruct (limit_accrued st); [destruct Rlt_dec|]; discriminate|intros [N|[(b & N) _]]; discriminate]]|split; [right; reflexivity|split; auto]]; fail).
  destruct (l_coupon_rate l); cbn [bind]; [|split; [right; reflexivity|split; eauto]].
  destruct (l_coupons l); cbn [bind]; [split; [left; destruct (limit_accrued st); [destruct Rlt_dec|]; eauto|split; [destruct (limit_accrued st); [destruct Rlt_dec|]; discriminate|intros [N|[_ N]]; discriminate]]|split; [right; reflexivity|split; auto]].
Qed.
Print Assumptions C33_current_period.

Theorem C33_needs_valuation_first : forall st p b cv k x rows param l v, new_leg p b cv k x rows param = Ok l -> calc_accrued_interest st l <> Ok v.
Proof. exact accrued_fresh. Qed.
Print Assumptions C33_needs_valuation_first.

(* The example leg accrues 60 days of interest on its first coupon, yet 20 more is reported. *)
Example C33_ex : exists l cs a, calc_dirty_pv ex_settings ex_leg None = (l, Ok 60) /\ l_coupons l = Some (map Some cs) /\
  accrued_part ex_settings l = Ok a /\ unsettled ex_settings l cs = 0 /\ calc_accrued_interest ex_settings l = Ok (a + 20).
Proof.
  destruct (dirty_pv_ok ex_settings ex_leg None _ ex_priced eq_refl) as (l2 & E & R2 & S2 & B2 & K2 & C2 & Cp & _).
  pose proof (proj1 (proj2 (proj2 (proj2 C28_ex)))) as V. rewrite E in V. cbn [snd] in V.
  assert (X2 : l_coupons l2 = Some (map Some [1 * 100 * / 10 * / 2; 1 * 100 * / 10 * (3 / 2)])) by (rewrite Cp; reflexivity).
  assert (A1 : exists a, accrued_part ex_settings l2 = Ok a).
  { unfold accrued_part. rewrite R2, B2, K2. cbn [override_rows l_rows ex_leg].
    assert (F : filter (is_current ex_settings) [ex_row1; ex_row2] = [ex_row1]).
    { cbn [filter]. replace (is_current ex_settings ex_row1) with true by (vm_compute; reflexivity).
      replace (is_current ex_settings ex_row2) with false by (vm_compute; reflexivity). reflexivity. }
    rewrite F. cbn [r_start ex_row1]. unfold scalar_yf.
    replace (year_frac [mk 2024 1 1] [value_date ex_settings] (l_basis ex_leg) None) with (@Ok (out Q) (Scalar (60 # 365)%Q)) by (vm_compute; reflexivity).
    cbn [bind l_kind ex_leg]. eauto. }
  destruct A1 as (a & A1). exists l2, [1 * 100 * / 10 * / 2; 1 * 100 * / 10 * (3 / 2)], a. split; [rewrite E; f_equal; exact V|]. split; [exact X2|]. split; [exact A1|]. split.
  - unfold unsettled. rewrite R2. unfold sum_R. cbn [override_rows l_rows ex_leg combine map fold_right fst snd r_cdate r_end ex_row1 ex_row2].
    replace (mk 2024 7 1 <=? value_date ex_settings)%Z with false by (vm_compute; reflexivity).
    replace (mk 2026 1 1 <=? value_date ex_settings)%Z with false by (vm_compute; reflexivity). rewrite !andb_false_r. lra.
  - rewrite (accrued_value _ _ a _ A1 X2). cbn [limit_accrued ex_settings]. f_equal. unfold sum_R. cbn [fold_right]. lra.
Qed.

(* ---- C34 ---- *)
Theorem C34_opposite_sides : forall a b, (exists w, new_swap a b = Ok w) <-> l_side a <> l_side b.
Proof. exact swap_sides. Qed.
Print Assumptions C34_opposite_sides.

Theorem C34_dirty_is_sum : forall st w x y, snd (calc_dirty_pv st (fst w) None) = Ok x -> snd (calc_dirty_pv st (snd w) None) = Ok y ->
  swap_dirty_pv st w = ((fst (calc_dirty_pv st (fst w) None), fst (calc_dirty_pv st (snd w) None)), Ok (x + y)).
Proof. exact swap_dirty_sum. Qed.
Print Assumptions C34_dirty_is_sum.

Theorem C34_clean_is_sum : forall st w x y a b, snd (calc_dirty_pv st (fst w) None) = Ok x -> snd (calc_dirty_pv st (snd w) None) = Ok y ->
  calc_accrued_interest st (fst (calc_dirty_pv st (fst w) None)) = Ok a ->
  calc_accrued_interest st (fst (calc_dirty_pv st (snd w) None)) = Ok b ->
  snd (calc_clean_pv st (fst w)) = Ok (x - a) /\ snd (calc_clean_pv st (snd w)) = Ok (y - b) /\
  snd (swap_clean_pv st w) = Ok ((x - a) + (y - b)).
Proof. exact swap_clean_sum. Qed.
Print Assumptions C34_clean_is_sum.

Example C34_ex : exists w x, new_swap ex_leg {| l_side := Pay; l_basis := ACT_365; l_curve := Some ex_curve; l_kind := FixedLeg;
    l_rows := l_rows ex_leg; l_coupons := None; l_coupon_rate := None; l_pvs := None |} = Ok w /\
  snd (calc_dirty_pv ex_settings (fst w) None) = Ok 60 /\ snd (calc_dirty_pv ex_settings (snd w) None) = Ok x.
Proof.
  eexists. eexists. split; [reflexivity|]. cbn [fst snd]. split; [exact (proj1 (proj2 (proj2 (proj2 C28_ex))))|].
  apply (fixed_dirty_pv ex_settings _ (fun _ => / 2)); [|reflexivity|exact ex_lengths|exact ex_rates].
  destruct ex_priced as (cv & A & B & C). exists cv. auto.
Qed.

(* ---- C68: floating legs ---- *)
Theorem C68_floating_value : forall st l ov f, priced_by l f -> kind_ready (l_kind l) = true -> l_kind l <> FixedLeg ->
  snd (calc_dirty_pv st l ov) =
  Ok (sum_where (fun r => match r_cdate r with None => true | Some _ => false end) (fun r => value_of st f (r_ndate r) (r_npay r)) (l_rows l)).
Proof. exact float_pv. Qed.
Print Assumptions C68_floating_value.

Theorem C68_floating_without_index_curve : forall st l ov, kind_ready (l_kind l) = false ->
  calc_dirty_pv st l ov = (l, Err MarketDataNotAvailable).
Proof. exact pv_no_index_curve. Qed.
Print Assumptions C68_floating_without_index_curve.

(* A floating leg repaying 100 is worth nothing. *)
Example C68_ex : exists l, l_kind l = FloatTermLeg true /\ priced_by l (fun _ => / 2) /\ map r_npay (l_rows l) = [0; 100] /\
  snd (calc_dirty_pv ex_settings l None) = Ok 0.
Proof.
  exists {| l_side := Rcv; l_basis := ACT_365; l_curve := Some ex_curve; l_kind := FloatTermLeg true; l_rows := l_rows ex_leg;
     l_coupons := None; l_coupon_rate := None; l_pvs := None |}.
  assert (P : priced_by {| l_side := Rcv; l_basis := ACT_365; l_curve := Some ex_curve; l_kind := FloatTermLeg true; l_rows := l_rows ex_leg;
     l_coupons := None; l_coupon_rate := None; l_pvs := None |} (fun _ => / 2)).
  { destruct ex_priced as (cv & A & B & C). exists cv. auto. }
  split; [reflexivity|]. split; [exact P|]. split; [reflexivity|].
  rewrite (float_pv _ _ None _ P eq_refl) by discriminate. f_equal. unfold sum_where, sum_R. cbn. lra.
Qed.

(* ---- C69: solving a swap for a target ---- *)
Theorem C69_target_applies_to_the_leg : forall st s target w x f y,
  priced_by (fst w) f -> l_kind (fst w) = FixedLeg -> has_lengths (fst w) -> annuity st f (fst w) <> 0 ->
  exact_on (objective st target (fst w)) s -> snd (swap_target_solve st s target 1 w) = Ok (Some x) ->
  snd (calc_dirty_pv st (snd w) None) = Ok y ->
  exists v, snd (calc_dirty_pv st (fst w) (Some x)) = Ok v /\ v + y = target + y /\ (v + y = target <-> y = 0).
Proof. exact swap_target. Qed.
Print Assumptions C69_target_applies_to_the_leg.

Theorem C69_other_leg_numbers : forall st s target n w, n <> 1%Z -> n <> 2%Z -> swap_target_solve st s target n w = (w, Err ValueError).
Proof.
  intros st s target n w A B. unfold swap_target_solve. destruct (Z.eqb_spec n 1); [contradiction|]. destruct (Z.eqb_spec n 2); [contradiction|]. reflexivity.
Qed.
Print Assumptions C69_other_leg_numbers.

(* Only the chosen leg is touched, and the answer is the leg's own; choosing leg 2 is choosing leg 1 of the swapped pair. *)
Theorem C69_one_leg_changes : forall st s target w,
  fst (swap_target_solve st s target 1 w) = (fst (target_solve st s target (fst w)), snd w) /\
  snd (swap_target_solve st s target 1 w) = Ok (snd (target_solve st s target (fst w))) /\
  fst (swap_target_solve st s target 2 w) = (fst w, fst (target_solve st s target (snd w))) /\
  snd (swap_target_solve st s target 2 w) = snd (swap_target_solve st s target 1 (snd w, fst w)).
Proof.
  intros st s target w. unfold swap_target_solve. cbn [Z.eqb Pos.eqb fst snd]. destruct (target_solve st s target (fst w)), (target_solve st s target (snd w)). auto.
Qed.
Print Assumptions C69_one_leg_changes.

Example C69_ex : exists w, fst w = ex_leg /\ snd (swap_target_solve ex_settings secant 70 1 w) = Ok (Some (/ 5)) /\
  snd (calc_dirty_pv ex_settings (snd w) None) = Ok 60.
Proof.
  exists (ex_leg, ex_leg). split; [reflexivity|]. split; [|exact (proj1 (proj2 (proj2 (proj2 C28_ex))))].
  unfold swap_target_solve. cbn [Z.eqb Pos.eqb fst snd]. pose proof (proj2 (proj2 C29_ex)) as E.
  destruct (target_solve ex_settings secant 70 ex_leg) as [l o]. cbn in *. rewrite E. reflexivity.
Qed.
