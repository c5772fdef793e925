(* Properties C40-C43 and C73: historical fixings and floating rates. *)
From Coq Require Import String ZArith QArith Qreals Reals Lra Lia List Bool.
From Verif Require Import Base Date BusDayModel DayCountModel TenorModel ScheduleModel NumModel CurveModel CurveSpec CurveProofs PCurve
  FixingModel FixingSpec FixingProofs SwapCurveProofs.
Import ListNotations.
Open Scope R_scope.

(* ---- C40 ---- *)
Theorem C40_latest_fixing_in_input_order : forall fx ds, in_date_order fx ->
  exists l, index_historical_fixings fx ds = Ok l /\ Forall2 (in_force fx) ds l.
Proof. exact index_in_force. Qed.
Print Assumptions C40_latest_fixing_in_input_order.

Theorem C40_unsorted_table_rejected : forall fx ds, ~ in_date_order fx -> index_historical_fixings fx ds = Err ValueError.
Proof. exact index_unsorted. Qed.
Print Assumptions C40_unsorted_table_rejected.

(* Fixings published after every requested date change nothing. *)
Theorem C40_no_look_ahead : forall fx gx ds, in_date_order (fx ++ gx) -> (forall (q : fixing) (d : date), In q gx -> In d ds -> (d < fst q)%Z) ->
  index_historical_fixings (fx ++ gx) ds = index_historical_fixings fx ds.
Proof. exact index_no_look_ahead. Qed.
Print Assumptions C40_no_look_ahead.

Definition ex_fixings : list fixing := [(100%Z, Some 1); (101%Z, None); (103%Z, Some 2)].
Example C40_ex : in_date_order ex_fixings /\ index_historical_fixings ex_fixings [104; 99; 100; 102]%Z = Ok [Some 2; None; Some 1; None].
Proof. split; [apply dates_sorted_order|]; reflexivity. Qed.

(* ---- C41 ---- *)
Theorem C41_compounded : forall n fx ps rs i s e f, NoDup (map fst fx) -> n <> 0 -> get_coupon_rates (Some n) fx ps DailyCompounded = Ok rs ->
  nth_error ps i = Some (s, e) -> (s < e)%Z -> observed fx s e f ->
  exists r, nth_error rs i = Some (Some r) /\ 1 + r * (IZR (e - s) / n) = prod_days (day_factor n f) s (days_between s e).
Proof. exact compounded_value. Qed.
Print Assumptions C41_compounded.

Theorem C41_bounds : forall n fx ps rs i s e lo hi, NoDup (map fst fx) -> 0 < n -> get_coupon_rates (Some n) fx ps DailyCompounded = Ok rs ->
  nth_error ps i = Some (s, e) -> (s < e)%Z -> - n <= lo -> In s (map fst fx) ->
  (forall q, In q fx -> (s <= fst q < e)%Z -> exists x, snd q = Some x /\ lo <= x <= hi) ->
  exists r, nth_error rs i = Some (Some r) /\ (1 + lo / n) ^ (days_between s e) <= 1 + r * (IZR (e - s) / n) <= (1 + hi / n) ^ (days_between s e).
Proof. exact compounded_bounds. Qed.
Print Assumptions C41_bounds.

(* A period of one day earns the fixing of that day. *)
Theorem C41_single_day : forall n fx ps rs i s x, NoDup (map fst fx) -> 0 < n -> get_coupon_rates (Some n) fx ps DailyCompounded = Ok rs ->
  nth_error ps i = Some (s, (s + 1)%Z) -> In (s, Some x) fx -> nth_error rs i = Some (Some x).
Proof. exact single_day. Qed.
Print Assumptions C41_single_day.

Theorem C41_weighted_average : forall n fx ps rs i s e f, NoDup (map fst fx) -> get_coupon_rates n fx ps WeightedAverage = Ok rs ->
  nth_error ps i = Some (s, e) -> observed fx s e f ->
  nth_error rs i = Some (average (has_fixing f) (value_or_zero f) s e).
Proof. exact weighted_value. Qed.
Print Assumptions C41_weighted_average.

Theorem C41_simple_average : forall n fx ps rs i s e, get_coupon_rates n fx ps SimpleAverage = Ok rs -> nth_error ps i = Some (s, e) ->
  nth_error rs i = Some (mean (period_fixings fx s e)).
Proof. exact simple_value. Qed.
Print Assumptions C41_simple_average.

Theorem C41_weighted_below_compounded : forall n fx ps i s e x y rs qs f, NoDup (map fst fx) -> 0 < n ->
  get_coupon_rates (Some n) fx ps WeightedAverage = Ok rs -> get_coupon_rates (Some n) fx ps DailyCompounded = Ok qs ->
  nth_error ps i = Some (s, e) -> (s < e)%Z -> observed fx s e f -> (forall d, (s <= d < e)%Z -> exists r, f d = Some r /\ 0 <= r) ->
  nth_error rs i = Some (Some x) -> nth_error qs i = Some (Some y) -> x <= y.
Proof. exact weighted_below_compounded. Qed.
Print Assumptions C41_weighted_below_compounded.

(* Two days at 1, one day at 2, the fixing of day 103 in force for one day. *)
Definition ex_two : list fixing := [(103%Z, Some 2); (100%Z, Some 1)].
Example C41_ex : NoDup (map fst ex_two) /\ observed ex_two 100%Z 104%Z (fun d => Some (if (d =? 103)%Z then 2 else 1)) /\
  exists rs, get_coupon_rates (Some 360) ex_two [(100, 104)]%Z DailyCompounded = Ok rs /\ nth_error [(100, 104)]%Z 0 = Some (100, 104)%Z.
Proof.
  split; [repeat constructor; cbn; intuition lia|]. split.
  - intros d D. destruct (Z.eqb_spec d 103) as [->|N].
    + apply (lt_found ex_two _ (103%Z, Some 2)); [left; reflexivity|cbn; lia|]. intros q [<-|[<-|[]]]; cbn; lia.
    + apply (lt_found ex_two _ (100%Z, Some 1)); [right; left; reflexivity|cbn; lia|]. intros q [<-|[<-|[]]]; cbn; lia.
  - eexists. split; reflexivity.
Qed.

(* ---- C73 ---- *)
Theorem C73_rejected_iff_poorly_covered : forall n fx ps m, ps <> [] -> m <> RfrOther ->
  (get_coupon_rates n fx ps m = Err ValueError <-> poorly_covered fx ps) /\
  (~ poorly_covered fx ps -> exists rs, get_coupon_rates n fx ps m = Ok rs).
Proof. exact coverage_iff. Qed.
Print Assumptions C73_rejected_iff_poorly_covered.

(* Without any fixing in its days, a period silently earns nothing. *)
Theorem C73_no_fixing_earns_zero : forall n fx ps rs i s e, n <> 0 -> get_coupon_rates (Some n) fx ps DailyCompounded = Ok rs ->
  nth_error ps i = Some (s, e) -> (s < e)%Z -> (forall q, In q fx -> ~ (s <= fst q < e)%Z) -> nth_error rs i = Some (Some 0).
Proof. exact nothing_observed. Qed.
Print Assumptions C73_no_fixing_earns_zero.

(* A fixing published before the period does not carry into it. *)
Theorem C73_earlier_fixings_ignored : forall n fx q ps m, ps <> [] -> (forall p : period, In p ps -> (fst q < fst p)%Z) ->
  get_coupon_rates n (q :: fx) ps m = get_coupon_rates n fx ps m.
Proof. exact earlier_ignored. Qed.
Print Assumptions C73_earlier_fixings_ignored.

Example C73_ex : poorly_covered ex_two [(100, 105)]%Z /\ ~ poorly_covered ex_two [(100, 104)]%Z /\ ~ poorly_covered ex_two [(105, 109)]%Z /\
  get_coupon_rates (Some 360) ex_two [(100, 105)]%Z DailyCompounded = Err ValueError.
Proof.
  repeat split.
  - exists (100%Z, Some 1). split; [right; left; reflexivity|]. split; exists (100, 105)%Z; (split; [left; reflexivity|]); cbn; lia.
  - left. intros q [<-|[<-|[]]] _; exists (100, 105)%Z; (split; [left; reflexivity|]); cbn; lia.
  - intros [_ [H|(p & [<-|[]] & H)]].
    + destruct (H (103%Z, Some 2)) as (p & [<-|[]] & L); [left; reflexivity| |cbn in L; lia].
      split; exists (100, 104)%Z; (split; [left; reflexivity|]); cbn; lia.
    + specialize (H (103%Z, Some 2) (or_introl eq_refl)).
      assert (W : in_window [(100, 104)%Z] 103%Z) by (split; exists (100, 104)%Z; (split; [left; reflexivity|]); cbn; lia). specialize (H W). cbn in H. lia.
  - intros [(q & I & (p & [<-|[]] & L) & _) _]. destruct I as [<-|[<-|[]]]; cbn in L; lia.
Qed.

(* ---- C42 ---- *)
Theorem C42_one_class_each : forall c p, (fst p < snd p)%Z -> exists! k, classified c p k.
Proof. exact one_class. Qed.
Print Assumptions C42_one_class_each.

Theorem C42_rates : forall z fx ps m, built z -> plain_basis (z_basis z) -> m <> RfrOther -> good_periods z ps ->
  (forall d, (d < z_date z)%Z -> (exists p : period, In p ps /\ (fst p <= d)%Z) -> In d (map fst fx)) ->
  exists fs, rfr_get_fixings z fx ps m = Ok fs /\ length fs = length ps.
Proof. exact rfr_total. Qed.
Print Assumptions C42_rates.

(* The growth of every period is that of its past days times that of the curve over the rest. *)
Theorem C42_growth : forall z fx ps fs i s e N f v w, built z -> act_basis (z_basis z) -> days_per_year (z_basis z) = Some N -> NoDup (map fst fx) ->
  good_periods z ps -> rfr_get_fixings z fx ps DailyCompounded = Ok fs -> nth_error ps i = Some (s, e) ->
  observed fx s (Z.min e (z_date z)) f -> discounts z (Z.max s (z_date z)) v -> discounts z (Z.max e (z_date z)) w ->
  exists r, nth_error fs i = Some (Some r) /\
    1 + r * (IZR (e - s) / N) = prod_days (day_factor N f) s (days_between s (Z.min e (z_date z))) * (v / w).
Proof. exact rfr_growth. Qed.
Print Assumptions C42_growth.

(* The rate of a period does not depend on the other periods of the call. *)
Theorem C42_periods_independent : forall z fx ps qs m fs gs i j p, built z -> plain_basis (z_basis z) -> m <> RfrOther -> good_periods z ps -> good_periods z qs ->
  rfr_get_fixings z fx ps m = Ok fs -> rfr_get_fixings z fx qs m = Ok gs -> nth_error ps i = Some p -> nth_error qs j = Some p ->
  nth_error fs i = nth_error gs j.
Proof. exact rows_independent. Qed.
Print Assumptions C42_periods_independent.

Theorem C42_future : forall z fx ps m, ps <> [] -> (forall p : period, In p ps -> (z_date z <= fst p < snd p)%Z) ->
  forall fs, forward_rates z ps (forward_of m) = Ok fs -> length fs = length ps -> rfr_get_fixings z fx ps m = Ok fs.
Proof. exact all_future. Qed.
Print Assumptions C42_future.

Theorem C42_past : forall z fx ps m, ps <> [] -> (forall p : period, In p ps -> (fst p < snd p <= z_date z)%Z) ->
  rfr_get_fixings z fx ps m = get_coupon_rates (days_per_year (z_basis z)) fx ps m.
Proof. exact all_past. Qed.
Print Assumptions C42_past.

Theorem C42_straddling : forall z fx (s e : date) m h t H F x, (s < z_date z < e)%Z ->
  year_fraction (z_basis z) s (z_date z) h -> year_fraction (z_basis z) (z_date z) e t -> h + t <> 0 ->
  get_coupon_rates (days_per_year (z_basis z)) fx [(s, z_date z)] m = Ok [Some H] ->
  get_forward_rates z [Some (z_date z)] [Some e] (forward_of m) = Ok [Some F] ->
  rfr_get_fixings z fx [(s, e)] m = Ok x -> exists r, x = [Some r] /\ (1 + h * H) * (1 + t * F) = 1 + r * (h + t).
Proof. exact straddling_single. Qed.
Print Assumptions C42_straddling.

Definition ex_recent : list fixing := [(737998%Z, Some (1 / 20)); (737999%Z, Some (1 / 10))].
Definition ex_rows : list period := [(737998, 738365); (738365, 738730); (737998, 738000)]%Z.
Example C42_ex : forall cal, exists z f' fs, ex_new cal ACT_365 = Ok (z, f') /\ built z /\ act_basis (z_basis z) /\ good_periods z ex_rows /\
  NoDup (map fst ex_recent) /\ rfr_get_fixings z ex_recent ex_rows DailyCompounded = Ok fs /\
  observed ex_recent 737998%Z (Z.min 738365 (z_date z)) (fun d => Some (if (d =? 737998)%Z then 1 / 20 else 1 / 10)) /\
  discounts z (Z.max 737998 (z_date z)) 1 /\ discounts z (Z.max 738365 (z_date z)) (19 / 20).
Proof.
  intros cal. destruct (ex_curve cal) as (z & f' & E & D & B & L). pose proof (ex_built cal z f' E) as BZ. pose proof (ex_value cal z f' E D L) as (V0 & V1 & V2).
  assert (G : good_periods z ex_rows) by (intros p [<-|[<-|[<-|[]]]]; rewrite L; cbn; lia).
  destruct (rfr_ok z ex_recent ex_rows DailyCompounded BZ) as (fs & F); [rewrite B; split; discriminate|discriminate|exact G| |].
  { intros d LD (p & I & P). rewrite D in LD. destruct I as [<-|[<-|[<-|[]]]]; cbn in P; try lia; cbn; lia. }
  exists z, f', fs. split; [exact E|]. split; [exact BZ|]. split; [rewrite B; unfold act_basis; auto|]. split; [exact G|].
  split; [repeat constructor; cbn; intuition lia|]. split; [exact F|]. rewrite D. split; [|split; [exact V0|exact V1]].
  intros d LD. change (Z.min 738365 738000) with 738000%Z in LD. destruct (Z.eqb_spec d 737998) as [->|N].
  - apply (lt_found ex_recent _ (737998%Z, Some (1 / 20))); [left; reflexivity|cbn; lia|]. intros q [<-|[<-|[]]]; cbn; lia.
  - apply (lt_found ex_recent _ (737999%Z, Some (1 / 10))); [right; left; reflexivity|cbn; lia|]. intros q [<-|[<-|[]]]; cbn; lia.
Qed.

(* ---- C43 ---- *)
Theorem C43_historical_fixings_only : forall z fx ps ft fs, term_get_fixings z fx ps ft = Ok fs ->
  length fs = length ps /\ in_date_order fx /\
  forall i s e, nth_error ps i = Some (s, e) ->
    exists v, nth_error fs i = Some v /\ ((z_date z <= s)%Z -> in_force fx s v) /\ ((s < z_date z)%Z -> v = None).
Proof. exact term_value. Qed.
Print Assumptions C43_historical_fixings_only.

Theorem C43_succeeds : forall z fx ps ft, built z -> plain_basis (z_basis z) -> period_type ft -> in_date_order fx ->
  (forall p : period, In p ps -> (z_date z <= fst p)%Z -> (fst p <= snd p <= z_last z)%Z) -> exists fs, term_get_fixings z fx ps ft = Ok fs.
Proof. exact term_ok. Qed.
Print Assumptions C43_succeeds.

(* In particular no value depends on the curve. *)
Theorem C43_curve_ignored : forall z z' fx ps ft ft' fs fs', term_get_fixings z fx ps ft = Ok fs -> term_get_fixings z' fx ps ft' = Ok fs' ->
  NoDup (map fst fx) -> z_date z = z_date z' -> fs = fs'.
Proof. exact term_curve_ignored. Qed.
Print Assumptions C43_curve_ignored.

Example C43_ex : forall cal, exists z f' fs, ex_new cal ACT_365 = Ok (z, f') /\ built z /\ in_date_order ex_recent /\
  term_get_fixings z ex_recent ex_rows FSimple = Ok fs /\ fs = [None; Some (1 / 10); None].
Proof.
  intros cal. destruct (ex_curve cal) as (z & f' & E & D & B & L). pose proof (ex_built cal z f' E) as BZ.
  assert (O : in_date_order ex_recent) by (apply dates_sorted_order; reflexivity).
  destruct (term_ok z ex_recent ex_rows FSimple BZ) as (fs & F); [rewrite B; split; discriminate|left; reflexivity|exact O| |].
  { intros p I. rewrite D, L. destruct I as [<-|[<-|[<-|[]]]]; cbn; lia. }
  exists z, f', fs. split; [exact E|]. split; [exact BZ|]. split; [exact O|]. split; [exact F|].
  destruct (term_value z ex_recent ex_rows FSimple fs F) as (LN & _ & V). destruct fs as [|a [|b [|c [|]]]]; try discriminate.
  destruct (V 0%nat _ _ eq_refl) as (x & X & _ & X'). destruct (V 1%nat _ _ eq_refl) as (y & Y & Y' & _). destruct (V 2%nat _ _ eq_refl) as (w & W & _ & W').
  rewrite D in X', Y', W'. cbn in X, Y, W. injection X as ->. injection Y as ->. injection W as ->. rewrite (X' ltac:(lia)), (W' ltac:(lia)). repeat f_equal.
  apply (latest_unique ex_recent (fun d => (d <= 738365)%Z)); [repeat constructor; cbn; intuition lia|exact (Y' ltac:(lia))|].
  apply (lt_found ex_recent _ (737999%Z, Some (1 / 10))); [right; left; reflexivity|cbn; lia|]. intros q [<-|[<-|[]]]; cbn; lia.
Qed.
