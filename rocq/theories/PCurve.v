(* Properties C37, C38, C39, C70, C71, C72 and C75: zero curves. *)
From Coq Require Import String ZArith QArith Qreals Reals Lra Lia List Bool.
From Verif Require Import Base Date BusDayModel DayCountModel DayCountProofs TenorModel ScheduleModel LegModel NumModel CompModel CompSpec CurveModel CurveSpec CurveProofs.
Import ListNotations.
Open Scope R_scope.

(* ---- C37 ---- *)
Theorem C37_always_built : forall splrep c b cal em freq f ts vs, well_quoted c b cal freq f ts vs ->
  exists z f', new_curve splrep c b cal LinearLn f freq em = Ok (z, f') /\ z_date z = c /\ z_basis z = b.
Proof.
  intros splrep c b cal em freq f ts vs (H1 & H2 & H3 & H4 & H5 & H6).
  destruct (build_linear splrep c b cal em f freq ts vs H1 H2 H3 H4 H5 H6) as (z & f' & k & E & D & B & _). exists z, f'. auto.
Qed.
Print Assumptions C37_always_built.

Theorem C37_interpolation : forall splrep c b cal em freq f ts vs z f', well_quoted c b cal freq f ts vs -> em <> OtherExtrap ->
  new_curve splrep c b cal LinearLn f freq em = Ok (z, f') ->
  forall d t, covered z d -> year_fraction b c d t -> exists v, discounts z d v /\ 0 < v /\
    (forall p, In p (knots ts vs) -> fst p = t -> v = snd p) /\
    (forall p q, neighbours (knots ts vs) p q -> fst p <= t <= fst q -> v = geometric p q t) /\
    (forall lo hi, 0 < lo -> (forall p, In p (knots ts vs) -> lo <= snd p <= hi) -> lo <= v <= hi).
Proof. exact linear_value. Qed.
Print Assumptions C37_interpolation.

Theorem C37_monotone : forall splrep c b cal em freq f ts vs z f', well_quoted c b cal freq f ts vs -> em <> OtherExtrap ->
  new_curve splrep c b cal LinearLn f freq em = Ok (z, f') ->
  forall d d' t t' v v', covered z d -> covered z d' -> year_fraction b c d t -> year_fraction b c d' t' -> t <= t' ->
    (forall p q, In p (knots ts vs) -> In q (knots ts vs) -> fst p <= fst q -> snd q <= snd p) ->
    discounts z d v -> discounts z d' v' -> v' <= v.
Proof. exact linear_mono. Qed.
Print Assumptions C37_monotone.

Theorem C37_one_at_curve_date : forall splrep c b cal em freq f ts vs z f', well_quoted c b cal freq f ts vs -> em <> OtherExtrap ->
  new_curve splrep c b cal LinearLn f freq em = Ok (z, f') -> discounts z c 1.
Proof. exact linear_at_curve_date. Qed.
Print Assumptions C37_one_at_curve_date.

Theorem C37_zero_rates : forall splrep c b cal em freq f ts vs z f', well_quoted c b cal freq f ts vs -> em <> OtherExtrap ->
  new_curve splrep c b cal LinearLn f freq em = Ok (z, f') ->
  forall d t, covered z d -> year_fraction b c d t -> exists v, discounts z d v /\
    get_zero_rates z Continuous (Some (Scalar (Some d))) None None = Ok (Scalar (zero_rate_from_df Continuous t v)).
Proof. exact linear_zero_rate. Qed.
Print Assumptions C37_zero_rates.

(* A quote on the curve date itself makes the constructor fail. *)
Theorem C37_quote_on_curve_date_rejected : forall splrep c b cal em f freq ts vs, plain_basis b -> quotes c b cal freq f ts vs ->
  Forall (fun t => 0 <= t) ts -> In 0 ts -> new_curve splrep c b cal LinearLn f freq em = Err ValueError.
Proof. exact linear_rejects_zero. Qed.
Print Assumptions C37_quote_on_curve_date_rejected.

(* Zero rates cannot be quoted without their compounding frequency. *)
Theorem C37_rates_need_a_frequency : forall splrep c b cal im em f l, In (ColZeroRate l) f -> new_curve splrep c b cal im f None em = Err ValueError.
Proof.
  intros splrep c b cal im em f l I. unfold new_curve, process_pillars. assert (E : existsb is_zero_rate f = true) by (apply existsb_exists; exists (ColZeroRate l); auto). rewrite E. reflexivity.
Qed.
Print Assumptions C37_rates_need_a_frequency.

(* Every discount factor of any curve, of whatever interpolation, is positive. *)
Theorem C37_positive : forall z d v, built z -> discounts z d v -> 0 < v.
Proof. exact built_positive. Qed.
Print Assumptions C37_positive.

(* The curve covers exactly the days from its own date to the latest quoted date. *)
Theorem C37_range : forall splrep c b cal im em x y f freq z f' dates, (f = [x; y] \/ f = [y; x]) -> is_y y = true ->
  new_curve splrep c b cal im f freq em = Ok (z, f') -> quoted_dates c cal x dates -> length (y_values y) = length dates ->
  z_date z = c /\ In (z_last z) dates /\ forall d, In d dates -> covered z d.
Proof. exact last_is_latest. Qed.
Print Assumptions C37_range.

Lemma built_rows z : built z -> plain_basis (z_basis z) -> forall r, In r (z_daily z) ->
  d_years r = yf1 (z_basis z) (z_date z) (d_date r) /\ (d_cczr r, d_df r) = daily_cells (z_interp z) (z_pillars z) (z_spline z) (Q2R (d_years r)).
Proof.
  intros (sp & c & b & cal & im & f & freq & em & f' & NC & _) PB r I. unfold new_curve in NC.
  apply bind_ok in NC as ([[ps s] g] & _ & NC). apply bind_ok in NC as ([rows m] & SD & NC). injection NC as <- _. cbn in I, PB |- *.
  unfold setup_daily in SD. apply bind_ok in SD as (m' & _ & SD). cbv zeta in SD. set (range := date_range c m') in *. apply bind_ok in SD as (dd & D & SD). apply bind_ok in SD as (yy & Y & SD).
  injection SD as <- _. apply in_map_iff in I as ([[x k] t] & <- & I). rewrite (year_frac_values c range b yy PB Y) in I.
  assert (t = yf1 b c x).
  { pose proof (day_count_length _ _ _ _ _ Y D) as LD. set (dl := out_list (length range) dd) in *. clearbody dl. clear -I LD. clearbody range. revert dl LD I.
    induction range as [|y l IH]; intros [|w dl] LD I; cbn in *; try discriminate; try tauto.
    destruct I as [I|I]; [congruence|]. apply (IH dl); [lia|exact I]. }
  subst t. destruct (daily_cells im ps s (Q2R (yf1 b c x))) eqn:DC; cbn. rewrite DC. split; reflexivity.
Qed.
Lemma cells_agree im ps s t r : fst (daily_cells im ps s t) = Some r -> snd (daily_cells im ps s t) = Some (exp (- r * t)).
Proof.
  unfold daily_cells. destruct im; [|destruct s|destruct s|]; cbn; try discriminate.
  all: try (destruct (np_interp _ _) as [l|]; [|discriminate]); try (destruct (sp_at _ _) as [l|]; [|discriminate]); cbn.
  all: unfold np_div; try destruct (Req_EM_T t 0); try discriminate; intros H; injection H as <-; do 2 f_equal; try field; auto; ring.
Qed.
Lemma rate_cell z d : z_extrap z <> OtherExtrap -> get_zero_rates z Continuous (Some (Scalar (Some d))) None None =
  if in_range z (Some d) then Ok (Scalar (match find_day z d with Some r => d_cczr r | None => None end)) else Err IndexError.
Proof.
  intros N. unfold get_zero_rates. cbn. unfold index_dates. destruct (z_extrap z); try contradiction; cbn; destruct (in_range z (Some d)); cbn; try reflexivity; destruct (find_day z d); reflexivity.
Qed.
Lemma built_spline z : built z -> z_interp z = SplineLn \/ z_interp z = SplineCczr -> z_spline z <> None.
Proof.
  intros (sp & c & b & cal & im & f & freq & em & f' & NC & _) IM. unfold new_curve in NC.
  apply bind_ok in NC as ([[ps s] g] & PP & NC). apply bind_ok in NC as ([rows m] & _ & NC). injection NC as <- _. cbn in IM |- *.
  unfold process_pillars in PP. apply bind_ok in PP as (_ & _ & PP). apply bind_ok in PP as (_ & _ & PP).
  destruct (filter is_x f) as [|x [|]]; try discriminate. destruct (filter is_y f) as [|y [|]]; try discriminate.
  apply bind_ok in PP as ([ds ys] & _ & PP). apply bind_ok in PP as ([ps' s'] & AF & PP). injection PP as _ <- _.
  unfold add_first_row in AF. destruct (map _ _) as [|p l]; [discriminate|].
  destruct (Req_EM_T (p_years p) 0); destruct IM as [-> | ->]; apply bind_ok in AF as (? & _ & AF); injection AF as _ <-; discriminate.
Qed.

(* Zero rates and discount factors agree for every interpolation method, looked up by date or by years. *)
Theorem C37_rates_and_factors_agree : forall z d t r, built z -> plain_basis (z_basis z) -> year_fraction (z_basis z) (z_date z) d t ->
  get_zero_rates z Continuous (Some (Scalar (Some d))) None None = Ok (Scalar (Some r)) -> discounts z d (exp (- r * t)).
Proof.
  intros z d t r B PB YF H. rewrite (rate_cell z d (built_extrap z B)) in H. unfold discounts. rewrite (scalar_lookup z _ (built_extrap z B)).
  destruct (in_range z (Some d)) eqn:R; [|discriminate]. unfold cell_df. destruct (find_day z d) as [w|] eqn:F; [|discriminate].
  unfold find_day in F. apply find_some in F as [I E]. apply Z.eqb_eq in E. destruct (built_rows z B PB w I) as [Y C].
  assert (CV : covered z d) by (apply (in_range_covered z (Some d)); exact R).
  destruct YF as (q & YF & ->). rewrite yf1_scalar in YF by (destruct PB, CV; assumption). injection YF as <-. rewrite E in Y. rewrite Y in C.
  destruct (daily_cells (z_interp z) (z_pillars z) (z_spline z) (Q2R (yf1 (z_basis z) (z_date z) d))) as [u v] eqn:DC. injection C as C1 C2.
  assert (A : v = Some (exp (- r * Q2R (yf1 (z_basis z) (z_date z) d)))).
  { change v with (snd (u, v)). rewrite <- DC. apply cells_agree. rewrite DC. cbn. congruence. }
  rewrite C2, A. reflexivity.
Qed.
Print Assumptions C37_rates_and_factors_agree.
Theorem C37_rates_and_factors_agree_by_years : forall z t r, get_zero_rates z Continuous None None (Some (Scalar t)) = Ok (Scalar (Some r)) ->
  get_discount_factors z None None (Some (Scalar t)) = Ok (Scalar (Some (exp (- r * t)))).
Proof.
  intros z t r. unfold get_zero_rates, get_discount_factors, index_daily_data, index_years. cbn.
  destruct (z_interp z); try discriminate; destruct (z_spline z) as [s|]; try discriminate; cbn; destruct (sp_at s t) as [l|]; cbn; try discriminate.
  all: unfold np_div; try destruct (Req_EM_T t 0); try discriminate; intros H; injection H as <-; do 4 f_equal; try field; auto; ring.
Qed.
Print Assumptions C37_rates_and_factors_agree_by_years.

(* On spline curves a date and its year fraction give the same factor and rate. *)
Theorem C37_by_date_or_by_years : forall z d t, built z -> plain_basis (z_basis z) -> covered z d -> year_fraction (z_basis z) (z_date z) d t -> z_interp z = SplineLn \/ z_interp z = SplineCczr ->
  get_discount_factors z None None (Some (Scalar t)) = get_discount_factors z (Some (Scalar (Some d))) None None /\
  get_zero_rates z Continuous None None (Some (Scalar t)) = get_zero_rates z Continuous (Some (Scalar (Some d))) None None.
Proof.
  intros z d t B PB CV (q & YF & ->) IM. pose proof (built_spline z B IM) as NS. rewrite yf1_scalar in YF by (destruct PB, CV; assumption). injection YF as <-.
  rewrite (rate_cell z d (built_extrap z B)), (scalar_lookup z _ (built_extrap z B)). rewrite (proj2 (in_range_covered z (Some d)) CV).
  destruct (find_day_covered z d (built_daily z B) CV) as (w & F & E & I). unfold cell_df. rewrite F.
  destruct (built_rows z B PB w I) as [Y C]. rewrite E in Y. rewrite Y in C. unfold get_zero_rates, get_discount_factors, index_daily_data, index_years, daily_cells in *. cbn in *.
  destruct (z_spline z) as [s|]; [|contradiction NS; reflexivity].
  destruct IM as [IM|IM]; rewrite IM in *; cbn; injection C as -> ->; split; reflexivity.
Qed.
Print Assumptions C37_by_date_or_by_years.

(* A curve quoted at 365 and 730 days, on ACT/365. *)
Definition ex_frame : frame := [ColDays [730; 365]%Z; ColDF [9 / 10; 19 / 20]].
Definition ex_splrep : list (R * option R) -> result spline := fun _ => Err ValueError.
Definition ex_new (cal : calendar) (b : basis) := new_curve ex_splrep 738000%Z b cal LinearLn ex_frame None ExtrapNone.

Lemma ex_years : year_fraction ACT_365 738000%Z 738730%Z 2 /\ year_fraction ACT_365 738000%Z 738365%Z 1.
Proof. split; eexists; (split; [apply yf1_scalar; [discriminate|lia]|]); unfold yf1, dc_act; rewrite Q2R_div by discriminate; unfold inject_Z, Q2R; cbn; lra. Qed.
Lemma ex_quoted cal : well_quoted 738000%Z ACT_365 cal None ex_frame [2; 1] [9 / 10; 19 / 20].
Proof.
  split; [split; discriminate|]. split.
  { exists (ColDays [730; 365]%Z), (ColDF [9 / 10; 19 / 20]). split; [left; reflexivity|]. split; [|constructor; reflexivity].
    constructor. constructor; [exact (proj1 ex_years)|]. constructor; [exact (proj2 ex_years)|constructor]. }
  split; [discriminate|]. split; [repeat constructor; lra|]. split; [|repeat constructor; lra].
  constructor; [intros [H|[]]; lra|]. constructor; [intros []|constructor].
Qed.
Lemma ex_curve cal : exists z f', ex_new cal ACT_365 = Ok (z, f') /\ z_date z = 738000%Z /\ z_basis z = ACT_365 /\ z_last z = 738730%Z.
Proof.
  destruct (C37_always_built ex_splrep _ _ _ ExtrapNone _ _ _ _ (ex_quoted cal)) as (z & f' & E & D & B). exists z, f'.
  split; [exact E|]. split; [exact D|]. split; [exact B|].
  destruct (C37_range ex_splrep 738000%Z ACT_365 cal LinearLn ExtrapNone _ _ ex_frame None z f' [738730; 738365]%Z (or_introl eq_refl) eq_refl E) as (_ & I & C).
  { exact (qt_days _ _ [730; 365]%Z). } { reflexivity. }
  specialize (C 738730%Z (or_introl eq_refl)). unfold covered in C. destruct I as [I|[I|[]]]; lia.
Qed.
Lemma ex_built cal z f' : ex_new cal ACT_365 = Ok (z, f') -> built z.
Proof. intros E. exists ex_splrep, 738000%Z, ACT_365, cal, LinearLn, ex_frame, None, ExtrapNone, f'. split; [exact E|discriminate]. Qed.
Lemma ex_extrap : ExtrapNone <> OtherExtrap.
Proof. discriminate. Qed.
Lemma ex_value cal z f' : ex_new cal ACT_365 = Ok (z, f') -> z_date z = 738000%Z -> z_last z = 738730%Z ->
  discounts z 738000%Z 1 /\ discounts z 738365%Z (19 / 20) /\ discounts z 738730%Z (9 / 10).
Proof.
  intros E D L. split; [exact (C37_one_at_curve_date _ _ _ _ _ _ _ _ _ z f' (ex_quoted cal) ex_extrap E)|].
  pose proof (C37_interpolation _ _ _ _ _ _ _ _ _ z f' (ex_quoted cal) ex_extrap E) as V.
  split; [destruct (V 738365%Z 1) as (v & H & _ & K & _)|destruct (V 738730%Z 2) as (v & H & _ & K & _)];
    try apply ex_years; try (unfold covered; lia).
  - rewrite (K (1, 19 / 20)) in H; [exact H|right; right; left; reflexivity|reflexivity].
  - rewrite (K (2, 9 / 10)) in H; [exact H|right; left; reflexivity|reflexivity].
Qed.
Example C37_ex : forall cal, exists z f', ex_new cal ACT_365 = Ok (z, f') /\ discounts z 738365%Z (19 / 20) /\ discounts z 738730%Z (9 / 10).
Proof. intros cal. destruct (ex_curve cal) as (z & f' & E & D & B & L). exists z, f'. split; [exact E|]. apply (ex_value cal z f' E D L). Qed.

(* A spline curve from one quote: a flat zero rate of 5%. *)
Definition ex_flat : spline := {| sp_at := fun _ => Some (1 / 20); sp_deriv := fun _ => Some 0 |}.
Example C37_ex_spline : forall cal, exists z f', new_curve (fun _ => Ok ex_flat) 738000%Z ACT_365 cal SplineCczr [ColDays [365]%Z; ColDF [19 / 20]] None ExtrapNone = Ok (z, f') /\
  built z /\ z_interp z = SplineCczr /\ plain_basis (z_basis z) /\ covered z 738365%Z /\ year_fraction (z_basis z) (z_date z) 738365%Z 1 /\
  get_zero_rates z Continuous None None (Some (Scalar 1)) = Ok (Scalar (Some (1 / 20))).
Proof.
  intros cal. set (fr := [ColDays [365]%Z; ColDF [19 / 20]]).
  assert (exists z f', new_curve (fun _ => Ok ex_flat) 738000%Z ACT_365 cal SplineCczr fr None ExtrapNone = Ok (z, f') /\ z_interp z = SplineCczr /\ z_basis z = ACT_365 /\ z_date z = 738000%Z /\
    z_last z = 738365%Z /\ z_spline z = Some ex_flat) as (z & f' & E & IM & BS & DT & LS & SP).
  { unfold new_curve, process_pillars, fr. cbn [existsb is_zero_rate orb andb negb guard bind length Nat.eqb filter is_x is_y].
    unfold process_x. cbn [map]. change (738000 + 365)%Z with 738365%Z. rewrite yf1_scalar by (try discriminate; lia). cbn [bind map out_list repeat length dates_or_none combine y_values].
    cbn [sort_rows fold_right insert_row map process_row].
    match goal with |- context [add_first_row ?a ?b ?c [?q]] => set (pl := q); assert (AF : exists ps, add_first_row a b c [pl] = Ok (ps, Some ex_flat) /\ last_date 738000%Z ACT_365 ps = Ok 738365%Z) end.
    { unfold add_first_row. destruct (Req_EM_T (p_years pl) 0); cbn [bind]; eexists; (split; [reflexivity|]); reflexivity. }
    destruct AF as (ps & -> & LD). cbn [bind].
    destruct (setup_ok 738000%Z ACT_365 SplineCczr ps (Some ex_flat) 738365%Z ltac:(split; discriminate) LD ltac:(lia)) as (rows & -> & _). cbn [bind].
    do 2 eexists. split; [reflexivity|]. repeat split. }
  exists z, f'. split; [exact E|]. split; [do 9 eexists; split; [exact E|discriminate]|]. split; [exact IM|]. split; [rewrite BS; split; discriminate|].
  split; [unfold covered; lia|]. split; [rewrite BS, DT; apply ex_years|].
  unfold get_zero_rates, index_daily_data, index_years. cbn. rewrite IM, SP. reflexivity.
Qed.

(* ---- C38 ---- *)
Theorem C38_no_arbitrage : forall z ft s e, built z -> plain_basis (z_basis z) -> period_type ft -> in_order z s e ->
  (forall d, In d s \/ In d e -> covered z d) ->
  exists fs, get_forward_rates z (map Some s) (map Some e) ft = Ok fs /\ length fs = length s /\
    forall i x y t v w, nth_error s i = Some x -> nth_error e i = Some y -> year_fraction (z_basis z) x y t -> discounts z x v -> discounts z y w ->
      (t <> 0 -> exists r, nth_error fs i = Some (Some r) /\ v = w * growth ft t r) /\ (t = 0 -> nth_error fs i = Some None).
Proof. exact forwards_no_arbitrage. Qed.
Print Assumptions C38_no_arbitrage.

(* Forwards over consecutive periods compound to the forward over the joined period. *)
Theorem C38_consecutive_periods : forall z ft x y w t1 t2 t r1 r2 r u1 u2 u3, built z -> plain_basis (z_basis z) -> period_type ft ->
  (z_date z <= x <= y)%Z -> (y <= w)%Z -> discounts z x u1 -> discounts z y u2 -> discounts z w u3 ->
  year_fraction (z_basis z) x y t1 -> year_fraction (z_basis z) y w t2 -> year_fraction (z_basis z) x w t ->
  get_forward_rates z [Some x] [Some y] ft = Ok [Some r1] -> get_forward_rates z [Some y] [Some w] ft = Ok [Some r2] ->
  get_forward_rates z [Some x] [Some w] ft = Ok [Some r] -> growth ft t1 r1 * growth ft t2 r2 = growth ft t r.
Proof. exact forwards_join. Qed.
Print Assumptions C38_consecutive_periods.

(* so continuous forwards average, weighted by the length of the periods *)
Theorem C38_continuous_forwards_average : forall z x y w t1 t2 t r1 r2 r u1 u2 u3, built z -> plain_basis (z_basis z) ->
  (z_date z <= x <= y)%Z -> (y <= w)%Z -> discounts z x u1 -> discounts z y u2 -> discounts z w u3 ->
  year_fraction (z_basis z) x y t1 -> year_fraction (z_basis z) y w t2 -> year_fraction (z_basis z) x w t ->
  get_forward_rates z [Some x] [Some y] FContinuous = Ok [Some r1] -> get_forward_rates z [Some y] [Some w] FContinuous = Ok [Some r2] ->
  get_forward_rates z [Some x] [Some w] FContinuous = Ok [Some r] -> r1 * t1 + r2 * t2 = r * t.
Proof.
  intros z x y w t1 t2 t r1 r2 r u1 u2 u3 B PB O1 O2 U1 U2 U3 Y1 Y2 Y3 F1 F2 F3.
  pose proof (forwards_join z FContinuous x y w t1 t2 t r1 r2 r u1 u2 u3 B PB ltac:(unfold period_type; auto) O1 O2 U1 U2 U3 Y1 Y2 Y3 F1 F2 F3) as E.
  cbn [growth] in E. rewrite <- exp_plus in E. apply exp_inv. exact E.
Qed.
Print Assumptions C38_continuous_forwards_average.

(* Average forwards are the mean of the daily simple rates over all days (weighted) or the business days only (simple). *)
Theorem C38_averages : forall z bd s e v N, built z -> in_order z s e -> s <> [] -> (forall d, In d e -> (d <= z_last z)%Z) ->
  (forall d, covered z d -> discounts z d (v d)) -> days_per_year (z_basis z) = Some N ->
  get_forward_rates z (map Some s) (map Some e) (if bd : bool then FSimpleAverage else FWeightedAverage) =
  Ok (map2 (average (if bd then is_busday (z_cal z) else any_day) (daily_rate v N)) s e).
Proof. exact averages. Qed.
Print Assumptions C38_averages.

(* On a basis without a number of days in the year (the default, ACT/ACT) every average is missing. *)
Theorem C38_averages_missing_on_act_act : forall z bd s e, built z -> in_order z s e -> s <> [] -> (forall d, In d e -> (d <= z_last z)%Z) ->
  z_basis z = ACT_ACT ->
  get_forward_rates z (map Some s) (map Some e) (if bd : bool then FSimpleAverage else FWeightedAverage) = Ok (map (fun _ => None) s).
Proof. intros z bd s e B O NE CE H. apply averages_missing; try assumption. rewrite H. reflexivity. Qed.
Print Assumptions C38_averages_missing_on_act_act.

(* Averaging the overnight rates never beats compounding them when discount factors do not increase. *)
Theorem C38_weighted_average_below_compounded : forall z v N (a c : date) w r, built z ->
  (z_basis z = ACT_360 \/ z_basis z = ACT_365 \/ z_basis z = ACT_366) ->
  days_per_year (z_basis z) = Some N -> (z_date z <= a < c)%Z -> (c <= z_last z)%Z -> (forall d, covered z d -> discounts z d (v d)) ->
  (forall d, (a <= d < c)%Z -> v (d + 1)%Z <= v d) ->
  get_forward_rates z [Some a] [Some c] FWeightedAverage = Ok [w] -> get_forward_rates z [Some a] [Some c] FDailyCompounded = Ok [r] ->
  exists x y, w = Some x /\ r = Some y /\ x <= y.
Proof. exact average_below_compounded. Qed.
Print Assumptions C38_weighted_average_below_compounded.

Theorem C38_refused_arguments : forall z (s e : list (option date)) ft,
  (length s <> length e \/ In None s \/ (exists d, In (Some d) s /\ (d < z_date z)%Z) \/ In None e \/
   (exists i x y, nth_error s i = Some (Some x) /\ nth_error e i = Some (Some y) /\ (y < x)%Z)) ->
  get_forward_rates z s e ft = Err AssertionError.
Proof. exact forward_asserts. Qed.
Print Assumptions C38_refused_arguments.

Theorem C38_average_beyond_curve : forall z bd s e, built z -> in_order z s e -> (exists d, In d e /\ (z_last z < d)%Z) ->
  (forall d, In d s -> (d < z_last z)%Z) ->
  get_forward_rates z (map Some s) (map Some e) (if bd : bool then FSimpleAverage else FWeightedAverage) = Err ValueError.
Proof. exact average_out_of_range. Qed.
Print Assumptions C38_average_beyond_curve.

Example C38_ex : forall cal, exists z f' t r, ex_new cal ACT_365 = Ok (z, f') /\ built z /\ plain_basis (z_basis z) /\
  in_order z [738000%Z; 738365%Z] [738365%Z; 738730%Z] /\ year_fraction (z_basis z) 738365%Z 738730%Z t /\
  get_forward_rates z [Some 738365%Z] [Some 738730%Z] FSimple = Ok [Some r] /\ r = / 18.
Proof.
  intros cal. destruct (ex_curve cal) as (z & f' & E & D & B & L). exists z, f', 1, (/ 18).
  pose proof (ex_built cal z f' E) as BZ. pose proof (ex_value cal z f' E D L) as (V0 & V1 & V2).
  assert (PB : plain_basis (z_basis z)) by (rewrite B; split; discriminate).
  assert (YF : year_fraction (z_basis z) 738365%Z 738730%Z 1).
  { rewrite B. eexists. split; [apply yf1_scalar; [discriminate|lia]|]. unfold yf1, dc_act. rewrite Q2R_div by discriminate. unfold inject_Z, Q2R. cbn. lra. }
  split; [exact E|]. split; [exact BZ|]. split; [exact PB|]. split.
  { split; [reflexivity|]. intros i x y Hx Hy. rewrite D. destruct i as [|[|[|i]]]; cbn in Hx, Hy; try discriminate; injection Hx as <-; injection Hy as <-; lia. }
  split; [exact YF|]. split; [|reflexivity].
  destruct (C38_no_arbitrage z FSimple [738365%Z] [738730%Z] BZ PB) as (fs & F & LF & G).
  { left. reflexivity. }
  { split; [reflexivity|]. intros i x y Hx Hy. rewrite D. destruct i as [|[|i]]; cbn in Hx, Hy; try discriminate; injection Hx as <-; injection Hy as <-; lia. }
  { intros d [[<-|[]]|[<-|[]]]; unfold covered; rewrite D, L; lia. }
  cbn [map] in F. destruct (G 0%nat _ _ 1 _ _ eq_refl eq_refl YF V1 V2) as [G1 _]. destruct (G1 ltac:(lra)) as (r & N & K).
  destruct fs as [|o [|]]; try discriminate. cbn in N. injection N as ->. etransitivity; [exact F|]. cbn [growth] in K. repeat f_equal. lra.
Qed.

(* ---- C39 ---- *)
Theorem C39_dates_dropped : forall z ds, built z -> exists l, get_discount_factors z (Some (Vector ds)) None None = Ok (Vector l) /\
  Forall2 (fun o v => get_discount_factors z (Some (Scalar o)) None None = Ok (Scalar v)) (filter (kept z) ds) l.
Proof. exact dropped. Qed.
Print Assumptions C39_dates_dropped.

Theorem C39_aligned_iff_in_range : forall z ds l, built z -> get_discount_factors z (Some (Vector ds)) None None = Ok (Vector l) ->
  (length l = length ds <-> Forall (coveredo z) ds).
Proof. exact aligned_iff. Qed.
Print Assumptions C39_aligned_iff_in_range.

Theorem C39_single_date_out_of_range : forall z d, built z -> ~ covered z d ->
  get_discount_factors z (Some (Scalar (Some d))) None None = Err IndexError.
Proof. exact outside_scalar. Qed.
Print Assumptions C39_single_date_out_of_range.

Theorem C39_missing_date : forall z, built z -> get_discount_factors z (Some (Scalar None)) None None = Ok (Scalar None).
Proof. exact nat_lookup. Qed.
Print Assumptions C39_missing_date.

Theorem C39_days_count_from_curve_date : forall z n, z_extrap z <> OtherExtrap ->
  get_discount_factors z None (Some n) None = get_discount_factors z (Some (Scalar (Some (z_date z + n)%Z))) None None.
Proof. exact days_lookup. Qed.
Print Assumptions C39_days_count_from_curve_date.

(* A forward over a period that ends after the curve silently uses the discount factor of another period's end. *)
(* Exactly one kind of argument; times in years are understood by spline curves only. *)
Theorem C39_one_kind_of_argument : forall z f dates days years,
  (dates = None -> days = None -> years = None -> get_discount_factors z dates days years = Err StopIteration /\ get_zero_rates z f dates days years = Err StopIteration) /\
  ((dates <> None /\ days <> None) \/ (dates <> None /\ years <> None) \/ (days <> None /\ years <> None) ->
   get_discount_factors z dates days years = Err ValueError /\ get_zero_rates z f dates days years = Err ValueError).
Proof.
  intros z f dates days years. split; [intros -> -> ->; split; reflexivity|]. unfold get_discount_factors, get_zero_rates.
  destruct dates as [[d|d]|], days as [n|], years as [[y|y]|]; intros H; try (split; reflexivity); exfalso; destruct H as [[? ?]|[[? ?]|[? ?]]]; congruence.
Qed.
Print Assumptions C39_one_kind_of_argument.
Theorem C39_years_need_a_spline : forall z f ys, z_interp z = LinearLn -> get_discount_factors z None None (Some ys) = Err ValueError /\ get_zero_rates z f None None (Some ys) = Err ValueError.
Proof. intros z f ys L. unfold get_discount_factors, get_zero_rates. cbn [index_daily_data]. unfold index_years. rewrite L. destruct ys; split; reflexivity. Qed.
Print Assumptions C39_years_need_a_spline.

Theorem C39_forward_uses_another_periods_end : forall z (x1 y1 x2 y2 : date) v1 v2 w1 t2, built z -> plain_basis (z_basis z) ->
  (z_date z <= x1 <= y1)%Z -> (z_date z <= x2 <= y2)%Z ->
  discounts z x1 v1 -> discounts z x2 v2 -> discounts z y1 w1 -> (z_last z < y2)%Z -> year_fraction (z_basis z) x2 y2 t2 -> t2 <> 0 ->
  exists r1, get_forward_rates z [Some x1; Some x2] [Some y1; Some y2] FSimple = Ok [r1; Some (1 / t2 * (v2 / w1 - 1))].
Proof. exact forward_misaligned. Qed.
Print Assumptions C39_forward_uses_another_periods_end.

(* So period forwards exist exactly when all starts, or one, and all ends, or one, lie on the curve; otherwise the call fails. *)
Theorem C39_dates_after_the_curve : forall z ft s e, built z -> plain_basis (z_basis z) -> period_type ft -> in_order z s e ->
  let on (l : list date) := length (filter (fun d => d <=? z_last z)%Z l) in
  let fits (l : list date) := on l = length s \/ on l = 1%nat in
  (fits s /\ fits e -> exists fs, get_forward_rates z (map Some s) (map Some e) ft = Ok fs /\ length fs = length s) /\
  (~ (fits s /\ fits e) -> get_forward_rates z (map Some s) (map Some e) ft = Err ValueError).
Proof.
  intros z ft s e B PB PT O on fits. rewrite (forwards_checked z s e ft O).
  assert (Ge : forall d, In d s \/ In d e -> (z_date z <= d)%Z).
  { destruct O as [L O]. intros d [I|I]; apply In_nth_error in I as (i & I).
    - destruct (nth_error e i) as [y|] eqn:Ey; [specialize (O i d y I Ey); lia|]. apply nth_error_None in Ey. assert (i < length s)%nat by (apply nth_error_Some; congruence). lia.
    - destruct (nth_error s i) as [x|] eqn:Ex; [specialize (O i x d Ex I); lia|]. apply nth_error_None in Ex. assert (i < length e)%nat by (apply nth_error_Some; congruence). lia. }
  assert (V : forall l : list date, (forall d : date, In d l -> (z_date z <= d)%Z) -> exists ds, vector_dfs z l = Ok ds /\ length ds = on l).
  { intros l Hl. unfold vector_dfs. rewrite (vector_lookup z _ (built_extrap z B)). cbn [bind cells]. eexists. split; [reflexivity|]. rewrite map_length. unfold on. induction l as [|d l IH]; [reflexivity|].
    cbn [map filter]. assert (R : in_range z (@Some date d) = (d <=? z_last z)%Z).
    { destruct (Z.leb_spec d (z_last z)) as [K|K]; [apply in_range_covered; split; [apply Hl; left; reflexivity|exact K]|]. destruct (in_range z (@Some date d)) eqn:Q; [|reflexivity]. apply in_range_covered in Q. unfold coveredo, covered in Q. lia. }
    rewrite R. destruct (d <=? z_last z)%Z; cbn [length]; rewrite IH by (intros x I; apply Hl; right; exact I); reflexivity. }
  destruct (V s (fun d I => Ge d (or_introl I))) as (d1 & E1 & L1). destruct (V e (fun d I => Ge d (or_intror I))) as (d2 & E2 & L2).
  destruct (year_frac_pairs s e (z_basis z) PB (proj1 O)) as (o & Y & OL). { intros i a c Ha Hc. pose proof (proj2 O i a c Ha Hc). lia. }
  assert (G : forall (f : option R -> option R -> option R) (g : option R -> option R -> option R),
    let r := bind (broadcast f d1 d2) (fun q => with_series g (map (fun t => np_div 1 t) (map (fun q => Q2R q) (out_list 1 o))) q) in
    (fits s /\ fits e -> exists fs, r = Ok fs /\ length fs = length s) /\ (~ (fits s /\ fits e) -> r = Err ValueError)).
  { clear PT. intros f g. cbv zeta. set (inv := map _ _). assert (LI : length inv = length s) by (unfold inv; rewrite !map_length, OL, map2_length, <- (proj1 O); apply Nat.min_id). clearbody inv. unfold fits. rewrite <- L1, <- L2, <- LI. clear -L1. clear L1.
    assert (W : forall q, (length q = length inv \/ length q = 1%nat -> exists fs, with_series g inv q = Ok fs /\ length fs = length inv) /\ (~ (length q = length inv \/ length q = 1%nat) -> with_series g inv q = Err ValueError)).
    { intros q. unfold with_series. destruct (Nat.eqb_spec (length q) (length inv)) as [E|N].
      - split; [|intros H; exfalso; apply H; left; exact E]. intros _. eexists. split; [reflexivity|]. rewrite map2_length, E. apply Nat.min_id.
      - destruct q as [|y [|y' q]]; cbn [length] in *; (split; [intros [E|E]; try discriminate; try contradiction|intros H; try reflexivity]); try (eexists; split; [reflexivity|apply map_length]). exfalso. apply H. right. reflexivity. }
    unfold broadcast. destruct (Nat.eqb_spec (length d1) (length d2)) as [E|N].
    - cbn [bind]. assert (Lq : length (map2 f d1 d2) = length d1) by (rewrite map2_length, <- E; apply Nat.min_id). destruct (W (map2 f d1 d2)) as [W1 W2]. rewrite Lq in W1, W2. rewrite <- E. split; [intros [H _]; apply W1, H|intros H; apply W2; intros K; apply H; split; exact K].
    - destruct d1 as [|x [|x' d1]].
      + destruct d2 as [|y [|y' d2]]; cbn [length] in *; [contradiction| |].
        * cbn [bind map]. destruct (W []) as [W1 W2]. cbn [length] in W1, W2. split; [intros [H _]; apply W1, H|intros H; apply W2; intros K; apply H; split; [exact K|right; reflexivity]].
        * cbn [bind]. split; [|reflexivity]. intros [[H|H] [K|K]]; try discriminate; lia.
      + cbn [bind]. destruct (W (map (f x) d2)) as [W1 W2]. rewrite map_length in W1, W2. split; [intros [_ H]; apply W1, H|intros H; apply W2; intros K; apply H; split; [right; reflexivity|exact K]].
      + destruct d2 as [|y [|y' d2]].
        * cbn [bind]. split; [|reflexivity]. cbn [length]. intros [[H|H] [K|K]]; try discriminate; lia.
        * cbn [bind]. destruct (W (map (fun z => f z y) (x :: x' :: d1))) as [W1 W2]. rewrite map_length in W1, W2. split; [intros [H _]; apply W1, H|intros H; apply W2; intros K; apply H; split; [exact K|right; reflexivity]].
        * cbn [bind]. split; [|reflexivity]. cbn [length] in *. intros [[H|H] [K|K]]; try discriminate; lia. }
  unfold period_forwards. rewrite Y, E1, E2. cbn [bind]. destruct PT as [->|[->|[->| ->]]]; apply G.
Qed.
Print Assumptions C39_dates_after_the_curve.

Example C39_ex : forall cal, exists z f', ex_new cal ACT_365 = Ok (z, f') /\ built z /\ ~ covered z 738731%Z /\
  get_discount_factors z (Some (Vector [Some 738731%Z; Some 738365%Z])) None None = Ok (Vector [Some (19 / 20)]).
Proof.
  intros cal. destruct (ex_curve cal) as (z & f' & E & D & B & L). exists z, f'.
  pose proof (ex_built cal z f' E) as BZ. pose proof (ex_value cal z f' E D L) as (_ & V1 & _).
  split; [exact E|]. split; [exact BZ|]. split; [unfold covered; lia|].
  destruct (C39_dates_dropped z [Some 738731%Z; Some 738365%Z] BZ) as (l & G & F).
  cbn [filter kept] in F. rewrite D, L in F. cbn in F. inversion F as [|o v l1 l2 H1 H2 E1 E2]. inversion H2. subst.
  etransitivity; [exact G|]. repeat f_equal. unfold discounts in V1. pose proof (eq_trans (eq_sym H1) V1) as K. congruence.
Qed.
(* two of three periods on the curve: refused; both of two: rates *)
Example C39_ex_after : forall cal, exists z f', ex_new cal ACT_365 = Ok (z, f') /\
  get_forward_rates z (map Some [738000; 738100; 738800]%Z) (map Some [738100; 738200; 738900]%Z) FSimple = Err ValueError /\
  exists fs, get_forward_rates z (map Some [738000; 738100]%Z) (map Some [738100; 738200]%Z) FSimple = Ok fs /\ length fs = 2%nat.
Proof.
  intros cal. destruct (ex_curve cal) as (z & f' & E & D & B & L). exists z, f'. pose proof (ex_built cal z f' E) as BZ. split; [exact E|].
  assert (PB : plain_basis (z_basis z)) by (rewrite B; split; discriminate).
  split.
  - apply (C39_dates_after_the_curve z FSimple); [exact BZ|exact PB|left; reflexivity| |rewrite L; cbn; intros [[H|H] _]; discriminate].
    split; [reflexivity|]. rewrite D. intros [|[|[|i]]] x y Hx Hy; cbn in Hx, Hy; try (injection Hx as <-; injection Hy as <-; lia). destruct i; discriminate.
  - apply (C39_dates_after_the_curve z FSimple); [exact BZ|exact PB|left; reflexivity| |rewrite L; cbn; auto].
    split; [reflexivity|]. rewrite D. intros [|[|i]] x y Hx Hy; cbn in Hx, Hy; try (injection Hx as <-; injection Hy as <-; lia). destruct i; discriminate.
Qed.

(* ---- C70 ---- *)
Theorem C70_leg_priced_iff_curve_covers_payments : forall st z l ov, built z -> l_curve l = Some (curve_of z) ->
  l_kind l <> FloatTermLeg false -> l_kind l <> FloatRFRLeg false ->
  (pays_outside z l <-> snd (calc_dirty_pv st l ov) = Err ValueError) /\
  (~ pays_outside z l -> exists v, snd (calc_dirty_pv st l ov) = Ok v).
Proof. exact leg_outside. Qed.
Print Assumptions C70_leg_priced_iff_curve_covers_payments.

Definition ex_row (d : date) : row :=
  {| r_start := Some 738000%Z; r_end := Some d; r_notional := 100; r_npay := 100; r_ndate := Some d; r_cdate := Some d; r_yf := Some 1; r_rate := Some (/ 20) |}.
Definition ex_leg (z : zero_curve) (d : date) : leg :=
  {| l_side := Rcv; l_basis := ACT_365; l_curve := Some (curve_of z); l_kind := FixedLeg; l_rows := [ex_row d]; l_coupons := None; l_pvs := None; l_coupon_rate := None |}.
Example C70_ex : forall cal, exists z f', ex_new cal ACT_365 = Ok (z, f') /\ built z /\ pays_outside z (ex_leg z 738731%Z) /\ ~ pays_outside z (ex_leg z 738365%Z).
Proof.
  intros cal. destruct (ex_curve cal) as (z & f' & E & D & B & L). exists z, f'. split; [exact E|]. split; [exact (ex_built cal z f' E)|]. split.
  - exists (ex_row 738731%Z). split; [left; reflexivity|]. left. cbn. unfold covered. lia.
  - intros (r & [<-|[]] & [H|H]); apply H; cbn; unfold covered; lia.
Qed.

(* ---- C71 ---- *)
Theorem C71_years_truncated : forall splrep c b cal im em l y f freq z f', (f = [ColYears l; y] \/ f = [y; ColYears l]) -> is_y y = true ->
  new_curve splrep c b cal im f freq em = Ok (z, f') -> length (y_values y) = length l -> plain_basis b -> Forall (fun t => 0 <= t) l ->
  exists n m, (0 <= n)%Z /\ In m l /\ Forall (fun t => t <= m) l /\ IZR n <= m < IZR n + 1 /\ z_date z = c /\
    is_least (fun d => (add_months c (12 * n) <= d)%Z /\ exists t, year_fraction b c d t /\ IZR n <= t) (z_last z).
Proof. exact years_last. Qed.
Print Assumptions C71_years_truncated.

Example C71_ex : forall cal, exists z f',
  new_curve ex_splrep 738000%Z ACT_365 cal LinearLn [ColYears [3 / 2; 1 / 2]; ColDF [9 / 10; 19 / 20]] None ExtrapNone = Ok (z, f').
Proof.
  intros cal. destruct (C37_always_built ex_splrep 738000%Z ACT_365 cal ExtrapNone None [ColYears [3 / 2; 1 / 2]; ColDF [9 / 10; 19 / 20]] [3 / 2; 1 / 2] [9 / 10; 19 / 20]) as (z & f' & E & _); [|eauto].
  split; [split; discriminate|]. split.
  { exists (ColYears [3 / 2; 1 / 2]), (ColDF [9 / 10; 19 / 20]). split; [left; reflexivity|]. split; constructor. reflexivity. }
  split; [discriminate|]. split; [repeat constructor; lra|]. split; [|repeat constructor; lra].
  constructor; [intros [H|[]]; lra|]. constructor; [intros []|constructor].
Qed.

(* ---- C72 ---- *)
Theorem C72_callers_frame_extended : forall splrep c b cal im em x y f freq z f', (f = [x; y] \/ f = [y; x]) -> is_x x = true -> is_y y = true ->
  new_curve splrep c b cal im f freq em = Ok (z, f') ->
  match x with ColYears _ => f' = f | _ => (4 <= length f')%nat end.
Proof. exact frame_after. Qed.
Print Assumptions C72_callers_frame_extended.

(* What the caller finds in the frame afterwards: dates, days from the curve date and year fractions of the same quotes. *)
Theorem C72_added_columns : forall splrep c b cal im em x y f freq z f', (f = [x; y] \/ f = [y; x]) -> is_x x = true -> is_y y = true ->
  new_curve splrep c b cal im f freq em = Ok (z, f') ->
  match x with
  | ColDate ds => exists o, year_frac [c] ds b None = Ok o /\ f' = (f ++ [ColDays (map (fun d => (d - c)%Z) ds); ColYears (map Q2R (out_list (length ds) o))])%list
  | ColDays ns => exists o, year_frac [c] (map (fun n => (c + n)%Z) ns) b None = Ok o /\ f' = (f ++ [ColDate (map (fun n => (c + n)%Z) ns); ColYears (map Q2R (out_list (length ns) o))])%list
  | ColTenor l => exists (ds : list date) (o : out Q), length ds = length l /\ year_frac [c] ds b None = Ok o /\
      f' = (map (fun k => match k with ColTenor l => ColTenor (map clean_tenor l) | k => k end) f ++ [ColDate ds; ColDays (map (fun d => (d - c)%Z) ds); ColYears (map Q2R (out_list (length ds) o))])%list
  | _ => f' = f
  end.
Proof.
  intros splrep c b cal im em x y f freq z f' F X Y H. unfold new_curve in H. apply bind_ok in H as ([[ps s] g] & PP & H). apply bind_ok in H as ([rows m] & SD & H). injection H as _ <-.
  destruct (process_pillars_inv splrep c b cal im x y f freq ps s g F X Y PP) as (ds & ts & PX & -> & _).
  destruct x as [l|l|l|l|l|l|]; try discriminate; cbn [process_x] in PX.
  - apply bind_ok in PX as (os & E1 & PX). apply bind_ok in PX as (dd & E2 & PX). apply bind_ok in PX as (ys & E3 & PX). apply bind_ok in E3 as (o & E3 & E4). injection E4 as <-. injection PX as <- <-.
    exists dd, o. split; [|split; [exact E3|reflexivity]].
    assert (SL : forall A B (g : A -> result B) (k : list A) r, sequence (map g k) = Ok r -> length r = length k).
    { clear. intros A B g. induction k as [|a k IH]; cbn; intros r H; [injection H as <-; reflexivity|]. apply bind_ok in H as (v & _ & H). apply bind_ok in H as (w & H1 & H). injection H as <-. cbn. f_equal. apply IH. exact H1. }
    rewrite (SL _ _ _ _ _ E2). apply (SL _ _ _ _ _ E1).
  - apply bind_ok in PX as (ys & E3 & PX). apply bind_ok in E3 as (o & E3 & E4). injection E4 as <-. injection PX as <- <-. exists o. split; [exact E3|reflexivity].
  - apply bind_ok in PX as (ys & E3 & PX). apply bind_ok in E3 as (o & E3 & E4). injection E4 as <-. injection PX as <- <-. exists o. split; [exact E3|]. rewrite map_length. reflexivity.
  - injection PX as <- <-. reflexivity.
Qed.
Print Assumptions C72_added_columns.

Theorem C72_second_construction_fails : forall splrep c b cal im em x y f freq z f', (f = [x; y] \/ f = [y; x]) -> is_x x = true -> is_y y = true ->
  new_curve splrep c b cal im f freq em = Ok (z, f') -> (forall l, x <> ColYears l) ->
  forall splrep' c' b' cal' im' em' freq', new_curve splrep' c' b' cal' im' f' freq' em' = Err ValueError.
Proof.
  intros splrep c b cal im em x y f freq z f' F X Y E NY splrep' c' b' cal' im' em' freq'. apply wrong_column_count.
  pose proof (frame_after splrep c b cal im em x y f freq z f' F X Y E) as H. destruct x; try (intros K; rewrite K in H; lia). destruct (NY l eq_refl).
Qed.
Print Assumptions C72_second_construction_fails.

Example C72_ex : forall cal, exists z f', ex_new cal ACT_365 = Ok (z, f') /\ (4 <= length f')%nat.
Proof.
  intros cal. destruct (ex_curve cal) as (z & f' & E & _). exists z, f'. split; [exact E|].
  exact (C72_callers_frame_extended ex_splrep 738000%Z ACT_365 cal LinearLn ExtrapNone (ColDays [730; 365]%Z) (ColDF [9 / 10; 19 / 20])
    ex_frame None z f' (or_introl eq_refl) eq_refl eq_refl E).
Qed.

(* ---- C75 ---- *)
(* The instantaneous forward is minus the derivative of the log of the curve's own discount factors, whichever quantity the spline is fitted to. *)
Theorem C75_minus_derivative_of_log_discount : forall z s t (D : R -> R), z_interp z = SplineCczr \/ z_interp z = SplineLn -> z_spline z = Some s -> differentiates s ->
  (forall u, get_discount_factors z None None (Some (Scalar u)) = Ok (Scalar (Some (D u)))) ->
  exists f, get_instantaneous_forward_rate z t = Ok (Some (Some f)) /\ derivable_pt_lim (fun u => - ln (D u)) t f.
Proof. exact instantaneous_forward. Qed.
Print Assumptions C75_minus_derivative_of_log_discount.

Theorem C75_nothing_for_linear_curves : forall z t, z_interp z = LinearLn -> get_instantaneous_forward_rate z t = Ok None.
Proof. exact instantaneous_linear. Qed.
Print Assumptions C75_nothing_for_linear_curves.

Definition ex_spline : spline := {| sp_at := fun t => Some (5/100 + 1/100 * t); sp_deriv := fun _ => Some (1/100) |}.
Definition ex_spline_curve (im : interp_method) : zero_curve :=
  {| z_date := 0%Z; z_basis := ACT_365; z_cal := default_calendar; z_interp := im; z_extrap := ExtrapFlat; z_pillars := []; z_spline := Some ex_spline; z_daily := []; z_last := 365%Z |}.
Example C75_ex : differentiates ex_spline /\
  (forall u, get_discount_factors (ex_spline_curve SplineCczr) None None (Some (Scalar u)) = Ok (Scalar (Some (exp (- 1 * (5/100 + 1/100 * u) * u))))) /\
  get_instantaneous_forward_rate (ex_spline_curve SplineCczr) 2 = Ok (Some (Some (5/100 + 1/100 * 2 + 2 * (1/100)))).
Proof.
  split; [|split; [intros u; reflexivity|reflexivity]]. intros c H t. exists (1/100). split; [reflexivity|].
  apply (derivable_pt_lim_ext (fun t => 5/100 + 1/100 * t)); [intros u; specialize (H u); cbn in H; congruence|].
  pose proof (derivable_pt_lim_plus (fun _ => 5/100) (mult_real_fct (1/100) id) t 0 (1/100 * 1) (derivable_pt_lim_const _ _) (derivable_pt_lim_scal id _ t 1 (derivable_pt_lim_id _))) as E.
  replace (0 + 1/100 * 1) with (1/100) in E by lra. exact E.
Qed.
