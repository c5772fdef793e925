(* Properties C44, C45 and C74: bootstrapping cash rates and futures, ASX contract dates, cash quotes. *)
From Coq Require Import String Ascii ZArith QArith Qreals Reals Lra Lia List Bool Permutation.
From Verif Require Import Base Date BusDayModel BusDaySpec BusDayProofs DayCountModel DayCountSpec DayCountProofs TenorModel TenorSpec NumModel CurveModel CurveSpec CurveProofs
  BootModel BootSpec BootProofs FuturesProofs AsxProofs QuoteProofs PBusDay.
Import ListNotations.
Open Scope R_scope.

(* ---- C44 ---- *)
Theorem C44_deposits_reprice : forall qs (c : date) b rows, strict_basis b -> sane_quotes c qs -> bootstrap_cash_rates qs c b = Ok rows ->
  Permutation (map quote_of rows) qs /\ ordered_by b_mat rows /\
  forall r, In r rows -> exists e m, b_eff_df r = Some e /\ b_mat_df r = Some m /\ 0 < e /\ 0 < m /\ e / m = 1 + b_rate r * b_tau r /\
    (b_delayed r = false -> e = 1) /\ (b_delayed r = true -> exists q, In q rows /\ b_mat q = b_eff r /\ b_mat_df q = Some e).
Proof. exact cash_reprices. Qed.
Print Assumptions C44_deposits_reprice.

Theorem C44_deposits_solvable_iff_chained : forall qs (c : date) b, strict_basis b -> qs <> [] -> sane_quotes c qs ->
  (exists rows, bootstrap_cash_rates qs c b = Ok rows) <-> chained qs.
Proof. exact cash_possible. Qed.
Print Assumptions C44_deposits_solvable_iff_chained.

Theorem C44_futures_reprice : forall f c ks b by' fwd ys, plain_basis b -> plain_basis by' -> f_eff f <> [] -> length (f_mat f) = length (f_eff f) -> length fwd = length (f_eff f) ->
  forward_column f = Ok fwd -> (forall e m, In (e, m) (combine (f_eff f) (f_mat f)) -> (c <= e <= m)%Z) ->
  (forall e m w t, In ((e, m), w) (combine (combine (f_eff f) (f_mat f)) fwd) -> year_fraction b e m t -> 0 < 1 + w * t) ->
  (2 <= length ks)%nat -> (forall k, In k ks -> 0 < snd k) -> Forall2 (year_fraction by' c) (f_mat f) ys -> NoDup (map fst ks ++ ys) ->
  exists rows, bootstrap_futures f c (map lift_knot ks) b by' = Ok rows /\ ordered_by r_eff rows /\
    Permutation (map (fun r => ((r_eff r, r_mat r), r_fwd r)) rows) (combine (combine (f_eff f) (f_mat f)) fwd) /\
    forall i r, nth_error rows i = Some r ->
      year_fraction b (r_eff r) (r_mat r) (r_tau r) /\ year_fraction by' c (r_eff r) (r_eff_years r) /\ year_fraction by' c (r_mat r) (r_mat_years r) /\
      exists e m K p q, r_eff_df r = Some e /\ r_mat_df r = Some m /\ 0 < e /\ 0 < m /\ e / m = 1 + r_fwd r * r_tau r /\
        known_before ks rows i K /\ bracket K p q (r_eff_years r) /\ e = geometric p q (r_eff_years r) /\ (forall v, In (r_eff_years r, v) K -> e = v).
Proof. exact strip_reprices. Qed.
Print Assumptions C44_futures_reprice.

Theorem C44_forward_rates_from_prices : forall f ps, f_price f = Some ps -> f_rate f = None -> f_convexity f = None -> f_forward f = None -> length ps = length (f_eff f) ->
  forward_column f = Ok (map (fun p => (100 - p) / 100) ps).
Proof. exact forward_from_prices. Qed.
Print Assumptions C44_forward_rates_from_prices.

Theorem C44_convexity_lowers_forward_rates : forall f ps cs, f_price f = Some ps -> f_rate f = None -> f_convexity f = Some cs -> f_forward f = None -> length cs = length ps ->
  exists fwd, forward_column f = Ok fwd /\ length fwd = length ps /\
    forall i p c, nth_error ps i = Some p -> nth_error cs i = Some c -> nth_error fwd i = Some ((100 - p) / 100 - c / 10000).
Proof. exact forward_from_convexity. Qed.
Print Assumptions C44_convexity_lowers_forward_rates.

Theorem C44_forward_rates_from_futures_rates : forall f rs cs, f_rate f = Some rs -> f_convexity f = Some cs -> f_forward f = None -> length cs = length rs ->
  exists fwd, forward_column f = Ok fwd /\ length fwd = length rs /\ forall i r c, nth_error rs i = Some r -> nth_error cs i = Some c -> nth_error fwd i = Some (r - c / 10000).
Proof. exact forward_from_rates. Qed.
Print Assumptions C44_forward_rates_from_futures_rates.

(* Forward rates given by the caller are used as they are, but the price, or futures rates with convexities, must be there too. *)
Theorem C44_given_forward_rates : forall f ws, f_forward f = Some ws ->
  forward_column f = (if present (f_price f) || (present (f_rate f) && present (f_convexity f)) then Ok ws else Err KeyError).
Proof. exact forward_given_needs_price. Qed.
Print Assumptions C44_given_forward_rates.

Theorem C44_no_price : forall f, f_price f = None -> (f_rate f = None \/ f_convexity f = None) -> forward_column f = Err KeyError.
Proof. exact forward_missing_price. Qed.
Print Assumptions C44_no_price.

Definition ex_deposits : list cash_quote :=
  [{| k_delayed := true; k_eff := 101%Z; k_mat := 192%Z; k_rate := 5/100; k_tau := 91/365 |};
   {| k_delayed := false; k_eff := 100%Z; k_mat := 101%Z; k_rate := 4/100; k_tau := 1/365 |}].
Example C44_ex_deposits : strict_basis ACT_365 /\ sane_quotes 100%Z ex_deposits /\ chained ex_deposits /\
  (exists rows, bootstrap_cash_rates ex_deposits 100%Z ACT_365 = Ok rows) /\ ~ chained [hd {| k_delayed := true; k_eff := 0%Z; k_mat := 0%Z; k_rate := 0; k_tau := 0 |} ex_deposits].
Proof.
  assert (A : sane_quotes 100%Z ex_deposits) by (intros q [<-|[<-|[]]]; cbn; split; (lia || lra)).
  assert (B : chained ex_deposits).
  { intros q [<-|[<-|[]]] D; [|discriminate]. eexists. split; [right; left; reflexivity|reflexivity]. }
  split; [unfold strict_basis; auto|]. split; [exact A|]. split; [exact B|]. split.
  - apply C44_deposits_solvable_iff_chained; [unfold strict_basis; auto|discriminate|exact A|exact B].
  - intros H. destruct (H _ (or_introl eq_refl) eq_refl) as (q & [<-|[]] & E). discriminate.
Qed.

Definition ex_strip : futures_frame :=
  {| f_price := Some [9530/100; 9540/100]; f_rate := None; f_convexity := None; f_forward := None; f_eff := [200; 110]%Z; f_mat := [291; 201]%Z |}.
Lemma act365_years (c d : date) : (c <= d)%Z -> year_fraction ACT_365 c d (IZR (d - c) / 365).
Proof.
  intros L. pose proof (year_fraction_yf1 ACT_365 c d ltac:(split; discriminate) L) as H. replace (IZR (d - c) / 365) with (Q2R (yf1 ACT_365 c d)); [exact H|].
  change (yf1 ACT_365 c d) with (inject_Z (d - c) / 365)%Q. rewrite Q2R_div by discriminate. unfold Q2R. cbn. field.
Qed.
Example C44_ex_futures : exists fwd ys, forward_column ex_strip = Ok fwd /\ Forall2 (year_fraction ACT_365 100%Z) (f_mat ex_strip) ys /\
  exists rows, bootstrap_futures ex_strip 100%Z (map lift_knot [(1/365, 9999/10000); (92/365, 988/1000)]) ACT_365 ACT_365 = Ok rows /\ length rows = 2%nat.
Proof.
  pose proof (C44_forward_rates_from_prices ex_strip _ eq_refl eq_refl eq_refl eq_refl eq_refl) as FW.
  assert (Y : Forall2 (year_fraction ACT_365 100%Z) (f_mat ex_strip) [191/365; 101/365]).
  { constructor; [|constructor; [|constructor]]; [change (191/365) with (IZR (291 - 100) / 365)|change (101/365) with (IZR (201 - 100) / 365)]; apply act365_years; lia. }
  exists (map (fun p => (100 - p) / 100) [9530/100; 9540/100]), [191/365; 101/365]. split; [exact FW|]. split; [exact Y|].
  destruct (C44_futures_reprice ex_strip 100%Z [(1/365, 9999/10000); (92/365, 988/1000)] ACT_365 ACT_365 (map (fun p => (100 - p) / 100) [9530/100; 9540/100]) [191/365; 101/365]
    ltac:(split; discriminate) ltac:(split; discriminate) ltac:(discriminate) eq_refl eq_refl FW) as (rows & E & _ & P & _).
  - intros e m [I|[I|[]]]; injection I as <- <-; lia.
  - intros e m w t I T. assert (t = IZR (m - e) / 365) as ->.
    { assert (LE : (e <= m)%Z) by (destruct I as [I|[I|[]]]; injection I as <- <- <-; lia). destruct T as (z & T1 & ->).
      destruct (act365_years e m LE) as (z' & T2 & ->). pose proof (eq_trans (eq_sym T1) T2) as X. injection X as ->. reflexivity. }
    destruct I as [I|[I|[]]]; injection I as <- <- <-; cbn; lra.
  - cbn. lia.
  - intros k [<-|[<-|[]]]; cbn; lra.
  - exact Y.
  - cbn. repeat constructor; cbn; intros H; decompose [or] H; lra.
  - exists rows. split; [exact E|]. apply Permutation_length in P. rewrite map_length in P. exact P.
Qed.

(* ---- C45 ---- *)
Theorem C45_dates_in_chronological_order : forall cs cal, wf_calendar cal -> cs <> [] -> chronological cs -> (forall c, In c cs -> quarter_month (snd c)) ->
  exists rows, asx_dates cs cal = Ok rows /\ Forall2 (row_for cal) cs rows.
Proof. exact asx_in_order. Qed.
Print Assumptions C45_dates_in_chronological_order.

(* Dates are handed out by chronological position, whatever the order of the rows. *)
Theorem C45_dates_by_position : forall cs cal rows, wf_calendar cal -> asx_dates cs cal = Ok rows ->
  exists sorted, Permutation sorted cs /\ chronological sorted /\ Forall2 (row_for cal) sorted rows.
Proof. exact asx_positional. Qed.
Print Assumptions C45_dates_by_position.

Theorem C45_dates_right_iff_chronological : forall cs cal rows, wf_calendar cal -> asx_dates cs cal = Ok rows ->
  ((forall i c r, nth_error cs i = Some c -> nth_error rows i = Some r -> second_friday (fst c) (snd c) (a_settlement r)) <-> chronological cs).
Proof. exact asx_right_iff. Qed.
Print Assumptions C45_dates_right_iff_chronological.

Theorem C45_accepted_iff : forall cs cal, wf_calendar cal -> cs <> [] ->
  ((exists rows, asx_dates cs cal = Ok rows) <-> distinct_quarters cs) /\ (~ distinct_quarters cs -> asx_dates cs cal = Err ValueError).
Proof. exact asx_accepted_iff. Qed.
Print Assumptions C45_accepted_iff.

(* The second Friday falls on days 8 to 14, and the day before it, the expiry, is a Thursday. *)
Theorem C45_second_friday : forall y m (s : date), second_friday y m s -> (8 <= day s <= 14)%Z /\ weekday (s - 1)%Z = 3%Z.
Proof. exact second_friday_day. Qed.
Print Assumptions C45_second_friday.

Theorem C45_tickers : forall ts cs, decode_tickers ts = Ok cs <-> Forall2 (fun t c => ticker_of t (fst c) (snd c)) ts cs.
Proof. exact decode_iff. Qed.
Print Assumptions C45_tickers.

Theorem C45_tickers_give_contracts : forall ts cs cal, decode_tickers ts = Ok cs -> futures_helper_asx_90day None (Some ts) cal = asx_dates cs cal.
Proof. exact asx_by_ticker. Qed.
Print Assumptions C45_tickers_give_contracts.

Theorem C45_rate_of_price : forall p, asx_futures_rate p = 1 - p / 100.
Proof. exact asx_rate. Qed.
Print Assumptions C45_rate_of_price.

Example C45_ex : asx_dates [(2024, 9); (2024, 12)]%Z xmas =
    Ok [{| a_expiry := mk 2024 9 12; a_settlement := mk 2024 9 13; a_effective := mk 2024 9 13; a_maturity := mk 2024 12 13 |};
        {| a_expiry := mk 2024 12 12; a_settlement := mk 2024 12 13; a_effective := mk 2024 12 13; a_maturity := mk 2025 3 13 |}] /\
  chronological [(2024, 9); (2024, 12)]%Z /\ distinct_quarters [(2024, 9); (2024, 12)]%Z.
Proof.
  split; [vm_compute; reflexivity|]. split.
  - repeat constructor; cbn; auto; right; cbn; lia.
  - split; [repeat constructor; cbn; intuition congruence|]. intros c [<-|[<-|[]]]; cbn; unfold quarter_month; auto.
Qed.
(* Rows out of order get each other's dates. *)
Example C45_ex_unordered : asx_dates [(2024, 12); (2024, 9)]%Z xmas = asx_dates [(2024, 9); (2024, 12)]%Z xmas /\
  asx_dates [(2024, 9); (2024, 9)]%Z xmas = Err ValueError /\ asx_dates [(2024, 8)]%Z xmas = Err ValueError.
Proof. vm_compute. auto. Qed.
Example C45_ex_ticker : decode_tickers [" irz4"; "IRH5 "]%string = Ok [(2024, 12); (2025, 3)]%Z /\ decode_tickers ["IRZ24"]%string = Err AssertionError /\
  decode_tickers ["IRZ2024"]%string = Err AssertionError.
Proof. vm_compute. auto. Qed.

(* ---- C74 ---- *)
Theorem C74_quotes_by_tenor : forall f (c : date) b delay given cal r ts s, plain_basis b -> wf_calendar cal -> quoted_by_tenor f r ts -> settles c delay given cal s -> ts <> [] ->
  ((exists f', cash_rates_quote_helper f c b delay given cal = Ok f') <-> forall t, In t ts -> exists a m, tenor_means (clean_tenor t) a m) /\
  forall f', cash_rates_quote_helper f c b delay given cal = Ok f' ->
    c_rate f' = Some r /\ c_tenor f' = Some (map clean_tenor ts) /\
    exists ds es ms ps, c_delay f' = Some ds /\ c_eff f' = Some es /\ c_mat f' = Some ms /\ c_period f' = Some ps /\
      length ds = length ts /\ length es = length ts /\ length ms = length ts /\ length ps = length ts /\
      forall i t, nth_error ts i = Some t -> exists d e m p,
        nth_error ds i = Some d /\ nth_error es i = Some e /\ nth_error ms i = Some m /\ nth_error ps i = Some p /\
        deposit cal c s t d e m /\ year_fraction b e m p.
Proof. exact quotes_built. Qed.
Print Assumptions C74_quotes_by_tenor.

(* Deposits that are not overnight can be bootstrapped exactly when an overnight deposit is quoted and settlement is on its maturity date. *)
Theorem C74_quotes_bootstrap_iff : forall f (c : date) b by' delay given cal rs ts s f', plain_basis b -> strict_basis by' -> wf_calendar cal -> quoted_by_tenor f rs ts -> length rs = length ts -> ts <> [] ->
  settles c delay given cal s -> (c <= s)%Z -> cash_rates_quote_helper f c b delay given cal = Ok f' ->
  (forall i t (e m : date) (p r : R) d, nth_error ts i = Some t -> deposit cal c s t d e m -> year_fraction b e m p -> nth_error rs i = Some r -> (e < m)%Z /\ 0 < 1 + r * p) ->
  ((exists rows, bootstrap_cash_frame f' c by' = Ok rows) <->
   ((exists t, In t ts /\ ~ overnight t) -> (exists t, In t ts /\ overnight t) /\ first_on_or_after cal (c + 1)%Z s)).
Proof. exact quotes_bootstrapped. Qed.
Print Assumptions C74_quotes_bootstrap_iff.

(* Dates without tenors pass the helper's own check and then fail. *)
Theorem C74_tenors_required : forall f c b delay given cal r es ms, c_rate f = Some r -> c_tenor f = None -> c_eff f = Some es -> c_mat f = Some ms ->
  cash_rates_quote_helper f c b delay given cal = Err KeyError.
Proof. exact helper_no_tenor. Qed.
Print Assumptions C74_tenors_required.

Theorem C74_settlement_required : forall f c b cal r ts, c_rate f = Some r -> c_tenor f = Some ts -> cash_rates_quote_helper f c b None None cal = Err AssertionError.
Proof. exact helper_no_settlement. Qed.
Print Assumptions C74_settlement_required.

(* Effective dates given by the caller leave the settlement flags unset, and the bootstrap fails. *)
Theorem C74_given_dates_not_bootstrapped : forall f c cb b delay given cal es f' by' ms, c_eff f = Some es -> c_delay f = None ->
  cash_rates_quote_helper f c b delay given cal = Ok f' -> c_mat f' = Some ms -> ms <> [] -> bootstrap_cash_frame f' cb by' = Err KeyError.
Proof. exact helper_dates_given_unusable. Qed.
Print Assumptions C74_given_dates_not_bootstrapped.

Definition ex_cash : cash_frame := {| c_rate := Some [4/100; 5/100]; c_tenor := Some ["ON"; "3 Months"]%string; c_eff := None; c_mat := None; c_delay := None; c_period := None |}.
Example C74_ex : quoted_by_tenor ex_cash [4/100; 5/100] ["ON"; "3 Months"]%string /\ settles (mk 2024 9 2) (Some 1%Z) None xmas (mk 2024 9 3) /\
  first_on_or_after xmas (mk 2024 9 2 + 1)%Z (mk 2024 9 3) /\
  exists f', cash_rates_quote_helper ex_cash (mk 2024 9 2) ACT_365 (Some 1%Z) None xmas = Ok f' /\ c_eff f' = Some [mk 2024 9 2; mk 2024 9 3] /\ c_mat f' = Some [mk 2024 9 3; mk 2024 12 3].
Proof.
  assert (Q : quoted_by_tenor ex_cash [4/100; 5/100] ["ON"; "3 Months"]%string) by repeat split.
  assert (S1 : settles (mk 2024 9 2) (Some 1%Z) None xmas (mk 2024 9 3)) by (right; split; [reflexivity|]; exists 1%Z; split; [reflexivity|vm_compute; reflexivity]).
  split; [exact Q|]. split; [exact S1|]. split.
  - apply following_iff; [exact xmas_wf|vm_compute; reflexivity].
  - rewrite (helper_value _ _ _ _ _ _ _ _ _ Q S1).
    assert (A : sequence (map (fun t => tenor_to_date_offset (clean_tenor t)) ["ON"; "3 Months"]%string) = Ok [{| off_days := 1; off_months := 0 |}; {| off_days := 0; off_months := 3 |}])
      by (vm_compute; reflexivity).
    assert (B : starts (mk 2024 9 2) (mk 2024 9 3) ["ON"; "3 Months"]%string = [mk 2024 9 2; mk 2024 9 3]) by (vm_compute; reflexivity).
    assert (M : sequence (map2 (fun d o => workday (add_offset d o) 0 xmas) [mk 2024 9 2; mk 2024 9 3] [{| off_days := 1; off_months := 0 |}; {| off_days := 0; off_months := 3 |}]) =
      Ok [mk 2024 9 3; mk 2024 12 3]) by (vm_compute; reflexivity).
    rewrite A. cbn [bind]. rewrite B, M. cbn [bind].
    destruct (years_column_pairs_ok [mk 2024 9 2; mk 2024 9 3] [mk 2024 9 3; mk 2024 12 3] ACT_365) as (ps & E); [split; discriminate|discriminate|reflexivity| |].
    + intros x y [I|[I|[]]]; injection I as <- <-; vm_compute; discriminate.
    + change (length [mk 2024 9 3; mk 2024 12 3]) with (length [mk 2024 9 2; mk 2024 9 3]). rewrite E. cbn [bind]. eexists. split; [reflexivity|]. split; reflexivity.
Qed.
