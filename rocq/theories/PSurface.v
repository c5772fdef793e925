From Coq Require Import String ZArith QArith Qreals Reals List Bool Lra Lia.
From Verif Require Import Base Date DayCountModel CurveSpec BootModel BootSpec BootProofs CurveProofs NormalModel NormalProofs BlackModel BlackSpec BlackProofs GkModel GkSpec GkProofs GkStrikeProofs SabrModel ChfModel CosModel VolModel VolSpec NumModel
  SurfaceModel SurfaceSpec SurfaceProofs SurfaceSplineProofs SurfaceHestonProofs SurfaceQueryProofs SurfaceBuildProofs.
Import ListNotations.
Open Scope list_scope.
Open Scope R_scope.

(* C117 answers do not depend on earlier calls *)
Theorem C117_history (ext : externals) (s : surface) (h : list request) (dates : list date) (Ks cps : list R) : vols_at ext s h dates Ks cps = vols_at ext s [] dates Ks cps /\ prices_at ext s h dates Ks cps = prices_at ext s [] dates Ks cps.
Proof. exact (history ext s h dates Ks cps). Qed.
Theorem C117_elementwise (ext : externals) (s : surface) (h : list request) (dates : list date) (Ks cps : list R) (rows : list quote) : vols_at ext s h dates Ks cps = Ok rows <->
  length Ks = length dates /\ length cps = length dates /\ length rows = length dates /\
  forall (i : nat) (d : date) (K cp : R), nth_error dates i = Some d -> nth_error Ks i = Some K -> nth_error cps i = Some cp ->
    exists q, nth_error rows i = Some q /\ vols_at ext s [] [d] [K] [cp] = Ok [q].
Proof. exact (elementwise ext s h dates Ks cps rows). Qed.
Theorem C117_rows (ext : externals) (s : surface) (h : list request) (d : date) (K cp : R) (q : quote) : vols_at ext s h [d] [K] [cp] = Ok [q] ->
  In (q_day q) (s_daily s) /\ d_date (q_day q) = d /\ q_K q = K /\ q_cp q = cp.
Proof. exact (row_content ext s h d K cp q). Qed.
Theorem C117_prices (ext : externals) (s : surface) (h : list request) (dates : list date) (Ks cps : list R) (ps : list num) (rows : list quote) : (prices_at ext s h dates Ks cps = Ok (ps, rows) <->
   vols_at ext s h dates Ks cps = Ok rows /\ 0 < s_spot s /\ Forall call_or_put cps /\ (forall q, In q rows -> 0 <= d_years (q_day q) /\ 0 < d_F (q_day q)) /\ Forall2 (price_of s) rows ps).
Proof. exact (prices ext s h dates Ks cps ps rows). Qed.
Theorem C117_outside (ext : externals) (s : surface) (h : list request) (d : date) (K cp : R) : (forall r, In r (s_daily s) -> d_date r <> d) -> vols_at ext s h [d] [K] [cp] = Err IndexError.
Proof. exact (outside ext s h d K cp). Qed.
Theorem C117_outside_any (ext : externals) (s : surface) (h : list request) (dates : list date) (Ks cps : list R) (d : date) : In d dates -> (forall r, In r (s_daily s) -> d_date r <> d) ->
  exists e, vols_at ext s h dates Ks cps = Err e.
Proof. exact (outside_any ext s h dates Ks cps d). Qed.
Theorem C117_lengths (ext : externals) (s : surface) (h : list request) (dates : list date) (Ks cps : list R) : ~ (length Ks = length dates /\ length cps = length dates) ->
  vols_at ext s h dates Ks cps = Err AssertionError /\ prices_at ext s h dates Ks cps = Err AssertionError.
Proof. exact (lengths ext s h dates Ks cps). Qed.
(* C118 spline smiles *)
Theorem C118_quote_reproduced (ext : externals) (s : surface) (h h' : list request) (r : day_row) (vols : list R) (ks : list num) (i : nat) (K v cp K' cp' : R) (q' : quote) : spline_surface s -> exact_splines ext -> one_row_per_day s -> In r (s_daily s) -> d_vols r = map Fin vols ->
  solve_strike_from_delta (x_rs ext) (s_spot s) (d_years r) (d_rd r) (d_rf r) vols (s_deltas s) (d_conv r) (Some (d_F r)) "forward" = Ok ks ->
  nth_error ks i = Some (Fin K) -> nth_error vols i = Some v -> vols_at ext s h' [d_date r] [K'] [cp'] = Ok [q'] ->
  vols_at ext s h [d_date r] [K] [cp] = Ok [mk_quote r K cp (Fin v)].
Proof. intros spline. exact (quote_reproduced ext s spline h h' r vols ks i K v cp K' cp' q'). Qed.
Theorem C118_regular_smile (ext : externals) (s : surface) (spot : bool) (h h' : list request) (r : day_row) (vols : list R) (i : nat) (v d K' cp' : R) (q' : quote) : spline_surface s -> exact_splines ext -> one_row_per_day s -> In r (s_daily s) -> d_vols r = map Fin vols -> d_conv r = (if spot then "regular_spot" else "regular_forward")%string ->
  nth_error vols i = Some v -> nth_error (s_deltas s) i = Some d -> d <> 0 -> Rabs d <> 1 / 2 -> Rabs d * (if spot then exp (d_rf r * d_years r) else 1) < 1 ->
  vols_at ext s h' [d_date r] [K'] [cp'] = Ok [q'] ->
  exists K, 0 < K /\ (forall cp, vols_at ext s h [d_date r] [K] [cp] = Ok [mk_quote r K cp (Fin v)]) /\
    (if spot then spot_delta_gk else forward_delta_gk) (s_spot s) (d_years r) (d_rd r) (d_rf r) (call_put d) K v (Some (d_F r)) = Fin d.
Proof. intros spline. exact (regular_smile ext s spline spot h h' r vols i v d K' cp' q'). Qed.
Theorem C118_at_the_money (ext : externals) (s : surface) (spot : bool) (h h' : list request) (r : day_row) (vols : list R) (i : nat) (v d K' cp' : R) (q' : quote) : spline_surface s -> exact_splines ext -> one_row_per_day s -> In r (s_daily s) -> d_vols r = map Fin vols -> d_conv r = (if spot then "regular_spot" else "regular_forward")%string ->
  nth_error vols i = Some v -> nth_error (s_deltas s) i = Some d -> Rabs d = 1 / 2 -> vols_at ext s h' [d_date r] [K'] [cp'] = Ok [q'] ->
  exists K, 0 < K /\ (forall cp, vols_at ext s h [d_date r] [K] [cp] = Ok [mk_quote r K cp (Fin v)]) /\
    forward_delta_gk (s_spot s) (d_years r) (d_rd r) (d_rf r) 1 K v (Some (d_F r)) = Fin (1 / 2) /\ forward_delta_gk (s_spot s) (d_years r) (d_rd r) (d_rf r) (-1) K v (Some (d_F r)) = Fin (- (1 / 2)).
Proof. intros spline. exact (atm_smile ext s spline spot h h' r vols i v d K' cp' q'). Qed.
Theorem C118_premium_adjusted_smile (ext : externals) (s : surface) (eps : R) (spot : bool) (h h' : list request) (r : day_row) (vols : list R) (i : nat) (v d K' cp' : R) (q' : quote) : spline_surface s -> exact_splines ext -> accurate eps (x_rs ext) -> one_row_per_day s -> In r (s_daily s) -> d_vols r = map Fin vols -> d_conv r = pa_name spot ->
  nth_error vols i = Some v -> nth_error (s_deltas s) i = Some d -> d <> 0 -> d <> 1 / 2 -> d <> - (1 / 2) \/ (exists d', In d' (s_deltas s) /\ Rabs d' <> 1 / 2) ->
  vols_at ext s h' [d_date r] [K'] [cp'] = Ok [q'] ->
  exists K, 0 < K /\ (forall cp, vols_at ext s h [d_date r] [K] [cp] = Ok [mk_quote r K cp (Fin v)]) /\
    within eps d ((if spot then pa_spot_delta else pa_forward_delta) (s_spot s) (d_years r) (d_rd r) (d_rf r) (call_put d) K v (Some (d_F r))).
Proof. intros spline. exact (pa_smile ext s spline eps spot h h' r vols i v d K' cp' q'). Qed.
Theorem C118_option_type_irrelevant (ext : externals) (s : surface) (h h' : list request) (d : date) (K cp cp' : R) (q : quote) : spline_surface s -> vols_at ext s h [d] [K] [cp] = Ok [q] ->
  vols_at ext s h' [d] [K] [cp'] = Ok [mk_quote (q_day q) K cp' (q_vol q)].
Proof. intros spline. exact (type_irrelevant ext s spline h h' d K cp cp' q). Qed.
Theorem C118_parity (ext : externals) (s : surface) (h : list request) (d : date) (K : R) (ps : list num) (rows : list quote) (q : quote) (v : R) : spline_surface s -> prices_at ext s h [d; d] [K; K] [1; -1] = Ok (ps, rows) -> nth_error rows 0 = Some q -> q_vol q = Fin v -> 0 < K -> v <> 0 ->
  exists c p, ps = [Fin c; Fin p] /\ c - p = s_spot s * exp (- d_rf (q_day q) * d_years (q_day q)) * (1 - K / d_F (q_day q)).
Proof. intros spline. exact (surface_parity ext s spline h d K ps rows q v). Qed.
Theorem C118_few_quotes (ext : externals) (s : surface) (r : day_row) (ks : list num) (vols : list R) (h : list request) (K cp : R) : spline_surface s -> one_row_per_day s -> In r (s_daily s) -> d_vols r = map Fin vols ->
  solve_strike_from_delta (x_rs ext) (s_spot s) (d_years r) (d_rd r) (d_rf r) vols (s_deltas s) (d_conv r) (Some (d_F r)) "forward" = Ok ks ->
  (length (s_deltas s) < 3)%nat \/ s_method s = CubicSpline /\ (length (s_deltas s) < 4)%nat ->
  vols_at ext s h [d_date r] [K] [cp] = Err ValueError.
Proof. intros spline. exact (few_quotes ext s spline r ks vols h K cp). Qed.
Theorem C118_degree (ext : externals) (s : surface) (u : nat -> list num -> list num -> result (R -> R)) (h : list request) (dates : list date) (Ks cps : list R) : (forall xs ys, u (Nat.min 3 (length (s_deltas s) - 1)) xs ys = x_univariate ext (Nat.min 3 (length (s_deltas s) - 1)) xs ys) ->
  vols_at (with_univariate ext u) s h dates Ks cps = vols_at ext s h dates Ks cps.
Proof. exact (degree ext s u h dates Ks cps). Qed.
(* C119 Heston calibration *)
Theorem C119_report (ext : externals) (quotes : list num) (deltas : list R) (S0 r q tau : R) (cps : list R) (conv method : string) (h : fit) : heston_calibrate ext quotes deltas S0 r q tau cps conv method = Ok (Some h) ->
  exists (vols : list R) (strikes : list num) (v : R), quotes = map Fin vols /\
    solve_strike_from_delta (x_rs ext) S0 tau r q vols deltas conv None "forward" = Ok strikes /\
    nth_error vols (Nat.div (length vols) 2) = Some v /\ f_var0 h = v ^ 2 /\ f_kappa h = 3 / 2 /\ f_lambda h = 0 /\
    0 <= f_vv h /\ 0 <= f_theta h /\ Rabs (f_rho h) <= 1 /\ end_point (x_minimize ext [2 * v; 2 * v ^ 2; 0]) [f_vv h; f_theta h; f_rho h] /\
    f_SSE h <> PInf /\ f_SSE h <> NInf /\
    (length cps = length vols -> quote_fits ext h S0 tau r q method cps strikes vols /\
       forall e, f_SSE h = Fin e <-> exists ivs, f_IV h = map Fin ivs /\ e = squares (combine vols ivs)).
Proof. exact (calibrate_report ext quotes deltas S0 r q tau cps conv method h). Qed.
Theorem C119_invalid (ext : externals) (quotes : list num) (deltas : list R) (S0 r q tau : R) (cps : list R) (conv method : string) : ~ (0 < S0 /\ 0 < tau /\ Forall (fun c => c = 1 \/ c = -1) cps /\ pricing_method method) -> heston_calibrate ext quotes deltas S0 r q tau cps conv method = Err ValueError.
Proof. exact (calibrate_invalid ext quotes deltas S0 r q tau cps conv method). Qed.
Theorem C119_missing_quote (ext : externals) (quotes : list num) (deltas : list R) (S0 r q tau : R) (cps : list R) (conv method : string) (x : num) : 0 < S0 -> 0 < tau -> (forall c, In c cps -> c = 1 \/ c = -1) -> In method pricing_methods ->
  In x quotes -> (forall v, x <> Fin v) -> heston_calibrate ext quotes deltas S0 r q tau cps conv method = Err AssertionError.
Proof.
  intros HS HT HC HM HX NF. unfold heston_calibrate. destruct (Rlt_dec 0 S0); [|contradiction]. destruct (Rlt_dec 0 tau); [|contradiction]. cbn [guard bind].
  assert (F : forallb is_cp_flag cps = true). { apply forallb_forall. intros c Hc. unfold is_cp_flag, is_one, is_minus_one. destruct (HC c Hc) as [->| ->]; [destruct (Req_EM_T 1 1); [reflexivity|contradiction]|]. destruct (Req_EM_T (-1) (-1)); [apply orb_true_r|contradiction]. }
  rewrite F. cbn [guard bind].
  assert (M : existsb (String.eqb method) pricing_methods = true) by (apply existsb_exists; exists method; split; [exact HM|apply String.eqb_refl]). rewrite M. cbn [guard bind].
  unfold quoted. destruct (all_fin quotes) as [w|] eqn:AF; [|reflexivity]. apply all_fin_inv in AF. subst quotes. apply in_map_iff in HX as (v & E & _). exfalso. exact (NF v (eq_sym E)).
Qed.
Theorem C119_success_flag_ignored (ext : externals) (b : bool) (quotes : list num) (deltas : list R) (S0 r q tau : R) (cps : list R) (conv method : string) : heston_calibrate (with_minimize ext (fun x => flagged b (x_minimize ext x))) quotes deltas S0 r q tau cps conv method = heston_calibrate ext quotes deltas S0 r q tau cps conv method.
Proof. exact (calibrate_flag ext b quotes deltas S0 r q tau cps conv method). Qed.
Theorem C119_inadmissible (ext : externals) (quotes : list num) (deltas : list R) (S0 r q tau : R) (cps : list R) (conv method : string) (v : R) : nth_error quotes (Nat.div (length quotes) 2) = Some (Fin v) -> (forall x, end_point (x_minimize ext [2 * v; 2 * v ^ 2; 0]) x -> ~ admissible x) ->
  exists e, heston_calibrate ext quotes deltas S0 r q tau cps conv method = Err e.
Proof. exact (calibrate_inadmissible ext quotes deltas S0 r q tau cps conv method v). Qed.
Theorem C119_inadmissible_type_error (ext : externals) (vols : list R) (ks : list num) (deltas : list R) (S0 r q tau : R) (cps : list R) (conv method : string) (v : R) (b : bool) (vv theta rho : R) : 0 < S0 -> 0 < tau -> Forall (fun c => c = 1 \/ c = -1) cps -> pricing_method method ->
  solve_strike_from_delta (x_rs ext) S0 tau r q vols deltas conv None "forward" = Ok ks -> nth_error vols (Nat.div (length vols) 2) = Some v ->
  x_minimize ext [2 * v; 2 * v ^ 2; 0] = FitEnd b [vv; theta; rho] -> ~ admissible [vv; theta; rho] ->
  heston_calibrate ext (map Fin vols) deltas S0 r q tau cps conv method = Err TypeError.
Proof. exact (calibrate_type_error ext vols ks deltas S0 r q tau cps conv method v b vv theta rho). Qed.
Theorem C119_starting_point (ext : externals) (m : list R -> fit_search) (quotes : list num) (deltas : list R) (S0 r q tau : R) (cps : list R) (conv method : string) (v : R) : nth_error quotes (Nat.div (length quotes) 2) = Some (Fin v) -> m [2 * v; 2 * v ^ 2; 0] = x_minimize ext [2 * v; 2 * v ^ 2; 0] ->
  heston_calibrate (with_minimize ext m) quotes deltas S0 r q tau cps conv method = heston_calibrate ext quotes deltas S0 r q tau cps conv method.
Proof. exact (calibrate_start ext m quotes deltas S0 r q tau cps conv method v). Qed.
Theorem C119_cosine_vector (p : params) (S0 : R) (cps Ks : list R) : length cps = length Ks -> cps <> [] ->
  heston_cosine p S0 cps Ks 160 10 true = sequence (map (fun ck => let* l := cosine_default p S0 (fst ck) (snd ck) in match l with x :: _ => Ok x | [] => Err IndexError end) (combine cps Ks)).
Proof. exact (cosine_by_strike p S0 cps Ks). Qed.
(* C120 Heston smiles *)
Theorem C120_query (ext : externals) (s : surface) (h : list request) (d : date) (K cp : R) (q : quote) : heston_surface s -> vols_at ext s h [d] [K] [cp] = Ok [q] ->
  let r := q_day q in
  exists (f : fit) (rate e : R) (X : option R), 0 < s_spot s /\ 0 < d_years r /\ 0 < d_F r /\ rate = ln (d_F r / s_spot s) / d_years r + d_rf r /\ s_spot s * exp ((rate - d_rf r) * d_years r) = d_F r /\
    heston_calibrate ext (d_vols r) (s_deltas s) (s_spot s) rate (d_rf r) (d_years r) (s_cps s) (d_conv r) (method_value (s_method s)) = Ok (Some f) /\
    f_SSE f = Fin e /\ e < 1 / 1000 /\ fit_price ext f (s_spot s) (d_years r) rate (d_rf r) cp K (method_value (s_method s)) X /\
    match X with
    | Some x => gk_solve_implied_vol (s_spot s) (d_years r) rate (d_rf r) cp K x (x_newton ext (sqrt (f_var0 f))) (x_brent ext) = Ok (q_vol q)
    | None => x_undefined ext = Ok (q_vol q)
    end.
Proof. exact (heston_query ext s h d K cp q). Qed.
Theorem C120_quotes_fitted (ext : externals) (s : surface) (h : list request) (d : date) (K cp : R) (q : quote) : heston_surface s -> length (s_cps s) = length (s_deltas s) -> vols_at ext s h [d] [K] [cp] = Ok [q] ->
  let r := q_day q in
  exists (f : fit) (rate : R) (vols ivs : list R) (strikes : list num), s_spot s * exp ((rate - d_rf r) * d_years r) = d_F r /\ d_vols r = map Fin vols /\ length ivs = length vols /\
    heston_calibrate ext (d_vols r) (s_deltas s) (s_spot s) rate (d_rf r) (d_years r) (s_cps s) (d_conv r) (method_value (s_method s)) = Ok (Some f) /\
    solve_strike_from_delta (x_rs ext) (s_spot s) (d_years r) rate (d_rf r) vols (s_deltas s) (d_conv r) None "forward" = Ok strikes /\
    forall (i : nat) (c k v iv : R), nth_error (s_cps s) i = Some c -> nth_error strikes i = Some (Fin k) -> nth_error vols i = Some v -> nth_error ivs i = Some iv ->
      Rabs (v - iv) < 4 / 125 /\ exists x, fit_price ext f (s_spot s) (d_years r) rate (d_rf r) c k (method_value (s_method s)) x /\ reported_vol ext (s_spot s) (d_years r) rate (d_rf r) c k v x (Fin iv).
Proof. exact (heston_quotes ext s h d K cp q). Qed.
Theorem C120_price (eps : R) (ext : externals) (s : surface) (h : list request) (d : date) (K cp : R) (p : num) (q : quote) (v : R) : heston_surface s -> accurate_vols eps ext -> undefined_undefined ext -> prices_at ext s h [d] [K] [cp] = Ok ([p], [q]) -> q_vol q = Fin v ->
  let r := q_day q in
  exists (f : fit) (rate X y : R), s_spot s * exp ((rate - d_rf r) * d_years r) = d_F r /\
    heston_calibrate ext (d_vols r) (s_deltas s) (s_spot s) rate (d_rf r) (d_years r) (s_cps s) (d_conv r) (method_value (s_method s)) = Ok (Some f) /\
    fit_price ext f (s_spot s) (d_years r) rate (d_rf r) cp K (method_value (s_method s)) (Some X) /\ p = Fin y /\ Rabs (y - X) <= eps.
Proof. exact (heston_price_surface eps ext s h d K cp p q v). Qed.
Theorem C120_strikes (rs : root_finder) (S tau rd r rf F : R) (vols deltas : list R) (conv : string) : 0 < F -> S * exp ((r - rf) * tau) = F ->
  conv = "regular_spot"%string \/ conv = "regular_forward"%string ->
  solve_strike_from_delta rs S tau r rf vols deltas conv None "forward" = solve_strike_from_delta rs S tau rd rf vols deltas conv (Some F) "forward".
Proof. exact (regular_strikes_agree rs S tau rd r rf F vols deltas conv). Qed.
Theorem C120_at_quote (ext : externals) (s : surface) (h : list request) (d : date) (cp k v w : R) (i : nat) (q : quote) (vols : list R) (strikes : list num) (rate : R) : heston_surface s -> length (s_cps s) = length (s_deltas s) -> accurate_vols 0 ext -> undefined_undefined ext ->
  vols_at ext s h [d] [k] [cp] = Ok [q] -> let r := q_day q in
  d_vols r = map Fin vols -> s_spot s * exp ((rate - d_rf r) * d_years r) = d_F r ->
  solve_strike_from_delta (x_rs ext) (s_spot s) (d_years r) rate (d_rf r) vols (s_deltas s) (d_conv r) None "forward" = Ok strikes ->
  nth_error (s_cps s) i = Some cp -> nth_error strikes i = Some (Fin k) -> nth_error vols i = Some v -> q_vol q = Fin w -> 0 < k -> 0 < w ->
  (forall f, heston_calibrate ext (d_vols r) (s_deltas s) (s_spot s) rate (d_rf r) (d_years r) (s_cps s) (d_conv r) (method_value (s_method s)) = Ok (Some f) -> exists iv, nth_error (f_IV f) i = Some (Fin iv) /\ 0 < iv) ->
  Rabs (v - w) < 4 / 125.
Proof. exact (heston_at_quote ext s h d cp k v w i q vols strikes rate). Qed.
(* C121 construction *)
Theorem C121_daily_rows (c : date) (b : basis) (mkt : market) (w : nat) (p : pillar) (ps : list pillar) : strict_basis b -> good_pillars w (map p_vol (p :: ps)) -> (c <= v_expiry (p_vol p))%Z -> variance_rises c b (map p_vol (p :: ps)) ->
  exists rows vrows, daily_vols c b (map p_vol (p :: ps)) = Ok vrows /\ daily_rows c b mkt (p :: ps) = Ok rows /\
  length rows = Z.to_nat (v_expiry (last (map p_vol ps) (p_vol p)) - v_expiry (p_vol p) + 1) /\ length vrows = length rows /\
  forall (i : nat) (r : day_row), nth_error rows i = Some r ->
    d_date r = (v_expiry (p_vol p) + Z.of_nat i)%Z /\ nth_error vrows i = Some (d_date r, d_years r, d_vols r) /\ on_market mkt r /\
    exists q, next_pillar (p :: ps) (d_date r) q /\ d_conv r = p_conv q.
Proof. exact (daily_rows_ok c b mkt w p ps). Qed.
Theorem C121_construction (ext : externals) (c : date) (b : basis) (mkt : market) (S0 : R) (m : smile_method) (quotes : list (R * R)) (w : nat) (p : pillar) (ps : list pillar) (s : surface) (ks : list (list num)) : strict_basis b -> good_pillars w (map p_vol (p :: ps)) -> (c < v_expiry (p_vol p))%Z -> variance_rises c b (map p_vol (p :: ps)) ->
  build ext c b mkt S0 m quotes (p :: ps) = Ok (s, ks) ->
  s_spot s = S0 /\ s_method s = m /\ s_deltas s = map fst quotes /\ s_cps s = map snd quotes /\ one_row_per_day s /\ length ks = length (p :: ps) /\
  forall (j : nat) (q : pillar), nth_error (p :: ps) j = Some q ->
    exists r strikes, In r (s_daily s) /\ d_date r = v_expiry (p_vol q) /\ year_fraction b c (d_date r) (d_years r) /\ on_market mkt r /\ d_conv r = p_conv q /\ d_vols r = map Fin (v_vols (p_vol q)) /\
      nth_error ks j = Some strikes /\
      solve_strike_from_delta (x_rs ext) S0 (d_years r) (d_rd r) (d_rf r) (v_vols (p_vol q)) (map fst quotes) (p_conv q) (Some (d_F r)) "forward" = Ok strikes.
Proof. exact (build_ok ext c b mkt S0 m quotes w p ps s ks). Qed.
Theorem C121_end_to_end (ext : externals) (c : date) (b : basis) (mkt : market) (S0 : R) (m : smile_method) (quotes : list (R * R)) (w : nat) (p : pillar) (ps : list pillar) (s : surface) (ks : list (list num))
  (h h' : list request) (j i : nat) (q : pillar) (strikes : list num) (K v cp K' cp' : R) (q' : quote) : strict_basis b -> good_pillars w (map p_vol (p :: ps)) -> (c < v_expiry (p_vol p))%Z -> variance_rises c b (map p_vol (p :: ps)) ->
  build ext c b mkt S0 m quotes (p :: ps) = Ok (s, ks) -> m = UnivariateSpline \/ m = CubicSpline -> exact_splines ext ->
  nth_error (p :: ps) j = Some q -> nth_error ks j = Some strikes -> nth_error strikes i = Some (Fin K) -> nth_error (v_vols (p_vol q)) i = Some v ->
  vols_at ext s h' [v_expiry (p_vol q)] [K'] [cp'] = Ok [q'] ->
  exists r, vols_at ext s h [v_expiry (p_vol q)] [K] [cp] = Ok [mk_quote r K cp (Fin v)] /\ d_date r = v_expiry (p_vol q) /\ on_market mkt r.
Proof. exact (end_to_end ext c b mkt S0 m quotes w p ps s ks h h' j i q strikes K v cp K' cp' q'). Qed.

Definition all_theorems := (
  @C117_history,
  @C117_elementwise,
  @C117_rows,
  @C117_prices,
  @C117_outside,
  @C117_outside_any,
  @C117_lengths,
  @C118_quote_reproduced,
  @C118_regular_smile,
  @C118_at_the_money,
  @C118_premium_adjusted_smile,
  @C118_option_type_irrelevant,
  @C118_parity,
  @C118_few_quotes,
  @C118_degree,
  @C119_report,
  @C119_invalid,
  @C119_missing_quote, @C119_success_flag_ignored,
  @C119_inadmissible,
  @C119_inadmissible_type_error,
  @C119_starting_point,
  @C119_cosine_vector,
  @C120_query,
  @C120_quotes_fitted,
  @C120_price,
  @C120_strikes,
  @C120_at_quote,
  @C121_daily_rows,
  @C121_construction,
  @C121_end_to_end).
Print Assumptions all_theorems.

(* ---- cases that meet the hypotheses ---- *)
(* a spline for flat smiles; a minimiser that stops at once; a solver that tries 20 percent only and is right when it answers; an integral that makes the at-the-money price that of 20 percent *)
Definition flat (xs ys : list num) : result (R -> R) :=
  match ys with
  | Fin v :: t => if forallb (fun y => match y with Fin a => if Req_EM_T a v then true else false | _ => false end) t then Ok (fun _ => v) else Err ValueError
  | _ => Err ValueError
  end.
Lemma flat_exact : interpolating flat.
Proof.
  intros xs ys f H i x y _ N. unfold flat in H. destruct ys as [|[v| | |] t]; try discriminate. destruct (forallb _ t) eqn:E; [|discriminate]. injection H as <-.
  destruct i as [|i]; cbn in N; [congruence|]. rewrite forallb_forall in E. specialize (E _ (nth_error_In _ _ N)). cbn in E. destruct (Req_EM_T y v); [congruence|discriminate].
Qed.
Definition atm : R := exp (1 / 2 * (1 / 5 * (1 / 5)) * 1).
Definition atm_price : R := match price_gk 1 1 0 0 1 atm (1 / 5) None with Fin x => x | _ => 0 end.
Definition ex_ext : externals :=
  mk_ext (fun _ _ _ => RSRaises ValueError) (fun _ => flat) flat (fun _ => Some (PI * (1 - atm_price) / atm)) (fun _ => FitEnd false [1; 1; 0])
    (fun _ => Probe (1 / 5) (fun y => match y with Fin a => if Req_EM_T a 0 then Finish (Root (1 / 5)) else Finish NoConvergence | _ => Finish NoConvergence end))
    (Finish (RSRaises ValueError)) (Err ValueError).
Lemma ex_exact : exact_splines ex_ext.
Proof. split; [|intros k]; apply flat_exact. Qed.

Definition ex_day (vols : list num) : day_row := mk_day 10 1 1 0 0 "regular_forward" vols.
Definition ex_quotes : list num := [Fin (1 / 5); Fin (1 / 5); Fin (1 / 5)].
Definition ex_spline : surface := mk_surface 1 UnivariateSpline [- (1 / 4); 1 / 2; 1 / 4] [-1; 1; 1] [ex_day ex_quotes].
Ltac decide_R := repeat match goal with |- context [if Rlt_dec ?a ?b then true else false] => destruct (Rlt_dec a b); [|lra]; cbn [andb guard bind forallb] end.
Lemma ex_strikes (rs : root_finder) (S t rd rf f : R) : 0 < S -> 0 < t -> 0 < f ->
  exists ks, solve_strike_from_delta rs S t rd rf [1 / 5; 1 / 5; 1 / 5] [- (1 / 4); 1 / 2; 1 / 4] "regular_forward" (Some f) "forward" = Ok ks.
Proof.
  intros HS Ht Hf. unfold solve_strike_from_delta, all_pos. cbn [forallb]. decide_R.
  assert (A : forall x, -1 / 2 <= x <= 1 / 2 -> Rabs x <= 1 / 2) by (intros x [A B]; apply Rabs_le; lra).
  repeat match goal with |- context [if Rle_dec (Rabs ?x) ?b then true else false] => destruct (Rle_dec (Rabs x) b) as [_|N]; [|destruct (N (A x ltac:(lra)))]; cbn [andb guard bind forallb] end.
  cbn [length Nat.eqb guard bind existsb String.eqb Ascii.eqb Bool.eqb orb andb]. eauto.
Qed.
Lemma ex_vol (K cp : R) : vols_at ex_ext ex_spline [] [10%Z] [K] [cp] = Ok [mk_quote (ex_day ex_quotes) K cp (Fin (1 / 5))].
Proof.
  rewrite vols_outcome, outcome_one. unfold row_of. cbn [ex_spline s_daily find d_date ex_day Z.eqb Pos.eqb]. unfold solve_smile, day_strikes. cbn [s_method s_deltas s_spot d_vols d_years d_rd d_rf d_conv d_F ex_spline ex_day].
  unfold quoted. change ex_quotes with (map Fin [1 / 5; 1 / 5; 1 / 5]). rewrite all_fin_map. cbn [bind]. destruct (ex_strikes (x_rs ex_ext) 1 1 0 0 1 ltac:(lra) ltac:(lra) ltac:(lra)) as (ks & ->).
  cbn [bind length Nat.leb guard]. unfold ex_ext. cbn [x_univariate]. unfold flat. cbn [map forallb]. destruct (Req_EM_T (1 / 5) (1 / 5)); [|congruence]. cbn. reflexivity.
Qed.
Lemma ex_one_row : one_row_per_day ex_spline.
Proof. unfold one_row_per_day. cbn. repeat constructor. intros []. Qed.
Example C117_ex (h : list request) : vols_at ex_ext ex_spline h [10; 10]%Z [1; 2] [1; -1] = Ok [mk_quote (ex_day ex_quotes) 1 1 (Fin (1 / 5)); mk_quote (ex_day ex_quotes) 2 (-1) (Fin (1 / 5))].
Proof.
  apply C117_elementwise. repeat split. intros [|[|[|i]]] d K cp Hd HK Hc; cbn in Hd, HK, Hc; try discriminate; injection Hd as <-; injection HK as <-; injection Hc as <-; eexists; (split; [reflexivity|apply ex_vol]).
Qed.
Example C117_ex_outside (h : list request) (K cp : R) : vols_at ex_ext ex_spline h [11%Z] [K] [cp] = Err IndexError.
Proof. apply C117_outside. intros r [<-|[]]. cbn. lia. Qed.
(* a call that raises and one that succeeds, then the price *)
Example C117_ex_price : exists p, prices_at ex_ext ex_spline [AskVol [10; 11]%Z [1; 1] [1; 1]; AskPrice [10]%Z [1] [1]] [10%Z] [1] [1] = Ok ([Fin p], [mk_quote (ex_day ex_quotes) 1 1 (Fin (1 / 5))]) /\ 0 < p.
Proof.
  destruct (gk_bounds 1 1 0 0 1 1 (1 / 5) (Some 1) (or_introl eq_refl) ltac:(lra) ltac:(lra) ltac:(lra) ltac:(lra) ltac:(cbn; lra)) as (p & E & L & _).
  exists p. split; [|match type of L with Rmax 0 ?x < _ => pose proof (Rmax_l 0 x); lra end]. apply C117_prices.
  destruct (C117_history ex_ext ex_spline [AskVol [10; 11]%Z [1; 1] [1; 1]; AskPrice [10]%Z [1] [1]] [10%Z] [1] [1]) as [-> _].
  split; [apply ex_vol|]. split; [cbn; lra|]. split; [repeat constructor|]. split; [intros q [<-|[]]; cbn; lra|]. constructor; [|constructor]. unfold price_of. cbn. symmetry. exact E.
Qed.
Example C118_ex : exists K, 0 < K /\ (forall cp, vols_at ex_ext ex_spline [] [10%Z] [K] [cp] = Ok [mk_quote (ex_day ex_quotes) K cp (Fin (1 / 5))]) /\
  forward_delta_gk 1 1 0 0 (call_put (- (1 / 4))) K (1 / 5) (Some 1) = Fin (- (1 / 4)).
Proof.
  apply (C118_regular_smile ex_ext ex_spline false [] [] (ex_day ex_quotes) [1 / 5; 1 / 5; 1 / 5] 0 (1 / 5) (- (1 / 4)) 1 1 (mk_quote (ex_day ex_quotes) 1 1 (Fin (1 / 5))) ltac:(left; reflexivity) ex_exact ex_one_row ltac:(left; reflexivity) eq_refl eq_refl eq_refl eq_refl).
  - lra.
  - rewrite Rabs_left; lra.
  - rewrite Rabs_left; lra.
  - apply ex_vol.
Qed.
Example C118_ex_parity (ps : list num) (rows : list quote) : prices_at ex_ext ex_spline [] [10; 10]%Z [1 / 2; 1 / 2] [1; -1] = Ok (ps, rows) -> exists c p, ps = [Fin c; Fin p] /\ c - p = 1 / 2.
Proof.
  intros H. pose proof H as H0. apply C117_prices in H0 as (HV & _). apply C117_elementwise in HV as (_ & _ & _ & E). destruct (E O 10%Z (1 / 2) 1 eq_refl eq_refl eq_refl) as (q & N & V). rewrite ex_vol in V. injection V as <-.
  destruct (C118_parity ex_ext ex_spline [] 10%Z (1 / 2) ps rows _ (1 / 5) ltac:(left; reflexivity) H N eq_refl ltac:(lra) ltac:(lra)) as (c & p & -> & D). exists c, p. split; [reflexivity|]. rewrite D. cbn.
  replace (- 0 * 1) with 0 by ring. rewrite exp_0. lra.
Qed.

(* a Heston surface with a single quote *)
Definition ex_heston : surface := mk_surface 1 HestonLipton [1 / 2] [1] [ex_day [Fin (1 / 5)]].
Lemma atm_pos : 0 < atm.
Proof. apply exp_pos. Qed.
Lemma atm_priced : price_gk 1 1 0 0 1 atm (1 / 5) None = Fin atm_price /\ 0 < atm_price.
Proof.
  destruct (gk_bounds 1 1 0 0 1 atm (1 / 5) None (or_introl eq_refl) ltac:(lra) atm_pos ltac:(lra) ltac:(lra) I) as (p & E & L & _). unfold atm_price. rewrite E.
  split; [reflexivity|]. match type of L with Rmax 0 ?x < _ => pose proof (Rmax_l 0 x); lra end.
Qed.
Definition ex_fit : fit := mk_fit ((1 / 5) ^ 2) 1 (3 / 2) 1 0 0 [Fin (1 / 5)] (Fin 0).
Lemma ex_price (p : params) : p_tau p = 1 -> p_r p = 0 -> p_q p = 0 -> heston_price (x_quad ex_ext) cosine_default p 0 1 1 atm "heston_lipton" = Ok [Some atm_price].
Proof.
  intros A B C. unfold heston_price. cbn [String.eqb Ascii.eqb Bool.eqb]. unfold price_lipton, ex_ext. cbn [x_quad]. cbv beta iota zeta delta [bind NumModel.obind]. destruct (Req_EM_T 1 1); [|congruence]. match goal with |- Ok [Some ?x] = Ok [Some ?y] => enough (Q : x = y) by (rewrite Q; reflexivity) end. rewrite A, B, C.
  replace (- 0 * 1) with 0 by ring. rewrite exp_0. pose proof atm_pos. field. split; [lra|apply PI_neq0].
Qed.
Lemma ex_implied (guess : R) : gk_solve_implied_vol 1 1 0 0 1 atm atm_price (x_newton ex_ext guess) (x_brent ex_ext) = Ok (Fin (1 / 5)).
Proof.
  unfold gk_solve_implied_vol, ex_ext. cbn [x_newton x_brent run]. rewrite gk_error_live by (try lra; left; reflexivity). destruct atm_priced as [-> _]. cbn [sub add neg].
  replace (atm_price + - atm_price) with 0 by ring. destruct (Req_EM_T 0 0); [|congruence]. reflexivity.
Qed.
Example C119_ex : heston_calibrate ex_ext [Fin (1 / 5)] [1 / 2] 1 0 0 1 [1] "regular_forward" "heston_lipton" = Ok (Some ex_fit).
Proof.
  unfold heston_calibrate. decide_R. cbn [forallb]. unfold is_cp_flag, is_one. destruct (Req_EM_T 1 1); [|congruence]. cbn [orb andb guard bind]. cbn [existsb pricing_methods String.eqb Ascii.eqb Bool.eqb orb guard bind].
  unfold quoted. cbn [all_fin fold_right bind].
  assert (K : solve_strike_from_delta (x_rs ex_ext) 1 1 0 0 [1 / 5] [1 / 2] "regular_forward" None "forward" = Ok [Fin atm]).
  { unfold solve_strike_from_delta, all_pos. cbn [forallb]. decide_R. destruct (Rle_dec (Rabs (1 / 2)) (1 / 2)) as [_|N]; [|rewrite Rabs_right in N; lra]. cbn [andb guard bind length Nat.eqb].
    cbn [existsb String.eqb Ascii.eqb Bool.eqb orb andb guard bind combine map fst snd]. unfold regular_quote, is_atm. destruct (Req_EM_T (Rabs (1 / 2)) (1 / 2)) as [_|N]; [|rewrite Rabs_right in N; lra].
    cbn [andb]. unfold atm. do 3 f_equal. replace ((0 - 0) * 1) with 0 by ring. rewrite exp_0. ring. }
  rewrite K. cbn [bind length Nat.div Nat.divmod fst nth_error]. cbv zeta. change (x_minimize ex_ext) with (fun _ : list R => FitEnd false [1; 1; 0]). cbn [run_fit bind]. unfold calibration_helper. destruct (Rlt_dec 1 0); [lra|].
  destruct (Rlt_dec 1 (Rabs 0)) as [N|_]; [rewrite Rabs_R0 in N; lra|]. cbn [combine map sequence model_price fst snd]. rewrite ex_price by reflexivity. cbn [bind sequence combine map].
  destruct (Rlt_dec atm_price 0); [pose proof atm_priced; lra|]. cbn [implied]. rewrite ex_implied. cbn [bind map combine fst snd sequence]. unfold ex_fit, nsum, npow2. cbn [fold_right sub add neg mul]. do 3 f_equal. f_equal. ring.
Qed.
Lemma ex_rate : basis_rate 1 1 0 1 = Fin 0.
Proof. unfold basis_rate. rewrite div_fin by lra. replace (1 / 1) with 1 by field. unfold nlog. destruct (Rlt_dec 0 1); [|lra]. rewrite ln_1, div_fin by lra. cbn. f_equal. field. Qed.
Lemma ex_heston_vol (h : list request) : vols_at ex_ext ex_heston h [10%Z] [atm] [1] = Ok [mk_quote (ex_day [Fin (1 / 5)]) atm 1 (Fin (1 / 5))].
Proof.
  rewrite vols_outcome, outcome_one. unfold row_of. cbn [ex_heston s_daily find d_date ex_day Z.eqb Pos.eqb]. unfold solve_smile. cbn [s_method s_deltas s_spot s_cps d_vols d_years d_rd d_rf d_conv d_F ex_heston ex_day].
  rewrite ex_rate. cbn [method_value]. rewrite C119_ex. cbn [bind]. unfold below_tolerance. cbn [f_SSE ex_fit]. destruct (Rlt_dec 0 (1 / 1000)); [|lra]. cbn [bind smile_vol].
  cbn [s_method s_deltas s_spot s_cps d_vols d_years d_rd d_rf d_conv d_F ex_heston ex_day]. rewrite ex_rate. cbn [model_price method_value ex_fit f_lambda]. rewrite ex_price by reflexivity. cbn [bind implied]. rewrite ex_implied. reflexivity.
Qed.
Lemma ex_accurate : accurate_vols 0 ex_ext.
Proof.
  intros S0 tau r q cp K X guess v H. unfold gk_solve_implied_vol, ex_ext in H. cbn [x_newton x_brent run] in H. unfold gk_error, price_gk in *. change (mk_gk [S0] [tau] [r] [q] [cp] [K] [1 / 5] None) with (scalar_gk S0 tau r q cp K (1 / 5) None) in H.
  destruct (garman_kohlhagen_price (scalar_gk S0 tau r q cp K (1 / 5) None) false false false) as [p|] eqn:E; [|discriminate]. destruct (p_price p) as [|x l] eqn:EP; [discriminate|].
  destruct x as [x| | |]; cbn [sub add neg] in H; try discriminate. destruct (Req_EM_T (x + - X) 0) as [Z|Z]; [|discriminate]. injection H as <-. rewrite E. unfold the_price. rewrite EP.
  assert (l = []) as ->.
  { unfold garman_kohlhagen_price in E. apply bind_ok in E as (p' & E & E'). injection E' as ->. unfold gk_core, scalar_gk in E. cbn -[at_expiry vec] in E. do 3 (apply bind_ok in E as (? & _ & E)). apply bind_ok in E as (X' & A & E).
    injection E as <-. cbn [p_price] in EP. subst X'. unfold at_expiry in A. cbn in A. repeat match type of A with context [Rlt_dec ?a ?b] => destruct (Rlt_dec a b); cbn in A | context [Req_EM_T ?a ?b] => destruct (Req_EM_T a b); cbn in A end; injection A; congruence. }
  exists x. split; [reflexivity|].
  replace (x - X) with 0 by lra. rewrite Rabs_R0. lra.
Qed.
Lemma ex_undefined : undefined_undefined ex_ext.
Proof. intros v H. discriminate. Qed.
Lemma ex_is_heston : heston_surface ex_heston.
Proof. intros [H|H]; discriminate. Qed.
Example C120_ex : exists f rate X y p, prices_at ex_ext ex_heston [] [10%Z] [atm] [1] = Ok ([p], [mk_quote (ex_day [Fin (1 / 5)]) atm 1 (Fin (1 / 5))]) /\
  fit_price ex_ext f 1 1 rate 0 1 atm "heston_lipton" (Some X) /\ p = Fin y /\ Rabs (y - X) <= 0.
Proof.
  destruct (gk_bounds 1 1 0 0 1 atm (1 / 5) (Some 1) (or_introl eq_refl) ltac:(lra) atm_pos ltac:(lra) ltac:(lra) ltac:(cbn; lra)) as (p & E & _).
  assert (H : prices_at ex_ext ex_heston [] [10%Z] [atm] [1] = Ok ([Fin p], [mk_quote (ex_day [Fin (1 / 5)]) atm 1 (Fin (1 / 5))])).
  { apply C117_prices. split; [apply ex_heston_vol|]. split; [cbn; lra|]. split; [repeat constructor|]. split; [intros q [<-|[]]; cbn; lra|]. constructor; [|constructor]. unfold price_of. cbn. symmetry. exact E. }
  destruct (C120_price 0 ex_ext ex_heston [] 10%Z atm 1 _ _ (1 / 5) ex_is_heston ex_accurate ex_undefined H eq_refl) as (f & rate & X & y & _ & _ & P & Q & B). exists f, rate, X, y, (Fin p). split; [exact H|]. auto.
Qed.

(* two pillars, end to end *)
Definition ex_vp (d : date) : pillar := mk_quoted (mk_pillar d [1 / 5; 1 / 5; 1 / 5]) "regular_forward".
Definition ex_market : market := fun _ => (1, 0, 0).
Lemma ex_good : good_pillars 3 (map p_vol [ex_vp 10; ex_vp 20]).
Proof. split; [repeat constructor|]. intros p [<-|[<-|[]]]; (split; [reflexivity|]); intros x [<-|[<-|[<-|[]]]]; lra. Qed.
Lemma ex_years (d : date) (t : R) : (0 <= d)%Z -> year_fraction ACT_365 0 d t -> t = IZR d / 365.
Proof.
  intros L (q & E & ->). destruct (CurveProofs.act_days_per_year ACT_365 365 0 d ltac:(auto) eq_refl L) as [(q' & E' & EQ) _]. rewrite E in E'. injection E' as <-. rewrite <- EQ, Z.sub_0_r. reflexivity.
Qed.
Lemma ex_rises : variance_rises 0 ACT_365 (map p_vol [ex_vp 10; ex_vp 20]).
Proof.
  intros p q tp tq x y (l1 & l2 & E) G F1 F2 I. destruct l1 as [|a l1]; cbn in E; [|destruct l1 as [|a' l1]; cbn in E; [discriminate|destruct l1; discriminate]].
  injection E as <- <- <-. cbn in *. apply ex_years in F1; [|lia]. apply ex_years in F2; [|lia]. subst. destruct I as [I|[I|[I|[]]]]; injection I as <- <-; unfold tv; cbn; lra.
Qed.
Definition ex_q : list (R * R) := [(- (1 / 4), -1); (1 / 2, 1); (1 / 4, 1)].
Lemma ex_strikes_pillar (t : R) : 0 < t -> exists k1 k2, solve_strike_from_delta (x_rs ex_ext) 1 t 0 0 [1 / 5; 1 / 5; 1 / 5] (map fst ex_q) "regular_forward" (Some 1) "forward" = Ok [k1; Fin (1 * exp (1 / 2 * (1 / 5 * (1 / 5)) * t)); k2].
Proof.
  intros Ht. unfold solve_strike_from_delta, all_pos. cbn [map fst ex_q forallb]. decide_R.
  assert (A : forall x, -1 / 2 <= x <= 1 / 2 -> Rabs x <= 1 / 2) by (intros x [A B]; apply Rabs_le; lra).
  repeat match goal with |- context [if Rle_dec (Rabs ?x) ?b then true else false] => destruct (Rle_dec (Rabs x) b) as [_|N]; [|destruct (N (A x ltac:(lra)))]; cbn [andb guard bind forallb] end.
  cbn [length Nat.eqb guard bind existsb String.eqb Ascii.eqb Bool.eqb orb andb combine map fst snd]. unfold regular_quote at 2. unfold is_atm. destruct (Req_EM_T (Rabs (1 / 2)) (1 / 2)) as [_|N]; [|rewrite Rabs_pos_eq in N by lra; lra]. cbn [andb]. eauto.
Qed.
Example C121_ex : exists s ks K strikes, build ex_ext 0 ACT_365 ex_market 1 UnivariateSpline ex_q [ex_vp 10; ex_vp 20] = Ok (s, ks) /\
  nth_error ks 1 = Some strikes /\ nth_error strikes 1 = Some (Fin K) /\ exists r, vols_at ex_ext s [] [20%Z] [K] [1] = Ok [mk_quote r K 1 (Fin (1 / 5))] /\ d_date r = 20%Z /\ on_market ex_market r.
Proof.
  destruct (C121_daily_rows 0 ACT_365 ex_market 3 _ _ ltac:(right; left; reflexivity) ex_good ltac:(cbn; lia) ex_rises) as (rows & _ & _ & ER & _).
  assert (EY : years_column [0%Z] (map (fun p => v_expiry (p_vol p)) [ex_vp 10; ex_vp 20]) ACT_365 (length [ex_vp 10; ex_vp 20]) = Ok [Q2R (yf1 ACT_365 0 10); Q2R (yf1 ACT_365 0 20)]) by exact (years_column_ok 0 [10; 20]%Z ACT_365 ltac:(apply strict_plain; right; left; reflexivity) ltac:(discriminate) ltac:(intros d [<-|[<-|[]]]; lia)).
  assert (PP : plain_basis ACT_365) by (apply strict_plain; right; left; reflexivity).
  assert (P1 : 0 < Q2R (yf1 ACT_365 0 10)) by (rewrite (ex_years 10 _ ltac:(lia) (year_fraction_yf1 ACT_365 0 10 PP ltac:(lia))); lra). assert (P2 : 0 < Q2R (yf1 ACT_365 0 20)) by (rewrite (ex_years 20 _ ltac:(lia) (year_fraction_yf1 ACT_365 0 20 PP ltac:(lia))); lra).
  destruct (ex_strikes_pillar _ P1) as (a1 & a2 & EA). destruct (ex_strikes_pillar _ P2) as (b1 & b2 & EB).
  assert (B : exists s ks, build ex_ext 0 ACT_365 ex_market 1 UnivariateSpline ex_q [ex_vp 10; ex_vp 20] = Ok (s, ks)).
  { unfold build. rewrite ER. cbn [bind]. unfold strike_pillars. match goal with |- context [years_column ?a ?b ?c ?d] => change (years_column a b c d) with (years_column [0%Z] (map (fun p => v_expiry (p_vol p)) [ex_vp 10; ex_vp 20]) ACT_365 (length [ex_vp 10; ex_vp 20])) end. rewrite EY. cbn [bind combine map sequence ex_market p_vol v_vols p_conv ex_vp]. rewrite EA, EB. cbn [bind]. eauto. }
  destruct B as (s & ks & B). destruct (C121_construction ex_ext 0 ACT_365 ex_market 1 UnivariateSpline ex_q 3 _ _ s ks ltac:(right; left; reflexivity) ex_good ltac:(cbn; lia) ex_rises B) as (E1 & E2 & E3 & _ & ND & _ & HR).
  destruct (HR 1%nat _ eq_refl) as (r & st & I & DD & YF & OM & EC & EV & NS & ES). cbn [p_vol v_expiry v_vols p_conv ex_vp] in *.
  assert (M : d_F r = 1 /\ d_rd r = 0 /\ d_rf r = 0) by (unfold on_market, ex_market in OM; injection OM as <- <- <-; auto). destruct M as (M1 & M2 & M3).
  rewrite DD in YF. pose proof (ex_years 20 _ ltac:(lia) YF) as EQ. assert (PT : 0 < d_years r) by (rewrite EQ; lra). destruct (ex_strikes_pillar _ PT) as (c1 & c2 & EK).
  rewrite M1, M2, M3, EK in ES. injection ES as <-.
  assert (V : exists q', vols_at ex_ext s [] [20%Z] [1] [1] = Ok [q']).
  { rewrite vols_outcome, outcome_one. rewrite <- DD. rewrite (row_of_unique s r ND I). unfold solve_smile, day_strikes. rewrite E2, E1, E3, EV, EC, M1, M2, M3. unfold quoted. rewrite all_fin_map. cbn [bind]. rewrite EK.
    cbn [bind length Nat.leb guard]. unfold ex_ext. cbn [x_univariate]. unfold flat. cbn [map forallb]. destruct (Req_EM_T (1 / 5) (1 / 5)); [|congruence]. cbn. eauto. }
  destruct V as (q' & V). eexists s, ks, _, _. split; [exact B|]. split; [exact NS|]. split; [reflexivity|].
  exact (C121_end_to_end ex_ext 0 ACT_365 ex_market 1 UnivariateSpline ex_q 3 (ex_vp 10) [ex_vp 20] s ks [] [] 1 1 (ex_vp 20) _ _ (1 / 5) 1 1 1 q' ltac:(right; left; reflexivity) ex_good ltac:(cbn; lia) ex_rises B ltac:(left; reflexivity) ex_exact eq_refl NS eq_refl eq_refl V).
Qed.
