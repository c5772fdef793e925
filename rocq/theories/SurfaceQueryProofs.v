From Coq Require Import String ZArith QArith Qreals Reals List Bool Lra Lia Sorted.
From Verif Require Import Base Date DayCountModel CurveSpec BootModel BootSpec BootProofs NormalModel NormalProofs BlackModel BlackSpec BlackProofs GkModel GkSpec GkProofs GkVecProofs GkStrikeProofs SabrModel ChfModel CosModel
  VolModel VolSpec VolProofs SurfaceModel SurfaceSpec SurfaceProofs SurfaceSplineProofs SurfaceHestonProofs.
Import ListNotations.
Open Scope list_scope.
Open Scope R_scope.

(* ---- Heston queries ---- *)
Lemma basis_rate_fin (S0 tau rf F r : R) : 0 < S0 -> 0 < tau -> basis_rate S0 tau rf F = Fin r -> 0 < F /\ r = ln (F / S0) / tau + rf /\ S0 * exp ((r - rf) * tau) = F.
Proof.
  intros HS Ht. unfold basis_rate. rewrite div_fin by lra. intros H.
  assert (HF : 0 < F / S0). { destruct (Rlt_dec 0 (F / S0)) as [|N]; [assumption|]. exfalso. unfold nlog in H. destruct (Rlt_dec 0 (F / S0)); [contradiction|]. destruct (Req_EM_T (F / S0) 0); cbn in H.
    - destruct (Rlt_dec tau 0); discriminate.
    - discriminate. }
  assert (P : 0 < F). { replace F with (F / S0 * S0) by (field; lra). apply Rmult_lt_0_compat; assumption. }
  unfold nlog in H. destruct (Rlt_dec 0 (F / S0)); [|contradiction]. rewrite div_fin in H by lra. cbn [add] in H. injection H as <-. split; [exact P|]. split; [reflexivity|].
  replace ((ln (F / S0) / tau + rf - rf) * tau) with (ln (F / S0)) by (field; lra). rewrite exp_ln by exact HF. field. lra.
Qed.

Lemma heston_query (ext : externals) (s : surface) (h : list request) (d : date) (K cp : R) (q : quote) : heston_surface s -> vols_at ext s h [d] [K] [cp] = Ok [q] ->
  let r := q_day q in
  exists (f : fit) (rate e : R) (X : option R), 0 < s_spot s /\ 0 < d_years r /\ 0 < d_F r /\ rate = ln (d_F r / s_spot s) / d_years r + d_rf r /\ s_spot s * exp ((rate - d_rf r) * d_years r) = d_F r /\
    heston_calibrate ext (d_vols r) (s_deltas s) (s_spot s) rate (d_rf r) (d_years r) (s_cps s) (d_conv r) (method_value (s_method s)) = Ok (Some f) /\
    f_SSE f = Fin e /\ e < 1 / 1000 /\ fit_price ext f (s_spot s) (d_years r) rate (d_rf r) cp K (method_value (s_method s)) X /\
    match X with
    | Some x => gk_solve_implied_vol (s_spot s) (d_years r) rate (d_rf r) cp K x (x_newton ext (sqrt (f_var0 f))) (x_brent ext) = Ok (q_vol q)
    | None => x_undefined ext = Ok (q_vol q)
    end.
Proof.
  intros HH H. cbv zeta. rewrite vols_outcome, outcome_one in H. destruct (row_of s d) as [r|]; [|discriminate]. apply bind_ok in H as (f & EF & H). apply bind_ok in H as (v & EV & H).
  injection H as <-. cbn [q_day q_vol].
  assert (C : exists rate g, basis_rate (s_spot s) (d_years r) (d_rf r) (d_F r) = Fin rate /\ f = Params g /\ below_tolerance (f_SSE g) = true /\
     heston_calibrate ext (d_vols r) (s_deltas s) (s_spot s) rate (d_rf r) (d_years r) (s_cps s) (d_conv r) (method_value (s_method s)) = Ok (Some g)).
  { unfold heston_surface, spline_surface in HH. unfold solve_smile in EF. destruct (s_method s); try (destruct HH; tauto);
      (destruct (basis_rate _ _ _ _) as [rate| | |]; try discriminate; apply bind_ok in EF as (o & EO & EF); destruct o as [g|]; [|discriminate];
       destruct (below_tolerance (f_SSE g)) eqn:B; [|discriminate]; injection EF as <-; exists rate, g; auto). }
  destruct C as (rate & g & BR & -> & BT & HC).
  assert (V : 0 < s_spot s /\ 0 < d_years r).
  { unfold heston_calibrate in HC. apply bind_ok in HC as ([] & A & HC). apply bind_ok in HC as ([] & B & _). apply guard_ok in A. apply guard_ok in B.
    destruct (Rlt_dec 0 (s_spot s)); [|discriminate]. destruct (Rlt_dec 0 (d_years r)); [|discriminate]. auto. }
  destruct V as [HS Ht]. destruct (basis_rate_fin _ _ _ _ _ HS Ht BR) as (HF & ER & EQ).
  destruct (calibrate_report _ _ _ _ _ _ _ _ _ _ _ HC) as (_ & _ & _ & _ & _ & _ & _ & _ & _ & _ & _ & _ & _ & NP & NN & _).
  assert (S : exists e, f_SSE g = Fin e /\ e < 1 / 1000).
  { unfold below_tolerance in BT. destruct (f_SSE g) as [e| | |]; try discriminate; [|congruence]. destruct (Rlt_dec e (1 / 1000)); [eauto|discriminate]. }
  destruct S as (e & ES & HE). cbn [smile_vol] in EV. rewrite BR in EV. apply bind_ok in EV as (X & EX & EV). cbn [model_price] in EX. apply bind_ok in EX as (l & EX & HL). destruct l as [|x rest]; [discriminate|]. injection HL as ->.
  exists g, rate, e, X. repeat (split; [assumption|]). split; [exists rest; exact EX|]. destruct X; exact EV.
Qed.

Lemma method_value_pricing (s : surface) : heston_surface s -> pricing_method (method_value (s_method s)).
Proof. unfold heston_surface, spline_surface, pricing_method. destruct (s_method s); cbn; tauto. Qed.

(* every quote is fitted within 3.2 points of volatility *)
Lemma heston_quotes (ext : externals) (s : surface) (h : list request) (d : date) (K cp : R) (q : quote) : heston_surface s -> length (s_cps s) = length (s_deltas s) -> vols_at ext s h [d] [K] [cp] = Ok [q] ->
  let r := q_day q in
  exists (f : fit) (rate : R) (vols ivs : list R) (strikes : list num), s_spot s * exp ((rate - d_rf r) * d_years r) = d_F r /\ d_vols r = map Fin vols /\ length ivs = length vols /\
    heston_calibrate ext (d_vols r) (s_deltas s) (s_spot s) rate (d_rf r) (d_years r) (s_cps s) (d_conv r) (method_value (s_method s)) = Ok (Some f) /\
    solve_strike_from_delta (x_rs ext) (s_spot s) (d_years r) rate (d_rf r) vols (s_deltas s) (d_conv r) None "forward" = Ok strikes /\
    forall (i : nat) (c k v iv : R), nth_error (s_cps s) i = Some c -> nth_error strikes i = Some (Fin k) -> nth_error vols i = Some v -> nth_error ivs i = Some iv ->
      Rabs (v - iv) < 4 / 125 /\ exists x, fit_price ext f (s_spot s) (d_years r) rate (d_rf r) c k (method_value (s_method s)) x /\ reported_vol ext (s_spot s) (d_years r) rate (d_rf r) c k v x (Fin iv).
Proof.
  intros HH LC H. cbv zeta. destruct (heston_query ext s h d K cp q HH H) as (f & rate & e & X & HS & Ht & HF & _ & EQ & HC & ES & HE & _).
  destruct (calibrate_report _ _ _ _ _ _ _ _ _ _ _ HC) as (vols & strikes & v0 & EV & EK & _ & _ & _ & _ & _ & _ & _ & _ & _ & _ & Q).
  assert (LV : length (s_cps s) = length vols). { apply solver_length in EK as ((_ & _ & _ & _ & L & _) & _). congruence. }
  destruct (Q LV) as [[LI QF] SS]. apply (proj1 (SS e)) in ES as (ivs & EI & EE).
  exists f, rate, vols, ivs, strikes. split; [exact EQ|]. split; [exact EV|]. split; [rewrite EI, map_length in LI; exact LI|]. split; [exact HC|]. split; [exact EK|].
  intros i c k v iv Hc Hk Hv Hi. split.
  - assert (I : In (v, iv) (combine vols ivs)).
    { clear -Hv Hi. revert ivs i Hv Hi. induction vols as [|a t IH]; intros [|b u] [|i] Hv Hi; cbn in *; try discriminate; [left; congruence|right; eauto]. }
    apply squares_bound in I. rewrite <- EE in I. destruct (Rlt_dec (Rabs (v - iv)) (4 / 125)) as [|N]; [assumption|]. exfalso.
    assert (B : (4 / 125) ^ 2 <= (v - iv) ^ 2). { rewrite <- (pow2_abs (v - iv)). apply pow_incr. lra. } lra.
  - destruct (QF i c k v Hc Hk Hv) as (x & iv' & P & N & V). rewrite EI in N. rewrite (map_nth_error Fin _ _ Hi) in N. injection N as <-. eauto.
Qed.

Lemma heston_price_surface (eps : R) (ext : externals) (s : surface) (h : list request) (d : date) (K cp : R) (p : num) (q : quote) (v : R) :
  heston_surface s -> accurate_vols eps ext -> undefined_undefined ext -> prices_at ext s h [d] [K] [cp] = Ok ([p], [q]) -> q_vol q = Fin v ->
  let r := q_day q in
  exists (f : fit) (rate X y : R), s_spot s * exp ((rate - d_rf r) * d_years r) = d_F r /\
    heston_calibrate ext (d_vols r) (s_deltas s) (s_spot s) rate (d_rf r) (d_years r) (s_cps s) (d_conv r) (method_value (s_method s)) = Ok (Some f) /\
    fit_price ext f (s_spot s) (d_years r) rate (d_rf r) cp K (method_value (s_method s)) (Some X) /\ p = Fin y /\ Rabs (y - X) <= eps.
Proof.
  intros HH AC UU H EV. cbv zeta. apply prices in H as (HV & HS & HC & HR & HP). 
  destruct (heston_query ext s h d K cp q HH HV) as (f & rate & e & X & _ & Ht & HF & ER & EQ & HCal & _ & _ & FP & EX).
  destruct X as [x|]; [|rewrite EV in EX; destruct (UU v EX)]. rewrite EV in EX. destruct (AC _ _ _ _ _ _ _ _ _ EX) as (y & PY & AY).
  apply row_content in HV as (_ & _ & QK & QC). assert (PO : price_of s q p) by (inversion HP; assumption). unfold price_of in PO. rewrite EV in PO. rewrite QK, QC in PO.
  exists f, rate, x, y. split; [exact EQ|]. split; [exact HCal|]. split; [exact FP|]. split; [|exact AY].
  rewrite PO. unfold price_gk. rewrite gk_forward_or_rate; [rewrite <- ER; exact PY|assumption|assumption| |assumption]. rewrite Forall_forall in HC. apply HC. left. reflexivity.
Qed.

Lemma regular_strikes_agree (rs : root_finder) (S tau rd r rf F : R) (vols deltas : list R) (conv : string) : 0 < F -> S * exp ((r - rf) * tau) = F ->
  conv = "regular_spot"%string \/ conv = "regular_forward"%string ->
  solve_strike_from_delta rs S tau r rf vols deltas conv None "forward" = solve_strike_from_delta rs S tau rd rf vols deltas conv (Some F) "forward".
Proof.
  intros HF E C. unfold solve_strike_from_delta. destruct (guard _ _); [|reflexivity]. cbn [bind]. destruct (guard _ _); [|reflexivity]. cbn [bind]. destruct (guard _ _); [|reflexivity]. cbn [bind].
  destruct (guard _ _); [|reflexivity]. cbn [bind]. destruct (guard _ _); [|reflexivity]. cbn [bind].
  assert (A : all_pos [F] = true) by (unfold all_pos; cbn; destruct (Rlt_dec 0 F); [reflexivity|lra]). rewrite A. cbn [guard bind]. rewrite E. destruct C as [-> | ->]; reflexivity.
Qed.

Lemma vol_unique (S tau rd rf cp K v w : R) (F : option R) : call_or_put cp -> 0 < S -> 0 < K -> 0 < tau -> 0 < v -> 0 < w -> good_forward F ->
  price_gk S tau rd rf cp K v F = price_gk S tau rd rf cp K w F -> v = w.
Proof.
  intros HC HS HK Ht Hv Hw HF E. destruct (Rtotal_order v w) as [L|[L|L]]; [|exact L|].
  - destruct (gk_vol_mono S tau rd rf cp K v w F HC HS HK Ht Hv L HF) as (a & b & A & B & AB). rewrite A, B in E. injection E as E. lra.
  - destruct (gk_vol_mono S tau rd rf cp K w v F HC HS HK Ht Hw L HF) as (a & b & A & B & AB). rewrite A, B in E. injection E as E. lra.
Qed.

Lemma heston_at_quote (ext : externals) (s : surface) (h : list request) (d : date) (cp k v w : R) (i : nat) (q : quote) (vols : list R) (strikes : list num) (rate : R) :
  heston_surface s -> length (s_cps s) = length (s_deltas s) -> accurate_vols 0 ext -> undefined_undefined ext ->
  vols_at ext s h [d] [k] [cp] = Ok [q] -> let r := q_day q in
  d_vols r = map Fin vols -> s_spot s * exp ((rate - d_rf r) * d_years r) = d_F r ->
  solve_strike_from_delta (x_rs ext) (s_spot s) (d_years r) rate (d_rf r) vols (s_deltas s) (d_conv r) None "forward" = Ok strikes ->
  nth_error (s_cps s) i = Some cp -> nth_error strikes i = Some (Fin k) -> nth_error vols i = Some v -> q_vol q = Fin w -> 0 < k -> 0 < w ->
  (forall f, heston_calibrate ext (d_vols r) (s_deltas s) (s_spot s) rate (d_rf r) (d_years r) (s_cps s) (d_conv r) (method_value (s_method s)) = Ok (Some f) -> exists iv, nth_error (f_IV f) i = Some (Fin iv) /\ 0 < iv) ->
  Rabs (v - w) < 4 / 125.
Proof.
  intros HH LC AC UU HV r EV EQ EK Hc Hk Hv Hw Pk Pw IVP. subst r.
  destruct (heston_query ext s h d k cp q HH HV) as (f & rate1 & e & X & HS & Ht & HF & ER & EQ1 & HCal & ES & HE & FP & EX).
  assert (RR : rate = rate1).
  { assert (Q : exp ((rate - d_rf (q_day q)) * d_years (q_day q)) = exp ((rate1 - d_rf (q_day q)) * d_years (q_day q))) by (apply (Rmult_eq_reg_l (s_spot s)); lra).
    apply exp_inv in Q. apply Rmult_eq_reg_r in Q; lra. }
  clear ER EQ1. subst rate1. rewrite Hw in EX. destruct X as [y|]; [|destruct (UU w EX)]. destruct (AC _ _ _ _ _ _ _ _ _ EX) as (y' & PY & AY).
  assert (y' = y). { destruct (Req_dec y' y) as [|N]; [assumption|]. assert (0 < Rabs (y' - y)) by (apply Rabs_pos_lt; lra). lra. } subst y'.
  assert (CP : call_or_put cp).
  { unfold heston_calibrate in HCal. apply bind_ok in HCal as ([] & _ & HCal). apply bind_ok in HCal as ([] & _ & HCal). apply bind_ok in HCal as ([] & A & _). apply guard_ok in A.
    rewrite forallb_forall in A. specialize (A cp (nth_error_In _ _ Hc)). apply is_cp_flag_ok in A. exact A. }
  destruct (IVP f HCal) as (iv & NI & PI).
  destruct (calibrate_report _ _ _ _ _ _ _ _ _ _ _ HCal) as (vols' & strikes' & v0 & EV' & EK' & _ & _ & _ & _ & _ & _ & _ & _ & _ & _ & Q).
  assert (vols' = vols). { rewrite EV in EV'. clear -EV'. revert vols' EV'. induction vols as [|a t IH]; intros [|b u] E; cbn in E; try discriminate; [reflexivity|]. injection E as -> E. f_equal. symmetry. symmetry. auto. }
  subst vols'. rewrite EK in EK'. injection EK' as <-.
  assert (LV : length (s_cps s) = length vols). { apply solver_length in EK as ((_ & _ & _ & _ & L & _) & _). congruence. }
  destruct (Q LV) as [[LI QF] SS]. apply (proj1 (SS e)) in ES as (ivs & EI & EE).
  destruct (QF i cp k v Hc Hk Hv) as (y2 & iv2 & P2 & N2 & V2). rewrite NI in N2. injection N2 as <-.
  destruct FP as (r1 & FP). destruct P2 as (r2 & P2). rewrite FP in P2. injection P2 as <- _. cbn [reported_vol] in V2.
  assert (PY0 : 0 < y). { destruct (gk_bounds (s_spot s) (d_years (q_day q)) rate (d_rf (q_day q)) cp k w None CP HS Pk Ht Pw I) as (z & EZ & BZ & _). rewrite PY in EZ. injection EZ as <-.
    pose proof (Rmax_l 0 (cp * (s_spot s * exp (- d_rf (q_day q) * d_years (q_day q)) - k * dom_df (s_spot s) (d_years (q_day q)) rate (d_rf (q_day q)) None))). lra. }
  destruct (AC _ _ _ _ _ _ _ _ _ (proj2 V2 ltac:(lra))) as (y3 & PY3 & AY3).
  assert (y3 = y). { destruct (Req_dec y3 y) as [|N]; [assumption|]. assert (0 < Rabs (y3 - y)) by (apply Rabs_pos_lt; lra). lra. } subst y3.
  assert (iv = w). { apply (vol_unique (s_spot s) (d_years (q_day q)) rate (d_rf (q_day q)) cp k iv w None CP HS Pk Ht PI Pw I). congruence. } subst iv.
  rewrite EI in NI. assert (HI : nth_error ivs i = Some w). { rewrite nth_error_map in NI. destruct (nth_error ivs i); cbn in NI; [congruence|discriminate]. }
  assert (II : In (v, w) (combine vols ivs)).
  { clear -Hv HI. revert ivs i Hv HI. induction vols as [|a t IH]; intros [|b u] [|i] Hv Hi; cbn in *; try discriminate; [left; congruence|right; eauto]. }
  apply squares_bound in II. rewrite <- EE in II. destruct (Rlt_dec (Rabs (v - w)) (4 / 125)) as [|N]; [assumption|]. exfalso.
  assert (B : (4 / 125) ^ 2 <= (v - w) ^ 2). { rewrite <- (pow2_abs (v - w)). apply pow_incr. lra. } lra.
Qed.
