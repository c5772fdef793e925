(* The pillar frame of an FX volatility surface.
   frm/term_structures/fx_volatility_surface.py:115-131 (_setup_vol_smile_pillar_df). *)
From Coq Require Import String ZArith QArith Qreals Reals List Bool.
From Verif Require Import Base Date BusDayModel DayCountModel TenorModel ScheduleModel CurveModel BootModel FxModel PillarModel.
Import ListNotations.

(* One row: tenor, expiry and delivery date, with the cells Q of its quotes; then the year fraction to the expiry and the rates of L125.
   [dates]: the columns (expiry_date, delivery_date). A row given with a delivery date has an expiry too: a missing expiry (NaT) is outside the model.
   The warnings of check_delta_convention (L118) are in FxModel. *)
Definition setup_pillars {Q : Type} (tenors : option (list (option string))) (dates : list (option date * option date)) (quotes : list Q) (curve_date : date) (spot_offset : Z) (cal : calendar) (b : basis)
    (forwards : list (date * option R)) (domestic foreign : zero_curve) : result (list ((fx_row * Q) * (R * (option R * (option R * option R))))) :=
  let* ts := match tenors with Some l => Ok l | None => Err KeyError end in (* L119-123: fx_helpers.py:18-63 *)
  let* ts := sequence (map (fun t => match t with Some s => Ok (clean_tenor s) | None => Err TypeError end) ts) in
  let* rows := sequence (map (fun x => fx_row_dates {| x_tenor := fst x; x_rate_set := fst (snd x); x_delivery := snd (snd x) |} curve_date spot_offset cal) (combine ts dates)) in
  let rows := sort_by (fun x => delivery_key (fst x)) (combine rows quotes) in
  let* expiries := sequence (map (fun x => match x_rate_set (fst x) with Some e => Ok e | None => Err ValueError end) rows) in
  let* years := year_frac [curve_date] expiries b None in (* L124 *)
  let* rates := add_fx_ir forwards domestic foreign expiries in (* L125 *)
  Ok (combine rows (combine (map Q2R (out_list (length expiries) years)) rates)).
