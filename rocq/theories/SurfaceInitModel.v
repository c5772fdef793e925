(* The opening of an FX volatility surface: currencies, dates, forward curve and spot rate.
   frm/term_structures/fx_volatility_surface.py:68-90 and frm/term_structures/fx_helpers.py:66-82. *)
From Coq Require Import String ZArith Reals List Bool.
From Verif Require Import Base Date BusDayModel TenorModel CurveModel BootModel FxModel.
Import ListNotations.
Open Scope string_scope.

(* the columns tenor, (fixing_date, delivery_date) and fx_forward_rate of the frame of forwards; None: no such column, or a missing cell *)
Record forward_frame : Type := { ff_tenors : option (list (option string)); ff_dates : list (option date * option date); ff_rates : option (list (option R)) }.

(* fx_helpers.py:66-82. convert_column_to_consistent_data_type (line 71) leaves a frame with columns of the right type as it is and is not modelled.
   The rows are those of fx_term_structure_helper, each with its rate; sort_values (line 61 there) moves whole rows. *)
Definition fx_forward_curve_helper (f : forward_frame) (curve_date : date) (spot_offset : Z) (cal : calendar) : result (list (fx_row * option R)) :=
  let* rates := match ff_rates f with Some l => Ok l | None => Err AssertionError end in (* L73-75 *)
  let* ts := match ff_tenors f with Some l => Ok l | None => Err KeyError end in
  let* ts := sequence (map (fun t => match t with Some s => Ok (clean_tenor s) | None => Err TypeError end) ts) in
  let* rows := sequence (map (fun x => fx_row_dates {| x_tenor := fst x; x_rate_set := fst (snd x); x_delivery := snd (snd x) |} curve_date spot_offset cal) (combine ts (ff_dates f))) in
  Ok (sort_by (fun x => delivery_key (fst x)) (combine rows rates)).

Record opened : Type := { o_pair : string; o_domestic : string; o_foreign : string; o_curve_date : date; o_spot_offset : Z; o_spot_date : date;
  o_forwards : list (fx_row * option R); o_spot_rate : option R }.

(* fx_volatility_surface.py:72-90. [cal]: the calendar given, or that of get_busdaycal([domestic, foreign]), which is in BusDayModel.
   [domestic_date] and [foreign_date]: the curve dates of the two zero curves. *)
Definition open_surface (foreign domestic : string) (cal : calendar) (curve_date : option date) (spot_offset : option Z) (spot_date : option date)
    (domestic_date foreign_date : date) (f : forward_frame) : result opened :=
  let* p := validate_ccy_pair (foreign ++ domestic) in (* L72 *)
  let '(ccys, dom, fgn) := p in
  let* d := resolve_fx_curve_dates ccys cal curve_date spot_offset spot_date in (* L77-81 *)
  let '(c, off, s) := d in
  let* _ := guard (c =? domestic_date)%Z AssertionError in (* L82 *)
  let* _ := guard (c =? foreign_date)%Z AssertionError in (* L83 *)
  let* k := match off with Some k => Ok k | None => Err TypeError end in
  let* rows := fx_forward_curve_helper f c k cal in (* L85-88 *)
  match find (fun x => String.eqb (x_tenor (fst x)) "sp") rows with (* L89-90 *)
  | Some x => Ok {| o_pair := ccys; o_domestic := dom; o_foreign := fgn; o_curve_date := c; o_spot_offset := k; o_spot_date := s; o_forwards := rows; o_spot_rate := snd x |}
  | None => Err IndexError
  end.
