(* Properties C12-C17: tenor strings and FX date resolution. *)
From Coq Require Import ZArith String Ascii List Bool Lia.
From Verif Require Import Base Date DateProofs BusDayModel BusDaySpec BusDayProofs TenorModel TenorSpec TenorProofs.
Import ListNotations.
Open Scope string_scope.
Open Scope Z_scope.

Theorem C12_cleaning_ignores_case_and_separators : forall s t, tenor_equiv s t -> clean_tenor s = clean_tenor t.
Proof. exact clean_equiv. Qed.
Print Assumptions C12_cleaning_ignores_case_and_separators.

Example C12_ex : tenor_equiv "1 M" "1m" /\ clean_tenor "1 M" = "1m".
Proof.
  split; [|reflexivity]. apply te_trans with "1M".
  - apply te_sym. apply (te_insert "1" "M" " "). unfold ignored. auto.
  - apply (te_case "1" "" "M" "m"). exists 12%nat. repeat split; lia.
Qed.

(* Acceptance and rejection of the whole grammar, with the meaning in days and months. *)
Theorem C13_tenor_grammar : forall s a b,
  tenor_to_date_offset s = Ok {| off_days := a; off_months := b |} <-> tenor_means s a b.
Proof. exact tenor_accepts_iff. Qed.
Print Assumptions C13_tenor_grammar.

Theorem C13_everything_else_rejected : forall s,
  (exists a b, tenor_means s a b) \/ tenor_to_date_offset s = Err ValueError.
Proof. exact tenor_dichotomy. Qed.
Print Assumptions C13_everything_else_rejected.

Example C13_ex : tenor_to_date_offset "10y18m" = Ok {| off_days := 0; off_months := 138 |} /\
  tenor_to_date_offset "0052w" = Ok {| off_days := 364; off_months := 0 |} /\
  tenor_to_date_offset "1m2d" = Err ValueError /\ tenor_to_date_offset "3M" = Err ValueError /\
  tenor_to_date_offset (String.append "3d" (String newline "")) = Err ValueError.
Proof. vm_compute. auto. Qed.

Theorem C14_cleaning_stable_on_tenors : forall s a b, tenor_means s a b -> clean_tenor s = s.
Proof. exact clean_recognised. Qed.
Print Assumptions C14_cleaning_stable_on_tenors.

Theorem C14_recognised_after_cleaning_is_stable : forall s o,
  tenor_to_date_offset (clean_tenor s) = Ok o -> clean_tenor (clean_tenor s) = clean_tenor s.
Proof. exact clean_recognised_twice. Qed.
Print Assumptions C14_recognised_after_cleaning_is_stable.

(* Unit words and names are understood. *)
Theorem C14_unit_words : forall s n w k, numeral s n -> In (w, k) unit_words -> clean_tenor (s ++ w) = s ++ k.
Proof. exact clean_word. Qed.
Print Assumptions C14_unit_words.

Theorem C14_years_and_months_words : forall s n t m wy wm, numeral s n -> numeral t m -> In (wy, "y") unit_words -> In (wm, "m") unit_words ->
  clean_tenor (s ++ wy ++ t ++ wm) = s ++ "y" ++ t ++ "m".
Proof. exact clean_years_months_words. Qed.
Print Assumptions C14_years_and_months_words.

Theorem C14_names : forall w k, In (w, k) tenor_names -> clean_tenor w = k.
Proof. exact clean_name. Qed.
Print Assumptions C14_names.

Theorem C14_idempotent_refuted : exists s, clean_tenor (clean_tenor s) <> clean_tenor s.
Proof. exists "monthonth". vm_compute. discriminate. Qed.
Print Assumptions C14_idempotent_refuted.

Example C14_ex : clean_tenor "1 Year / 6 Months" = "1y6m" /\
  tenor_to_date_offset (clean_tenor "1 Year / 6 Months") = Ok {| off_days := 0; off_months := 18 |}.
Proof. vm_compute. auto. Qed.

(* Curve date given: the spot date is lag business days after the (rolled) curve date. *)
Theorem C15_spot_from_curve_date : forall pair c cd o, wf_calendar c -> String.length pair = 6%nat ->
  exists lag sd s, get_fx_spot_day_offset pair = Some lag /\ (lag = 1 \/ lag = 2) /\
    resolve_fx_curve_dates pair c (Some cd) o None = Ok (cd, Some lag, sd) /\
    first_on_or_after c cd s /\ business_day c sd /\ s < sd /\ Z.of_nat (business_days_between c s sd) = lag.
Proof. exact resolve_curve_only. Qed.
Print Assumptions C15_spot_from_curve_date.

(* Spot date given: the curve date is the business day from which lag business days lead to the (rolled) spot date. *)
Theorem C15_curve_from_spot_date : forall pair c sd o, wf_calendar c -> String.length pair = 6%nat ->
  exists lag cd s, get_fx_spot_day_offset pair = Some lag /\
    resolve_fx_curve_dates pair c None o (Some sd) = Ok (cd, Some lag, sd) /\
    last_on_or_before c sd s /\ business_day c cd /\ busday_offset c cd lag Following = Ok s.
Proof. exact resolve_spot_only. Qed.
Print Assumptions C15_curve_from_spot_date.

Theorem C15_round_trip : forall pair c cd o o' lag sd, wf_calendar c -> business_day c cd ->
  resolve_fx_curve_dates pair c (Some cd) o None = Ok (cd, Some lag, sd) ->
  resolve_fx_curve_dates pair c None o' (Some sd) = Ok (cd, Some lag, sd).
Proof. exact resolve_roundtrip. Qed.
Print Assumptions C15_round_trip.

(* The user's offset has no influence when one date is given; with both dates and an offset the call fails. *)
Theorem C15_supplied_offset_ignored : forall pair c cd sd o o',
  resolve_fx_curve_dates pair c (Some cd) o None = resolve_fx_curve_dates pair c (Some cd) o' None /\
  resolve_fx_curve_dates pair c None o (Some sd) = resolve_fx_curve_dates pair c None o' (Some sd).
Proof. exact resolve_offset_ignored. Qed.
Print Assumptions C15_supplied_offset_ignored.

Theorem C15_all_three_fails : forall pair c cd o sd,
  resolve_fx_curve_dates pair c (Some cd) (Some o) (Some sd) = Err TypeError.
Proof. exact resolve_all_three. Qed.
Print Assumptions C15_all_three_fails.

Theorem C15_no_dates_fails : forall pair c o, resolve_fx_curve_dates pair c None o None = Err AttributeError.
Proof. exact resolve_no_dates. Qed.
Print Assumptions C15_no_dates_fails.

(* A pair that is not six characters long has no lag: either date alone fails. *)
Theorem C15_other_pair_fails : forall pair c o d, String.length pair <> 6%nat ->
  resolve_fx_curve_dates pair c (Some d) o None = Err TypeError /\ resolve_fx_curve_dates pair c None o (Some d) = Err TypeError.
Proof.
  intros pair c o d H. apply Nat.eqb_neq in H. unfold resolve_fx_curve_dates, get_fx_spot_day_offset. rewrite H. destruct o; split; reflexivity.
Qed.
Print Assumptions C15_other_pair_fails.

Example C15_ex : resolve_fx_curve_dates "audusd" default_calendar (Some (mk 2024 5 31)) (Some 1) None
    = Ok (mk 2024 5 31, Some 2, mk 2024 6 4) /\ business_day default_calendar (mk 2024 5 31) /\ wf_calendar default_calendar.
Proof.
  split; [vm_compute; reflexivity|]. split; [apply is_busday_iff; vm_compute; reflexivity | exact wf_default].
Qed.

(* The implied offset is 0 whenever it is returned; the usual case (offset date later) fails. *)
Theorem C16_implied_offset : forall d o c,
  calc_implied_business_day_offset d o c = if o <=? d then Ok 0 else Err AssertionError.
Proof. exact implied_spec. Qed.
Print Assumptions C16_implied_offset.

(* The consistency check passes for the offset 0 of a date on or before the date only: the real offset of a later date is refused. *)
Theorem C16_check_offset : forall d o n c,
  check_day_offset_consistency d o n c = if o <=? d then (if n =? 0 then Ok tt else Err ValueError) else Err AssertionError.
Proof. intros d o n c. unfold check_day_offset_consistency. rewrite implied_spec. destruct (o <=? d); cbn [bind]; [|reflexivity]. destruct n; reflexivity. Qed.
Print Assumptions C16_check_offset.

Theorem C16_both_dates : forall pair c cd sd,
  resolve_fx_curve_dates pair c (Some cd) None (Some sd) = if sd <=? cd then Ok (cd, Some 0, sd) else Err AssertionError.
Proof. exact resolve_both_dates. Qed.
Print Assumptions C16_both_dates.

(* Hence a correctly computed spot date is never recognised by its implied offset. *)
Theorem C16_recovers_lag_refuted : exists pair c cd lag sd, wf_calendar c /\ business_day c cd /\
  resolve_fx_curve_dates pair c (Some cd) None None = Ok (cd, Some lag, sd) /\
  resolve_fx_curve_dates pair c (Some cd) None (Some sd) = Err AssertionError.
Proof.
  exists "eurusd", default_calendar, (mk 2024 5 31), 2, (mk 2024 6 4).
  split; [exact wf_default|]. split; [apply is_busday_iff; vm_compute; reflexivity|]. vm_compute. auto.
Qed.
Print Assumptions C16_recovers_lag_refuted.

Example C16_ex : calc_implied_business_day_offset (mk 2024 6 4) (mk 2024 5 31) default_calendar = Ok 0.
Proof. vm_compute. reflexivity. Qed.

Theorem C17_spot_lag_symmetric : forall a b, String.length a = 3%nat -> String.length b = 3%nat ->
  get_fx_spot_day_offset (a ++ b) = get_fx_spot_day_offset (b ++ a).
Proof. exact spot_offset_swap. Qed.
Print Assumptions C17_spot_lag_symmetric.

Theorem C17_spot_lag_one_or_two : forall pair, String.length pair = 6%nat ->
  get_fx_spot_day_offset pair = Some 1 \/ get_fx_spot_day_offset pair = Some 2.
Proof. exact spot_offset_six. Qed.
Print Assumptions C17_spot_lag_one_or_two.

(* The rate settlement lag is two days for every currency but sterling, which must be spelt in lower case. *)
Theorem C17_ir_settlement : forall ccy, get_ir_settlement_offset ccy = if String.eqb ccy "gbp" then 0 else 2.
Proof.
  intros ccy. unfold get_ir_settlement_offset. cbn [existsb].
  destruct (String.eqb_spec ccy "usd") as [->|]; [reflexivity|]. destruct (String.eqb_spec ccy "cad") as [->|]; [reflexivity|].
  destruct (String.eqb_spec ccy "aud") as [->|]; [reflexivity|]. destruct (String.eqb_spec ccy "nzd") as [->|]; [reflexivity|].
  destruct (String.eqb_spec ccy "jpy") as [->|]; [reflexivity|]. destruct (String.eqb_spec ccy "eur") as [->|]; [reflexivity|].
  cbn [orb]. destruct (String.eqb ccy "gbp"); reflexivity.
Qed.
Print Assumptions C17_ir_settlement.

Example C17_ex : get_fx_spot_day_offset ("usd" ++ "try") = Some 1 /\ get_fx_spot_day_offset "eurusd" = Some 2.
Proof. vm_compute. auto. Qed.
Example C17_ex_settlement : get_ir_settlement_offset "gbp" = 0 /\ get_ir_settlement_offset "GBP" = 2 /\ get_ir_settlement_offset "chf" = 2.
Proof. vm_compute. auto. Qed.
