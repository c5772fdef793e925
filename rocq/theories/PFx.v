(* Properties C46, C47, C76-C79: FX quotes, FX term structures, forward curves, currency pairs. *)
From Coq Require Import String Ascii ZArith QArith Qreals Reals Lra Lia List Bool Permutation.
From Verif Require Import Base Date BusDayModel BusDaySpec BusDayProofs TenorModel TenorSpec TenorProofs CurveModel BootModel FxModel FxSpec FxNameProofs FxProofs SmileProofs FxTermProofs.
Import ListNotations.
Open Scope string_scope.

(* ---- C46 ---- *)
(* Strategy columns disappear, given columns stay, and each missing leg is computed; nothing else is in the result. *)
Theorem C46_solved_columns : forall f rows ds atm, well_formed f rows -> strategies f ds -> In ("atm_delta_neutral", atm) f ->
  exists f', solve_call_put_quotes f = Ok f' /\ NoDup (names f') /\ forall n v, In (n, v) f' <-> solved f atm ds n v.
Proof. exact solve_ok. Qed.
Print Assumptions C46_solved_columns.

(* The computed legs are the only ones with call - put = risk reversal and (call + put)/2 - atm = butterfly. *)
Theorem C46_market_definitions : forall f rows ds atm d bf rr put call, well_formed f rows -> strategies f ds -> In ("atm_delta_neutral", atm) f -> In d ds ->
  In (d ++ "_delta_butterfly", bf) f -> In (d ++ "_delta_riskreversal", rr) f -> ~ In (d ++ "_delta_put") (names f) -> ~ In (d ++ "_delta_call") (names f) ->
  exists f', solve_call_put_quotes f = Ok f' /\ (In (d ++ "_delta_put", put) f' /\ In (d ++ "_delta_call", call) f' <-> market_pair atm bf rr put call).
Proof. exact solved_pair. Qed.
Print Assumptions C46_market_definitions.

Theorem C46_rejects : forall f, ~ In "atm_delta_neutral" (names f) \/ ~ Permutation (quoted_deltas "riskreversal" f) (quoted_deltas "butterfly" f) ->
  solve_call_put_quotes f = Err AssertionError.
Proof. exact solve_rejects. Qed.
Print Assumptions C46_rejects.

Local Lemma col_error f n e : col f n = Err e -> e = KeyError.
Proof. unfold col. destruct (find _ f); congruence. Qed.
Local Lemma add_leg_cases f name d sign : add_leg f name d sign = Err KeyError \/ exists g, add_leg f name d sign = Ok g /\ forall n, In n (names g) -> In n (names f) \/ n = name.
Proof.
  unfold add_leg. destruct (has f name); [right; exists f; auto|].
  destruct (col f "atm_delta_neutral") as [a|e] eqn:A; [|left; rewrite (col_error _ _ _ A); reflexivity]. cbn [bind].
  destruct (col f (d ++ "_delta_butterfly")) as [b|e] eqn:B; [|left; rewrite (col_error _ _ _ B); reflexivity]. cbn [bind].
  destruct (col f (d ++ "_delta_riskreversal")) as [r|e] eqn:C; [|left; rewrite (col_error _ _ _ C); reflexivity]. cbn [bind].
  right. eexists. split; [reflexivity|]. intros n I. unfold names in *. rewrite map_app in I. apply in_app_iff in I as [I|[<-|[]]]; auto.
Qed.
Local Lemma drop_cases f n : drop f n = Err KeyError /\ ~ In n (names f) \/ In n (names f) /\ exists g, drop f n = Ok g /\ forall m, In m (names g) -> In m (names f).
Proof.
  unfold drop. destruct (has f n) eqn:E; [right|left].
  - split; [apply has_iff; exact E|]. eexists. split; [reflexivity|]. intros m I. rewrite filter_names in I. apply filter_In in I. tauto.
  - split; [reflexivity|]. intros I. apply has_iff in I. congruence.
Qed.
Local Lemma solve_delta_cases f d : solve_delta f d = Err KeyError \/ In (d ++ "_delta_butterfly") (names f) /\ In (d ++ "_delta_riskreversal") (names f) /\
  exists g, solve_delta f d = Ok g /\ forall n, In n (names g) -> In n (names f) \/ n = d ++ "_delta_put" \/ n = d ++ "_delta_call".
Proof.
  unfold solve_delta. destruct (add_leg_cases f (d ++ "_delta_put") d (-1)) as [->|(f1 & -> & H1)]; [left; reflexivity|]. cbn [bind].
  destruct (add_leg_cases f1 (d ++ "_delta_call") d 1) as [->|(f2 & -> & H2)]; [left; reflexivity|]. cbn [bind].
  destruct (drop_cases f2 (d ++ "_delta_butterfly")) as [[-> _]|(B & f3 & -> & H3)]; [left; reflexivity|]. cbn [bind].
  destruct (drop_cases f3 (d ++ "_delta_riskreversal")) as [[-> _]|(R & f4 & -> & H4)]; [left; reflexivity|]. right.
  assert (G : forall n, In n (names f2) -> In n (names f) \/ n = d ++ "_delta_put" \/ n = d ++ "_delta_call").
  { intros n I. apply H2 in I as [I| ->]; [apply H1 in I as [I| ->]; auto|auto]. }
  split; [destruct (G _ B) as [I|[I|I]]; [exact I| |]; symmetry in I; [apply put_bf in I|apply call_bf in I]; contradiction|].
  split; [destruct (G _ (H3 _ R)) as [I|[I|I]]; [exact I| |]; symmetry in I; [apply put_rr in I|apply call_rr in I]; contradiction|].
  exists f4. split; [reflexivity|]. intros n I. apply G, H3, H4, I.
Qed.
(* A column that names a strategy in another form than NN_delta_butterfly or NN_delta_riskreversal passes the assertions and then is not found. *)
Theorem C46_other_names : forall f d, In "atm_delta_neutral" (names f) -> Permutation (quoted_deltas "riskreversal" f) (quoted_deltas "butterfly" f) ->
  In d (quoted_deltas "butterfly" f) -> ~ In (d ++ "_delta_butterfly") (names f) \/ ~ In (d ++ "_delta_riskreversal") (names f) -> solve_call_put_quotes f = Err KeyError.
Proof.
  intros f d A P D M. unfold solve_call_put_quotes. rewrite (proj2 (has_iff f _) A). cbn [guard bind].
  rewrite (proj2 (same_strings_iff _ _)) by (apply sorted_eq_iff; exact P). cbn [guard bind].
  assert (D' : In d (deltas_of "butterfly" f)) by (unfold deltas_of; eapply Permutation_in; [apply Permutation_sym, sorted_perm|exact D]).
  clear A P D. revert D' M. generalize (deltas_of "butterfly" f). intros ds. revert f. induction ds as [|e ds IH]; intros f [].
  - subst e. intros M. cbn [solve_deltas]. destruct (solve_delta_cases f d) as [->|(B & R & _)]; [reflexivity|tauto].
  - intros M. cbn [solve_deltas]. destruct (solve_delta_cases f e) as [->|(_ & _ & g & -> & G)]; [reflexivity|]. cbn [bind]. apply IH; [assumption|].
    destruct M as [M|M]; [left|right]; intros I; apply G in I as [I|[I|I]]; try contradiction; symmetry in I; [apply put_bf in I|apply call_bf in I|apply put_rr in I|apply call_rr in I]; exact I.
Qed.
Print Assumptions C46_other_names.
Example C46_ex_other_names : solve_call_put_quotes [("25_butterfly", [1/100]%R); ("atm_delta_neutral", [10/100]%R); ("25_delta_riskreversal", [2/100]%R)] = Err KeyError.
Proof. apply (C46_other_names _ "25"); [cbn; auto|apply Permutation_refl|cbn; auto|left; cbn; intuition discriminate]. Qed.

Definition ex_quotes : quotes :=
  [("25_delta_butterfly", [1/100]%R); ("atm_delta_neutral", [10/100]%R); ("25_delta_riskreversal", [2/100]%R); ("10_delta_put", [12/100]%R)].
Lemma ex_quotes_ok : well_formed ex_quotes 1 /\ strategies ex_quotes ["25"] /\ In ("atm_delta_neutral", [10/100]%R) ex_quotes.
Proof.
  split; [|split; [|cbn; auto]].
  - split; [repeat (constructor; [cbn; intuition discriminate|]); constructor|]. intros n v I. cbn in I. decompose [or] I; try contradiction; match goal with H : (_, _) = (_, _) |- _ => injection H as <- <-; reflexivity end.
  - split; [repeat (constructor; [cbn; tauto|]); constructor|]. split; [intros d [<-|[]]; reflexivity|].
    split; [|split].
    + intros n I C. cbn in I. decompose [or] I; try contradiction; subst n; try discriminate C; exists "25"; split; [left|]; reflexivity.
    + intros n I C. cbn in I. decompose [or] I; try contradiction; subst n; try discriminate C; exists "25"; split; [left|]; reflexivity.
    + intros d [<-|[]]. cbn. auto.
Qed.
Example C46_ex : exists f', solve_call_put_quotes ex_quotes = Ok f' /\ In ("25_delta_put", [10/100]%R) f' /\ In ("25_delta_call", [12/100]%R) f'.
Proof.
  destruct ex_quotes_ok as (W & S & A).
  destruct (C46_market_definitions ex_quotes 1 ["25"] _ "25" [1/100]%R [2/100]%R [10/100]%R [12/100]%R W S A) as (f' & E & I); try (cbn; auto; fail).
  - cbn. intuition discriminate.
  - cbn. intuition discriminate.
  - exists f'. split; [exact E|]. apply I. split; [reflexivity|]. split; [reflexivity|]. intros i L. cbn in L. assert (i = 0%nat) as -> by lia. cbn. lra.
Qed.
Example C46_ex_rejected : solve_call_put_quotes [("25_delta_butterfly", [1/100]%R); ("atm_delta_neutral", [10/100]%R); ("10_delta_riskreversal", [2/100]%R)] = Err AssertionError.
Proof. apply C46_rejects. right. cbn. intros P. apply Permutation_length_1 in P. discriminate. Qed.

(* ---- C47 ---- *)
Theorem C47_rows_and_order : forall cols, (forall c, In c cols -> FxModel.clean_name c = c) ->
  exists rows, get_delta_smile_quote_details cols = Ok rows /\ Permutation (map q_name rows) (filter is_quote cols) /\
    (forall c, In c (map q_name rows) <-> In c cols /\ exists x, smile_quote c x) /\ (forall r, In r rows -> detail_of r) /\ in_smile_order rows.
Proof. exact details_ok. Qed.
Print Assumptions C47_rows_and_order.

(* Cleaned and solved quotes always give a smile, with every call, put and at-the-money quote once. *)
Theorem C47_after_cleaning_and_solving : forall f rows ds atm, let g := clean_vol_quotes_column_names f in
  well_formed g rows -> strategies g ds -> In ("atm_delta_neutral", atm) g ->
  exists h details, solve_call_put_quotes g = Ok h /\ get_delta_smile_quote_details (names h) = Ok details /\
    NoDup (map q_name details) /\ (forall c, In c (map q_name details) <-> In c (names h) /\ exists x, smile_quote c x) /\ (forall r, In r details -> detail_of r) /\ in_smile_order details.
Proof. exact pipeline. Qed.
Print Assumptions C47_after_cleaning_and_solving.

Definition ex_columns : list string := ["10_delta_call"; "tenor"; "atm_delta_neutral"; "25_delta_put"; "25_delta_call"; "10_delta_put"].
Example C47_ex : forallb (fun c => FxModel.clean_name c =? c) ex_columns = true /\
  match get_delta_smile_quote_details ex_columns with Ok rows => map q_name rows = ["10_delta_put"; "25_delta_put"; "atm_delta_neutral"; "25_delta_call"; "10_delta_call"] | Err _ => False end.
Proof. split; vm_compute; reflexivity. Qed.
Example C47_ex_pipeline : let f := [("25 delta bf", [1/100]%R); ("at the money delta neutral", [10/100]%R); ("25 delta risk reversal", [2/100]%R); ("10deltap", [12/100]%R)] in
  clean_vol_quotes_column_names f = ex_quotes.
Proof.
  cbv zeta. unfold clean_vol_quotes_column_names. rewrite clean_all. unfold names. cbn [map fst snd combine].
  assert (E : FxModel.clean_name "25 delta bf" = "25_delta_butterfly" /\ FxModel.clean_name "at the money delta neutral" = "atm_delta_neutral" /\
    FxModel.clean_name "25 delta risk reversal" = "25_delta_riskreversal" /\ FxModel.clean_name "10deltap" = "10_delta_put") by (repeat split; vm_compute; reflexivity).
  destruct E as (-> & -> & -> & ->). reflexivity.
Qed.

(* ---- C76 ---- *)
Theorem C76_dates : forall ts dates c spot cal, wf_calendar cal -> (0 <= spot)%Z -> (forall x, In x (combine ts dates) -> datable x) ->
  exists made rows, fx_term_structure_helper (Some (map Some ts)) dates c spot cal = Ok rows /\ Forall2 (dated_row c spot cal) (combine ts dates) made /\ Permutation made rows /\ by_delivery rows.
Proof. exact helper_ok. Qed.
Print Assumptions C76_dates.

(* Everything else fails: a rate-set date alone is never usable. *)
Theorem C76_fails_otherwise : forall ts dates c spot cal, wf_calendar cal -> (0 <= spot)%Z -> (exists x, In x (combine ts dates) /\ ~ datable x) ->
  exists e, fx_term_structure_helper (Some (map Some ts)) dates c spot cal = Err e.
Proof. exact helper_fails. Qed.
Print Assumptions C76_fails_otherwise.

Theorem C76_rate_set_date_alone : forall t rs r c spot cal, fx_row_dates {| x_tenor := t; x_rate_set := Some rs; x_delivery := None |} c spot cal <> Ok r.
Proof. intros. discriminate. Qed.
Print Assumptions C76_rate_set_date_alone.

Theorem C76_tenor_column_required : forall dates c spot cal, fx_term_structure_helper None dates c spot cal = Err KeyError.
Proof. exact helper_needs_tenors. Qed.
Print Assumptions C76_tenor_column_required.

Theorem C76_every_tenor_required : forall ts dates c spot cal, In None ts -> fx_term_structure_helper (Some ts) dates c spot cal = Err TypeError.
Proof. exact helper_needs_every_tenor. Qed.
Print Assumptions C76_every_tenor_required.

Example C76_ex : fx_term_structure_helper (Some [Some "1 Month"; Some "1w"]) [(None, None); (None, None)] (mk 2024 5 31) 2 default_calendar =
  Ok [{| x_tenor := "1w"; x_rate_set := Some (mk 2024 6 7); x_delivery := Some (mk 2024 6 11) |}; {| x_tenor := "1m"; x_rate_set := Some (mk 2024 7 1); x_delivery := Some (mk 2024 7 3) |}].
Proof. vm_compute. reflexivity. Qed.

(* ---- C77 ---- *)
Theorem C77_interpolation : forall curve dates flat, NoDup (map fst curve) ->
  exists values, interp_fx_forward_curve curve dates flat = Ok values /\ Forall2 (interpolated curve flat) dates values.
Proof. exact interp_ok. Qed.
Print Assumptions C77_interpolation.

(* The description leaves no choice, so a date's value does not depend on the other requested dates. *)
Theorem C77_determined : forall curve flat d v w, NoDup (map fst curve) -> interpolated curve flat d v -> interpolated curve flat d w -> v = w.
Proof. exact interpolated_unique. Qed.
Print Assumptions C77_determined.

Theorem C77_repeated_pillar_rejected : forall curve dates flat, ~ NoDup (map fst curve) -> interp_fx_forward_curve curve dates flat = Err ValueError.
Proof. exact interp_duplicates. Qed.
Print Assumptions C77_repeated_pillar_rejected.

Example C77_ex : interpolated [(10%Z, Some 1%R); (20%Z, None); (30%Z, Some 3%R)] true 20%Z (Some (1 + (3 - 1) * (IZR (20 - 10) / IZR (30 - 10)))%R) /\
  interpolated [(10%Z, Some 1%R); (20%Z, None); (30%Z, Some 3%R)] false 40%Z None /\ NoDup (map fst [(10%Z, Some 1%R); (20%Z, None); (30%Z, Some 3%R)]).
Proof.
  split; [|split].
  - apply ip_between; [left; reflexivity|right; right; left; reflexivity|lia|]. intros x y [E|[E|[E|[]]]]; [injection E as <- _; lia|discriminate|injection E as <- _; lia].
  - apply (ip_after _ false 40%Z 30%Z 3%R); [right; right; left; reflexivity|lia|]. intros x y [E|[E|[E|[]]]]; [injection E as <- _; lia|discriminate|injection E as <- _; lia].
  - cbn. repeat (constructor; [cbn; intuition discriminate|]). constructor.
Qed.

(* ---- C78 ---- *)
Theorem C78_pair_spellings : forall base quote, currency base -> currency quote ->
  validate_ccy_pair (base ++ quote) = Ok (lower base ++ lower quote, lower quote, lower base) /\ validate_ccy_pair (base ++ "/" ++ quote) = Ok (lower base ++ lower quote, lower quote, lower base).
Proof. exact pair_ok. Qed.
Print Assumptions C78_pair_spellings.

Theorem C78_other_lengths_rejected : forall s, letters s -> String.length s <> 6%nat -> validate_ccy_pair s = Err AssertionError.
Proof. exact pair_bad. Qed.
Print Assumptions C78_other_lengths_rejected.

(* EUR/USD is treated as a premium adjusted market and NZD/EUR as a regular one. *)
Theorem C78_convention_warnings : forall pair, let premium := ["premium_adjusted_spot"; "premium_adjusted_forward"] in let regular := ["regular_spot"; "regular_forward"] in
  (forall k, In k premium -> warns_regular pair k = true <-> In pair ["audusd"; "nzdeur"; "gbpusd"; "nzdusd"]) /\ (forall k, In k regular -> warns_regular pair k = false) /\
  (forall k, In k regular -> warns_premium_adjusted pair k = true <-> contains "usd" pair = true /\ ~ In pair ["audusd"; "gbpusd"; "nzdusd"; "usdaud"; "usdeur"; "usdgbp"; "usdnzd"]) /\
  (forall k, In k premium -> warns_premium_adjusted pair k = false).
Proof. exact convention_warnings. Qed.
Print Assumptions C78_convention_warnings.

Example C78_ex : validate_ccy_pair "AUD/usd" = Ok ("audusd", "usd", "aud") /\ warns_premium_adjusted "eurusd" "regular_spot" = true /\ warns_regular "eurusd" "premium_adjusted_spot" = false.
Proof. repeat split; vm_compute; reflexivity. Qed.

(* ---- C79 ---- *)
Theorem C79_every_spelling : forall s c, spells s c -> FxModel.clean_name s = c.
Proof. exact clean_spelling. Qed.
Print Assumptions C79_every_spelling.

Theorem C79_other_names_unchanged : forall s, (forall c, ~ spells s c) -> FxModel.clean_name s = s.
Proof. exact clean_other. Qed.
Print Assumptions C79_other_names_unchanged.

Theorem C79_idempotent : forall s, FxModel.clean_name (FxModel.clean_name s) = FxModel.clean_name s.
Proof. exact clean_idempotent. Qed.
Print Assumptions C79_idempotent.

(* The columns are renamed one by one, each by its own name; the values stay with their column. *)
Theorem C79_frame : forall f, names (clean_vol_quotes_column_names f) = map FxModel.clean_name (names f) /\
  forall n v, In (n, v) (clean_vol_quotes_column_names f) <-> exists m, In (m, v) f /\ n = FxModel.clean_name m.
Proof. intros f. split; [exact (clean_columns f)|exact (clean_columns_values f)]. Qed.
Print Assumptions C79_frame.

Example C79_ex : spells "5 delta c" "5_delta_call" /\ FxModel.clean_name "5 delta c" = "5_delta_call" /\ FxModel.clean_name "50 delta call" = "50 delta call".
Proof.
  split; [|split; vm_compute; reflexivity]. exists "5 delta c". split; [left; reflexivity|]. apply (sp_side "5" 5 " " "delta" " " "c" "call").
  - split; [apply num_one; exists 5%nat; repeat split; lia|split; [cbn; lia|lia]].
  - unfold separator. auto.
  - unfold delta_word. auto.
  - unfold separator. auto.
  - left. auto.
Qed.
