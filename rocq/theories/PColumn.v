(* Properties C128-C131: names of volatility quote columns, their offsets and strikes, and settlement dates of cap/floor quotes. *)
From Coq Require Import ZArith Reals String Ascii List Bool Lra Lia.
From Verif Require Import Base Date BusDayModel BusDaySpec BusDayProofs ScheduleProofs TenorModel BootModel EnumModel CurveModel ColumnModel ColumnSpec ColumnProofs ColumnFloatProofs ColumnTextProofs ColumnReadProofs ColumnDictProofs.
Import ListNotations.
Open Scope string_scope.

(* ---- C128: which columns are quotes ---- *)
Theorem C128_search (r : regex) (s : string) : re_search r s = true <-> exists before m after, s = before ++ m ++ after /\ lang r m.
Proof. apply re_search_spec. Qed.
Theorem C128_bps_columns (s : string) : re_search bps_quote s = true <-> bps_column s.
Proof. apply bps_spec. Qed.
Theorem C128_percent_columns (s : string) : re_search percentage_quote s = true <-> percent_column s.
Proof. apply percent_spec. Qed.
Theorem C128_atm_columns (s : string) : re_search atm_quote s = true <-> atm_column s.
Proof. apply atm_spec. Qed.
(* exactly one at the money column, or an AssertionError *)
Theorem C128_one_atm (cols : list string) :
  (forall c, one_atm cols c -> standardise_atmf_quote_col_names cols = Ok [(c, "atmf")]) /\
  ((forall c, ~ one_atm cols c) -> standardise_atmf_quote_col_names cols = Err AssertionError).
Proof. split; [apply atm_ok|apply atm_err]. Qed.
(* a column is left alone iff it has neither mark *)
Theorem C128_other_columns (repr : R -> string) (c : string) : read_column repr c = Ok None <-> ~ bps_column c /\ ~ percent_column c.
Proof.
  rewrite <- bps_spec, <- percent_spec. unfold read_column. destruct (re_search bps_quote c); [destruct (quote_value _ _); cbn; split; [discriminate|intros [[] _]; reflexivity|discriminate|intros [[] _]; reflexivity]|].
  destruct (re_search percentage_quote c); [destruct (quote_value _ _); cbn; split; [discriminate|intros [_ []]; reflexivity|discriminate|intros [_ []]; reflexivity]|]. split; [intros _; split; discriminate|reflexivity].
Qed.
(* the only failures of a column, and of all of them *)
Theorem C128_refused_columns (repr : R -> string) (c : string) (e : exn) : read_column repr c = Err e <->
  e = ValueError /\ ((bps_column c /\ parse_float (bps_text c) = None) \/ (~ bps_column c /\ percent_column c /\ parse_float (percent_text c) = None)).
Proof. apply read_errors. Qed.
Theorem C128_refused_frames (repr : R -> string) (cols : list string) (e : exn) :
  (standardise_relative_quote_col_names repr cols = Err e <->
     (e = AssertionError /\ forall c, ~ one_atm cols c) \/ (e = ValueError /\ (exists c, one_atm cols c) /\ exists d, In d cols /\ read_column repr d = Err ValueError)) /\
  (standardise_absolute_quote_col_names repr cols = Err e <-> e = ValueError /\ exists d, In d cols /\ read_column repr d = Err ValueError).
Proof.
  split.
  - destruct (relative_spec repr cols) as [(c & H1 & H2 & ->)|[(c & H1 & H2 & ->)|(H1 & ->)]]; split.
    + discriminate.
    + intros [[_ H]|(_ & _ & d & Hd & E)]; [destruct (H c H1)|destruct (H2 d Hd) as [q Q]; rewrite Q in E; discriminate].
    + intros E. injection E as <-. right. split; [reflexivity|]. split; [exists c; exact H1|exact H2].
    + intros [[_ H]|(-> & _)]; [destruct (H c H1)|reflexivity].
    + intros E. injection E as <-. left. auto.
    + intros [[-> _]|(_ & [c H] & _)]; [reflexivity|destruct (H1 c H)].
  - unfold standardise_absolute_quote_col_names. destruct (read_columns_spec repr cols [] []) as [[H1 ->]|[H1 ->]]; split.
    + discriminate.
    + intros (_ & d & Hd & E). destruct (H1 d Hd) as [q Q]. rewrite Q in E. discriminate.
    + intros E. injection E as <-. auto.
    + intros [-> _]. reflexivity.
Qed.
(* "ATM+50bps", the documented way of writing a relative quote, is refused, alone or beside an ATM column *)
Theorem C128_documented_labels_refused (repr : R -> string) (cols : list string) (c : string) : In c cols -> atm_column c -> bps_column c \/ percent_column c ->
  read_column repr c = Err ValueError /\
  standardise_relative_quote_col_names repr cols = Err (if List.existsb (fun d => re_search atm_quote d && negb (String.eqb d c)) cols then AssertionError else ValueError).
Proof.
  intros Hc Ha Hq. assert (E : read_column repr c = Err ValueError) by (destruct (atm_not_number c Ha) as [H|H]; (eapply refuses_char; [exact H|cbn; intros K; repeat destruct K as [K|K]; discriminate || contradiction|reflexivity|exact Hq])).
  split; [exact E|]. apply (proj1 (C128_refused_frames repr cols _)). destruct (List.existsb _ cols) eqn:X.
  - left. split; [reflexivity|]. apply existsb_exists in X as (d & Hd & K). apply andb_true_iff in K as [K1 K2]. apply atm_spec in K1. intros x (_ & _ & U). rewrite (U d Hd K1), (U c Hc Ha), String.eqb_refl in K2. discriminate.
  - right. split; [reflexivity|]. split; [|exists c; auto]. exists c. split; [exact Hc|]. split; [exact Ha|]. intros d Hd Ad. destruct (String.eqb d c) eqn:Q; [apply String.eqb_eq, Q|]. exfalso. apply atm_spec in Ad.
    assert (Y : List.existsb (fun d => re_search atm_quote d && negb (String.eqb d c)) cols = true) by (apply existsb_exists; exists d; split; [exact Hd|]; rewrite Ad, Q; reflexivity). congruence.
Qed.
(* the search ignores case, the removal of the mark does not *)
Theorem C128_capital_mark_refused (repr : R -> string) (c : string) : bps_column c -> has_char "B" c -> read_column repr c = Err ValueError.
Proof. intros H B. apply (refuses_char repr c "B" B); [cbn; intros K; repeat destruct K as [K|K]; discriminate || contradiction|reflexivity|auto]. Qed.

(* ---- C129: the offset of a quote ---- *)
Open Scope R_scope.
Theorem C129_nearest (x : R) : nearest_double x (rn x).
Proof. apply rn_nearest. Qed.
Theorem C129_bps_value (repr : R -> string) (b : bool) (m : Z) (k : nat) (c : string) : bps_label b m k c -> (k <= 4)%nat -> Rabs (decimal_value b m k) <= 10 ^ 11 ->
  exists name v, read_column repr c = Ok (Some (name, v)) /\ nearest_double (decimal_value b m k / 10000) v.
Proof. intros H K B. do 2 eexists. split; [apply read_bps; eassumption|apply rn_nearest]. Qed.
Theorem C129_percent_value (repr : R -> string) (b : bool) (m : Z) (k : nat) (c : string) : percent_label b m k c -> (k <= 6)%nat -> Rabs (decimal_value b m k) <= 10 ^ 9 ->
  exists name v, read_column repr c = Ok (Some (name, v)) /\ nearest_double (decimal_value b m k / 100) v.
Proof. intros H K B. do 2 eexists. split; [apply read_percent; eassumption|apply rn_nearest]. Qed.
(* quotes in either unit for the same rate have the same offset *)
Theorem C129_same_offset (repr : R -> string) (b b' : bool) (m m' : Z) (k k' : nat) (c c' n n' : string) (v v' : R) :
  bps_label b m k c -> percent_label b' m' k' c' -> (k <= 4)%nat -> (k' <= 6)%nat -> Rabs (decimal_value b m k) <= 10 ^ 11 -> decimal_value b m k = 100 * decimal_value b' m' k' ->
  read_column repr c = Ok (Some (n, v)) -> read_column repr c' = Ok (Some (n', v')) -> v = v'.
Proof.
  intros H H' K K' B E R1 R2. assert (B' : Rabs (decimal_value b' m' k') <= 10 ^ 9) by (rewrite E, Rabs_mult, (Rabs_pos_eq 100) in B by lra; lra).
  rewrite (read_bps repr b m k c H K B) in R1. rewrite (read_percent repr b' m' k' c' H' K' B') in R2. injection R1 as _ <-. injection R2 as _ <-. f_equal. rewrite E. field.
Qed.

(* ---- C130: names and dictionaries ---- *)
(* an integer quote is named by its number, cut towards zero by one when the multiplication lands short *)
Theorem C130_integer_name (repr : R -> string) (b : bool) (m : Z) (k : nat) (c name : string) (v : R) (n : Z) : decimal_value b m k = IZR n -> (Z.abs n <= 10000000)%Z -> read_column repr c = Ok (Some (name, v)) ->
  (bps_label b m k c -> (k <= 4)%nat -> name = (show (cut n (rn (v * 10000))) ++ "bps")%string) /\
  (percent_label b m k c -> (k <= 6)%nat -> name = (show (cut n (rn (v * 100))) ++ "bps")%string).
Proof.
  intros V B E. assert (Bn : Rabs (decimal_value b m k) <= 10 ^ 7) by (rewrite V, <- abs_IZR; change 10 with (IZR 10); rewrite pow_IZR; apply IZR_le; exact B). split; intros H K.
  - rewrite (read_bps repr b m k c H K) in E by lra. injection E as <- <-. rewrite V. apply name_of_integer; [lra|exact B].
  - rewrite (read_percent repr b m k c H K) in E by lra. injection E as <- <-. rewrite V. apply name_of_integer; [lra|exact B].
Qed.
(* it is its own number when the stored offset is not short of the exact one *)
Theorem C130_name_exact (repr : R -> string) (b : bool) (m : Z) (k : nat) (c name : string) (v : R) (n : Z) : bps_label b m k c -> (k <= 4)%nat -> decimal_value b m k = IZR n -> (Z.abs n <= 10000000)%Z ->
  read_column repr c = Ok (Some (name, v)) -> Rabs (IZR n / 10000) <= Rabs v -> name = (show n ++ "bps")%string.
Proof.
  intros H K V B E L. rewrite (proj1 (C130_integer_name repr b m k c name v n V B E) H K). unfold cut. rewrite (read_bps repr b m k c H K) in E by (rewrite V, <- abs_IZR; change 10 with (IZR 10); rewrite pow_IZR; apply IZR_le; lia).
  injection E as _ <-. rewrite V in *. destruct (Rle_dec _ _) as [Q|Q]; [reflexivity|]. exfalso. apply Q. apply name_right; [lra|exact B|exact L].
Qed.
(* a quote of three basis points is named 2bps *)
Theorem C130_three_is_two (repr : R -> string) (b : bool) (m : Z) (k : nat) (c : string) : bps_label b m k c -> (k <= 4)%nat -> decimal_value b m k = 3 -> read_column repr c = Ok (Some ("2bps", rn (3 / 10000))).
Proof.
  intros H K V. rewrite (read_bps repr b m k c H K) by (rewrite V, Rabs_pos_eq; lra). rewrite V. change 3 with (IZR 3). rewrite (name_of_integer repr 10000 3) by (lra || lia). cbv zeta. destruct (Rle_dec _ _) as [Q|Q]; [|reflexivity].
  exfalso. pose proof three_bps as T. assert (P : 0 <= rn (rn (IZR 3 / 10000) * 10000)) by (rewrite <- (rn_int 0) by lia; apply rn_le; apply Rmult_le_pos; [rewrite <- (rn_int 0) by lia; apply rn_le; lra|lra]). rewrite Rabs_pos_eq in Q by exact P. cbn in Q. lra.
Qed.
(* other quotes are named by str of the number, in basis points or per cent *)
Theorem C130_fraction_name (repr : R -> string) (b : bool) (m : Z) (k : nat) (c name : string) (v : R) : (forall z, decimal_value b m k <> IZR z) -> Rabs (decimal_value b m k) <= 10 ^ 7 -> read_column repr c = Ok (Some (name, v)) ->
  (bps_label b m k c -> (k <= 4)%nat -> name = (repr (rn (decimal_value b m k)) ++ "bps")%string) /\
  (percent_label b m k c -> (k <= 6)%nat -> name = (repr (rn (decimal_value b m k)) ++ "bps")%string).
Proof.
  intros V B E. assert (W : (k <= 8)%nat -> exists N, decimal_value b m k = IZR N / 10 ^ 8) by (intros K; destruct (eight_places b m k 8 K) as [N Q]; exists N; rewrite <- Q; field). split; intros H K.
  - rewrite (read_bps repr b m k c H K) in E by lra. injection E as <- _. destruct W as [N Q]; [lia|]. apply (name_of_fraction repr 10000 _ N); [lra|exact B|exact Q|exact V].
  - rewrite (read_percent repr b m k c H K) in E by lra. injection E as <- _. destruct W as [N Q]; [lia|]. apply (name_of_fraction repr 100 _ N); [lra|exact B|exact Q|exact V].
Qed.
(* two basis point quotes share a name only if they are equal or neighbouring integers *)
Theorem C130_shared_names (repr : R -> string) (b b' : bool) (m m' : Z) (k k' : nat) (c c' name : string) (v v' : R) : faithful_repr repr ->
  bps_label b m k c -> bps_label b' m' k' c' -> (k <= 4)%nat -> (k' <= 4)%nat -> Rabs (decimal_value b m k) <= 10 ^ 7 -> Rabs (decimal_value b' m' k') <= 10 ^ 7 ->
  read_column repr c = Ok (Some (name, v)) -> read_column repr c' = Ok (Some (name, v')) ->
  decimal_value b m k = decimal_value b' m' k' \/ (is_integral (decimal_value b m k) /\ is_integral (decimal_value b' m' k') /\ Rabs (decimal_value b m k - decimal_value b' m' k') = 1).
Proof.
  intros [Ri Rn] H H' K K' B B' E E'.
  assert (Num : forall b m k c v, bps_label b m k c -> (k <= 4)%nat -> Rabs (decimal_value b m k) <= 10 ^ 7 -> read_column repr c = Ok (Some (name, v)) ->
    (exists n, decimal_value b m k = IZR n /\ v = rn (IZR n / 10000) /\ name = (show (cut n (rn (v * 10000))) ++ "bps")%string) \/ (~ is_integral (decimal_value b m k) /\ name = (repr (rn (decimal_value b m k)) ++ "bps")%string)).
  { clear -repr. intros b m k c v H K B E. destruct (Classical_Prop.classic (is_integral (decimal_value b m k))) as [[n V]|N].
    - left. exists n. split; [exact V|]. split; [rewrite (read_bps repr b m k c H K) in E by lra; injection E as _ <-; rewrite V; reflexivity|]. apply (proj1 (C130_integer_name repr b m k c name v n V ltac:(rewrite V, <- abs_IZR in B; change 10 with (IZR 10) in B; rewrite pow_IZR in B; apply le_IZR in B; exact B) E) H K).
    - right. split; [exact N|]. apply (proj1 (C130_fraction_name repr b m k c name v ltac:(intros z Hz; apply N; exists z; exact Hz) B E) H K). }
  assert (One : forall n v, v = rn (IZR n / 10000) -> (Z.abs n = 1)%Z -> cut n (rn (v * 10000)) = n).
  { clear. intros n v -> A. unfold cut. destruct (Rle_dec _ _) as [Q|Q]; [reflexivity|]. exfalso. apply Q. rewrite A. assert (n = 1 \/ n = Z.opp 1)%Z as [-> | ->] by lia.
    - eapply Rle_trans; [exact one_bps|apply Rle_abs].
    - replace (IZR (Z.opp 1) / 10000) with (- (IZR 1 / 10000)) by (rewrite opp_IZR; field). rewrite rn_opp. replace (- rn (IZR 1 / 10000) * 10000) with (- (rn (IZR 1 / 10000) * 10000)) by ring. rewrite rn_opp, Rabs_Ropp. eapply Rle_trans; [exact one_bps|apply Rle_abs]. }
  destruct (Num b m k c v H K B E) as [(n & V & Ev & N)|[V N]], (Num b' m' k' c' v' H' K' B' E') as [(n' & V' & Ev' & N')|[V' N']]; rewrite N in N'; apply app_right_inj in N'.
  - apply show_inj in N'. rewrite V, V'. destruct (Z.eq_dec n n') as [->|Ne]; [left; reflexivity|]. right. split; [exists n; reflexivity|]. split; [exists n'; reflexivity|]. rewrite <- minus_IZR, <- abs_IZR. apply (f_equal IZR).
    pose proof (One n v Ev) as O1. pose proof (One n' v' Ev') as O2.
    assert (C1 : cut n (rn (v * 10000)) = n \/ cut n (rn (v * 10000)) = (n - Z.sgn n)%Z) by (unfold cut; destruct (Rle_dec _ _); auto).
    assert (C2 : cut n' (rn (v' * 10000)) = n' \/ cut n' (rn (v' * 10000)) = (n' - Z.sgn n')%Z) by (unfold cut; destruct (Rle_dec _ _); auto).
    destruct (Z.eq_dec (Z.abs n) 1) as [A1|A1], (Z.eq_dec (Z.abs n') 1) as [A2|A2]; try specialize (O1 A1); try specialize (O2 A2); lia.
  - exfalso. apply (Rn (rn (decimal_value b' m' k')) (cut n (rn (v * 10000)))); [apply not_integral_rn; [lia|exact B'|exact V']|symmetry; exact N'].
  - exfalso. apply (Rn (rn (decimal_value b m k)) (cut n' (rn (v' * 10000)))); [apply not_integral_rn; [lia|exact B|exact V]|exact N'].
  - left. apply Ri in N'; [|apply rn_double|apply rn_double]. destruct (eight_places b m k 8 ltac:(lia)) as [N1 Q1], (eight_places b' m' k' 8 ltac:(lia)) as [N2 Q2].
    assert (D1 : decimal_value b m k = IZR N1 / 10 ^ 8) by (rewrite <- Q1; field). assert (D2 : decimal_value b' m' k' = IZR N2 / 10 ^ 8) by (rewrite <- Q2; field). rewrite D1, D2 in *. rewrite (rn_apart N1 N2); auto.
Qed.
(* the dictionaries: each column has its own name; a name has the offset of the last column with it *)
Open Scope string_scope.
Theorem C130_relative (repr : R -> string) (cols : list string) (u : list (string * string)) (o : list (string * R)) : standardise_relative_quote_col_names repr cols = Ok (u, o) ->
  exists atm, one_atm cols atm /\
    (forall c n, dict_get c u = Some n <-> (In c cols /\ exists v, read_column repr c = Ok (Some (n, v))) \/ (c = atm /\ n = "atmf")) /\
    (forall n v, dict_get n o = Some v <-> (n = "atmf" /\ v = 0%R) \/ last_for n (quotes repr cols) = Some v) /\
    NoDup (map fst u) /\ map fst o = firsts [] ("atmf" :: map fst (quotes repr cols)).
Proof.
  intros E. destruct (relative_spec repr cols) as [(a & H1 & H2 & Q)|[(a & _ & _ & Q)|(_ & Q)]]; rewrite Q in E; try discriminate. injection E as <- <-. exists a. split; [exact H1|]. destruct H1 as (Ia & Aa & Ua).
  assert (Na : read_column repr a = Ok None).
  { destruct (H2 a Ia) as [[q|] Hq]; [|exact Hq]. exfalso. assert (M : bps_column a \/ percent_column a) by (destruct (Classical_Prop.classic (bps_column a)); [auto|]; destruct (Classical_Prop.classic (percent_column a)); [auto|]; rewrite (proj2 (C128_other_columns repr a)) in Hq by auto; discriminate).
    destruct (C128_documented_labels_refused repr cols a Ia Aa M) as [K _]. rewrite K in Hq. discriminate. }
  split; [|split; [|split]].
  - intros c n. rewrite sets_get. cbn [dict_get]. destruct (last_for c (renames repr cols)) as [w|] eqn:L.
    + pose proof (proj1 (renames_get repr cols c w) L) as (Ic & v & Hv). split; [intros K; injection K as <-; left; split; [exact Ic|exists v; exact Hv]|]. intros [(_ & v' & Hv')|[-> ->]]; [rewrite Hv in Hv'; congruence|rewrite Na in Hv; discriminate].
    + split; [destruct (String.eqb c a) eqn:K; [apply String.eqb_eq in K; intros J; injection J as <-; auto|discriminate]|]. intros [H|[-> ->]]; [apply renames_get in H; rewrite H in L; discriminate|]. rewrite String.eqb_refl. reflexivity.
  - intros n v. rewrite sets_get. cbn [dict_get]. destruct (last_for n (quotes repr cols)) as [w|] eqn:L.
    + split; [auto|]. intros [[-> ->]|H]; [|exact H]. exfalso. assert (I : In ("atmf", w) (quotes repr cols)) by (apply last_for_in, L). apply quotes_in in I as (c & _ & Hc). apply read_name in Hc as [x Hx]. symmetry in Hx. revert Hx. apply bps_not_atmf.
    + split; [destruct (String.eqb n "atmf") eqn:K; [apply String.eqb_eq in K; intros J; injection J as <-; auto|discriminate]|]. intros [[-> ->]|H]; [reflexivity|discriminate].
  - rewrite sets_keys. cbn. constructor; [|apply firsts_nodup]. intros K. apply firsts_out in K as [K _]. apply K. left. reflexivity.
  - rewrite sets_keys. reflexivity.
Qed.
Theorem C130_absolute (repr : R -> string) (cols : list string) (u : list (string * string)) (o : list (string * R)) : standardise_absolute_quote_col_names repr cols = Ok (u, o) ->
  (forall c n, dict_get c u = Some n <-> In c cols /\ exists v, read_column repr c = Ok (Some (n, v))) /\
  (forall n v, dict_get n o = Some v <-> last_for n (quotes repr cols) = Some v) /\
  NoDup (map fst u) /\ map fst o = firsts [] (map fst (quotes repr cols)).
Proof.
  unfold standardise_absolute_quote_col_names. intros E. destruct (read_columns_spec repr cols [] []) as [[H1 Q]|[_ Q]]; rewrite Q in E; [|discriminate]. injection E as <- <-. split; [|split; [|split]].
  - intros c n. rewrite sets_get. rewrite <- renames_get. cbn. destruct (last_for c (renames repr cols)); reflexivity.
  - intros n v. rewrite sets_get. cbn. destruct (last_for n (quotes repr cols)); reflexivity.
  - rewrite sets_keys. apply firsts_nodup.
  - rewrite sets_keys. reflexivity.
Qed.
(* of columns with one name, the offset of the last one counts for all *)
Theorem C130_last_column_wins (repr : R -> string) (before after : list string) (c n : string) (v : R) (u : list (string * string)) (o : list (string * R)) :
  read_column repr c = Ok (Some (n, v)) -> (forall d w, In d after -> read_column repr d <> Ok (Some (n, w))) ->
  standardise_relative_quote_col_names repr (before ++ c :: after) = Ok (u, o) ->
  dict_get n o = Some v /\ forall d w, In d before -> read_column repr d = Ok (Some (n, w)) -> dict_get d u = Some n.
Proof.
  intros Hc Ha E. destruct (C130_relative repr _ u o E) as (a & _ & Hu & Ho & _). split.
  - apply Ho. right. unfold quotes. rewrite flat_map_app. cbn [flat_map]. rewrite Hc. apply last_for_last. intros w Hw. apply quotes_in in Hw as (d & Hd & Q). apply (Ha d w Hd Q).
  - intros d w Hd Q. apply Hu. left. split; [apply in_or_app; left; exact Hd|exists w; exact Q].
Qed.

(* ---- C131: settlement dates; the old quote processing never returns ---- *)
Open Scope Z_scope.
Theorem C131_nothing_given (curve_date : date) (c : calendar) : settlement_date_helper curve_date None None c = Err ValueError.
Proof. reflexivity. Qed.
Theorem C131_delay (curve_date : date) (n : Z) (c : calendar) : wf_calendar c -> 0 <= n ->
  exists first e, first_on_or_after c curve_date first /\ settlement_date_helper curve_date None (Some n) c = Ok e /\ business_day c e /\ curve_date <= e /\ business_days_between c first e = Z.to_nat n.
Proof.
  intros W N. destruct (workday_count c curve_date n W N) as (s & e & F & E & B & L & K). destruct (following_ok c curve_date W) as (r & F' & S). rewrite F in F'. injection F' as <-. exists s, e. split; [exact S|]. split; [exact E|]. split; [exact B|]. split; [|exact K]. destruct S as (_ & S & _). lia.
Qed.
Theorem C131_negative_delay (curve_date : date) (n : Z) (c : calendar) : wf_calendar c ->
  exists first e, first_on_or_after c curve_date first /\ settlement_date_helper curve_date None (Some n) c = Ok e /\ busday_offset c e (- n) Following = Ok first.
Proof.
  intros W. destruct (busday_offset_inverse c curve_date n Following Following W) as (s & e & F & E & B); [discriminate|discriminate|]. destruct (following_ok c curve_date W) as (r & F' & S). change (following c curve_date = Ok s) in F. rewrite F in F'. injection F' as <-. exists s, e. auto.
Qed.
Theorem C131_date_given (curve_date d : date) (c : calendar) :
  settlement_date_helper curve_date (Some d) None c = (if curve_date <=? d then Ok d else Err AssertionError).
Proof. cbn. destruct (curve_date <=? d); reflexivity. Qed.
(* with a delay as well the date is not checked at all *)
Theorem C131_both_given (curve_date d : date) (n : Z) (c : calendar) : settlement_date_helper curve_date (Some d) (Some n) c = Ok d.
Proof. reflexivity. Qed.
Theorem C131_capfloor_never_returns {A} (curve_date : date) (sd : option date) (delay : option Z) (c : calendar) (frames : date -> result unit) :
  (forall v : A, process_capfloor_quotes curve_date sd delay c frames <> Ok v) /\
  (forall d, sd = Some d -> frames d = Ok tt -> @process_capfloor_quotes A curve_date sd delay c frames = Err TypeError).
Proof.
  unfold process_capfloor_quotes. split.
  - intros v. destruct (match sd with None => _ | Some d => _ end); cbn; [|discriminate]. destruct (frames _); discriminate.
  - intros d -> F. cbn. rewrite F. reflexivity.
Qed.

Definition all_theorems := (@C128_search, @C128_bps_columns, @C128_percent_columns, @C128_atm_columns, @C128_one_atm, @C128_other_columns, @C128_refused_columns, @C128_refused_frames, @C128_documented_labels_refused, @C128_capital_mark_refused,
  @C129_nearest, @C129_bps_value, @C129_percent_value, @C129_same_offset,
  @C130_integer_name, @C130_name_exact, @C130_three_is_two, @C130_fraction_name, @C130_shared_names, @C130_relative, @C130_absolute, @C130_last_column_wins,
  @C131_nothing_given, @C131_delay, @C131_negative_delay, @C131_date_given, @C131_both_given, @C131_capfloor_never_returns).
Print Assumptions all_theorems.

(* ---- cases that meet the hypotheses ---- *)
Example ex_labels : bps_label false 25 0 "+25 bps" /\ bps_label true 125 1 "-12.5bp" /\ percent_label false 275 2 "2.75 %".
Proof.
  split; [|split].
  - split; [exists "+2", "5"%char, " ", "bp", "s"; repeat split; right; exists " "%char; split; reflexivity|]. exists "+25 ", "bps". split; [reflexivity|]. split; [auto|]. exists "+", "25", "". repeat split; try discriminate; [right; reflexivity|right; split; reflexivity].
  - split; [exists "-12.", "5"%char, "", "bp", ""; repeat split; left; reflexivity|]. exists "-12.5", "bp". split; [reflexivity|]. split; [auto|]. exists "-", "12", "5". repeat split; try discriminate. left. reflexivity.
  - split; [exists "2.7", "5"%char, " ", "%", ""; repeat split; right; exists " "%char; split; reflexivity|]. exists "2.75 ". split; [reflexivity|]. exists "", "2", "75". repeat split; try discriminate; [left; reflexivity|left; reflexivity].
Qed.
Example ex_search : re_search atm_quote "At the Money Fwd" = true /\ re_search atm_quote "treatment" = true /\ re_search bps_quote "10 BPS" = true /\ re_search percentage_quote "tenor" = false.
Proof. repeat split; vm_compute; reflexivity. Qed.
Example ex_documented : forall repr, standardise_relative_quote_col_names repr ["tenor"; "ATM"; "ATM+50bps"] = Err AssertionError /\ standardise_relative_quote_col_names repr ["tenor"; "ATM+50bps"] = Err ValueError.
Proof. intros repr. split; vm_compute; reflexivity. Qed.
Lemma ex_label (d : ascii) : is_digit d = true -> bps_label false (digit_value d) 0 (String d "bps").
Proof.
  intros H. split; [exists "", d, "", "bp", "s"; repeat split; [exact H|left; reflexivity]|]. exists (String d ""), "bps". split; [reflexivity|]. split; [auto|]. exists "", (String d ""), "". 
  assert (N : Ascii.eqb d " " = false) by (destruct (Ascii.eqb d " ") eqn:E; [apply Ascii.eqb_eq in E as ->; discriminate H|reflexivity]).
  repeat split; try discriminate; [left; reflexivity|cbn; rewrite H; reflexivity|]. right. split; [reflexivity|]. unfold without_spaces. cbn. rewrite N. reflexivity.
Qed.
(* the offset of three basis points under the name 2bps takes the place of that of two *)
Example ex_two_and_three : forall repr, exists u o, standardise_relative_quote_col_names repr ["ATM"; "2bps"; "3bps"] = Ok (u, o) /\
  dict_get "2bps" u = Some "2bps" /\ dict_get "3bps" u = Some "2bps" /\ map fst o = ["atmf"; "2bps"] /\ dict_get "2bps" o = Some (rn (3 / 10000)).
Proof.
  intros repr. assert (H3 : read_column repr "3bps" = Ok (Some ("2bps", rn (3 / 10000)))) by (apply (C130_three_is_two repr false 3 0); [apply (ex_label "3"); reflexivity|lia|unfold decimal_value; cbn; lra]).
  assert (H2 : exists v, read_column repr "2bps" = Ok (Some ("2bps", v))).
  { assert (V : decimal_value false 2 0 = 2%R) by (unfold decimal_value; cbn; lra). destruct (C129_bps_value repr false 2 0 "2bps") as (n & v & E & Q); [apply (ex_label "2"); reflexivity|lia|rewrite V, Rabs_pos_eq; lra|]. exists v. rewrite E. do 3 f_equal.
    apply (C130_name_exact repr false 2 0 "2bps" n v 2); [apply (ex_label "2"); reflexivity|lia|exact V|lia|exact E|]. rewrite (read_bps repr false 2 0) in E; [|apply (ex_label "2"); reflexivity|lia|rewrite V, Rabs_pos_eq; lra]. injection E as _ <-. rewrite V.
    apply two_bps. }
  assert (HA : read_column repr "ATM" = Ok None) by (vm_compute; reflexivity). destruct H2 as [v2 H2].
  unfold standardise_relative_quote_col_names. change (standardise_atmf_quote_col_names ["ATM"; "2bps"; "3bps"]) with (@Ok (list (string * string)) [("ATM", "atmf")]). cbn [bind read_columns]. rewrite HA. cbn [bind]. rewrite H2. cbn [bind]. rewrite H3. cbn [bind]. do 2 eexists. repeat split.
Qed.
Example ex_settlement : settlement_date_helper 0 (Some (-3)) (Some 2) default_calendar = Ok (-3) /\ settlement_date_helper 0 (Some (-3)) None default_calendar = Err AssertionError /\ exists e, settlement_date_helper 738000 None (Some 2) default_calendar = Ok e /\ 738000 < e.
Proof. repeat split. eexists. split; [vm_compute; reflexivity|lia]. Qed.
(* no digit before the point *)
Example ex_leading_point : bps_label true 5 1 "-.5bp".
Proof. split; [exists "-.", "5"%char, "", "bp", ""; repeat split; left; reflexivity|]. exists "-.5", "bp". split; [reflexivity|]. split; [auto|]. exists "-", "", "5". repeat split; try discriminate. left. reflexivity. Qed.
