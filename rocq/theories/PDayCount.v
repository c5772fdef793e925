(* Properties C01-C07: day counts and year fractions. *)
From Coq Require Import ZArith QArith List Bool Lia.
From Verif Require Import Base Date DateProofs DayCountModel DayCountSpec DayCountProofs.
Import ListNotations.
Open Scope Z_scope.

(* The integers used as dates are exactly the civil dates. *)
Theorem C01_dates_are_civil_dates : forall n : date,
  exists c, civil_valid c /\ of_civil c = n /\ forall c', civil_valid c' -> of_civil c' = n -> c' = c.
Proof.
  exact (fun n => match civil_of_date n with
    | ex_intro _ c (conj V E) => ex_intro _ c (conj V (conj E
        (fun c' V' E' => of_civil_inj c' c V' V (eq_trans E' (eq_sym E))))) end).
Qed.
Print Assumptions C01_dates_are_civil_dates.

(* n calendar days later is a count of n. *)
Theorem C01_act_counts_calendar_days : forall c n bs f, civil_valid c -> is_act bs ->
  day_count [of_civil c] [of_civil (days_later n c)] bs f = Ok (Scalar (Z.of_nat n)).
Proof. exact act_counts_civil. Qed.
Print Assumptions C01_act_counts_calendar_days.

Example C01_ex : civil_valid {| cy := 2023; cm := 12; cd := 30 |} /\ is_act ACT_365 /\
  days_later 62 {| cy := 2023; cm := 12; cd := 30 |} = {| cy := 2024; cm := 3; cd := 1 |}.
Proof. split; [vm_compute; intuition discriminate|]. split; [unfold is_act; auto | reflexivity]. Qed.

Theorem C01_act_additive : forall a b c bs f, is_act bs -> a <= b <= c ->
  exists x y, day_count [a] [b] bs f = Ok (Scalar x) /\ day_count [b] [c] bs f = Ok (Scalar y) /\
    day_count [a] [c] bs f = Ok (Scalar (x + y)) /\ 0 <= x /\ 0 <= y.
Proof. exact act_additive. Qed.
Print Assumptions C01_act_additive.

Example C01_additive_ex : is_act ACT_ACT /\ mk 2023 2 28 <= mk 2024 2 29 <= mk 2100 3 1.
Proof. split; [unfold is_act; auto | vm_compute; intuition discriminate]. Qed.

(* A reversed pair anywhere rejects the call, whatever the basis (even an invalid one). *)
Theorem C01_reversed_rejected : forall s e b f, length s = length e -> bad_pair s e ->
  day_count s e b f = Err AssertionError.
Proof. exact day_count_reversed. Qed.
Print Assumptions C01_reversed_rejected.

Example C01_reversed_ex : bad_pair [mk 2024 1 1; mk 2024 5 2] [mk 2024 2 1; mk 2024 5 1].
Proof. exists 1%nat, (mk 2024 5 2), (mk 2024 5 1). repeat split. Qed.

(* ACT/ACT gives every calendar day the weight 1/(length of its year). *)
Theorem C02_act_act_is_daily_sum : forall a b f, a <= b ->
  exists q, year_frac [a] [b] ACT_ACT f = Ok (Scalar q) /\ (q == days_in_years a (Z.to_nat (b - a)))%Q.
Proof. exact act_act_sum. Qed.
Print Assumptions C02_act_act_is_daily_sum.

Theorem C02_act_act_additive_increasing : forall a b c f, a <= b <= c ->
  exists x y z, year_frac [a] [b] ACT_ACT f = Ok (Scalar x) /\ year_frac [b] [c] ACT_ACT f = Ok (Scalar y) /\
    year_frac [a] [c] ACT_ACT f = Ok (Scalar z) /\ (x + y == z)%Q /\ (a < b -> (0 < x)%Q) /\ (a = b -> (x == 0)%Q).
Proof. exact act_act_props. Qed.
Print Assumptions C02_act_act_additive_increasing.

Theorem C02_act_act_new_years : forall y z f, y <= z ->
  exists q, year_frac [mk y 1 1] [mk z 1 1] ACT_ACT f = Ok (Scalar q) /\ (q == inject_Z (z - y))%Q.
Proof. exact act_act_new_year. Qed.
Print Assumptions C02_act_act_new_years.

Example C02_ex : exists q, year_frac [mk 2023 12 30] [mk 2024 3 1] ACT_ACT None = Ok (Scalar q) /\ (q == (2 # 365) + (60 # 366))%Q.
Proof. eexists. split; [vm_compute; reflexivity | vm_compute; reflexivity]. Qed.

Theorem C03_30E_360_additive : forall a b c f, a <= b <= c ->
  exists x y, day_count [a] [b] B30E_360 f = Ok (Scalar x) /\ day_count [b] [c] B30E_360 f = Ok (Scalar y) /\
    day_count [a] [c] B30E_360 f = Ok (Scalar (x + y)) /\ 0 <= x /\ 0 <= y.
Proof. exact dc30E_additive. Qed.
Print Assumptions C03_30E_360_additive.

Theorem C03_30E_360_full_months : forall y m k f, 1 <= m <= 12 -> 0 <= k ->
  day_count [mk y m 1] [add_months (mk y m 1) k] B30E_360 f = Ok (Scalar (30 * k)).
Proof. exact dc30E_full_months. Qed.
Print Assumptions C03_30E_360_full_months.

Example C03_ex : day_count [mk 2024 1 31] [mk 2024 2 29] B30E_360 None = Ok (Scalar 29) /\
  day_count [mk 2024 2 29] [mk 2024 3 31] B30E_360 None = Ok (Scalar 31) /\
  day_count [mk 2024 1 31] [mk 2024 3 31] B30E_360 None = Ok (Scalar 60).
Proof. vm_compute. auto. Qed.

(* Splitting a 30/360 period at b changes the total by exactly these end-of-month terms. *)
Theorem C04_30_360_split : forall a b c f, a <= b <= c ->
  exists x y z, day_count [a] [b] B30_360 f = Ok (Scalar x) /\ day_count [b] [c] B30_360 f = Ok (Scalar y) /\
    day_count [a] [c] B30_360 f = Ok (Scalar z) /\ 0 <= x /\ 0 <= y /\ 0 <= z /\
    x + y - z = Z.b2z (on_31 b && negb (on_30_or_31 a)) + Z.b2z (on_31 c) * (Z.b2z (on_30_or_31 a) - Z.b2z (on_30_or_31 b)) /\
    -1 <= x + y - z <= 1.
Proof. exact dc30_split. Qed.
Print Assumptions C04_30_360_split.

(* Additivity fails for 30/360. *)
Theorem C04_30_360_additive_refuted : exists a b c x y z, a <= b <= c /\
  day_count [a] [b] B30_360 None = Ok (Scalar x) /\ day_count [b] [c] B30_360 None = Ok (Scalar y) /\
  day_count [a] [c] B30_360 None = Ok (Scalar z) /\ x + y <> z.
Proof.
  exists (mk 2024 1 15), (mk 2024 1 31), (mk 2024 2 15), 16, 15, 30. vm_compute. intuition discriminate.
Qed.
Print Assumptions C04_30_360_additive_refuted.

Example C04_ex : mk 2024 1 29 <= mk 2024 1 30 <= mk 2024 3 31 /\ on_31 (mk 2024 3 31) = true.
Proof. vm_compute. intuition discriminate. Qed.

Theorem C05_isda_negative_iff : forall a b t, a <= b ->
  exists z, day_count [a] [b] B30E_360_ISDA (Some [t]) = Ok (Scalar z) /\
    ((z < 0 <-> (a = b /\ feb_end a /\ t = true)) /\
     (a = b -> feb_end a -> t = true -> z = if is_leap (year a) then -1 else -2)).
Proof. exact dc_isda_characterised. Qed.
Print Assumptions C05_isda_negative_iff.

Theorem C05_isda_default_is_termination : forall a b,
  day_count [a] [b] B30E_360_ISDA None = day_count [a] [b] B30E_360_ISDA (Some [true]).
Proof. exact isda_default_is_termination. Qed.
Print Assumptions C05_isda_default_is_termination.

(* A period may be split anywhere; only the end of the whole may be flagged. *)
Theorem C05_isda_additive : forall a b c t, a <= b <= c ->
  exists x y, day_count [a] [b] B30E_360_ISDA (Some [false]) = Ok (Scalar x) /\ day_count [b] [c] B30E_360_ISDA (Some [t]) = Ok (Scalar y) /\
    day_count [a] [c] B30E_360_ISDA (Some [t]) = Ok (Scalar (x + y)).
Proof.
  intros a b c t H. rewrite !dc_isda_scalar.
  destruct (Z.leb_spec a b); [|lia]. destruct (Z.leb_spec b c); [|lia]. destruct (Z.leb_spec a c); [|lia].
  do 2 eexists. split; [reflexivity|]. split; [reflexivity|]. f_equal. f_equal. apply dc_isda_add.
Qed.
Print Assumptions C05_isda_additive.

(* Ends of months are thirty days apart unless the later one is flagged, when the end of February is its own day. *)
Theorem C05_isda_month_ends : forall y m y' m' t, 1 <= m <= 12 -> 1 <= m' <= 12 ->
  let a := mk y m (days_in_month y m) in let b := mk y' m' (days_in_month y' m') in a <= b ->
  day_count [a] [b] B30E_360_ISDA (Some [t]) =
    Ok (Scalar (360 * (y' - y) + 30 * (m' - m) - (if t && (m' =? 2) then (if is_leap y' then 1 else 2) else 0))).
Proof.
  intros y m y' m' t M M' a b H. rewrite dc_isda_scalar. destruct (Z.leb_spec a b); [|lia]. do 2 f_equal. apply dc_isda_ends; assumption.
Qed.
Print Assumptions C05_isda_month_ends.

(* Away from the end of February it is 30E/360. *)
Theorem C05_isda_is_30E : forall a b t, ~ feb_end a -> (t = true \/ ~ feb_end b) ->
  day_count [a] [b] B30E_360_ISDA (Some [t]) = day_count [a] [b] B30E_360 None.
Proof. exact isda_is_30E. Qed.
Print Assumptions C05_isda_is_30E.
Example C05_isda_ex : day_count [mk 2024 1 31] [mk 2024 2 29] B30E_360_ISDA (Some [true]) = Ok (Scalar 29) /\
  day_count [mk 2024 1 31] [mk 2024 2 29] B30E_360_ISDA (Some [false]) = Ok (Scalar 30) /\
  day_count [mk 2024 2 29] [mk 2024 3 31] B30E_360_ISDA (Some [true]) = Ok (Scalar 30).
Proof. vm_compute. auto. Qed.

Example C05_ex : feb_end (mk 2023 2 28) /\ day_count [mk 2023 2 28] [mk 2023 2 28] B30E_360_ISDA None = Ok (Scalar (-2)).
Proof. vm_compute. auto. Qed.

(* Vectors: elementwise; by default exactly the last element is the termination date. *)
Theorem C06_day_count_elementwise : forall s e b,
  length s = length e -> (length s <> 1)%nat -> ~ bad_pair s e -> b <> OtherBasis ->
  exists r, day_count s e b None = Ok (Vector r) /\ length r = length s /\
    forall i x y, nth_error s i = Some x -> nth_error e i = Some y ->
      exists z, nth_error r i = Some z /\
        day_count [x] [y] b (Some [(i =? length s - 1)%nat]) = Ok (Scalar z).
Proof. exact day_count_vector. Qed.
Print Assumptions C06_day_count_elementwise.

Theorem C06_year_frac_elementwise : forall s e b,
  length s = length e -> (length s <> 1)%nat -> ~ bad_pair s e -> b <> OtherBasis ->
  exists r, year_frac s e b None = Ok (Vector r) /\ length r = length s /\
    forall i x y, nth_error s i = Some x -> nth_error e i = Some y ->
      exists z, nth_error r i = Some z /\
        year_frac [x] [y] b (Some [(i =? length s - 1)%nat]) = Ok (Scalar z).
Proof. exact year_frac_vector. Qed.
Print Assumptions C06_year_frac_elementwise.

Theorem C06_year_frac_reversed_rejected : forall s e b f, length s = length e -> bad_pair s e -> b <> OtherBasis ->
  year_frac s e b f = Err AssertionError.
Proof. exact year_frac_reversed. Qed.
Print Assumptions C06_year_frac_reversed_rejected.

Theorem C06_broadcast_start : forall x e b f, (2 <= length e)%nat ->
  day_count [x] e b f = day_count (repeat x (length e)) e b f.
Proof. exact day_count_broadcast_start. Qed.
Print Assumptions C06_broadcast_start.

Theorem C06_broadcast_end : forall s y b f, (2 <= length s)%nat ->
  day_count s [y] b f = day_count s (repeat y (length s)) b f.
Proof. exact day_count_broadcast_end. Qed.
Print Assumptions C06_broadcast_end.

Theorem C06_length_mismatch : forall s e b f, length s <> length e -> length s <> 1%nat -> length e <> 1%nat ->
  day_count s e b f = Err ValueError.
Proof. exact day_count_length_mismatch. Qed.
Print Assumptions C06_length_mismatch.

Example C06_ex : day_count [mk 2024 1 31; mk 2024 1 31; mk 2023 1 31] [mk 2024 2 29; mk 2024 3 31; mk 2023 2 28] B30E_360_ISDA None
  = Ok (Vector [30; 60; 28]).
Proof. vm_compute. reflexivity. Qed.

Theorem C07_year_frac_order : forall a b f, a <= b ->
  exists q360 q365 q366 qaa,
    year_frac [a] [b] ACT_360 f = Ok (Scalar q360) /\ year_frac [a] [b] ACT_365 f = Ok (Scalar q365) /\
    year_frac [a] [b] ACT_366 f = Ok (Scalar q366) /\ year_frac [a] [b] ACT_ACT f = Ok (Scalar qaa) /\
    (q360 * 360 == inject_Z (b - a) /\ q365 * 365 == inject_Z (b - a) /\ q366 * 366 == inject_Z (b - a) /\
     q366 <= q365 /\ q365 <= q360 /\ q366 <= qaa /\ qaa <= q365)%Q.
Proof. exact act_year_fracs. Qed.
Print Assumptions C07_year_frac_order.

Example C07_ex : mk 1999 7 4 <= mk 2101 3 1.
Proof. vm_compute. discriminate. Qed.
