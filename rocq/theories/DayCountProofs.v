From Coq Require Import ZArith QArith List Bool Lia Lqa.
From Coq Require Import ZifyBool.
From Verif Require Import Base Date DateProofs DayCountModel DayCountSpec.
Import ListNotations.
Open Scope Z_scope.
Ltac Zify.zify_post_hook ::= Z.div_mod_to_equations.

Ltac ifs := cbv zeta; repeat match goal with |- context [if ?b then _ else _] => destruct b eqn:? end.

Lemma dc_act_scalar a b bs f : is_act bs ->
  day_count [a] [b] bs f = if a <=? b then Ok (Scalar (b - a)) else Err AssertionError.
Proof.
  intros H. unfold day_count. cbn.
  destruct (a <=? b); cbn; destruct H as [->|[->|[->| ->]]]; reflexivity.
Qed.

Lemma dc_30_360_scalar a b f :
  day_count [a] [b] B30_360 f = if a <=? b then Ok (Scalar (dc_30_360 a b)) else Err AssertionError.
Proof. unfold day_count. cbn. destruct (a <=? b); reflexivity. Qed.

Lemma dc_30E_360_scalar a b f :
  day_count [a] [b] B30E_360 f = if a <=? b then Ok (Scalar (dc_30E_360 a b)) else Err AssertionError.
Proof. unfold day_count. cbn. destruct (a <=? b); reflexivity. Qed.

Lemma dc_isda_scalar a b t :
  day_count [a] [b] B30E_360_ISDA (Some [t]) = if a <=? b then Ok (Scalar (dc_30E_360_isda a b t)) else Err AssertionError.
Proof. unfold day_count. cbn. destruct (a <=? b); reflexivity. Qed.

Lemma dc_isda_scalar_default a b :
  day_count [a] [b] B30E_360_ISDA None = if a <=? b then Ok (Scalar (dc_30E_360_isda a b true)) else Err AssertionError.
Proof. unfold day_count. cbn. destruct (a <=? b); reflexivity. Qed.

(* ---- civil calendar ---- *)

Lemma next_day_valid c : civil_valid c -> civil_valid (next_day c).
Proof.
  intros [Hm Hd]. unfold next_day, civil_valid.
  destruct (Z.ltb_spec (cd c) (days_in_month (cy c) (cm c))); cbn; [lia|].
  pose proof (days_in_month_bounds (cy c) (cm c + 1)). pose proof (days_in_month_bounds (cy c + 1) 1).
  destruct (Z.ltb_spec (cm c) 12); cbn; lia.
Qed.

Lemma next_day_ord c : civil_valid c -> of_civil (next_day c) = of_civil c + 1.
Proof.
  intros [Hm Hd]. unfold next_day, of_civil.
  destruct (Z.ltb_spec (cd c) (days_in_month (cy c) (cm c))); cbn [cy cm cd]; [unfold mk; lia|].
  destruct (Z.ltb_spec (cm c) 12); cbn [cy cm cd].
  - unfold mk. rewrite month_end_step by lia. lia.
  - assert (E : cm c = 12) by lia. rewrite E in *. unfold mk.
    rewrite days_before_year_succ, days_before_month_1. pose proof (month_end_last (cy c)). lia.
Qed.

Lemma days_later_ord n c : civil_valid c ->
  civil_valid (days_later n c) /\ of_civil (days_later n c) = of_civil c + Z.of_nat n.
Proof.
  intros H. induction n as [|n [IHv IHo]]; cbn [days_later].
  - split; [assumption|lia].
  - split; [apply next_day_valid; assumption|]. rewrite next_day_ord by assumption. lia.
Qed.

Lemma act_counts_civil c n bs f : civil_valid c -> is_act bs ->
  day_count [of_civil c] [of_civil (days_later n c)] bs f = Ok (Scalar (Z.of_nat n)).
Proof.
  intros H Hb. rewrite dc_act_scalar by assumption.
  destruct (days_later_ord n c H) as [_ ->].
  destruct (Z.leb_spec (of_civil c) (of_civil c + Z.of_nat n)); [|lia].
  f_equal. f_equal. lia.
Qed.

(* ---- 30E/360 ---- *)

Lemma dc_30E_add a b c : dc_30E_360 a b + dc_30E_360 b c = dc_30E_360 a c.
Proof. unfold dc_30E_360, dc_30. ifs; lia. Qed.

Lemma lex_cases a b : a <= b ->
  (360 * (year b - year a) + 30 * (month b - month a) >= 30) \/
  (year a = year b /\ month a = month b /\ day a <= day b).
Proof.
  intros H. apply lex_le in H. pose proof (month_range a). pose proof (month_range b). lia.
Qed.

Lemma dc_30E_nonneg a b : a <= b -> 0 <= dc_30E_360 a b.
Proof.
  intros H. apply lex_cases in H. pose proof (day_le_31 a). pose proof (day_le_31 b).
  unfold dc_30E_360, dc_30. ifs; lia.
Qed.

Lemma dc_30E_months y m k : 1 <= m <= 12 ->
  dc_30E_360 (mk y m 1) (add_months (mk y m 1) k) = 30 * k.
Proof.
  intros Hm.
  assert (V : valid y m 1) by (pose proof (days_in_month_bounds y m); unfold valid; lia).
  pose proof (year_mk y m 1 V) as Ey. pose proof (month_mk y m 1 V) as Em. pose proof (day_mk y m 1 V) as Ed.
  generalize dependent (mk y m 1). intros s Ey Em Ed.
  pose proof (add_months_month_index s k) as I. pose proof (add_months_day s k) as D.
  generalize dependent (add_months s k). intros t I D.
  pose proof (days_in_month_bounds (year t) (month t)) as B. pose proof (month_range t).
  assert (Dt : day t = 1) by lia. unfold month_index in I.
  unfold dc_30E_360, dc_30. rewrite Ey, Em, Ed, Dt in *. change (1 =? 31) with false. cbv zeta iota. lia.
Qed.

(* ---- 30/360 ---- *)

Lemma dc_30_360_nonneg a b : a <= b -> 0 <= dc_30_360 a b.
Proof.
  intros H. apply lex_cases in H. pose proof (day_le_31 a). pose proof (day_le_31 b).
  unfold dc_30_360, dc_30. ifs; lia.
Qed.

Lemma dc_30_360_defect a b c :
  dc_30_360 a b + dc_30_360 b c - dc_30_360 a c =
  Z.b2z (on_31 b && negb (on_30_or_31 a)) +
  Z.b2z (on_31 c) * (Z.b2z (on_30_or_31 a) - Z.b2z (on_30_or_31 b)).
Proof.
  pose proof (day_le_31 a). pose proof (day_le_31 b). pose proof (day_le_31 c).
  unfold dc_30_360, dc_30, on_31, on_30_or_31. cbv zeta.
  destruct (Z.eqb_spec (day a) 31), (Z.eqb_spec (day b) 31), (Z.eqb_spec (day c) 31),
    (Z.leb_spec 30 (day a)), (Z.leb_spec 30 (day b)); try lia; cbn [andb negb Z.b2z];
  repeat match goal with |- context [(?x =? ?y) && _] => destruct (Z.eqb_spec x y); cbn [andb] end; lia.
Qed.

(* ---- ISDA ---- *)

Lemma feb_end_iff d : is_last_day_of_feb d = true <-> feb_end d.
Proof.
  unfold is_last_day_of_feb, feb_end, days_in_month.
  destruct (Z.eqb_spec (month d) 2) as [E|E].
  - destruct (is_leap (year d)); lia.
  - split; [discriminate|intros [H _]; contradiction].
Qed.

Lemma feb_end_day d : feb_end d -> 28 <= day d <= 29.
Proof. intros [_ ->]. destruct (is_leap _); lia. Qed.

Lemma dc_isda_neg a b t : a <= b -> ~ (a = b /\ feb_end a /\ t = true) -> 0 <= dc_30E_360_isda a b t.
Proof.
  intros H N. pose proof (lex_cases a b H) as L. pose proof (day_le_31 a). pose proof (day_le_31 b).
  unfold dc_30E_360_isda, dc_30.
  destruct (is_last_day_of_feb a) eqn:Fa, (is_last_day_of_feb b) eqn:Fb.
  - apply feb_end_iff in Fa, Fb. pose proof (feb_end_day _ Fa). pose proof (feb_end_day _ Fb).
    destruct L as [L|[Y [M D]]]; [destruct t; ifs; lia|].
    assert (a = b).
    { apply date_eq; [apply same_month_iff; auto|]. destruct Fa as [_ ->], Fb as [_ ->]. rewrite Y. reflexivity. }
    destruct t; [exfalso; auto|]. ifs; lia.
  - apply feb_end_iff in Fa.
    destruct L as [L|[Y [M D]]]; [destruct t; ifs; lia|].
    exfalso. assert (feb_end b).
    { destruct Fa as [F1 F2]. split; [lia|]. pose proof (day_range b) as R. rewrite <- Y, <- M in R.
      unfold days_in_month in R. rewrite F1 in R. cbn [Z.eqb Pos.eqb] in R. rewrite <- Y.
      destruct (is_leap (year a)); lia. }
    apply feb_end_iff in H2. congruence.
  - apply feb_end_iff in Fb. pose proof (feb_end_day _ Fb). destruct t; ifs; lia.
  - destruct t; ifs; lia.
Qed.

Lemma dc_isda_empty a : feb_end a ->
  dc_30E_360_isda a a true = if is_leap (year a) then -1 else -2.
Proof.
  intros F. pose proof F as [F1 F2]. apply feb_end_iff in F.
  unfold dc_30E_360_isda, dc_30. rewrite F. cbv zeta. cbn [negb andb]. rewrite !orb_true_r, orb_false_r.
  rewrite F2. destruct (is_leap (year a)); rewrite !Z.sub_diag; reflexivity.
Qed.

Lemma dc_isda_add a b c t : dc_30E_360_isda a c t = dc_30E_360_isda a b false + dc_30E_360_isda b c t.
Proof. unfold dc_30E_360_isda, dc_30. cbv zeta. cbn [negb]. rewrite andb_true_r. ifs; lia. Qed.
Lemma dc_isda_ends y m y' m' t : 1 <= m <= 12 -> 1 <= m' <= 12 ->
  dc_30E_360_isda (mk y m (days_in_month y m)) (mk y' m' (days_in_month y' m')) t =
    360 * (y' - y) + 30 * (m' - m) - (if t && (m' =? 2) then (if is_leap y' then 1 else 2) else 0).
Proof.
  intros M M'.
  assert (V : forall y m, 1 <= m <= 12 -> valid y m (days_in_month y m)).
  { intros z n N. unfold valid, days_in_month. split; [assumption|]. split; [|lia]. ifs; lia. }
  unfold dc_30E_360_isda, dc_30, is_last_day_of_feb. cbv zeta. rewrite !year_mk, !month_mk, !day_mk by auto. rewrite !Z.eqb_refl.
  unfold days_in_month. destruct t; cbn [negb andb]; ifs; lia.
Qed.
Lemma isda_is_30E a b t : ~ feb_end a -> (t = true \/ ~ feb_end b) ->
  day_count [a] [b] B30E_360_ISDA (Some [t]) = day_count [a] [b] B30E_360 None.
Proof.
  intros A B. rewrite dc_isda_scalar, dc_30E_360_scalar. destruct (a <=? b); [|reflexivity]. do 2 f_equal. unfold dc_30E_360_isda, dc_30E_360.
  assert (FA : is_last_day_of_feb a = false) by (destruct (is_last_day_of_feb a) eqn:E; [apply feb_end_iff in E; contradiction|reflexivity]). rewrite FA, orb_false_r.
  assert (FB : is_last_day_of_feb b && negb t = false).
  { destruct B as [->|B]; [apply andb_false_r|]. destruct (is_last_day_of_feb b) eqn:E; [apply feb_end_iff in E; contradiction|reflexivity]. }
  rewrite FB, orb_false_r. reflexivity.
Qed.

(* ---- ACT/ACT ---- *)

Open Scope Q_scope.

(* Position of a day on the year axis. *)
Definition year_pos (a : date) : Q :=
  inject_Z (year a) + inject_Z (a - mk (year a) 1 1) / inject_Z (year_len (year a)).

Lemma year_len_pos y : (0 < year_len y)%Z.
Proof. unfold year_len; destruct (is_leap y); lia. Qed.

Lemma year_len_Q y : ~ inject_Z (year_len y) == 0.
Proof. pose proof (year_len_pos y). intros E. apply (proj1 (inject_Z_injective (year_len y) 0)) in E. rewrite E in H. discriminate. Qed.

Lemma yf_act_act_pos a b : yf_act_act a b == year_pos b - year_pos a.
Proof.
  unfold yf_act_act, year_pos. cbv zeta.
  pose proof (year_len_Q (year a)) as Na. pose proof (year_len_Q (year b)) as Nb.
  assert (E : (mk (year a + 1) 1 1 - a = year_len (year a) - (a - mk (year a) 1 1))%Z).
  { rewrite !mk_jan1, days_before_year_succ. lia. }
  rewrite E. unfold Z.sub at 1 2. rewrite !inject_Z_plus, !inject_Z_opp.
  unfold Z.sub at 1. rewrite !inject_Z_plus, !inject_Z_opp. field. split; assumption.
Qed.

Lemma year_pos_succ (a : date) : year_pos (a + 1) - year_pos a == 1 / inject_Z (year_len (year a)).
Proof.
  pose proof (year_len_Q (year a)) as Na.
  destruct (Z.eq_dec (year (a + 1)) (year a)) as [E|N].
  - unfold year_pos. rewrite E.
    replace (a + 1 - mk (year a) 1 1)%Z with ((a - mk (year a) 1 1) + 1)%Z by lia.
    rewrite inject_Z_plus. field. assumption.
  - pose proof (year_mono a (a + 1)%Z ltac:(lia)).
    pose proof (year_spec a) as Sa. pose proof (year_spec (a + 1)%Z) as Sb.
    assert (Ea : a = days_before_year (year a + 1)%Z).
    { pose proof (days_before_year_mono (year a + 1)%Z (year (a + 1))). lia. }
    assert (Ey : (year (a + 1) = year a + 1)%Z).
    { apply year_unique. rewrite (days_before_year_succ (year a + 1)). pose proof (year_len_pos (year a + 1)%Z). lia. }
    unfold year_pos. rewrite Ey, !mk_jan1.
    replace (a + 1 - (days_before_year (year a + 1) + 1))%Z with 0%Z by lia.
    replace (a - (days_before_year (year a) + 1))%Z with (year_len (year a) + -1)%Z
      by (rewrite days_before_year_succ in Ea; lia).
    rewrite !inject_Z_plus. change (inject_Z 0) with 0. pose proof (year_len_Q (year a + 1)%Z).
    change (inject_Z (-1)) with (-1#1). change (inject_Z 1) with 1. field. split; assumption.
Qed.

Lemma days_in_years_pos (a : date) n : days_in_years a n == year_pos (a + Z.of_nat n) - year_pos a.
Proof.
  induction n as [|n IH].
  - cbn [days_in_years]. change (Z.of_nat 0) with 0%Z. rewrite Z.add_0_r. ring.
  - cbn [days_in_years]. rewrite IH.
    replace (a + Z.of_nat (S n))%Z with ((a + Z.of_nat n) + 1)%Z by lia.
    rewrite <- year_pos_succ. ring.
Qed.

Lemma act_act_spec a b : (a <= b)%Z -> yf_act_act a b == days_in_years a (Z.to_nat (b - a)).
Proof.
  intros H. rewrite yf_act_act_pos, days_in_years_pos.
  replace (a + Z.of_nat (Z.to_nat (b - a)))%Z with b by lia. reflexivity.
Qed.

Lemma act_act_scalar a b f :
  year_frac [a] [b] ACT_ACT f = if (a <=? b)%Z then Ok (Scalar (yf_act_act a b)) else Err AssertionError.
Proof. unfold year_frac. cbn. destruct (a <=? b)%Z; reflexivity. Qed.

Lemma act_act_additive a b c : yf_act_act a b + yf_act_act b c == yf_act_act a c.
Proof. rewrite !yf_act_act_pos. ring. Qed.

Lemma year_len_inv_bounds y : 1 / 366 <= 1 / inject_Z (year_len y) <= 1 / 365.
Proof. unfold year_len. destruct (is_leap y); split; discriminate. Qed.

Lemma days_in_years_bounds a n :
  inject_Z (Z.of_nat n) / 366 <= days_in_years a n <= inject_Z (Z.of_nat n) / 365.
Proof.
  induction n as [|n IH].
  - cbn. split; discriminate.
  - cbn [days_in_years]. pose proof (year_len_inv_bounds (year (a + Z.of_nat n))) as B.
    replace (Z.of_nat (S n)) with (Z.of_nat n + 1)%Z by lia. rewrite inject_Z_plus.
    change (inject_Z 1) with 1.
    set (x := inject_Z (Z.of_nat n)) in *. set (u := 1 / inject_Z _) in *.
    assert (E1 : (x + 1) / 366 == x / 366 + 1 / 366) by field.
    assert (E2 : (x + 1) / 365 == x / 365 + 1 / 365) by field.
    rewrite E1, E2. destruct IH, B. split; apply Qplus_le_compat; assumption.
Qed.

Lemma act_act_bounds a b : (a <= b)%Z ->
  inject_Z (b - a) / 366 <= yf_act_act a b <= inject_Z (b - a) / 365.
Proof.
  intros H. rewrite act_act_spec by assumption.
  pose proof (days_in_years_bounds a (Z.to_nat (b - a))) as B.
  rewrite Z2Nat.id in B by lia. exact B.
Qed.

Lemma act_act_positive a b : (a < b)%Z -> 0 < yf_act_act a b.
Proof.
  intros H. destruct (act_act_bounds a b ltac:(lia)) as [L _].
  eapply Qlt_le_trans; [|exact L].
  unfold Qdiv. apply Qmult_lt_0_compat; [|reflexivity].
  change 0 with (inject_Z 0). rewrite <- Zlt_Qlt. lia.
Qed.

Lemma act_act_jan1 y z : yf_act_act (mk y 1 1) (mk z 1 1) == inject_Z (z - y).
Proof.
  assert (V : forall w, valid w 1 1) by (intros w; unfold valid; pose proof (days_in_month_bounds w 1); lia).
  rewrite yf_act_act_pos. unfold year_pos. rewrite !year_mk by apply V.
  rewrite !Z.sub_diag. unfold Z.sub. rewrite inject_Z_plus, inject_Z_opp. change (inject_Z 0) with 0.
  field. split; apply year_len_Q.
Qed.

Lemma day_ratio_order n : (0 <= n)%Z -> inject_Z n / 366 <= inject_Z n / 365 <= inject_Z n / 360.
Proof.
  intros H. assert (P : 0 <= inject_Z n) by (change 0 with (inject_Z 0); rewrite <- Zle_Qle; lia).
  unfold Qdiv. change (/ 366) with (1 # 366). change (/ 365) with (1 # 365). change (/ 360) with (1 # 360).
  split; rewrite (Qmult_comm (inject_Z n)), (Qmult_comm (inject_Z n)); apply Qmult_le_compat_r; try assumption; discriminate.
Qed.

Close Scope Q_scope.

(* ---- vectors ---- *)

Lemma forallb_combine_bad {A B} (f : A * B -> bool) l m i x y :
  nth_error l i = Some x -> nth_error m i = Some y -> f (x, y) = false ->
  forallb f (combine l m) = false.
Proof.
  revert m i. induction l as [|a l IH]; intros m i Hl Hm Hf; destruct i, m; try discriminate; cbn in *.
  - injection Hl as ->. injection Hm as ->. rewrite Hf. reflexivity.
  - rewrite (IH m i) by assumption. apply andb_false_r.
Qed.

Lemma map2_nth {A B C} (f : A -> B -> C) l m i x y :
  nth_error l i = Some x -> nth_error m i = Some y -> nth_error (map2 f l m) i = Some (f x y).
Proof.
  unfold map2. revert m i. induction l as [|a l IH]; intros m i Hl Hm; destruct i, m; try discriminate; cbn in *.
  - congruence.
  - apply IH; assumption.
Qed.

Lemma combine_nth_error {A B} (l : list A) (m : list B) i x y :
  nth_error l i = Some x -> nth_error m i = Some y -> nth_error (combine l m) i = Some (x, y).
Proof.
  revert m i. induction l as [|a l IH]; intros m i Hl Hm; destruct i, m; try discriminate; cbn in *.
  - congruence.
  - apply IH; assumption.
Qed.

Lemma map2_length {A B C} (f : A -> B -> C) l m : length (map2 f l m) = Nat.min (length l) (length m).
Proof. unfold map2. rewrite map_length, combine_length. reflexivity. Qed.

Lemma default_flags_length n : length (default_flags n) = n.
Proof. unfold default_flags. rewrite map_length, seq_length. reflexivity. Qed.

Lemma default_flags_nth n i : (i < n)%nat -> nth_error (default_flags n) i = Some (i =? n - 1)%nat.
Proof.
  intros H. unfold default_flags. rewrite nth_error_map.
  rewrite (nth_error_nth' _ 0%nat) by (rewrite seq_length; assumption).
  rewrite seq_nth by assumption. cbn. f_equal.
  destruct (Z.ltb_spec (Z.of_nat i) (Z.of_nat n - 1)); destruct (Nat.eqb_spec i (n - 1)); try reflexivity; lia.
Qed.

Lemma check_order_spec s e : length s = length e ->
  (check_order s e = Ok tt /\ ~ bad_pair s e) \/ (check_order s e = Err AssertionError /\ bad_pair s e).
Proof.
  intros L. unfold check_order. rewrite L, Nat.eqb_refl. cbn [negb].
  destruct (forallb (fun p => fst p <=? snd p) (combine s e)) eqn:F; [left|right]; (split; [reflexivity|]).
  - intros (i & x & y & Hs & He & Hlt).
    rewrite (forallb_combine_bad _ s e i x y) in F by (assumption || (cbn; lia)). discriminate.
  - revert e L F. induction s as [|x s IH]; intros e L F; destruct e as [|y e]; try discriminate.
    cbn in F. destruct (Z.leb_spec x y) as [Hl|Hl].
    + cbn in F. destruct (IH e) as (i & x' & y' & ?); [injection L; auto | exact F |].
      exists (S i), x', y'. assumption.
    + exists 0%nat, x, y. auto.
Qed.

Lemma same_shape_eq s e : length s = length e -> same_shape s e = (s, e, (length s =? 1)%nat).
Proof.
  intros L. unfold same_shape. rewrite <- L.
  assert (A : forall b, b && b = b) by (intros []; reflexivity). rewrite A.
  destruct s as [|x [|x' s]], e as [|y [|y' e]]; try discriminate; reflexivity.
Qed.

Lemma day_count_reversed s e b f : length s = length e -> bad_pair s e ->
  day_count s e b f = Err AssertionError.
Proof.
  intros L B. unfold day_count. rewrite same_shape_eq by assumption.
  destruct (check_order_spec s e L) as [[_ N]|[-> _]]; [contradiction|reflexivity].
Qed.

Lemma day_count_length_mismatch s e b f : length s <> length e -> length s <> 1%nat -> length e <> 1%nat ->
  day_count s e b f = Err ValueError.
Proof.
  intros L1 L2 L3. unfold day_count.
  assert (E : exists sc, same_shape s e = (s, e, sc)).
  { unfold same_shape. destruct s as [|x [|x' s]], e as [|y [|y' e]]; cbn in *; try lia; eexists; reflexivity. }
  destruct E as [sc ->]. unfold check_order.
  destruct (Nat.eqb_spec (length s) (length e)); [contradiction|reflexivity].
Qed.

Lemma day_count_broadcast_start x e b f : (2 <= length e)%nat ->
  day_count [x] e b f = day_count (repeat x (length e)) e b f.
Proof.
  intros L. unfold day_count. rewrite (same_shape_eq (repeat x (length e))) by apply repeat_length.
  rewrite repeat_length. unfold same_shape. destruct e as [|y [|y' e]]; cbn in L; try lia. reflexivity.
Qed.

Lemma day_count_broadcast_end s y b f : (2 <= length s)%nat ->
  day_count s [y] b f = day_count s (repeat y (length s)) b f.
Proof.
  intros L. unfold day_count. rewrite (same_shape_eq s (repeat y (length s))) by (symmetry; apply repeat_length).
  unfold same_shape. destruct s as [|x [|x' s]]; cbn in L; try lia. reflexivity.
Qed.

Lemma day_count_vector s e b : length s = length e -> (length s <> 1)%nat -> ~ bad_pair s e -> b <> OtherBasis ->
  exists r, day_count s e b None = Ok (Vector r) /\ length r = length s /\
    forall i x y, nth_error s i = Some x -> nth_error e i = Some y ->
      exists z, nth_error r i = Some z /\
        day_count [x] [y] b (Some [(i =? length s - 1)%nat]) = Ok (Scalar z).
Proof.
  intros L N1 NB NO.
  assert (HL : forall i x y, nth_error s i = Some x -> nth_error e i = Some y -> x <= y).
  { intros i x y Hs He. destruct (Z.le_gt_cases x y) as [|G]; auto. exfalso; apply NB. exists i, x, y. auto. }
  assert (HLb : forall i x y, nth_error s i = Some x -> nth_error e i = Some y -> (x <=? y) = true).
  { intros i x y Hs He. apply Z.leb_le. eauto. }
  assert (Hone : (length s =? 1)%nat = false) by (apply Nat.eqb_neq; assumption).
  unfold day_count at 1. rewrite same_shape_eq by assumption. rewrite Hone.
  destruct (check_order_spec s e L) as [[-> _]|[_ B]]; [|contradiction].
  cbn [bind to_output].
  destruct b; try contradiction; cbn [bind to_output]; eexists; (split; [reflexivity|]); (split;
    [rewrite ?map2_length, ?combine_length, ?default_flags_length; lia|]);
  intros i x y Hs He; eexists; (split;
    [ first [apply map2_nth; eassumption
            | apply map2_nth with (x := (x, y)); [apply combine_nth_error; assumption
              | apply default_flags_nth; rewrite <- L; apply nth_error_Some; congruence]]
    | ]).
  - rewrite dc_30_360_scalar. rewrite (HLb i x y) by assumption. reflexivity.
  - rewrite dc_30E_360_scalar. rewrite (HLb i x y) by assumption. reflexivity.
  - rewrite dc_isda_scalar. rewrite (HLb i x y) by assumption. rewrite L. reflexivity.
  - rewrite dc_act_scalar by (unfold is_act; auto). rewrite (HLb i x y) by assumption. reflexivity.
  - rewrite dc_act_scalar by (unfold is_act; auto). rewrite (HLb i x y) by assumption. reflexivity.
  - rewrite dc_act_scalar by (unfold is_act; auto). rewrite (HLb i x y) by assumption. reflexivity.
  - rewrite dc_act_scalar by (unfold is_act; auto). rewrite (HLb i x y) by assumption. reflexivity.
Qed.

Lemma year_frac_reversed s e b f : length s = length e -> bad_pair s e -> b <> OtherBasis ->
  year_frac s e b f = Err AssertionError.
Proof.
  intros L B N. unfold year_frac. rewrite day_count_reversed by assumption.
  destruct b; try reflexivity; [|contradiction].
  rewrite same_shape_eq by assumption.
  destruct (check_order_spec s e L) as [[_ N']|[-> _]]; [contradiction|reflexivity].
Qed.

Lemma year_frac_vector s e b : length s = length e -> (length s <> 1)%nat -> ~ bad_pair s e -> b <> OtherBasis ->
  exists r, year_frac s e b None = Ok (Vector r) /\ length r = length s /\
    forall i x y, nth_error s i = Some x -> nth_error e i = Some y ->
      exists z, nth_error r i = Some z /\
        year_frac [x] [y] b (Some [(i =? length s - 1)%nat]) = Ok (Scalar z).
Proof.
  intros L N1 NB NO.
  destruct (day_count_vector s e b L N1 NB NO) as (r & Hr & Hl & Hi).
  unfold year_frac. rewrite Hr.
  destruct b; cbn [result_map out_map]; try contradiction;
  try (eexists; split; [reflexivity|]; split; [rewrite map_length; assumption|];
       intros i x y Hx Hy; destruct (Hi i x y Hx Hy) as (z & Hz & ->);
       eexists; split; [rewrite nth_error_map, Hz; reflexivity | reflexivity]).
  rewrite same_shape_eq by assumption.
  destruct (check_order_spec s e L) as [[-> _]|[_ B]]; [|contradiction].
  destruct (Nat.eqb_spec (length s) 1) as [E|_]; [contradiction|].
  cbn [bind to_output]. eexists. split; [reflexivity|]. split; [rewrite map2_length; lia|].
  intros i x y Hx Hy. eexists. split; [apply map2_nth; eassumption|].
  cbn. assert (Hle : (x <=? y) = true).
  { apply Z.leb_le. destruct (Z.le_gt_cases x y); auto. exfalso; apply NB; exists i, x, y; auto. }
  rewrite Hle. reflexivity.
Qed.

Lemma civil_of_date n : exists c, civil_valid c /\ of_civil c = n.
Proof.
  exists {| cy := year n; cm := month n; cd := day n |}. split; [apply ymd_valid | apply mk_ymd].
Qed.

Lemma of_civil_inj c c' : civil_valid c -> civil_valid c' -> of_civil c = of_civil c' -> c = c'.
Proof.
  intros H H' E. unfold of_civil in E.
  assert (cy c = cy c') by (rewrite <- (year_mk _ _ _ H), <- (year_mk _ _ _ H'), E; reflexivity).
  assert (cm c = cm c') by (rewrite <- (month_mk _ _ _ H), <- (month_mk _ _ _ H'), E; reflexivity).
  assert (cd c = cd c') by (rewrite <- (day_mk _ _ _ H), <- (day_mk _ _ _ H'), E; reflexivity).
  destruct c, c'; cbn in *; congruence.
Qed.

Lemma act_additive a b c bs f : is_act bs -> a <= b <= c ->
  exists x y, day_count [a] [b] bs f = Ok (Scalar x) /\ day_count [b] [c] bs f = Ok (Scalar y) /\
    day_count [a] [c] bs f = Ok (Scalar (x + y)) /\ 0 <= x /\ 0 <= y.
Proof.
  intros H L. rewrite !dc_act_scalar by assumption. exists (b - a), (c - b).
  rewrite !(proj2 (Z.leb_le _ _)) by lia.
  repeat split; try lia. f_equal. f_equal. lia.
Qed.

Lemma dc30E_additive a b c f : a <= b <= c ->
  exists x y, day_count [a] [b] B30E_360 f = Ok (Scalar x) /\ day_count [b] [c] B30E_360 f = Ok (Scalar y) /\
    day_count [a] [c] B30E_360 f = Ok (Scalar (x + y)) /\ 0 <= x /\ 0 <= y.
Proof.
  intros L. rewrite !dc_30E_360_scalar. exists (dc_30E_360 a b), (dc_30E_360 b c).
  rewrite !(proj2 (Z.leb_le _ _)) by lia. rewrite dc_30E_add.
  repeat split; apply dc_30E_nonneg; lia.
Qed.

Lemma dc30E_full_months y m k f : 1 <= m <= 12 -> 0 <= k ->
  day_count [mk y m 1] [add_months (mk y m 1) k] B30E_360 f = Ok (Scalar (30 * k)).
Proof.
  intros H Hk. rewrite dc_30E_360_scalar, dc_30E_months by assumption.
  assert (mk y m 1 <= add_months (mk y m 1) k).
  { rewrite <- (add_months_0 (mk y m 1)) at 1. destruct (Z.eq_dec k 0) as [->|]; [lia|].
    apply Z.lt_le_incl, add_months_mono. lia. }
  rewrite (proj2 (Z.leb_le _ _)) by assumption. reflexivity.
Qed.

Lemma dc30_split a b c f : a <= b <= c ->
  exists x y z, day_count [a] [b] B30_360 f = Ok (Scalar x) /\ day_count [b] [c] B30_360 f = Ok (Scalar y) /\
    day_count [a] [c] B30_360 f = Ok (Scalar z) /\ 0 <= x /\ 0 <= y /\ 0 <= z /\
    x + y - z = Z.b2z (on_31 b && negb (on_30_or_31 a)) + Z.b2z (on_31 c) * (Z.b2z (on_30_or_31 a) - Z.b2z (on_30_or_31 b)) /\
    -1 <= x + y - z <= 1.
Proof.
  intros L. rewrite !dc_30_360_scalar. exists (dc_30_360 a b), (dc_30_360 b c), (dc_30_360 a c).
  rewrite !(proj2 (Z.leb_le _ _)) by lia. rewrite dc_30_360_defect.
  repeat split; try (apply dc_30_360_nonneg; lia);
  pose proof (day_le_31 b);
  unfold on_31, on_30_or_31;
  destruct (Z.eqb_spec (day b) 31), (Z.eqb_spec (day c) 31), (Z.leb_spec 30 (day a)), (Z.leb_spec 30 (day b));
  cbn [negb andb Z.b2z]; lia.
Qed.

Lemma dc_isda_characterised a b t : a <= b ->
  exists z, day_count [a] [b] B30E_360_ISDA (Some [t]) = Ok (Scalar z) /\
    ((z < 0 <-> (a = b /\ feb_end a /\ t = true)) /\
     (a = b -> feb_end a -> t = true -> z = if is_leap (year a) then -1 else -2)).
Proof.
  intros L. rewrite dc_isda_scalar, (proj2 (Z.leb_le _ _)) by lia.
  eexists. split; [reflexivity|]. split.
  - split.
    + intros H. destruct (Z.eq_dec a b) as [->|N].
      * destruct (is_last_day_of_feb b) eqn:F; [|exfalso].
        -- apply feb_end_iff in F. destruct t; auto. exfalso.
           pose proof (dc_isda_neg b b false L). intuition (discriminate || lia).
        -- assert (~ feb_end b) by (rewrite <- feb_end_iff; congruence).
           pose proof (dc_isda_neg b b t L). intuition lia.
      * pose proof (dc_isda_neg a b t L). intuition lia.
    + intros (-> & F & ->). rewrite dc_isda_empty by assumption. destruct (is_leap (year b)); lia.
  - intros -> F ->. apply dc_isda_empty. assumption.
Qed.

Lemma isda_default_is_termination a b :
  day_count [a] [b] B30E_360_ISDA None = day_count [a] [b] B30E_360_ISDA (Some [true]).
Proof. rewrite dc_isda_scalar, dc_isda_scalar_default. reflexivity. Qed.

Lemma act_year_fracs a b f : a <= b ->
  exists q360 q365 q366 qaa,
    year_frac [a] [b] ACT_360 f = Ok (Scalar q360) /\ year_frac [a] [b] ACT_365 f = Ok (Scalar q365) /\
    year_frac [a] [b] ACT_366 f = Ok (Scalar q366) /\ year_frac [a] [b] ACT_ACT f = Ok (Scalar qaa) /\
    (q360 * 360 == inject_Z (b - a) /\ q365 * 365 == inject_Z (b - a) /\ q366 * 366 == inject_Z (b - a) /\
     q366 <= q365 /\ q365 <= q360 /\ q366 <= qaa /\ qaa <= q365)%Q.
Proof.
  intros L. rewrite act_act_scalar. unfold year_frac.
  rewrite !dc_act_scalar by (unfold is_act; auto).
  rewrite !(proj2 (Z.leb_le _ _)) by lia. cbn [result_map out_map].
  do 4 eexists. do 4 (split; [reflexivity|]).
  pose proof (day_ratio_order (b - a) ltac:(lia)) as [? ?].
  pose proof (act_act_bounds a b L) as [? ?].
  split; [field|]. split; [field|]. split; [field|]. auto.
Qed.

Lemma act_act_sum a b f : a <= b ->
  exists q, year_frac [a] [b] ACT_ACT f = Ok (Scalar q) /\ (q == days_in_years a (Z.to_nat (b - a)))%Q.
Proof.
  intros L. rewrite act_act_scalar, (proj2 (Z.leb_le _ _)) by lia.
  eexists. split; [reflexivity|]. apply act_act_spec. assumption.
Qed.

Lemma act_act_props a b c f : a <= b <= c ->
  exists x y z, year_frac [a] [b] ACT_ACT f = Ok (Scalar x) /\ year_frac [b] [c] ACT_ACT f = Ok (Scalar y) /\
    year_frac [a] [c] ACT_ACT f = Ok (Scalar z) /\ (x + y == z)%Q /\ (a < b -> (0 < x)%Q) /\ (a = b -> (x == 0)%Q).
Proof.
  intros L. rewrite !act_act_scalar, !(proj2 (Z.leb_le _ _)) by lia.
  do 3 eexists. do 3 (split; [reflexivity|]). split; [apply act_act_additive|]. split; [apply act_act_positive|].
  intros ->. rewrite yf_act_act_pos. ring.
Qed.

Lemma act_act_new_year y z f : y <= z ->
  exists q, year_frac [mk y 1 1] [mk z 1 1] ACT_ACT f = Ok (Scalar q) /\ (q == inject_Z (z - y))%Q.
Proof.
  intros L. rewrite act_act_scalar. pose proof (days_before_year_mono y z L).
  rewrite (proj2 (Z.leb_le _ _)) by (rewrite !mk_jan1; lia).
  eexists. split; [reflexivity|]. apply act_act_jan1.
Qed.
