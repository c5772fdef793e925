(* C159: total interest of a fixed leg, from the schedule to the coupons. *)
From Coq Require Import ZArith QArith Qreals Reals List Bool Lra Lia.
From Verif Require Import Base Date BusDayModel BusDaySpec BusDayProofs DayCountModel DayCountSpec ScheduleModel ScheduleSpec ScheduleProofs LegModel LegSpec LegProofs.
Import ListNotations.
Open Scope R_scope.

Lemma sum_Q2R (ys : list Q) (k : R) : sum_R (map (fun y => k * Q2R y) ys) = k * Q2R (sum_Q ys).
Proof.
  induction ys as [|y t IH].
  - cbn. unfold Q2R. cbn. ring.
  - change (k * Q2R y + sum_R (map (fun y => k * Q2R y) t) = k * Q2R (y + sum_Q t)). rewrite IH, Q2R_plus. ring.
Qed.

Lemma daycount_blank rows b : add_period_daycount ((None, None) :: rows) b = (let* l := add_period_daycount rows b in Ok (None :: l)).
Proof. unfold add_period_daycount. cbn [both_dates map valid_dates flat_map app]. fold (both_dates rows). destruct (day_count _ _ b None); reflexivity. Qed.
Lemma yearfrac_blank rows b : add_period_yearfrac ((None, None) :: rows) b = (let* l := add_period_yearfrac rows b in Ok (None :: l)).
Proof. unfold add_period_yearfrac. cbn [both_dates map valid_dates flat_map app]. fold (both_dates rows). destruct (year_frac _ _ b None); reflexivity. Qed.

Definition leg_row (side : payrcv) (q : srow * option Q * option R) : row :=
  match q with (r, y, z) =>
    {| r_start := s_start r; r_end := s_end r; r_notional := s_notional r * multiplier side; r_npay := s_npay r * multiplier side;
       r_ndate := s_ndate r; r_cdate := s_cdate r; r_yf := option_map Q2R y; r_rate := z |} end.
Lemma coupons_core side (n r : R) : forall (rs : list srow) (ys : list Q), length rs = length ys ->
  Forall (fun s => s_notional s = n /\ s_cdate s <> None) rs ->
  map (fixed_coupon side) (map (leg_row side) (combine (combine rs (map Some ys)) (repeat (Some r) (length rs)))) = map Some (map (fun y => n * r * Q2R y) ys).
Proof.
  induction rs as [|s rs IH]; intros [|y ys] L F; try discriminate; [reflexivity|]. inversion F as [|? ? [N C] F']; subst. cbn [length repeat map combine].
  f_equal; [|apply IH; [injection L; auto|auto]]. unfold fixed_coupon, leg_row. cbn. destruct (s_cdate s); [|congruence]. cbn. f_equal. destruct side; cbn; ring.
Qed.

(* the shape of a coupon schedule over a schedule without missing dates *)
Lemma coupon_rows c rc p a mid b n x nd nt init cd ct : wf_calendar c -> rc <> Unadjusted -> nt <> OtherTiming -> ct <> OtherTiming ->
  runs_through p a mid b ->
  exists pre rs, coupon_schedule c rc (rows_of p) [n] x nd nt init cd ct = Ok (pre ++ rs) /\
    (if at_start x then exists s, pre = [s] /\ s_cdate s = None else pre = []) /\
    dates_of_rows (pre ++ rs) = (if at_start x then [(None, None)] else []) ++ rows_of p /\
    length rs = length (fst p) /\ Forall (fun s => s_notional s = n /\ s_cdate s <> None) rs.
Proof.
  intros W RC NT CT R. pose proof (runs_length _ _ _ _ R) as LEN.
  assert (RL : length (rows_of p) = length (fst p)) by (unfold rows_of; rewrite combine_length, !map_length; lia).
  assert (NE : rows_of p <> []). { intros E. rewrite E in RL. rewrite R in RL. discriminate. }
  destruct (payment_dates_spec c rc (rows_of p) nd nt W RC NT) as (ncol & H1 & _ & _).
  destruct (notional_schedule_ok c rc (rows_of p) n x nd nt init ncol NE H1) as (l0 & H2 & _ & _ & H3 & H4).
  destruct (payment_dates_spec c rc (dates_of_rows l0) cd ct W RC CT) as (ccol & H5 & H6 & H7).
  assert (E : exists l, coupon_schedule c rc (rows_of p) [n] x nd nt init cd ct = Ok l).
  { unfold coupon_schedule. rewrite H2. cbn [bind]. rewrite H5. cbn [bind]. eauto. }
  destruct E as (l & E). destruct (coupon_schedule_ok _ _ _ _ _ _ _ _ _ _ _ E) as (l1 & K1 & _ & _ & K2 & K3 & K4).
  rewrite H2 in K1. injection K1 as <-. rewrite H5 in K4. injection K4 as K4. rewrite K4 in H7. rewrite H4 in H7.
  assert (G : forall rs, map s_notional rs = repeat n (length (rows_of p)) ->
     (forall i row, nth_error (rows_of p) i = Some row ->
        match pay_from ct row with None => nth_error (map s_cdate rs) i = Some None
        | Some d => exists pd, nth_error (map s_cdate rs) i = Some (Some pd) /\ business_day c pd /\ busday_offset c d cd rc = Ok pd end) ->
     length rs = length (fst p) /\ Forall (fun s => s_notional s = n /\ s_cdate s <> None) rs).
  { intros rs M N. assert (L : length rs = length (fst p)). { rewrite <- RL, <- (repeat_length n (length (rows_of p))), <- M, map_length. reflexivity. }
    split; [exact L|]. apply Forall_forall. intros s I. split.
    - apply (in_map s_notional) in I. rewrite M in I. apply repeat_spec in I. exact I.
    - destruct (In_nth_error _ _ I) as (i & NI). assert (B : (i < length (rows_of p))%nat) by (rewrite RL, <- L; apply nth_error_Some; congruence).
      destruct (nth_error (rows_of p) i) as [row|] eqn:ER; [|apply nth_error_None in ER; lia]. specialize (N i row ER).
      assert (exists u v, row = (Some u, Some v)) as (u & v & ->).
      { apply nth_error_In in ER. unfold rows_of in ER. destruct row as [ru rv]. pose proof (in_combine_l _ _ _ _ ER) as I1. pose proof (in_combine_r _ _ _ _ ER) as I2.
        apply in_map_iff in I1 as (u & <- & _). apply in_map_iff in I2 as (v & <- & _). eauto. }
      rewrite nth_error_map, NI in N. destruct ct; cbn in N; try (now contradiction CT); destruct N as (pd & N & _); injection N as N; congruence. }
  destruct (at_start x).
  - destruct l as [|s rs]; [rewrite <- K2 in H3; discriminate|]. exists [s], rs. cbn [app] in *. split; [exact E|]. split.
    + exists s. split; [reflexivity|]. specialize (H7 O _ eq_refl). destruct ct; cbn in H7; try (now contradiction CT); congruence.
    + split; [rewrite K3; exact H4|]. apply G.
      * rewrite <- K2 in H3. cbn in H3. injection H3. auto.
      * intros i row. exact (H7 (S i) row).
  - exists [], l. cbn [app] in *. split; [exact E|]. split; [reflexivity|]. split; [rewrite K3; exact H4|]. apply G.
    + rewrite K2. exact H3.
    + exact H7.
Qed.

(* the coupons are notional times rate times the period lengths, whatever the basis *)
Lemma coupons_of c rc p a mid b n x nd nt init cd ct side bs cv r dl ys : wf_calendar c -> rc <> Unadjusted -> nt <> OtherTiming -> ct <> OtherTiming ->
  runs_through p a mid b -> add_period_daycount (rows_of p) bs = Ok dl -> add_period_yearfrac (rows_of p) bs = Ok (map Some ys) -> length ys = length (fst p) ->
  exists rows l cs, coupon_schedule c rc (rows_of p) [n] x nd nt init cd ct = Ok rows /\
    new_leg side bs cv FixedLeg x rows [Some r] = Ok l /\
    l_coupons (fst (calc_coupon_payment l None)) = Some (map Some cs) /\ sum_R cs = n * r * Q2R (sum_Q ys).
Proof.
  intros W RC NT CT R D1 Y1 Y2.
  destruct (coupon_rows c rc p a mid b n x nd nt init cd ct W RC NT CT R) as (pre & rs & E & PRE & D & L & F).
  exists (pre ++ rs). unfold new_leg. rewrite D. rewrite <- sum_Q2R.
  destruct (at_start x).
  - destruct PRE as (s & -> & SC). cbn [app]. rewrite daycount_blank, yearfrac_blank, D1, Y1. cbn [bind].
    eexists _, (0 :: map (fun y => n * r * Q2R y) ys). split; [exact E|]. split; [reflexivity|]. split.
    + cbn [calc_coupon_payment l_kind l_rows l_side override_rows fst set_coupons l_coupons]. f_equal.
      replace (length (s :: rs) - 1)%nat with (length rs) by (cbn; lia). cbn [combine map]. f_equal.
      * unfold fixed_coupon. cbn. rewrite SC. reflexivity.
      * apply (coupons_core side n r rs ys); [lia|exact F].
    + apply Rplus_0_l.
  - subst pre. cbn [app]. rewrite D1, Y1. cbn [bind].
    eexists _, (map (fun y => n * r * Q2R y) ys). split; [exact E|]. split; [reflexivity|]. split; [|reflexivity].
    cbn [calc_coupon_payment l_kind l_rows l_side override_rows fst set_coupons l_coupons]. f_equal.
    apply (coupons_core side n r rs ys); [lia|exact F].
Qed.

(* The coupons of a fixed leg over any schedule that runs without gaps from a to b add up to notional times rate times the year
   fraction from a to b: the number of periods, the payment dates, the exchange of notionals and the side do not matter. *)
Theorem C159_total_interest : forall c rc p a mid b n x nd nt init cd ct side bs cv r,
  wf_calendar c -> rc <> Unadjusted -> nt <> OtherTiming -> ct <> OtherTiming ->
  runs_through p a mid b -> nondecreasing (a :: mid ++ [b]) -> additive_basis bs ->
  exists rows l cs q, coupon_schedule c rc (rows_of p) [n] x nd nt init cd ct = Ok rows /\
    new_leg side bs cv FixedLeg x rows [Some r] = Ok l /\
    l_coupons (fst (calc_coupon_payment l None)) = Some (map Some cs) /\
    year_frac [a] [b] bs None = Ok (Scalar q) /\ sum_R cs = n * r * Q2R q.
Proof.
  intros c rc p a mid b n x nd nt init cd ct side bs cv r W RC NT CT R N AB.
  destruct (daycount_telescopes p a mid b bs R N AB) as (dl & D1 & _ & _).
  destruct (yearfrac_telescopes p a mid b bs R N AB) as (ys & q & Y1 & Y2 & Y3 & Y4).
  destruct (coupons_of c rc p a mid b n x nd nt init cd ct side bs cv r _ ys W RC NT CT R D1 Y1 Y2) as (rows & l & cs & E1 & E2 & E3 & E4).
  exists rows, l, cs, q. rewrite <- (Qeq_eqR _ _ Y4). auto.
Qed.

(* The same for the schedules make_schedule builds from a start and an end date. *)
Theorem C159_make_schedule : forall c rc dr s e f fpe lps fs ls p n x nd nt init cd ct side bs cv r,
  wf_calendar c -> rc <> Unadjusted -> nt <> OtherTiming -> ct <> OtherTiming -> additive_basis bs ->
  make_schedule c rc dr s e f fpe lps fs ls false = Ok p -> nondecreasing (fst p ++ [e]) ->
  exists rows l cs q, coupon_schedule c rc (rows_of p) [n] x nd nt init cd ct = Ok rows /\
    new_leg side bs cv FixedLeg x rows [Some r] = Ok l /\
    l_coupons (fst (calc_coupon_payment l None)) = Some (map Some cs) /\
    year_frac [s] [e] bs None = Ok (Scalar q) /\ sum_R cs = n * r * Q2R q.
Proof.
  intros c rc dr s e f fpe lps fs ls p n x nd nt init cd ct side bs cv r W RC NT CT AB M N.
  destruct (make_schedule_contiguous _ _ _ _ _ _ _ _ _ _ _ M) as (_ & mid & R). apply (C159_total_interest c rc p s mid e); auto.
  rewrite R in N. exact N.
Qed.

(* Schedules by whole months, under a modified convention, always exist and all carry the same interest:
   the frequency, the direction, the day roll and the calendar do not matter. *)
Theorem C159_same_interest : forall s e bs n r, (s < e)%Z -> additive_basis bs ->
  exists q, year_frac [s] [e] bs None = Ok (Scalar q) /\
  forall c rc dr f m dir x nd nt init cd ct side cv,
  wf_calendar c -> business_day_every_month c -> modified rc -> valid_day_roll dr -> months_of f = Some m -> nt <> OtherTiming -> ct <> OtherTiming ->
  exists p rows l cs, generate_date_schedule c rc dr s e f dir false = Ok p /\
    coupon_schedule c rc (rows_of p) [n] x nd nt init cd ct = Ok rows /\
    new_leg side bs cv FixedLeg x rows [Some r] = Ok l /\
    l_coupons (fst (calc_coupon_payment l None)) = Some (map Some cs) /\ sum_R cs = n * r * Q2R q.
Proof.
  intros s e bs n r LT AB.
  assert (R0 : runs_through ([s], [e]) s [] e) by reflexivity.
  assert (N0 : nondecreasing (s :: [] ++ [e])) by (unfold nondecreasing; repeat constructor; lia).
  destruct (yearfrac_telescopes _ _ _ _ bs R0 N0 AB) as (_ & q & _ & _ & Q & _). exists q. split; [exact Q|].
  intros c rc dr f m dir x nd nt init cd ct side cv W BM MD VD MO NT CT.
  destruct (generate_strict c rc dr f m s e dir W BM MD VD MO LT) as (p & mid & G & R & ST).
  assert (RC : rc <> Unadjusted) by (destruct MD; congruence).
  assert (N : nondecreasing (s :: mid ++ [e])).
  { clear - ST. unfold nondecreasing, strictly_increasing in *. induction ST as [|y t ST' IH F]; constructor; auto.
    eapply Forall_impl; [|exact F]. cbn. lia. }
  destruct (C159_total_interest c rc p s mid e n x nd nt init cd ct side bs cv r W RC NT CT R N AB) as (rows & l & cs & q' & E1 & E2 & E3 & E4 & E5).
  rewrite Q in E4. injection E4 as <-. exists p, rows, l, cs. auto.
Qed.

(* Under 30/360 the interest depends on how the span is cut. *)
Theorem C159_30_360_refuted : exists p a mid b, runs_through p a mid b /\ nondecreasing (a :: mid ++ [b]) /\
  forall n x side cv r, n * r <> 0 ->
  exists rows l cs q, coupon_schedule default_calendar ModFollowing (rows_of p) [n] x 0 InArrears None 0 InArrears = Ok rows /\
    new_leg side B30_360 cv FixedLeg x rows [Some r] = Ok l /\
    l_coupons (fst (calc_coupon_payment l None)) = Some (map Some cs) /\
    year_frac [a] [b] B30_360 None = Ok (Scalar q) /\ sum_R cs <> n * r * Q2R q.
Proof.
  exists ([mk 2024 1 15; mk 2024 1 31], [mk 2024 1 31; mk 2024 2 15]), (mk 2024 1 15), [mk 2024 1 31], (mk 2024 2 15).
  assert (R : runs_through ([mk 2024 1 15; mk 2024 1 31], [mk 2024 1 31; mk 2024 2 15]) (mk 2024 1 15) [mk 2024 1 31] (mk 2024 2 15)) by reflexivity.
  split; [exact R|]. split; [unfold nondecreasing; repeat (constructor; try (vm_compute; discriminate))|].
  intros n x side cv r NR.
  edestruct (coupons_of default_calendar ModFollowing _ _ _ _ n x 0%Z InArrears None 0%Z InArrears side B30_360 cv r [Some 16%Z; Some 15%Z] [16 # 360; 15 # 360] wf_default
    ltac:(discriminate) ltac:(discriminate) ltac:(discriminate) R) as (rows & l & cs & E1 & E2 & E3 & E4).
  { vm_compute. reflexivity. }
  { vm_compute. reflexivity. }
  { reflexivity. }
  exists rows, l, cs, (30 # 360)%Q. split; [exact E1|]. split; [exact E2|]. split; [exact E3|]. split; [vm_compute; reflexivity|].
  rewrite E4. unfold Q2R. cbn. intros H. apply NR. lra.
Qed.

(* A quarterly leg over one year, with a schedule that meets the hypotheses. *)
Example C159_ex : exists p, make_schedule default_calendar ModFollowing DayUnadjusted (mk 2024 1 15) (mk 2025 1 15) Quarterly None None StubDefault StubDefault false = Ok p /\
  length (fst p) = 4%nat /\ nondecreasing (fst p ++ [mk 2025 1 15]) /\ additive_basis ACT_365 /\ wf_calendar default_calendar /\
  year_frac [mk 2024 1 15] [mk 2025 1 15] ACT_365 None = Ok (Scalar (366 # 365)%Q) /\
  business_day_every_month default_calendar /\ modified ModFollowing /\ valid_day_roll DayUnadjusted /\ months_of Quarterly = Some 3%Z.
Proof.
  eexists. split; [vm_compute; reflexivity|]. split; [reflexivity|].
  split; [unfold nondecreasing; repeat (constructor; try (vm_compute; discriminate))|].
  split; [left; unfold is_act; auto|]. split; [exact wf_default|]. split; [vm_compute; reflexivity|].
  split; [exact default_every_month|]. split; [left; reflexivity|]. split; [exact I|reflexivity].
Qed.

Definition all_theorems := (C159_total_interest, C159_make_schedule, C159_same_interest, C159_30_360_refuted).
Print Assumptions all_theorems.
