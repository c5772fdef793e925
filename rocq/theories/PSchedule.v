(* Properties C18-C24 and C26: schedules. *)
From Coq Require Import ZArith QArith List Bool Lia Sorted.
From Verif Require Import Base Date DateProofs BusDayModel BusDaySpec BusDayProofs DayCountModel DayCountSpec
  ScheduleModel ScheduleSpec ScheduleProofs.
Import ListNotations.
Open Scope Z_scope.

(* ---- C18: termination and size ---- *)
Theorem C18_generation_terminates : forall c rc dr s e f dir ru,
  wf_calendar c -> rc <> Unadjusted -> s < e -> f <> ZeroCoupon ->
  exists p, generate_date_schedule c rc dr s e f dir ru = Ok p /\
    least_days f * (Z.of_nat (length (fst p)) - 1) <= e - s + 32 + 7 * (Z.of_nat (length (holidays c)) + 1).
Proof. exact (fun c rc dr s e f dir ru W R => generate_bound c rc dr W R s e f dir ru). Qed.
Print Assumptions C18_generation_terminates.

Theorem C18_generation_errors : forall c rc dr s e f dir ru, wf_calendar c ->
  (e <= s -> generate_date_schedule c rc dr s e f dir ru = Err ValueError) /\
  (s < e -> f <> ZeroCoupon -> rc = Unadjusted -> generate_date_schedule c rc dr s e f dir ru = Err ValueError) /\
  (s < e -> f = ZeroCoupon -> rc <> Unadjusted -> generate_date_schedule c rc dr s e f dir ru = Err TypeError).
Proof. exact generate_errors. Qed.
Print Assumptions C18_generation_errors.

(* make_schedule returns or raises for all arguments whatever; it never loops. *)
Theorem C18_make_schedule_terminates : forall c rc dr s e f fpe lps fs ls ru, wf_calendar c ->
  make_schedule c rc dr s e f fpe lps fs ls ru <> Err OutOfFuel.
Proof. exact make_schedule_no_fuel. Qed.
Print Assumptions C18_make_schedule_terminates.

Example C18_ex : wf_calendar default_calendar /\
  generate_date_schedule default_calendar ModFollowing DayUnadjusted (mk 2024 1 31) (mk 2024 6 14) Monthly Forward false =
  Ok ([mk 2024 1 31; mk 2024 2 29; mk 2024 3 29; mk 2024 4 30; mk 2024 5 31],
      [mk 2024 2 29; mk 2024 3 29; mk 2024 4 30; mk 2024 5 31; mk 2024 6 14]).
Proof. split; [exact wf_default | vm_compute; reflexivity]. Qed.

(* ---- C19, C20, C21 ---- *)
Theorem C19_contiguous : forall c rc dr s e f dir ru p, generate_date_schedule c rc dr s e f dir ru = Ok p ->
  s < e /\ exists s' mid e', runs_through p s' mid e' /\ (ru = false -> s' = s /\ e' = e).
Proof. exact generate_runs. Qed.
Print Assumptions C19_contiguous.

(* make_schedule: contiguous from start to end whatever the stubs and user dates, when user dates are not rolled. *)
Theorem C19_make_schedule_contiguous : forall c rc dr s e f fpe lps fs ls p,
  make_schedule c rc dr s e f fpe lps fs ls false = Ok p -> s < e /\ exists mid, runs_through p s mid e.
Proof. exact make_schedule_contiguous. Qed.
Print Assumptions C19_make_schedule_contiguous.

(* With roll_user_specified_dates and a user first_period_end on a non business day a gap appears. *)
Theorem C19_rolled_user_dates_refuted : exists c s e f fpe p,
  wf_calendar c /\ make_schedule c ModFollowing DayUnadjusted s e f (Some fpe) None StubDefault StubDefault true = Ok p /\
  ~ exists a mid b, runs_through p a mid b.
Proof.
  exists default_calendar, (mk 2024 1 15), (mk 2024 12 20), Quarterly, (mk 2024 2 10).
  eexists. split; [exact wf_default|]. split; [vm_compute; reflexivity|].
  intros (a & mid & b & H). injection H as H1 H2 H3. subst. discriminate.
Qed.
Print Assumptions C19_rolled_user_dates_refuted.

(* The complete description of a generated schedule: its end points, and for each interior boundary the number of periods
   from the anchor; it stops at the first boundary that reaches the other end. *)
Theorem C20_endpoints_and_C21_boundaries : forall c rc dr s e f dir (ru : bool),
  wf_calendar c -> rc <> Unadjusted -> valid_day_roll dr -> s < e -> f <> ZeroCoupon ->
  exists p s' mid e', generate_date_schedule c rc dr s e f dir ru = Ok p /\ runs_through p s' mid e' /\
    (if ru then roll c rc s = Ok s' /\ roll c rc e = Ok e' else s' = s /\ e' = e) /\
    interior_spec c rc dr f dir s e mid.
Proof. exact (fun c rc dr s e f dir ru W R => generate_spec c rc dr W R s e f dir ru). Qed.
Print Assumptions C20_endpoints_and_C21_boundaries.

Theorem C20_make_schedule_endpoints : forall c rc dr s e f fpe lps fs ls p,
  make_schedule c rc dr s e f fpe lps fs ls false = Ok p ->
  hd_error (fst p) = Some s /\ hd_error (rev (snd p)) = Some e /\ length (fst p) = length (snd p).
Proof. exact make_schedule_ends. Qed.
Print Assumptions C20_make_schedule_endpoints.

Lemma merge_last_nonempty p q : merge_last p = Ok q -> snd q <> [].
Proof. unfold merge_last. intros H. apply bind_ok in H as (x & _ & H). injection H as <-. cbn [snd]. destruct (removelast (removelast (snd p))); discriminate. Qed.
Lemma merge_first_nonempty p q : merge_first p = Ok q -> fst q <> [].
Proof. unfold merge_first. destruct (fst p); [discriminate|]. intros H. injection H as <-. discriminate. Qed.
Lemma generate_nonempty c rc dr s e f dir ru p : generate_date_schedule c rc dr s e f dir ru = Ok p -> fst p <> [].
Proof. intros H. apply generate_runs in H as (_ & s' & mid & e' & R & _). rewrite R. discriminate. Qed.
Lemma make_schedule_nonempty c rc dr s e f fpe lps fs ls ru p : make_schedule c rc dr s e f fpe lps fs ls ru = Ok p ->
  fst p <> [] /\ snd p <> [].
Proof.
  unfold make_schedule. destruct (e <=? s); [discriminate|]. intros H. apply bind_ok in H as (u1 & _ & H). apply bind_ok in H as (u2 & _ & H).
  apply bind_ok in H as (q & Q & H). unfold to_frame in H. destruct (Nat.eqb_spec (length (fst q)) (length (snd q))) as [L|]; [|discriminate]. injection H as <-.
  assert (G : fst q <> [] \/ snd q <> []).
  { destruct (_ || _); [injection Q as <-; left; discriminate|].
    assert (B : schedule_by_dates c rc dr s e f fpe lps fs ls ru = Ok q -> fst q <> [] \/ snd q <> []).
    { unfold schedule_by_dates. intros E. apply bind_ok in E as (pb & Eb & E). apply bind_ok in E as (pf & Ef & E). apply bind_ok in E as (m1 & _ & E). apply bind_ok in E as (m2 & _ & E).
      cbv zeta in E. apply bind_ok in E as (fs' & _ & E). apply bind_ok in E as (ls' & _ & E).
      destruct (_ && _); [apply bind_ok in E as (x & _ & E); apply bind_ok in E as (y & _ & E); apply bind_ok in E as (r & _ & E); injection E as <-; left; discriminate|].
      destruct (_ && _); [apply bind_ok in E as (x & _ & E); apply bind_ok in E as (r & _ & E); destruct (stub_eqb ls' StubLong); [right; exact (merge_last_nonempty _ _ E)|injection E as <-; left; discriminate]|].
      destruct (_ && _); [apply bind_ok in E as (x & _ & E); apply bind_ok in E as (r & _ & E); destruct (stub_eqb fs' StubLong); [left; exact (merge_first_nonempty _ _ E)|injection E as <-; left; cbn [fst]; destruct (fst r); discriminate]|].
      apply bind_ok in E as (u & _ & E).
      destruct (stub_eqb fs' StubNone); [destruct (stub_eqb ls' StubLong); [right; exact (merge_last_nonempty _ _ E)|injection E as <-; left; exact (generate_nonempty _ _ _ _ _ _ _ _ _ Ef)]|].
      destruct (stub_eqb ls' StubNone); [|discriminate]. destruct (stub_eqb fs' StubLong); [left; exact (merge_first_nonempty _ _ E)|injection E as <-; left; exact (generate_nonempty _ _ _ _ _ _ _ _ _ Eb)]. }
    destruct fpe as [x|], lps as [y|]; [destruct (x =? y); [injection Q as <-; left; discriminate|]; auto|auto|auto|].
    unfold schedule_by_stubs in Q. repeat (match type of Q with (bind _ _ = Ok _) => apply bind_ok in Q as (? & ? & Q) | (let '(_, _) := ?z in _) = Ok _ => destruct z | (if ?b then _ else _) = Ok _ => destruct b end; cbv zeta in Q);
      try discriminate; try (left; exact (merge_first_nonempty _ _ Q)); try (right; exact (merge_last_nonempty _ _ Q)); try (injection Q as <-; left; eapply generate_nonempty; eassumption). }
  destruct (fst q), (snd q); try discriminate L; split; try discriminate; destruct G as [G|G]; congruence.
Qed.

(* The object built from a schedule fails exactly when the schedule does, and its start and end dates afterwards are the outer dates of its table. *)
Theorem C20_object_dates : forall c rc dr s e f fpe lps fs ls ru,
  (forall p a b, base_schedule c rc dr s e f fpe lps fs ls ru = Ok (p, a, b) <->
     make_schedule c rc dr s e f fpe lps fs ls ru = Ok p /\ hd_error (fst p) = Some a /\ hd_error (rev (snd p)) = Some b) /\
  (forall x, base_schedule c rc dr s e f fpe lps fs ls ru = Err x <-> make_schedule c rc dr s e f fpe lps fs ls ru = Err x).
Proof.
  intros. unfold base_schedule. destruct (make_schedule c rc dr s e f fpe lps fs ls ru) as [q|x0] eqn:M.
  2: { cbn [bind]. split; [intros; split; [discriminate|intros [X _]; discriminate]|intros; split; intros X; injection X as <-; reflexivity]. }
  cbn [bind]. destruct (make_schedule_nonempty _ _ _ _ _ _ _ _ _ _ _ _ M) as [N1 N2].
  assert (H1 : exists a, hd_error (fst q) = Some a /\ py_nth (fst q) 0 = Ok a) by (unfold py_nth; destruct (fst q); [congruence|eexists; split; reflexivity]).
  assert (H2 : exists b, hd_error (rev (snd q)) = Some b /\ py_last (snd q) = Ok b).
  { unfold py_last. destruct (rev (snd q)) as [|y t] eqn:R; [exfalso; apply N2; rewrite <- (rev_involutive (snd q)), R; reflexivity|eexists; split; reflexivity]. }
  destruct H1 as (a & A1 & A2), H2 as (b & B1 & B2).
  assert (E : (if ru then let* a := py_nth (fst q) 0 in let* b := py_last (snd q) in Ok (q, a, b) else Ok (q, s, e)) = Ok (q, a, b)).
  { destruct ru; [rewrite A2, B2; reflexivity|]. destruct (make_schedule_ends _ _ _ _ _ _ _ _ _ _ _ M) as (S1 & E1 & _). rewrite A1 in S1. rewrite B1 in E1. congruence. }
  rewrite E. split.
  - intros p a' b'. split; [intros X; injection X as <- <- <-; auto|intros (X & Y & Z); injection X as <-; congruence].
  - intros x. split; discriminate.
Qed.
Print Assumptions C20_object_dates.

(* i periods from the anchor is one jump: a 31st anchor gives a month end every time, however short the months between. *)
Theorem C21_no_drift : forall f m anchor i x, months_of f = Some m -> day anchor = 31 -> periods_from f anchor i x ->
  is_month_end x = true /\ month_index x = month_index anchor + m * i.
Proof. exact no_drift. Qed.
Print Assumptions C21_no_drift.

Theorem C21_day_kept : forall f m anchor i x, months_of f = Some m -> day anchor <= 28 -> periods_from f anchor i x ->
  day x = day anchor.
Proof. exact day_kept. Qed.
Print Assumptions C21_day_kept.

(* The model's date arithmetic is exactly that relation. *)
Theorem C21_offsets_are_periods : forall f o anchor i, freq_offset f = Some o ->
  periods_from f anchor i (add_offset anchor (multiply_offset o i)) /\
  periods_from f anchor (- i) (sub_offset anchor (multiply_offset o i)).
Proof. exact multiply_offset_periods. Qed.
Print Assumptions C21_offsets_are_periods.

Example C21_ex : generate_date_schedule default_calendar Following DayUnadjusted (mk 2023 8 31) (mk 2024 8 31) Quarterly Forward false =
  Ok ([mk 2023 8 31; mk 2023 11 30; mk 2024 2 29; mk 2024 5 31], [mk 2023 11 30; mk 2024 2 29; mk 2024 5 31; mk 2024 8 31]) /\
  day (mk 2023 8 31) = 31 /\ months_of Quarterly = Some 3 /\ valid_day_roll (RollDay 20).
Proof. split; [vm_compute; reflexivity|]. split; [reflexivity|]. split; [reflexivity|]. cbn. lia. Qed.

(* ---- C22: order ---- *)
Theorem C22_monthly_strictly_increasing : forall c rc dr f m s e dir,
  wf_calendar c -> business_day_every_month c -> modified rc -> valid_day_roll dr -> months_of f = Some m -> s < e ->
  exists p mid, generate_date_schedule c rc dr s e f dir false = Ok p /\ runs_through p s mid e /\
    strictly_increasing (s :: mid ++ [e]).
Proof. exact generate_strict. Qed.
Print Assumptions C22_monthly_strictly_increasing.

Example C22_ex : wf_calendar default_calendar /\ business_day_every_month default_calendar /\ modified ModPreceding.
Proof. split; [exact wf_default|]. split; [exact default_every_month | right; reflexivity]. Qed.

Theorem C22_nondecreasing : forall c rc dr f s e dir ru,
  wf_calendar c -> f <> ZeroCoupon -> keeps_side c rc dr f dir -> valid_day_roll dr -> s < e ->
  exists p s' mid e', generate_date_schedule c rc dr s e f dir ru = Ok p /\ runs_through p s' mid e' /\
    nondecreasing (s' :: mid ++ [e']).
Proof. exact generate_nondecreasing. Qed.
Print Assumptions C22_nondecreasing.

Theorem C22_interior_nondecreasing : forall c rc dr f s e dir ru,
  wf_calendar c -> rc <> Unadjusted -> f <> ZeroCoupon -> plain f dr -> valid_day_roll dr -> s < e ->
  exists p s' mid e', generate_date_schedule c rc dr s e f dir ru = Ok p /\ runs_through p s' mid e' /\ nondecreasing mid.
Proof. exact generate_interior_nondecreasing. Qed.
Print Assumptions C22_interior_nondecreasing.

(* Daily schedules repeat dates. *)
Theorem C22_daily_duplicates_refuted : exists c s e p, wf_calendar c /\ business_day_every_month c /\
  generate_date_schedule c ModFollowing DayUnadjusted s e Daily Forward false = Ok p /\ ~ NoDup (fst p).
Proof.
  exists default_calendar, (mk 2024 1 4), (mk 2024 1 9). eexists. split; [exact wf_default|]. split; [exact default_every_month|].
  split; [vm_compute; reflexivity|]. intros H. inversion_clear H as [|? ? _ H1]. inversion_clear H1 as [|? ? _ H2].
  inversion_clear H2 as [|? ? H3 _]. apply H3. cbn. auto.
Qed.
Print Assumptions C22_daily_duplicates_refuted.

(* With the default convention a daily schedule can end its first period before it starts. *)
Theorem C22_negative_period_refuted : exists c s e p x y, wf_calendar c /\ business_day_every_month c /\
  generate_date_schedule c ModFollowing DayUnadjusted s e Daily Forward false = Ok p /\
  nth_error (fst p) 0 = Some x /\ nth_error (snd p) 0 = Some y /\ y < x.
Proof.
  exists default_calendar, (mk 2025 8 30), (mk 2025 9 10). eexists. exists (mk 2025 8 30), (mk 2025 8 29).
  split; [exact wf_default|]. split; [exact default_every_month|].
  split; [vm_compute; reflexivity|]. vm_compute. auto.
Qed.
Print Assumptions C22_negative_period_refuted.

(* ---- C23: period lengths add up ---- *)
Theorem C23_day_counts_add_up : forall p a mid b bs,
  runs_through p a mid b -> nondecreasing (a :: mid ++ [b]) -> additive_basis bs ->
  exists l, add_period_daycount (rows_of p) bs = Ok (map Some l) /\ length l = length (fst p) /\
    day_count [a] [b] bs None = Ok (Scalar (sum_Z l)).
Proof. exact daycount_telescopes. Qed.
Print Assumptions C23_day_counts_add_up.

Theorem C23_year_fractions_add_up : forall p a mid b bs,
  runs_through p a mid b -> nondecreasing (a :: mid ++ [b]) -> additive_basis bs ->
  exists l q, add_period_yearfrac (rows_of p) bs = Ok (map Some l) /\ length l = length (fst p) /\
    year_frac [a] [b] bs None = Ok (Scalar q) /\ (sum_Q l == q)%Q.
Proof. exact yearfrac_telescopes. Qed.
Print Assumptions C23_year_fractions_add_up.

Theorem C23_reversed_period_rejected : forall p bs, length (fst p) = length (snd p) -> bad_pair (fst p) (snd p) ->
  add_period_daycount (rows_of p) bs = Err AssertionError.
Proof. exact daycount_rejects_reversed. Qed.
Print Assumptions C23_reversed_period_rejected.

(* 30/360 (bond basis) does not telescope. *)
Theorem C23_30_360_refuted : exists p a mid b l n,
  runs_through p a mid b /\ nondecreasing (a :: mid ++ [b]) /\
  add_period_daycount (rows_of p) B30_360 = Ok (map Some l) /\ day_count [a] [b] B30_360 None = Ok (Scalar n) /\ sum_Z l <> n.
Proof.
  exists ([mk 2024 1 15; mk 2024 1 31], [mk 2024 1 31; mk 2024 2 15]), (mk 2024 1 15), [mk 2024 1 31], (mk 2024 2 15), [16; 15], 30.
  split; [reflexivity|]. split; [|vm_compute; intuition discriminate].
  unfold nondecreasing. repeat (constructor; try (vm_compute; discriminate)).
Qed.
Print Assumptions C23_30_360_refuted.

Example C23_ex : let p := ([mk 2024 1 31; mk 2024 2 29; mk 2024 3 29], [mk 2024 2 29; mk 2024 3 29; mk 2024 4 30]) in
  runs_through p (mk 2024 1 31) [mk 2024 2 29; mk 2024 3 29] (mk 2024 4 30) /\
  nondecreasing (mk 2024 1 31 :: [mk 2024 2 29; mk 2024 3 29] ++ [mk 2024 4 30]) /\ additive_basis ACT_ACT /\
  add_period_daycount (rows_of p) ACT_365 = Ok [Some 29; Some 29; Some 32].
Proof.
  cbv zeta. split; [reflexivity|]. split.
  - unfold nondecreasing. repeat (constructor; try (vm_compute; discriminate)).
  - split; [left; unfold is_act; auto | vm_compute; reflexivity].
Qed.

(* ---- C24: payment dates ---- *)
Theorem C24_payment_dates : forall c rc rows delay t, wf_calendar c -> rc <> Unadjusted -> t <> OtherTiming ->
  exists col, add_payment_dates c rc rows delay t = Ok col /\ length col = length rows /\
    forall i row, nth_error rows i = Some row ->
      match pay_from t row with
      | None => nth_error col i = Some None
      | Some d => exists pd, nth_error col i = Some (Some pd) /\ business_day c pd /\ busday_offset c d delay rc = Ok pd
      end.
Proof. exact payment_dates_spec. Qed.
Print Assumptions C24_payment_dates.

Theorem C24_following_delay : forall c d n pd, wf_calendar c -> 0 <= n -> busday_offset c d n Following = Ok pd ->
  exists s, first_on_or_after c d s /\ s <= pd /\ business_days_between c s pd = Z.to_nat n.
Proof. exact payment_after_following. Qed.
Print Assumptions C24_following_delay.

Theorem C24_payments_ordered : forall c rc n d d' e e', wf_calendar c -> d <= d' ->
  busday_offset c d n rc = Ok e -> busday_offset c d' n rc = Ok e' -> e <= e'.
Proof. exact busday_offset_mono. Qed.
Print Assumptions C24_payments_ordered.

(* Under the default modified following convention the payment can fall before the period end. *)
Theorem C24_modified_following_not_before_refuted : exists c d pd, wf_calendar c /\
  busday_offset c d 0 ModFollowing = Ok pd /\ pd < d.
Proof. exists default_calendar, (mk 2024 3 31), (mk 2024 3 29). split; [exact wf_default | vm_compute; auto]. Qed.
Print Assumptions C24_modified_following_not_before_refuted.

(* Without a roll convention, and with an unknown timing, payment dates are refused, also when no row has a date. *)
Theorem C24_refused : forall c rc rows delay t, rc = Unadjusted \/ t = OtherTiming -> add_payment_dates c rc rows delay t = Err ValueError.
Proof. intros c rc rows delay t [-> | ->]; [destruct t|]; reflexivity. Qed.
Print Assumptions C24_refused.

Example C24_ex : add_payment_dates default_calendar Following
    [(None, None); (Some (mk 2024 1 31), Some (mk 2024 2 29)); (Some (mk 2024 2 29), Some (mk 2024 3 30))] 2 InArrears
  = Ok [None; Some (mk 2024 3 4); Some (mk 2024 4 3)].
Proof. vm_compute. reflexivity. Qed.

(* ---- C26: stubs ---- *)
Theorem C26_stub_settings : forall c rc dr s e f fs ls ru, s < e -> f <> ZeroCoupon ->
  make_schedule c rc dr s e f None None fs ls ru =
  match choice_of fs ls with
  | UseBackward => generate_date_schedule c rc dr s e f Backward ru
  | UseBackwardMerged => let* p := generate_date_schedule c rc dr s e f Backward ru in merge_first_spec p
  | UseForward => generate_date_schedule c rc dr s e f Forward ru
  | UseForwardMerged => let* p := generate_date_schedule c rc dr s e f Forward ru in merge_last_spec p
  | Refused x => Err x
  end.
Proof. exact make_schedule_stubs. Qed.
Print Assumptions C26_stub_settings.

Theorem C26_long_first_merges : forall p a x mid b, runs_through p a (x :: mid) b ->
  exists q, merge_first_spec p = Ok q /\ runs_through q a mid b.
Proof. exact merged_first. Qed.
Print Assumptions C26_long_first_merges.

Theorem C26_long_last_merges : forall p a mid x b, runs_through p a (mid ++ [x]) b ->
  exists q, merge_last_spec p = Ok q /\ runs_through q a mid b.
Proof. exact merged_last. Qed.
Print Assumptions C26_long_last_merges.

(* A long stub requested on a span of a single period is refused. *)
Theorem C26_long_single_period_refused : forall p a b, runs_through p a [] b ->
  merge_first_spec p = Err ValueError /\ merge_last_spec p = Err ValueError.
Proof. exact long_single_refused. Qed.
Print Assumptions C26_long_single_period_refused.

Theorem C26_first_period_end_kept : forall c rc dr s e f x fs ls ru p, f <> ZeroCoupon -> ls <> StubLong ->
  make_schedule c rc dr s e f (Some x) None fs ls ru = Ok p -> nth_error (snd p) 0 = Some x.
Proof. exact first_period_end_kept. Qed.
Print Assumptions C26_first_period_end_kept.

Theorem C26_last_period_start_kept : forall c rc dr s e f x fs ls ru p, f <> ZeroCoupon -> fs <> StubLong -> fs <> StubNone ->
  make_schedule c rc dr s e f None (Some x) fs ls ru = Ok p -> nth_error (rev (fst p)) 0 = Some x.
Proof. exact last_period_start_kept. Qed.
Print Assumptions C26_last_period_start_kept.

Example C26_ex : make_schedule default_calendar ModFollowing DayUnadjusted (mk 2024 1 15) (mk 2024 12 20) Quarterly
    (Some (mk 2024 2 9)) None StubDefault StubDefault false
  = Ok ([mk 2024 1 15; mk 2024 2 9; mk 2024 5 9; mk 2024 8 9; mk 2024 11 11],
        [mk 2024 2 9; mk 2024 5 9; mk 2024 8 9; mk 2024 11 11; mk 2024 12 20]) /\
  make_schedule default_calendar ModFollowing DayUnadjusted (mk 2024 1 15) (mk 2024 12 20) Quarterly
    None (Some (mk 2024 11 5)) StubDefault StubDefault false
  = Ok ([mk 2024 1 15; mk 2024 2 5; mk 2024 5 6; mk 2024 8 5; mk 2024 11 5],
        [mk 2024 2 5; mk 2024 5 6; mk 2024 8 5; mk 2024 11 5; mk 2024 12 20]).
Proof. vm_compute. auto. Qed.

(* With both user dates given the first one can be ignored. *)
Theorem C26_both_dates_refuted : exists c s e fpe lps p, wf_calendar c /\
  make_schedule c ModFollowing DayUnadjusted s e Quarterly (Some fpe) (Some lps) StubDefault StubDefault false = Ok p /\
  ~ In fpe (snd p).
Proof.
  exists default_calendar, (mk 2024 1 15), (mk 2024 12 20), (mk 2024 4 15), (mk 2024 11 5). eexists.
  split; [exact wf_default|]. split; [vm_compute; reflexivity|]. vm_compute. intuition discriminate.
Qed.
Print Assumptions C26_both_dates_refuted.

(* An explicit NONE first stub makes a matching last_period_start be ignored. *)
Theorem C26_last_start_none_stub_refuted : exists c s e lps p, wf_calendar c /\
  make_schedule c ModFollowing DayUnadjusted s e Quarterly None (Some lps) StubNone StubDefault false = Ok p /\
  ~ In lps (fst p).
Proof.
  exists default_calendar, (mk 2024 1 15), (mk 2024 12 20), (mk 2024 9 20). eexists.
  split; [exact wf_default|]. split; [vm_compute; reflexivity|]. vm_compute. intuition discriminate.
Qed.
Print Assumptions C26_last_start_none_stub_refuted.
