From Coq Require Import ZArith QArith List Bool Sorted Lia ZifyBool ZifyNat.
From Verif Require Import Base Date DateProofs BusDayModel BusDaySpec BusDayProofs DayCountModel DayCountSpec DayCountProofs
  ScheduleModel ScheduleSpec.
Import ListNotations.
Open Scope Z_scope.

(* ---- day roll and offsets ---- *)
Lemma mk_month_index d n : 1 <= n <= days_in_month (year d) (month d) -> month_index (mk (year d) (month d) n) = month_index d.
Proof.
  intros H. assert (V : valid (year d) (month d) n) by (split; [apply month_range | exact H]).
  unfold month_index. rewrite (year_mk _ _ _ V), (month_mk _ _ _ V). reflexivity.
Qed.

Lemma mk_day d n : 1 <= n <= days_in_month (year d) (month d) -> day (mk (year d) (month d) n) = n.
Proof.
  intros H. assert (V : valid (year d) (month d) n) by (split; [apply month_range | exact H]).
  apply (day_mk _ _ _ V).
Qed.

Lemma apply_day_roll_index d r : month_index (apply_specific_day_roll d r) = month_index d.
Proof.
  destruct r as [|n|]; cbn [apply_specific_day_roll]; [reflexivity| |apply month_end_index].
  destruct ((1 <=? n) && (n <=? days_in_month (year d) (month d))) eqn:E; [apply mk_month_index; lia | apply month_end_index].
Qed.

Lemma apply_day_roll_spec d r : valid_day_roll r -> on_roll_day r d (apply_specific_day_roll d r).
Proof.
  destruct r as [|n|]; cbn [apply_specific_day_roll on_roll_day valid_day_roll]; intros V; [reflexivity| |].
  - destruct ((1 <=? n) && (n <=? days_in_month (year d) (month d))) eqn:E.
    + split; [apply mk_month_index; lia | rewrite mk_day by lia; lia].
    + split; [apply month_end_index | rewrite month_end_day; lia].
  - split; [apply month_end_index | apply month_end_day].
Qed.

Lemma on_roll_day_unique r x y z : on_roll_day r x y -> on_roll_day r x z -> y = z.
Proof.
  destruct r as [|n|]; cbn [on_roll_day]; [congruence| |]; intros [A B] [C D]; apply date_eq; congruence.
Qed.

Lemma same_month_near a b : month_index a = month_index b -> -30 <= a - b <= 30.
Proof.
  intros H. apply in_month_iff in H as Ha. pose proof (proj1 (in_month_iff b b) eq_refl) as Hb.
  pose proof (month_end_spec b). pose proof (days_in_month_bounds (year b) (month b)). lia.
Qed.

Lemma apply_day_roll_near d r : -30 <= apply_specific_day_roll d r - d <= 30.
Proof. apply same_month_near, apply_day_roll_index. Qed.

Lemma multiply_offset_periods f o anchor i : freq_offset f = Some o ->
  periods_from f anchor i (add_offset anchor (multiply_offset o i)) /\
  periods_from f anchor (- i) (sub_offset anchor (multiply_offset o i)).
Proof.
  unfold add_offset, sub_offset, periods_from.
  destruct f; cbn [freq_offset days_of months_of]; intros [= <-]; cbn [multiply_offset off_days off_months].
  1-3: replace (- (0 * i)) with (0 * i) by lia; replace (0 * i) with 0 by lia; rewrite add_months_0; lia.
  all: replace (0 * i) with 0 by lia; rewrite Z.add_0_r, Z.sub_0_r.
  all: split; (split; [rewrite add_months_month_index; lia | apply add_months_day]).
Qed.

Lemma periods_from_unique f anchor i x y : periods_from f anchor i x -> periods_from f anchor i y -> x = y.
Proof.
  unfold periods_from. destruct (days_of f); [congruence|]. destruct (months_of f); [|tauto].
  intros [A B] [C D]. assert (E : month_index x = month_index y) by lia.
  apply same_month_iff in E as F. destruct F as [F G]. apply date_eq; [exact E|]. rewrite B, D, F, G. reflexivity.
Qed.

(* ---- growth ---- *)
Lemma month_start_step d m : 0 <= m -> month_start (add_months d m) >= month_start d + 28 * m.
Proof.
  intros H. rewrite <- (Z2Nat.id m H). generalize (Z.to_nat m) as k. clear H m.
  induction k as [|k IH]; [rewrite add_months_0; lia|].
  assert (E : add_months d (Z.of_nat k) < add_months d (Z.of_nat (S k))) by (apply add_months_mono; lia).
  assert (I : month_index (add_months d (Z.of_nat (S k))) = month_index (add_months d (Z.of_nat k)) + 1)
    by (rewrite !add_months_month_index; lia).
  remember (add_months d (Z.of_nat k)) as a. remember (add_months d (Z.of_nat (S k))) as b.
  assert (month_end a < month_start b).
  { apply month_index_lt. rewrite month_end_index.
    assert (F : month_index (month_start b) = month_index b) by (apply in_month_iff; pose proof (proj1 (in_month_iff b b) eq_refl); lia).
    lia. }
  pose proof (month_end_spec a). pose proof (days_in_month_bounds (year a) (month a)). lia.
Qed.

Lemma add_months_ge d m : 0 <= m -> add_months d m >= d + 28 * m - 3.
Proof.
  intros H. pose proof (month_start_step d m H). pose proof (add_months_day d m).
  rewrite !month_start_spec in *. pose proof (days_in_month_bounds (year (add_months d m)) (month (add_months d m))).
  pose proof (day_le_31 d). lia.
Qed.

Lemma sub_months_le d m : 0 <= m -> add_months d (- m) <= d - 28 * m.
Proof.
  intros H. pose proof (month_start_step (add_months d (- m)) m H).
  pose proof (add_months_day d (- m)). pose proof (day_le_31 d).
  assert (E : month_start (add_months (add_months d (- m)) m) = month_start d).
  { unfold month_start. assert (I : month_index (add_months (add_months d (-m)) m) = month_index d) by (rewrite !add_months_month_index; lia).
    apply same_month_iff in I as [-> ->]. reflexivity. }
  rewrite E in *. rewrite !month_start_spec in *. lia.
Qed.

Lemma off_grows f o i : freq_offset f = Some o -> 0 <= i ->
  off_days o * i + 28 * (off_months o * i) = least_days f * i /\ 0 <= off_days o * i /\ 0 <= off_months o * i.
Proof.
  unfold least_days.
  destruct f; cbn [freq_offset days_of months_of]; intros [= <-] H; cbn [off_days off_months]; lia.
Qed.

Lemma least_days_pos f : 1 <= least_days f.
Proof. destruct f; vm_compute; discriminate. Qed.

Section Gen.
  Variables (c : calendar) (rc : roll_conv) (dr : day_roll).
  Hypothesis WF : wf_calendar c.
  Hypothesis RC : rc <> Unadjusted.

  Lemma following_near d e : following c d = Ok e -> d <= e < d + Z.of_nat (search_fuel c).
  Proof.
    intros H. apply following_iff in H; [|exact WF]. destruct H as (B & L & N).
    split; [exact L|]. destruct (busday_within_fwd c d WF) as (x & X & Y).
    assert (~ x < e) by (intros K; apply (N x); [lia | exact Y]). lia.
  Qed.
  Lemma preceding_near d e : preceding c d = Ok e -> d - Z.of_nat (search_fuel c) < e <= d.
  Proof.
    intros H. apply preceding_iff in H; [|exact WF]. destruct H as (B & L & N).
    split; [|exact L]. destruct (busday_within_bwd c d WF) as (x & X & Y).
    assert (~ e < x) by (intros K; apply (N x); [lia | exact Y]). lia.
  Qed.

  Lemma roll_near d e : roll c rc d = Ok e -> - Z.of_nat (search_fuel c) < e - d < Z.of_nat (search_fuel c).
  Proof.
    assert (F : 0 < Z.of_nat (search_fuel c)) by (unfold search_fuel; lia).
    destruct rc; cbn [roll]; intros H.
    - congruence.
    - apply following_near in H. lia.
    - apply preceding_near in H. lia.
    - destruct (following c d) as [x|] eqn:E; [cbn [bind] in H|discriminate].
      destruct (month_index x =? month_index d); [injection H as <-; apply following_near in E; lia | apply preceding_near in H; lia].
    - destruct (preceding c d) as [x|] eqn:E; [cbn [bind] in H|discriminate].
      destruct (month_index x =? month_index d); [injection H as <-; apply preceding_near in E; lia | apply following_near in H; lia].
  Qed.

  Lemma nth_date_ok o dir anchor i : exists d, nth_date c rc dr o dir anchor i = Ok d /\ business_day c d.
  Proof. unfold nth_date. rewrite busday_offset_0. apply roll_ok; assumption. Qed.

  Definition signed (dir : direction) (i : Z) : Z := match dir with Forward => i | Backward => - i end.

  Lemma nth_date_boundary f o dir anchor i z : freq_offset f = Some o -> valid_day_roll dr ->
    (nth_date c rc dr o dir anchor i = Ok z <-> boundary c rc dr f anchor (signed dir i) z).
  Proof.
    intros F V. destruct (multiply_offset_periods f o anchor i F) as [A B].
    unfold nth_date, boundary. rewrite busday_offset_0. split.
    - intros H. destruct dir; cbn [signed];
      (eexists; eexists; split; [eassumption | split; [apply apply_day_roll_spec; exact V | exact H]]).
    - intros (x & y & P & Q & R). destruct dir; cbn [signed] in P.
      + rewrite (periods_from_unique _ _ _ _ _ A P), <- (on_roll_day_unique _ _ _ _ Q (apply_day_roll_spec x dr V)). exact R.
      + rewrite (periods_from_unique _ _ _ _ _ B P), <- (on_roll_day_unique _ _ _ _ Q (apply_day_roll_spec x dr V)). exact R.
  Qed.

  Lemma nth_date_fwd_eq o anchor i : nth_date c rc dr o Forward anchor i =
    roll c rc (apply_specific_day_roll (add_months anchor (off_months o * i) + off_days o * i) dr).
  Proof. unfold nth_date. rewrite busday_offset_0. reflexivity. Qed.
  Lemma nth_date_bwd_eq o anchor i : nth_date c rc dr o Backward anchor i =
    roll c rc (apply_specific_day_roll (add_months anchor (- (off_months o * i)) - off_days o * i) dr).
  Proof. unfold nth_date. rewrite busday_offset_0. reflexivity. Qed.

  Lemma near_sum (d ad am x fu : Z) : - fu < d - ad < fu -> -30 <= ad - am <= 30 -> am >= x -> d > x - 30 - fu.
  Proof. lia. Qed.
  Lemma near_sum' (d ad am x fu : Z) : - fu < d - ad < fu -> -30 <= ad - am <= 30 -> am <= x -> d < x + 30 + fu.
  Proof. lia. Qed.

  Lemma nth_date_fwd_ge f o anchor i d : freq_offset f = Some o -> 0 <= i -> nth_date c rc dr o Forward anchor i = Ok d ->
    d > anchor + least_days f * i - 33 - Z.of_nat (search_fuel c).
  Proof.
    intros F I H. rewrite nth_date_fwd_eq in H. apply roll_near in H.
    destruct (off_grows f o i F I) as (G & G1 & G2). pose proof (add_months_ge anchor (off_months o * i) G2) as GE.
    pose proof (near_sum _ _ _ (anchor + least_days f * i - 3) _ H (apply_day_roll_near _ dr)) as K.
    assert (GE2 : add_months anchor (off_months o * i) + off_days o * i >= anchor + least_days f * i - 3).
    { clear - GE G. generalize dependent (add_months anchor (off_months o * i)). intros; lia. }
    specialize (K GE2). clear - K. lia.
  Qed.

  Lemma nth_date_bwd_le f o anchor i d : freq_offset f = Some o -> 0 <= i -> nth_date c rc dr o Backward anchor i = Ok d ->
    d < anchor - least_days f * i + 33 + Z.of_nat (search_fuel c).
  Proof.
    intros F I H. rewrite nth_date_bwd_eq in H. apply roll_near in H.
    destruct (off_grows f o i F I) as (G & G1 & G2). pose proof (sub_months_le anchor (off_months o * i) G2) as GE.
    pose proof (near_sum' _ _ _ (anchor - least_days f * i) _ H (apply_day_roll_near _ dr)) as K.
    assert (GE2 : add_months anchor (- (off_months o * i)) - off_days o * i <= anchor - least_days f * i).
    { clear - GE G. generalize dependent (add_months anchor (- (off_months o * i))). intros; lia. }
    specialize (K GE2). clear - K. lia.
  Qed.

  Definition inside (dir : direction) (limit d : date) : Prop :=
    match dir with Forward => d < limit | Backward => limit < d end.

  Lemma inside_dec dir limit d :
    (match dir with Forward => d <? limit | Backward => limit <? d end) = true <-> inside dir limit d.
  Proof. destruct dir; cbn [inside]; lia. Qed.

  (* the list produced: dates j = i, i+1, ... as long as they are inside *)
  Definition loop_result (o : date_offset) dir anchor limit (i : Z) (ds : list date) : Prop :=
    (forall k d, nth_error ds k = Some d -> nth_date c rc dr o dir anchor (i + Z.of_nat k) = Ok d /\ inside dir limit d) /\
    exists d, nth_date c rc dr o dir anchor (i + Z.of_nat (length ds)) = Ok d /\ ~ inside dir limit d.

  Lemma date_loop_spec o dir anchor limit : forall fuel i ds,
    date_loop c rc dr fuel o dir anchor limit i = Ok ds -> loop_result o dir anchor limit i ds.
  Proof.
    induction fuel as [|n IH]; intros i ds; cbn [date_loop]; [discriminate|].
    destruct (nth_date_ok o dir anchor i) as (d & E & B). rewrite E. cbn [bind].
    destruct (match dir with Forward => d <? limit | Backward => limit <? d end) eqn:T.
    - destruct (date_loop c rc dr n o dir anchor limit (i + 1)) as [t|] eqn:L; cbn [bind]; [|discriminate].
      intros [= <-]. apply IH in L. destruct L as [L1 L2]. split.
      + intros [|k] x; cbn [nth_error].
        * intros [= <-]. replace (i + Z.of_nat 0) with i by lia. split; [exact E | apply inside_dec; exact T].
        * intros H. apply L1 in H. replace (i + Z.of_nat (S k)) with (i + 1 + Z.of_nat k) by lia. exact H.
      + replace (i + Z.of_nat (length (d :: t))) with (i + 1 + Z.of_nat (length t)) by (cbn [length]; lia). exact L2.
    - intros [= <-]. split; [intros [|k] x; discriminate|].
      exists d. cbn [length]. replace (i + Z.of_nat 0) with i by lia. split; [exact E|].
      intros K. apply inside_dec in K. congruence.
  Qed.

  Lemma date_loop_total o dir anchor limit : forall fuel i,
    (exists k, (k < fuel)%nat /\ forall d, nth_date c rc dr o dir anchor (i + Z.of_nat k) = Ok d -> ~ inside dir limit d) ->
    exists ds, date_loop c rc dr fuel o dir anchor limit i = Ok ds.
  Proof.
    induction fuel as [|n IH]; intros i (k & K & H); [lia|]. cbn [date_loop].
    destruct (nth_date_ok o dir anchor i) as (d & E & B). rewrite E. cbn [bind].
    destruct (match dir with Forward => d <? limit | Backward => limit <? d end) eqn:T; [|eexists; reflexivity].
    destruct k as [|k].
    - exfalso. replace (i + Z.of_nat 0) with i in H by lia. apply (H d E), inside_dec, T.
    - destruct (IH (i + 1)) as (t & L).
      { exists k. split; [lia|]. replace (i + 1 + Z.of_nat k) with (i + Z.of_nat (S k)) by lia. exact H. }
      rewrite L. cbn [bind]. eexists. reflexivity.
  Qed.

  Lemma loop_terminates f o dir s e : freq_offset f = Some o -> s < e ->
    exists ds, date_loop c rc dr (loop_fuel c s e) o dir (match dir with Forward => s | Backward => e end)
      (match dir with Forward => e | Backward => s end) 1 = Ok ds.
  Proof.
    intros F L. apply date_loop_total.
    exists (Z.to_nat (e - s + 39 + Z.of_nat (search_fuel c))). split; [unfold loop_fuel; lia|].
    intros d H. pose proof (least_days_pos f). destruct dir; cbn [inside].
    - apply (nth_date_fwd_ge f) in H; [|assumption|lia]. nia.
    - apply (nth_date_bwd_le f) in H; [|assumption|lia]. nia.
  Qed.


  Lemma generate_ok s e f dir (ru : bool) : s < e -> f <> ZeroCoupon ->
    exists (s' e' : date) (o : date_offset) (ds : list date), (if ru then roll c rc s = Ok s' /\ roll c rc e = Ok e' else s' = s /\ e' = e) /\
      freq_offset f = Some o /\
      loop_result o dir (match dir with Forward => s | Backward => e end) (match dir with Forward => e | Backward => s end) 1 ds /\
      generate_date_schedule c rc dr s e f dir ru = Ok (s' :: match dir with Forward => ds | Backward => rev ds end,
        (match dir with Forward => ds | Backward => rev ds end) ++ [e']).
  Proof.
    intros L NZ. unfold generate_date_schedule.
    destruct (e <=? s) eqn:T; [lia|].
    assert (SEX : exists (s' e' : date), (if ru then roll c rc s = Ok s' /\ roll c rc e = Ok e' else s' = s /\ e' = e) /\
      (if ru then busday_offset c s 0 rc else @Ok date s) = Ok s' /\ (if ru then busday_offset c e 0 rc else @Ok date e) = Ok e').
    { destruct ru.
      - destruct (roll_ok c rc s WF RC) as (s' & A & _), (roll_ok c rc e WF RC) as (e' & B & _).
        exists s', e'. rewrite !busday_offset_0. auto.
      - exists s, e. auto. }
    destruct SEX as (s' & e' & SE & -> & ->). cbn [bind].
    destruct (freq_offset f) as [o|] eqn:F; [|destruct f; discriminate + congruence].
    destruct (loop_terminates f o dir s e F L) as (ds & D).
    exists s', e', o, ds. split; [exact SE|]. split; [reflexivity|]. split; [apply (date_loop_spec _ _ _ _ _ _ _ D)|].
    destruct dir; rewrite D; cbn [bind]; [reflexivity|]. rewrite rev_app_distr. reflexivity.
  Qed.

  Lemma loop_interior f o dir s e ds : valid_day_roll dr -> freq_offset f = Some o ->
    loop_result o dir (match dir with Forward => s | Backward => e end) (match dir with Forward => e | Backward => s end) 1 ds ->
    interior_spec c rc dr f dir s e (match dir with Forward => ds | Backward => rev ds end).
  Proof.
    intros V F [A B]. unfold interior_spec. destruct dir; cbn [inside] in *.
    - split.
      + intros k d H. destruct (A k d H) as [C D]. apply (nth_date_boundary f) in C; [|assumption..].
        cbn [signed] in C. replace (Z.of_nat k + 1) with (1 + Z.of_nat k) by lia. auto.
      + destruct B as (d & C & D). apply (nth_date_boundary f) in C; [|assumption..]. exists d.
        cbn [signed] in C. replace (Z.of_nat (length ds) + 1) with (1 + Z.of_nat (length ds)) by lia. split; [exact C | lia].
    - rewrite rev_involutive. split.
      + intros k d H. destruct (A k d H) as [C D]. apply (nth_date_boundary f) in C; [|assumption..].
        cbn [signed] in C. replace (- (Z.of_nat k + 1)) with (- (1 + Z.of_nat k)) by lia. auto.
      + destruct B as (d & C & D). apply (nth_date_boundary f) in C; [|assumption..]. exists d.
        cbn [signed] in C. rewrite rev_length.
        replace (- (Z.of_nat (length ds) + 1)) with (- (1 + Z.of_nat (length ds))) by lia. split; [exact C | lia].
  Qed.

  Theorem generate_spec s e f dir (ru : bool) : valid_day_roll dr -> s < e -> f <> ZeroCoupon ->
    exists (p : schedule) (s' : date) (mid : list date) (e' : date), generate_date_schedule c rc dr s e f dir ru = Ok p /\ runs_through p s' mid e' /\
      (if ru then roll c rc s = Ok s' /\ roll c rc e = Ok e' else s' = s /\ e' = e) /\
      interior_spec c rc dr f dir s e mid.
  Proof.
    intros V L NZ. destruct (generate_ok s e f dir ru L NZ) as (s' & e' & o & ds & SE & F & LR & G).
    eexists; exists s', (match dir with Forward => ds | Backward => rev ds end), e'.
    split; [exact G|]. split; [reflexivity|]. split; [exact SE|]. eapply loop_interior; eassumption.
  Qed.

  Lemma interior_count f o dir s e ds : s < e -> freq_offset f = Some o ->
    loop_result o dir (match dir with Forward => s | Backward => e end) (match dir with Forward => e | Backward => s end) 1 ds ->
    least_days f * Z.of_nat (length ds) <= e - s + 32 + 7 * (Z.of_nat (length (holidays c)) + 1).
  Proof.
    intros L F [A _]. destruct (length ds) as [|n] eqn:N; [lia|].
    destruct (nth_error ds n) as [d|] eqn:E; [|apply nth_error_None in E; lia].
    destruct (A n d E) as [B I]. assert (FU : Z.of_nat (search_fuel c) = 7 * (Z.of_nat (length (holidays c)) + 1)) by (unfold search_fuel; lia).
    destruct dir; cbn [inside] in I.
    - apply (nth_date_fwd_ge f) in B; [|assumption|lia]. replace (1 + Z.of_nat n) with (Z.of_nat (S n)) in B by lia. lia.
    - apply (nth_date_bwd_le f) in B; [|assumption|lia]. replace (1 + Z.of_nat n) with (Z.of_nat (S n)) in B by lia. lia.
  Qed.

  Theorem generate_bound s e f dir (ru : bool) : s < e -> f <> ZeroCoupon ->
    exists p, generate_date_schedule c rc dr s e f dir ru = Ok p /\
      least_days f * (Z.of_nat (length (fst p)) - 1) <= e - s + 32 + 7 * (Z.of_nat (length (holidays c)) + 1).
  Proof.
    intros L NZ. destruct (generate_ok s e f dir ru L NZ) as (s' & e' & o & ds & SE & F & LR & G).
    eexists. split; [exact G|]. cbn [fst length]. apply (interior_count f o dir s e ds L F) in LR.
    destruct dir; rewrite ?rev_length; lia.
  Qed.
End Gen.

Arguments boundary : simpl never.

(* ---- sorted lists ---- *)
Lemma sorted_nth (R : Z -> Z -> Prop) (l : list Z) :
  (forall i j x y, (i < j)%nat -> nth_error l i = Some x -> nth_error l j = Some y -> R x y) -> StronglySorted R l.
Proof.
  induction l as [|a l IH]; intros H; [constructor|]. constructor.
  - apply IH. intros i j x y L A B. apply (H (S i) (S j)); [lia|exact A|exact B].
  - apply Forall_forall. intros x I. apply In_nth_error in I as (k & K). apply (H 0%nat (S k)); [lia|reflexivity|exact K].
Qed.

Lemma sorted_app (R : Z -> Z -> Prop) (l m : list Z) :
  StronglySorted R l -> StronglySorted R m -> (forall x y, In x l -> In y m -> R x y) -> StronglySorted R (l ++ m).
Proof.
  induction l as [|a l IH]; intros A B C; [exact B|]. cbn [app]. inversion A as [|? ? D E]; subst. constructor.
  - apply IH; [exact D|exact B|]. intros; apply C; [right; assumption|assumption].
  - apply Forall_app. split; [exact E|]. apply Forall_forall. intros; apply C; [left; reflexivity|assumption].
Qed.

Lemma sorted_rev (R : Z -> Z -> Prop) (l : list Z) : StronglySorted (fun x y => R y x) (rev l) -> StronglySorted R l.
Proof.
  intros H. rewrite <- (rev_involutive l). generalize dependent (rev l). clear l. intros l.
  induction l as [|a l IH]; intros A; [constructor|]. cbn [rev]. inversion A as [|? ? D E]; subst.
  apply sorted_app; [apply IH, D | constructor; constructor |].
  intros x y I [<-|[]]. rewrite <- in_rev in I. rewrite Forall_forall in E. apply E, I.
Qed.

Lemma sorted_ends (R : Z -> Z -> Prop) a (mid : list Z) b : StronglySorted R mid -> (forall x, In x mid -> R a x) ->
  (forall x, In x mid -> R x b) -> R a b -> StronglySorted R (a :: mid ++ [b]).
Proof.
  intros A B C D. constructor.
  - apply sorted_app; [exact A | constructor; constructor |]. intros x y I [<-|[]]. apply C, I.
  - apply Forall_app. split; [apply Forall_forall, B | repeat constructor; exact D].
Qed.

(* ---- monotonicity of boundaries ---- *)
Lemma months_pos f m : months_of f = Some m -> 1 <= m.
Proof. destruct f; cbn; intros [= <-]; lia. Qed.
Lemma days_pos f n : days_of f = Some n -> 1 <= n.
Proof. destruct f; cbn; intros [= <-]; lia. Qed.
Lemma months_not_days f m : months_of f = Some m -> days_of f = None.
Proof. destruct f; cbn; congruence. Qed.

Lemma periods_from_lt f anchor i j x y : i < j -> periods_from f anchor i x -> periods_from f anchor j y -> x < y.
Proof.
  unfold periods_from. intros L. destruct (days_of f) as [n|] eqn:D.
  - apply days_pos in D. intros -> ->. nia.
  - destruct (months_of f) as [m|] eqn:M; [|tauto]. apply months_pos in M. intros [A _] [B _]. apply month_index_lt. nia.
Qed.

Lemma periods_from_0 f anchor x : periods_from f anchor 0 x -> x = anchor.
Proof.
  unfold periods_from. destruct (days_of f); [lia|]. destruct (months_of f); [|tauto].
  intros [A B]. assert (E : month_index x = month_index anchor) by lia. apply date_eq; [exact E|].
  apply same_month_iff in E as [F G]. rewrite B, F, G. pose proof (day_range anchor). lia.
Qed.

Lemma periods_from_self f anchor : f <> ZeroCoupon -> periods_from f anchor 0 anchor.
Proof.
  intros NZ. unfold periods_from. destruct (days_of f) eqn:D; [lia|]. destruct (months_of f) eqn:M; [|destruct f; cbn in *; congruence].
  split; [lia|]. pose proof (day_range anchor). lia.
Qed.

Lemma on_roll_day_index r x y : on_roll_day r x y -> month_index y = month_index x.
Proof. destruct r; cbn [on_roll_day]; [intros ->; reflexivity|tauto|tauto]. Qed.


Lemma rolled_lt f dr anchor i j x y x' y' : plain f dr -> i < j -> periods_from f anchor i x -> periods_from f anchor j y ->
  on_roll_day dr x x' -> on_roll_day dr y y' -> x' < y'.
Proof.
  intros P L A B C D. destruct P as [->|[m M]].
  - cbn in C, D. subst. eapply periods_from_lt; eassumption.
  - apply on_roll_day_index in C, D. apply month_index_lt. rewrite C, D. unfold periods_from in A, B.
    rewrite (months_not_days f m M), M in *. apply months_pos in M. destruct A as [-> _], B as [-> _]. nia.
Qed.

Lemma boundary_mono c rc dr f anchor i j x y : wf_calendar c -> plain f dr -> i < j ->
  boundary c rc dr f anchor i x -> boundary c rc dr f anchor j y -> x <= y.
Proof.
  intros W P L (a & a' & A1 & A2 & A3) (b & b' & B1 & B2 & B3).
  assert (a' < b') by (eapply rolled_lt; eassumption). apply (roll_mono c rc a' b'); [exact W|lia|exact A3|exact B3].
Qed.

Lemma boundary_business c rc dr f anchor i x : wf_calendar c -> boundary c rc dr f anchor i x -> business_day c x.
Proof.
  intros W (a & b & A & B & C). destruct rc; try discriminate;
  match type of C with roll c ?r b = _ => destruct (roll_ok c r b W) as (e & E & F); [discriminate|]; congruence end.
Qed.

Lemma modified_month c rc d e : wf_calendar c -> business_day_every_month c -> modified rc -> roll c rc d = Ok e ->
  month_index e = month_index d.
Proof.
  intros W M [-> | ->] H.
  - destruct (roll_modfol_month c d W (M d)) as (x & A & _ & B). congruence.
  - destruct (roll_modprec_month c d W (M d)) as (x & A & _ & B). congruence.
Qed.

Lemma boundary_month c rc dr f m anchor i x : wf_calendar c -> business_day_every_month c -> modified rc -> months_of f = Some m ->
  boundary c rc dr f anchor i x -> month_index x = month_index anchor + m * i.
Proof.
  intros W B M F (a & b & P & Q & R). rewrite (modified_month _ _ _ _ W B M R), (on_roll_day_index _ _ _ Q).
  unfold periods_from in P. rewrite (months_not_days f m F), F in P. apply P.
Qed.

Lemma modified_not_unadjusted rc : modified rc -> rc <> Unadjusted.
Proof. intros [-> | ->]; discriminate. Qed.

Lemma in_rev_nth {A} (l : list A) x : In x l -> exists k, nth_error (rev l) k = Some x.
Proof. intros H. apply In_nth_error. rewrite <- in_rev. exact H. Qed.

Lemma interior_sorted_strict c rc dr f m dir s e mid : wf_calendar c -> business_day_every_month c -> modified rc ->
  months_of f = Some m -> s < e -> interior_spec c rc dr f dir s e mid -> strictly_increasing (s :: mid ++ [e]).
Proof.
  intros W B M F L I. pose proof (months_pos f m F) as MP. unfold strictly_increasing.
  destruct dir; cbn [interior_spec] in I; destruct I as [I _]; apply sorted_ends; try exact L.
  - apply sorted_nth. intros i j x y LT X Y. apply I in X as [X _], Y as [Y _].
    apply (boundary_month _ _ _ _ m) in X, Y; try assumption. apply month_index_lt. nia.
  - intros x X. apply In_nth_error in X as (k & K). apply I in K as [K _].
    apply (boundary_month _ _ _ _ m) in K; try assumption. apply month_index_lt. nia.
  - intros x X. apply In_nth_error in X as (k & K). apply I in K as [_ K]. exact K.
  - apply sorted_rev. apply sorted_nth. intros i j x y LT X Y. apply I in X as [X _], Y as [Y _].
    apply (boundary_month _ _ _ _ m) in X, Y; try assumption. apply month_index_lt. nia.
  - intros x X. apply in_rev_nth in X as (k & K). apply I in K as [_ K]. exact K.
  - intros x X. apply in_rev_nth in X as (k & K). apply I in K as [K _].
    apply (boundary_month _ _ _ _ m) in K; try assumption. apply month_index_lt. nia.
Qed.

Theorem generate_strict c rc dr f m s e dir : wf_calendar c -> business_day_every_month c -> modified rc -> valid_day_roll dr ->
  months_of f = Some m -> s < e ->
  exists p mid, generate_date_schedule c rc dr s e f dir false = Ok p /\ runs_through p s mid e /\ strictly_increasing (s :: mid ++ [e]).
Proof.
  intros W B M V F L.
  destruct (generate_spec c rc dr W (modified_not_unadjusted rc M) s e f dir false V L) as (p & s' & mid & e' & G & R & [-> ->] & I).
  { intros ->. discriminate. }
  exists p, mid. split; [exact G|]. split; [exact R|]. eapply interior_sorted_strict; eassumption.
Qed.

Lemma interior_nondecreasing c rc dr f dir s e mid : wf_calendar c -> plain f dr -> interior_spec c rc dr f dir s e mid -> nondecreasing mid.
Proof.
  intros W P I. destruct dir; cbn [interior_spec] in I; destruct I as [I _].
  - apply sorted_nth. intros i j x y LT X Y. apply I in X as [X _], Y as [Y _].
    eapply boundary_mono; [exact W | exact P | | exact X | exact Y]. lia.
  - apply sorted_rev. apply sorted_nth. intros i j x y LT X Y. apply I in X as [X _], Y as [Y _].
    eapply boundary_mono; [exact W | exact P | | exact Y | exact X]. lia.
Qed.


Lemma keeps_side_plain c rc dr f dir : keeps_side c rc dr f dir -> plain f dr /\ rc <> Unadjusted.
Proof.
  unfold plain. destruct dir; cbn [keeps_side]; intros [[-> ->]|(M & _ & E)]; (split; [auto|]); try discriminate; apply modified_not_unadjusted, M.
Qed.

Lemma interior_side c rc dr f dir s e mid x : wf_calendar c -> f <> ZeroCoupon -> keeps_side c rc dr f dir -> interior_spec c rc dr f dir s e mid ->
  In x mid -> s < x < e.
Proof.
  intros W NZ K I X. destruct dir; cbn [interior_spec keeps_side] in *; destruct I as [I _].
  - apply In_nth_error in X as (k & H). apply I in H as [H U]. split; [|exact U].
    destruct K as [[-> ->]|(M & B & m & F)].
    + destruct H as (a & b & P & Q & R). cbn in Q. subst b. cbn [roll] in R. apply following_iff in R; [|exact W].
      assert (s < a) by (apply (periods_from_lt f s 0 (Z.of_nat k + 1)); [lia | apply periods_from_self, NZ | exact P]).
      destruct R as (_ & R & _). lia.
    + apply (boundary_month _ _ _ _ m) in H; try assumption. apply months_pos in F. apply month_index_lt. nia.
  - apply in_rev_nth in X as (k & H). apply I in H as [H U]. split; [exact U|].
    destruct K as [[-> ->]|(M & B & m & F)].
    + destruct H as (a & b & P & Q & R). cbn in Q. subst b. cbn [roll] in R. apply preceding_iff in R; [|exact W].
      assert (a < e) by (apply (periods_from_lt f e (- (Z.of_nat k + 1)) 0); [lia | exact P | apply periods_from_self, NZ]).
      destruct R as (_ & R & _). lia.
    + apply (boundary_month _ _ _ _ m) in H; try assumption. apply months_pos in F. apply month_index_lt. nia.
Qed.

Lemma interior_in_business c rc dr f dir s e mid x : wf_calendar c -> interior_spec c rc dr f dir s e mid -> In x mid -> business_day c x.
Proof.
  intros W I X. destruct dir; cbn [interior_spec] in I; destruct I as [I _].
  - apply In_nth_error in X as (k & H). apply I in H as [H U]. eapply boundary_business; eassumption.
  - apply in_rev_nth in X as (k & H). apply I in H as [H U]. eapply boundary_business; eassumption.
Qed.

Theorem generate_nondecreasing c rc dr f s e dir (ru : bool) : wf_calendar c -> f <> ZeroCoupon -> keeps_side c rc dr f dir -> valid_day_roll dr ->
  s < e ->
  exists p s' mid e', generate_date_schedule c rc dr s e f dir ru = Ok p /\ runs_through p s' mid e' /\ nondecreasing (s' :: mid ++ [e']).
Proof.
  intros W NZ K V L. destruct (keeps_side_plain _ _ _ _ _ K) as [P RC].
  destruct (generate_spec c rc dr W RC s e f dir ru V L NZ) as (p & s' & mid & e' & G & R & SE & I).
  exists p, s', mid, e'. split; [exact G|]. split; [exact R|].
  assert (LB : forall x, In x mid -> s < x < e) by (intros; eapply interior_side; eassumption).
  assert (BD : forall x, In x mid -> roll c rc x = Ok x) by (intros; apply roll_id; [assumption..|]; eapply interior_in_business; eassumption).
  apply sorted_ends; [eapply interior_nondecreasing; eassumption | | |].
  - intros x X. specialize (LB x X). destruct ru; [|destruct SE; lia]. destruct SE as [A _].
    apply (roll_mono c rc s x); [exact W | lia | exact A | apply BD, X].
  - intros x X. specialize (LB x X). destruct ru; [|destruct SE; lia]. destruct SE as [_ A].
    apply (roll_mono c rc x e); [exact W | lia | apply BD, X | exact A].
  - destruct ru; [|destruct SE; lia]. destruct SE as [A B]. apply (roll_mono c rc s e); [exact W | lia | exact A | exact B].
Qed.

(* interior dates only, for any roll convention *)
Theorem generate_interior_nondecreasing c rc dr f s e dir (ru : bool) : wf_calendar c -> rc <> Unadjusted -> f <> ZeroCoupon -> plain f dr ->
  valid_day_roll dr -> s < e ->
  exists p s' mid e', generate_date_schedule c rc dr s e f dir ru = Ok p /\ runs_through p s' mid e' /\ nondecreasing mid.
Proof.
  intros W RC NZ P V L.
  destruct (generate_spec c rc dr W RC s e f dir ru V L NZ) as (p & s' & mid & e' & G & R & SE & I).
  exists p, s', mid, e'. split; [exact G|]. split; [exact R|]. eapply interior_nondecreasing; eassumption.
Qed.

(* ---- day counts of the periods ---- *)
Lemma both_dates_rows l m : valid_dates (both_dates (combine (map Some l) (map Some m))) = combine l m /\
  both_dates (combine (map Some l) (map Some m)) = map Some (combine l m).
Proof.
  assert (E : both_dates (combine (map Some l) (map Some m)) = map Some (combine l m)).
  { revert m. induction l as [|a l IH]; intros [|b m]; [reflexivity..|].
    change (both_dates (combine (map Some (a :: l)) (map Some (b :: m)))) with (Some (a, b) :: both_dates (combine (map Some l) (map Some m))).
    rewrite IH. reflexivity. }
  split; [|exact E]. rewrite E. generalize (combine l m). intros k. induction k as [|x k IH]; [reflexivity|].
  change (valid_dates (map Some (x :: k))) with (x :: valid_dates (map Some k)). rewrite IH. reflexivity.
Qed.

Lemma combine_fst {A B} (l : list A) (m : list B) : length l = length m -> map fst (combine l m) = l.
Proof. revert m. induction l as [|a l IH]; intros [|b m]; cbn; intros H; try discriminate; [reflexivity|]. f_equal. apply IH. lia. Qed.
Lemma combine_snd {A B} (l : list A) (m : list B) : length l = length m -> map snd (combine l m) = m.
Proof. revert m. induction l as [|a l IH]; intros [|b m]; cbn; intros H; try discriminate; [reflexivity|]. f_equal. apply IH. lia. Qed.

Lemma scatter_full {A B} (l : list A) (vs : list B) : length vs = length l -> scatter (map Some l) vs = map Some vs.
Proof. revert vs. induction l as [|a l IH]; intros [|v vs]; cbn; intros H; try discriminate; [reflexivity|]. f_equal. apply IH. lia. Qed.

Lemma runs_length p a mid b : runs_through p a mid b -> length (fst p) = length (snd p).
Proof. intros ->. cbn [fst snd length]. rewrite app_length. cbn. lia. Qed.

Lemma sorted_no_bad a mid b : nondecreasing (a :: mid ++ [b]) -> ~ bad_pair (a :: mid) (mid ++ [b]).
Proof.
  revert a. induction mid as [|x mid IH]; intros a H (i & u & v & U & Vx & L).
  - cbn in *. inversion H as [|? ? _ F]; subst. inversion F; subst. destruct i as [|[|i]]; cbn in *; try discriminate.
    injection U as <-. injection Vx as <-. lia.
  - inversion H as [|? ? S F]; subst. destruct i as [|i]; cbn in U, Vx.
    + injection U as <-. injection Vx as <-. inversion F; subst. lia.
    + apply (IH x S). exists i, u, v. auto.
Qed.

Lemma map2_sum (g : date -> date -> Z) a mid b : (forall x y z, g x y + g y z = g x z) -> sum_Z (map2 g (a :: mid) (mid ++ [b])) = g a b.
Proof.
  intros T. revert a. induction mid as [|x mid IH]; intros a; [cbn; lia|].
  cbn [app]. change (map2 g (a :: x :: mid) (x :: mid ++ [b])) with (g a x :: map2 g (x :: mid) (mid ++ [b])).
  cbn [sum_Z fold_right]. change (fold_right Z.add 0 (map2 g (x :: mid) (mid ++ [b]))) with (sum_Z (map2 g (x :: mid) (mid ++ [b]))).
  rewrite IH. apply T.
Qed.

Lemma map2_sum_Q (g : date -> date -> Q) a mid b : (forall x y z, (g x y + g y z == g x z)%Q) -> (sum_Q (map2 g (a :: mid) (mid ++ [b])) == g a b)%Q.
Proof.
  intros T. revert a. induction mid as [|x mid IH]; intros a.
  - cbn. apply Qplus_0_r.
  - cbn [app]. change (map2 g (a :: x :: mid) (x :: mid ++ [b])) with (g a x :: map2 g (x :: mid) (mid ++ [b])).
    cbn [sum_Q fold_right]. change (fold_right Qplus 0%Q (map2 g (x :: mid) (mid ++ [b]))) with (sum_Q (map2 g (x :: mid) (mid ++ [b]))).
    rewrite IH. apply T.
Qed.

Lemma to_output_list {A} (l : list A) n : length l = n -> exists o, to_output (n =? 1)%nat l = Ok o /\ out_list n o = l.
Proof.
  intros <-. unfold to_output. destruct l as [|x [|y l]]; cbn; eexists; (split; [reflexivity|]); reflexivity.
Qed.


Lemma day_count_map2 s e bs g : length s = length e -> ~ bad_pair s e ->
  (is_act bs /\ g = dc_act \/ bs = B30E_360 /\ g = dc_30E_360) ->
  exists o, day_count s e bs None = Ok o /\ out_list (length s) o = map2 g s e.
Proof.
  intros L NB G. unfold day_count. rewrite (same_shape_eq s e L).
  destruct (check_order_spec s e L) as [[-> _]|[_ H]]; [|contradiction]. cbn [bind].
  destruct (to_output_list (map2 g s e) (length s)) as (o & O1 & O2); [rewrite map2_length; lia|].
  exists o. split; [|exact O2]. rewrite <- O1. destruct G as [[A ->]|[-> ->]]; [|reflexivity].
  destruct A as [->|[->|[->| ->]]]; reflexivity.
Qed.

Lemma scalar_of bs g a b : a <= b -> (is_act bs /\ g = dc_act \/ bs = B30E_360 /\ g = dc_30E_360) -> day_count [a] [b] bs None = Ok (Scalar (g a b)).
Proof.
  intros L [[A ->]|[-> ->]].
  - rewrite dc_act_scalar by exact A. destruct (a <=? b) eqn:E; [reflexivity|lia].
  - rewrite dc_30E_360_scalar. destruct (a <=? b) eqn:E; [reflexivity|lia].
Qed.

Lemma ends_le a mid b : nondecreasing (a :: mid ++ [b]) -> a <= b.
Proof. intros H. inversion H as [|? ? _ F]; subst. rewrite Forall_forall in F. apply F. apply in_or_app. right. left. reflexivity. Qed.

Theorem daycount_telescopes p a mid b bs : runs_through p a mid b -> nondecreasing (a :: mid ++ [b]) -> additive_basis bs ->
  exists l, add_period_daycount (rows_of p) bs = Ok (map Some l) /\ length l = length (fst p) /\
    day_count [a] [b] bs None = Ok (Scalar (sum_Z l)).
Proof.
  intros R N AB.
  assert (exists g, (is_act bs /\ g = dc_act \/ bs = B30E_360 /\ g = dc_30E_360) /\ forall x y z, g x y + g y z = g x z) as (g & G & T).
  { destruct AB as [A|A].
    - exists dc_act. split; [left; auto|]. unfold dc_act. intros; lia.
    - exists dc_30E_360. split; [right; auto|]. apply dc_30E_add. }
  pose proof (runs_length _ _ _ _ R) as LEN. unfold add_period_daycount, rows_of.
  destruct (both_dates_rows (fst p) (snd p)) as [V E]. rewrite V, E, combine_fst, combine_snd by exact LEN.
  destruct (day_count_map2 (fst p) (snd p) bs g LEN) as (o & O1 & O2).
  { rewrite R. apply sorted_no_bad, N. }
  { exact G. }
  rewrite O1. cbn [bind]. exists (map2 g (fst p) (snd p)).
  assert (ML : length (map2 g (fst p) (snd p)) = length (fst p)) by (rewrite map2_length; lia).
  split; [|split; [exact ML|]].
  - f_equal. replace (length (combine (fst p) (snd p))) with (length (fst p)) by (rewrite combine_length; lia).
    rewrite O2. apply scatter_full. rewrite ML, combine_length. lia.
  - rewrite R. cbn [fst snd]. rewrite map2_sum by exact T. apply scalar_of; [|exact G]. eapply ends_le, N.
Qed.

Lemma out_list_map {A B} (f : A -> B) n o : out_list n (out_map f o) = map f (out_list n o).
Proof. destruct o; cbn; [|reflexivity]. induction n; cbn; [reflexivity|]. f_equal. assumption. Qed.

Lemma map_map2 {A B C D} (h : C -> D) (f : A -> B -> C) l m : map h (map2 f l m) = map2 (fun x y => h (f x y)) l m.
Proof. unfold map2. rewrite map_map. reflexivity. Qed.

Lemma year_frac_map2 s e bs : length s = length e -> ~ bad_pair s e -> additive_basis bs ->
  exists g : date -> date -> Q, (forall x y z, (g x y + g y z == g x z)%Q) /\ (forall a b, a <= b -> year_frac [a] [b] bs None = Ok (Scalar (g a b))) /\
  exists o, year_frac s e bs None = Ok o /\ out_list (length s) o = map2 g s e.
Proof.
  intros L NB AB.
  assert (ACT : forall k : Q, forall b0, is_act b0 -> year_frac s e b0 None = result_map (out_map (fun n => inject_Z n / k)%Q) (day_count s e b0 None) ->
     (forall a b, year_frac [a] [b] b0 None = result_map (out_map (fun n => inject_Z n / k)%Q) (day_count [a] [b] b0 None)) ->
     exists g : date -> date -> Q, (forall x y z, (g x y + g y z == g x z)%Q) /\ (forall a b, a <= b -> year_frac [a] [b] b0 None = Ok (Scalar (g a b))) /\
     exists o, year_frac s e b0 None = Ok o /\ out_list (length s) o = map2 g s e).
  { intros k b0 A E1 E2. exists (fun x y => inject_Z (dc_act x y) / k)%Q. split; [|split].
    - intros x y z. unfold Qdiv. rewrite <- Qmult_plus_distr_l, <- inject_Z_plus. unfold dc_act. replace (y - x + (z - y)) with (z - x) by lia. reflexivity.
    - intros a b LE. rewrite E2, dc_act_scalar by exact A. destruct (a <=? b) eqn:EE; [reflexivity|lia].
    - destruct (day_count_map2 s e b0 dc_act L NB) as (o & O1 & O2); [left; auto|].
      rewrite E1, O1. cbn [result_map]. eexists. split; [reflexivity|]. rewrite out_list_map, O2, map_map2. reflexivity. }
  destruct AB as [[->|[->|[->| ->]]]| ->].
  - apply (ACT 360%Q); [left; reflexivity | reflexivity | reflexivity].
  - apply (ACT 365%Q); [right; left; reflexivity | reflexivity | reflexivity].
  - exists yf_act_act. split; [apply act_act_additive|]. split.
    + intros a b LE. rewrite act_act_scalar. destruct (a <=? b) eqn:EE; [reflexivity|lia].
    + unfold year_frac. rewrite (same_shape_eq s e L).
      destruct (check_order_spec s e L) as [[-> _]|[_ H]]; [|contradiction]. cbn [bind].
      apply (to_output_list (map2 yf_act_act s e) (length s)). rewrite map2_length. rewrite L. apply Nat.min_id.
  - apply (ACT 366%Q); [right; right; right; reflexivity | reflexivity | reflexivity].
  - exists (fun x y => inject_Z (dc_30E_360 x y) / 360)%Q. split; [|split].
    + intros x y z. unfold Qdiv. rewrite <- Qmult_plus_distr_l, <- inject_Z_plus, dc_30E_add. reflexivity.
    + intros a b LE. cbn [year_frac]. rewrite dc_30E_360_scalar. destruct (a <=? b) eqn:EE; [reflexivity|lia].
    + destruct (day_count_map2 s e B30E_360 dc_30E_360 L NB) as (o & O1 & O2); [right; auto|].
      cbn [year_frac]. rewrite O1. cbn [result_map]. eexists. split; [reflexivity|]. rewrite out_list_map, O2, map_map2. reflexivity.
Qed.

Theorem yearfrac_telescopes p a mid b bs : runs_through p a mid b -> nondecreasing (a :: mid ++ [b]) -> additive_basis bs ->
  exists l q, add_period_yearfrac (rows_of p) bs = Ok (map Some l) /\ length l = length (fst p) /\
    year_frac [a] [b] bs None = Ok (Scalar q) /\ (sum_Q l == q)%Q.
Proof.
  intros R N AB. pose proof (runs_length _ _ _ _ R) as LEN. unfold add_period_yearfrac, rows_of.
  destruct (both_dates_rows (fst p) (snd p)) as [V E]. rewrite V, E, combine_fst, combine_snd by exact LEN.
  destruct (year_frac_map2 (fst p) (snd p) bs LEN) as (g & T & SC & o & O1 & O2).
  { rewrite R. apply sorted_no_bad, N. }
  { exact AB. }
  rewrite O1. cbn [bind]. exists (map2 g (fst p) (snd p)), (g a b).
  assert (ML : length (map2 g (fst p) (snd p)) = length (fst p)) by (rewrite map2_length; lia).
  split; [|split; [exact ML|split]].
  - f_equal. replace (length (combine (fst p) (snd p))) with (length (fst p)) by (rewrite combine_length; lia).
    rewrite O2. apply scatter_full. rewrite ML, combine_length. lia.
  - apply SC. eapply ends_le, N.
  - rewrite R. cbn [fst snd]. apply map2_sum_Q, T.
Qed.

Theorem daycount_rejects_reversed p bs : length (fst p) = length (snd p) -> bad_pair (fst p) (snd p) ->
  add_period_daycount (rows_of p) bs = Err AssertionError.
Proof.
  intros LEN B. unfold add_period_daycount, rows_of.
  destruct (both_dates_rows (fst p) (snd p)) as [V E]. rewrite V, combine_fst, combine_snd by exact LEN.
  rewrite (day_count_reversed _ _ _ _ LEN B). reflexivity.
Qed.

(* ---- payment dates ---- *)
Lemma step_fwd_mono c n : wf_calendar c -> forall d d' e e', d <= d' -> step_fwd c n d = Ok e -> step_fwd c n d' = Ok e' -> e <= e'.
Proof.
  intros W. induction n as [|n IH]; intros d d' e e' L; cbn [step_fwd]; [intros [= <-] [= <-]; exact L|].
  destruct (following_ok c (d + 1) W) as (x & X & X'), (following_ok c (d' + 1) W) as (y & Y & Y').
  rewrite X, Y. cbn [bind]. apply IH. apply (first_mono c (d + 1) (d' + 1)); [lia|assumption|assumption].
Qed.
Lemma step_bwd_mono c n : wf_calendar c -> forall d d' e e', d <= d' -> step_bwd c n d = Ok e -> step_bwd c n d' = Ok e' -> e <= e'.
Proof.
  intros W. induction n as [|n IH]; intros d d' e e' L; cbn [step_bwd]; [intros [= <-] [= <-]; exact L|].
  destruct (preceding_ok c (d - 1) W) as (x & X & X'), (preceding_ok c (d' - 1) W) as (y & Y & Y').
  rewrite X, Y. cbn [bind]. apply IH. apply (last_mono c (d - 1) (d' - 1)); [lia|assumption|assumption].
Qed.

Lemma busday_offset_mono c rc n d d' e e' : wf_calendar c -> d <= d' -> busday_offset c d n rc = Ok e -> busday_offset c d' n rc = Ok e' -> e <= e'.
Proof.
  intros W L. unfold busday_offset. destruct (roll c rc d) as [x|] eqn:X; [|discriminate]. destruct (roll c rc d') as [y|] eqn:Y; [|discriminate].
  cbn [bind]. assert (x <= y) by (eapply roll_mono; eassumption).
  destruct (0 <=? n); [apply step_fwd_mono | apply step_bwd_mono]; assumption.
Qed.

Lemma scatter_map {A B} (g : A -> result B) (l : list (option A)) vs : sequence (map g (valid_dates l)) = Ok vs ->
  length (scatter l vs) = length l /\
  forall i, (nth_error l i = Some None -> nth_error (scatter l vs) i = Some None) /\
    (forall x, nth_error l i = Some (Some x) -> exists y, nth_error (scatter l vs) i = Some (Some y) /\ g x = Ok y).
Proof.
  revert vs. induction l as [|[x|] l IH]; intros vs H.
  - cbn. split; [reflexivity|]. intros [|i]; split; discriminate.
  - change (valid_dates (Some x :: l)) with (x :: valid_dates l) in H. cbn [map sequence] in H.
    destruct (g x) as [y|] eqn:G; [|discriminate]. cbn [bind] in H.
    destruct (sequence (map g (valid_dates l))) as [t|] eqn:S; [|discriminate]. cbn [bind] in H. injection H as <-.
    destruct (IH t eq_refl) as [HA HB]. cbn [scatter length]. split; [lia|]. intros [|i]; cbn [nth_error]; [|apply HB].
    split; [discriminate|]. intros ? [= <-]. exists y. auto.
  - change (valid_dates (None :: l)) with (valid_dates l) in H. destruct (IH vs H) as [HA HB].
    cbn [scatter length]. split; [lia|]. intros [|i]; cbn [nth_error]; [|apply HB]. split; [reflexivity|discriminate].
Qed.


Theorem payment_dates_spec c rc rows delay t : wf_calendar c -> rc <> Unadjusted -> t <> OtherTiming ->
  exists col, add_payment_dates c rc rows delay t = Ok col /\ length col = length rows /\
    forall i row, nth_error rows i = Some row ->
      match pay_from t row with
      | None => nth_error col i = Some None
      | Some d => exists pd, nth_error col i = Some (Some pd) /\ business_day c pd /\ busday_offset c d delay rc = Ok pd
      end.
Proof.
  intros W RC T. unfold add_payment_dates.
  set (ds := map (pay_from t) rows).
  assert (D : (match t with InArrears => Ok (map snd rows) | InAdvance => Ok (map fst rows) | OtherTiming => Err ValueError end) = Ok ds)
    by (destruct t; [reflexivity | reflexivity | congruence]).
  rewrite D. cbn [bind].
  assert (S : exists vs, busday_offsets c rc (valid_dates ds) delay = Ok vs /\ sequence (map (fun d => busday_offset c d delay rc) (valid_dates ds)) = Ok vs).
  { assert (Q : exists vs, sequence (map (fun d => busday_offset c d delay rc) (valid_dates ds)) = Ok vs).
    { generalize (valid_dates ds). intros l. induction l as [|x l (vs & IH)]; [eexists; reflexivity|].
      cbn [map sequence]. destruct (busday_offset_ok c x delay rc W RC) as (e & -> & _). cbn [bind]. rewrite IH. eexists. reflexivity. }
    destruct Q as (vs & Q). exists vs. split; [|exact Q]. unfold busday_offsets. destruct rc; [congruence|exact Q..]. }
  destruct S as (vs & -> & S). cbn [bind]. destruct (scatter_map _ _ _ S) as [A B].
  exists (scatter ds vs). split; [reflexivity|]. split; [rewrite A; unfold ds; rewrite map_length; reflexivity|].
  intros i row H. assert (N : nth_error ds i = Some (pay_from t row)) by (unfold ds; apply map_nth_error, H).
  destruct (pay_from t row) as [d|]; [|apply B, N].
  destruct (B i) as [_ C]. destruct (C d N) as (pd & P & Q). exists pd. split; [exact P|]. split; [|exact Q].
  destruct (busday_offset_ok c d delay rc W RC) as (e & E & F). congruence.
Qed.

Theorem payment_after_following c d n pd : wf_calendar c -> 0 <= n -> busday_offset c d n Following = Ok pd ->
  exists s, first_on_or_after c d s /\ s <= pd /\ business_days_between c s pd = Z.to_nat n.
Proof.
  intros W N H. destruct (workday_count c d n W N) as (s & e & A & B & _ & D & E). unfold workday in B.
  exists s. apply following_iff in A; [|exact W]. replace pd with e by congruence. auto.
Qed.

(* ---- make_schedule ---- *)
Lemma generate_runs c rc dr s e f dir (ru : bool) p : generate_date_schedule c rc dr s e f dir ru = Ok p ->
  s < e /\ exists s' mid e', runs_through p s' mid e' /\ (ru = false -> s' = s /\ e' = e).
Proof.
  unfold generate_date_schedule. destruct (e <=? s) eqn:T; [discriminate|]. intros H. split; [lia|].
  apply bind_ok in H as (s' & S1 & H). apply bind_ok in H as (e' & E1 & H).
  destruct (freq_offset f); [|discriminate].
  assert (R : ru = false -> s' = s /\ e' = e) by (intros ->; injection S1 as <-; injection E1 as <-; auto).
  destruct dir; apply bind_ok in H as (ds & _ & H); injection H as <-.
  - exists s', ds, e'. split; [reflexivity|exact R].
  - exists s', (rev ds), e'. split; [|exact R]. unfold runs_through. rewrite rev_app_distr. reflexivity.
Qed.

Lemma merge_first_runs p a x mid b : runs_through p a (x :: mid) b -> merge_first p = Ok (a :: mid, mid ++ [b]).
Proof. intros ->. reflexivity. Qed.
Lemma merge_first_single p a b : runs_through p a [] b -> (let* q := merge_first p in to_frame q) = Err ValueError.
Proof. intros ->. reflexivity. Qed.

Lemma py_last_app l x : py_last (l ++ [x]) = Ok x.
Proof. unfold py_last. rewrite rev_app_distr. reflexivity. Qed.

Lemma merge_last_runs p a mid x b : runs_through p a (mid ++ [x]) b -> merge_last p = Ok (a :: mid, mid ++ [b]).
Proof.
  intros ->. unfold merge_last. cbn [fst snd]. rewrite py_last_app. cbn [bind].
  rewrite removelast_last, removelast_last. do 2 f_equal. change (a :: mid ++ [x]) with ((a :: mid) ++ [x]). apply removelast_last.
Qed.
Lemma merge_last_single p a b : runs_through p a [] b -> (let* q := merge_last p in to_frame q) = Err ValueError.
Proof. intros ->. reflexivity. Qed.


Lemma merge_first_spans p a b q r : spans p a b -> merge_first p = Ok q -> to_frame q = Ok r -> r = q /\ spans r a b.
Proof.
  intros ([|x mid] & R) M T.
  - exfalso. pose proof (merge_first_single _ _ _ R) as X. rewrite M in X. cbn [bind] in X. congruence.
  - rewrite (merge_first_runs _ _ _ _ _ R) in M. injection M as <-.
    unfold to_frame in T. destruct (_ =? _)%nat; [|discriminate]. injection T as <-. split; [reflexivity|]. exists mid. reflexivity.
Qed.
Lemma merge_last_spans p a b q r : spans p a b -> merge_last p = Ok q -> to_frame q = Ok r -> r = q /\ spans r a b.
Proof.
  intros (mid & R) M T. destruct mid as [|x mid _] using rev_ind.
  - exfalso. pose proof (merge_last_single _ _ _ R) as X. rewrite M in X. cbn [bind] in X. congruence.
  - rewrite (merge_last_runs _ _ _ _ _ R) in M. injection M as <-.
    unfold to_frame in T. destruct (_ =? _)%nat; [|discriminate]. injection T as <-. split; [reflexivity|]. exists mid. reflexivity.
Qed.

Lemma to_frame_id p q : to_frame p = Ok q -> q = p.
Proof. unfold to_frame. destruct (_ =? _)%nat; [|discriminate]. congruence. Qed.

Lemma spans_frame p a b : spans p a b -> to_frame p = Ok p.
Proof.
  intros (mid & R). unfold to_frame. rewrite (runs_length _ _ _ _ R), Nat.eqb_refl. reflexivity.
Qed.

Lemma generate_spans c rc dr s e f dir p : generate_date_schedule c rc dr s e f dir false = Ok p -> spans p s e.
Proof.
  intros H. apply generate_runs in H as (_ & s' & mid & e' & R & E). destruct (E eq_refl) as [-> ->]. exists mid. exact R.
Qed.

Ltac binds H :=
  match type of H with
  | bind ?x _ = Ok _ => let a := fresh "r" in let E := fresh "E" in apply bind_ok in H as (a & E & H)
  end.

Lemma by_stubs_spans c rc dr s e f fs ls q p : schedule_by_stubs c rc dr s e f fs ls false = Ok q -> to_frame q = Ok p -> spans p s e.
Proof.
  unfold schedule_by_stubs. intros H T. binds H. binds H. binds H. destruct r1 as [x y].
  destruct (stub_eqb y StubNone).
  - binds H. apply generate_spans in E2. destruct (stub_eqb x StubLong).
    + eapply merge_first_spans; eassumption.
    + injection H as <-. apply to_frame_id in T. subst. exact E2.
  - destruct (stub_eqb x StubNone && negb false); [|discriminate]. binds H. apply generate_spans in E2.
    destruct (stub_eqb y StubLong).
    + eapply merge_last_spans; eassumption.
    + injection H as <-. apply to_frame_id in T. subst. exact E2.
Qed.

Lemma spans_cons p a b s : spans p a b -> spans (s :: fst p, a :: snd p) s b.
Proof. intros (mid & ->). exists (a :: mid). reflexivity. Qed.
Lemma spans_snoc p a b e : spans p a b -> spans (fst p ++ [b], snd p ++ [e]) a e.
Proof. intros (mid & ->). exists (mid ++ [b]). reflexivity. Qed.
Lemma spans_both p a b s e : spans p a b -> spans (s :: fst p ++ [b], a :: snd p ++ [e]) s e.
Proof. intros H. apply (spans_snoc _ _ _ e), (spans_cons _ _ _ s) in H. exact H. Qed.

Lemma by_dates_spans c rc dr s e f fpe lps fs ls q p : schedule_by_dates c rc dr s e f fpe lps fs ls false = Ok q -> to_frame q = Ok p -> spans p s e.
Proof.
  unfold schedule_by_dates. intros H T. binds H. binds H. binds H. binds H. binds H. binds H.
  apply generate_spans in E, E0.
  destruct (stub_eqb r3 StubDefinedFirst && stub_eqb r4 StubDefinedLast).
  - binds H. binds H. binds H. injection H as <-. apply generate_spans in E7. apply to_frame_id in T. subst. apply spans_both, E7.
  - destruct (stub_eqb r3 StubDefinedFirst && negb (stub_eqb r4 StubDefinedLast)).
    + binds H. binds H. apply generate_spans in E6. apply (spans_cons _ _ _ s) in E6. destruct (stub_eqb r4 StubLong).
      * eapply merge_last_spans; eassumption.
      * injection H as <-. apply to_frame_id in T. subst. exact E6.
    + destruct (negb (stub_eqb r3 StubDefinedFirst) && stub_eqb r4 StubDefinedLast).
      * binds H. binds H. apply generate_spans in E6. apply (spans_snoc _ _ _ e) in E6. destruct (stub_eqb r3 StubLong).
        -- eapply merge_first_spans; eassumption.
        -- injection H as <-. apply to_frame_id in T. subst. exact E6.
      * binds H. destruct (stub_eqb r3 StubNone).
        -- destruct (stub_eqb r4 StubLong); [exact (proj2 (merge_last_spans _ _ _ _ _ E0 H T))|].
           injection H as <-. apply to_frame_id in T. subst. exact E0.
        -- destruct (stub_eqb r4 StubNone); [|discriminate].
           destruct (stub_eqb r3 StubLong); [exact (proj2 (merge_first_spans _ _ _ _ _ E H T))|].
           injection H as <-. apply to_frame_id in T. subst. exact E.
Qed.

Theorem make_schedule_contiguous c rc dr s e f fpe lps fs ls p : make_schedule c rc dr s e f fpe lps fs ls false = Ok p ->
  s < e /\ spans p s e.
Proof.
  unfold make_schedule. destruct (e <=? s) eqn:T; [discriminate|]. intros H. split; [lia|].
  binds H. binds H. binds H.
  destruct (_ || opt_eqb fpe (Some e) || opt_eqb lps (Some s)).
  { injection E1 as <-. apply to_frame_id in H. subst. exists []. reflexivity. }
  destruct fpe as [a|], lps as [b|].
  - destruct (a =? b) eqn:AB; [|eapply by_dates_spans; eassumption].
    injection E1 as <-. apply to_frame_id in H. subst. exists [a]. replace b with a by lia. reflexivity.
  - eapply by_dates_spans; eassumption.
  - eapply by_dates_spans; eassumption.
  - eapply by_stubs_spans; eassumption.
Qed.



Lemma to_frame_merge_first' p a b : spans p a b -> (let* q := merge_first p in to_frame q) = merge_first_spec p.
Proof.
  intros (mid & R). destruct mid as [|x mid]; [rewrite R; reflexivity|].
  rewrite (merge_first_runs _ _ _ _ _ R). cbn [bind]. rewrite (spans_frame _ a b (ex_intro _ mid eq_refl)).
  rewrite R. reflexivity.
Qed.
Lemma to_frame_merge_last' p a b : spans p a b -> (let* q := merge_last p in to_frame q) = merge_last_spec p.
Proof.
  intros (mid & R). destruct mid as [|x mid _] using rev_ind; [rewrite R; reflexivity|].
  rewrite (merge_last_runs _ _ _ _ _ R). cbn [bind]. rewrite (spans_frame _ a b (ex_intro _ mid eq_refl)).
  rewrite R. unfold merge_last_spec. cbn [fst snd]. change (a :: mid ++ [x]) with ((a :: mid) ++ [x]).
  rewrite !rev_app_distr. cbn [rev app]. rewrite !rev_involutive, !rev_app_distr, !rev_involutive. reflexivity.
Qed.

Lemma generate_frame c rc dr s e f dir (ru : bool) p : generate_date_schedule c rc dr s e f dir ru = Ok p -> exists a b, spans p a b.
Proof. intros H. apply generate_runs in H as (_ & s' & mid & e' & R & _). exists s', e', mid. exact R. Qed.

Theorem make_schedule_stubs c rc dr s e f fs ls (ru : bool) : s < e -> f <> ZeroCoupon ->
  make_schedule c rc dr s e f None None fs ls ru =
  match choice_of fs ls with
  | UseBackward => generate_date_schedule c rc dr s e f Backward ru
  | UseBackwardMerged => let* p := generate_date_schedule c rc dr s e f Backward ru in merge_first_spec p
  | UseForward => generate_date_schedule c rc dr s e f Forward ru
  | UseForwardMerged => let* p := generate_date_schedule c rc dr s e f Forward ru in merge_last_spec p
  | Refused x => Err x
  end.
Proof.
  intros L NZ. unfold make_schedule. destruct (e <=? s) eqn:T; [lia|]. cbn [bind opt_eqb].
  replace (match f with ZeroCoupon => true | _ => false end || false || false) with false by (destruct f; reflexivity || congruence).
  assert (G : forall dir, (let* p := generate_date_schedule c rc dr s e f dir ru in to_frame p) = generate_date_schedule c rc dr s e f dir ru).
  { intros dir. destruct (generate_date_schedule c rc dr s e f dir ru) as [p|] eqn:E; [|reflexivity].
    cbn [bind]. destruct (generate_frame _ _ _ _ _ _ _ _ _ E) as (a & b & S). eapply spans_frame, S. }
  assert (GF : forall dir, (let* p := (let* p := generate_date_schedule c rc dr s e f dir ru in merge_first p) in to_frame p)
             = let* p := generate_date_schedule c rc dr s e f dir ru in merge_first_spec p).
  { intros dir. destruct (generate_date_schedule c rc dr s e f dir ru) as [p|] eqn:E; [|reflexivity].
    cbn [bind]. destruct (generate_frame _ _ _ _ _ _ _ _ _ E) as (a & b & S). eapply to_frame_merge_first', S. }
  assert (GL : forall dir, (let* p := (let* p := generate_date_schedule c rc dr s e f dir ru in merge_last p) in to_frame p)
             = let* p := generate_date_schedule c rc dr s e f dir ru in merge_last_spec p).
  { intros dir. destruct (generate_date_schedule c rc dr s e f dir ru) as [p|] eqn:E; [|reflexivity].
    cbn [bind]. destruct (generate_frame _ _ _ _ _ _ _ _ _ E) as (a & b & S). eapply to_frame_merge_last', S. }
  assert (GI : forall dir, (let* p := (let* p := generate_date_schedule c rc dr s e f dir ru in Ok p) in to_frame p)
             = generate_date_schedule c rc dr s e f dir ru).
  { intros dir. specialize (G dir). destruct (generate_date_schedule c rc dr s e f dir ru); [exact G|reflexivity]. }
  unfold schedule_by_stubs. destruct fs, ls; cbn [stub_eqb negb guard bind andb market_convention choice_of];
  first [ apply GI | apply GF | apply GL | reflexivity ].
Qed.

Theorem merged_first p a x mid b : runs_through p a (x :: mid) b ->
  exists q, merge_first_spec p = Ok q /\ runs_through q a mid b.
Proof. intros ->. eexists. split; reflexivity. Qed.
Theorem merged_last p a mid x b : runs_through p a (mid ++ [x]) b ->
  exists q, merge_last_spec p = Ok q /\ runs_through q a mid b.
Proof.
  intros ->. unfold merge_last_spec. cbn [fst snd]. change (a :: mid ++ [x]) with ((a :: mid) ++ [x]).
  rewrite !rev_app_distr. cbn [rev app]. rewrite !rev_app_distr, !rev_involutive. cbn [rev app]. eexists. split; reflexivity.
Qed.

(* user dates *)
Lemma generate_first c rc dr s e f dir p : generate_date_schedule c rc dr s e f dir false = Ok p -> nth_error (fst p) 0 = Some s.
Proof. intros H. apply generate_spans in H as (mid & ->). reflexivity. Qed.

Lemma py_nth_ok l i x : py_nth l i = Ok x -> nth_error l i = Some x.
Proof. unfold py_nth. destruct (nth_error l i); congruence. Qed.

Lemma stub_eqb_eq a b : stub_eqb a b = true <-> a = b.
Proof. destruct a, b; cbn; split; congruence. Qed.
Lemma stub_eqb_neq a b : stub_eqb a b = false <-> a <> b.
Proof. destruct a, b; cbn; split; congruence. Qed.

Lemma default_first_other fs ls : fs <> StubDefault -> default_first fs ls = Ok fs.
Proof. intros H. unfold default_first. destruct fs; cbn; congruence. Qed.
Lemma default_last_other fs ls : ls <> StubDefault -> default_last fs ls = Ok ls.
Proof. intros H. unfold default_last. destruct ls; cbn; congruence. Qed.

Lemma merge_first_nth p q x : merge_first p = Ok q -> nth_error (snd p) 1 = Some x -> nth_error (snd q) 0 = Some x.
Proof.
  unfold merge_first. destruct (fst p); [discriminate|]. intros [= <-] H. cbn [snd]. destruct (snd p) as [|a [|b u]]; cbn in *; congruence.
Qed.

Theorem first_period_end_kept c rc dr s e f x fs ls ru p : f <> ZeroCoupon -> ls <> StubLong ->
  make_schedule c rc dr s e f (Some x) None fs ls ru = Ok p -> nth_error (snd p) 0 = Some x.
Proof.
  intros NZ NL. unfold make_schedule. destruct (e <=? s) eqn:T; [discriminate|]. intros H.
  binds H. binds H. binds H. clear E0.
  replace (match f with ZeroCoupon => true | _ => false end) with false in E1 by (destruct f; reflexivity || congruence).
  cbn [orb opt_eqb] in E1. rewrite orb_false_r in E1. destruct (x =? e) eqn:XE.
  { injection E1 as <-. apply to_frame_id in H. subst. cbn. f_equal. lia. }
  apply to_frame_id in H. subst r1. unfold schedule_by_dates in E1.
  binds E1. binds E1. binds E1. cbn [match_last bind] in E1. cbn [fst snd] in E1.
  unfold match_first in E3. binds E3.
  assert (CASES : (r3 = (StubNone, [Forward]) /\ nth_error (snd r2) 0 = Some x) \/ (r3 = (StubShort, [Backward]) /\ nth_error (snd r1) 0 = Some x) \/
                  (r3 = (StubLong, [Backward]) /\ nth_error (snd r1) 1 = Some x) \/ r3 = (StubDefinedFirst, [])).
  { destruct (x =? r4) eqn:X1; [left; injection E3 as <-; split; [reflexivity|]; apply py_nth_ok in E4; rewrite E4; f_equal; lia|].
    binds E3. destruct (x =? r5) eqn:X2; [right; left; injection E3 as <-; split; [reflexivity|]; apply py_nth_ok in E5; rewrite E5; f_equal; lia|].
    binds E3. destruct (x =? r6) eqn:X3; [right; right; left; injection E3 as <-; split; [reflexivity|]; apply py_nth_ok in E6; rewrite E6; f_equal; lia|].
    right. right. right. congruence. }
  clear E3 E4. destruct CASES as [[-> N]|[[-> N]|[[-> N]| ->]]]; cbn [fst snd default_first bind] in E1; cbn in E1.
  - destruct ls; cbn in E1; try (injection E1 as <-; exact N); try congruence; discriminate.
  - destruct ls; cbn in E1; try (injection E1 as <-; exact N); try congruence; discriminate.
  - destruct ls; cbn in E1; try (eapply merge_first_nth; eassumption); try congruence; discriminate.
  - destruct ls; cbn in E1; try congruence; try discriminate; binds E1; injection E1 as <-; reflexivity.
Qed.

Lemma merge_last_nth p q x : merge_last p = Ok q -> nth_error (rev (fst p)) 1 = Some x -> nth_error (rev (fst q)) 0 = Some x.
Proof.
  unfold merge_last. intros H N. binds H. injection H as <-. cbn [fst]. revert N.
  destruct (fst p) as [|y l _] using rev_ind; [discriminate|]. rewrite removelast_last, rev_app_distr. intros N. exact N.
Qed.

Theorem last_period_start_kept c rc dr s e f x fs ls ru p : f <> ZeroCoupon -> fs <> StubLong -> fs <> StubNone ->
  make_schedule c rc dr s e f None (Some x) fs ls ru = Ok p -> nth_error (rev (fst p)) 0 = Some x.
Proof.
  intros NZ NL NN. unfold make_schedule. destruct (e <=? s) eqn:T; [discriminate|]. intros H.
  binds H. binds H. binds H. clear E.
  replace (match f with ZeroCoupon => true | _ => false end) with false in E1 by (destruct f; reflexivity || congruence).
  cbn [orb opt_eqb] in E1. destruct (x =? s) eqn:XE.
  { injection E1 as <-. apply to_frame_id in H. subst. cbn. f_equal. lia. }
  apply to_frame_id in H. subst r1. unfold schedule_by_dates in E1.
  binds E1. binds E1. cbn [match_first bind] in E1. cbn [fst snd] in E1. binds E1.
  unfold match_last in E3. binds E3. unfold py_nth_last in *.
  assert (CASES : (r3 = (StubNone, [Backward]) /\ nth_error (rev (fst r1)) 0 = Some x) \/ (r3 = (StubShort, [Forward]) /\ nth_error (rev (fst r2)) 0 = Some x) \/
                  (r3 = (StubLong, [Forward]) /\ nth_error (rev (fst r2)) 1 = Some x) \/ r3 = (StubDefinedLast, [])).
  { destruct (x =? r4) eqn:X1; [left; injection E3 as <-; split; [reflexivity|]; apply py_nth_ok in E4; rewrite E4; f_equal; lia|].
    binds E3. destruct (x =? r5) eqn:X2; [right; left; injection E3 as <-; split; [reflexivity|]; apply py_nth_ok in E5; rewrite E5; f_equal; lia|].
    binds E3. destruct (x =? r6) eqn:X3; [right; right; left; injection E3 as <-; split; [reflexivity|]; apply py_nth_ok in E6; rewrite E6; f_equal; lia|].
    right. right. right. congruence. }
  clear E3 E4. destruct CASES as [[-> N]|[[-> N]|[[-> N]| ->]]]; destruct fs; cbn in E1; try congruence; try discriminate;
  try (injection E1 as <-; exact N); try (eapply merge_last_nth; eassumption);
  try (binds E1; injection E1 as <-; cbn [fst]; rewrite rev_app_distr; reflexivity).
Qed.

(* the loops never run out of fuel *)
Definition no_fuel {A} (r : result A) : Prop := r <> Err OutOfFuel.
Lemma bind_no_fuel {A B} (x : result A) (g : A -> result B) : no_fuel x -> (forall a, x = Ok a -> no_fuel (g a)) -> no_fuel (bind x g).
Proof. unfold no_fuel. destruct x; cbn; intros H K; [apply K; reflexivity | congruence]. Qed.

Lemma roll_no_fuel c rc d : wf_calendar c -> no_fuel (roll c rc d).
Proof.
  intros W. destruct rc; [discriminate| | | |];
  match goal with |- no_fuel (roll c ?r d) => destruct (roll_ok c r d W) as (e & -> & _); [discriminate|discriminate] end.
Qed.

Lemma generate_no_fuel c rc dr s e f dir ru : wf_calendar c -> no_fuel (generate_date_schedule c rc dr s e f dir ru).
Proof.
  intros W. unfold generate_date_schedule. destruct (e <=? s) eqn:T; [discriminate|].
  apply bind_no_fuel; [destruct ru; [rewrite busday_offset_0; apply roll_no_fuel, W | discriminate]|]. intros s' _.
  apply bind_no_fuel; [destruct ru; [rewrite busday_offset_0; apply roll_no_fuel, W | discriminate]|]. intros e' _.
  destruct (freq_offset f) as [o|] eqn:F; [|discriminate].
  assert (L : forall dir, no_fuel (date_loop c rc dr (loop_fuel c s e) o dir (match dir with Forward => s | Backward => e end)
      (match dir with Forward => e | Backward => s end) 1)).
  { intros d. destruct rc eqn:R.
    - unfold loop_fuel. destruct (Z.to_nat (e - s + 40 + Z.of_nat (search_fuel c))) eqn:N; [lia|]. cbn [date_loop]. unfold nth_date.
      rewrite busday_offset_0. discriminate.
    - destruct (loop_terminates c Following dr W ltac:(discriminate) f o d s e F ltac:(lia)) as (ds & ->). discriminate.
    - destruct (loop_terminates c Preceding dr W ltac:(discriminate) f o d s e F ltac:(lia)) as (ds & ->). discriminate.
    - destruct (loop_terminates c ModFollowing dr W ltac:(discriminate) f o d s e F ltac:(lia)) as (ds & ->). discriminate.
    - destruct (loop_terminates c ModPreceding dr W ltac:(discriminate) f o d s e F ltac:(lia)) as (ds & ->). discriminate. }
  destruct dir.
  - apply bind_no_fuel; [apply (L Forward)|]. discriminate.
  - apply bind_no_fuel; [apply (L Backward)|]. discriminate.
Qed.

Lemma merge_first_no_fuel p : no_fuel (merge_first p).
Proof. unfold merge_first. destruct (fst p); discriminate. Qed.
Lemma merge_last_no_fuel p : no_fuel (merge_last p).
Proof. unfold merge_last, py_last. destruct (rev (snd p)); discriminate. Qed.
Lemma py_nth_no_fuel l i : no_fuel (py_nth l i).
Proof. unfold py_nth. destruct (nth_error l i); discriminate. Qed.

Theorem make_schedule_no_fuel c rc dr s e f fpe lps fs ls ru : wf_calendar c -> no_fuel (make_schedule c rc dr s e f fpe lps fs ls ru).
Proof.
  intros W. unfold make_schedule. destruct (e <=? s); [discriminate|].
  apply bind_no_fuel; [destruct fpe; [unfold guard; destruct (_ && _)|]; discriminate|]. intros _ _.
  apply bind_no_fuel; [destruct lps; [unfold guard; destruct (_ && _)|]; discriminate|]. intros _ _.
  assert (BD : no_fuel (schedule_by_dates c rc dr s e f fpe lps fs ls ru)).
  { unfold schedule_by_dates.
    apply bind_no_fuel; [apply generate_no_fuel, W|]. intros pb _.
    apply bind_no_fuel; [apply generate_no_fuel, W|]. intros pf _.
    apply bind_no_fuel; [|intros m1 _; apply bind_no_fuel; [|intros m2 _]].
    - unfold match_first. destruct fpe; [|discriminate]. apply bind_no_fuel; [apply py_nth_no_fuel|]. intros a _.
      destruct (_ =? a); [discriminate|]. apply bind_no_fuel; [apply py_nth_no_fuel|]. intros b _.
      destruct (_ =? b); [discriminate|]. apply bind_no_fuel; [apply py_nth_no_fuel|]. intros b1 _. destruct (_ =? b1); discriminate.
    - unfold match_last. destruct lps; [|discriminate]. apply bind_no_fuel; [apply py_nth_no_fuel|]. intros a _.
      destruct (_ =? a); [discriminate|]. apply bind_no_fuel; [apply py_nth_no_fuel|]. intros b _.
      destruct (_ =? b); [discriminate|]. apply bind_no_fuel; [apply py_nth_no_fuel|]. intros b1 _. destruct (_ =? b1); discriminate.
    - apply bind_no_fuel; [unfold default_first; destruct (_ && _); [destruct (fst m2)|]; discriminate|]. intros fs' _.
      apply bind_no_fuel; [unfold default_last; destruct (_ && _); [destruct fs'|]; discriminate|]. intros ls' _.
      destruct (_ && _).
      { apply bind_no_fuel; [destruct fpe; discriminate|]. intros a _. apply bind_no_fuel; [destruct lps; discriminate|]. intros b _.
        apply bind_no_fuel; [apply generate_no_fuel, W|]. discriminate. }
      destruct (_ && _).
      { apply bind_no_fuel; [destruct fpe; discriminate|]. intros a _. apply bind_no_fuel; [apply generate_no_fuel, W|]. intros p _.
        cbv zeta. destruct (stub_eqb ls' StubLong); [apply merge_last_no_fuel | discriminate]. }
      destruct (_ && _).
      { apply bind_no_fuel; [destruct lps; discriminate|]. intros a _. apply bind_no_fuel; [apply generate_no_fuel, W|]. intros p _.
        cbv zeta. destruct (stub_eqb fs' StubLong); [apply merge_first_no_fuel | discriminate]. }
      apply bind_no_fuel; [unfold guard; destruct (one_direction _); discriminate|]. intros _ _.
      destruct (stub_eqb fs' StubNone); [destruct (stub_eqb ls' StubLong); [apply merge_last_no_fuel | discriminate]|].
      destruct (stub_eqb ls' StubNone); [|discriminate]. destruct (stub_eqb fs' StubLong); [apply merge_first_no_fuel | discriminate]. }
  apply bind_no_fuel; [|intros p _; unfold to_frame; destruct (_ =? _)%nat; discriminate].
  destruct (_ || _ || _); [discriminate|]. destruct fpe, lps; try exact BD; [destruct (_ =? _); [discriminate|exact BD]|].
  unfold schedule_by_stubs. unfold guard. destruct (negb _); [|discriminate]. cbn [bind]. destruct (negb _); [|discriminate]. cbn [bind].
  apply bind_no_fuel; [destruct (_ && _); [discriminate|]; destruct (stub_eqb fs StubDefault); [discriminate|]; destruct (stub_eqb ls StubDefault); discriminate|].
  intros [x y] _. destruct (stub_eqb y StubNone).
  - apply bind_no_fuel; [apply generate_no_fuel, W|]. intros p _. destruct (stub_eqb x StubLong); [apply merge_first_no_fuel | discriminate].
  - destruct (_ && _); [|discriminate]. apply bind_no_fuel; [apply generate_no_fuel, W|]. intros p _.
    destruct (stub_eqb y StubLong); [apply merge_last_no_fuel | discriminate].
Qed.

Lemma default_every_month : business_day_every_month default_calendar.
Proof.
  intros d. pose proof (month_end_spec d). pose proof (days_in_month_bounds (year d) (month d)).
  assert (K : exists k, 0 <= k <= 2 /\ weekday (month_start d + k) <= 4).
  { unfold weekday. destruct (Z_le_gt_dec ((month_start d + 6) mod 7) 4); [exists 0; lia|].
    exists (7 - (month_start d + 6) mod 7). split; [lia|].
    replace (month_start d + (7 - (month_start d + 6) mod 7) + 6) with ((month_start d + 6) - (month_start d + 6) mod 7 + 1 * 7) by lia.
    rewrite Z.mod_add by lia. rewrite Zminus_mod_idemp_r, Z.sub_diag, Z.mod_0_l by lia. lia. }
  destruct K as (k & R & W). exists (month_start d + k). split.
  - split; [|intros []]. unfold working_weekday, default_calendar. cbn [weekmask].
    pose proof (weekday_range (month_start d + k)).
    assert (C : weekday (month_start d + k) = 0 \/ weekday (month_start d + k) = 1 \/ weekday (month_start d + k) = 2 \/
                weekday (month_start d + k) = 3 \/ weekday (month_start d + k) = 4) by lia.
    destruct C as [->|[->|[->|[->| ->]]]]; reflexivity.
  - apply in_month_iff. lia.
Qed.

Theorem generate_errors c rc dr s e f dir (ru : bool) : wf_calendar c ->
  (e <= s -> generate_date_schedule c rc dr s e f dir ru = Err ValueError) /\
  (s < e -> f <> ZeroCoupon -> rc = Unadjusted -> generate_date_schedule c rc dr s e f dir ru = Err ValueError) /\
  (s < e -> f = ZeroCoupon -> rc <> Unadjusted -> generate_date_schedule c rc dr s e f dir ru = Err TypeError).
Proof.
  intros W. unfold generate_date_schedule. split; [|split].
  - intros L. destruct (e <=? s) eqn:T; [reflexivity|lia].
  - intros L NZ ->. destruct (e <=? s) eqn:T; [lia|]. rewrite !busday_offset_unadjusted. destruct ru; [reflexivity|]. cbn [bind].
    destruct (freq_offset f) as [o|] eqn:F; [|destruct f; discriminate || congruence].
    assert (D : forall dir a l, date_loop c Unadjusted dr (loop_fuel c s e) o dir a l 1 = Err ValueError).
    { intros d a l. unfold loop_fuel. destruct (Z.to_nat (e - s + 40 + Z.of_nat (search_fuel c))) eqn:N; [lia|].
      cbn [date_loop]. unfold nth_date. rewrite busday_offset_unadjusted. reflexivity. }
    destruct dir; rewrite D; reflexivity.
  - intros L -> R. destruct (e <=? s) eqn:T; [lia|]. destruct ru; [|reflexivity].
    rewrite !busday_offset_0. destruct (roll_ok c rc s W R) as (s' & -> & _), (roll_ok c rc e W R) as (e' & -> & _). reflexivity.
Qed.

Lemma no_drift f m anchor i x : months_of f = Some m -> day anchor = 31 -> periods_from f anchor i x ->
  is_month_end x = true /\ month_index x = month_index anchor + m * i.
Proof.
  intros F D P. unfold periods_from in P. rewrite (months_not_days f m F), F in P. destruct P as [A P]. split; [|exact A].
  unfold is_month_end. pose proof (days_in_month_bounds (year x) (month x)). lia.
Qed.
Lemma day_kept f m anchor i x : months_of f = Some m -> day anchor <= 28 -> periods_from f anchor i x -> day x = day anchor.
Proof.
  intros F D P. unfold periods_from in P. rewrite (months_not_days f m F), F in P. destruct P as [A P].
  pose proof (days_in_month_bounds (year x) (month x)). lia.
Qed.

Lemma make_schedule_ends c rc dr s e f fpe lps fs ls p : make_schedule c rc dr s e f fpe lps fs ls false = Ok p ->
  hd_error (fst p) = Some s /\ hd_error (rev (snd p)) = Some e /\ length (fst p) = length (snd p).
Proof.
  intros H. apply make_schedule_contiguous in H as (_ & mid & R). pose proof (runs_length _ _ _ _ R). rewrite R in *.
  cbn [fst snd]. rewrite rev_app_distr. auto.
Qed.

Lemma long_single_refused p a b : runs_through p a [] b -> merge_first_spec p = Err ValueError /\ merge_last_spec p = Err ValueError.
Proof. intros ->. split; reflexivity. Qed.
