(* C155: forward and backward schedules over a whole number of periods. *)
From Coq Require Import ZArith List Bool Lia.
From Verif Require Import Base Date DateProofs BusDayModel BusDaySpec BusDayProofs ScheduleModel ScheduleSpec ScheduleProofs ScheduleDirSpec.
Import ListNotations.
Open Scope Z_scope.

Local Lemma list_ext {A} (l : list A) : forall m, length l = length m -> (forall k x y, nth_error l k = Some x -> nth_error m k = Some y -> x = y) -> l = m.
Proof.
  induction l as [|a l IH]; intros [|b m] L H; try discriminate; [reflexivity|]. f_equal; [exact (H 0%nat a b eq_refl eq_refl)|].
  apply IH; [injection L; auto|]. intros k x y X Y. exact (H (S k) x y X Y).
Qed.
Local Lemma periods_unique f m a i x y : months_of f = Some m -> periods_from f a i x -> periods_from f a i y -> x = y.
Proof.
  unfold periods_from. intros M. rewrite (months_not_days f m M), M. intros [A B] [C D]. assert (E : month_index x = month_index y) by congruence.
  apply date_eq; [exact E|]. apply same_month_iff in E as [E1 E2]. rewrite B, D, E1, E2. reflexivity.
Qed.
Local Lemma on_roll_unique dr x y y' : on_roll_day dr x y -> on_roll_day dr x y' -> y = y'.
Proof. destruct dr; cbn [on_roll_day]; [congruence| |]; intros [A B] [C D]; apply date_eq; congruence. Qed.
Local Lemma on_roll_month dr x x' y : dr <> DayUnadjusted -> month_index x = month_index x' -> on_roll_day dr x y -> on_roll_day dr x' y.
Proof. intros N E. pose proof E as E0. apply same_month_iff in E0 as [E1 E2]. destruct dr; cbn [on_roll_day]; [congruence| |]; intros [A B]; rewrite <- E1, <- E2; (split; [congruence|exact B]). Qed.
Local Lemma boundary_unique c rc dr f m a i z z' : months_of f = Some m -> boundary c rc dr f a i z -> boundary c rc dr f a i z' -> z = z'.
Proof.
  intros M (x & y & A & B & C) (x' & y' & A' & B' & C'). rewrite (periods_unique f m a i x x' M A A') in B. rewrite (on_roll_unique dr x' y y' B B') in C. congruence.
Qed.
Local Lemma periods_exist f m a i : months_of f = Some m -> exists x, periods_from f a i x.
Proof.
  intros M. assert (O : exists o, freq_offset f = Some o) by (destruct f; try discriminate; eexists; reflexivity). destruct O as (o & O).
  eexists. apply (multiply_offset_periods f o a i O).
Qed.
(* counting from either end *)
Local Lemma boundary_shift c rc dr f m n s e i z : months_of f = Some m -> months_apart m n s e -> same_days dr s e -> boundary c rc dr f s i z -> boundary c rc dr f e (i - Z.of_nat n) z.
Proof.
  intros M (_ & E) D (x & y & A & B & C). destruct (periods_exist f m e (i - Z.of_nat n) M) as (x' & A').
  assert (MX : month_index x = month_index x') by (unfold periods_from in A, A'; rewrite (months_not_days f m M), M in A, A'; destruct A as [-> _], A' as [-> _]; rewrite E; ring).
  exists x', y. split; [exact A'|]. split; [|exact C]. destruct D as [N|D]; [exact (on_roll_month dr x x' y N MX B)|].
  replace x' with x; [exact B|]. apply date_eq; [exact MX|]. unfold periods_from in A, A'. rewrite (months_not_days f m M), M in A, A'. destruct A as [_ ->], A' as [_ ->].
  rewrite D. apply same_month_iff in MX as [-> ->]. reflexivity.
Qed.
Local Lemma boundary_settles c rc dr f m n s e z : months_of f = Some m -> months_apart m n s e -> same_days dr s e -> boundary c rc dr f s (Z.of_nat n) z -> settles c rc dr e z.
Proof.
  intros M H D B. apply (boundary_shift _ _ _ _ m n s e) in B; try assumption. rewrite Z.sub_diag in B. destruct B as (x & y & A & B & C). exists y. split; [|exact C].
  assert (NZ : f <> ZeroCoupon) by (intros ->; discriminate). rewrite <- (periods_unique f m e 0 x e M A (periods_from_self f e NZ)). exact B.
Qed.

Section Modified.
Variables (c : calendar) (rc : roll_conv) (dr : day_roll) (f : freq) (m : Z) (n : nat) (s e : date).
Hypotheses (W : wf_calendar c) (B : business_day_every_month c) (Mo : modified rc) (F : months_of f = Some m) (A : months_apart m n s e).

Local Lemma forward_interior mid : interior_spec c rc dr f Forward s e mid ->
  exists xs z, mid = xs ++ kept (z <? e) z /\ length xs = (n - 1)%nat /\ boundaries_from c rc dr f s xs /\ boundary c rc dr f s (Z.of_nat n) z.
Proof.
  intros [I (d & D & L)]. pose proof (months_pos f m F) as P. destruct A as (N1 & E). pose proof (boundary_month _ _ _ _ m _ _ _ W B Mo F D) as MD.
  assert (LO : (n - 1 <= length mid)%nat).
  { destruct (Nat.le_gt_cases (n - 1) (length mid)); [assumption|exfalso]. assert (d < e); [|lia]. apply month_index_lt. nia. }
  assert (HI : (length mid <= n)%nat).
  { destruct (Nat.le_gt_cases (length mid) n) as [|G]; [assumption|exfalso]. destruct (nth_error mid n) as [x|] eqn:X; [|apply nth_error_None in X; lia].
    destruct (I n x X) as [Bx Lx]. pose proof (boundary_month _ _ _ _ m _ _ _ W B Mo F Bx) as MX. assert (e < x); [|lia]. apply month_index_lt. nia. }
  destruct (Nat.eq_dec (length mid) n) as [Q|Q].
  - destruct (exists_last (l := mid)) as (xs & z & ->); [intros ->; cbn in Q; lia|]. rewrite app_length in Q. cbn in Q. exists xs, z.
    destruct (I (n - 1)%nat z) as [Bz Lz]; [rewrite nth_error_app2 by lia; replace (n - 1 - length xs)%nat with 0%nat by lia; reflexivity|].
    split; [unfold kept; destruct (Z.ltb_spec z e); [reflexivity|lia]|]. split; [lia|]. split; [|replace (Z.of_nat n) with (Z.of_nat (n - 1) + 1) by lia; exact Bz].
    intros k x X. apply I. rewrite nth_error_app1; [exact X|]. apply nth_error_Some. congruence.
  - exists mid, d. split; [unfold kept; destruct (Z.ltb_spec d e); [lia|symmetry; apply app_nil_r]|]. split; [lia|]. split; [intros k x X; apply I; exact X|].
    replace (Z.of_nat n) with (Z.of_nat (length mid) + 1) by lia. exact D.
Qed.

Local Lemma backward_interior mid : interior_spec c rc dr f Backward s e mid ->
  exists ys z, mid = kept (s <? z) z ++ rev ys /\ length ys = (n - 1)%nat /\ (forall k d, nth_error ys k = Some d -> boundary c rc dr f e (- (Z.of_nat k + 1)) d) /\ boundary c rc dr f e (- Z.of_nat n) z.
Proof.
  intros [I (d & D & L)]. pose proof (months_pos f m F) as P. destruct A as (N1 & E). pose proof (boundary_month _ _ _ _ m _ _ _ W B Mo F D) as MD.
  rewrite <- (rev_involutive mid). rewrite <- (rev_length mid) in D, MD. set (l := rev mid) in *. clearbody l.
  assert (LO : (n - 1 <= length l)%nat).
  { destruct (Nat.le_gt_cases (n - 1) (length l)); [assumption|exfalso]. assert (s < d); [|lia]. apply month_index_lt. nia. }
  assert (HI : (length l <= n)%nat).
  { destruct (Nat.le_gt_cases (length l) n) as [|G]; [assumption|exfalso]. destruct (nth_error l n) as [x|] eqn:X; [|apply nth_error_None in X; lia].
    destruct (I n x X) as [Bx Lx]. pose proof (boundary_month _ _ _ _ m _ _ _ W B Mo F Bx) as MX. assert (x < s); [|lia]. apply month_index_lt. nia. }
  destruct (Nat.eq_dec (length l) n) as [Q|Q].
  - destruct (exists_last (l := l)) as (ys & z & ->); [intros ->; cbn in Q; lia|]. rewrite app_length in Q. cbn in Q. exists ys, z.
    destruct (I (n - 1)%nat z) as [Bz Lz]; [rewrite nth_error_app2 by lia; replace (n - 1 - length ys)%nat with 0%nat by lia; reflexivity|].
    split; [unfold kept; rewrite rev_unit; destruct (Z.ltb_spec s z); [reflexivity|lia]|]. split; [lia|]. split; [|replace (Z.of_nat n) with (Z.of_nat (n - 1) + 1) by lia; exact Bz].
    intros k x X. apply I. rewrite nth_error_app1; [exact X|]. apply nth_error_Some. congruence.
  - exists l, d. split; [unfold kept; destruct (Z.ltb_spec s d); [lia|reflexivity]|]. split; [lia|]. split; [intros k x X; apply I; exact X|].
    replace (Z.of_nat n) with (Z.of_nat (length l) + 1) by lia. exact D.
Qed.
End Modified.

(* Forward generation: n - 1 boundaries, and one more before the end date exactly when the n-th one falls before it. *)
Theorem C155_forward : forall c rc dr f m n s e ru, wf_calendar c -> business_day_every_month c -> modified rc -> valid_day_roll dr ->
  months_of f = Some m -> s < e -> months_apart m n s e ->
  exists p xs z s' e', generate_date_schedule c rc dr s e f Forward ru = Ok p /\ rolled_ends c rc ru s e s' e' /\
    length xs = (n - 1)%nat /\ boundaries_from c rc dr f s xs /\ boundary c rc dr f s (Z.of_nat n) z /\ runs_through p s' (xs ++ kept (z <? e) z) e'.
Proof.
  intros c rc dr f m n s e ru W B Mo V F L A. assert (NZ : f <> ZeroCoupon) by (intros ->; discriminate).
  destruct (generate_spec c rc dr W (modified_not_unadjusted rc Mo) s e f Forward ru V L NZ) as (p & s' & mid & e' & G & R & E & I).
  destruct (forward_interior c rc dr f m n s e W B Mo F A mid I) as (xs & z & -> & LX & BX & BZ). exists p, xs, z, s', e'. auto 10.
Qed.
(* Backward generation: the additional boundary comes after the start date. *)
Theorem C155_both : forall c rc dr f m n s e ru, wf_calendar c -> business_day_every_month c -> modified rc -> valid_day_roll dr ->
  months_of f = Some m -> s < e -> months_apart m n s e -> same_days dr s e ->
  exists pf pb xs zs ze s' e', generate_date_schedule c rc dr s e f Forward ru = Ok pf /\ generate_date_schedule c rc dr s e f Backward ru = Ok pb /\
    rolled_ends c rc ru s e s' e' /\ length xs = (n - 1)%nat /\ boundaries_from c rc dr f s xs /\ settles c rc dr s zs /\ settles c rc dr e ze /\
    runs_through pf s' (xs ++ kept (ze <? e) ze) e' /\ runs_through pb s' (kept (s <? zs) zs ++ xs) e'.
Proof.
  intros c rc dr f m n s e ru W B Mo V F L A D. assert (NZ : f <> ZeroCoupon) by (intros ->; discriminate).
  destruct (C155_forward c rc dr f m n s e ru W B Mo V F L A) as (pf & xs & ze & s' & e' & Gf & E & LX & BX & BZ & Rf).
  destruct (generate_spec c rc dr W (modified_not_unadjusted rc Mo) s e f Backward ru V L NZ) as (pb & s2 & mid & e2 & Gb & Rb & E2 & I).
  destruct (backward_interior c rc dr f m n s e W B Mo F A mid I) as (ys & zs & -> & LY & BY & BZs).
  assert (ES : s2 = s' /\ e2 = e') by (unfold rolled_ends in E; destruct ru; destruct E, E2; split; congruence). destruct ES as [-> ->].
  assert (X : xs = rev ys).
  { apply list_ext; [rewrite rev_length; congruence|]. intros k x y X Y. assert (K : (k < n - 1)%nat) by (rewrite <- LX; apply nth_error_Some; congruence).
    assert (Y' : nth_error ys (n - 2 - k) = Some y).
    { rewrite (nth_error_nth' (rev ys) 0) in Y by (rewrite rev_length; lia). rewrite rev_nth in Y by lia. rewrite LY in Y. replace (n - 1 - S k)%nat with (n - 2 - k)%nat in Y by lia.
      rewrite (nth_error_nth' ys 0) by lia. exact Y. }
    apply BX in X. apply BY in Y'. apply (boundary_shift _ _ _ _ m n s e) in X; try assumption.
    replace (- (Z.of_nat (n - 2 - k) + 1)) with (Z.of_nat k + 1 - Z.of_nat n) in Y' by lia. exact (boundary_unique c rc dr f m e _ x y F X Y'). }
  exists pf, pb, xs, zs, ze, s', e'. split; [exact Gf|]. split; [exact Gb|]. split; [exact E|]. split; [exact LX|]. split; [exact BX|].
  split; [|split; [exact (boundary_settles c rc dr f m n s e ze F A D BZ)|split; [exact Rf|rewrite X; exact Rb]]].
  destruct BZs as (x & y & P1 & P2 & P3). exists y. split; [|exact P3].
  assert (MX : month_index x = month_index s) by (unfold periods_from in P1; rewrite (months_not_days f m F), F in P1; destruct P1 as [-> _]; destruct A as (_ & ->); ring).
  destruct D as [N|D]; [exact (on_roll_month dr x s y N MX P2)|]. replace s with x; [exact P2|]. apply date_eq; [exact MX|].
  unfold periods_from in P1. rewrite (months_not_days f m F), F in P1. destruct P1 as [_ ->]. rewrite <- D. apply same_month_iff in MX as [-> ->]. pose proof (day_range s). lia.
Qed.
(* Two dates that are boundaries themselves: the direction does not matter. *)
Theorem C155_direction_irrelevant : forall c rc dr f m n s e ru, wf_calendar c -> business_day_every_month c -> modified rc -> valid_day_roll dr ->
  months_of f = Some m -> s < e -> months_apart m n s e -> same_days dr s e -> settles c rc dr s s -> settles c rc dr e e ->
  generate_date_schedule c rc dr s e f Forward ru = generate_date_schedule c rc dr s e f Backward ru /\
  exists p xs, generate_date_schedule c rc dr s e f Forward ru = Ok p /\ length xs = (n - 1)%nat /\ boundaries_from c rc dr f s xs /\ (dr = DayUnadjusted \/ ru = false -> runs_through p s xs e).
Proof.
  intros c rc dr f m n s e ru W B Mo V F L A D Ss Se. destruct (C155_both c rc dr f m n s e ru W B Mo V F L A D) as (pf & pb & xs & zs & ze & s' & e' & Gf & Gb & E & LX & BX & S1 & S2 & Rf & Rb).
  assert (U : forall x z z', settles c rc dr x z -> settles c rc dr x z' -> z = z') by (intros x z z' (y & Y1 & Y2) (y' & Y1' & Y2'); rewrite (on_roll_unique dr x y y' Y1 Y1') in Y2; congruence).
  rewrite (U s zs s S1 Ss) in Rb. rewrite (U e ze e S2 Se) in Rf. rewrite Z.ltb_irrefl in Rf, Rb. cbn [kept app] in Rf, Rb. rewrite app_nil_r in Rf. rewrite Gf, Gb. unfold runs_through in Rf, Rb. subst pf pb. split; [reflexivity|].
  eexists. exists xs. split; [reflexivity|]. split; [exact LX|]. split; [exact BX|]. intros Q. unfold runs_through. unfold rolled_ends in E. destruct ru.
  - destruct Q as [-> |Q]; [|discriminate]. destruct Ss as (y & -> & Y), Se as (y' & -> & Y'). destruct E. congruence.
  - destruct E as [-> ->]. reflexivity.
Qed.
(* A start date that is not a business day: the default generation puts an additional period before the first regular one. It holds no business
   day, and when the user's dates are rolled it is empty. *)
Theorem C155_spurious_first_period : forall c f m n s e ru z, wf_calendar c -> business_day_every_month c -> months_of f = Some m -> s < e -> months_apart m n s e -> day s = day e ->
  ~ business_day c s -> first_on_or_after c s z -> month_index z = month_index s ->
  exists p xs e', make_schedule c ModFollowing DayUnadjusted s e f None None StubDefault StubDefault ru = Ok p /\ length xs = (n - 1)%nat /\ boundaries_from c ModFollowing DayUnadjusted f s xs /\
    runs_through p (if ru then z else s) (z :: xs) e' /\ length (fst p) = (n + 1)%nat.
Proof.
  intros c f m n s e ru z W B F L A D NB FZ MZ. assert (NZ : f <> ZeroCoupon) by (intros ->; discriminate).
  destruct (C155_both c ModFollowing DayUnadjusted f m n s e ru W B (or_introl eq_refl) I F L A (or_intror D)) as (pf & pb & xs & zs & ze & s' & e' & Gf & Gb & E & LX & BX & (y & -> & Y) & S2 & Rf & Rb).
  destruct (preceding_ok c s W) as (q & _ & Q). assert (RZ : roll c ModFollowing s = Ok z) by (rewrite (roll_modfol_cases c s z q W FZ Q), MZ, Z.eqb_refl; reflexivity).
  assert (zs = z) by congruence. subst zs. assert (SZ : s < z).
  { destruct FZ as (Bz & Lz & _). destruct (Z.eq_dec s z); [subst; contradiction|lia]. }
  exists pb, xs, e'. rewrite make_schedule_stubs by assumption. cbn [choice_of]. split; [exact Gb|]. split; [exact LX|]. split; [exact BX|].
  apply Z.ltb_lt in SZ. rewrite SZ in Rb. cbn [kept app] in Rb. assert (ES : s' = if ru then z else s) by (unfold rolled_ends in E; destruct ru; destruct E; congruence). rewrite <- ES.
  split; [exact Rb|]. rewrite Rb. cbn [fst length]. destruct A as [A _]. lia.
Qed.
(* The same at the other end of a forward schedule, when the end date rolls back. *)
Theorem C155_spurious_last_period : forall c f m n s e ru z, wf_calendar c -> business_day_every_month c -> months_of f = Some m -> s < e -> months_apart m n s e -> day s = day e ->
  ~ business_day c e -> last_on_or_before c e z -> (forall x, e < x -> month_index x = month_index e -> ~ business_day c x) ->
  exists p xs s', make_schedule c ModFollowing DayUnadjusted s e f None None StubDefault StubShort ru = Ok p /\ length xs = (n - 1)%nat /\ boundaries_from c ModFollowing DayUnadjusted f s xs /\
    runs_through p s' (xs ++ [z]) (if ru then z else e) /\ length (fst p) = (n + 1)%nat.
Proof.
  intros c f m n s e ru z W B F L A D NB LZ NM. assert (NZ : f <> ZeroCoupon) by (intros ->; discriminate).
  destruct (C155_both c ModFollowing DayUnadjusted f m n s e ru W B (or_introl eq_refl) I F L A (or_intror D)) as (pf & pb & xs & zs & ze & s' & e' & Gf & Gb & E & LX & BX & S1 & (y & -> & Y) & Rf & Rb).
  destruct (following_ok c e W) as (q & _ & Q). assert (RZ : roll c ModFollowing e = Ok z).
  { rewrite (roll_modfol_cases c e q z W Q LZ). destruct (Z.eqb_spec (month_index q) (month_index e)) as [X|X]; [|reflexivity]. exfalso. destruct Q as (Bq & Lq & _).
    destruct (Z.eq_dec e q); [subst; contradiction|]. apply (NM q); [lia|exact X|exact Bq]. }
  assert (ze = z) by congruence. subst ze. assert (SZ : z < e).
  { destruct LZ as (Bz & Lz & _). destruct (Z.eq_dec e z); [subst; contradiction|lia]. }
  exists pf, xs, s'. rewrite make_schedule_stubs by assumption. cbn [choice_of]. split; [exact Gf|]. split; [exact LX|]. split; [exact BX|].
  apply Z.ltb_lt in SZ. rewrite SZ in Rf. cbn [kept] in Rf. assert (ES : e' = if ru then z else e) by (unfold rolled_ends in E; destruct ru; destruct E; congruence). rewrite <- ES.
  split; [exact Rf|]. rewrite Rf. cbn [fst length]. rewrite app_length. cbn [length]. destruct A as [A _]. lia.
Qed.

Definition all_theorems := (C155_forward, C155_both, C155_direction_irrelevant, C155_spurious_first_period, C155_spurious_last_period).
Print Assumptions all_theorems.

(* ---- concrete cases ---- *)
(* a half year from a Saturday, quarterly: three periods instead of two, the first one from the Saturday to the Monday *)
Example C155_ex_saturday : make_schedule default_calendar ModFollowing DayUnadjusted (mk 2024 6 15) (mk 2024 12 15) Quarterly None None StubDefault StubDefault false
    = Ok ([mk 2024 6 15; mk 2024 6 17; mk 2024 9 16], [mk 2024 6 17; mk 2024 9 16; mk 2024 12 15]) /\
  months_apart 3 2 (mk 2024 6 15) (mk 2024 12 15) /\ day (mk 2024 6 15) = day (mk 2024 12 15) /\ month_index (mk 2024 6 17) = month_index (mk 2024 6 15).
Proof. repeat split; try (vm_compute; reflexivity). lia. Qed.
Example C155_ex_rolled : make_schedule default_calendar ModFollowing DayUnadjusted (mk 2024 6 15) (mk 2024 12 15) Quarterly None None StubDefault StubDefault true
    = Ok ([mk 2024 6 17; mk 2024 6 17; mk 2024 9 16], [mk 2024 6 17; mk 2024 9 16; mk 2024 12 16]).
Proof. vm_compute. reflexivity. Qed.
Example C155_ex_month_end : make_schedule default_calendar ModFollowing DayUnadjusted (mk 2024 5 30) (mk 2024 11 30) Quarterly None None StubDefault StubShort false
    = Ok ([mk 2024 5 30; mk 2024 8 30; mk 2024 11 29], [mk 2024 8 30; mk 2024 11 29; mk 2024 11 30]).
Proof. vm_compute. reflexivity. Qed.
Example C155_ex_agree : wf_calendar default_calendar /\ business_day_every_month default_calendar /\ settles default_calendar ModFollowing RollEOM (mk 2024 1 31) (mk 2024 1 31) /\
  settles default_calendar ModFollowing RollEOM (mk 2024 4 30) (mk 2024 4 30) /\ months_apart 1 3 (mk 2024 1 31) (mk 2024 4 30).
Proof.
  split; [exact wf_default|]. split; [exact default_every_month|]. split; [exists (mk 2024 1 31); repeat split; vm_compute; reflexivity|]. split; [exists (mk 2024 4 30); repeat split; vm_compute; reflexivity|].
  split; [lia|vm_compute; reflexivity].
Qed.
(* without a roll day the two ends must be on the same day: the boundary in March is the 31st counted from the start and the 30th counted from the end *)
Example C155_ex_clipped : generate_date_schedule default_calendar ModFollowing DayUnadjusted (mk 2023 1 31) (mk 2023 4 30) Monthly Forward false
    <> generate_date_schedule default_calendar ModFollowing DayUnadjusted (mk 2023 1 31) (mk 2023 4 30) Monthly Backward false /\ months_apart 1 3 (mk 2023 1 31) (mk 2023 4 30).
Proof. split; [vm_compute; discriminate|]. split; [lia|vm_compute; reflexivity]. Qed.
