From Coq Require Import ZArith String List Bool Lia.
From Coq Require Import ZifyBool.
From Verif Require Import Base Date DateProofs BusDayModel BusDaySpec.
Import ListNotations.
Open Scope Z_scope.
Ltac Zify.zify_post_hook ::= Z.div_mod_to_equations.

Lemma wf_default : wf_calendar default_calendar.
Proof. exists 0. split; [lia|reflexivity]. Qed.

Lemma busdaycalendar_wf wm h c : busdaycalendar wm h = Ok c -> wf_calendar c /\ weekmask c = wm /\ holidays c = h.
Proof.
  unfold busdaycalendar. destruct ((List.length wm =? 7)%nat && existsb (fun b => b) wm) eqn:E; [|discriminate].
  intros H. injection H as <-. cbn. split; [|auto].
  apply andb_true_iff in E as [L X]. apply Nat.eqb_eq in L. apply existsb_exists in X as (b & Hin & Hb).
  apply In_nth with (d := false) in Hin as (i & Hi & Hn). exists (Z.of_nat i). cbn. rewrite Nat2Z.id, Hn.
  split; [lia|assumption].
Qed.

Lemma weekday_shift d w : 0 <= w <= 6 -> exists k, 0 <= k <= 6 /\ weekday (d + k) = w.
Proof.
  intros H. exists ((w - (d + 6)) mod 7). unfold weekday. lia.
Qed.

Lemma weekday_add7 d j : weekday (d + 7 * j) = weekday d.
Proof. unfold weekday. lia. Qed.

(* pigeonhole: among length h + 1 weeks one has its working weekday not a holiday *)
Lemma some_not_in (h : list Z) (f : nat -> Z) (m : nat) :
  (forall i j, (i < m)%nat -> (j < m)%nat -> f i = f j -> i = j) -> (List.length h < m)%nat ->
  exists i, (i < m)%nat /\ ~ In (f i) h.
Proof.
  intros Inj L.
  destruct (existsb (fun i => negb (existsb (Z.eqb (f i)) h)) (seq 0 m)) eqn:E.
  - apply existsb_exists in E as (i & Hi & Hn). apply in_seq in Hi. exists i. split; [lia|].
    intros Hin. apply negb_true_iff in Hn. rewrite <- not_true_iff_false in Hn. apply Hn.
    apply existsb_exists. exists (f i). split; [assumption|apply Z.eqb_refl].
  - exfalso. assert (I : incl (map f (seq 0 m)) h).
    { intros x Hx. apply in_map_iff in Hx as (i & <- & Hi).
      rewrite <- not_true_iff_false in E.
      destruct (existsb (Z.eqb (f i)) h) eqn:X.
      - apply existsb_exists in X as (y & Hy & Ey). apply Z.eqb_eq in Ey. subst. assumption.
      - exfalso. apply E. apply existsb_exists. exists i. split; [assumption|]. rewrite X. reflexivity. }
    assert (N : NoDup (map f (seq 0 m))).
    { assert (G : forall l, NoDup l -> (forall i, In i l -> (i < m)%nat) -> NoDup (map f l)).
      { induction l as [|a l IH]; intros ND HB; cbn; constructor.
        - intros Hin. apply in_map_iff in Hin as (b & Eb & Hb). inversion ND as [|x y Hnin ND']; subst.
          assert (b = a) by (apply Inj; [apply HB; right; assumption | apply HB; left; reflexivity | assumption]).
          subst. contradiction.
        - apply IH; [inversion ND; assumption | intros; apply HB; right; assumption]. }
      apply G; [apply seq_NoDup | intros i Hi; apply in_seq in Hi; lia]. }
    pose proof (NoDup_incl_length N I) as K. rewrite map_length, seq_length in K. lia.
Qed.

Lemma is_busday_iff c d : is_busday c d = true <-> business_day c d.
Proof.
  unfold is_busday, business_day. rewrite andb_true_iff, negb_true_iff. split.
  - intros [W H]. split; [assumption|]. intros Hin. rewrite <- not_true_iff_false in H. apply H.
    apply existsb_exists. exists d. split; [assumption|apply Z.eqb_refl].
  - intros [W H]. split; [assumption|]. apply not_true_iff_false. intros X.
    apply existsb_exists in X as (x & Hx & E). apply Z.eqb_eq in E. subst. contradiction.
Qed.

Lemma is_busday_false c d : is_busday c d = false <-> ~ business_day c d.
Proof. rewrite <- is_busday_iff. destruct (is_busday c d); intuition congruence. Qed.

Lemma busday_within_fwd c d : wf_calendar c ->
  exists x, d <= x < d + Z.of_nat (search_fuel c) /\ business_day c x.
Proof.
  intros (w & Hw & Hm). destruct (weekday_shift d w Hw) as (k & Hk & Hd).
  destruct (some_not_in (holidays c) (fun i => d + k + 7 * Z.of_nat i) (List.length (holidays c) + 1))
    as (i & Hi & Hn); [cbv beta; intros; lia | rewrite Nat.add_1_r; apply Nat.lt_succ_diag_r |].
  exists (d + k + 7 * Z.of_nat i). unfold search_fuel. split; [lia|].
  split; [|assumption]. unfold working_weekday. rewrite weekday_add7, Hd. assumption.
Qed.

Lemma busday_within_bwd c d : wf_calendar c ->
  exists x, d - Z.of_nat (search_fuel c) < x <= d /\ business_day c x.
Proof.
  intros H. destruct (busday_within_fwd c (d - Z.of_nat (search_fuel c) + 1) H) as (x & Hx & B).
  exists x. split; [lia|assumption].
Qed.

Lemma search_fwd_spec c fuel : forall d x, d <= x < d + Z.of_nat fuel -> business_day c x ->
  exists r, search_fwd c fuel d = Ok r /\ first_on_or_after c d r.
Proof.
  induction fuel as [|k IH]; intros d x Hx B; [lia|]. cbn [search_fwd].
  destruct (is_busday c d) eqn:E.
  - apply is_busday_iff in E. exists d. split; [reflexivity|]. unfold first_on_or_after. repeat split; try apply E; try lia.
  - apply is_busday_false in E. assert (d <> x) by (intros ->; contradiction).
    destruct (IH (d + 1) x) as (r & Hr & R1 & R2 & R3); [lia|assumption|].
    exists r. split; [assumption|]. repeat split; try apply R1; try lia.
    intros y Hy. destruct (Z.eq_dec y d) as [->|]; [assumption|]. apply R3. lia.
Qed.

Lemma search_bwd_spec c fuel : forall d x, d - Z.of_nat fuel < x <= d -> business_day c x ->
  exists r, search_bwd c fuel d = Ok r /\ last_on_or_before c d r.
Proof.
  induction fuel as [|k IH]; intros d x Hx B; [lia|]. cbn [search_bwd].
  destruct (is_busday c d) eqn:E.
  - apply is_busday_iff in E. exists d. split; [reflexivity|]. unfold last_on_or_before. repeat split; try apply E; try lia.
  - apply is_busday_false in E. assert (d <> x) by (intros ->; contradiction).
    destruct (IH (d - 1) x) as (r & Hr & R1 & R2 & R3); [lia|assumption|].
    exists r. split; [assumption|]. repeat split; try apply R1; try lia.
    intros y Hy. destruct (Z.eq_dec y d) as [->|]; [assumption|]. apply R3. lia.
Qed.

Lemma following_ok c d : wf_calendar c -> exists r, following c d = Ok r /\ first_on_or_after c d r.
Proof.
  intros H. destruct (busday_within_fwd c d H) as (x & Hx & B). unfold following. eapply search_fwd_spec; eassumption.
Qed.

Lemma preceding_ok c d : wf_calendar c -> exists r, preceding c d = Ok r /\ last_on_or_before c d r.
Proof.
  intros H. destruct (busday_within_bwd c d H) as (x & Hx & B). unfold preceding. eapply search_bwd_spec; eassumption.
Qed.

Lemma first_unique c d r r' : first_on_or_after c d r -> first_on_or_after c d r' -> r = r'.
Proof.
  intros (B & L & N) (B' & L' & N').
  destruct (Z.lt_trichotomy r r') as [H|[H|H]]; [|assumption|].
  - exfalso. apply (N' r); [lia|assumption].
  - exfalso. apply (N r'); [lia|assumption].
Qed.

Lemma last_unique c d r r' : last_on_or_before c d r -> last_on_or_before c d r' -> r = r'.
Proof.
  intros (B & L & N) (B' & L' & N').
  destruct (Z.lt_trichotomy r r') as [H|[H|H]]; [|assumption|].
  - exfalso. apply (N r'); [lia|assumption].
  - exfalso. apply (N' r); [lia|assumption].
Qed.

Lemma following_iff c d r : wf_calendar c -> (following c d = Ok r <-> first_on_or_after c d r).
Proof.
  intros H. destruct (following_ok c d H) as (x & E & F). split.
  - rewrite E. intros [= <-]. assumption.
  - intros F'. rewrite E. f_equal. eapply first_unique; eassumption.
Qed.

Lemma preceding_iff c d r : wf_calendar c -> (preceding c d = Ok r <-> last_on_or_before c d r).
Proof.
  intros H. destruct (preceding_ok c d H) as (x & E & F). split.
  - rewrite E. intros [= <-]. assumption.
  - intros F'. rewrite E. f_equal. eapply last_unique; eassumption.
Qed.

Lemma following_id c d : wf_calendar c -> business_day c d -> following c d = Ok d.
Proof. intros H B. apply following_iff; [assumption|]. unfold first_on_or_after. repeat split; try apply B; lia. Qed.

Lemma preceding_id c d : wf_calendar c -> business_day c d -> preceding c d = Ok d.
Proof. intros H B. apply preceding_iff; [assumption|]. unfold last_on_or_before. repeat split; try apply B; lia. Qed.

Lemma first_mono c d d' r r' : d <= d' -> first_on_or_after c d r -> first_on_or_after c d' r' -> r <= r'.
Proof.
  intros H (B & L & N) (B' & L' & N'). destruct (Z.le_gt_cases r r') as [|G]; auto.
  exfalso. apply (N r'); [lia|assumption].
Qed.

Lemma last_mono c d d' r r' : d <= d' -> last_on_or_before c d r -> last_on_or_before c d' r' -> r <= r'.
Proof.
  intros H (B & L & N) (B' & L' & N'). destruct (Z.le_gt_cases r r') as [|G]; auto.
  exfalso. apply (N' r); [lia|assumption].
Qed.

(* ---- roll ---- *)

Lemma roll_ok c r d : wf_calendar c -> r <> Unadjusted -> exists e, roll c r d = Ok e /\ business_day c e.
Proof.
  intros H N. destruct (following_ok c d H) as (f & Ef & F). destruct (preceding_ok c d H) as (p & Ep & P).
  destruct r; [contradiction| | | |]; cbn [roll]; rewrite ?Ef, ?Ep; cbn [bind].
  - exists f. split; [reflexivity|apply F].
  - exists p. split; [reflexivity|apply P].
  - destruct (month_index f =? month_index d); [exists f|exists p]; (split; [reflexivity|apply F || apply P]).
  - destruct (month_index p =? month_index d); [exists p|exists f]; (split; [reflexivity|apply F || apply P]).
Qed.

Lemma roll_id c r d : wf_calendar c -> r <> Unadjusted -> business_day c d -> roll c r d = Ok d.
Proof.
  intros H N B. destruct r; [contradiction| | | |]; cbn [roll]; rewrite ?following_id, ?preceding_id by assumption;
  cbn [bind]; rewrite ?Z.eqb_refl; reflexivity.
Qed.

Lemma roll_idempotent c r d e : wf_calendar c -> roll c r d = Ok e -> roll c r e = Ok e.
Proof.
  intros H E. assert (N : r <> Unadjusted) by (intros ->; discriminate).
  destruct (roll_ok c r d H N) as (e' & E' & B). rewrite E in E'. injection E' as <-.
  apply roll_id; assumption.
Qed.

(* In a month with a business day, the modified rolls stay in the month. *)
Lemma roll_modfol_month c d : wf_calendar c ->
  (exists x, business_day c x /\ month_index x = month_index d) ->
  exists e, roll c ModFollowing d = Ok e /\ business_day c e /\ month_index e = month_index d.
Proof.
  intros H (x & Bx & Mx). destruct (following_ok c d H) as (f & Ef & F). destruct (preceding_ok c d H) as (p & Ep & P).
  cbn [roll]. rewrite Ef. cbn [bind]. destruct (Z.eqb_spec (month_index f) (month_index d)) as [E|N].
  - exists f. repeat split; try apply F; assumption.
  - rewrite Ep. exists p. split; [reflexivity|]. split; [apply P|].
    destruct F as (Bf & Lf & Nf). destruct P as (Bp & Lp & Np).
    pose proof (month_index_mono d f Lf). pose proof (month_index_mono p d Lp).
    destruct (Z.le_gt_cases d x) as [G|G].
    + (* x on or after d in the month: then f <= x, in the month *)
      exfalso. assert (f <= x) by (destruct (Z.le_gt_cases f x); auto; exfalso; apply (Nf x); [lia|assumption]).
      pose proof (month_index_mono f x). lia.
    + assert (x <= p) by (destruct (Z.le_gt_cases x p); auto; exfalso; apply (Np x); [lia|assumption]).
      pose proof (month_index_mono x p). lia.
Qed.

Lemma roll_modprec_month c d : wf_calendar c ->
  (exists x, business_day c x /\ month_index x = month_index d) ->
  exists e, roll c ModPreceding d = Ok e /\ business_day c e /\ month_index e = month_index d.
Proof.
  intros H (x & Bx & Mx). destruct (following_ok c d H) as (f & Ef & F). destruct (preceding_ok c d H) as (p & Ep & P).
  cbn [roll]. rewrite Ep. cbn [bind]. destruct (Z.eqb_spec (month_index p) (month_index d)) as [E|N].
  - exists p. repeat split; try apply P; assumption.
  - rewrite Ef. exists f. split; [reflexivity|]. split; [apply F|].
    destruct F as (Bf & Lf & Nf). destruct P as (Bp & Lp & Np).
    pose proof (month_index_mono d f Lf). pose proof (month_index_mono p d Lp).
    destruct (Z.le_gt_cases x d) as [G|G].
    + exfalso. assert (x <= p) by (destruct (Z.le_gt_cases x p); auto; exfalso; apply (Np x); [lia|assumption]).
      pose proof (month_index_mono x p). lia.
    + assert (f <= x) by (destruct (Z.le_gt_cases f x); auto; exfalso; apply (Nf x); [lia|assumption]).
      pose proof (month_index_mono f x). lia.
Qed.

(* Complete description of the modified rolls by the plain ones. *)
Lemma roll_modfol_cases c d f p : wf_calendar c -> first_on_or_after c d f -> last_on_or_before c d p ->
  roll c ModFollowing d = Ok (if month_index f =? month_index d then f else p).
Proof.
  intros H F P. apply following_iff in F; [|assumption]. apply preceding_iff in P; [|assumption].
  cbn [roll]. rewrite F. cbn [bind]. destruct (month_index f =? month_index d); [reflexivity|assumption].
Qed.

Lemma roll_modprec_cases c d f p : wf_calendar c -> first_on_or_after c d f -> last_on_or_before c d p ->
  roll c ModPreceding d = Ok (if month_index p =? month_index d then p else f).
Proof.
  intros H F P. apply following_iff in F; [|assumption]. apply preceding_iff in P; [|assumption].
  cbn [roll]. rewrite P. cbn [bind]. destruct (month_index p =? month_index d); [reflexivity|assumption].
Qed.

(* Every convention is monotone in the date. *)
Lemma roll_mono c r d d' e e' : wf_calendar c -> d <= d' -> roll c r d = Ok e -> roll c r d' = Ok e' -> e <= e'.
Proof.
  intros H L E E'. assert (N : r <> Unadjusted) by (intros ->; discriminate).
  destruct (following_ok c d H) as (f & Ef & F). destruct (preceding_ok c d H) as (p & Ep & P).
  destruct (following_ok c d' H) as (f' & Ef' & F'). destruct (preceding_ok c d' H) as (p' & Ep' & P').
  pose proof (first_mono _ _ _ _ _ L F F') as Lf. pose proof (last_mono _ _ _ _ _ L P P') as Lp.
  assert (Lpf : p <= f') by (destruct F' as (_ & ? & _), P as (_ & ? & _); lia).
  assert (K : month_index f = month_index d -> month_index f' <> month_index d' -> f <= p').
  { intros K1 K2. destruct F as (Bf & Lf1 & Nf), F' as (Bf' & Lf1' & Nf'), P' as (Bp' & Lp1' & Np').
    destruct (Z.le_gt_cases f d') as [G|G].
    - destruct (Z.le_gt_cases f p'); auto. exfalso. apply (Np' f); [lia|assumption].
    - (* f > d' : then f' = f, both in the month of d <= d' <= f *)
      exfalso. assert (f' = f).
      { destruct (Z.lt_trichotomy f' f) as [X|[X|X]]; [lia|assumption|]. exfalso. apply (Nf' f); [lia|assumption]. }
      subst f'. pose proof (month_index_mono d d' L). pose proof (month_index_mono d' f). lia. }
  assert (K' : month_index p <> month_index d -> month_index p' = month_index d' -> f <= p').
  { intros K1 K2. destruct F as (Bf & Lf1 & Nf), P as (Bp & Lp1 & Np), P' as (Bp' & Lp1' & Np').
    destruct (Z.le_gt_cases d p') as [G|G].
    - destruct (Z.le_gt_cases f p'); auto. exfalso. apply (Nf p'); [lia|assumption].
    - exfalso. assert (p = p').
      { destruct (Z.lt_trichotomy p p') as [X|[X|X]]; [|assumption|lia]. exfalso. apply (Np p'); [lia|assumption]. }
      subst p'. pose proof (month_index_mono d d' L). pose proof (month_index_mono p d). lia. }
  destruct r; [contradiction| | | |]; cbn [roll] in *; rewrite ?Ef, ?Ef', ?Ep, ?Ep' in *; cbn [bind] in *.
  - congruence.
  - congruence.
  - destruct (Z.eqb_spec (month_index f) (month_index d)), (Z.eqb_spec (month_index f') (month_index d'));
      injection E as <-; injection E' as <-; auto.
  - destruct (Z.eqb_spec (month_index p) (month_index d)), (Z.eqb_spec (month_index p') (month_index d'));
      injection E as <-; injection E' as <-; auto.
Qed.

(* ---- stepping ---- *)

Lemma step_fwd_ok c n : wf_calendar c -> forall d, business_day c d ->
  exists e, step_fwd c n d = Ok e /\ business_day c e /\ d <= e.
Proof.
  intros H. induction n as [|n IH]; intros d B; cbn [step_fwd].
  - exists d. repeat split; try apply B. lia.
  - destruct (following_ok c (d + 1) H) as (f & -> & Bf & Lf & _). cbn [bind].
    destruct (IH f Bf) as (e & He & Be & Le). exists e. repeat split; try apply Be; auto. lia.
Qed.

Lemma step_bwd_ok c n : wf_calendar c -> forall d, business_day c d ->
  exists e, step_bwd c n d = Ok e /\ business_day c e /\ e <= d.
Proof.
  intros H. induction n as [|n IH]; intros d B; cbn [step_bwd].
  - exists d. repeat split; try apply B. lia.
  - destruct (preceding_ok c (d - 1) H) as (f & -> & Bf & Lf & _). cbn [bind].
    destruct (IH f Bf) as (e & He & Be & Le). exists e. repeat split; try apply Be; auto. lia.
Qed.

Lemma step_fwd_add c n m d : step_fwd c (n + m) d = let* e := step_fwd c n d in step_fwd c m e.
Proof.
  revert d. induction n as [|n IH]; intros d; cbn [Nat.add step_fwd bind]; [reflexivity|].
  destruct (following c (d + 1)); cbn [bind]; [apply IH|reflexivity].
Qed.

Lemma step_bwd_add c n m d : step_bwd c (n + m) d = let* e := step_bwd c n d in step_bwd c m e.
Proof.
  revert d. induction n as [|n IH]; intros d; cbn [Nat.add step_bwd bind]; [reflexivity|].
  destruct (preceding c (d - 1)); cbn [bind]; [apply IH|reflexivity].
Qed.

Lemma next_prev c d f : wf_calendar c -> business_day c d -> following c (d + 1) = Ok f -> preceding c (f - 1) = Ok d.
Proof.
  intros H B E. apply following_iff in E as (Bf & Lf & Nf); [|assumption].
  apply preceding_iff; [assumption|]. repeat split; try apply B; [lia|]. intros x Hx. apply Nf. lia.
Qed.

Lemma prev_next c d f : wf_calendar c -> business_day c d -> preceding c (d - 1) = Ok f -> following c (f + 1) = Ok d.
Proof.
  intros H B E. apply preceding_iff in E as (Bf & Lf & Nf); [|assumption].
  apply following_iff; [assumption|]. repeat split; try apply B; [lia|]. intros x Hx. apply Nf. lia.
Qed.

Lemma step_fwd_bwd c n : wf_calendar c -> forall d e, business_day c d -> step_fwd c n d = Ok e -> step_bwd c n e = Ok d.
Proof.
  intros H. induction n as [|n IH]; intros d e B E; cbn [step_fwd] in E; [cbn [step_bwd]; congruence|].
  replace (S n) with (n + 1)%nat by lia. rewrite step_bwd_add.
  destruct (following_ok c (d + 1) H) as (f & Ef & Bf & _). rewrite Ef in E. cbn [bind] in E.
  rewrite (IH f e Bf E). cbn [bind step_bwd]. rewrite (next_prev c d f H B Ef). reflexivity.
Qed.

Lemma step_bwd_fwd c n : wf_calendar c -> forall d e, business_day c d -> step_bwd c n d = Ok e -> step_fwd c n e = Ok d.
Proof.
  intros H. induction n as [|n IH]; intros d e B E; cbn [step_bwd] in E; [cbn [step_fwd]; congruence|].
  replace (S n) with (n + 1)%nat by lia. rewrite step_fwd_add.
  destruct (preceding_ok c (d - 1) H) as (f & Ef & Bf & _). rewrite Ef in E. cbn [bind] in E.
  rewrite (IH f e Bf E). cbn [bind step_fwd]. rewrite (prev_next c d f H B Ef). reflexivity.
Qed.

(* counting *)
Lemma days_after_app a b c : a <= b <= c -> days_after a c = (days_after a b ++ days_after b c)%list.
Proof.
  intros H. unfold days_after.
  replace (Z.to_nat (c - a)) with (Z.to_nat (b - a) + Z.to_nat (c - b))%nat by lia.
  rewrite seq_app, map_app. f_equal. cbn [Nat.add].
  rewrite <- (Nat.add_0_r (Z.to_nat (b - a))) at 1.
  generalize (Z.to_nat (c - b)) as k. intros k.
  assert (G : forall s, map (fun i : nat => a + 1 + Z.of_nat i) (seq (Z.to_nat (b - a) + s) k)
      = map (fun i : nat => b + 1 + Z.of_nat i) (seq s k)).
  { induction k as [|k IH]; intros s; cbn [seq map]; [reflexivity|]. f_equal; [lia|].
    replace (S (Z.to_nat (b - a) + s)) with (Z.to_nat (b - a) + S s)%nat by lia. apply IH. }
  apply G.
Qed.

Lemma count_app c a b d : a <= b <= d -> business_days_between c a d = (business_days_between c a b + business_days_between c b d)%nat.
Proof.
  intros H. unfold business_days_between. rewrite (days_after_app a b d) by assumption.
  rewrite filter_app, app_length. reflexivity.
Qed.

Lemma count_none c a b : (forall x, a < x <= b -> ~ business_day c x) -> business_days_between c a b = 0%nat.
Proof.
  intros H. unfold business_days_between.
  assert (G : forall l, (forall x, In x l -> ~ business_day c x) -> filter (is_busday c) l = []).
  { induction l as [|x l IH]; intros Hl; cbn; [reflexivity|].
    rewrite (proj2 (is_busday_false c x)) by (apply Hl; left; reflexivity). apply IH. intros; apply Hl; right; assumption. }
  rewrite G; [reflexivity|]. intros x Hx. unfold days_after in Hx. apply in_map_iff in Hx as (i & <- & Hi).
  apply in_seq in Hi. apply H. lia.
Qed.

Lemma count_next c a f : wf_calendar c -> following c (a + 1) = Ok f -> business_days_between c a f = 1%nat.
Proof.
  intros H E. apply following_iff in E as (B & L & N); [|assumption].
  rewrite (count_app c a (f - 1) f) by lia. rewrite count_none by (intros x Hx; apply N; lia).
  unfold business_days_between, days_after. replace (f - (f - 1)) with 1 by lia.
  change (Z.to_nat 1) with 1%nat. cbn [seq map filter]. change (Z.of_nat 0) with 0.
  replace (f - 1 + 1 + 0) with f by lia. apply is_busday_iff in B. rewrite B. reflexivity.
Qed.

Lemma step_fwd_count c n : wf_calendar c -> forall d e, business_day c d -> step_fwd c n d = Ok e ->
  business_days_between c d e = n.
Proof.
  intros H. induction n as [|n IH]; intros d e B E; cbn [step_fwd] in E.
  - injection E as <-. unfold business_days_between, days_after. rewrite Z.sub_diag. reflexivity.
  - destruct (following_ok c (d + 1) H) as (f & Ef & Bf & Lf & _). rewrite Ef in E. cbn [bind] in E.
    destruct (step_fwd_ok c n H f Bf) as (e' & Ee' & _ & Le). rewrite E in Ee'. injection Ee' as <-.
    rewrite (count_app c d f e) by lia. rewrite (count_next c d f H Ef), (IH f e Bf E). reflexivity.
Qed.

Lemma busday_offset_ok c d n r : wf_calendar c -> r <> Unadjusted ->
  exists e, busday_offset c d n r = Ok e /\ business_day c e.
Proof.
  intros H N. destruct (roll_ok c r d H N) as (e & E & B). unfold busday_offset. rewrite E. cbn [bind].
  destruct (0 <=? n).
  - destruct (step_fwd_ok c (Z.to_nat n) H e B) as (x & ? & ? & _); eauto.
  - destruct (step_bwd_ok c (Z.to_nat (- n)) H e B) as (x & ? & ? & _); eauto.
Qed.

Lemma busday_offset_0 c d r : busday_offset c d 0 r = roll c r d.
Proof. unfold busday_offset. destruct (roll c r d); reflexivity. Qed.

Lemma busday_offset_unadjusted c d n : busday_offset c d n Unadjusted = Err ValueError.
Proof. reflexivity. Qed.

(* From a business day, any convention: integer group action of offsets. *)
Lemma busday_offset_bd c d n r : wf_calendar c -> r <> Unadjusted -> business_day c d ->
  busday_offset c d n r = if 0 <=? n then step_fwd c (Z.to_nat n) d else step_bwd c (Z.to_nat (- n)) d.
Proof. intros H N B. unfold busday_offset. rewrite roll_id by assumption. reflexivity. Qed.

Lemma workday_count c d n : wf_calendar c -> 0 <= n ->
  exists s e, following c d = Ok s /\ workday d n c = Ok e /\ business_day c e /\ s <= e /\
    business_days_between c s e = Z.to_nat n.
Proof.
  intros H Hn. destruct (following_ok c d H) as (s & E & Bs & _).
  unfold workday, busday_offset. cbn [roll]. rewrite E. cbn [bind].
  rewrite (proj2 (Z.leb_le 0 n)) by assumption.
  destruct (step_fwd_ok c (Z.to_nat n) H s Bs) as (e & Ee & Be & Le).
  exists s, e. repeat split; try assumption; try apply Be. eapply step_fwd_count; eassumption.
Qed.

Lemma busday_offset_compose c d n m r r' : wf_calendar c -> r <> Unadjusted -> r' <> Unadjusted -> 0 <= n -> 0 <= m ->
  exists e, busday_offset c d n r = Ok e /\ busday_offset c e m r' = busday_offset c d (n + m) r.
Proof.
  intros H N N' Hn Hm. destruct (roll_ok c r d H N) as (s & E & B).
  unfold busday_offset at 1 3. rewrite E. cbn [bind].
  rewrite !(proj2 (Z.leb_le 0 _)) by lia.
  destruct (step_fwd_ok c (Z.to_nat n) H s B) as (e & Ee & Be & Le). exists e. split; [assumption|].
  rewrite busday_offset_bd by assumption. rewrite (proj2 (Z.leb_le 0 _)) by lia.
  rewrite Z2Nat.inj_add by lia. rewrite step_fwd_add, Ee. reflexivity.
Qed.

Lemma busday_offset_inverse c d n r r' : wf_calendar c -> r <> Unadjusted -> r' <> Unadjusted ->
  exists s e, roll c r d = Ok s /\ busday_offset c d n r = Ok e /\ busday_offset c e (- n) r' = Ok s.
Proof.
  intros H N N'. destruct (roll_ok c r d H N) as (s & E & B). exists s.
  unfold busday_offset at 1. rewrite E. cbn [bind].
  destruct (Z.leb_spec 0 n) as [G|G].
  - destruct (step_fwd_ok c (Z.to_nat n) H s B) as (e & Ee & Be & _). exists e. split; [reflexivity|]. split; [assumption|].
    rewrite busday_offset_bd by assumption. pose proof (step_fwd_bwd c _ H s e B Ee) as R.
    destruct (Z.leb_spec 0 (- n)).
    + assert (n = 0) by lia. subst n. cbn in *. assumption.
    + replace (- - n) with n by lia. assumption.
  - destruct (step_bwd_ok c (Z.to_nat (- n)) H s B) as (e & Ee & Be & _). exists e. split; [reflexivity|]. split; [assumption|].
    rewrite busday_offset_bd by assumption. rewrite (proj2 (Z.leb_le 0 _)) by lia.
    eapply step_bwd_fwd; eassumption.
Qed.

(* ---- joint calendars ---- *)

Lemma set_false_nth l i l' : set_false l i = Some l' ->
  (i < List.length l)%nat /\ List.length l' = List.length l /\ forall j, nth j l' false = if Nat.eqb j i then false else nth j l false.
Proof.
  revert i l'. induction l as [|x l IH]; intros i l' H; [discriminate|].
  destruct i; cbn in H.
  - injection H as <-. cbn. split; [lia|]. split; [reflexivity|]. intros [|j]; reflexivity.
  - destruct (set_false l i) eqn:E; [|discriminate]. injection H as <-. destruct (IH _ _ E) as (A & B & C).
    cbn. split; [lia|]. split; [lia|]. intros [|j]; cbn; [reflexivity|apply C].
Qed.

Lemma set_false_total l i : (i < List.length l)%nat -> exists l', set_false l i = Some l'.
Proof.
  revert i. induction l as [|x l IH]; intros i H; [cbn in H; lia|]. destruct i; cbn; [eauto|].
  destruct (IH i) as (l' & ->); [cbn in H; lia|]. eauto.
Qed.

Lemma convert_from_ok ws : (forall w, In w ws -> 0 <= w <= 6) -> forall mask, List.length mask = 7%nat ->
  exists m, convert_weekend_from mask ws = Ok m /\ List.length m = 7%nat /\
    forall j, (j < 7)%nat -> nth j m false = nth j mask false && negb (existsb (Z.eqb (Z.of_nat j)) ws).
Proof.
  induction ws as [|w ws IH]; intros Hw mask L; cbn [convert_weekend_from].
  - exists mask. split; [reflexivity|]. split; [assumption|]. intros j _. cbn. rewrite andb_true_r. reflexivity.
  - pose proof (Hw w (or_introl eq_refl)) as Bw.
    destruct (set_false_total mask (Z.to_nat w)) as (m1 & E1); [lia|].
    destruct (set_false_nth _ _ _ E1) as (_ & L1 & N1).
    unfold set_day. destruct (Z.ltb_spec w 0); [lia|]. cbv zeta. destruct (Z.ltb_spec w 0); [lia|]. rewrite E1. cbn [bind].
    destruct (IH (fun x Hx => Hw x (or_intror Hx)) m1) as (m & Em & Lm & Nm); [lia|].
    exists m. split; [assumption|]. split; [assumption|]. intros j Hj. rewrite Nm, N1 by assumption. cbn [existsb].
    destruct (Nat.eqb_spec j (Z.to_nat w)) as [->|Nj].
    + rewrite Z2Nat.id by lia. rewrite Z.eqb_refl. cbn. rewrite andb_false_r. reflexivity.
    + destruct (Z.eqb_spec (Z.of_nat j) w); [lia|]. cbn. reflexivity.
Qed.

Lemma existsb_eqb_in x l : existsb (Z.eqb x) l = true <-> In x l.
Proof.
  rewrite existsb_exists. split.
  - intros (y & Hy & E). apply Z.eqb_eq in E. subst. assumption.
  - intros H. exists x. split; [assumption|apply Z.eqb_refl].
Qed.

Lemma convert_ok ws : (forall w, In w ws -> 0 <= w <= 6) ->
  exists m, convert_weekend_to_weekmask ws = Ok m /\ List.length m = 7%nat /\
    forall j, 0 <= j <= 6 -> (nth (Z.to_nat j) m false = true <-> ~ In j ws).
Proof.
  intros H. destruct (convert_from_ok ws H (repeat true 7) eq_refl) as (m & E & L & N).
  exists m. split; [assumption|]. split; [assumption|]. intros j Hj. rewrite N by lia.
  rewrite Z2Nat.id by lia. rewrite <- existsb_eqb_in.
  assert (nth (Z.to_nat j) (repeat true 7) false = true) as ->.
  { assert (J : j = 0 \/ j = 1 \/ j = 2 \/ j = 3 \/ j = 4 \/ j = 5 \/ j = 6) by lia.
    repeat (destruct J as [->|J]; [reflexivity|]). subst. reflexivity. }
  cbn. destruct (existsb (Z.eqb j) ws); cbn; intuition congruence.
Qed.

Lemma set_day_spec l w : List.length l = 7%nat ->
  if (-7 <=? w) && (w <=? 6) then
    exists m, set_day l w = Ok m /\ List.length m = 7%nat /\ forall j, 0 <= j <= 6 -> nth (Z.to_nat j) m false = nth (Z.to_nat j) l false && negb ((w =? j) || (w =? j - 7))
  else set_day l w = Err IndexError.
Proof.
  intros L. unfold set_day. cbv zeta. rewrite L. change (Z.of_nat 7) with 7.
  destruct (Z.leb_spec (-7) w), (Z.leb_spec w 6); cbn [andb].
  - assert (J : exists i, (if w <? 0 then w + 7 else w) = i /\ 0 <= i <= 6 /\ forall j, 0 <= j <= 6 -> (j = i <-> (w = j \/ w = j - 7))).
    { exists (if w <? 0 then w + 7 else w). split; [reflexivity|]. destruct (Z.ltb_spec w 0); (split; [lia|]; intros j Hj; split; intros Q; lia). }
    destruct J as (i & -> & R & U). destruct (Z.ltb_spec i 0); [lia|]. destruct (set_false_total l (Z.to_nat i)) as (m & E); [lia|]. rewrite E.
    destruct (set_false_nth _ _ _ E) as (_ & L1 & N1). exists m. split; [reflexivity|]. split; [lia|]. intros j Hj. rewrite N1. specialize (U j Hj).
    destruct (Nat.eqb_spec (Z.to_nat j) (Z.to_nat i)), (Z.eqb_spec w j), (Z.eqb_spec w (j - 7)); cbn [orb negb]; rewrite ?andb_true_r, ?andb_false_r; try reflexivity; exfalso; lia.
  - destruct (Z.ltb_spec w 0); [lia|]. destruct (Z.ltb_spec w 0); [lia|]. destruct (set_false l (Z.to_nat w)) eqn:E; [|reflexivity]. destruct (set_false_nth _ _ _ E) as (B & _). lia.
  - destruct (Z.ltb_spec w 0); [|lia]. destruct (Z.ltb_spec (w + 7) 0); [reflexivity|lia].
  - lia.
Qed.
Lemma convert_any ws : forall mask, List.length mask = 7%nat ->
  if forallb (fun w => (-7 <=? w) && (w <=? 6)) ws then
    exists m, convert_weekend_from mask ws = Ok m /\ List.length m = 7%nat /\
      forall j, 0 <= j <= 6 -> (nth (Z.to_nat j) m false = true <-> nth (Z.to_nat j) mask false = true /\ ~ In j ws /\ ~ In (j - 7) ws)
  else convert_weekend_from mask ws = Err IndexError.
Proof.
  induction ws as [|w ws IH]; intros mask L; cbn [forallb convert_weekend_from].
  - exists mask. split; [reflexivity|]. split; [assumption|]. intros j _. cbn. tauto.
  - pose proof (set_day_spec mask w L) as S. destruct ((-7 <=? w) && (w <=? 6)); cbn [andb].
    + destruct S as (m & -> & Lm & Nm). cbn [bind]. specialize (IH m Lm). destruct (forallb _ ws); [|exact IH].
      destruct IH as (m2 & -> & L2 & N2). exists m2. split; [reflexivity|]. split; [assumption|]. intros j Hj. rewrite N2, Nm by assumption. cbn [In].
      rewrite andb_true_iff, negb_true_iff, orb_false_iff, !Z.eqb_neq. intuition lia.
    + rewrite S. reflexivity.
Qed.

Section Joint.
  Variables ccy loc : string -> option holiday_object.

  Lemma build_calendar_business_days ks objs :
    sequence (map (get_holidays_object ccy loc) ks) = Ok objs ->
    (forall o, In o objs -> forall w, In w (weekend o) -> 0 <= w <= 6) ->
    (exists w, 0 <= w <= 6 /\ forall o, In o objs -> ~ In w (weekend o)) ->
    exists c, build_calendar ccy loc ks = Ok c /\ wf_calendar c /\
      forall d, business_day c d <-> forall o, In o objs -> open_in o d.
  Proof.
    intros E W (w & Hw & Nw). unfold build_calendar. rewrite E. cbn [bind].
    destruct (convert_ok (nodup Z.eq_dec (flat_map weekend objs))) as (m & Em & Lm & Nm).
    { intros x Hx. apply nodup_In in Hx. apply in_flat_map in Hx as (o & Ho & Hx). eauto. }
    rewrite Em. cbn [bind].
    assert (Iff : forall j, 0 <= j <= 6 -> (nth (Z.to_nat j) m false = true <-> forall o, In o objs -> ~ In j (weekend o))).
    { intros j Hj. rewrite Nm by assumption. rewrite nodup_In, in_flat_map. split.
      - intros H o Ho Hin. apply H. eauto.
      - intros H (o & Ho & Hin). eapply H; eassumption. }
    assert (T : existsb (fun b => b) m = true).
    { apply existsb_exists. exists true. split; [|reflexivity].
      rewrite <- (proj2 (Iff w Hw) Nw). apply nth_In. lia. }
    unfold busdaycalendar. rewrite Lm, T. cbn [andb Nat.eqb].
    eexists. split; [reflexivity|]. split.
    - exists w. split; [assumption|]. cbn. apply Iff; assumption.
    - intros d. unfold business_day, working_weekday, open_in. cbn.
      pose proof (weekday_range d) as R. rewrite (Iff _ R), in_flat_map.
      split.
      + intros [A B] o Ho. split; [apply A; assumption|]. intros Hin. apply B. eauto.
      + intros A. split.
        * intros o Ho. apply A. assumption.
        * intros (o & Ho & Hin). apply (A o Ho). assumption.
  Qed.

  (* A weekend covering the whole week is refused. *)
  Lemma build_calendar_no_working_day ks objs :
    sequence (map (get_holidays_object ccy loc) ks) = Ok objs ->
    (forall o, In o objs -> forall w, In w (weekend o) -> 0 <= w <= 6) ->
    (forall w, 0 <= w <= 6 -> exists o, In o objs /\ In w (weekend o)) ->
    build_calendar ccy loc ks = Err ValueError.
  Proof.
    intros E W Full. unfold build_calendar. rewrite E. cbn [bind].
    destruct (convert_ok (nodup Z.eq_dec (flat_map weekend objs))) as (m & Em & Lm & Nm).
    { intros x Hx. apply nodup_In in Hx. apply in_flat_map in Hx as (o & Ho & Hx). eauto. }
    rewrite Em. cbn [bind]. unfold busdaycalendar.
    assert (T : existsb (fun b => b) m = false).
    { apply not_true_iff_false. intros X. apply existsb_exists in X as (b & Hin & Hb).
      apply In_nth with (d := false) in Hin as (i & Hi & Hn). subst b.
      destruct (Full (Z.of_nat i)) as (o & Ho & Hwo); [lia|].
      assert (nth (Z.to_nat (Z.of_nat i)) m false = true) by (rewrite Nat2Z.id; assumption).
      apply Nm in H; [|lia]. apply H. rewrite nodup_In, in_flat_map. eauto. }
    rewrite T, andb_false_r. reflexivity.
  Qed.

  Lemma sequence_in {A B} (f : A -> result B) ks objs : sequence (map f ks) = Ok objs ->
    forall o, In o objs <-> exists k, In k ks /\ f k = Ok o.
  Proof.
    intros H o. apply sequence_ok in H. revert objs H. induction ks as [|k ks IH]; intros objs H; destruct objs as [|x objs];
      try discriminate; cbn in *.
    - split; [contradiction|]. intros (k & [] & _).
    - injection H as Hk H. rewrite (IH objs H). split.
      + intros [<-|(k' & Hin & E)]; eauto.
      + intros (k' & [<-|Hin] & E); [left; congruence|right; eauto].
  Qed.

  Lemma sequence_map_total {A B} (f : A -> result B) ks :
    (forall k, In k ks -> exists o, f k = Ok o) -> exists objs, sequence (map f ks) = Ok objs.
  Proof.
    induction ks as [|k ks IH]; intros H; cbn; [eauto|].
    destruct (H k (or_introl eq_refl)) as (o & ->). cbn.
    destruct IH as (objs & ->); [intros; apply H; right; assumption|]. cbn. eauto.
  Qed.

  Lemma get_busdaycal_list keys :
    (forall k, In k keys -> exists o, member_calendar ccy loc k o) ->
    (forall k o, In k keys -> member_calendar ccy loc k o -> forall w, In w (weekend o) -> 0 <= w <= 6) ->
    (exists w, 0 <= w <= 6 /\ forall k o, In k keys -> member_calendar ccy loc k o -> ~ In w (weekend o)) ->
    exists c, get_busdaycal ccy loc (KList keys) = Ok c /\ wf_calendar c /\
      forall d, business_day c d <-> forall k o, In k keys -> member_calendar ccy loc k o -> open_in o d.
  Proof.
    intros Known W (w & Hw & Nw). cbn [get_busdaycal].
    assert (M : forall k o, member_calendar ccy loc k o <-> get_holidays_object ccy loc (upper k) = Ok o).
    { intros k o. unfold member_calendar, get_holidays_object.
      destruct (ccy (upper k)) as [h|].
      - split; [intros [H|[H _]]; congruence | intros [= ->]; auto].
      - destruct (loc (upper k)) as [h|]; split.
        + intros [H|[_ H]]; congruence.
        + intros [= ->]. auto.
        + intros [H|[_ H]]; congruence.
        + discriminate. }
    destruct (sequence_map_total (get_holidays_object ccy loc) (map upper (nodup string_dec keys))) as (objs & E).
    { intros k Hk. apply in_map_iff in Hk as (k' & <- & Hk'). apply nodup_In in Hk'.
      destruct (Known k' Hk') as (o & Ho). exists o. apply M. assumption. }
    assert (I : forall o, In o objs <-> exists k, In k keys /\ member_calendar ccy loc k o).
    { intros o. rewrite (sequence_in _ _ _ E). split.
      - intros (k & Hk & Ho). apply in_map_iff in Hk as (k' & <- & Hk'). apply nodup_In in Hk'.
        exists k'. rewrite M. auto.
      - intros (k & Hk & Ho). exists (upper k). rewrite M in Ho. split; [|assumption].
        apply in_map. apply nodup_In. assumption. }
    destruct (build_calendar_business_days _ _ E) as (c & Ec & Wc & Bc).
    - intros o Ho x Hx. apply I in Ho as (k & Hk & Hm). eauto.
    - exists w. split; [assumption|]. intros o Ho. apply I in Ho as (k & Hk & Hm). eauto.
    - exists c. split; [assumption|]. split; [assumption|]. intros d. rewrite Bc. split.
      + intros A k o Hk Hm. apply A. apply I. eauto.
      + intros A o Ho. apply I in Ho as (k & Hk & Hm). eauto.
  Qed.

  Lemma get_busdaycal_str_list k : get_busdaycal ccy loc (KStr k) = get_busdaycal ccy loc (KList [k]).
  Proof. reflexivity. Qed.

  Lemma sequence_err_kind {A} (l : list (result A)) e0 : (forall e, In (Err e) l -> e = e0) -> (exists e, In (Err e) l) ->
    sequence l = Err e0.
  Proof.
    induction l as [|x l IH]; intros H (e & He); [contradiction|]. cbn. destruct x as [a|e'].
    - cbn. destruct He as [He|He]; [discriminate|]. rewrite IH; [reflexivity| |eauto]. intros; apply H; right; assumption.
    - cbn. f_equal. apply H. left. reflexivity.
  Qed.

  Lemma get_busdaycal_unknown keys k : In k keys -> (forall o, ~ member_calendar ccy loc k o) ->
    get_busdaycal ccy loc (KList keys) = Err ValueError.
  Proof.
    intros Hk Hn. cbn [get_busdaycal]. unfold build_calendar.
    rewrite (sequence_err_kind _ ValueError); [reflexivity| |].
    - intros e He. apply in_map_iff in He as (x & Hx & _). unfold get_holidays_object in Hx.
      destruct (ccy x); [discriminate|]. destruct (loc x); congruence.
    - exists ValueError. apply in_map_iff. exists (upper k). split; [|apply in_map; apply nodup_In; assumption].
      unfold get_holidays_object. unfold member_calendar in Hn.
      destruct (ccy (upper k)) as [h|]; [exfalso; apply (Hn h); auto|].
      destruct (loc (upper k)) as [h|]; [exfalso; apply (Hn h); auto|]. reflexivity.
  Qed.
End Joint.

Lemma get_busdaycal_order ccy loc keys keys' c c' :
  (forall k, In k keys <-> In k keys') ->
  (forall k, In k keys -> exists o, member_calendar ccy loc k o) ->
  (forall k o, In k keys -> member_calendar ccy loc k o -> forall w, In w (weekend o) -> 0 <= w <= 6) ->
  (exists w, 0 <= w <= 6 /\ forall k o, In k keys -> member_calendar ccy loc k o -> ~ In w (weekend o)) ->
  get_busdaycal ccy loc (KList keys) = Ok c -> get_busdaycal ccy loc (KList keys') = Ok c' ->
  forall d, business_day c d <-> business_day c' d.
Proof.
  intros I K W (w & Hw & Nw) E E' d.
  destruct (get_busdaycal_list ccy loc keys K W) as (x & Ex & _ & Bx); [exists w; auto|].
  destruct (get_busdaycal_list ccy loc keys') as (y & Ey & _ & By).
  - intros k Hk. apply K, I, Hk.
  - intros k o Hk. apply W, I, Hk.
  - exists w. split; [assumption|]. intros k o Hk. apply Nw, I, Hk.
  - rewrite E in Ex. injection Ex as <-. rewrite E' in Ey. injection Ey as <-. rewrite Bx, By.
    split; intros A k o Hk; apply A, I, Hk.
Qed.

Lemma workday_0 c d : wf_calendar c -> exists r, workday d 0 c = Ok r /\ first_on_or_after c d r.
Proof. intros H. unfold workday. rewrite busday_offset_0. apply following_ok. assumption. Qed.

Lemma preceding_0 c d : wf_calendar c -> exists r, busday_offset c d 0 Preceding = Ok r /\ last_on_or_before c d r.
Proof. intros H. rewrite busday_offset_0. apply preceding_ok. assumption. Qed.
