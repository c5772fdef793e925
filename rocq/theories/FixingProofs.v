From Coq Require Import ZArith QArith Qreals Reals List Bool Lia Lra Sorted Permutation.
From Verif Require Import Base Date BusDayModel DayCountModel DayCountProofs ScheduleModel LegModel LegProofs NumModel CurveModel CurveSpec CurveProofs
  FixingModel FixingSpec.
Import ListNotations.
Open Scope R_scope.

(* ---- lookups ---- *)
Lemma as_of_snoc (l : list fixing) (q : fixing) (d : date) : as_of (l ++ [q]) d = if (fst q <=? d)%Z then snd q else as_of l d.
Proof. unfold as_of. rewrite fold_left_app. reflexivity. Qed.

Lemma as_of_in_force (l : list fixing) (d : date) : (forall (l1 l2 : list fixing) (p q : fixing), l = l1 ++ q :: l2 -> In p l1 -> (fst p <= fst q)%Z) -> in_force l d (as_of l d).
Proof.
  induction l as [|q l IH] using rev_ind; intros S; [apply lt_none; intros q []|].
  rewrite as_of_snoc. destruct (Z.leb_spec (fst q) d) as [L|L].
  - apply lt_found; [apply in_or_app; right; left; reflexivity|exact L|].
    intros p I _. apply in_app_iff in I as [I|[<-|[]]]; [|lia]. exact (S l [] p q eq_refl I).
  - assert (S' : forall (l1 l2 : list fixing) (p q : fixing), l = l1 ++ q :: l2 -> In p l1 -> (fst p <= fst q)%Z).
    { intros l1 l2 p r E I. apply (S l1 (l2 ++ [q]) p r); [|exact I]. rewrite E, <- app_assoc. reflexivity. }
    destruct (IH S') as [r I P M|N].
    + apply lt_found; [apply in_or_app; left; exact I|exact P|]. intros p J K. apply in_app_iff in J as [J|[<-|[]]]; [exact (M p J K)|lia].
    + apply lt_none. intros p I. apply in_app_iff in I as [I|[<-|[]]]; [exact (N p I)|lia].
Qed.

Lemma latest_unique fx P v w : NoDup (map fst fx) -> latest fx P v -> latest fx P w -> v = w.
Proof.
  intros ND H1 H2. destruct H1 as [p I K M|N], H2 as [q J L O|O];
    [|exfalso; exact (O p I K)|exfalso; exact (N q J L)|reflexivity].
  assert (E : fst p = fst q) by (pose proof (M q J L); pose proof (O p I K); lia).
  f_equal. clear -ND I J E. induction fx as [|x t IH]; [destruct I|]. cbn [map] in ND. inversion ND as [|a b N D]; subst.
  destruct I as [<-|I], J as [<-|J]; [reflexivity| | |exact (IH D I J)].
  - exfalso. apply N. rewrite E. apply in_map. exact J.
  - exfalso. apply N. rewrite <- E. apply in_map. exact I.
Qed.

Lemma latest_ext (fx gx : list fixing) (P Q : date -> Prop) v : (forall q : fixing, P (fst q) -> In q fx -> In q gx /\ Q (fst q)) -> (forall q : fixing, Q (fst q) -> In q gx -> In q fx /\ P (fst q)) ->
  latest fx P v -> latest gx Q v.
Proof.
  intros A B [q I K M|N].
  - destruct (A q K I) as [I' K']. apply lt_found; [exact I'|exact K'|]. intros r J L. destruct (B r L J) as [J' L']. exact (M r J' L').
  - apply lt_none. intros q I K. destruct (B q K I) as [I' K']. exact (N q I' K').
Qed.

(* sorting *)
Lemma insert_fixing_perm x l : Permutation (insert_fixing x l) (x :: l).
Proof. induction l as [|y t IH]; cbn [insert_fixing]; [reflexivity|]. destruct (fst x <=? fst y)%Z; [reflexivity|]. rewrite IH. apply perm_swap. Qed.
Lemma sort_fixings_perm l : Permutation (sort_fixings l) l.
Proof. induction l as [|x t IH]; cbn; [reflexivity|]. rewrite insert_fixing_perm. constructor. exact IH. Qed.
Definition fle (p q : fixing) : Prop := (fst p <= fst q)%Z.
Lemma insert_fixing_sorted x l : StronglySorted fle l -> StronglySorted fle (insert_fixing x l).
Proof.
  induction l as [|y t IH]; intros H; cbn [insert_fixing]; [repeat constructor|]. inversion H as [|a b S F]; subst.
  destruct (Z.leb_spec (fst x) (fst y)) as [L|L].
  - constructor; [exact H|]. constructor; [exact L|]. eapply Forall_impl; [|exact F]. unfold fle. intros q K. lia.
  - constructor; [exact (IH S)|]. rewrite Forall_forall. intros q I. apply (Permutation_in _ (insert_fixing_perm x t)) in I as [<-|I]; [unfold fle; lia|].
    rewrite Forall_forall in F. exact (F q I).
Qed.
Lemma sort_fixings_sorted l : StronglySorted fle (sort_fixings l).
Proof. induction l as [|x t IH]; cbn; [constructor|]. apply insert_fixing_sorted. exact IH. Qed.
Lemma in_sort_fixings q l : In q (sort_fixings l) <-> In q l.
Proof. split; apply Permutation_in; [|apply Permutation_sym]; apply sort_fixings_perm. Qed.

Lemma sorted_filter {A} (P : A -> A -> Prop) f l : StronglySorted P l -> StronglySorted P (filter f l).
Proof.
  induction 1 as [|x t S IH F]; cbn; [constructor|]. destruct (f x); [|exact IH]. constructor; [exact IH|].
  rewrite Forall_forall in *. intros q I. apply F. apply filter_In in I. tauto.
Qed.
Lemma sorted_split {A} (P : A -> A -> Prop) l : StronglySorted P l -> forall l1 l2 p q, l = l1 ++ q :: l2 -> In p l1 -> P p q.
Proof.
  induction 1 as [|x t S IH F]; intros l1 l2 p q E I; [destruct l1; discriminate|].
  destruct l1 as [|y l1]; [destruct I|]. injection E as <- E. destruct I as [<-|I].
  - rewrite Forall_forall in F. apply F. rewrite E. apply in_or_app. right. left. reflexivity.
  - exact (IH l1 l2 p q E I).
Qed.

Lemma dates_sorted_order fx : dates_sorted fx = true <-> in_date_order fx.
Proof.
  induction fx as [|x t IH]; [split; [intros _ i j p q _ K|reflexivity]; destruct i; discriminate|].
  destruct t as [|y u].
  - split; [intros _ i j p q L K1 K2|reflexivity]. destruct j as [|j]; [lia|]. destruct j; discriminate.
  - change (dates_sorted (x :: y :: u)) with ((fst x <=? fst y)%Z && dates_sorted (y :: u)). rewrite andb_true_iff, Z.leb_le, IH. split.
    + intros [L O] i j p q IJ K1 K2. destruct j as [|j]; [lia|]. cbn [nth_error] in K2. destruct i as [|i].
      * injection K1 as <-. destruct j as [|j]; [injection K2 as <-; exact L|]. pose proof (O 0%nat (S j) y q ltac:(lia) eq_refl K2). lia.
      * exact (O i j p q ltac:(lia) K1 K2).
    + intros O. split; [exact (O 0%nat 1%nat x y ltac:(lia) eq_refl eq_refl)|].
      intros i j p q IJ K1 K2. exact (O (S i) (S j) p q ltac:(lia) K1 K2).
Qed.

Lemma in_date_order_split fx : in_date_order fx -> forall (l1 l2 : list fixing) (p q : fixing), fx = l1 ++ q :: l2 -> In p l1 -> (fst p <= fst q)%Z.
Proof.
  intros O l1 l2 p q E I. apply In_nth_error in I as (i & I). assert (L : (i < length l1)%nat) by (apply nth_error_Some; congruence).
  apply (O i (length l1) p q L); rewrite E; [rewrite nth_error_app1 by exact L; exact I|].
  rewrite nth_error_app2 by lia. rewrite Nat.sub_diag. reflexivity.
Qed.

Lemma index_in_force fx ds : in_date_order fx -> exists l, index_historical_fixings fx ds = Ok l /\ Forall2 (in_force fx) ds l.
Proof.
  intros O. unfold index_historical_fixings. rewrite (proj2 (dates_sorted_order fx) O). cbn [guard bind]. eexists. split; [reflexivity|].
  apply Forall2_map_r. intros d _. apply as_of_in_force. exact (in_date_order_split fx O).
Qed.
Lemma index_unsorted fx ds : ~ in_date_order fx -> index_historical_fixings fx ds = Err ValueError.
Proof.
  intros O. unfold index_historical_fixings. destruct (dates_sorted fx) eqn:E; [|reflexivity]. destruct (O (proj1 (dates_sorted_order fx) E)).
Qed.

Lemma as_of_later (fx gx : list fixing) (d : date) : Forall (fun q : fixing => (d < fst q)%Z) gx -> as_of (fx ++ gx) d = as_of fx d.
Proof.
  induction gx as [|q gx IH] using rev_ind; intros F; [rewrite app_nil_r; reflexivity|].
  rewrite app_assoc, as_of_snoc. apply Forall_app in F as [F1 F2]. inversion F2 as [|a b L _]; subst.
  destruct (Z.leb_spec (fst q) d); [lia|]. exact (IH F1).
Qed.
Lemma index_no_look_ahead fx gx ds : in_date_order (fx ++ gx) -> (forall (q : fixing) (d : date), In q gx -> In d ds -> (d < fst q)%Z) ->
  index_historical_fixings (fx ++ gx) ds = index_historical_fixings fx ds.
Proof.
  intros O L. unfold index_historical_fixings. rewrite (proj2 (dates_sorted_order _) O).
  assert (O' : in_date_order fx).
  { intros i j p q IJ K1 K2. apply (O i j p q IJ); rewrite nth_error_app1; try assumption; apply nth_error_Some; congruence. }
  rewrite (proj2 (dates_sorted_order _) O'). cbn [guard bind]. f_equal. apply map_ext_in. intros d I. apply as_of_later.
  rewrite Forall_forall. intros q J. exact (L q d J I).
Qed.

(* ---- coupon rates ---- *)
Lemma within_true (a c : date) (q : fixing) : within a c q = true <-> (a <= fst q <= c)%Z.
Proof. unfold within. rewrite andb_true_iff, !Z.leb_le. tauto. Qed.

(* the fixings of the window contain those of each period *)
Definition applicable (fx : list fixing) (first hi : date) : list fixing := sort_fixings (filter (within first hi) fx).
Lemma own_in_force fx first hi (s : date) last d : (first <= s)%Z -> (last <= hi)%Z -> (d <= last)%Z ->
  in_force_from fx s d (as_of (filter (within s last) (applicable fx first hi)) d).
Proof.
  intros L1 L2 L3. pose proof (as_of_in_force (filter (within s last) (applicable fx first hi)) d) as H.
  apply (latest_ext (filter (within s last) (applicable fx first hi)) fx (fun x => (x <= d)%Z) (fun x => (s <= x <= d)%Z)).
  - intros q K I. apply filter_In in I as [I W]. unfold applicable in I. rewrite in_sort_fixings in I. apply filter_In in I as [I _].
    apply within_true in W. split; [exact I|lia].
  - intros q K I. split; [|lia]. apply filter_In. split; [|apply within_true; lia]. unfold applicable. apply in_sort_fixings. apply filter_In.
    split; [exact I|apply within_true; lia].
  - apply H. apply (sorted_split fle). apply sorted_filter. apply sort_fixings_sorted.
Qed.

Lemma observed_as_of fx first hi (s e : date) f : NoDup (map fst fx) -> observed fx s e f -> (first <= s)%Z -> (e - 1 <= hi)%Z ->
  forall d, (s <= d < e)%Z -> as_of (filter (within s (e - 1)) (applicable fx first hi)) d = f d.
Proof.
  intros ND O L1 L2 d D. apply (latest_unique fx (fun x => (s <= x <= d)%Z)); [exact ND| |exact (O d D)].
  apply own_in_force; lia.
Qed.

Lemma valid_prod (h : date -> option R) a n :
  fold_right Rmult 1 (valid_dates (map h (days_from a n))) = prod_days (fun d => match h d with Some x => x | None => 1 end) a n.
Proof.
  revert a. induction n as [|n IH]; intros a; [reflexivity|]. cbn [days_from map prod_days]. rewrite <- IH.
  unfold valid_dates. cbn [flat_map]. destruct (h a); cbn [app fold_right]; ring.
Qed.

Lemma get_coupon_rates_nth n fx ps m rs : get_coupon_rates n fx ps m = Ok rs ->
  length rs = length ps /\ forall i s e, nth_error ps i = Some (s, e) -> exists first hi, (first <= s)%Z /\ (e - 1 <= hi)%Z /\
    exists v, nth_error rs i = Some v /\ coupon_rate n (applicable fx first hi) m s (e - 1) = Ok v.
Proof.
  unfold get_coupon_rates. destruct ps as [|p0 pt]; [intros H; injection H as <-; split; [reflexivity|intros [|i] s e; discriminate]|].
  set (first := min_date _ _). set (ends := map _ pt). set (hi := max_date _ _). intros H. apply bind_ok in H as (u & _ & H).
  apply sequence_ok in H. split; [rewrite <- (map_length Ok rs), <- H, map_length; reflexivity|].
  intros i s e K. exists first, hi.
  assert (I : In (s, e) (p0 :: pt)) by exact (nth_error_In _ _ K).
  pose proof (min_date_le (fst p0) (map fst pt)) as (M1 & M2 & _). pose proof (max_date_ge (snd p0 - 1)%Z ends) as (X1 & X2 & _).
  assert (F : (first <= s)%Z).
  { destruct I as [->|I]; [exact M1|]. apply M2. change s with (fst (s, e)). apply in_map. exact I. }
  assert (G : (e - 1 <= hi)%Z).
  { destruct I as [->|I]; [exact X1|]. apply X2. unfold ends. change (e - 1)%Z with ((fun p : period => (snd p - 1)%Z) (s, e)). apply in_map. exact I. }
  split; [exact F|]. split; [exact G|].
  assert (E : nth_error (map (fun p : period => coupon_rate n (applicable fx first hi) m (fst p) (snd p - 1)) (p0 :: pt)) i
              = Some (coupon_rate n (applicable fx first hi) m s (e - 1))) by (rewrite nth_error_map, K; reflexivity).
  assert (E' := eq_trans (eq_sym (f_equal (fun l => nth_error l i) H)) E). rewrite nth_error_map in E'.
  destruct (nth_error rs i) as [v|]; [|discriminate]. exists v. split; [reflexivity|]. injection E' as E'. symmetry. exact E'.
Qed.

Lemma date_range_period (s e : date) : date_range s (e - 1) = days_from s (days_between s e).
Proof. rewrite date_range_days. unfold days_between. f_equal. f_equal. lia. Qed.

Lemma compounded_cell n fx first hi s e f v : NoDup (map fst fx) -> n <> 0 -> (first <= s)%Z -> (e - 1 <= hi)%Z -> (s < e)%Z -> observed fx s e f ->
  coupon_rate (Some n) (applicable fx first hi) DailyCompounded s (e - 1) = Ok v ->
  exists r, v = Some r /\ 1 + r * (IZR (e - s) / n) = prod_days (day_factor n f) s (days_between s e).
Proof.
  intros ND NZ L1 L2 L O C.
  unfold coupon_rate in C. injection C as C. rewrite date_range_period, valid_prod, days_from_length in C.
  assert (P : prod_days (fun d => match (let? f := as_of (filter (within s (e - 1)) (applicable fx first hi)) d in
             let? n := Some n in let? q := np_div f n in Some (1 + q)) with Some x => x | None => 1 end) s (days_between s e)
             = prod_days (day_factor n f) s (days_between s e)).
  { apply prod_days_ext. intros d D. unfold days_between in D. rewrite (observed_as_of fx first hi s e f ND O L1 L2 d) by lia.
    unfold day_factor. destruct (f d); [|reflexivity]. cbn [obind]. rewrite np_div_nz by exact NZ. reflexivity. }
  assert (INZ : INR (days_between s e) = IZR (e - s)) by (unfold days_between; rewrite INR_IZR_INZ, Z2Nat.id by lia; reflexivity).
  assert (POS : 0 < IZR (e - s)) by (apply IZR_lt; lia).
  assert (E : np_div ((prod_days (day_factor n f) s (days_between s e) - 1) * n) (INR (days_between s e)) = v)
    by (rewrite <- P; exact C).
  rewrite np_div_nz in E by (rewrite INZ; lra). eexists. split; [rewrite <- E; reflexivity|]. rewrite INZ. field. split; lra.
Qed.

Lemma compounded_value n fx ps rs i s e f : NoDup (map fst fx) -> n <> 0 -> get_coupon_rates (Some n) fx ps DailyCompounded = Ok rs ->
  nth_error ps i = Some (s, e) -> (s < e)%Z -> observed fx s e f ->
  exists r, nth_error rs i = Some (Some r) /\ 1 + r * (IZR (e - s) / n) = prod_days (day_factor n f) s (days_between s e).
Proof.
  intros ND NZ H K L O. apply get_coupon_rates_nth in H as (_ & H). destruct (H i s e K) as (first & hi & L1 & L2 & v & V & C).
  destruct (compounded_cell n fx first hi s e f v ND NZ L1 L2 L O C) as (r & -> & E). exists r. auto.
Qed.

Lemma prod_days_bounds g lo hi a n : 0 <= lo -> (forall d, (a <= d < a + Z.of_nat n)%Z -> lo <= g d <= hi) ->
  lo ^ n <= prod_days g a n <= hi ^ n.
Proof.
  intros P. revert a. induction n as [|n IH]; intros a H; cbn [prod_days pow]; [lra|].
  pose proof (H a ltac:(lia)) as G. destruct (IH (a + 1)%Z) as [I1 I2]; [intros d D; apply H; lia|].
  assert (0 <= lo ^ n) by (apply pow_le; exact P). split; apply Rmult_le_compat; lra.
Qed.

Lemma latest_found fx P v q : latest fx P v -> In q fx -> P (fst q) -> exists r, In r fx /\ P (fst r) /\ v = snd r.
Proof. intros [r I K M|N] J L; [exists r; auto|]. exfalso. exact (N q J L). Qed.

Lemma compounded_bounds n fx ps rs i s e lo hi : NoDup (map fst fx) -> 0 < n -> get_coupon_rates (Some n) fx ps DailyCompounded = Ok rs ->
  nth_error ps i = Some (s, e) -> (s < e)%Z -> - n <= lo -> In s (map fst fx) ->
  (forall q, In q fx -> (s <= fst q < e)%Z -> exists x, snd q = Some x /\ lo <= x <= hi) ->
  exists r, nth_error rs i = Some (Some r) /\ (1 + lo / n) ^ (days_between s e) <= 1 + r * (IZR (e - s) / n) <= (1 + hi / n) ^ (days_between s e).
Proof.
  intros ND NP H K L LO IS B.
  assert (EX : exists f, observed fx s e f).
  { exists (fun d => as_of (filter (within s (e - 1)) (applicable fx s (e - 1)%Z)) d). intros d D. apply own_in_force; lia. }
  destruct EX as (f & O). destruct (compounded_value n fx ps rs i s e f ND ltac:(lra) H K L O) as (r & E1 & E2).
  exists r. split; [exact E1|]. rewrite E2. apply prod_days_bounds.
  - assert (- n / n <= lo / n) by (apply Rmult_le_compat_r; [left; apply Rinv_0_lt_compat; exact NP|exact LO]).
    replace (- n / n) with (-1) in H0 by (field; lra). lra.
  - intros d D. unfold days_between in D. assert (D' : (s <= d < e)%Z) by lia. apply in_map_iff in IS as (q & Q1 & Q2).
    destruct (latest_found _ _ _ q (O d D') Q2) as (p & I & J & V); [cbn; lia|].
    destruct (B p I) as (x & X1 & X2); [lia|]. unfold day_factor. rewrite V, X1.
    assert (0 < / n) by (apply Rinv_0_lt_compat; exact NP). unfold Rdiv. split; apply Rplus_le_compat_l; apply Rmult_le_compat_r; lra.
Qed.

Lemma valid_filter (f : date -> option R) l : valid_dates (map f l) = map (value_or_zero f) (filter (has_fixing f) l).
Proof.
  unfold valid_dates. induction l as [|d l IH]; [reflexivity|]. cbn [map flat_map filter]. rewrite IH. unfold has_fixing at 2.
  destruct (f d) eqn:E; [|reflexivity]. cbn [app map]. f_equal. unfold value_or_zero. rewrite E. reflexivity.
Qed.

Lemma weighted_value n fx ps rs i s e f : NoDup (map fst fx) -> get_coupon_rates n fx ps WeightedAverage = Ok rs ->
  nth_error ps i = Some (s, e) -> observed fx s e f ->
  nth_error rs i = Some (average (has_fixing f) (value_or_zero f) s e).
Proof.
  intros ND H K O. apply get_coupon_rates_nth in H as (_ & H). destruct (H i s e K) as (first & hi & L1 & L2 & v & V & C). clear H.
  rewrite V. f_equal. unfold coupon_rate in C. injection C as C. rewrite <- C, date_range_period. unfold average. fold (days_between s e).
  rewrite <- mean_days. unfold series_mean. rewrite valid_filter.
  replace (valid_dates (map (fun d => Some (value_or_zero f d)) (filter (has_fixing f) (days_from s (days_between s e)))))
    with (map (value_or_zero f) (filter (has_fixing f) (days_from s (days_between s e)))).
  2: { unfold valid_dates. induction (filter (has_fixing f) (days_from s (days_between s e))) as [|x l IH]; [reflexivity|]. cbn. rewrite IH. reflexivity. }
  set (g := as_of _). assert (E : forall d, In d (days_from s (days_between s e)) -> g d = f d).
  { intros d I. apply in_days_from in I. apply observed_as_of; try assumption. unfold days_between in I. lia. }
  rewrite (filter_same (has_fixing g) (has_fixing f)). 2: { intros d I. unfold has_fixing. rewrite (E d I). reflexivity. }
  rewrite (map_ext_in (value_or_zero g) (value_or_zero f)). 2: { intros d I. apply filter_In in I as [I _]. unfold value_or_zero. rewrite (E d I). reflexivity. }
  reflexivity.
Qed.

Lemma mean_perm l m : Permutation l m -> mean l = mean m.
Proof.
  intros P. assert (L := Permutation_length P). assert (S : fold_right Rplus 0 l = fold_right Rplus 0 m).
  { clear L. induction P; cbn; lra. }
  unfold mean. rewrite S, L. destruct l, m; try discriminate; reflexivity.
Qed.

Lemma perm_filter {A} (f : A -> bool) l m : Permutation l m -> Permutation (filter f l) (filter f m).
Proof.
  induction 1 as [|x l m P IH|x y l|l m k P1 IH1 P2 IH2]; cbn [filter]; [reflexivity| | |exact (Permutation_trans IH1 IH2)].
  - destruct (f x); [constructor; exact IH|exact IH].
  - destruct (f x), (f y); try reflexivity. apply perm_swap.
Qed.

Lemma simple_value n fx ps rs i s e : get_coupon_rates n fx ps SimpleAverage = Ok rs -> nth_error ps i = Some (s, e) ->
  nth_error rs i = Some (mean (period_fixings fx s e)).
Proof.
  intros H K. apply get_coupon_rates_nth in H as (_ & H). destruct (H i s e K) as (first & hi & L1 & L2 & v & V & C). clear H.
  rewrite V. f_equal. unfold coupon_rate in C. injection C as <-. unfold series_mean.
  assert (P : Permutation (valid_dates (map snd (filter (within s (e - 1)) (applicable fx first hi)))) (period_fixings fx s e)).
  { transitivity (valid_dates (map snd (filter (within s (e - 1)) (filter (within first hi) fx)))).
    - apply Permutation_valid_dates. apply Permutation_map. unfold applicable. apply perm_filter. apply sort_fixings_perm.
    - unfold valid_dates, period_fixings. clear V K. induction fx as [|q t IH]; [reflexivity|]. cbn [filter flat_map].
      assert (W : within s (e - 1) q = ((s <=? fst q)%Z && (fst q <? e)%Z)).
      { unfold within. f_equal. destruct (Z.leb_spec (fst q) (e - 1)), (Z.ltb_spec (fst q) e); try reflexivity; lia. }
      destruct (within first hi q) eqn:W'.
      + cbn [filter]. rewrite <- W. destruct (within s (e - 1) q); cbn [map flat_map app]; [|exact IH]. apply Permutation_app_head. exact IH.
      + destruct (within s (e - 1) q) eqn:W2; rewrite <- W; [|exact IH]. exfalso. apply within_true in W2.
        assert (within first hi q = true) by (apply within_true; lia). congruence. }
  exact (mean_perm _ _ P).
Qed.

(* an average of non-negative fixings never beats compounding them *)
Lemma weighted_below_compounded n fx ps i s e x y rs qs f : NoDup (map fst fx) -> 0 < n ->
  get_coupon_rates (Some n) fx ps WeightedAverage = Ok rs -> get_coupon_rates (Some n) fx ps DailyCompounded = Ok qs ->
  nth_error ps i = Some (s, e) -> (s < e)%Z -> observed fx s e f -> (forall d, (s <= d < e)%Z -> exists r, f d = Some r /\ 0 <= r) ->
  nth_error rs i = Some (Some x) -> nth_error qs i = Some (Some y) -> x <= y.
Proof.
  intros ND NP H1 H2 K L O P X Y. rewrite (weighted_value _ _ _ _ _ _ _ f ND H1 K O) in X. injection X as X.
  destruct (compounded_value n fx ps qs i s e f ND ltac:(lra) H2 K L O) as (r & E1 & E2). rewrite Y in E1. injection E1 as <-.
  unfold average in X. fold (days_between s e) in X. set (k := days_between s e) in *.
  assert (KE : IZR (e - s) = INR k) by (unfold k, days_between; rewrite INR_IZR_INZ, Z2Nat.id by lia; reflexivity).
  assert (KP : 0 < INR k) by (rewrite <- KE; apply IZR_lt; lia).
  assert (KB : forall d, (s <= d < s + Z.of_nat k)%Z -> (s <= d < e)%Z) by (intros d; unfold k, days_between; lia).
  assert (C : forall j a, (forall d, (a <= d < a + Z.of_nat j)%Z -> (s <= d < e)%Z) -> count_days (has_fixing f) a j = j).
  { induction j as [|j IH]; intros a B; [reflexivity|]. cbn [count_days]. rewrite IH by (intros d D; apply B; lia). unfold has_fixing.
    destruct (P a) as (w & -> & _); [apply B; lia|]. reflexivity. }
  rewrite (C k s KB) in X.
  assert (S : sum_days (where_ (has_fixing f) (value_or_zero f)) s k = sum_days (fun d => value_or_zero f d / n) s k * n).
  { unfold Rdiv. rewrite sum_days_scale, Rmult_assoc, Rinv_l, Rmult_1_r by lra. apply sum_days_ext. intros d D. unfold where_, has_fixing, value_or_zero.
    destruct (f d); reflexivity. }
  destruct (sum_below_prod (fun d => value_or_zero f d / n) s k) as [_ G].
  { intros d D. destruct (P d (KB d D)) as (w & W & W0). unfold value_or_zero. rewrite W. apply Rmult_le_pos; [exact W0|left; apply Rinv_0_lt_compat; exact NP]. }
  rewrite (prod_days_ext _ (day_factor n f)) in G. 2: { intros d D. destruct (P d (KB d D)) as (w & W & W0). unfold value_or_zero, day_factor. rewrite W. reflexivity. }
  rewrite <- E2 in G. rewrite KE in G. destruct k as [|k]; [cbn in KP; lra|]. match type of X with Some ?a = _ => assert (X' : a = x) by congruence end. rewrite <- X', S.
  assert (SB : sum_days (fun d => value_or_zero f d / n) s (Datatypes.S k) * n <= y * INR (Datatypes.S k)).
  { replace (y * INR (Datatypes.S k)) with (y * (INR (Datatypes.S k) / n) * n) by (field; lra). apply Rmult_le_compat_r; [lra|]. apply (Rplus_le_reg_l 1). exact G. }
  apply (Rmult_le_reg_r (INR (Datatypes.S k))); [exact KP|]. unfold Rdiv. rewrite Rmult_assoc, Rinv_l, Rmult_1_r by lra. exact SB.
Qed.

(* ---- coverage ---- *)
Lemma coupon_rate_ok n l m a c : m <> RfrOther -> exists v, coupon_rate n l m a c = Ok v.
Proof. intros H. unfold coupon_rate. destruct m; try contradiction; eexists; reflexivity. Qed.

Lemma rates_ok n l m ps : m <> RfrOther -> exists rs, sequence (map (fun p : period => coupon_rate n l m (fst p) (snd p - 1)%Z) ps) = Ok rs.
Proof.
  intros H. induction ps as [|p t IH]; [exists []; reflexivity|]. destruct IH as (rs & E). destruct (coupon_rate_ok n l m (fst p) (snd p - 1)%Z H) as (v & V).
  exists (v :: rs). cbn [map sequence]. rewrite V. cbn [bind]. rewrite E. reflexivity.
Qed.

Lemma window_bounds (p0 : period) (pt : list period) :
  let first := min_date (fst p0) (map fst pt) in let hi := max_date (snd p0 - 1)%Z (map (fun p : period => (snd p - 1)%Z) pt) in
  let lo := min_date (snd p0 - 1)%Z (map (fun p : period => (snd p - 1)%Z) pt) in
  (forall q : fixing, within first hi q = true <-> in_window (p0 :: pt) (fst q)) /\
  (forall p : period, In p (p0 :: pt) -> (lo <= snd p - 1 <= hi)%Z) /\ (exists p : period, In p (p0 :: pt) /\ (snd p - 1 = hi)%Z) /\ (exists p : period, In p (p0 :: pt) /\ (snd p - 1 = lo)%Z).
Proof.
  cbv zeta. pose proof (min_date_le (fst p0) (map fst pt)) as (M1 & M2 & M3).
  pose proof (max_date_ge (snd p0 - 1)%Z (map (fun p : period => (snd p - 1)%Z) pt)) as (X1 & X2 & X3).
  pose proof (min_date_le (snd p0 - 1)%Z (map (fun p : period => (snd p - 1)%Z) pt)) as (N1 & N2 & N3).
  set (first := min_date (fst p0) _) in *. set (hi := max_date _ _) in *. set (lo := min_date (snd p0 - 1)%Z _) in *.
  assert (EX : exists p : period, In p (p0 :: pt) /\ (snd p - 1 = hi)%Z).
  { destruct X3 as [X3|X3]; [exists p0; split; [left; reflexivity|symmetry; exact X3]|]. apply in_map_iff in X3 as (p & E & I). exists p. split; [right; exact I|exact E]. }
  assert (EN : exists p : period, In p (p0 :: pt) /\ (snd p - 1 = lo)%Z).
  { destruct N3 as [X|X]; [exists p0; split; [left; reflexivity|symmetry; exact X]|]. apply in_map_iff in X as (p & E & I). exists p. split; [right; exact I|exact E]. }
  assert (BD : forall p : period, In p (p0 :: pt) -> (lo <= snd p - 1 <= hi)%Z).
  { intros p [<-|I]; [lia|]. pose proof (X2 _ (in_map (fun p : period => (snd p - 1)%Z) _ _ I)). pose proof (N2 _ (in_map (fun p : period => (snd p - 1)%Z) _ _ I)).
    cbv beta in *. lia. }
  split; [|split; [exact BD|split; [exact EX|exact EN]]].
  intros q. rewrite within_true. split.
  - intros [L1 L2]. split.
    + destruct M3 as [M3|M3]; [exists p0; split; [left; reflexivity|lia]|]. apply in_map_iff in M3 as (p & E & I). exists p. split; [right; exact I|lia].
    + destruct EX as (p & I & E). exists p. split; [exact I|lia].
  - intros [(p & I & L1) (p' & I' & L2)]. split.
    + destruct I as [<-|I]; [lia|]. pose proof (M2 _ (in_map fst _ _ I)). lia.
    + pose proof (BD p' I'). lia.
Qed.

Lemma coverage n fx ps m : ps <> [] -> m <> RfrOther ->
  (poorly_covered fx ps /\ get_coupon_rates n fx ps m = Err ValueError) \/ (~ poorly_covered fx ps /\ exists rs, get_coupon_rates n fx ps m = Ok rs).
Proof.
  intros NE NO. destruct ps as [|p0 pt]; [contradiction|]. unfold get_coupon_rates.
  destruct (window_bounds p0 pt) as (W & BD & EX & EN). cbv zeta in *.
  set (first := min_date (fst p0) _) in *. set (hi := max_date _ _) in *. set (lo := min_date (snd p0 - 1)%Z _) in *.
  fold (applicable fx first hi).
  assert (A : forall q, In q (applicable fx first hi) <-> In q fx /\ in_window (p0 :: pt) (fst q)).
  { intros q. unfold applicable. rewrite in_sort_fixings, filter_In, W. reflexivity. }
  assert (AM : forall d, In d (map fst (applicable fx first hi)) <-> exists q : fixing, In q fx /\ in_window (p0 :: pt) (fst q) /\ fst q = d).
  { intros d. rewrite in_map_iff. split; intros (q & H1 & H2).
    - exists q. apply A in H2. tauto.
    - exists q. split; [tauto|]. apply A. tauto. }
  destruct (map fst (applicable fx first hi)) as [|d0 dt] eqn:E.
  - right. cbn [bind]. split; [|exact (rates_ok n _ m (p0 :: pt) NO)]. intros [(q & I & J) _]. apply (AM (fst q)). exists q. auto.
  - pose proof (max_date_ge d0 dt) as (X1 & X2 & X3). pose proof (min_date_le d0 dt) as (M1 & M2 & M3).
    assert (IH : forall q : fixing, In q fx -> in_window (p0 :: pt) (fst q) -> (min_date d0 dt <= fst q <= max_date d0 dt)%Z).
    { intros q I J. assert (K : In (fst q) (d0 :: dt)) by (apply AM; exists q; auto). destruct K as [<-|K]; [lia|]. split; auto. }
    assert (MX : exists q : fixing, In q fx /\ in_window (p0 :: pt) (fst q) /\ fst q = max_date d0 dt).
    { apply AM. destruct X3 as [X3|X3]; [left; symmetry; exact X3|right; exact X3]. }
    assert (MN : exists q : fixing, In q fx /\ in_window (p0 :: pt) (fst q) /\ fst q = min_date d0 dt).
    { apply AM. destruct M3 as [X|X]; [left; symmetry; exact X|right; exact X]. }
    destruct (Z.ltb_spec (max_date d0 dt) hi) as [L|L]; [|destruct (Z.ltb_spec lo (min_date d0 dt)) as [L'|L']]; cbn [orb negb guard bind].
    + left. split; [|reflexivity]. split; [destruct MX as (q & I & J & _); exists q; auto|]. left. intros q I J. destruct EX as (p & K & P). exists p. split; [exact K|].
      pose proof (IH q I J). lia.
    + left. split; [|reflexivity]. split; [destruct MX as (q & I & J & _); exists q; auto|]. right. destruct EN as (p & K & P). exists p. split; [exact K|].
      intros q I J. pose proof (IH q I J). lia.
    + right. split; [|exact (rates_ok n _ m (p0 :: pt) NO)]. intros [_ [H|H]].
      * destruct MX as (q & I & J & K). destruct (H q I J) as (p & P1 & P2). pose proof (BD p P1). lia.
      * destruct H as (p & P1 & P2). destruct MN as (q & I & J & K). pose proof (P2 q I J). pose proof (BD p P1). lia.
Qed.

Lemma prod_days_one a k : prod_days (fun _ => 1) a k = 1.
Proof. revert a. induction k as [|k IH]; intros a; cbn; [reflexivity|]. rewrite IH. ring. Qed.

Lemma nothing_observed n fx ps rs i s e : n <> 0 -> get_coupon_rates (Some n) fx ps DailyCompounded = Ok rs -> nth_error ps i = Some (s, e) -> (s < e)%Z ->
  (forall q, In q fx -> ~ (s <= fst q < e)%Z) -> nth_error rs i = Some (Some 0).
Proof.
  intros NZ H K L N. apply get_coupon_rates_nth in H as (_ & H). destruct (H i s e K) as (first & hi & L1 & L2 & v & V & C). clear H.
  rewrite V. f_equal. unfold coupon_rate in C.
  assert (E : filter (within s (e - 1)) (applicable fx first hi) = []).
  { apply filter_none. intros q I. destruct (within s (e - 1) q) eqn:W; [|reflexivity]. apply within_true in W. unfold applicable in I. rewrite in_sort_fixings in I.
    apply filter_In in I as [I _]. exfalso. apply (N q I). lia. }
  injection C as <-. rewrite E, date_range_period, valid_prod, days_from_length.
  replace (prod_days _ s (days_between s e)) with 1.
  2: { symmetry. transitivity (prod_days (fun _ => 1) s (days_between s e)); [apply prod_days_ext; reflexivity|]. apply prod_days_one. }
  rewrite np_div_nz. 2: { apply not_0_INR. unfold days_between. lia. }
  f_equal. unfold Rdiv. ring.
Qed.
