From Coq Require Import ZArith Bool Lia List.
From Coq Require Import ZifyBool.
From Verif Require Import Date.
Open Scope Z_scope.
Ltac Zify.zify_post_hook ::= Z.div_mod_to_equations.

(* Calendar components that exist. *)
Definition valid (y m d : Z) : Prop := 1 <= m <= 12 /\ 1 <= d <= days_in_month y m.

Lemma year_len_cases y : year_len y = 365 \/ year_len y = 366.
Proof. unfold year_len; destruct (is_leap y); auto. Qed.

Lemma days_before_year_succ y : days_before_year (y + 1) = days_before_year y + year_len y.
Proof.
  unfold days_before_year, year_len, is_leap.
  replace (y + 1 - 1) with y by lia.
  destruct ((y mod 4 =? 0) && (negb (y mod 100 =? 0) || (y mod 400 =? 0))) eqn:E; lia.
Qed.

Lemma days_before_year_bounds y :
  146097 * (y - 1) - 400 * 2 <= 400 * days_before_year y <= 146097 * (y - 1) + 400.
Proof. unfold days_before_year. cbv zeta. lia. Qed.

Lemma year_spec n : days_before_year (year n) < n <= days_before_year (year n + 1).
Proof.
  unfold year. cbv zeta.
  set (e := (400 * (n - 1)) / 146097 + 1).
  assert (He : 146097 * (e - 1) <= 400 * (n - 1) < 146097 * e) by (subst e; lia).
  clearbody e.
  pose proof (days_before_year_bounds e) as B0.
  pose proof (days_before_year_bounds (e + 1)) as B1.
  pose proof (days_before_year_bounds (e - 1)) as Bm.
  pose proof (days_before_year_bounds (e + 2)) as B2.
  destruct (Z.leb_spec n (days_before_year e)).
  - replace (e - 1 + 1) with e by lia. lia.
  - destruct (Z.ltb_spec (days_before_year (e + 1)) n); [|lia].
    replace (e + 1 + 1) with (e + 2) by lia. lia.
Qed.

Lemma days_before_year_mono y z : y <= z -> days_before_year y + 365 * (z - y) <= days_before_year z.
Proof.
  intros H.
  assert (A : forall k, 0 <= k -> days_before_year y + 365 * k <= days_before_year (y + k)).
  { apply natlike_ind.
    - replace (y + 0) with y by lia. lia.
    - intros k Hk IH. replace (y + Z.succ k) with ((y + k) + 1) by lia.
      rewrite days_before_year_succ. pose proof (year_len_cases (y + k)). lia. }
  specialize (A (z - y) ltac:(lia)). replace (y + (z - y)) with z in A by lia. exact A.
Qed.

Lemma year_unique n y : days_before_year y < n <= days_before_year (y + 1) -> year n = y.
Proof.
  intros H. pose proof (year_spec n) as S.
  destruct (Z.lt_trichotomy (year n) y) as [L|[E|G]]; auto.
  - pose proof (days_before_year_mono (year n + 1) y). lia.
  - pose proof (days_before_year_mono (y + 1) (year n)). lia.
Qed.

Lemma day_of_year_bounds n : 0 <= day_of_year n < year_len (year n).
Proof.
  unfold day_of_year. pose proof (year_spec n) as S. rewrite days_before_year_succ in S. lia.
Qed.

Lemma month_end_step y m : 1 <= m <= 11 -> days_before_month y (m + 1) = days_before_month y m + days_in_month y m.
Proof.
  intros H. assert (C : m = 1 \/ m = 2 \/ m = 3 \/ m = 4 \/ m = 5 \/ m = 6 \/ m = 7 \/ m = 8 \/ m = 9 \/ m = 10 \/ m = 11) by lia.
  unfold days_before_month, days_in_month.
  destruct (is_leap y); repeat (destruct C as [C|C]; [subst m; reflexivity|]); subst m; reflexivity.
Qed.

Lemma month_end_last y : days_before_month y 12 + days_in_month y 12 = year_len y.
Proof. unfold days_before_month, days_in_month, year_len. destruct (is_leap y); reflexivity. Qed.

Lemma days_in_month_bounds y m : 28 <= days_in_month y m <= 31.
Proof.
  unfold days_in_month. destruct (m =? 2); [destruct (is_leap y); lia|].
  destruct ((m =? 4) || (m =? 6) || (m =? 9) || (m =? 11)); lia.
Qed.

Lemma days_before_month_nonneg y m : 0 <= days_before_month y m <= 335.
Proof.
  unfold days_before_month. cbv zeta. destruct (is_leap y);
  repeat match goal with |- context [if ?b then _ else _] => destruct b end; lia.
Qed.

Lemma days_before_month_1 y : days_before_month y 1 = 0.
Proof. reflexivity. Qed.

Lemma days_before_month_mono y m m' : 1 <= m -> m < m' -> m' <= 12 ->
  days_before_month y m + days_in_month y m <= days_before_month y m'.
Proof.
  intros H1 H2 H3.
  assert (A : forall k, 0 <= k -> m + 1 + k <= 12 ->
     days_before_month y m + days_in_month y m <= days_before_month y (m + 1 + k)).
  { apply (natlike_ind (fun k => m + 1 + k <= 12 ->
     days_before_month y m + days_in_month y m <= days_before_month y (m + 1 + k))).
    - intros H. rewrite Z.add_0_r in *. rewrite month_end_step by lia. lia.
    - intros k Hk IH H. replace (m + 1 + Z.succ k) with ((m + 1 + k) + 1) by lia.
      rewrite month_end_step by lia. pose proof (days_in_month_bounds y (m + 1 + k)).
      specialize (IH ltac:(lia)). lia. }
  specialize (A (m' - m - 1) ltac:(lia) ltac:(lia)).
  replace (m + 1 + (m' - m - 1)) with m' in A by lia. exact A.
Qed.

Lemma month_spec n :
  1 <= month n <= 12 /\
  days_before_month (year n) (month n) <= day_of_year n < days_before_month (year n) (month n) + days_in_month (year n) (month n).
Proof.
  pose proof (day_of_year_bounds n) as B.
  unfold month. cbv zeta. set (k := day_of_year n) in *. set (y := year n) in *.
  pose proof (fun m H => month_end_step y m H) as S.
  pose proof (S 1 ltac:(lia)). pose proof (S 2 ltac:(lia)). pose proof (S 3 ltac:(lia)). pose proof (S 4 ltac:(lia)).
  pose proof (S 5 ltac:(lia)). pose proof (S 6 ltac:(lia)). pose proof (S 7 ltac:(lia)). pose proof (S 8 ltac:(lia)).
  pose proof (S 9 ltac:(lia)). pose proof (S 10 ltac:(lia)). pose proof (S 11 ltac:(lia)).
  pose proof (month_end_last y) as L. pose proof (days_before_month_1 y) as F.
  cbn [Z.add Pos.add Pos.succ] in *. clear S.
  repeat match goal with
  | |- context [if ?a <? ?b then _ else _] => destruct (Z.ltb_spec a b); [split; lia|]
  end.
  split; lia.
Qed.

Lemma month_unique n m : 1 <= m <= 12 ->
  days_before_month (year n) m <= day_of_year n < days_before_month (year n) m + days_in_month (year n) m ->
  month n = m.
Proof.
  intros Hm H. destruct (month_spec n) as [Hr S].
  destruct (Z.lt_trichotomy (month n) m) as [L|[E|G]]; auto.
  - pose proof (days_before_month_mono (year n) (month n) m ltac:(lia) L ltac:(lia)). lia.
  - pose proof (days_before_month_mono (year n) m (month n) ltac:(lia) G ltac:(lia)). lia.
Qed.

Lemma ymd_valid n : valid (year n) (month n) (day n).
Proof. destruct (month_spec n) as [Hr S]. unfold valid, day. lia. Qed.

Lemma mk_ymd n : mk (year n) (month n) (day n) = n.
Proof. unfold mk, day, day_of_year. lia. Qed.

Lemma mk_doy_bound y m d : valid y m d ->
  0 <= days_before_month y m + d - 1 < year_len y.
Proof.
  intros [Hm Hd]. pose proof (days_before_month_nonneg y m).
  pose proof (month_end_last y) as L. pose proof (days_in_month_bounds y 12).
  destruct (Z.eq_dec m 12) as [->|N]; [lia|].
  pose proof (days_before_month_mono y m 12). lia.
Qed.

Lemma year_mk y m d : valid y m d -> year (mk y m d) = y.
Proof.
  intros H. pose proof (mk_doy_bound y m d H). apply year_unique.
  rewrite days_before_year_succ. unfold mk. lia.
Qed.

Lemma month_mk y m d : valid y m d -> month (mk y m d) = m.
Proof.
  intros H. apply month_unique; [apply H|]. unfold day_of_year. rewrite !year_mk by assumption.
  destruct H. unfold mk. lia.
Qed.

Lemma day_mk y m d : valid y m d -> day (mk y m d) = d.
Proof.
  intros H. unfold day, day_of_year. rewrite !year_mk, month_mk by assumption. unfold mk. lia.
Qed.

Lemma month_range n : 1 <= month n <= 12.
Proof. apply month_spec. Qed.

Lemma day_range n : 1 <= day n <= days_in_month (year n) (month n).
Proof. apply ymd_valid. Qed.

Lemma day_le_31 n : 1 <= day n <= 31.
Proof. pose proof (day_range n). pose proof (days_in_month_bounds (year n) (month n)). lia. Qed.

(* Lexicographic order of (year, month, day) is the order of days. *)
Lemma year_mono a b : a <= b -> year a <= year b.
Proof.
  intros H. pose proof (year_spec a). pose proof (year_spec b).
  destruct (Z.le_gt_cases (year a) (year b)); auto.
  pose proof (days_before_year_mono (year b + 1) (year a)). lia.
Qed.

Lemma month_mono a b : a <= b -> year a = year b -> month a <= month b.
Proof.
  intros H E. pose proof (month_spec a) as [? ?]. pose proof (month_spec b) as [? ?].
  unfold day_of_year in *. rewrite <- E in *.
  destruct (Z.le_gt_cases (month a) (month b)); auto.
  pose proof (days_before_month_mono (year a) (month b) (month a)). lia.
Qed.

Lemma day_mono a b : a <= b -> year a = year b -> month a = month b -> day a <= day b.
Proof.
  intros H E F. unfold day, day_of_year. rewrite E, F. lia.
Qed.

Lemma lex_le a b : a <= b <->
  year a < year b \/ (year a = year b /\ (month a < month b \/ (month a = month b /\ day a <= day b))).
Proof.
  split.
  - intros H. pose proof (year_mono a b H).
    destruct (Z.eq_dec (year a) (year b)) as [E|]; [right|left; lia]. split; auto.
    pose proof (month_mono a b H E).
    destruct (Z.eq_dec (month a) (month b)) as [F|]; [right|left; lia]. split; auto.
    apply day_mono; auto.
  - intros H. destruct (Z.le_gt_cases a b) as [|G]; auto.
    assert (G' : b <= a) by lia.
    pose proof (year_mono b a G').
    destruct H as [H|[E [H|[F H]]]]; [lia| |].
    + pose proof (month_mono b a G'). lia.
    + pose proof (mk_ymd a) as Ma. pose proof (mk_ymd b) as Mb. rewrite E, F in Ma.
      unfold mk in *. lia.
Qed.

Lemma month_index_mono a b : a <= b -> month_index a <= month_index b.
Proof.
  intros H. apply lex_le in H. unfold month_index.
  pose proof (month_range a). pose proof (month_range b). lia.
Qed.

Lemma month_index_lt a b : month_index a < month_index b -> a < b.
Proof.
  intros H. destruct (Z.lt_ge_cases a b) as [|G]; auto.
  apply month_index_mono in G. lia.
Qed.

Lemma same_month_iff a b : month_index a = month_index b <-> year a = year b /\ month a = month b.
Proof.
  unfold month_index. pose proof (month_range a). pose proof (month_range b). lia.
Qed.

(* ---- month arithmetic ---- *)

Lemma add_months_valid n k :
  let mi := month_index n + k in
  valid (mi / 12) (mi mod 12 + 1) (Z.min (day n) (days_in_month (mi / 12) (mi mod 12 + 1))).
Proof.
  intros mi. pose proof (day_range n). pose proof (days_in_month_bounds (mi / 12) (mi mod 12 + 1)).
  unfold valid. split; [pose proof (Z.mod_pos_bound mi 12); lia | lia].
Qed.

Lemma add_months_month_index n k : month_index (add_months n k) = month_index n + k.
Proof.
  unfold add_months. pose proof (add_months_valid n k) as V. cbv zeta in *.
  set (mi := month_index n + k) in *. unfold month_index at 1.
  rewrite year_mk, month_mk by assumption.
  pose proof (Z.div_mod mi 12). lia.
Qed.

Lemma add_months_day n k :
  day (add_months n k) = Z.min (day n) (days_in_month (year (add_months n k)) (month (add_months n k))).
Proof.
  unfold add_months. pose proof (add_months_valid n k) as V. cbv zeta in *.
  set (mi := month_index n + k) in *.
  rewrite year_mk, month_mk, day_mk by assumption. reflexivity.
Qed.

Lemma month_index_decomp n : year n = month_index n / 12 /\ month n = month_index n mod 12 + 1.
Proof.
  unfold month_index. pose proof (month_range n). split; lia.
Qed.

Lemma date_eq a b : month_index a = month_index b -> day a = day b -> a = b.
Proof.
  intros H D. apply same_month_iff in H as [Y M].
  rewrite <- (mk_ymd a), <- (mk_ymd b), Y, M, D. reflexivity.
Qed.

Lemma add_months_0 n : add_months n 0 = n.
Proof.
  apply date_eq.
  - rewrite add_months_month_index. lia.
  - rewrite add_months_day. pose proof (add_months_month_index n 0) as H.
    rewrite Z.add_0_r in H. apply same_month_iff in H as [-> ->]. pose proof (day_range n). lia.
Qed.

Lemma add_months_mono n k l : k < l -> add_months n k < add_months n l.
Proof. intros H. apply month_index_lt. rewrite !add_months_month_index. lia. Qed.

Lemma add_months_le a b k : a <= b -> add_months a k <= add_months b k.
Proof.
  intros H. pose proof (month_index_mono a b H) as M.
  destruct (Z.eq_dec (month_index a) (month_index b)) as [E|N].
  - pose proof (add_months_month_index a k) as A. pose proof (add_months_month_index b k) as B.
    rewrite E in A. rewrite <- A in B. apply same_month_iff in E as [Y1 M1].
    apply same_month_iff in B as [Y2 M2].
    apply lex_le. right. split; auto. right. split; auto.
    rewrite !add_months_day. rewrite Y2, M2.
    pose proof (day_mono a b H Y1 M1). lia.
  - apply Z.lt_le_incl, month_index_lt. rewrite !add_months_month_index. lia.
Qed.

(* Adding k months moves forward by at least k*28 days and strictly when k > 0. *)
Lemma month_end_valid n : valid (year n) (month n) (days_in_month (year n) (month n)).
Proof. pose proof (month_range n). pose proof (days_in_month_bounds (year n) (month n)). unfold valid; lia. Qed.

Lemma month_end_index n : month_index (month_end n) = month_index n.
Proof. unfold month_end, month_index. pose proof (month_end_valid n). rewrite year_mk, month_mk by assumption. reflexivity. Qed.

Lemma month_end_day n : day (month_end n) = days_in_month (year n) (month n).
Proof. unfold month_end. rewrite day_mk; [reflexivity|apply month_end_valid]. Qed.

Lemma month_end_ge n : n <= month_end n.
Proof.
  pose proof (month_end_index n) as H. apply same_month_iff in H as [Y M].
  apply lex_le. right. split; auto. right. split; auto. rewrite month_end_day. apply day_range.
Qed.

Lemma mk_jan1 y : mk y 1 1 = days_before_year y + 1.
Proof. unfold mk. rewrite days_before_month_1. lia. Qed.

Lemma weekday_range n : 0 <= weekday n <= 6.
Proof. unfold weekday. lia. Qed.

(* First day of the month containing n, and the length of that month. *)
Definition month_start (n : date) : date := mk (year n) (month n) 1.

Lemma month_start_spec n : month_start n = n - day n + 1.
Proof. unfold month_start. rewrite <- (mk_ymd n) at 3. unfold mk. lia. Qed.

Lemma month_end_spec n : month_end n = month_start n + days_in_month (year n) (month n) - 1.
Proof. unfold month_end, month_start, mk. lia. Qed.

Lemma in_month_iff n d : month_index d = month_index n <-> month_start n <= d <= month_end n.
Proof.
  split.
  - intros H. apply same_month_iff in H as [Y M].
    assert (E : month_start n = month_start d) by (unfold month_start; rewrite Y, M; reflexivity).
    assert (F : month_end n = month_end d) by (unfold month_end; rewrite Y, M; reflexivity).
    rewrite E, F. pose proof (month_end_ge d). rewrite month_start_spec. pose proof (day_range d). lia.
  - intros [H1 H2]. apply month_index_mono in H1, H2. rewrite month_end_index in H2.
    assert (V : valid (year n) (month n) 1).
    { pose proof (month_range n). pose proof (days_in_month_bounds (year n) (month n)). unfold valid; lia. }
    assert (S : month_index (month_start n) = month_index n).
    { unfold month_start, month_index. rewrite year_mk, month_mk by assumption. reflexivity. }
    lia.
Qed.
