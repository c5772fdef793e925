(* Proofs about the columns of a leg's table. *)
From Coq Require Import ZArith QArith Qreals Reals List Bool Lia Lra.
From Verif Require Import Base Date BusDayModel DayCountModel DayCountSpec DayCountProofs ScheduleModel ScheduleProofs LegModel LegSpec LegProofs LegColSpec.
Import ListNotations.
Open Scope R_scope.

Lemma valid_cons_some {A} (x : A) l : valid_dates (Some x :: l) = x :: valid_dates l.
Proof. reflexivity. Qed.
Lemma valid_cons_none {A} (l : list (option A)) : valid_dates (None :: l) = valid_dates l.
Proof. reflexivity. Qed.

Lemma scatter_nth {A B} (m : list (option A)) : forall (vs : list B) i, length vs = length (valid_dates m) ->
  (nth_error m i = Some None -> nth_error (scatter m vs) i = Some None) /\
  (forall x, nth_error m i = Some (Some x) -> exists k v, nth_error (valid_dates m) k = Some x /\ nth_error vs k = Some v /\
     nth_error (scatter m vs) i = Some (Some v) /\ (length (valid_dates m) = k + 1 + length (valid_dates (skipn (S i) m)))%nat).
Proof.
  induction m as [|o m IH]; intros vs i L.
  - destruct i; split; discriminate.
  - destruct o as [a|].
    + rewrite valid_cons_some in *. destruct vs as [|v vs]; [discriminate|]. cbn in L. injection L as L. destruct i as [|i].
      * split; [discriminate|]. intros x E. injection E as <-. exists 0%nat, v. cbn [nth_error scatter skipn length]. repeat split; lia.
      * destruct (IH vs i L) as [P Q]. split; [exact P|]. intros x E. destruct (Q x E) as (k & w & E1 & E2 & E3 & E4).
        exists (S k), w. split; [exact E1|]. split; [exact E2|]. split; [exact E3|]. change (skipn (S (S i)) (Some a :: m)) with (skipn (S i) m). cbn [length]. lia.
    + rewrite valid_cons_none in *. destruct i as [|i].
      * split; [|discriminate]. intros _. destruct vs; reflexivity.
      * destruct (IH vs i L) as [P Q]. assert (SC : scatter (None :: m) vs = None :: scatter m vs) by (destruct vs; reflexivity). rewrite SC. split; [exact P|]. exact Q.
Qed.

Lemma valid_none {A} (l : list (option A)) : length (valid_dates l) = 0%nat <-> forall j o, nth_error l j = Some o -> o = None.
Proof.
  induction l as [|o l IH]; [split; [intros _ [|j] o' H; discriminate|reflexivity]|]. destruct o as [a|].
  - rewrite valid_cons_some. split; [discriminate|]. intros H. specialize (H 0%nat _ eq_refl). discriminate.
  - rewrite valid_cons_none, IH. split; intros H; [intros [|j] o' E; [injection E as <-; reflexivity|exact (H j o' E)]|intros j o' E; exact (H (S j) o' E)].
Qed.

Lemma nth_skipn {A} (l : list A) n j : nth_error (skipn n l) j = nth_error l (n + j).
Proof. revert l. induction n as [|n IH]; intros l; [reflexivity|]. destruct l; [destruct j; reflexivity|]. exact (IH l). Qed.

Lemma year_frac_one a e b : year_frac [a] [e] b None = year_frac [a] [e] b (Some [true]).
Proof. reflexivity. Qed.
Lemma year_frac_other s e f : year_frac s e OtherBasis f = Err ValueError.
Proof. reflexivity. Qed.

Lemma year_frac_all s e b o : length s = length e -> year_frac s e b None = Ok o ->
  length (out_list (length s) o) = length s /\ forall k x y, nth_error s k = Some x -> nth_error e k = Some y ->
    exists q, nth_error (out_list (length s) o) k = Some q /\ year_frac [x] [y] b (Some [(k =? length s - 1)%nat]) = Ok (Scalar q).
Proof.
  intros L H. assert (B : b <> OtherBasis) by (intros ->; discriminate).
  destruct (check_order_spec s e L) as [[_ G]|[_ G]]; [|rewrite (year_frac_reversed s e b None L G B) in H; discriminate].
  destruct (Nat.eq_dec (length s) 1) as [O|O].
  - destruct s as [|x0 [|x1 s]]; try discriminate. destruct e as [|y0 [|y1 e]]; try discriminate.
    rewrite year_frac_one in H. assert (SC : exists q, o = Scalar q).
    { destruct o as [q|l]; [eauto|exfalso]. destruct (check_order_spec [x0] [y0] eq_refl) as [[CO _]|[_ G']]; [|exact (G G')].
      destruct b; try discriminate H; unfold year_frac, day_count in H; change (same_shape [x0] [y0]) with ([x0], [y0], true) in H; cbv beta iota zeta in H; rewrite CO in H; discriminate H. }
    destruct SC as (q & ->). cbn. split; [reflexivity|]. intros [|k] x y E1 E2; cbn in E1, E2; [|destruct k; discriminate].
    injection E1 as <-. injection E2 as <-. exists q. split; [reflexivity|exact H].
  - destruct (year_frac_vector s e b L O G B) as (r & E & LR & Q). rewrite E in H. injection H as <-. cbn [out_list]. split; [exact LR|exact Q].
Qed.

Lemma yf_column rows b yf : add_period_yearfrac (dates_of_rows rows) b = Ok yf ->
  length yf = length rows /\ forall i s, nth_error rows i = Some s -> exists y, nth_error yf i = Some y /\ meant_length b rows i s (option_map Q2R y).
Proof.
  intros H. unfold add_period_yearfrac in H. apply bind_ok in H as (o & H & E). injection E as <-.
  set (m := both_dates (dates_of_rows rows)) in *. rewrite scatter_len. split; [unfold m, both_dates, dates_of_rows; rewrite !map_length; reflexivity|].
  intros i s N. apply year_frac_all in H; [|rewrite !map_length; reflexivity]. rewrite map_length in H. destruct H as [LN Q].
  assert (M : forall j t, nth_error rows j = Some t -> nth_error m j = Some (match s_start t, s_end t with Some a, Some e => Some (a, e) | _, _ => None end)).
  { intros j t E. unfold m, both_dates, dates_of_rows. rewrite !nth_error_map, E. reflexivity. }
  destruct (scatter_nth m (out_list (length (valid_dates m)) o) i LN) as [P R]. pose proof (M i s N) as MI. unfold meant_length.
  destruct (s_start s) as [a|] eqn:SA; [destruct (s_end s) as [e|] eqn:SE|].
  - destruct (R (a, e) MI) as (k & q & V & O & SC & C). exists (Some q). split; [exact SC|].
    destruct (Q k a e) as (q' & O' & Y); [rewrite nth_error_map, V; reflexivity|rewrite nth_error_map, V; reflexivity|].
    rewrite O in O'. injection O' as <-. exists q, (k =? length (valid_dates m) - 1)%nat. split; [exact Y|]. split; [reflexivity|].
    rewrite Nat.eqb_eq. transitivity (length (valid_dates (skipn (S i) m)) = 0%nat); [lia|]. rewrite valid_none. split.
    + intros Z j t IJ E (W1 & W2). specialize (Z (j - S i)%nat). rewrite nth_skipn in Z. replace (S i + (j - S i))%nat with j in Z by lia.
      specialize (Z _ (M j t E)). destruct (s_start t), (s_end t); congruence.
    + intros Z j o' E. rewrite nth_skipn in E. destruct (nth_error rows (S i + j)) as [t|] eqn:T.
      * rewrite (M _ _ T) in E. injection E as <-. assert (W : ~ whole_period t) by (apply (Z (S i + j)%nat t); [lia|exact T]).
        unfold whole_period in W. destruct (s_start t), (s_end t); try reflexivity. exfalso. apply W. split; discriminate.
      * apply nth_error_None in T. assert (LM : length m = length rows) by (unfold m, both_dates, dates_of_rows; rewrite !map_length; reflexivity).
        assert (X : nth_error m (S i + j) <> None) by congruence. apply nth_error_Some in X. lia.
  - exists None. split; [apply P; exact MI|reflexivity].
  - exists None. split; [apply P; exact MI|reflexivity].
Qed.

Lemma nth_error_combine {A B} (l : list A) (m : list B) i x y : nth_error l i = Some x -> nth_error m i = Some y -> nth_error (combine l m) i = Some (x, y).
Proof. revert m i. induction l as [|a l IH]; intros [|c m] [|i] E1 E2; cbn in *; try discriminate; [congruence|]. apply IH; assumption. Qed.

Lemma rate_column x n param col : (at_start x = true -> 0 < n)%nat ->
  match param with [r] => Ok (repeat r (if at_start x then n - 1 else n)%nat)
                 | _ => if (length param =? (if at_start x then n - 1 else n))%nat then Ok param else Err ValueError end = Ok col ->
  length (if at_start x then None :: col else col) = n /\
  forall i, (i < n)%nat -> nth_error (if at_start x then None :: col else col) i = Some (meant_rate x param i).
Proof.
  intros NZ H. set (v := (if at_start x then n - 1 else n)%nat) in *. unfold meant_rate, first_exchange.
  assert (C : length col = v /\ forall j, (j < v)%nat -> nth_error col j = Some (match param with [r] => r | _ => nth j param None end)).
  { assert (G : forall p, (if (length p =? v)%nat then Ok p else Err ValueError) = Ok col -> length col = v /\ forall j, (j < v)%nat -> nth_error col j = Some (nth j p None)).
    { intros p. destruct (Nat.eqb_spec (length p) v); [|discriminate]. intros E. injection E as <-. split; [assumption|]. intros j J. apply nth_error_nth'. lia. }
    destruct param as [|r [|r2 p]]; [exact (G [] H)| |exact (G (r :: r2 :: p) H)].
    injection H as <-. rewrite repeat_length. split; [reflexivity|]. intros j J. rewrite (nth_error_nth' (repeat r v) r) by (rewrite repeat_length; lia). rewrite nth_repeat. reflexivity. }
  destruct C as [LC C]. unfold v in *. destruct (at_start x).
  - specialize (NZ eq_refl). cbn [length]. split; [lia|]. intros [|i] I; [reflexivity|]. cbn [nth_error Nat.ltb Nat.leb]. replace (S i - 1)%nat with i by lia. apply C. lia.
  - split; [exact LC|]. intros i I. cbn [Nat.ltb Nat.leb]. rewrite Nat.sub_0_r. apply C. exact I.
Qed.

Lemma leg_rows p b cv k x rows param l : new_leg p b cv k x rows param = Ok l ->
  l_side l = p /\ l_basis l = b /\ l_kind l = k /\ l_curve l = cv /\ l_coupons l = None /\ l_coupon_rate l = None /\ l_pvs l = None /\
  length (l_rows l) = length rows /\
  forall i s, nth_error rows i = Some s -> exists r, nth_error (l_rows l) i = Some r /\
    r_start r = s_start s /\ r_end r = s_end s /\ r_ndate r = s_ndate s /\ r_cdate r = s_cdate s /\
    r_notional r = (match p with Pay => - s_notional s | Rcv => s_notional s end) /\
    r_npay r = (match p with Pay => - s_npay s | Rcv => s_npay s end) /\
    r_rate r = meant_rate x param i /\ meant_length b rows i s (r_yf r).
Proof.
  unfold new_leg. intros H. destruct (add_period_daycount _ _); cbn [bind] in *; [|discriminate].
  destruct (add_period_yearfrac _ _) as [yf|] eqn:Y; cbn [bind] in *; [|discriminate]. apply yf_column in Y as [LY Y].
  apply bind_ok in H as (col & HC & H). injection H as <-. cbn [l_side l_basis l_kind l_curve l_coupons l_coupon_rate l_pvs l_rows].
  do 7 (split; [reflexivity|]). rewrite map_length, !combine_length, LY.
  destruct rows as [|s0 rows0].
  { split; [reflexivity|]. intros [|i] s N; discriminate. }
  set (rows := s0 :: rows0) in *. destruct (rate_column x (length rows) param col) as [LC C]; [cbn; lia|exact HC|].
  rewrite LC, !Nat.min_id. split; [reflexivity|]. intros i s N. assert (I : (i < length rows)%nat) by (apply nth_error_Some; congruence).
  destruct (Y i s N) as (y & EY & ML). eexists. split.
  { rewrite nth_error_map. erewrite nth_error_combine; [|apply nth_error_combine; [exact N|exact EY]|apply C; exact I]. cbn [option_map]. reflexivity. }
  cbn [r_start r_end r_ndate r_cdate r_notional r_npay r_rate r_yf]. do 4 (split; [reflexivity|]).
  split; [destruct p; cbn [multiplier]; ring|]. split; [destruct p; cbn [multiplier]; ring|]. split; [reflexivity|exact ML].
Qed.

Lemma parameter_lengths p b cv k x rows param l : new_leg p b cv k x rows param = Ok l -> forall other,
  (length other = 1%nat \/ (length other + first_exchange x = length rows)%nat \/ (other = [] /\ rows = []) -> exists l', new_leg p b cv k x rows other = Ok l') /\
  (length other <> 1%nat -> length other <> (length rows - first_exchange x)%nat -> new_leg p b cv k x rows other = Err ValueError).
Proof.
  unfold new_leg. intros H other. destruct (add_period_daycount _ _); cbn [bind] in *; [|discriminate].
  destruct (add_period_yearfrac _ _) as [yf|] eqn:Y; cbn [bind] in *; [|discriminate]. clear H.
  assert (V : (if at_start x then length rows - 1 else length rows)%nat = (length rows - first_exchange x)%nat) by (unfold first_exchange; destruct (at_start x); lia). rewrite V. split.
  - intros L. assert (G : length other <> 1%nat -> length other = (length rows - first_exchange x)%nat) by (destruct L as [L|[L|[-> ->]]]; cbn; lia).
    destruct other as [|r [|r2 q]]; [| cbn [bind]; eauto |]; rewrite G by (cbn; lia); rewrite Nat.eqb_refl; cbn [bind]; eauto.
  - intros L1 L2. apply Nat.eqb_neq in L2. destruct other as [|r [|r2 q]]; [rewrite L2; reflexivity|cbn in L1; lia|rewrite L2; reflexivity].
Qed.
