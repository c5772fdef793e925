From Coq Require Import String Ascii ZArith QArith Qreals Reals Lra Lia List Bool Permutation Sorted.
From Verif Require Import Base Date DateProofs BusDayModel BusDaySpec BusDayProofs DayCountModel DayCountSpec DayCountProofs TenorModel TenorSpec TenorProofs ScheduleModel ScheduleProofs
  NumModel CurveModel CurveSpec CurveProofs BootModel BootSpec BootProofs FuturesProofs.
Import ListNotations.
Open Scope R_scope.

Lemma numeral_nonneg s n : numeral s n -> (0 <= n)%Z.
Proof. induction 1 as [a v D|s n a v _ IH D]; destruct D as (k & _ & _ & ->); lia. Qed.
Lemma tenor_means_nonneg s a b : tenor_means s a b -> (0 <= a /\ 0 <= b)%Z.
Proof. intros H. inversion H; subst; try (split; lia); repeat match goal with N : numeral _ _ |- _ => apply numeral_nonneg in N end; split; lia. Qed.
Lemma add_offset_ge (d : date) a b : (0 <= a -> 0 <= b -> d <= add_months d b + a)%Z.
Proof.
  intros A B. assert (d <= add_months d b)%Z; [|lia]. destruct (Z.eq_dec b 0) as [->|N]; [rewrite add_months_0; lia|].
  pose proof (add_months_mono d 0 b ltac:(lia)) as X. rewrite add_months_0 in X. lia.
Qed.

Lemma add_offset_eq (e : date) a b : add_offset e {| off_days := a; off_months := b |} = (add_months e b + a)%Z.
Proof. reflexivity. Qed.

Definition starts (c s : date) (ts : list string) : list date := map (fun t => if negb (clean_tenor t =? "on")%string then s else c) ts.
Definition delayed_list (ts : list string) : list bool := map (fun t => negb (clean_tenor t =? "on")%string) ts.

Lemma settle_value (c : date) delay given cal s : settles c delay given cal s ->
  match given with Some d => Ok d | None => match delay with Some n => workday c n cal | None => Err AssertionError end end = Ok s.
Proof. intros [->|(-> & n & -> & W)]; [reflexivity|exact W]. Qed.

Lemma helper_value f c b delay given cal r ts s : quoted_by_tenor f r ts -> settles c delay given cal s ->
  cash_rates_quote_helper f c b delay given cal =
    (let* offs := sequence (map (fun t => tenor_to_date_offset (clean_tenor t)) ts) in
     let* ms := sequence (map2 (fun d o => workday (add_offset d o) 0 cal) (starts c s ts) offs) in
     let* per := years_column (starts c s ts) ms b (length ms) in
     Ok {| c_rate := Some r; c_tenor := Some (map clean_tenor ts); c_eff := Some (starts c s ts); c_mat := Some ms; c_delay := Some (delayed_list ts); c_period := Some per |}).
Proof.
  intros (R1 & T & E & M) ST. unfold cash_rates_quote_helper. rewrite R1, T, E, M. cbn [present orb guard bind column_of].
  rewrite (settle_value _ _ _ _ _ ST). cbn [bind]. unfold starts, delayed_list. rewrite !map_map.
  destruct (sequence (map (fun x => tenor_to_date_offset (clean_tenor x)) ts)) as [offs|]; [|reflexivity]. cbn [bind]. reflexivity.
Qed.

Lemma mats_ok cal (c s : date) : wf_calendar cal -> forall ts, (forall t, In t ts -> exists a b, tenor_means (clean_tenor t) a b) ->
  exists offs ms, sequence (map (fun t => tenor_to_date_offset (clean_tenor t)) ts) = Ok offs /\
    sequence (map2 (fun d o => workday (add_offset d o) 0 cal) (starts c s ts) offs) = Ok ms /\ length ms = length ts /\
    (forall x y, In (x, y) (combine (starts c s ts) ms) -> (x <= y)%Z) /\
    forall i t, nth_error ts i = Some t -> exists d e m, nth_error (delayed_list ts) i = Some d /\ nth_error (starts c s ts) i = Some e /\ nth_error ms i = Some m /\ deposit cal c s t d e m.
Proof.
  intros W. induction ts as [|t r IH]; intros H.
  - exists [], []. repeat split. + intros x y []. + intros [|i] t X; discriminate.
  - destruct IH as (offs & ms & A & B & L & D & E); [intros u I; apply H; right; exact I|]. destruct (H t (or_introl eq_refl)) as (a & b & T).
    set (e := if negb (clean_tenor t =? "on")%string then s else c). destruct (workday_0 cal (add_offset e {| off_days := a; off_months := b |}) W) as (m & M & F).
    pose proof F as F'. rewrite add_offset_eq in F'.
    exists ({| off_days := a; off_months := b |} :: offs), (m :: ms).
    unfold starts, map2 in *. cbn [map sequence combine fst snd]. rewrite (tenor_accepts _ _ _ T). cbn [bind]. rewrite A. cbn [bind]. split; [reflexivity|].
    cbn [map sequence combine fst snd]. fold e. rewrite M. cbn [bind]. rewrite B. cbn [bind]. split; [reflexivity|]. split; [cbn; lia|]. split.
    + intros x y [X|X]; [|exact (D x y X)]. injection X as <- <-. destruct F' as (_ & G & _). destruct (tenor_means_nonneg _ _ _ T).
      pose proof (add_offset_ge e a b). lia.
    + intros [|i] u X; cbn in X.
      * injection X as ->. exists (negb (clean_tenor u =? "on")%string), e, m. repeat split; try reflexivity. exists a, b. split; [exact T|]. split.
        { unfold overnight. rewrite negb_false_iff, String.eqb_eq. reflexivity. }
        split; [reflexivity|exact F'].
      * exact (E i u X).
Qed.

Lemma quotes_built f (c : date) b delay given cal r ts s : plain_basis b -> wf_calendar cal -> quoted_by_tenor f r ts -> settles c delay given cal s -> ts <> [] ->
  ((exists f', cash_rates_quote_helper f c b delay given cal = Ok f') <-> forall t, In t ts -> exists a m, tenor_means (clean_tenor t) a m) /\
  forall f', cash_rates_quote_helper f c b delay given cal = Ok f' ->
    c_rate f' = Some r /\ c_tenor f' = Some (map clean_tenor ts) /\
    exists ds es ms ps, c_delay f' = Some ds /\ c_eff f' = Some es /\ c_mat f' = Some ms /\ c_period f' = Some ps /\
      length ds = length ts /\ length es = length ts /\ length ms = length ts /\ length ps = length ts /\
      forall i t, nth_error ts i = Some t -> exists d e m p,
        nth_error ds i = Some d /\ nth_error es i = Some e /\ nth_error ms i = Some m /\ nth_error ps i = Some p /\
        deposit cal c s t d e m /\ year_fraction b e m p.
Proof.
  intros P W FU ST NE. rewrite (helper_value _ _ _ _ _ _ _ _ _ FU ST).
  assert (G : (exists offs, sequence (map (fun t => tenor_to_date_offset (clean_tenor t)) ts) = Ok offs) -> forall t, In t ts -> exists a b, tenor_means (clean_tenor t) a b).
  { intros (offs & H) t I. apply sequence_ok in H. assert (J : In (tenor_to_date_offset (clean_tenor t)) (map Ok offs)) by (rewrite <- H; apply (in_map (fun t => tenor_to_date_offset (clean_tenor t))); exact I).
    apply in_map_iff in J as ([a m] & J & _). exists a, m. apply tenor_accepts_iff. symmetry. exact J. }
  assert (LS : length (starts c s ts) = length ts) by apply map_length.
  assert (NS : starts c s ts <> []) by (destruct ts; [contradiction|discriminate]).
  split.
  - split.
    + intros (f' & H). apply G. destruct (sequence _) as [offs|]; [eauto|discriminate].
    + intros H. destruct (mats_ok cal c s W ts H) as (offs & ms & A & B & L & D & E). rewrite A. cbn [bind]. rewrite B. cbn [bind].
      destruct (years_column_pairs_ok (starts c s ts) ms b P NS ltac:(lia) D) as (ps & Y). rewrite LS, <- L in Y. rewrite Y. eexists. reflexivity.
  - intros f' H. assert (H' : forall t, In t ts -> exists a b, tenor_means (clean_tenor t) a b) by (apply G; destruct (sequence _) as [offs|]; [eauto|discriminate]).
    destruct (mats_ok cal c s W ts H') as (offs & ms & A & B & L & D & E). rewrite A in H. cbn [bind] in H. rewrite B in H. cbn [bind] in H.
    destruct (years_column_pairs_ok (starts c s ts) ms b P NS ltac:(lia) D) as (ps & Y). pose proof Y as Y'. rewrite LS, <- L in Y. rewrite Y in H. cbn [bind] in H. injection H as <-. cbn.
    apply (years_column_pairs (starts c s ts) ms b ps P NS ltac:(lia)) in Y' as (-> & _).
    split; [reflexivity|]. split; [reflexivity|]. exists (delayed_list ts), (starts c s ts), ms, (map2 (fun x y => Q2R (yf1 b x y)) (starts c s ts) ms).
    repeat split; try assumption; [apply map_length|rewrite map2_length; lia|].
    intros i t X. destruct (E i t X) as (d & e & m & X1 & X2 & X3 & X4). exists d, e, m, (Q2R (yf1 b e m)). repeat split; try assumption.
    + rewrite (map2_nth _ _ _ _ _ _ X2 X3). reflexivity.
    + apply year_fraction_yf1; [exact P|]. apply D. clear -X2 X3. revert ms i X2 X3. induction (starts c s ts) as [|x l IH]; intros [|y ms] [|i] A B; try discriminate; cbn in A, B.
      * injection A as ->. injection B as ->. left. reflexivity.
      * right. exact (IH ms i A B).
Qed.

(* what stops the helper *)
Lemma helper_no_tenor f c b delay given cal r es ms : c_rate f = Some r -> c_tenor f = None -> c_eff f = Some es -> c_mat f = Some ms ->
  cash_rates_quote_helper f c b delay given cal = Err KeyError.
Proof. intros R1 T E M. unfold cash_rates_quote_helper. rewrite R1, T, E, M. reflexivity. Qed.
Lemma helper_no_settlement f c b cal r ts : c_rate f = Some r -> c_tenor f = Some ts -> cash_rates_quote_helper f c b None None cal = Err AssertionError.
Proof. intros R1 T. unfold cash_rates_quote_helper. rewrite R1, T. reflexivity. Qed.
Lemma helper_dates_given_unusable f c cb b delay given cal es f' by' ms : c_eff f = Some es -> c_delay f = None ->
  cash_rates_quote_helper f c b delay given cal = Ok f' -> c_mat f' = Some ms -> ms <> [] -> bootstrap_cash_frame f' cb by' = Err KeyError.
Proof.
  intros E D H M NE. unfold cash_rates_quote_helper in H. rewrite E, D in H. destruct (c_rate f); [|discriminate]. destruct (c_tenor f) as [ts|]; [|destruct (c_mat f); discriminate].
  cbn [present orb guard bind column_of] in H. destruct (match given with Some d => Ok d | None => _ end) as [s|]; [|discriminate]. cbn [bind] in H.
  destruct (match c_mat f with Some l => Ok l | None => _ end) as [mm|]; [|discriminate]. cbn [bind] in H. destruct (years_column es mm b (length mm)); [|discriminate]. cbn [bind] in H.
  injection H as <-. cbn in M. injection M as ->. unfold bootstrap_cash_frame. cbn. destruct ms; [contradiction|reflexivity].
Qed.

(* quotes by tenor, bootstrapped *)
Definition rows_of (ds : list bool) (es ms : list date) (rs ps : list R) : list cash_quote :=
  map (fun p => let '(d, e, m, r, t) := p in {| k_delayed := d; k_eff := e; k_mat := m; k_rate := r; k_tau := t |})
    (combine (combine (combine (combine ds es) ms) rs) ps).
Lemma rows_of_nth ds : forall es ms rs ps q, In q (rows_of ds es ms rs ps) -> exists i, nth_error ds i = Some (k_delayed q) /\ nth_error es i = Some (k_eff q) /\ nth_error ms i = Some (k_mat q) /\
  nth_error rs i = Some (k_rate q) /\ nth_error ps i = Some (k_tau q).
Proof.
  unfold rows_of. induction ds as [|d ds IH]; intros [|e es] [|m ms] [|r rs] [|p ps] q I; cbn in I; try contradiction. destruct I as [<-|I].
  - exists 0%nat. cbn. auto.
  - destruct (IH es ms rs ps q I) as (i & H). exists (S i). exact H.
Qed.
Lemma rows_of_at ds : forall es ms rs ps i d e m r p, nth_error ds i = Some d -> nth_error es i = Some e -> nth_error ms i = Some m -> nth_error rs i = Some r -> nth_error ps i = Some p ->
  In {| k_delayed := d; k_eff := e; k_mat := m; k_rate := r; k_tau := p |} (rows_of ds es ms rs ps).
Proof.
  unfold rows_of. induction ds as [|d0 ds IH]; intros [|e0 es] [|m0 ms] [|r0 rs] [|p0 ps] [|i] d e m r p H1 H2 H3 H4 H5; try discriminate; cbn in H1, H2, H3, H4, H5.
  - injection H1 as ->. injection H2 as ->. injection H3 as ->. injection H4 as ->. injection H5 as ->. left. reflexivity.
  - right. exact (IH es ms rs ps i d e m r p H1 H2 H3 H4 H5).
Qed.

Lemma quotes_bootstrapped f (c : date) b by' delay given cal rs ts s f' : plain_basis b -> strict_basis by' -> wf_calendar cal -> quoted_by_tenor f rs ts -> length rs = length ts -> ts <> [] ->
  settles c delay given cal s -> (c <= s)%Z -> cash_rates_quote_helper f c b delay given cal = Ok f' ->
  (forall i t (e m : date) (p r : R) d, nth_error ts i = Some t -> deposit cal c s t d e m -> year_fraction b e m p -> nth_error rs i = Some r -> (e < m)%Z /\ 0 < 1 + r * p) ->
  ((exists rows, bootstrap_cash_frame f' c by' = Ok rows) <->
   ((exists t, In t ts /\ ~ overnight t) -> (exists t, In t ts /\ overnight t) /\ first_on_or_after cal (c + 1)%Z s)).
Proof.
  intros P SB W FU LR NE ST CS H SANE. destruct (proj2 (quotes_built f c b delay given cal rs ts s P W FU ST NE) f' H) as (R1 & _ & ds & es & ms & ps & D & E & M & PP & L1 & L2 & L3 & L4 & ROW).
  unfold bootstrap_cash_frame. rewrite E, M, D, R1, PP. cbn [column_of bind].
  assert (NM : ms <> []) by (destruct ms, ts; try discriminate; contradiction). destruct ms as [|m0 ms0] eqn:EM; [contradiction|]. rewrite <- EM in *. clear EM m0 ms0.
  fold (rows_of ds es ms rs ps). set (qs := rows_of ds es ms rs ps).
  assert (ALL : forall q, In q qs -> exists i t, nth_error ts i = Some t /\ deposit cal c s t (k_delayed q) (k_eff q) (k_mat q) /\ (k_eff q < k_mat q)%Z /\ 0 < 1 + k_rate q * k_tau q).
  { intros q I. apply rows_of_nth in I as (i & I1 & I2 & I3 & I4 & I5). assert (LT : (i < length ts)%nat) by (rewrite <- L1; apply nth_error_Some; congruence).
    destruct (nth_error ts i) as [t|] eqn:T; [|apply nth_error_None in T; lia]. destruct (ROW i t T) as (d & e & m & p & X1 & X2 & X3 & X4 & X5 & X6).
    assert (d = k_delayed q /\ e = k_eff q /\ m = k_mat q /\ p = k_tau q) as (-> & -> & -> & ->) by (repeat split; congruence).
    exists i, t. destruct (SANE i t _ _ _ _ _ T X5 X6 I4). auto. }
  assert (EX : forall i t, nth_error ts i = Some t -> exists q, In q qs /\ deposit cal c s t (k_delayed q) (k_eff q) (k_mat q)).
  { intros i t T. destruct (ROW i t T) as (d & e & m & p & X1 & X2 & X3 & X4 & X5 & X6). assert (LT : (i < length rs)%nat) by (rewrite LR; apply nth_error_Some; congruence).
    destruct (nth_error rs i) as [r|] eqn:RR; [|apply nth_error_None in RR; lia]. exists {| k_delayed := d; k_eff := e; k_mat := m; k_rate := r; k_tau := p |}. split; [exact (rows_of_at _ _ _ _ _ _ _ _ _ _ _ X1 X2 X3 RR X4)|exact X5]. }
  assert (NQ : qs <> []).
  { destruct ts as [|t0 ts']; [contradiction|]. destruct (EX 0%nat t0 eq_refl) as (q & I & _). intros Q. rewrite Q in I. contradiction. }
  assert (SQ : sane_quotes c qs).
  { intros q I. destruct (ALL q I) as (i & t & _ & (a & m & _ & _ & EE & _) & LT & G). split; [|exact G]. split; [|exact LT]. rewrite EE. destruct (k_delayed q); lia. }
  rewrite (cash_possible qs c by' SB NQ SQ).
  assert (ONM : forall t (e m : date) d, overnight t -> deposit cal c s t d e m -> first_on_or_after cal (c + 1) m /\ e = c).
  { intros t e m d ON (a & m' & T & DD & EE & F). rewrite (proj2 DD ON) in EE. subst e. unfold overnight in ON. rewrite ON in T.
    assert (X := tenor_accepts _ _ _ T). cbn in X. injection X as <- <-. rewrite add_months_0 in F. split; [exact F|reflexivity]. }
  split.
  - intros CH (t & I & NO). apply In_nth_error in I as (i & T). destruct (EX i t T) as (q & IQ & DQ). pose proof DQ as (a & m & _ & DD & EE & _).
    assert (DL : k_delayed q = true) by (destruct (k_delayed q); [reflexivity|]; exfalso; apply NO, DD; reflexivity). rewrite DL in EE.
    destruct (CH q IQ DL) as (q' & I' & M'). destruct (ALL q' I') as (i' & t' & T' & D' & LT & _). pose proof D' as (a' & mm & _ & DD' & EE' & _).
    assert (ON : overnight t') by (apply DD'; destruct (k_delayed q'); [|reflexivity]; exfalso; lia).
    destruct (ONM t' _ _ _ ON D') as (F & _). split; [exists t'; split; [exact (nth_error_In _ _ T')|exact ON]|]. rewrite M', EE in F. exact F.
  - intros IMP q I DL. destruct (ALL q I) as (i & t & T & DQ & _). pose proof DQ as (a & m & _ & DD & EE & _). rewrite DL in EE.
    destruct IMP as ((t' & I' & ON) & F). { exists t. split; [exact (nth_error_In _ _ T)|]. intros ON. apply DD in ON. congruence. }
    apply In_nth_error in I' as (i' & T'). destruct (EX i' t' T') as (q' & IQ & D'). exists q'. split; [exact IQ|]. destruct (ONM t' _ _ _ ON D') as (F' & _).
    rewrite EE. exact (first_unique cal (c + 1)%Z _ _ F' F).
Qed.

(* ---- futures rates ---- *)
Lemma forward_from_prices f ps : f_price f = Some ps -> f_rate f = None -> f_convexity f = None -> f_forward f = None -> length ps = length (f_eff f) ->
  forward_column f = Ok (map (fun p => (100 - p) / 100) ps).
Proof.
  intros P R1 C F L. unfold forward_column. rewrite P, R1, C, F. cbn [column_of bind]. f_equal. revert L. clear. generalize (f_eff f) as es. induction ps as [|p ps IH]; intros [|e es] L; try discriminate; [reflexivity|].
  unfold map2 in *. cbn [map combine fst snd]. f_equal; [field|]. apply IH. cbn in L. lia.
Qed.
Lemma forward_from_convexity f ps cs : f_price f = Some ps -> f_rate f = None -> f_convexity f = Some cs -> f_forward f = None -> length cs = length ps ->
  exists fwd, forward_column f = Ok fwd /\ length fwd = length ps /\ forall i p c, nth_error ps i = Some p -> nth_error cs i = Some c -> nth_error fwd i = Some ((100 - p) / 100 - c / 10000).
Proof.
  intros P R1 C F L. unfold forward_column. rewrite P, R1, C, F. cbn [column_of bind]. eexists. split; [reflexivity|]. split; [rewrite map2_length, map_length; lia|].
  intros i p c X Y. apply (map2_nth (fun r c => r - c / 10000) _ _ i ((100 - p) / 100) c); [|exact Y]. rewrite nth_error_map, X. reflexivity.
Qed.
Lemma forward_from_rates f rs cs : f_rate f = Some rs -> f_convexity f = Some cs -> f_forward f = None -> length cs = length rs ->
  exists fwd, forward_column f = Ok fwd /\ length fwd = length rs /\ forall i r c, nth_error rs i = Some r -> nth_error cs i = Some c -> nth_error fwd i = Some (r - c / 10000).
Proof.
  intros R1 C F L. unfold forward_column. rewrite R1, C, F. cbn [column_of bind]. eexists. split; [reflexivity|]. split; [rewrite map2_length; lia|].
  intros i r c X Y. apply (map2_nth (fun r c => r - c / 10000) _ _ i r c); assumption.
Qed.
Lemma forward_given_needs_price f ws : f_forward f = Some ws ->
  forward_column f = (if present (f_price f) || (present (f_rate f) && present (f_convexity f)) then Ok ws else Err KeyError).
Proof. intros F. unfold forward_column. rewrite F. destruct (f_price f), (f_rate f), (f_convexity f); reflexivity. Qed.
Lemma forward_missing_price f : f_price f = None -> (f_rate f = None \/ f_convexity f = None) -> forward_column f = Err KeyError.
Proof. intros P H. unfold forward_column. rewrite P. destruct (f_rate f), (f_convexity f); try reflexivity; destruct H; discriminate. Qed.
