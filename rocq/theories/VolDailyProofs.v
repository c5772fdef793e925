From Coq Require Import ZArith QArith Qreals Reals List Bool Sorted Lra Lia.
From Verif Require Import Base Date DayCountModel CurveSpec CurveProofs BootModel BootSpec BootProofs NormalModel BlackModel BlackSpec BlackProofs VolModel VolSpec VolProofs.
Import ListNotations.
Open Scope R_scope.

Section Daily.
  Variables (c : date) (b : basis).
  Hypothesis B : strict_basis b.
  Definition yt (d : date) : R := Q2R (yf1 b c d).
  Definition tag (p : vol_pillar) : vol_pillar * R := (p, yt (v_expiry p)).
  Definition before (p q : vol_pillar) : Prop := (v_expiry p < v_expiry q)%Z.

  Lemma sorted_split (l1 l2 : list vol_pillar) (p : vol_pillar) : StronglySorted before (l1 ++ p :: l2) ->
    (forall q : vol_pillar, In q l1 -> (v_expiry q < v_expiry p)%Z) /\ (forall q : vol_pillar, In q l2 -> (v_expiry p < v_expiry q)%Z).
  Proof.
    induction l1 as [ | x l1 IH]; cbn; intros S; inversion S as [ | ? ? S' F]; subst.
    - split; [intros q [] | ]. rewrite Forall_forall in F. exact F.
    - destruct (IH S') as [A C]. split; auto. rewrite Forall_forall in F. intros q [<- | I]; [apply F; apply in_or_app; right; left; auto | auto].
  Qed.
  Lemma find_none {A} (f : A -> bool) (l : list A) : (forall x : A, In x l -> f x = false) -> find f l = None.
  Proof. induction l as [ | x l IH]; cbn; intros H; auto. rewrite (H x) by auto. apply IH. auto. Qed.
  Lemma find_app_none {A} (f : A -> bool) (l m : list A) : (forall x : A, In x l -> f x = false) -> find f (l ++ m) = find f m.
  Proof. induction l as [ | x l IH]; cbn; intros H; auto. rewrite (H x) by auto. apply IH. auto. Qed.
  Lemma lower_at (l1 l2 : list vol_pillar) (p : vol_pillar) (d : date) : (v_expiry p <= d)%Z -> (forall q : vol_pillar, In q l2 -> (d < v_expiry q)%Z) ->
    lower_pillar (map tag (l1 ++ p :: l2)) d = Some (tag p).
  Proof.
    intros P Q. unfold lower_pillar. rewrite <- map_rev, rev_app_distr. cbn [rev]. rewrite <- app_assoc, map_app, find_app_none.
    - cbn. rewrite (proj2 (Z.leb_le _ _) P). reflexivity.
    - intros x I. apply in_map_iff in I as (q & <- & I). apply in_rev in I. cbn. apply Z.leb_gt. apply Q. exact I.
  Qed.
  Lemma upper_at (l1 l2 : list vol_pillar) (p : vol_pillar) (d : date) : (d <= v_expiry p)%Z -> (forall q : vol_pillar, In q l1 -> (v_expiry q < d)%Z) ->
    upper_pillar (map tag (l1 ++ p :: l2)) d = Some (tag p).
  Proof.
    intros P Q. unfold upper_pillar. rewrite map_app, find_app_none.
    - cbn. rewrite (proj2 (Z.leb_le _ _) P). reflexivity.
    - intros x I. apply in_map_iff in I as (q & <- & I). cbn. apply Z.leb_gt. apply Q. exact I.
  Qed.
  Definition row_for (lo up : vol_pillar) (d : date) : ff_row := mk_ff (yt (v_expiry lo)) (yt (v_expiry up)) (yt d) (combine (v_vols lo) (v_vols up)).
  Definition lookup (table : list (vol_pillar * R)) (x : date * R) : result ff_row :=
    match lower_pillar table (fst x), upper_pillar table (fst x) with
    | Some lo, Some up => Ok (mk_ff (snd lo) (snd up) (snd x) (combine (v_vols (fst lo)) (v_vols (fst up))))
    | _, _ => Err KeyError
    end.
  Lemma lookup_pillar (l : list vol_pillar) (p : vol_pillar) : StronglySorted before l -> In p l -> lookup (map tag l) (v_expiry p, yt (v_expiry p)) = Ok (row_for p p (v_expiry p)).
  Proof.
    intros S I. apply in_split in I as (l1 & l2 & ->). destruct (sorted_split _ _ _ S) as [A C]. unfold lookup. cbn [fst snd].
    rewrite lower_at, upper_at by (auto; apply Z.le_refl). reflexivity.
  Qed.
  Lemma lookup_between (l : list vol_pillar) (p q : vol_pillar) (d : date) : StronglySorted before l -> consecutive p q l -> (v_expiry p < d < v_expiry q)%Z ->
    lookup (map tag l) (d, yt d) = Ok (row_for p q d).
  Proof.
    intros S (l1 & l2 & ->) D. destruct (sorted_split l1 (q :: l2) p S) as [A C].
    assert (S2 : StronglySorted before ((l1 ++ [p]) ++ q :: l2)) by (rewrite <- app_assoc; exact S). destruct (sorted_split _ _ _ S2) as [A2 C2].
    unfold lookup. cbn [fst snd]. rewrite lower_at.
    - replace (l1 ++ p :: q :: l2) with ((l1 ++ [p]) ++ q :: l2) by (rewrite <- app_assoc; reflexivity). rewrite upper_at; [reflexivity | lia | ].
      intros x I. apply in_app_or in I as [I | [<- | []]]; [specialize (A x I); lia | lia].
    - lia.
    - intros x [<- | I]; [lia | ]. specialize (C2 x I). lia.
  Qed.
  Lemma find_interval (l : list vol_pillar) (d : date) (p q : vol_pillar) : StronglySorted before l -> In p l -> In q l -> (v_expiry p <= d <= v_expiry q)%Z ->
    (exists r : vol_pillar, In r l /\ v_expiry r = d) \/ (exists r s : vol_pillar, consecutive r s l /\ (v_expiry r < d < v_expiry s)%Z).
  Proof.
    revert p. induction l as [ | x l IH]; intros p S P Q D; [destruct P | ]. inversion S as [ | ? ? S' F]; subst. rewrite Forall_forall in F.
    destruct (Z.eq_dec (v_expiry x) d) as [E | E]; [left; exists x; split; [left; auto | auto] | ].
    assert (X : (v_expiry x < d)%Z). { destruct P as [-> | P]; [lia | ]. specialize (F p P). unfold before in F. lia. }
    assert (Q' : In q l) by (destruct Q as [-> | Q]; [lia | auto]).
    destruct l as [ | y l]; [destruct Q' | ]. destruct (Z_lt_le_dec d (v_expiry y)) as [L | L].
    - right. exists x, y. split; [exists [], l; reflexivity | lia].
    - destruct (IH y S' (or_introl eq_refl) Q' ltac:(lia)) as [(r & R1 & R2) | (r & s & (l1 & l2 & R1) & R2)].
      + left. exists r. split; [right; auto | auto].
      + right. exists r, s. split; [exists (x :: l1), l2; cbn; rewrite R1; reflexivity | auto].
  Qed.

  Lemma days_nth (x y : date) (i : nat) : (i < Z.to_nat (y - x + 1))%nat -> nth_error (days_from x y) i = Some (x + Z.of_nat i)%Z.
  Proof.
    intros L. unfold days_from. rewrite (map_nth_error _ i (seq 0 (Z.to_nat (y - x + 1))) (d := i)); auto.
    rewrite (nth_error_nth' (seq 0 (Z.to_nat (y - x + 1))) 0%nat) by (rewrite seq_length; auto). now rewrite seq_nth.
  Qed.
  Lemma days_length (x y : date) : length (days_from x y) = Z.to_nat (y - x + 1).
  Proof. unfold days_from. now rewrite map_length, seq_length. Qed.
  Lemma days_in (x y d : date) : In d (days_from x y) <-> (x <= d <= y)%Z.
  Proof.
    unfold days_from. rewrite in_map_iff. split.
    - intros (i & <- & I). apply in_seq in I. lia.
    - intros D. exists (Z.to_nat (d - x)). split; [lia | ]. apply in_seq. lia.
  Qed.
  Lemma last_in {A} (p : A) (r : list A) : In (last r p) (p :: r).
  Proof. induction r as [ | y [ | z r] IH]; [left; auto | right; left; auto | ]. destruct IH as [E | E]; [left; exact E | right; right; exact E]. Qed.
  Lemma min_first (p : vol_pillar) (r : list vol_pillar) : StronglySorted before (p :: r) -> fold_right Z.min (v_expiry p) (map v_expiry r) = v_expiry p.
  Proof.
    intros S. inversion S as [ | ? ? _ F]; subst. rewrite Forall_forall in F. clear S. induction r as [ | x r IH]; cbn; auto.
    rewrite IH by (intros y I; apply F; right; auto). specialize (F x (or_introl eq_refl)). unfold before in F. lia.
  Qed.
  Lemma max_last (p : vol_pillar) (r : list vol_pillar) : StronglySorted before (p :: r) -> fold_right Z.max (v_expiry p) (map v_expiry r) = v_expiry (last r p).
  Proof.
    revert p. induction r as [ | x r IH]; intros p S; cbn [map fold_right]; auto. inversion S as [ | ? ? S' F]; subst. rewrite Forall_forall in F.
    assert (E : fold_right Z.max (v_expiry p) (map v_expiry r) = Z.max (v_expiry p) (fold_right Z.max (v_expiry p) (map v_expiry r))).
    { clear. induction r as [ | y r IH]; cbn; lia. }
    assert (G : forall (z : Z) (m : list Z), Z.max z (fold_right Z.max (v_expiry p) m) = Z.max (v_expiry p) (fold_right Z.max z m)).
    { clear. intros z. induction m as [ | y m IH]; cbn; lia. }
    rewrite G, (IH x S'). assert (X : In (last r x) (x :: r)) by apply last_in.
    specialize (F (last r x) X). unfold before in F. replace (last (x :: r) p) with (last r x).
    - lia.
    - clear. revert x p. induction r as [ | y r IH]; intros x p; [reflexivity | ]. cbn [last]. destruct r; [reflexivity | apply IH].
  Qed.
  Lemma keys_sorted_ok (l : list vol_pillar) : StronglySorted before l -> keys_sorted l = true.
  Proof.
    induction 1 as [ | x l S IH F]; cbn; auto. destruct l as [ | y l]; auto. inversion F as [ | ? ? G _]; subst. unfold before in G.
    rewrite (proj2 (Z.leb_le _ _)) by lia. exact IH.
  Qed.
  Lemma combine_map_tag (l : list vol_pillar) : combine l (map yt (map v_expiry l)) = map tag l.
  Proof. induction l as [ | x l IH]; cbn; auto. rewrite IH. reflexivity. Qed.
  Lemma sequence_map {A C} (f : A -> result C) (g : A -> C) (l : list A) : (forall x : A, In x l -> f x = Ok (g x)) -> sequence (map f l) = Ok (map g l).
  Proof. induction l as [ | x l IH]; cbn; intros H; auto. rewrite (H x) by auto. cbn. rewrite IH by auto. reflexivity. Qed.

  (* the row built for a day *)
  Definition row_of (l : list vol_pillar) (d : date) : ff_row := match lookup (map tag l) (d, yt d) with Ok r => r | Err _ => row_for (mk_pillar d []) (mk_pillar d []) d end.
  Lemma daily_run (p : vol_pillar) (r : list vol_pillar) : StronglySorted before (p :: r) -> (c <= v_expiry p)%Z ->
    let ds := days_from (v_expiry p) (v_expiry (last r p)) in
    daily_vols c b (p :: r) = (let* vols := flat_forward_interp (FfRows (map (row_of (p :: r)) ds)) in Ok (combine (combine ds (map yt ds)) vols)).
  Proof.
    intros S C ds. unfold daily_vols. rewrite (min_first p r S), (max_last p r S). fold ds.
    assert (IL : In (last r p) (p :: r)) by apply last_in.
    assert (LE : (v_expiry p <= v_expiry (last r p))%Z).
    { destruct IL as [<- | IL]; [lia | ]. inversion S as [ | ? ? _ F]; subst. rewrite Forall_forall in F. specialize (F _ IL). unfold before in F. lia. }
    assert (Y1 : years_column [c] ds b (length ds) = Ok (map yt ds)).
    { apply years_column_ok; [apply strict_plain; exact B | | ].
      - intros E. assert (I : In (v_expiry p) ds) by (apply days_in; lia). rewrite E in I. destruct I.
      - intros d I. apply days_in in I. apply (Z.le_trans c (v_expiry p) d C). lia. }
    assert (Y2 : years_column [c] (map v_expiry (p :: r)) b (length (p :: r)) = Ok (map yt (map v_expiry (p :: r)))).
    { rewrite <- (map_length v_expiry (p :: r)). apply years_column_ok; [apply strict_plain; exact B | discriminate | ].
      intros d I. apply in_map_iff in I as (q & <- & I). destruct I as [<- | I]; auto. inversion S as [ | ? ? _ F]; subst. rewrite Forall_forall in F. specialize (F _ I). unfold before in F.
      apply (Z.le_trans c (v_expiry p) (v_expiry q) C). lia. }
    rewrite Y1. cbn [bind]. rewrite Y2. cbn [bind]. rewrite (keys_sorted_ok _ S). cbn [guard bind]. rewrite combine_map_tag.
    fold (lookup (map tag (p :: r))). change (fun x : date * R => lookup (map tag (p :: r)) x) with (lookup (map tag (p :: r))).
    rewrite (sequence_map (lookup (map tag (p :: r))) (fun x => row_of (p :: r) (fst x))).
    - cbn [bind]. replace (map (fun x : date * R => row_of (p :: r) (fst x)) (combine ds (map yt ds))) with (map (row_of (p :: r)) ds); [reflexivity | ].
      clear. induction ds as [ | d ds IH]; cbn; auto. rewrite IH. reflexivity.
    - intros [d t] I. assert (T : t = yt d).
      { clear -I. induction ds as [ | e ds IH]; cbn in I; [destruct I | ]. destruct I as [I | I]; [congruence | auto]. }
      subst t. apply in_combine_l in I. apply days_in in I. cbn [fst]. unfold row_of.
      destruct (find_interval (p :: r) d p (last r p) S (or_introl eq_refl) IL I) as [(q & Q1 & Q2) | (q & s & Q1 & Q2)].
      + rewrite <- Q2. rewrite (lookup_pillar _ q S Q1). reflexivity.
      + rewrite (lookup_between _ q s d S Q1 Q2). reflexivity.
  Qed.

  Lemma row_pillar (l : list vol_pillar) (p : vol_pillar) : StronglySorted before l -> In p l -> row_of l (v_expiry p) = row_for p p (v_expiry p).
  Proof. intros S I. unfold row_of. rewrite (lookup_pillar l p S I). reflexivity. Qed.
  Lemma row_between (l : list vol_pillar) (p q : vol_pillar) (d : date) : StronglySorted before l -> consecutive p q l -> (v_expiry p < d < v_expiry q)%Z -> row_of l d = row_for p q d.
  Proof. intros S Q D. unfold row_of. rewrite (lookup_between l p q d S Q D). reflexivity. Qed.

  (* no total variance falls between consecutive pillars with a day in between *)
  Definition rising (l : list vol_pillar) : Prop :=
    forall p q : vol_pillar, consecutive p q l -> (v_expiry p + 1 < v_expiry q)%Z -> forall x y : R, In (x, y) (combine (v_vols p) (v_vols q)) -> tv x (yt (v_expiry p)) <= tv y (yt (v_expiry q)).
  Lemma first_le (p : vol_pillar) (r : list vol_pillar) (q : vol_pillar) : StronglySorted before (p :: r) -> In q (p :: r) -> (v_expiry p <= v_expiry q)%Z.
  Proof. intros S [<- | I]; [lia | ]. inversion S as [ | ? ? _ F]; subst. rewrite Forall_forall in F. specialize (F q I). unfold before in F. lia. Qed.
  Lemma le_last (p : vol_pillar) (r : list vol_pillar) (q : vol_pillar) : StronglySorted before (p :: r) -> In q (p :: r) -> (v_expiry q <= v_expiry (last r p))%Z.
  Proof.
    revert p q. induction r as [ | x r IH]; intros p q S I; [destruct I as [<- | []]; cbn; lia | ]. inversion S as [ | ? ? S' F]; subst.
    assert (E : last (x :: r) p = last r x). { clear. revert x p. induction r as [ | y r IH]; intros x p; [reflexivity | ]. cbn [last]. destruct r; [reflexivity | apply IH]. }
    rewrite E. destruct I as [<- | I]; [ | apply IH; auto]. specialize (IH x x S' (or_introl eq_refl)). rewrite Forall_forall in F. specialize (F x (or_introl eq_refl)). unfold before in F. lia.
  Qed.
  Lemma consecutive_in {A} (p q : A) (l : list A) : consecutive p q l -> In p l /\ In q l.
  Proof. intros (l1 & l2 & ->). split; apply in_or_app; right; [left | right; left]; auto. Qed.

  Lemma rows_usable (p : vol_pillar) (r : list vol_pillar) : StronglySorted before (p :: r) -> (c <= v_expiry p)%Z ->
    (rising (p :: r) <-> forall x : ff_row, In x (map (row_of (p :: r)) (days_from (v_expiry p) (v_expiry (last r p)))) -> usable x).
  Proof.
    intros S C. split.
    - intros R x I. apply in_map_iff in I as (d & <- & I). apply days_in in I.
      assert (IL : In (last r p) (p :: r)) by apply last_in.
      destruct (find_interval (p :: r) d p (last r p) S (or_introl eq_refl) IL I) as [(q & Q1 & <-) | (q & s & Q1 & Q2)].
      + rewrite row_pillar by auto. split; cbn; [lra | intros; lra].
      + rewrite (row_between _ q s d S Q1 Q2). destruct (consecutive_in _ _ _ Q1) as [I1 I2]. pose proof (first_le p r q S I1) as L1.
        split; cbn [row_for f_t1 f_t2 f_vols].
        * apply Rlt_le. apply yf1_strict; auto. split; [apply (Z.le_trans c (v_expiry p) _ C L1) | lia].
        * intros _ [x y] P. apply (R q s Q1); auto. lia.
    - intros U q s Q1 G x y P. destruct (consecutive_in _ _ _ Q1) as [I1 I2]. pose proof (first_le p r q S I1) as L1. pose proof (le_last p r s S I2) as L2.
      set (d := (v_expiry q + 1)%Z). assert (D : (v_expiry q < d < v_expiry s)%Z) by (unfold d; lia).
      assert (X : usable (row_of (p :: r) d)) by (apply U; apply in_map; apply days_in; lia).
      rewrite (row_between _ q s d S Q1 D) in X. destruct X as [_ X]. apply (X (yf1_strict b c (v_expiry q) (v_expiry s) B ltac:(split; [apply (Z.le_trans c (v_expiry p) _ C L1) | lia])) (x, y) P).
  Qed.

  Lemma year_fraction_is (d : date) (t : R) : year_fraction b c d t -> (c <= d)%Z -> t = yt d.
  Proof. intros (q & E & ->) L. rewrite yf1_scalar in E by (auto; apply (strict_plain b B)). injection E as <-. reflexivity. Qed.
  Lemma nth_error_combine {X Y} (l : list X) (m : list Y) (i : nat) (x : X) (y : Y) : nth_error l i = Some x -> nth_error m i = Some y -> nth_error (combine l m) i = Some (x, y).
  Proof. revert m i. induction l as [ | a l IH]; intros [ | a' m] [ | i] E1 E2; try discriminate; cbn in *; [congruence | auto]. Qed.
  Lemma nth_error_combine_inv {X Y} (l : list X) (m : list Y) (i : nat) (x : X) (y : Y) : nth_error (combine l m) i = Some (x, y) -> nth_error l i = Some x /\ nth_error m i = Some y.
  Proof. revert m i. induction l as [ | a l IH]; intros [ | a' m] [ | i] E; try discriminate; cbn in *; [injection E as -> ->; auto | auto]. Qed.

  Lemma yt_zero : yt c = 0.
  Proof.
    unfold yt. pose proof (yf1_nonneg b c c (strict_plain b B) (Z.le_refl c)) as P.
    destruct B as [-> | [-> | [-> | ->]]].
    1-3: unfold yf1, DayCountModel.dc_act; rewrite Z.sub_diag; unfold Q2R; cbn; lra.
    unfold yf1. assert (E : (yf_act_act c c == 0)%Q) by (rewrite DayCountProofs.yf_act_act_pos; ring). rewrite (Qeq_eqR _ _ E). unfold Q2R. cbn. lra.
  Qed.

  Lemma daily_ok (w : nat) (p : vol_pillar) (r : list vol_pillar) : good_pillars w (p :: r) -> (c <= v_expiry p)%Z -> rising (p :: r) ->
    exists rows, daily_vols c b (p :: r) = Ok rows /\ length rows = Z.to_nat (v_expiry (last r p) - v_expiry p + 1) /\
    forall (i : nat) (d : date) (t : R) (vols : list num), nth_error rows i = Some (d, t, vols) ->
      d = (v_expiry p + Z.of_nat i)%Z /\ t = yt d /\ length vols = w
      /\ (forall q : vol_pillar, In q (p :: r) -> v_expiry q = d -> 0 < t -> vols = map Fin (v_vols q))
      /\ (forall (q s : vol_pillar) (j : nat) (x y : R), consecutive q s (p :: r) -> (v_expiry q < d < v_expiry s)%Z -> nth_error (v_vols q) j = Some x -> nth_error (v_vols s) j = Some y ->
          exists v, nth_error vols j = Some (Fin v) /\ 0 <= v /\ (tv v t - tv x (yt (v_expiry q))) * (yt (v_expiry s) - yt (v_expiry q)) = (tv y (yt (v_expiry s)) - tv x (yt (v_expiry q))) * (t - yt (v_expiry q)))
      /\ (d = c -> forall v : num, In v vols -> v = NaN).
  Proof.
    intros [S W] C RI. pose proof (proj1 (rows_usable p r S C) RI) as U. set (ds := days_from (v_expiry p) (v_expiry (last r p))) in *.
    pose proof (daily_run p r S C) as E. cbv zeta in E. fold ds in E. rewrite (proj1 (ff_cases _) U) in E. cbn [bind] in E. rewrite map_map in E.
    eexists. split; [exact E | ]. split. { rewrite !combine_length, !map_length. unfold ds. rewrite days_length, !Nat.min_id. reflexivity. }
    intros i d t vols N. apply nth_error_combine_inv in N as [N V]. apply nth_error_combine_inv in N as [ND NT].
    assert (Li : (i < Z.to_nat (v_expiry (last r p) - v_expiry p + 1))%nat) by (rewrite <- days_length; apply nth_error_Some; unfold ds in ND; congruence).
    assert (T : t = yt d) by (rewrite (map_nth_error yt i ds ND) in NT; congruence). rewrite (map_nth_error _ i ds ND) in V. injection V as <-.
    assert (D : d = (v_expiry p + Z.of_nat i)%Z) by (unfold ds in ND; rewrite days_nth in ND by auto; congruence).
    assert (ID : In d ds) by (eapply nth_error_In; exact ND). assert (UD : usable (row_of (p :: r) d)) by (apply U; apply in_map; exact ID).
    assert (IR : (v_expiry p <= d <= v_expiry (last r p))%Z) by (apply days_in; exact ID).
    assert (IL : In (last r p) (p :: r)) by apply last_in.
    split; [exact D | ]. split; [exact T | ]. subst t. split; [ | split; [ | split]].
    - rewrite map_length. destruct (find_interval (p :: r) d p (last r p) S (or_introl eq_refl) IL IR) as [(q & Q1 & Q2) | (q & s & Q1 & Q2)].
      + rewrite <- Q2, row_pillar by auto. cbn. rewrite combine_length. destruct (W q Q1) as [-> _]. apply Nat.min_id.
      + rewrite (row_between _ q s d S Q1 Q2). cbn. rewrite combine_length. destruct (consecutive_in _ _ _ Q1) as [I1 I2]. destruct (W q I1) as [-> _]. destruct (W s I2) as [-> _]. apply Nat.min_id.
    - intros q I Q P. assert (ER : row_of (p :: r) d = row_for q q d) by (rewrite <- Q; apply row_pillar; auto). rewrite ER in *. cbn [row_for f_vols].
      destruct (W q I) as [_ NN]. assert (G : forall x y : R, In (x, y) (combine (v_vols q) (v_vols q)) -> ff_elem (row_for q q d) (x, y) = Fin x).
      { intros x y P2. destruct (ff_at_pillars (row_for q q d) (x, y) UD P2) as [A _]; [exact P | | | ].
        - apply NN. apply in_combine_l in P2. exact P2.
        - apply NN. apply in_combine_r in P2. exact P2.
        - apply A. cbn. rewrite Q. reflexivity. }
      clear -G. induction (v_vols q) as [ | x l IH]; cbn; auto. rewrite (G x x) by (left; auto). f_equal. apply IH. intros y z I. apply G. right. exact I.
    - intros q s j x y Q1 Q2 X Y. rewrite (row_between _ q s d S Q1 Q2) in *. destruct (consecutive_in _ _ _ Q1) as [I1 I2]. pose proof (first_le p r q S I1) as L1.
      assert (CQ : (c <= v_expiry q)%Z) by (apply (Z.le_trans c (v_expiry p) _ C L1)).
      pose proof (yf1_strict b c (v_expiry q) d B ltac:(split; [exact CQ | lia])) as T1. pose proof (yf1_strict b c d (v_expiry s) B ltac:(split; [apply (Z.le_trans _ _ d CQ); lia | lia])) as T2.
      pose proof (yf1_nonneg b c (v_expiry q) (strict_plain b B) CQ) as T0. fold (yt (v_expiry q)) in T0, T1. fold (yt (v_expiry s)) in T2. fold (yt d) in T1, T2.
      assert (NC : nth_error (combine (v_vols q) (v_vols s)) j = Some (x, y)) by (apply nth_error_combine; auto).
      set (wt := tv x (yt (v_expiry q)) + (tv y (yt (v_expiry s)) - tv x (yt (v_expiry q))) * ((yt d - yt (v_expiry q)) / (yt (v_expiry s) - yt (v_expiry q)))).
      assert (LN : (wt - tv x (yt (v_expiry q))) * (yt (v_expiry s) - yt (v_expiry q)) = (tv y (yt (v_expiry s)) - tv x (yt (v_expiry q))) * (yt d - yt (v_expiry q))) by (unfold wt; field; lra).
      assert (IN : In (x, y) (f_vols (row_for q s d))) by (eapply nth_error_In; exact NC).
      destruct (ff_elem_spec (row_for q s d) (x, y) wt UD IN) as [H _]. { split; cbn; [intros _; exact LN | intros; lra]. }
      assert (W0 : 0 <= wt).
      { pose proof (proj2 UD ltac:(cbn; lra) (x, y) IN) as RS. cbn in RS. pose proof (tv_nonneg x (yt (v_expiry q)) T0).
        assert (0 <= (yt d - yt (v_expiry q)) / (yt (v_expiry s) - yt (v_expiry q))) by (apply Rmult_le_pos; [lra | left; apply Rinv_0_lt_compat; lra]).
        unfold wt. assert (0 <= (tv y (yt (v_expiry s)) - tv x (yt (v_expiry q))) * ((yt d - yt (v_expiry q)) / (yt (v_expiry s) - yt (v_expiry q)))) by (apply Rmult_le_pos; lra). lra. }
      destruct H as (v & V & V0 & V1). { split; [cbn; lra | exact W0]. }
      exists v. split; [ | split; [exact V0 | cbn in V1; rewrite V1; exact LN]]. cbn [row_for f_vols]. rewrite (map_nth_error (ff_elem (row_for q s d)) j _ NC), V. reflexivity.
    - intros DC v IV. assert (EP : v_expiry p = d) by (rewrite DC in *; apply Z.le_antisymm; [exact (proj1 IR) | exact C]).
      rewrite <- EP, row_pillar in IV by (auto; left; auto). apply in_map_iff in IV as ((x & y) & <- & IV). cbn in IV.
      assert (U' : usable (row_for p p (v_expiry p))) by (rewrite <- (row_pillar (p :: r) p S (or_introl eq_refl)), EP; exact UD).
      assert (Z : yt (v_expiry p) = 0) by (rewrite EP, DC; exact yt_zero).
      destruct (ff_elem_spec (row_for p p (v_expiry p)) (x, y) (tv x 0) U' IV) as (_ & _ & _ & H). { split; cbn; rewrite Z; [intros; lra | auto]. }
      apply H. split; [exact Z | unfold tv; lra].
  Qed.
  Lemma daily_fails (p : vol_pillar) (r : list vol_pillar) : StronglySorted before (p :: r) -> (c <= v_expiry p)%Z -> ~ rising (p :: r) -> daily_vols c b (p :: r) = Err ValueError.
  Proof.
    intros S C R. pose proof (daily_run p r S C) as E. cbv zeta in E. rewrite E. rewrite (rows_usable p r S C) in R.
    set (rows := map (row_of (p :: r)) (days_from (v_expiry p) (v_expiry (last r p)))) in *.
    rewrite (proj2 (ff_cases rows)); [reflexivity | ]. apply Classical_Prop.NNPP. intros N. apply R. intros x I. apply Classical_Prop.NNPP. intros U. apply N. exists x. auto.
  Qed.
End Daily.

Lemma keys_unsorted (p q : vol_pillar) (l : list vol_pillar) : consecutive p q l -> (v_expiry q < v_expiry p)%Z -> keys_sorted l = false.
Proof.
  intros (l1 & l2 & ->) L. induction l1 as [ | x l1 IH].
  - cbn. rewrite (proj2 (Z.leb_gt _ _)) by lia. reflexivity.
  - cbn [app keys_sorted]. destruct (l1 ++ p :: q :: l2) as [ | y m] eqn:E; [destruct l1; discriminate | ]. rewrite IH. apply andb_false_r.
Qed.
Lemma daily_unsorted (c : date) (b : basis) (l : list vol_pillar) (p q : vol_pillar) : strict_basis b -> (forall x : vol_pillar, In x l -> (c <= v_expiry x)%Z) ->
  consecutive p q l -> (v_expiry q < v_expiry p)%Z -> daily_vols c b l = Err ValueError.
Proof.
  intros B C Q L. pose proof (keys_unsorted p q l Q L) as K. destruct l as [ | x l]; [reflexivity | ]. unfold daily_vols.
  set (lo := fold_right Z.min _ _). set (hi := fold_right Z.max _ _).
  assert (LO : (lo <= v_expiry x <= hi)%Z).
  { unfold lo, hi. clear. induction l as [ | y l IH]; cbn; lia. }
  assert (CL : (c <= lo)%Z).
  { unfold lo. assert (G : forall y : vol_pillar, In y l -> (c <= v_expiry y)%Z) by (intros y I; apply C; right; auto). pose proof (C x (or_introl eq_refl)) as CX. clear -G CX.
    induction l as [ | y l IH]; cbn; auto. apply Z.min_glb; [apply G; left; auto | apply IH; intros z I; apply G; right; auto]. }
  rewrite years_column_ok; [ | apply strict_plain; exact B | | ].
  - cbn [bind]. rewrite <- (map_length v_expiry (x :: l)). rewrite years_column_ok; [ | apply strict_plain; exact B | discriminate | ].
    + cbn [bind]. rewrite K. reflexivity.
    + intros d I. apply in_map_iff in I as (y & <- & I). apply C. exact I.
  - intros E. assert (I : In lo (days_from lo hi)) by (apply days_in; lia). rewrite E in I. destruct I.
  - intros d I. apply days_in in I. apply (Z.le_trans c lo d CL). lia.
Qed.

Lemma rising_iff (c : date) (b : basis) (p : vol_pillar) (r : list vol_pillar) : strict_basis b -> StronglySorted before (p :: r) -> (c <= v_expiry p)%Z ->
  (variance_rises c b (p :: r) <-> rising c b (p :: r)).
Proof.
  intros B S C. assert (G : forall q : vol_pillar, In q (p :: r) -> (c <= v_expiry q)%Z) by (intros q I; apply (Z.le_trans c (v_expiry p) _ C); apply (first_le p r q S I)).
  split.
  - intros V q s Q D x y I. destruct (consecutive_in _ _ _ Q) as [I1 I2]. apply (V q s _ _ x y Q D); auto; apply year_fraction_yf1; auto; apply strict_plain; exact B.
  - intros V q s tq ts x y Q D F1 F2 I. destruct (consecutive_in _ _ _ Q) as [I1 I2].
    rewrite (year_fraction_is c b B _ _ F1 (G q I1)), (year_fraction_is c b B _ _ F2 (G s I2)). exact (V q s Q D x y I).
Qed.
Lemma daily_surface (c : date) (b : basis) (w : nat) (p : vol_pillar) (r : list vol_pillar) : strict_basis b -> good_pillars w (p :: r) -> (c <= v_expiry p)%Z -> variance_rises c b (p :: r) ->
  exists rows, daily_vols c b (p :: r) = Ok rows /\ length rows = Z.to_nat (v_expiry (last r p) - v_expiry p + 1) /\
  forall (i : nat) (d : date) (t : R) (vols : list num), nth_error rows i = Some (d, t, vols) ->
    d = (v_expiry p + Z.of_nat i)%Z /\ year_fraction b c d t /\ length vols = w
    /\ (forall q : vol_pillar, In q (p :: r) -> v_expiry q = d -> (c < d)%Z -> vols = map Fin (v_vols q))
    /\ (forall (q s : vol_pillar) (j : nat) (x y tq ts : R), consecutive q s (p :: r) -> (v_expiry q < d < v_expiry s)%Z -> nth_error (v_vols q) j = Some x -> nth_error (v_vols s) j = Some y ->
        year_fraction b c (v_expiry q) tq -> year_fraction b c (v_expiry s) ts -> tq < ts /\
        exists v, nth_error vols j = Some (Fin v) /\ 0 <= v /\ line tq x ts y t (tv v t))
    /\ (d = c -> forall v : num, In v vols -> v = NaN).
Proof.
  intros B G C V. pose proof (proj1 G) as S. destruct (daily_ok c b B w p r G C (proj1 (rising_iff c b p r B S C) V)) as (rows & E & L & H). exists rows. split; auto. split; auto.
  intros i d t vols N. destruct (H i d t vols N) as (D & T & LN & H1 & H2 & H3). assert (CD : (c <= d)%Z) by (rewrite D; apply (Z.le_trans c (v_expiry p) _ C); lia).
  split; [exact D | ]. split; [rewrite T; apply year_fraction_yf1; [apply strict_plain; exact B | exact CD] | ]. split; [exact LN | ]. split; [ | split; [ | exact H3]].
  - intros q I Q CL. apply H1; auto. rewrite T, <- (yt_zero c b B). apply yf1_strict; [exact B | ]. split; [apply Z.le_refl | exact CL].
  - intros q s j x y tq ts Q DD X Y F1 F2. destruct (consecutive_in _ _ _ Q) as [I1 I2].
    assert (C1 : (c <= v_expiry q)%Z) by (apply (Z.le_trans c (v_expiry p) _ C); apply (first_le p r q S I1)). assert (C2 : (c <= v_expiry s)%Z) by (apply (Z.le_trans c (v_expiry p) _ C); apply (first_le p r s S I2)).
    rewrite (year_fraction_is c b B _ _ F1 C1), (year_fraction_is c b B _ _ F2 C2).
    assert (LT : yt c b (v_expiry q) < yt c b (v_expiry s)) by (apply yf1_strict; [exact B | split; [exact C1 | lia]]). split; [exact LT | ].
    destruct (H2 q s j x y Q DD X Y) as (v & A1 & A2 & A3). exists v. split; auto. split; auto. split; [intros _; exact A3 | intros; lra].
Qed.
Lemma daily_refused (c : date) (b : basis) (w : nat) (p : vol_pillar) (r : list vol_pillar) : strict_basis b -> good_pillars w (p :: r) -> (c <= v_expiry p)%Z -> ~ variance_rises c b (p :: r) ->
  daily_vols c b (p :: r) = Err ValueError.
Proof. intros B [S _] C V. apply daily_fails; auto. rewrite <- (rising_iff c b p r B S C). exact V. Qed.
