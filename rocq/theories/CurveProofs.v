From Coq Require Import String ZArith QArith Qreals Reals Lra Lia List Bool Permutation Sorted.
From Verif Require Import Base Date DateProofs BusDayModel DayCountModel DayCountSpec DayCountProofs TenorModel ScheduleModel ScheduleProofs
  LegModel LegProofs NumModel CompModel CompSpec CompProofs CurveModel CurveSpec.
Import ListNotations.
Open Scope R_scope.

(* ---- year fractions from the curve date ---- *)
Definition yf1 (b : basis) (x y : date) : Q :=
  match b with
  | ACT_360 => inject_Z (dc_act x y) / 360
  | ACT_365 => inject_Z (dc_act x y) / 365
  | ACT_366 => inject_Z (dc_act x y) / 366
  | ACT_ACT => yf_act_act x y
  | B30_360 => inject_Z (dc_30_360 x y) / 360
  | B30E_360 => inject_Z (dc_30E_360 x y) / 360
  | B30E_360_ISDA => inject_Z (dc_30E_360_isda x y true) / 360
  | OtherBasis => 0
  end%Q.

Lemma yf1_scalar b (x y : date) : b <> OtherBasis -> (x <= y)%Z -> year_frac [x] [y] b None = Ok (Scalar (yf1 b x y)).
Proof.
  intros NB L. assert (E : (x <=? y)%Z = true) by (apply Z.leb_le; exact L).
  destruct b; try contradiction; cbn; rewrite E; reflexivity.
Qed.
Lemma year_frac_scalar_le b (x y : date) o : year_frac [x] [y] b None = Ok o -> (x <= y)%Z.
Proof.
  intros H. destruct (Z.leb_spec x y) as [L|L]; [exact L|]. exfalso.
  assert (E : (x <=? y)%Z = false) by (apply Z.leb_gt; exact L).
  destruct b; cbn in H; rewrite ?E in H; discriminate.
Qed.

Lemma year_frac_repeat (c : date) (l : list date) b : (2 <= length l)%nat -> year_frac [c] l b None = year_frac (repeat c (length l)) l b None.
Proof.
  intros L. assert (E : same_shape [c] l = same_shape (repeat c (length l)) l).
  { destruct l as [|x [|y l]]; cbn in L; try lia. reflexivity. }
  unfold year_frac, day_count. rewrite E. reflexivity.
Qed.

Lemma bad_pair_repeat (c : date) (l : list date) : (forall d, In d l -> (c <= d)%Z) -> ~ bad_pair (repeat c (length l)) l.
Proof.
  intros H (i & x & y & Hx & Hy & L). apply nth_error_In in Hx. apply repeat_spec in Hx. subst. apply nth_error_In in Hy. specialize (H y Hy). lia.
Qed.

Lemma year_frac_all_le (c : date) (l : list date) b o : year_frac [c] l b None = Ok o -> forall d, In d l -> (c <= d)%Z.
Proof.
  intros H d I. destruct l as [|x [|y l]]; [destruct I| |].
  - destruct I as [<-|[]]. exact (year_frac_scalar_le _ _ _ _ H).
  - set (m := x :: y :: l) in *. rewrite year_frac_repeat in H by (cbn; lia).
    destruct (Z.leb_spec c d) as [L|L]; [exact L|]. exfalso.
    apply In_nth_error in I as [i E].
    assert (B : bad_pair (repeat c (length m)) m).
    { exists i, c, d. split; [|split; [exact E|exact L]]. rewrite nth_error_repeat; [reflexivity|]. apply nth_error_Some. congruence. }
    assert (LE : length (repeat c (length m)) = length m) by apply repeat_length.
    destruct b; try (rewrite year_frac_reversed in H by (assumption || discriminate); discriminate).
Qed.

Lemma year_frac_nonempty (c : date) b o : year_frac [c] [] b None <> Ok o.
Proof. destruct b; discriminate. Qed.

(* lengths, for every basis *)
Lemma year_frac_length (c : date) (l : list date) b o : year_frac [c] l b None = Ok o -> length (out_list (length l) o) = length l.
Proof.
  intros H. pose proof (year_frac_all_le _ _ _ _ H) as LE. destruct l as [|x [|y l]].
  - destruct (year_frac_nonempty _ _ _ H).
  - destruct (Z.leb_spec c x) as [L|L]; [|specialize (LE x (or_introl eq_refl)); lia].
    assert (b <> OtherBasis) by (intros ->; discriminate).
    rewrite yf1_scalar in H by assumption. injection H as <-. reflexivity.
  - set (m := x :: y :: l) in *. rewrite year_frac_repeat in H by (cbn; lia).
    assert (b <> OtherBasis) by (intros ->; discriminate).
    destruct (year_frac_vector (repeat c (length m)) m b) as (r & E & L & _); try assumption.
    { apply repeat_length. } { rewrite repeat_length. cbn. lia. } { apply bad_pair_repeat. exact LE. }
    rewrite E in H. injection H as <-. cbn [out_list]. rewrite L. apply repeat_length.
Qed.
Lemma day_count_length (c : date) (l : list date) b o y : year_frac [c] l b None = Ok y -> day_count [c] l b None = Ok o -> length (out_list (length l) o) = length l.
Proof.
  intros Y H. pose proof (year_frac_all_le _ _ _ _ Y) as LE. assert (b <> OtherBasis) by (intros ->; discriminate).
  destruct l as [|x [|z l]].
  - destruct (year_frac_nonempty _ _ _ Y).
  - assert (L : (c <=? x)%Z = true) by (apply Z.leb_le; apply LE; left; reflexivity).
    destruct b; try contradiction; cbn in H; rewrite L in H; injection H as <-; reflexivity.
  - set (m := x :: z :: l) in *.
    rewrite day_count_broadcast_start in H by (cbn; lia).
    destruct (day_count_vector (repeat c (length m)) m b) as (r & E & L & _); try assumption.
    { apply repeat_length. } { rewrite repeat_length. cbn. lia. } { apply bad_pair_repeat. exact LE. }
    rewrite E in H. injection H as <-. cbn [out_list]. rewrite L. apply repeat_length.
Qed.
Lemma day_count_ok (c : date) (l : list date) b y : year_frac [c] l b None = Ok y -> exists o, day_count [c] l b None = Ok o.
Proof.
  intros Y. pose proof (year_frac_all_le _ _ _ _ Y) as LE. assert (b <> OtherBasis) by (intros ->; discriminate).
  destruct l as [|x [|z l]].
  - destruct (year_frac_nonempty _ _ _ Y).
  - assert (L : (c <=? x)%Z = true) by (apply Z.leb_le; apply LE; left; reflexivity).
    destruct b; cbn; rewrite L; try contradiction; eexists; reflexivity.
  - set (m := x :: z :: l) in *.
    rewrite day_count_broadcast_start by (cbn; lia).
    destruct (day_count_vector (repeat c (length m)) m b) as (r & E & L & _); try assumption.
    { apply repeat_length. } { rewrite repeat_length. cbn. lia. } { apply bad_pair_repeat. exact LE. }
    eauto.
Qed.
Lemma year_frac_ok (c : date) (l : list date) b : b <> OtherBasis -> l <> [] -> (forall d, In d l -> (c <= d)%Z) -> exists o, year_frac [c] l b None = Ok o.
Proof.
  intros NB NE LE. destruct l as [|x [|y l]]; [congruence| |].
  - rewrite yf1_scalar; [eauto|exact NB|apply LE; left; reflexivity].
  - set (m := x :: y :: l) in *. rewrite year_frac_repeat by (cbn; lia).
    destruct (year_frac_vector (repeat c (length m)) m b) as (r & E & L & _); try assumption.
    { apply repeat_length. } { rewrite repeat_length. cbn. lia. } { apply bad_pair_repeat. exact LE. }
    eauto.
Qed.

Lemma nth_error_ext_map {A B} (f : A -> B) l m : length m = length l -> (forall i x, nth_error l i = Some x -> nth_error m i = Some (f x)) -> m = map f l.
Proof.
  revert m. induction l as [|x l IH]; intros [|y m] L H; try discriminate; [reflexivity|].
  cbn. f_equal.
  - specialize (H 0%nat x eq_refl). cbn in H. congruence.
  - apply IH; [cbn in L; lia|]. intros i z E. exact (H (S i) z E).
Qed.

(* values, for bases that do not look at the position *)
Lemma year_frac_values (c : date) (l : list date) b o : plain_basis b -> year_frac [c] l b None = Ok o -> out_list (length l) o = map (yf1 b c) l.
Proof.
  intros [N1 N2] H. pose proof (year_frac_all_le _ _ _ _ H) as LE. pose proof (year_frac_length _ _ _ _ H) as LEN. destruct l as [|x [|y l]].
  - destruct (year_frac_nonempty _ _ _ H).
  - rewrite yf1_scalar in H by (try assumption; apply LE; left; reflexivity). injection H as <-. reflexivity.
  - set (m := x :: y :: l) in *. rewrite year_frac_repeat in H by (cbn; lia).
    destruct (year_frac_vector (repeat c (length m)) m b) as (r & E & L & V); try assumption.
    { apply repeat_length. } { rewrite repeat_length. cbn. lia. } { apply bad_pair_repeat. exact LE. }
    rewrite E in H. injection H as <-. cbn [out_list] in *. apply nth_error_ext_map; [exact LEN|].
    intros i d I. destruct (V i c d) as (q & Q & S); [rewrite nth_error_repeat; [reflexivity|apply nth_error_Some; congruence]|exact I|].
    rewrite Q. f_equal. assert (K : year_frac [c] [d] b (Some [(i =? length (repeat c (length m)) - 1)%nat]) = year_frac [c] [d] b None)
      by (destruct b; try reflexivity; contradiction).
    rewrite K, yf1_scalar in S by (try assumption; apply LE; eapply nth_error_In; eassumption). congruence.
Qed.

(* ---- date ranges ---- *)
Lemma in_date_range (a e d : date) : In d (date_range a e) <-> (a <= d <= e)%Z.
Proof.
  unfold date_range. rewrite in_map_iff. split.
  - intros (i & <- & H). apply in_seq in H. lia.
  - intros H. exists (Z.to_nat (d - a)). split; [lia|]. apply in_seq. lia.
Qed.
Lemma date_range_length (a e : date) : length (date_range a e) = Z.to_nat (e - a + 1).
Proof. unfold date_range. rewrite map_length, seq_length. reflexivity. Qed.
Lemma NoDup_date_range (a e : date) : NoDup (date_range a e).
Proof.
  unfold date_range. apply FinFun.Injective_map_NoDup; [|apply seq_NoDup]. intros i j H. lia.
Qed.

(* ---- what every built curve looks like ---- *)
Definition daily_ok (z : zero_curve) : Prop :=
  map d_date (z_daily z) = date_range (z_date z) (z_last z) /\ (z_date z <= z_last z)%Z.

Lemma map_combine_fst {A B C} (g : A * B -> C) (h : A -> C) (l : list A) (m : list B) : length m = length l ->
  (forall x y, g (x, y) = h x) -> map g (combine l m) = map h l.
Proof.
  intros L E. revert m L. induction l as [|x l IH]; intros [|y m] L; try discriminate; [reflexivity|].
  cbn. rewrite E. f_equal. apply IH. cbn in L. lia.
Qed.

Lemma setup_daily_dates c b im ps s rows m : setup_daily c b im ps s = Ok (rows, m) -> map d_date rows = date_range c m /\ date_range c m <> [].
Proof.
  unfold setup_daily. intros H. apply bind_ok in H as (m' & _ & H). cbv zeta in H.
  apply bind_ok in H as (days & E1 & H). apply bind_ok in H as (years & E2 & H). injection H as <- <-.
  split.
  - pose proof (year_frac_length _ _ _ _ E2) as L2. pose proof (day_count_length _ _ _ _ _ E2 E1) as L1.
    rewrite map_map. etransitivity.
    { apply (map_combine_fst _ (fun q => fst q)); [rewrite combine_length, L1, L2; lia|]. intros [d k] t.
      destruct (daily_cells im ps s (Q2R t)); reflexivity. }
    apply combine_fst. symmetry. exact L1.
  - intros E. rewrite E in E2. exact (year_frac_nonempty _ _ _ E2).
Qed.

Lemma built_daily z : built z -> daily_ok z.
Proof.
  intros (sp & c & b & cal & im & f & freq & em & f' & H & _). unfold new_curve in H.
  apply bind_ok in H as ([[ps s] g] & _ & H). apply bind_ok in H as ([rows m] & E & H). injection H as <- _.
  apply setup_daily_dates in E as [E NE]. split; [exact E|]. cbn. destruct (Z.leb_spec c m) as [L|L]; [exact L|].
  exfalso. apply NE. unfold date_range. replace (Z.to_nat (m - c + 1)) with 0%nat by lia. reflexivity.
Qed.

Lemma built_extrap z : built z -> z_extrap z <> OtherExtrap.
Proof.
  intros (sp & c & b & cal & im & f & freq & em & f' & H & N). unfold new_curve in H.
  apply bind_ok in H as ([[ps s] g] & _ & H). apply bind_ok in H as ([rows m] & E & H). injection H as <- _. exact N.
Qed.

Lemma find_day_in (l : list daily) (d : date) : In d (map d_date l) -> exists r, find (fun r => (d_date r =? d)%Z) l = Some r /\ d_date r = d /\ In r l.
Proof.
  induction l as [|x l IH]; cbn; [tauto|]. intros [E|I].
  - rewrite E, Z.eqb_refl. eauto.
  - destruct (Z.eqb_spec (d_date x) d) as [E|N]; [eauto|]. destruct (IH I) as (r & F & E & J). eauto.
Qed.
Lemma find_day_covered z d : daily_ok z -> covered z d -> exists r, find_day z d = Some r /\ d_date r = d /\ In r (z_daily z).
Proof. intros [E L] C. apply find_day_in. rewrite E. apply in_date_range. exact C. Qed.

Lemma in_range_covered z o : in_range z o = true <-> coveredo z o.
Proof.
  unfold in_range, coveredo, covered. destruct o as [d|]; cbn; [|tauto].
  rewrite andb_true_iff, !negb_true_iff, !Z.ltb_ge. lia.
Qed.

(* ---- C39 ---- *)
Definition cell_df (z : zero_curve) (o : option date) : option R :=
  match o with Some d => match find_day z d with Some r => d_df r | None => None end | None => None end.

Lemma index_dates_dfs z ds : z_extrap z <> OtherExtrap ->
  exists l, index_dates z ds = Ok l /\ map u_df l = map (cell_df z) (filter (in_range z) ds).
Proof.
  intros N. unfold index_dates. destruct (z_extrap z); try contradiction; (eexists; split; [reflexivity|]);
  rewrite map_map; apply map_ext; intros [d|]; cbn; try reflexivity; destruct (find_day z d); reflexivity.
Qed.

Lemma vector_lookup z ds : z_extrap z <> OtherExtrap ->
  get_discount_factors z (Some (Vector ds)) None None = Ok (Vector (map (cell_df z) (filter (in_range z) ds))).
Proof.
  intros N. unfold get_discount_factors. cbn. destruct (index_dates_dfs z ds N) as (l & -> & E). cbn. rewrite E. reflexivity.
Qed.
Lemma scalar_lookup z o : z_extrap z <> OtherExtrap ->
  get_discount_factors z (Some (Scalar o)) None None = if in_range z o then Ok (Scalar (cell_df z o)) else Err IndexError.
Proof.
  intros N. unfold get_discount_factors. cbn. destruct (index_dates_dfs z [o] N) as (l & -> & E). cbn. rewrite E. cbn.
  destruct (in_range z o); reflexivity.
Qed.
Lemma days_lookup z n : z_extrap z <> OtherExtrap ->
  get_discount_factors z None (Some n) None = get_discount_factors z (Some (Scalar (Some (z_date z + n)%Z))) None None.
Proof. intros N. reflexivity. Qed.

Lemma filter_length_le {A} (f : A -> bool) l : (length (filter f l) <= length l)%nat.
Proof. induction l as [|x l IH]; cbn; [lia|]. destruct (f x); cbn; lia. Qed.
Lemma filter_length_all {A} (f : A -> bool) l : length (filter f l) = length l <-> Forall (fun x => f x = true) l.
Proof.
  induction l as [|x l IH]; cbn; [split; auto|]. pose proof (filter_length_le f l) as L. destruct (f x) eqn:E; cbn; split; intros H.
  - constructor; [exact E|]. apply IH. lia.
  - inversion H; subst. f_equal. apply IH. assumption.
  - lia.
  - inversion H; subst. congruence.
Qed.
Lemma filter_all {A} (f : A -> bool) l : Forall (fun x => f x = true) l -> filter f l = l.
Proof. induction 1 as [|x l E _ IH]; cbn; [reflexivity|]. rewrite E, IH. reflexivity. Qed.

Lemma in_range_kept z o : in_range z o = kept z o.
Proof.
  destruct (in_range z o) eqn:E; symmetry.
  - apply in_range_covered in E. destruct o as [d|]; cbn in *; [|reflexivity]. unfold covered in E. apply andb_true_iff. rewrite !Z.leb_le. exact E.
  - destruct o as [d|]; [|discriminate]. destruct (kept z (Some d)) eqn:K; [|reflexivity]. cbn in K. apply andb_true_iff in K. rewrite !Z.leb_le in K.
    assert (in_range z (Some d) = true) by (apply in_range_covered; exact K). congruence.
Qed.

Lemma Forall2_map_r {A B} (P : A -> B -> Prop) (f : A -> B) l : (forall x, In x l -> P x (f x)) -> Forall2 P l (map f l).
Proof. induction l as [|x l IH]; intros H; cbn; constructor; [apply H; left; reflexivity|]. apply IH. intros y I. apply H. right. exact I. Qed.

Lemma dropped z ds : built z -> exists l, get_discount_factors z (Some (Vector ds)) None None = Ok (Vector l) /\
  Forall2 (fun o v => get_discount_factors z (Some (Scalar o)) None None = Ok (Scalar v)) (filter (kept z) ds) l.
Proof.
  intros B. pose proof (built_extrap z B) as N. rewrite (vector_lookup z ds N). eexists. split; [reflexivity|].
  rewrite (filter_ext _ _ (in_range_kept z)). apply Forall2_map_r. intros o I. apply filter_In in I as [_ K].
  rewrite (scalar_lookup z o N), (in_range_kept z o), K. reflexivity.
Qed.
Lemma aligned_iff z ds l : built z -> get_discount_factors z (Some (Vector ds)) None None = Ok (Vector l) ->
  (length l = length ds <-> Forall (coveredo z) ds).
Proof.
  intros B H. pose proof (built_extrap z B) as N. rewrite (vector_lookup z ds N) in H. injection H as <-.
  rewrite map_length, filter_length_all, !Forall_forall. split; intros H x I; specialize (H x I); apply in_range_covered; exact H.
Qed.
Lemma outside_scalar z d : built z -> ~ covered z d -> get_discount_factors z (Some (Scalar (Some d))) None None = Err IndexError.
Proof.
  intros B C. rewrite (scalar_lookup z _ (built_extrap z B)). destruct (in_range z (Some d)) eqn:E; [|reflexivity].
  apply in_range_covered in E. contradiction.
Qed.
Lemma nat_lookup z : built z -> get_discount_factors z (Some (Scalar None)) None None = Ok (Scalar None).
Proof. intros B. rewrite (scalar_lookup z _ (built_extrap z B)). reflexivity. Qed.

(* ---- interpolation ---- *)
Definition lift (p : R * R) : R * option R := (fst p, Some (snd p)).
Definition before (p q : R * R) : Prop := fst p < fst q.

Lemma interp_from_spec l : forall p x, StronglySorted before (p :: l) -> fst p <= x ->
  exists y, interp_from (lift p) (map lift l) x = Some y /\
    (forall q, In q (p :: l) -> fst q = x -> y = snd q) /\
    (forall q r, neighbours (p :: l) q r -> fst q <= x <= fst r -> y = snd q + (snd r - snd q) * ((x - fst q) / (fst r - fst q))) /\
    (forall lo hi, (forall q, In q (p :: l) -> lo <= snd q <= hi) -> lo <= y <= hi).
Proof.
  induction l as [|q l IH]; intros p x S L.
  - cbn. exists (snd p). split; [reflexivity|]. split; [|split].
    + intros q [<-|[]] _. reflexivity.
    + intros q r (I & J & K & _) _. destruct I as [<-|[]], J as [<-|[]]. lra.
    + intros lo hi H. apply H. left. reflexivity.
  - assert (PQ : fst p < fst q). { inversion S as [|? ? _ F]; subst. inversion F; subst. assumption. }
    assert (SQ : StronglySorted before (q :: l)) by (inversion S; assumption).
    assert (ALL : forall k, In k l -> fst q < fst k). { inversion SQ as [|? ? _ F]; subst. rewrite Forall_forall in F. exact F. }
    cbn [map interp_from]. cbn [lift fst snd]. destruct (Rle_dec (fst q) x) as [QX|QX].
    + destruct (IH q x SQ QX) as (y & E & A & B & C). exists y. split; [exact E|]. split; [|split].
      * intros k [<-|I] K; [lra|]. apply A; assumption.
      * intros k r (I & J & K & NB) X. destruct I as [<-|I].
        { (* the left neighbour is p: then r = q and x = fst q *)
          assert (r = q \/ In r l) as [->|I]. { destruct J as [<-|[<-|J]]; [lra|auto|auto]. }
          - assert (x = fst q) by lra. subst x. rewrite (A q (or_introl eq_refl) eq_refl). field. lra.
          - exfalso. specialize (ALL r I). destruct (NB q (or_intror (or_introl eq_refl))) as [H|H]; lra. }
        destruct J as [<-|J]; [exfalso; destruct I as [<-|I]; [lra|specialize (ALL k I); lra]|].
        apply B; [|exact X]. split; [exact I|]. split; [exact J|]. split; [exact K|]. intros w W. apply NB. right. exact W.
      * intros lo hi H. apply C. intros k I. apply H. right. exact I.
    + apply Rnot_le_lt in QX. destruct (Req_EM_T x (fst p)) as [XP|XP].
      * exists (snd p). split; [reflexivity|]. split; [|split].
        -- intros k [<-|[<-|I]] K; [reflexivity|lra|]. specialize (ALL k I). lra.
        -- intros k r (I & J & K & NB) X.
           assert (k = p) as ->. { destruct I as [<-|[<-|I]]; [reflexivity|lra|specialize (ALL k I); lra]. }
           rewrite XP. unfold Rminus, Rdiv. rewrite Rplus_opp_r. ring.
        -- intros lo hi H. apply H. left. reflexivity.
      * cbn [obind]. rewrite np_div_nz by lra. cbn [obind]. eexists. split; [reflexivity|]. split; [|split].
        -- intros k [<-|[<-|I]] K; [lra|lra|]. specialize (ALL k I). lra.
        -- intros k r (I & J & K & NB) X.
           assert (k = p) as ->. { destruct I as [<-|[<-|I]]; [reflexivity|lra|specialize (ALL k I); lra]. }
           assert (r = q) as ->. { destruct J as [<-|[<-|J]]; [lra|reflexivity|]. specialize (ALL r J). destruct (NB q (or_intror (or_introl eq_refl))); lra. }
           field. lra.
        -- intros lo hi H. pose proof (H p (or_introl eq_refl)) as [P1 P2]. pose proof (H q (or_intror (or_introl eq_refl))) as [Q1 Q2].
           assert (W : 0 <= (x - fst p) / (fst q - fst p) <= 1).
           { split; [apply Rmult_le_pos; [lra|left; apply Rinv_0_lt_compat; lra]|]. apply Rmult_le_reg_r with (fst q - fst p); [lra|].
             unfold Rdiv. rewrite Rmult_assoc, Rinv_l, Rmult_1_r by lra. lra. }
           set (w := (x - fst p) / (fst q - fst p)) in *.
           replace ((snd q - snd p) / (fst q - fst p) * (x - fst p) + snd p) with ((1 - w) * snd p + w * snd q) by (unfold w; field; lra).
           clearbody w. split; nra.
Qed.

Lemma interp_from_mono l : forall p x x', StronglySorted before (p :: l) -> StronglySorted (fun q r => snd r <= snd q) (p :: l) ->
  fst p <= x -> x <= x' -> forall y y', interp_from (lift p) (map lift l) x = Some y -> interp_from (lift p) (map lift l) x' = Some y' -> y' <= y.
Proof.
  induction l as [|q l IH]; intros p x x' S D L LX y y' E E'.
  - cbn in E, E'. injection E as <-. injection E' as <-. lra.
  - assert (PQ : fst p < fst q). { inversion S as [|? ? _ F]; subst. inversion F; subst. assumption. }
    assert (SQ : StronglySorted before (q :: l)) by (inversion S; assumption).
    assert (DQ : StronglySorted (fun q r => snd r <= snd q) (q :: l)) by (inversion D; assumption).
    assert (PD : snd q <= snd p). { inversion D as [|? ? _ F]; subst. inversion F; subst. assumption. }
    destruct (Rle_dec (fst q) x) as [QX|QX].
    + assert (QX' : fst q <= x') by lra. cbn [map interp_from] in E, E'. cbn [lift fst snd] in E, E'.
      destruct (Rle_dec (fst q) x); [|contradiction]. destruct (Rle_dec (fst q) x'); [|contradiction]. exact (IH q x x' SQ DQ QX LX y y' E E').
    + apply Rnot_le_lt in QX.
      assert (NB : neighbours (p :: q :: l) p q).
      { split; [left; reflexivity|]. split; [right; left; reflexivity|]. split; [exact PQ|]. intros k [<-|[<-|I]]; [lra|lra|].
        inversion SQ as [|? ? _ F]; subst. rewrite Forall_forall in F. specialize (F k I). unfold before in F. lra. }
      destruct (interp_from_spec (q :: l) p x S L) as (z & Ez & _ & B & _). rewrite E in Ez. injection Ez as <-.
      specialize (B p q NB ltac:(lra)). rewrite B.
      assert (W : forall t, fst p <= t -> 0 <= (t - fst p) / (fst q - fst p)).
      { intros t T. apply Rmult_le_pos; [lra|left; apply Rinv_0_lt_compat; lra]. }
      assert (W1 : forall t, t <= fst q -> (t - fst p) / (fst q - fst p) <= 1).
      { intros t T. apply Rmult_le_reg_r with (fst q - fst p); [lra|]. unfold Rdiv. rewrite Rmult_assoc, Rinv_l, Rmult_1_r by lra. lra. }
      destruct (Rle_dec (fst q) x') as [QX'|QX'].
      * (* y >= snd q >= y' *)
        assert (snd q <= snd p + (snd q - snd p) * ((x - fst p) / (fst q - fst p))).
        { specialize (W x L). specialize (W1 x ltac:(lra)). set (w := (x - fst p) / (fst q - fst p)) in *. clearbody w. nra. }
        assert (y' <= snd q); [|lra].
        cbn [map interp_from] in E'. cbn [lift fst snd] in E'. destruct (Rle_dec (fst q) x'); [|contradiction].
        apply (IH q (fst q) x' SQ DQ ltac:(lra) ltac:(lra) (snd q) y'); [|exact E'].
        destruct (interp_from_spec l q (fst q) SQ ltac:(lra)) as (z & Ez & A & _). rewrite Ez. f_equal. apply A; [left; reflexivity|reflexivity].
      * apply Rnot_le_lt in QX'. destruct (interp_from_spec (q :: l) p x' S ltac:(lra)) as (z & Ez & _ & B' & _). rewrite E' in Ez. injection Ez as <-.
        rewrite (B' p q NB ltac:(lra)).
        assert ((x - fst p) / (fst q - fst p) <= (x' - fst p) / (fst q - fst p)).
        { apply Rmult_le_compat_r; [left; apply Rinv_0_lt_compat; lra|lra]. }
        nra.
Qed.

(* ---- sorting ---- *)
Lemma insert_perm {A} (key : A -> R) x l : Permutation (insert_row key x l) (x :: l).
Proof.
  induction l as [|y l IH]; cbn; [reflexivity|]. destruct (Rle_dec (key x) (key y)); [reflexivity|].
  rewrite IH. apply perm_swap.
Qed.
Lemma sort_perm {A} (key : A -> R) l : Permutation (sort_rows key l) l.
Proof. induction l as [|x l IH]; cbn; [reflexivity|]. rewrite insert_perm, IH. reflexivity. Qed.
Lemma insert_sorted {A} (key : A -> R) x l : StronglySorted (fun a b => key a <= key b) l -> StronglySorted (fun a b => key a <= key b) (insert_row key x l).
Proof.
  induction 1 as [|y l S IH F]; cbn; [repeat constructor|]. destruct (Rle_dec (key x) (key y)) as [L|L].
  - constructor; [constructor; assumption|]. constructor; [exact L|]. eapply Forall_impl; [|exact F]. cbn. intros; lra.
  - constructor; [exact IH|]. apply Forall_forall. intros z I. apply (Permutation_in _ (insert_perm key x l)) in I.
    destruct I as [<-|I]; [lra|]. rewrite Forall_forall in F. apply F, I.
Qed.
Lemma sort_sorted {A} (key : A -> R) l : StronglySorted (fun a b => key a <= key b) (sort_rows key l).
Proof. induction l as [|x l IH]; cbn; [constructor|]. apply insert_sorted, IH. Qed.

Lemma sorted_map {A B} (P : B -> B -> Prop) (f : A -> B) l : StronglySorted (fun a b => P (f a) (f b)) l -> StronglySorted P (map f l).
Proof. induction 1 as [|x l S IH F]; cbn; constructor; [exact IH|]. apply Forall_map. exact F. Qed.
Lemma sorted_strict l : StronglySorted (fun a b : R * R => fst a <= fst b) l -> NoDup (map fst l) -> StronglySorted before l.
Proof.
  induction 1 as [|x l S IH F]; intros N; cbn in N; constructor; inversion N; subst; [auto|].
  apply Forall_forall. intros y I. rewrite Forall_forall in F. specialize (F y I). unfold before. 
  assert (fst x <> fst y). { intros E. apply H1. rewrite E. apply in_map, I. } lra.
Qed.

(* ---- building a curve ---- *)
Lemma Forall2_yf b c ds ts : plain_basis b -> Forall2 (year_fraction b c) ds ts -> (forall d, In d ds -> (c <= d)%Z) /\ ts = map (fun d => Q2R (yf1 b c d)) ds.
Proof.
  intros [_ NB]. induction 1 as [|d t ds ts (q & E & ->) F [IH1 IH2]]; cbn; [split; [tauto|reflexivity]|].
  pose proof (year_frac_scalar_le _ _ _ _ E) as L. rewrite yf1_scalar in E by assumption. injection E as <-. split; [|f_equal; exact IH2].
  intros e [<-|I]; [exact L|exact (IH1 e I)].
Qed.

Lemma years_of_quoted b c ds ts : plain_basis b -> ds <> [] -> Forall2 (year_fraction b c) ds ts ->
  (let* o := year_frac [c] ds b None in Ok (map Q2R (out_list (length ds) o))) = Ok ts.
Proof.
  intros PB NE F. destruct (Forall2_yf b c ds ts PB F) as [LE ->].
  destruct (year_frac_ok c ds b (proj2 PB) NE LE) as (o & E). rewrite E. cbn [bind]. rewrite (year_frac_values c ds b o PB E), map_map. reflexivity.
Qed.

Lemma sequence_Forall2 {A B} (f : A -> result B) l m : Forall2 (fun x y => f x = Ok y) l m -> sequence (map f l) = Ok m.
Proof. induction 1 as [|x y l m E F IH]; cbn; [reflexivity|]. rewrite E, IH. reflexivity. Qed.

Lemma process_x_quoted c b cal x ts : plain_basis b -> ts <> [] -> quoted_years c b cal x ts ->
  exists ds, process_x c b cal x = Ok (ds, ts) /\ is_x x = true /\ is_y x = false /\
    (forall l, ds = Some l -> length l = length ts /\ Forall2 (year_fraction b c) l ts).
Proof.
  intros PB NE Q. destruct Q as [l ts F|l ts F|l ts F|l]; unfold process_x; cbn [is_x is_y].
  - assert (exists os ds, Forall2 (fun s o => tenor_to_date_offset (clean_tenor s) = Ok o) l os /\
      Forall2 (fun o d => busday_offset cal (add_offset c o) 0 Following = Ok d) os ds /\ Forall2 (year_fraction b c) ds ts) as (os & ds & F1 & F2 & F3).
    { clear NE. induction F as [|s t l ts (o & d & E1 & E2 & Y) F (os & ds & F1 & F2 & F3)]; [exists [], []; repeat constructor|].
      exists (o :: os), (d :: ds). repeat split; constructor; assumption. }
    assert (L : length ds = length ts). { clear -F3. induction F3; cbn; congruence. }
    assert (ds <> []). { intros ->. destruct ts; [congruence|discriminate]. }
    rewrite (sequence_Forall2 _ _ _ F1). cbn [bind]. rewrite (sequence_Forall2 _ _ _ F2). cbn [bind]. rewrite (years_of_quoted b c ds ts) by assumption. cbn [bind].
    eexists. split; [reflexivity|]. split; [reflexivity|]. split; [reflexivity|]. intros m E. injection E as <-. auto.
  - assert (L : length l = length ts). { clear -F. induction F; cbn; congruence. }
    assert (l <> []). { intros ->. destruct ts; [congruence|discriminate]. }
    rewrite (years_of_quoted b c l ts) by assumption. cbn [bind].
    eexists. split; [reflexivity|]. split; [reflexivity|]. split; [reflexivity|]. intros m E. injection E as <-. auto.
  - assert (F' : Forall2 (year_fraction b c) (map (fun n => (c + n)%Z) l) ts). { clear -F. induction F; cbn; constructor; assumption. }
    assert (L : length (map (fun n => (c + n)%Z) l) = length ts). { clear -F'. induction F'; cbn; congruence. }
    assert (map (fun n => (c + n)%Z) l <> []). { intros E. rewrite E in L. destruct ts; [congruence|discriminate]. }
    rewrite (years_of_quoted b c _ ts) by assumption. cbn [bind].
    eexists. split; [reflexivity|]. split; [reflexivity|]. split; [reflexivity|]. intros m E. injection E as <-. auto.
  - eexists. split; [reflexivity|]. split; [reflexivity|]. split; [reflexivity|]. discriminate.
Qed.

(* The rows of the pillar frame before sorting *)
Local Notation row3 := (option date * R * R)%type.
Definition pillar_of (y : column) (freq : option comp) (q : row3) : pillar :=
  match q with (d, t, v) => let (df, c) := process_row y freq t v in {| p_date := d; p_years := t; p_cczr := c; p_df := df |} end.

Lemma process_two splrep c b cal im x y f freq ds ts : (f = [x; y] \/ f = [y; x]) ->
  is_x x = true -> is_y x = false -> is_y y = true -> is_x y = false -> (is_zero_rate y = true -> freq <> None) -> is_zero_rate x = false ->
  process_x c b cal x = Ok (ds, ts) ->
  process_pillars splrep c b cal im f freq =
    (let* r := add_first_row splrep c im (map (pillar_of y freq) (sort_rows (fun q => snd (fst q)) (combine (combine (dates_or_none (length ts) ds) ts) (y_values y)))) in
     let (ps, s) := r in Ok (ps, s, mutated_frame c f x ds ts)).
Proof.
  intros F X1 X2 Y1 Y2 ZR XZ E. unfold process_pillars.
  assert (G : negb (match freq with None => true | _ => false end && existsb is_zero_rate f) = true).
  { destruct freq; [reflexivity|]. cbn. destruct (is_zero_rate y) eqn:K; [destruct (ZR eq_refl eq_refl)|].
    destruct F as [->| ->]; cbn; rewrite K, XZ; reflexivity. }
  rewrite G. cbn [guard bind]. assert (L : (length f =? 2)%nat = true) by (destruct F as [->| ->]; reflexivity). rewrite L. cbn [bind guard].
  assert (FX : filter is_x f = [x]) by (destruct F as [->| ->]; cbn; rewrite X1, Y2; reflexivity).
  assert (FY : filter is_y f = [y]) by (destruct F as [->| ->]; cbn; rewrite X2, Y1; reflexivity).
  rewrite FX, FY, E. cbn [bind]. reflexivity.
Qed.

Lemma combine_map_snd {A B C} (l : list A) (m : list B) (n : list C) (h : B * C -> R * R) : length l = length m ->
  map (fun q => h (snd (fst q), snd q)) (combine (combine l m) n) = map h (combine m n).
Proof.
  revert m n. induction l as [|a l IH]; intros [|x m] [|y n] L; try discriminate; try reflexivity.
  cbn. f_equal. apply IH. cbn in L. lia.
Qed.

Lemma ln_points_of_rows y freq rows (knots : list (R * R)) :
  map (fun q => (snd (fst q), fst (process_row y freq (snd (fst q)) (snd q)))) rows = map lift knots ->
  (forall k, In k knots -> 0 < snd k) ->
  exists sorted, ln_points (map (pillar_of y freq) (sort_rows (fun q : row3 => snd (fst q)) rows)) = map (fun k => (fst k, Some (ln (snd k)))) sorted /\
    Permutation knots sorted /\ StronglySorted (fun a b : R * R => fst a <= fst b) sorted.
Proof.
  intros E P. set (g := fun q : row3 => (snd (fst q), fst (process_row y freq (snd (fst q)) (snd q)))) in *.
  assert (PM : Permutation (map g (sort_rows (fun q : row3 => snd (fst q)) rows)) (map lift knots)).
  { rewrite <- E. apply Permutation_map. apply sort_perm. }
  apply Permutation_map_inv in PM as (sorted & M & PK). exists sorted. split; [|split; [exact PK|]].
  - unfold ln_points. rewrite map_map.
    transitivity (map (fun k : R * option R => (fst k, nan_log (snd k))) (map g (sort_rows (fun q : row3 => snd (fst q)) rows))).
    + rewrite map_map. apply map_ext. intros [[d t] v]. unfold pillar_of, g. cbn [fst snd]. destruct (process_row y freq t v). reflexivity.
    + rewrite M, map_map. apply map_ext_in. intros k I. cbn. rewrite np_log_pos; [reflexivity|]. apply P. eapply Permutation_in; [symmetry; exact PK|exact I].
  - pose proof (sort_sorted (fun q : row3 => snd (fst q)) rows) as S.
    apply (sorted_map (fun a b : R * option R => fst a <= fst b) g) in S. rewrite M in S. clear -S.
    induction sorted as [|k l IH]; [constructor|]. cbn in S. inversion S; subst. constructor; [auto|]. apply Forall_forall. intros z I. rewrite Forall_forall in H2. exact (H2 (lift z) (in_map lift l z I)).
Qed.

Lemma dfs_of_rows freq ts y vs (ds : list (option date)) : quoted_dfs freq ts y vs -> length ds = length ts ->
  is_y y = true /\ is_x y = false /\ (is_zero_rate y = true -> freq <> None) /\ length vs = length ts /\
  map (fun q => (snd (fst q), fst (process_row y freq (snd (fst q)) (snd q)))) (combine (combine ds ts) (y_values y)) = map lift (combine ts vs).
Proof.
  intros Q L. destruct Q as [l E|f l vs E EL F].
  - cbn [is_y is_x is_zero_rate y_values]. repeat split; try discriminate; try assumption.
    change (map (fun q : option date * R * R => (snd (fst q), Some (snd q))) (combine (combine ds ts) l) = map lift (combine ts l)).
    clear -E L. revert ts l E L. induction ds as [|d ds IH]; intros [|t ts] [|v l] E L; try discriminate; try reflexivity.
    cbn [combine map]. f_equal. apply IH; cbn in *; lia.
  - subst freq. cbn [is_y is_x is_zero_rate y_values].
    assert (LV : length vs = length ts). { apply Forall2_length in F. rewrite combine_length in F. lia. }
    repeat split; try discriminate; try assumption.
    change (map (fun q : option date * R * R => (snd (fst q), df_from_zero_rate f (snd (fst q)) (snd q))) (combine (combine ds ts) l) = map lift (combine ts vs)).
    clear LV. revert ts l vs EL L F. induction ds as [|d ds IH]; intros [|t ts] [|v l] vs EL L F; try discriminate; cbn [combine] in F; inversion F; subst; try reflexivity.
    cbn [combine map]. f_equal; [|apply IH; cbn in *; try lia; assumption].
    match goal with H : _ /\ _ |- _ => destruct H as [V ->] end. cbn in *. rewrite (proj1 (df_spec f t v V)). reflexivity.
Qed.

(* ---- the end of the daily data ---- *)
Lemma dby_upper y k : (0 <= k)%Z -> (days_before_year (y + k) <= days_before_year y + 366 * k)%Z.
Proof.
  intros K. pattern k. apply natlike_ind; [rewrite Z.add_0_r; lia| |exact K]. intros x X IH.
  replace (y + Z.succ x)%Z with (y + x + 1)%Z by lia. rewrite days_before_year_succ. destruct (year_len_cases (y + x)); lia.
Qed.
Lemma year_after (c : date) k : (0 <= k)%Z -> (year c + k <= year (c + 366 * k))%Z.
Proof.
  intros K. pose proof (year_spec c) as S1. pose proof (dby_upper (year c) k K) as U. set (e := (c + 366 * k)%Z). pose proof (year_spec e) as S2.
  destruct (Z.le_gt_cases (year c + k) (year e)) as [|G]; [assumption|].
  pose proof (days_before_year_mono (year e + 1) (year c + k) ltac:(lia)). unfold e in *. lia.
Qed.

Lemma yf1_reaches b c n : b <> OtherBasis -> (0 <= n)%Z -> (inject_Z n <= yf1 b c (c + 366 * (n + 1))%Z)%Q.
Proof.
  intros NB N. set (d := (c + 366 * (n + 1))%Z). pose proof (year_after c (n + 1) ltac:(lia)) as Y. fold d in Y.
  pose proof (day_le_31 c) as D1. pose proof (day_le_31 d) as D2. pose proof (month_range c) as M1. pose proof (month_range d) as M2.
  assert (T : forall m k : Z, (0 < k)%Z -> (k * n <= m)%Z -> (inject_Z n <= inject_Z m / inject_Z k)%Q).
  { intros m k K H. apply Qle_shift_div_l; [unfold Qlt; cbn; lia|]. rewrite <- inject_Z_mult, <- Zle_Qle. lia. }
  assert (ACT : forall k, (0 < k <= 366)%Z -> (inject_Z n <= inject_Z (dc_act c d) / inject_Z k)%Q).
  { intros k K. apply T; [lia|]. unfold dc_act, d. nia. }
  assert (TH : forall d1 d2, (d1 <= 30)%Z -> (0 <= d2)%Z -> (360 * n <= dc_30 c d d1 d2)%Z).
  { intros d1 d2 H1 H2. unfold dc_30. lia. }
  destruct b; cbn [yf1]; try contradiction.
  - apply T; [lia|]. unfold dc_30_360. cbv zeta. apply TH; [destruct (day c =? 31)%Z eqn:E; lia|].
    destruct ((_ =? 30)%Z && _); lia.
  - apply T; [lia|]. unfold dc_30E_360. cbv zeta. apply TH; [destruct (day c =? 31)%Z eqn:E; lia|]. destruct (day d =? 31)%Z; lia.
  - apply T; [lia|]. unfold dc_30E_360_isda. cbv zeta. apply TH.
    + destruct ((day c =? 31)%Z || is_last_day_of_feb c) eqn:E; [lia|]. apply orb_false_iff in E as [E _]. lia.
    + destruct ((day d =? 31)%Z || _); lia.
  - apply ACT. lia.
  - apply ACT. lia.
  - unfold yf_act_act. cbv zeta. pose proof (year_spec c) as S1. pose proof (year_spec d) as S2.
    assert (A1 : (0 <= inject_Z (mk (year c + 1) 1 1 - c) / inject_Z (year_len (year c)))%Q).
    { apply Qle_shift_div_l; [pose proof (year_len_pos (year c)); unfold Qlt; cbn; lia|]. rewrite Qmult_0_l. rewrite mk_jan1. unfold Qle. cbn. lia. }
    assert (A2 : (0 <= inject_Z (d - mk (year d) 1 1) / inject_Z (year_len (year d)))%Q).
    { apply Qle_shift_div_l; [pose proof (year_len_pos (year d)); unfold Qlt; cbn; lia|]. rewrite Qmult_0_l. rewrite mk_jan1. unfold Qle. cbn. lia. }
    assert (A3 : (inject_Z n <= inject_Z (year d - year c - 1))%Q) by (rewrite <- Zle_Qle; lia).
    eapply Qle_trans; [exact A3|]. rewrite <- (Qplus_0_r (inject_Z (year d - year c - 1))) at 1.
    rewrite <- Qplus_assoc. apply Qplus_le_compat; [apply Qle_refl|]. rewrite <- (Qplus_0_r 0). apply Qplus_le_compat; assumption.
  - apply ACT. lia.
Qed.

Lemma extend_ok b c n : b <> OtherBasis -> forall k d, (c <= d)%Z -> (exists j, (0 <= j < Z.of_nat k)%Z /\ (inject_Z n <= yf1 b c (d + j))%Q) ->
  exists m, extend c b k n d = Ok m /\ (d <= m)%Z /\ (inject_Z n <= yf1 b c m)%Q /\ forall e, (d <= e < m)%Z -> ~ (inject_Z n <= yf1 b c e)%Q.
Proof.
  intros NB. induction k as [|k IH]; intros d L (j & J & H); [lia|]. cbn [extend].
  rewrite yf1_scalar by assumption. cbn [bind]. destruct (Qle_bool (inject_Z n) (yf1 b c d)) eqn:E.
  - apply Qle_bool_iff in E. exists d. split; [reflexivity|]. split; [lia|]. split; [exact E|]. intros; lia.
  - assert (NE : ~ (inject_Z n <= yf1 b c d)%Q). { intros X. apply Qle_bool_iff in X. congruence. }
    destruct (Z.eq_dec j 0) as [->|NZ]; [rewrite Z.add_0_r in H; contradiction|].
    destruct (IH (d + 1)%Z ltac:(lia)) as (m & M1 & M2 & M3 & M4).
    { exists (j - 1)%Z. split; [lia|]. replace (d + 1 + (j - 1))%Z with (d + j)%Z by lia. exact H. }
    exists m. split; [exact M1|]. split; [lia|]. split; [exact M3|]. intros e K. destruct (Z.eq_dec e d) as [->|]; [exact NE|]. apply M4. lia.
Qed.

Lemma add_years_bounds c n : (0 <= n)%Z -> (c <= add_months c (12 * n))%Z.
Proof.
  intros N. destruct (Z.eq_dec n 0) as [->|NZ]; [rewrite add_months_0; lia|].
  pose proof (add_months_mono c 0 (12 * n) ltac:(lia)) as H. rewrite add_months_0 in H. lia.
Qed.

Lemma last_years c b n : b <> OtherBasis -> (0 <= n)%Z ->
  exists m, extend c b (Z.to_nat (366 * (n + 2))) n (add_months c (12 * n)) = Ok m /\ (add_months c (12 * n) <= m)%Z /\
    (inject_Z n <= yf1 b c m)%Q /\ forall e, (add_months c (12 * n) <= e < m)%Z -> ~ (inject_Z n <= yf1 b c e)%Q.
Proof.
  intros NB N. pose proof (add_years_bounds c n N) as L. apply extend_ok; [exact NB|exact L|].
  destruct (Z.le_gt_cases (c + 366 * (n + 1)) (add_months c (12 * n))) as [G|G].
  - exfalso. clear NB. pose proof (add_months_month_index c (12 * n)) as M. pose proof (year_after c (n + 1) ltac:(lia)) as Y.
    apply year_mono in G. pose proof (month_index_decomp (add_months c (12 * n))) as [Y1 _]. pose proof (month_index_decomp c) as [Y2 _].
    rewrite M in Y1. rewrite Y1 in G. replace (month_index c + 12 * n)%Z with (month_index c + n * 12)%Z in G by lia. rewrite Z.div_add in G by lia. lia.
  - exists (c + 366 * (n + 1) - add_months c (12 * n))%Z. split; [lia|].
    replace (add_months c (12 * n) + (c + 366 * (n + 1) - add_months c (12 * n)))%Z with (c + 366 * (n + 1))%Z by lia. apply yf1_reaches; assumption.
Qed.

Lemma py_trunc_nonneg x : 0 <= x -> (0 <= py_trunc x)%Z /\ IZR (py_trunc x) <= x < IZR (py_trunc x) + 1.
Proof.
  intros X. unfold py_trunc. destruct (Rle_dec 0 x); [|contradiction]. destruct (base_Int_part x) as [B1 B2].
  split; [|lra]. apply le_IZR. destruct (Z.le_gt_cases 0 (Int_part x)) as [L|L]; [apply IZR_le; exact L|].
  assert (IZR (Int_part x) <= -1) by (apply IZR_le; lia). lra.
Qed.
Lemma max_of_ge x l : x <= max_of x l /\ (forall y, In y l -> y <= max_of x l) /\ (max_of x l = x \/ In (max_of x l) l).
Proof.
  revert x. induction l as [|z l IH]; intros x; cbn; [split; [lra|split; [tauto|auto]]|].
  change (fold_left Rmax l (Rmax x z)) with (max_of (Rmax x z) l). destruct (IH (Rmax x z)) as (H1 & H2 & H3).
  pose proof (Rmax_l x z). pose proof (Rmax_r x z). split; [lra|]. split.
  - intros y [<-|I]; [lra|auto].
  - destruct H3 as [H3|H3]; [|auto]. rewrite H3. unfold Rmax. destruct (Rle_dec x z); auto.
Qed.
Lemma fold_max_ge (x : date) l : (x <= fold_left Z.max l x)%Z /\ (forall y, In y l -> (y <= fold_left Z.max l x)%Z) /\ (fold_left Z.max l x = x \/ In (fold_left Z.max l x) l).
Proof.
  revert x. induction l as [|z l IH]; intros x; cbn; [split; [lia|split; [tauto|auto]]|].
  destruct (IH (Z.max x z)) as (H1 & H2 & H3). split; [lia|]. split.
  - intros y [<-|I]; [lia|auto].
  - destruct H3 as [H3|H3]; [|auto]. rewrite H3. destruct (Z.max_spec x z) as [[_ ->]|[_ ->]]; auto.
Qed.

Definition ln_lift (k : R * R) : R * option R := (fst k, Some (ln (snd k))).

Lemma setup_ok c b im ps s m : plain_basis b -> last_date c b ps = Ok m -> (c <= m)%Z ->
  exists rows, setup_daily c b im ps s = Ok (rows, m) /\
    forall r, In r rows -> d_years r = yf1 b c (d_date r) /\ (d_cczr r, d_df r) = daily_cells im ps s (Q2R (d_years r)).
Proof.
  intros PB E L. unfold setup_daily. rewrite E. cbn [bind]. cbv zeta. set (range := date_range c m).
  assert (NE : range <> []). { intros K. assert (In c range) by (apply in_date_range; lia). rewrite K in H. destruct H. }
  destruct (year_frac_ok c range b (proj2 PB) NE) as (years & Y). { intros d I. apply in_date_range in I. lia. }
  destruct (day_count_ok c range b years Y) as (days & D). rewrite D, Y. cbn [bind]. eexists. split; [reflexivity|].
  intros r I. apply in_map_iff in I as ([[d k] t] & <- & I).
  rewrite (year_frac_values c range b years PB Y) in I.
  assert (t = yf1 b c d).
  { pose proof (day_count_length _ _ _ _ _ Y D) as LD. set (dl := out_list (length range) days) in *. clearbody dl. clear -I LD. clearbody range. revert dl LD I. induction range as [|x l IH]; intros [|y dl] LD I; cbn in *; try discriminate; try tauto.
    destruct I as [I|I]; [congruence|]. apply (IH dl); [lia|exact I]. }
  subst t. destruct (daily_cells im ps s (Q2R (yf1 b c d))) eqn:DC; cbn [d_years d_date d_cczr d_df]. rewrite DC. split; reflexivity.
Qed.

Lemma sort_nil {A} (key : A -> R) l : sort_rows key l = [] -> l = [].
Proof. intros H. pose proof (sort_perm key l) as P. rewrite H in P. apply Permutation_nil in P. exact P. Qed.

Lemma build_linear splrep c b cal em f freq ts vs : plain_basis b -> quotes c b cal freq f ts vs -> ts <> [] ->
  Forall (fun t => 0 < t) ts -> NoDup ts -> Forall (fun v => 0 < v) vs ->
  exists z f' knots, new_curve splrep c b cal LinearLn f freq em = Ok (z, f') /\
    z_date z = c /\ z_basis z = b /\ z_cal z = cal /\ z_extrap z = em /\ z_interp z = LinearLn /\
    StronglySorted before ((0, 1) :: knots) /\ Permutation (combine ts vs) knots /\ length vs = length ts /\
    forall r, In r (z_daily z) -> d_years r = yf1 b c (d_date r) /\
      d_df r = option_map exp (np_interp (map ln_lift ((0, 1) :: knots)) (Q2R (d_years r))) /\
      d_cczr r = nan_div (option_map Ropp (np_interp (map ln_lift ((0, 1) :: knots)) (Q2R (d_years r)))) (Some (Q2R (d_years r))).
Proof.
  intros PB (x & y & F & QX & QY) NE TP ND VP.
  destruct (process_x_quoted c b cal x ts PB NE QX) as (ds & PX & X1 & X2 & DS).
  assert (LD : length (dates_or_none (length ts) ds) = length ts).
  { destruct ds as [l|]; cbn; [rewrite map_length; apply (DS l eq_refl)|apply repeat_length]. }
  destruct (dfs_of_rows freq ts y vs _ QY LD) as (Y1 & Y2 & Y3 & LV & ROWS).
  assert (XZ : is_zero_rate x = false) by (destruct x; try reflexivity; discriminate).
  unfold new_curve. rewrite (process_two splrep c b cal LinearLn x y f freq ds ts F X1 X2 Y1 Y2 Y3 XZ PX).
  set (rows := combine (combine (dates_or_none (length ts) ds) ts) (y_values y)) in *.
  destruct (ln_points_of_rows y freq rows (combine ts vs) ROWS) as (sorted & LN & PM & SO).
  { intros k I. destruct k as [t v]. apply in_combine_r in I. rewrite Forall_forall in VP. exact (VP v I). }
  set (ps := map (pillar_of y freq) (sort_rows (fun q : row3 => snd (fst q)) rows)) in *.
  assert (TS : map fst (combine ts vs) = ts) by (apply combine_fst; symmetry; exact LV).
  assert (SP : forall k, In k sorted -> 0 < fst k).
  { intros k I. rewrite Forall_forall in TP. apply TP. rewrite <- TS. apply in_map. eapply Permutation_in; [symmetry; exact PM|exact I]. }
  assert (SS : StronglySorted before sorted).
  { apply sorted_strict; [exact SO|]. eapply Permutation_NoDup; [apply Permutation_map; exact PM|]. rewrite TS. exact ND. }
  assert (K0 : StronglySorted before ((0, 1) :: sorted)).
  { constructor; [exact SS|]. apply Forall_forall. intros k I. apply SP, I. }
  destruct ps as [|p pt] eqn:EP.
  { exfalso. unfold ln_points in LN. cbn in LN. destruct sorted as [|k sorted]; [|discriminate].
    apply Permutation_length in PM. rewrite combine_length, LV, Nat.min_id in PM. destruct ts; [congruence|discriminate]. }
  assert (PY : p_years p <> 0).
  { unfold ln_points in LN. cbn in LN. destruct sorted as [|k sorted]; [discriminate|]. cbn in LN. injection LN as LN _ _. rewrite LN.
    specialize (SP k (or_introl eq_refl)). lra. }
  cbn [add_first_row]. destruct (Req_EM_T (p_years p) 0); [contradiction|]. cbv zeta. cbn [bind].
  match goal with |- context [setup_daily c b LinearLn (?q :: _) _] => set (p0 := q) end.
  assert (exists m, last_date c b (p0 :: p :: pt) = Ok m /\ (c <= m)%Z) as (m & LM & CM).
  { cbn [last_date]. unfold p0 at 1. cbn [p_date]. destruct (p_date p) eqn:DP.
    - eexists. split; [reflexivity|]. exact (proj1 (fold_max_ge c _)).
    - pose proof (max_of_ge (p_years p0) (map p_years (p :: pt))) as (M1 & _).
      destruct (py_trunc_nonneg (max_of (p_years p0) (map p_years (p :: pt)))) as [N _].
      { unfold p0 at 1 in M1. cbn [p_years] in M1. exact M1. }
      destruct (last_years c b _ (proj2 PB) N) as (m & E & L & _). exists m. split; [exact E|].
      pose proof (add_years_bounds c _ N) as LB. eapply Z.le_trans; [exact LB|exact L]. }
  destruct (setup_ok c b LinearLn (p0 :: p :: pt) None m PB LM CM) as (daily & SD & ROWSD). rewrite SD. cbn [bind].
  assert (LP : ln_points (p0 :: p :: pt) = map ln_lift ((0, 1) :: sorted)).
  { change (ln_points (p0 :: p :: pt)) with ((0, nan_log (Some 1)) :: ln_points (p :: pt)). rewrite LN.
    cbn. rewrite np_log_pos by lra. reflexivity. }
  do 2 eexists. exists sorted. split; [reflexivity|]. cbn [z_date z_basis z_cal z_extrap z_interp z_daily].
  repeat (split; [reflexivity || assumption|]). intros r I. destruct (ROWSD r I) as [E1 E2].
  unfold daily_cells in E2. rewrite LP in E2. injection E2 as E2 E3. rewrite E2, E3. auto.
Qed.

(* ---- C37 ---- *)
Lemma sorted_perm_in l m (k : R * R) : Permutation l m -> (In k l <-> In k m).
Proof. intros P. split; intros I; [eapply Permutation_in; eassumption | eapply Permutation_in; [symmetry|]; eassumption]. Qed.

Definition ln_knot (k : R * R) : R * R := (fst k, ln (snd k)).
Lemma ln_lift_knot l : map ln_lift l = map lift (map ln_knot l).
Proof. rewrite map_map. reflexivity. Qed.
Lemma before_ln l : StronglySorted before l -> StronglySorted before (map ln_knot l).
Proof. intros S. apply sorted_map. exact S. Qed.

Lemma interp_knots ks t : StronglySorted before ((0, 1) :: ks) -> 0 <= t ->
  exists y, np_interp (map ln_lift ((0, 1) :: ks)) t = Some y /\
    (forall q, In q ((0, 1) :: ks) -> fst q = t -> y = ln (snd q)) /\
    (forall p q, neighbours ((0, 1) :: ks) p q -> fst p <= t <= fst q -> y = ln (snd p) + (ln (snd q) - ln (snd p)) * ((t - fst p) / (fst q - fst p))) /\
    (forall lo hi, (forall q, In q ((0, 1) :: ks) -> lo <= ln (snd q) <= hi) -> lo <= y <= hi).
Proof.
  intros S T. rewrite ln_lift_knot. apply before_ln in S. cbn [map] in S |- *.
  destruct (interp_from_spec (map ln_knot ks) (ln_knot (0, 1)) t S T) as (y & E & A & B & C).
  exists y. split.
  - unfold np_interp. cbn [lift ln_knot fst]. destruct (Rlt_dec t 0); [lra|]. exact E.
  - split; [|split].
    + intros q I K. apply (A (ln_knot q)); [|exact K]. apply (in_map ln_knot ((0, 1) :: ks)). exact I.
    + intros p q (I & J & K & NB) X. apply (B (ln_knot p) (ln_knot q)); [|exact X].
      split; [apply (in_map ln_knot ((0, 1) :: ks)); exact I|]. split; [apply (in_map ln_knot ((0, 1) :: ks)); exact J|]. split; [exact K|].
      intros k W. apply (in_map_iff ln_knot ((0, 1) :: ks)) in W as (k' & <- & W). exact (NB k' W).
    + intros lo hi H. apply C. intros q W. apply (in_map_iff ln_knot ((0, 1) :: ks)) in W as (k' & <- & W). exact (H k' W).
Qed.

Lemma yf1_refl b c : b <> OtherBasis -> b <> B30E_360_ISDA -> Q2R (yf1 b c c) = 0.
Proof.
  intros N1 N2. assert (Z0 : forall k : positive, Q2R (inject_Z 0 / (Zpos k # 1)) = 0).
  { intros k. rewrite (Qeq_eqR _ 0); [apply RMicromega.Q2R_0|]. unfold Qeq. cbn. reflexivity. }
  destruct b; cbn [yf1]; try contradiction.
  - replace (dc_30_360 c c) with 0%Z; [apply (Z0 360%positive)|]. unfold dc_30_360, dc_30. cbv zeta.
    destruct (day c =? 31)%Z eqn:E; [change (30 =? 30)%Z with true; cbn [andb]; lia|]. rewrite andb_false_r. lia.
  - replace (dc_30E_360 c c) with 0%Z; [apply (Z0 360%positive)|]. unfold dc_30E_360, dc_30. cbv zeta. lia.
  - replace (dc_act c c) with 0%Z; [apply (Z0 360%positive)|]. unfold dc_act. lia.
  - replace (dc_act c c) with 0%Z; [apply (Z0 365%positive)|]. unfold dc_act. lia.
  - rewrite (Qeq_eqR _ 0); [apply RMicromega.Q2R_0|]. rewrite act_act_spec by lia. replace (c - c)%Z with 0%Z by lia. reflexivity.
  - replace (dc_act c c) with 0%Z; [apply (Z0 366%positive)|]. unfold dc_act. lia.
Qed.

Lemma yf1_nonneg b c d : plain_basis b -> (c <= d)%Z -> 0 <= Q2R (yf1 b c d).
Proof.
  intros [N1 N2] L. rewrite <- RMicromega.Q2R_0. apply Qle_Rle.
  assert (T : forall (n : Z) (k : positive), (0 <= n)%Z -> (0 <= inject_Z n / (Zpos k # 1))%Q).
  { intros n k H. apply Qle_shift_div_l; [reflexivity|]. rewrite Qmult_0_l. unfold Qle. cbn. lia. }
  destruct b; cbn [yf1]; try contradiction; try (apply T; unfold dc_act; lia).
  - apply T. apply dc_30_360_nonneg. exact L.
  - apply T. apply dc_30E_nonneg. exact L.
  - destruct (Z.eq_dec c d) as [->|N]; [|apply Qlt_le_weak, act_act_positive; lia].
    rewrite act_act_spec by lia. replace (d - d)%Z with 0%Z by lia. apply Qle_refl.
Qed.

Section Linear.
  Variables (splrep : list (R * option R) -> result spline) (c : date) (b : basis) (cal : calendar) (em : extrap_method) (freq : option comp)
            (f : frame) (ts vs : list R) (z : zero_curve) (f' : frame).
  Hypothesis WQ : well_quoted c b cal freq f ts vs.
  Hypothesis EM : em <> OtherExtrap.
  Hypothesis NC : new_curve splrep c b cal LinearLn f freq em = Ok (z, f').

  Lemma linear_built : built z.
  Proof. exists splrep, c, b, cal, LinearLn, f, freq, em, f'. auto. Qed.

  Lemma linear_structure : exists ks, StronglySorted before ((0, 1) :: ks) /\ (forall k, In k ((0, 1) :: ks) <-> In k (knots ts vs)) /\
    z_date z = c /\ z_basis z = b /\
    forall d, covered z d -> exists r, find_day z d = Some r /\ d_years r = yf1 b c d /\
      d_df r = option_map exp (np_interp (map ln_lift ((0, 1) :: ks)) (Q2R (yf1 b c d))) /\
      d_cczr r = nan_div (option_map Ropp (np_interp (map ln_lift ((0, 1) :: ks)) (Q2R (yf1 b c d)))) (Some (Q2R (yf1 b c d))).
  Proof.
    destruct WQ as (PB & Q & NE & TP & ND & VP).
    destruct (build_linear splrep c b cal em f freq ts vs PB Q NE TP ND VP) as (z' & g & ks & E & D & B & CAL & X & IM & S & P & LV & ROWS).
    rewrite NC in E. injection E as <- <-. exists ks. split; [exact S|]. split; [|split; [exact D|split; [exact B|]]].
    - intros k. unfold knots. cbn. pose proof (sorted_perm_in _ _ k P). tauto.
    - intros d CV. destruct (find_day_covered z d (built_daily z linear_built) CV) as (r & F & DD & I). exists r. split; [exact F|].
      destruct (ROWS r I) as (R1 & R2 & R3). rewrite DD in R1. rewrite R1 in R2, R3. auto.
  Qed.

  Lemma linear_lookup d : covered z d -> exists ks y, StronglySorted before ((0, 1) :: ks) /\ (forall k, In k ((0, 1) :: ks) <-> In k (knots ts vs)) /\
      np_interp (map ln_lift ((0, 1) :: ks)) (Q2R (yf1 b c d)) = Some y /\ discounts z d (exp y).
  Proof.
    intros CV. destruct linear_structure as (ks & S & P & D & B & L). destruct (L d CV) as (r & F & Y & DF & _).
    assert (PB : plain_basis b) by apply WQ.
    assert (LE : (c <= d)%Z) by (unfold covered in CV; lia).
    destruct (interp_knots ks (Q2R (yf1 b c d)) S (yf1_nonneg b c d PB LE)) as (y & E & _).
    exists ks, y. split; [exact S|]. split; [exact P|]. split; [exact E|]. unfold discounts. rewrite (scalar_lookup z _ (built_extrap z linear_built)).
    assert (R : in_range z (Some d) = true) by (apply in_range_covered; exact CV). rewrite R. unfold cell_df. rewrite F, DF, E. reflexivity.
  Qed.

  Lemma knots_positive k : In k (knots ts vs) -> 0 < snd k.
  Proof.
    destruct WQ as (_ & _ & _ & _ & _ & VP). intros [<-|I]; [cbn; lra|]. destruct k as [t v]. apply in_combine_r in I. rewrite Forall_forall in VP. exact (VP v I).
  Qed.

  Lemma linear_value d t : covered z d -> year_fraction b c d t -> exists v, discounts z d v /\ 0 < v /\
    (forall p, In p (knots ts vs) -> fst p = t -> v = snd p) /\
    (forall p q, neighbours (knots ts vs) p q -> fst p <= t <= fst q -> v = geometric p q t) /\
    (forall lo hi, 0 < lo -> (forall p, In p (knots ts vs) -> lo <= snd p <= hi) -> lo <= v <= hi).
  Proof.
    intros CV (q & Y & ->). assert (PB : plain_basis b) by apply WQ. pose proof (year_frac_scalar_le _ _ _ _ Y) as LE.
    rewrite yf1_scalar in Y by (apply PB || exact LE). injection Y as <-.
    destruct (linear_lookup d CV) as (ks & y & S & P & E & DV).
    destruct (interp_knots ks _ S (yf1_nonneg b c d PB LE)) as (y' & E' & A & B & C). rewrite E in E'. injection E' as <-.
    exists (exp y). split; [exact DV|]. split; [apply exp_pos|]. split; [|split].
    - intros p I K. rewrite (A p); [apply exp_ln, knots_positive, I|apply P, I|exact K].
    - intros p q0 (I & J & K & NB) X. rewrite (B p q0).
      + unfold geometric. cbv zeta. unfold Rpower. rewrite <- exp_plus. f_equal. field. lra.
      + split; [apply P, I|]. split; [apply P, J|]. split; [exact K|]. intros k W. apply NB, P, W.
      + exact X.
    - intros lo hi LO H.
      assert (HI : 0 < hi). { specialize (H (0, 1) (or_introl eq_refl)). cbn in H. lra. }
      destruct (C (ln lo) (ln hi)) as [C1 C2].
      { intros p I. apply P in I. specialize (H p I). pose proof (knots_positive p I). split; [destruct (proj1 H)|destruct (proj2 H)];
        try (left; apply ln_increasing; assumption); right; congruence. }
      rewrite <- (exp_ln lo LO), <- (exp_ln hi HI). split; [destruct C1 as [C1|C1]|destruct C2 as [C2|C2]];
        try (left; apply exp_increasing; assumption); right; congruence.
  Qed.

  Lemma linear_mono d d' t t' v v' : covered z d -> covered z d' -> year_fraction b c d t -> year_fraction b c d' t' -> t <= t' ->
    (forall p q, In p (knots ts vs) -> In q (knots ts vs) -> fst p <= fst q -> snd q <= snd p) ->
    discounts z d v -> discounts z d' v' -> v' <= v.
  Proof.
    intros CV CV' (q & Y & ->) (q' & Y' & ->) T M DV DV'. assert (PB : plain_basis b) by apply WQ.
    pose proof (year_frac_scalar_le _ _ _ _ Y) as LE. rewrite yf1_scalar in Y by (apply PB || exact LE). injection Y as <-.
    pose proof (year_frac_scalar_le _ _ _ _ Y') as LE'. rewrite yf1_scalar in Y' by (apply PB || exact LE'). injection Y' as <-.
    destruct linear_structure as (ks & S & P & _ & _ & L).
    destruct (L d CV) as (r & F & _ & DF & _). destruct (L d' CV') as (r' & F' & _ & DF' & _).
    unfold discounts in DV, DV'. rewrite (scalar_lookup z (Some d) (built_extrap z linear_built)) in DV. rewrite (scalar_lookup z (Some d') (built_extrap z linear_built)) in DV'.
    assert (R : in_range z (Some d) = true) by (apply in_range_covered; exact CV).
    assert (R' : in_range z (Some d') = true) by (apply in_range_covered; exact CV').
    rewrite R in DV. rewrite R' in DV'. unfold cell_df in DV, DV'. rewrite F, DF in DV. rewrite F', DF' in DV'.
    assert (POS : forall k, In k ((0, 1) :: ks) -> 0 < snd k) by (intros k I; apply knots_positive, P, I).
    rewrite ln_lift_knot in DV, DV'. cbn [map] in DV, DV'. unfold np_interp in DV, DV'. cbn [lift ln_knot fst] in DV, DV'.
    pose proof (yf1_nonneg b c d PB LE) as N1. pose proof (yf1_nonneg b c d' PB LE') as N2.
    destruct (Rlt_dec (Q2R (yf1 b c d)) 0); [lra|]. destruct (Rlt_dec (Q2R (yf1 b c d')) 0); [lra|].
    change (0, Some (snd (ln_knot (0, 1)))) with (lift (ln_knot (0, 1))) in DV, DV'.
    destruct (interp_from (lift (ln_knot (0, 1))) (map lift (map ln_knot ks)) (Q2R (yf1 b c d))) as [y|] eqn:EY; [|discriminate].
    destruct (interp_from (lift (ln_knot (0, 1))) (map lift (map ln_knot ks)) (Q2R (yf1 b c d'))) as [y'|] eqn:EY'; [|discriminate].
    cbn in DV, DV'. injection DV as <-. injection DV' as <-.
    assert (y' <= y).
    { apply (interp_from_mono (map ln_knot ks) (ln_knot (0, 1)) (Q2R (yf1 b c d)) (Q2R (yf1 b c d')) (before_ln _ S)); try assumption.
      change (ln_knot (0, 1) :: map ln_knot ks) with (map ln_knot ((0, 1) :: ks)). apply sorted_map. cbn [ln_knot snd].
      assert (M' : forall p q, In p ((0, 1) :: ks) -> In q ((0, 1) :: ks) -> fst p <= fst q -> snd q <= snd p) by (intros p q I J; apply M; apply P; assumption).
      clear -S POS M'. set (l := (0, 1) :: ks) in *. clearbody l. induction S as [|k l S IH FO]; constructor.
      - apply IH; intros; [apply POS; right; assumption|apply M'; try (right; assumption); assumption].
      - apply Forall_forall. intros q I. rewrite Forall_forall in FO. specialize (FO q I). unfold before in FO.
        assert (H : snd q <= snd k) by (apply M'; [left; reflexivity|right; exact I|lra]).
        destruct H as [H|H]; [left; apply ln_increasing; [apply POS; right; exact I|exact H]|right; congruence]. }
    destruct H as [H|H]; [left; apply exp_increasing, H|right; congruence].
  Qed.

  Lemma linear_at_curve_date : discounts z c 1.
  Proof.
    assert (PB : plain_basis b) by apply WQ. destruct linear_structure as (_ & _ & _ & D & _).
    assert (CV : covered z c). { pose proof (built_daily z linear_built) as [_ L]. unfold covered. rewrite D in *. lia. }
    destruct (linear_value c 0 CV) as (v & DV & _ & K & _).
    { exists (yf1 b c c). split; [apply yf1_scalar; [apply PB|lia]|]. symmetry. apply yf1_refl; apply PB. }
    rewrite (K (0, 1) (or_introl eq_refl) eq_refl) in DV. exact DV.
  Qed.

  Lemma linear_zero_rate d t : covered z d -> year_fraction b c d t -> exists v, discounts z d v /\
    get_zero_rates z Continuous (Some (Scalar (Some d))) None None = Ok (Scalar (zero_rate_from_df Continuous t v)).
  Proof.
    intros CV (q & Y & ->). assert (PB : plain_basis b) by apply WQ.
    pose proof (year_frac_scalar_le _ _ _ _ Y) as LE. rewrite yf1_scalar in Y by (apply PB || exact LE). injection Y as <-.
    destruct linear_structure as (ks & S & P & _ & _ & L). destruct (L d CV) as (r & F & Y & DF & CC).
    destruct (interp_knots ks (Q2R (yf1 b c d)) S (yf1_nonneg b c d PB LE)) as (y & E & _). rewrite E in DF, CC.
    exists (exp y). assert (R : in_range z (Some d) = true) by (apply in_range_covered; exact CV).
    assert (NX : z_extrap z <> OtherExtrap) by apply (built_extrap z linear_built). split.
    - unfold discounts. rewrite (scalar_lookup z _ NX), R. unfold cell_df. rewrite F, DF. reflexivity.
    - unfold get_zero_rates. cbn [first_is_scalar index_daily_data cells]. unfold index_dates. cbn [filter]. rewrite R. cbn [map]. rewrite F.
      cbn [zero_rate_from_df]. rewrite np_log_pos by apply exp_pos. rewrite ln_exp. cbn [obind].
      destruct (z_extrap z); try contradiction; cbn [bind map shape_result]; cbn [row_of_daily u_cczr]; rewrite CC; reflexivity.
  Qed.
End Linear.

(* ---- other facts about construction ---- *)
Lemma pillar_years y freq l : map p_years (map (pillar_of y freq) l) = map (fun q : row3 => snd (fst q)) l.
Proof. rewrite map_map. apply map_ext. intros [[d t] v]. unfold pillar_of. destruct (process_row y freq t v). reflexivity. Qed.
Lemma pillar_dates y freq l : map p_date (map (pillar_of y freq) l) = map (fun q : row3 => fst (fst q)) l.
Proof. rewrite map_map. apply map_ext. intros [[d t] v]. unfold pillar_of. destruct (process_row y freq t v). reflexivity. Qed.

Lemma rows_times (ds : list (option date)) ts (ys : list R) : length ds = length ts -> length ys = length ts ->
  map (fun q : row3 => snd (fst q)) (combine (combine ds ts) ys) = ts /\ map (fun q : row3 => fst (fst q)) (combine (combine ds ts) ys) = ds.
Proof.
  revert ts ys. induction ds as [|d ds IH]; intros [|t ts] [|y ys] L1 L2; try discriminate; [split; reflexivity|].
  cbn in *. destruct (IH ts ys) as [E1 E2]; try lia. rewrite E1, E2. auto.
Qed.

Lemma quoted_values_length freq ts y vs : quoted_dfs freq ts y vs -> length (y_values y) = length ts.
Proof. intros [l E|f l w E EL F]; cbn; assumption. Qed.

Lemma linear_rejects_zero splrep c b cal em f freq ts vs : plain_basis b -> quotes c b cal freq f ts vs ->
  Forall (fun t => 0 <= t) ts -> In 0 ts -> new_curve splrep c b cal LinearLn f freq em = Err ValueError.
Proof.
  intros PB (x & y & F & QX & QY) TP Z0. assert (NE : ts <> []) by (intros ->; destruct Z0).
  destruct (process_x_quoted c b cal x ts PB NE QX) as (ds & PX & X1 & X2 & DS).
  assert (LD : length (dates_or_none (length ts) ds) = length ts).
  { destruct ds as [l|]; cbn; [rewrite map_length; apply (DS l eq_refl)|apply repeat_length]. }
  destruct (dfs_of_rows freq ts y vs _ QY LD) as (Y1 & Y2 & Y3 & LV & ROWS).
  assert (XZ : is_zero_rate x = false) by (destruct x; try reflexivity; discriminate).
  unfold new_curve. rewrite (process_two splrep c b cal LinearLn x y f freq ds ts F X1 X2 Y1 Y2 Y3 XZ PX).
  destruct (rows_times (dates_or_none (length ts) ds) ts (y_values y) LD (quoted_values_length _ _ _ _ QY)) as [RT _].
  set (rows := combine (combine (dates_or_none (length ts) ds) ts) (y_values y)) in *.
  pose proof (sort_perm (fun q : row3 => snd (fst q)) rows) as P. pose proof (sort_sorted (fun q : row3 => snd (fst q)) rows) as S.
  set (sorted := sort_rows (fun q : row3 => snd (fst q)) rows) in *.
  assert (PT : Permutation (map (fun q : row3 => snd (fst q)) sorted) ts) by (rewrite <- RT; apply Permutation_map; exact P).
  destruct sorted as [|q l] eqn:ES. { apply Permutation_nil in PT. congruence. }
  assert (Q0 : snd (fst q) = 0).
  { apply Rle_antisym.
    - assert (I : In 0 (map (fun q : row3 => snd (fst q)) (q :: l))) by (eapply Permutation_in; [symmetry; exact PT|exact Z0]).
      apply in_map_iff in I as (r & E & [->|I]); [lra|]. apply StronglySorted_inv in S as [_ FO]. rewrite Forall_forall in FO. specialize (FO r I). lra.
    - rewrite Forall_forall in TP. apply TP. eapply Permutation_in; [exact PT|]. left. reflexivity. }
  assert (PY : p_years (pillar_of y freq q) = 0). { destruct q as [[d t] v]. unfold pillar_of. destruct (process_row y freq t v). exact Q0. }
  cbn [map add_first_row]. destruct (Req_EM_T (p_years (pillar_of y freq q)) 0); [reflexivity|contradiction].
Qed.

Lemma process_pillars_inv splrep c b cal im x y f freq ps s f' : (f = [x; y] \/ f = [y; x]) -> is_x x = true -> is_y y = true ->
  process_pillars splrep c b cal im f freq = Ok (ps, s, f') ->
  exists ds ts, process_x c b cal x = Ok (ds, ts) /\ f' = mutated_frame c f x ds ts /\
    add_first_row splrep c im (map (pillar_of y freq) (sort_rows (fun q => snd (fst q)) (combine (combine (dates_or_none (length ts) ds) ts) (y_values y)))) = Ok (ps, s).
Proof.
  intros F X Y. assert (X2 : is_y x = false) by (destruct x; try reflexivity; discriminate).
  assert (Y2 : is_x y = false) by (destruct y; try reflexivity; discriminate).
  unfold process_pillars. intros H. apply bind_ok in H as (? & _ & H). apply bind_ok in H as (? & _ & H).
  assert (FX : filter is_x f = [x]) by (destruct F as [->| ->]; cbn; rewrite X, Y2; reflexivity).
  assert (FY : filter is_y f = [y]) by (destruct F as [->| ->]; cbn; rewrite X2, Y; reflexivity).
  rewrite FX, FY in H. apply bind_ok in H as ([ds ts] & E & H). apply bind_ok in H as ([ps' s'] & E' & H). injection H as <- <- <-.
  exists ds, ts. auto.
Qed.

Lemma add_first_row_shape splrep c im l ps s : add_first_row splrep c im l = Ok (ps, s) ->
  exists p t, l = p :: t /\ (ps = l \/ exists cc, ps = {| p_date := match p_date p with Some _ => Some c | None => None end; p_years := 0; p_cczr := cc; p_df := Some 1 |} :: l).
Proof.
  unfold add_first_row. destruct l as [|p t]; [discriminate|]. intros H. exists p, t. split; [reflexivity|].
  destruct (Req_EM_T (p_years p) 0).
  - destruct im; try discriminate; apply bind_ok in H as (sp & _ & H); injection H as <- <-; auto.
  - cbv zeta in H. destruct im; try discriminate.
    + injection H as <- <-. eauto.
    + apply bind_ok in H as (sp & _ & H). injection H as <- <-. eauto.
    + apply bind_ok in H as (sp & _ & H). injection H as <- <-. eauto.
Qed.

Lemma valid_dates_some {A} (l : list A) : valid_dates (map Some l) = l.
Proof. unfold valid_dates. induction l as [|x l IH]; cbn; [reflexivity|]. f_equal. exact IH. Qed.
Lemma Permutation_valid_dates {A} (l m : list (option A)) : Permutation l m -> Permutation (valid_dates l) (valid_dates m).
Proof. apply Permutation_flat_map. Qed.

Lemma process_x_dates c b cal x dates ds ts : quoted_dates c cal x dates -> process_x c b cal x = Ok (ds, ts) ->
  ds = Some dates /\ length ts = length dates /\ (forall d, In d dates -> (c <= d)%Z) /\ dates <> [].
Proof.
  assert (YO : forall l ts, (let* o := year_frac [c] l b None in Ok (map Q2R (out_list (length l) o))) = Ok ts ->
    length ts = length l /\ (forall d, In d l -> (c <= d)%Z) /\ l <> []).
  { intros l ts' H. apply bind_ok in H as (o & E & H). injection H as <-. rewrite map_length. split; [exact (year_frac_length _ _ _ _ E)|].
    split; [exact (year_frac_all_le _ _ _ _ E)|]. intros ->. exact (year_frac_nonempty _ _ _ E). }
  intros Q. destruct Q as [l dates F|l|l]; unfold process_x; intros H.
  - apply bind_ok in H as (os & E1 & H). apply bind_ok in H as (ds' & E2 & H). apply bind_ok in H as (ys & E3 & H). injection H as <- <-.
    assert (ds' = dates).
    { apply sequence_ok in E1. apply sequence_ok in E2. clear E3 YO. revert os ds' E1 E2. induction F as [|s d l dates (o & T & B) F IH]; intros [|o' os] [|d' ds'] E1 E2; try discriminate; [reflexivity|].
      cbn in E1, E2. injection E1 as E1 E1'. injection E2 as E2 E2'. rewrite E1 in T. injection T as <-. rewrite E2 in B. injection B as <-. f_equal. eapply IH; eassumption. }
    subst ds'. split; [reflexivity|]. apply YO. exact E3.
  - apply bind_ok in H as (ys & E3 & H). injection H as <- <-. split; [reflexivity|]. apply YO. exact E3.
  - cbv zeta in H. apply bind_ok in H as (ys & E3 & H). injection H as <- <-. split; [reflexivity|]. apply YO. exact E3.
Qed.

Lemma last_is_latest splrep c b cal im em x y f freq z f' dates : (f = [x; y] \/ f = [y; x]) -> is_y y = true ->
  new_curve splrep c b cal im f freq em = Ok (z, f') -> quoted_dates c cal x dates -> length (y_values y) = length dates ->
  z_date z = c /\ In (z_last z) dates /\ forall d, In d dates -> covered z d.
Proof.
  intros F Y H Q LY. unfold new_curve in H. apply bind_ok in H as ([[ps s] g] & PP & H). apply bind_ok in H as ([rows m] & SD & H). injection H as <- <-.
  assert (X : is_x x = true) by (destruct Q; reflexivity).
  destruct (process_pillars_inv splrep c b cal im x y f freq ps s g F X Y PP) as (ds & ts & PX & _ & AF).
  destruct (process_x_dates c b cal x dates ds ts Q PX) as (-> & LT & GE & NE). cbn [dates_or_none] in AF.
  destruct (rows_times (map Some dates) ts (y_values y)) as [_ RD]; [rewrite map_length; congruence|congruence|].
  set (rs := combine (combine (map Some dates) ts) (y_values y)) in *.
  assert (PD : Permutation (map p_date (map (pillar_of y freq) (sort_rows (fun q : row3 => snd (fst q)) rs))) (map Some dates)).
  { rewrite pillar_dates. rewrite <- RD. apply Permutation_map, sort_perm. }
  set (l := map (pillar_of y freq) (sort_rows (fun q : row3 => snd (fst q)) rs)) in *. clearbody l.
  destruct (add_first_row_shape _ _ _ _ _ _ AF) as (p & t & EL & PS).
  unfold setup_daily in SD. apply bind_ok in SD as (m' & LD & SD). cbv zeta in SD. apply bind_ok in SD as (? & _ & SD). apply bind_ok in SD as (? & _ & SD). injection SD as _ <-.
  assert (PV : Permutation (valid_dates (map p_date l)) dates) by (rewrite <- (valid_dates_some dates); apply Permutation_valid_dates; exact PD).
  assert (DP : exists d, p_date p = Some d).
  { assert (I : In (p_date p) (map Some dates)). { eapply Permutation_in; [exact PD|]. rewrite EL. left. reflexivity. }
    apply in_map_iff in I as (d & E & _). eauto. }
  destruct DP as (d0 & DP).
  assert (GOAL : (c <= m')%Z /\ In m' dates /\ forall d, In d dates -> (d <= m')%Z).
  { destruct PS as [->|(cc & ->)].
    - rewrite EL in LD, PV. cbn [last_date] in LD. rewrite DP in LD. injection LD as <-.
      assert (VE : valid_dates (map p_date (p :: t)) = d0 :: valid_dates (map p_date t)) by (cbn; rewrite DP; reflexivity). rewrite VE in PV.
      pose proof (fold_max_ge d0 (valid_dates (map p_date t))) as (H1 & H2 & H3). set (M := fold_left Z.max (valid_dates (map p_date t)) d0) in *.
      assert (In M dates). { eapply Permutation_in; [exact PV|]. destruct H3 as [->|H3]; [left; reflexivity|right; exact H3]. }
      split; [apply GE; assumption|]. split; [assumption|]. intros d I. apply (Permutation_in _ (Permutation_sym PV)) in I as [<-|I]; auto.
    - rewrite DP in LD. cbn [last_date p_date] in LD. injection LD as <-.
      pose proof (fold_max_ge c (valid_dates (map p_date l))) as (H1 & H2 & H3). set (M := fold_left Z.max (valid_dates (map p_date l)) c) in *.
      assert (H4 : forall d, In d dates -> (d <= M)%Z). { intros d I. apply H2. eapply Permutation_in; [symmetry; exact PV|exact I]. }
      split; [exact H1|]. split; [|exact H4]. destruct H3 as [H3|H3]; [|eapply Permutation_in; [exact PV|exact H3]].
      destruct dates as [|d dates]; [congruence|]. specialize (H4 d (or_introl eq_refl)). specialize (GE d (or_introl eq_refl)). left. lia. }
  destruct GOAL as (G1 & G2 & G3). cbn. split; [reflexivity|]. split; [exact G2|]. intros d I. unfold covered. cbn. split; [apply GE, I|apply G3, I].
Qed.

(* The years column: the daily data stop after the last whole year. *)
Lemma years_last splrep c b cal im em l y f freq z f' : (f = [ColYears l; y] \/ f = [y; ColYears l]) -> is_y y = true ->
  new_curve splrep c b cal im f freq em = Ok (z, f') -> length (y_values y) = length l -> plain_basis b -> Forall (fun t => 0 <= t) l ->
  exists n m, (0 <= n)%Z /\ In m l /\ Forall (fun t => t <= m) l /\ IZR n <= m < IZR n + 1 /\ z_date z = c /\
    is_least (fun d => (add_months c (12 * n) <= d)%Z /\ exists t, year_fraction b c d t /\ IZR n <= t) (z_last z).
Proof.
  intros F Y H LY PB NN. unfold new_curve in H. apply bind_ok in H as ([[ps s] g] & PP & H). apply bind_ok in H as ([rows m] & SD & H). injection H as <- <-.
  destruct (process_pillars_inv splrep c b cal im (ColYears l) y f freq ps s g F eq_refl Y PP) as (ds & ts & PX & _ & AF).
  cbn in PX. injection PX as <- <-. cbn [dates_or_none] in AF.
  destruct (rows_times (repeat None (length l)) l (y_values y)) as [RT RD]; [apply repeat_length|exact LY|].
  set (rs := combine (combine (repeat None (length l)) l) (y_values y)) in *.
  assert (PT : Permutation (map p_years (map (pillar_of y freq) (sort_rows (fun q : row3 => snd (fst q)) rs))) l).
  { rewrite pillar_years. rewrite <- RT. apply Permutation_map, sort_perm. }
  assert (PD : forall q, In q (map (pillar_of y freq) (sort_rows (fun q : row3 => snd (fst q)) rs)) -> p_date q = None).
  { intros q I. apply (in_map p_date) in I. rewrite pillar_dates in I. apply (Permutation_in _ (Permutation_map _ (sort_perm _ rs))) in I. rewrite RD in I. apply repeat_spec in I. exact I. }
  set (pl := map (pillar_of y freq) (sort_rows (fun q : row3 => snd (fst q)) rs)) in *. clearbody pl.
  destruct (add_first_row_shape _ _ _ _ _ _ AF) as (p & t & EL & PS).
  unfold setup_daily in SD. apply bind_ok in SD as (m' & LD & SD). cbv zeta in SD. apply bind_ok in SD as (? & _ & SD). apply bind_ok in SD as (? & _ & SD). injection SD as _ <-.
  assert (DP : p_date p = None) by (apply PD; rewrite EL; left; reflexivity).
  assert (MX : exists mm, In mm l /\ Forall (fun t => t <= mm) l /\ 0 <= mm /\
    extend c b (Z.to_nat (366 * (py_trunc mm + 2))) (py_trunc mm) (add_months c (12 * py_trunc mm)) = Ok m').
  { destruct PS as [->|(cc & ->)].
    - rewrite EL in LD, PT. cbn [last_date] in LD. rewrite DP in LD. cbv zeta in LD.
      pose proof (max_of_ge (p_years p) (map p_years t)) as (H1 & H2 & H3). set (M := max_of (p_years p) (map p_years t)) in *. exists M.
      assert (IM : In M l). { eapply Permutation_in; [exact PT|]. destruct H3 as [->|H3]; [left; reflexivity|right; exact H3]. }
      split; [exact IM|]. split; [|split; [rewrite Forall_forall in NN; exact (NN M IM)|exact LD]].
      apply Forall_forall. intros u I. apply (Permutation_in _ (Permutation_sym PT)) in I as [<-|I]; auto.
    - rewrite DP in LD. cbn [last_date p_date p_years] in LD. cbv zeta in LD.
      pose proof (max_of_ge 0 (map p_years pl)) as (H1 & H2 & H3). set (M := max_of 0 (map p_years pl)) in *. exists M.
      assert (IM : In M l).
      { destruct H3 as [H3|H3]; [|eapply Permutation_in; [exact PT|exact H3]].
        assert (I : In (p_years p) l). { eapply Permutation_in; [exact PT|]. rewrite EL. left. reflexivity. }
        assert (p_years p <= M). { apply H2. rewrite EL. left. reflexivity. }
        rewrite Forall_forall in NN. specialize (NN _ I). replace M with (p_years p) by lra. exact I. }
      split; [exact IM|]. split; [|split; [exact H1|exact LD]].
      apply Forall_forall. intros u I. apply (Permutation_in _ (Permutation_sym PT)) in I. auto. }
  destruct MX as (mm & IM & FM & M0 & EX). destruct (py_trunc_nonneg mm M0) as [N0 NB]. exists (py_trunc mm), mm.
  split; [exact N0|]. split; [exact IM|]. split; [exact FM|]. split; [exact NB|]. split; [reflexivity|].
  destruct (last_years c b (py_trunc mm) (proj2 PB) N0) as (m2 & E2 & L2 & R2 & MIN). rewrite EX in E2. injection E2 as <-. cbn [z_last].
  assert (QR : forall q, (inject_Z (py_trunc mm) <= q)%Q <-> IZR (py_trunc mm) <= Q2R q).
  { intros q. replace (IZR (py_trunc mm)) with (Q2R (inject_Z (py_trunc mm))) by (unfold Q2R; cbn; field). split; [apply Qle_Rle|apply Rle_Qle]. }
  pose proof (add_years_bounds c _ N0) as LB. split.
  - split; [exact L2|]. exists (Q2R (yf1 b c m')). split; [|apply QR; exact R2]. exists (yf1 b c m'). split; [apply yf1_scalar; [apply PB|lia]|reflexivity].
  - intros e (E1 & u & (q & YE & ->) & U). destruct (Z.le_gt_cases m' e) as [|G]; [assumption|]. exfalso. apply (MIN e); [lia|].
    rewrite yf1_scalar in YE by (apply PB || lia). injection YE as <-. apply QR. exact U.
Qed.

(* Reusing the caller's frame *)
Lemma frame_after splrep c b cal im em x y f freq z f' : (f = [x; y] \/ f = [y; x]) -> is_x x = true -> is_y y = true ->
  new_curve splrep c b cal im f freq em = Ok (z, f') ->
  match x with ColYears _ => f' = f | _ => (4 <= length f')%nat end.
Proof.
  intros F X Y H. unfold new_curve in H. apply bind_ok in H as ([[ps s] g] & PP & H). apply bind_ok in H as ([rows m] & SD & H). injection H as _ <-.
  destruct (process_pillars_inv splrep c b cal im x y f freq ps s g F X Y PP) as (ds & ts & PX & -> & _).
  assert (LF : length f = 2%nat) by (destruct F as [->| ->]; reflexivity).
  destruct x as [l|l|l|l|l|l|]; try discriminate; cbn [process_x] in PX.
  - apply bind_ok in PX as (? & _ & PX). apply bind_ok in PX as (? & _ & PX). apply bind_ok in PX as (? & _ & PX). injection PX as <- <-.
    cbn [mutated_frame]. rewrite app_length, map_length, LF. cbn. lia.
  - apply bind_ok in PX as (? & _ & PX). injection PX as <- <-. cbn [mutated_frame]. rewrite app_length, LF. cbn. lia.
  - apply bind_ok in PX as (? & _ & PX). injection PX as <- <-. cbn [mutated_frame]. rewrite app_length, LF. cbn. lia.
  - injection PX as <- <-. reflexivity.
Qed.
Lemma wrong_column_count splrep c b cal im em f freq : length f <> 2%nat -> new_curve splrep c b cal im f freq em = Err ValueError.
Proof.
  intros L. unfold new_curve, process_pillars. destruct (negb _); [|reflexivity]. cbn [guard bind].
  destruct (Nat.eqb_spec (length f) 2); [contradiction|reflexivity].
Qed.

(* ---- C70: legs ---- *)
Lemma curve_of_cells z ds : built z -> curve_of z ds = map (cell_df z) (filter (in_range z) ds).
Proof. intros B. unfold curve_of. rewrite (vector_lookup z ds (built_extrap z B)). reflexivity. Qed.

Lemma discount_payments_curve st z ds : built z ->
  (Forall (coveredo z) ds -> exists l, discount_payments st (Some (curve_of z)) ds = Ok l) /\
  (~ Forall (coveredo z) ds -> discount_payments st (Some (curve_of z)) ds = Err ValueError).
Proof.
  intros B. unfold discount_payments. rewrite (curve_of_cells z ds B), map_length.
  assert (FC : Forall (coveredo z) ds <-> length (filter (in_range z) ds) = length ds).
  { rewrite filter_length_all, !Forall_forall. split; intros H x I; specialize (H x I); apply in_range_covered; exact H. }
  destruct (Nat.eqb_spec (length (filter (in_range z) ds)) (length ds)) as [E|E]; cbn [guard bind]; split; intros H; try tauto; eauto.
Qed.

Lemma covered_dec z o : {coveredo z o} + {~ coveredo z o}.
Proof. destruct (in_range z o) eqn:E; [left|right]; [apply in_range_covered; exact E|]. intros C. apply in_range_covered in C. congruence. Qed.

Lemma not_Forall_covered z ds : ~ Forall (coveredo z) ds -> exists o, In o ds /\ ~ coveredo z o.
Proof.
  induction ds as [|o ds IH]; intros H; [destruct H; constructor|]. destruct (covered_dec z o) as [C|C].
  - destruct IH as (x & I & N); [intros F; apply H; constructor; assumption|]. exists x. split; [right; exact I|exact N].
  - exists o. split; [left; reflexivity|exact C].
Qed.

Lemma leg_outside st z l ov : built z -> l_curve l = Some (curve_of z) -> l_kind l <> FloatTermLeg false -> l_kind l <> FloatRFRLeg false ->
  (pays_outside z l <-> snd (calc_dirty_pv st l ov) = Err ValueError) /\
  (~ pays_outside z l -> exists v, snd (calc_dirty_pv st l ov) = Ok v).
Proof.
  intros B CV K1 K2.
  assert (CC : exists l1, calc_coupon_payment l ov = (l1, Ok tt) /\ l_curve l1 = Some (curve_of z) /\
     map r_ndate (l_rows l1) = map r_ndate (l_rows l) /\ map r_cdate (l_rows l1) = map r_cdate (l_rows l)).
  { unfold calc_coupon_payment.
    assert (OV : forall g : row -> option date, (forall r x, g (with_rate r x) = g r) -> map g (override_rows (l_rows l) ov) = map g (l_rows l)).
    { intros g G. unfold override_rows. destruct ov as [q|]; [|reflexivity]. rewrite map_map. apply map_ext. intros r. apply G. }
    destruct (l_kind l) as [|[]|[]]; try contradiction; eexists; (split; [reflexivity|]); (split; [exact CV|]);
      (split; apply OV; reflexivity). }
  destruct CC as (l1 & E1 & C1 & N1 & D1). unfold calc_dirty_pv. rewrite E1, C1, N1, D1.
  destruct (discount_payments_curve st z (map r_ndate (l_rows l)) B) as [NO NE]. destruct (discount_payments_curve st z (map r_cdate (l_rows l)) B) as [CO CE].
  assert (DEC : forall g : row -> option date, Forall (coveredo z) (map g (l_rows l)) \/ ~ Forall (coveredo z) (map g (l_rows l))).
  { intros g. destruct (Forall_dec _ (covered_dec z) (map g (l_rows l))); auto. }
  destruct (DEC r_ndate) as [FN|FN].
  - destruct (NO FN) as (ndf & ->). destruct (DEC r_cdate) as [FC|FC].
    + destruct (CO FC) as (cdf & ->). cbn [snd]. split; [|intros _; eauto]. split; [|discriminate].
      intros (r & I & H). exfalso. rewrite Forall_map, Forall_forall in FN, FC. destruct H as [H|H]; apply H; auto.
    + rewrite (CE FC). cbn [snd]. assert (PO : pays_outside z l).
      { apply not_Forall_covered in FC as (o & I & N). apply in_map_iff in I as (r & <- & I). exists r. auto. }
      split; [tauto|]. intros H. contradiction.
  - rewrite (NE FN). cbn [snd]. assert (PO : pays_outside z l).
    { apply not_Forall_covered in FN as (o & I & N). apply in_map_iff in I as (r & <- & I). exists r. auto. }
    split; [tauto|]. intros H. contradiction.
Qed.

(* ---- C38 ---- *)
Lemma built_positive z d v : built z -> discounts z d v -> 0 < v.
Proof.
  intros B H. unfold discounts in H. rewrite (scalar_lookup z _ (built_extrap z B)) in H. destruct (in_range z (Some d)) eqn:R; [|discriminate].
  unfold cell_df in H. destruct (find_day z d) as [r|] eqn:F; [|discriminate]. injection H as H.
  unfold find_day in F. apply find_some in F as [I _].
  destruct B as (sp & c & b & cal & im & f & freq & em & f' & NC & _). unfold new_curve in NC.
  apply bind_ok in NC as ([[ps s] g] & _ & NC). apply bind_ok in NC as ([rows m] & SD & NC). injection NC as <- _. cbn in I.
  unfold setup_daily in SD. apply bind_ok in SD as (m' & _ & SD). cbv zeta in SD. apply bind_ok in SD as (dd & _ & SD). apply bind_ok in SD as (yy & _ & SD).
  injection SD as <- _. apply in_map_iff in I as ([[x k] t] & <- & _).
  unfold daily_cells in H. destruct im; [|destruct s|destruct s|]; cbn in H; try discriminate.
  - destruct (np_interp _ _); cbn in H; [injection H as <-; apply exp_pos|discriminate].
  - destruct (sp_at _ _); cbn in H; [injection H as <-; apply exp_pos|discriminate].
  - destruct (sp_at _ _); cbn in H; [injection H as <-; apply exp_pos|discriminate].
Qed.

Lemma discounts_cell z (d : date) v : built z -> discounts z d v -> covered z d /\ cell_df z (@Some date d) = Some v.
Proof.
  intros B H. unfold discounts in H. rewrite (scalar_lookup z _ (built_extrap z B)) in H. destruct (in_range z (Some d)) eqn:R; [|discriminate].
  apply (in_range_covered z (Some d)) in R. injection H as H. auto.
Qed.

Lemma vector_dfs_covered z ds : built z -> (forall d, In d ds -> covered z d) -> vector_dfs z ds = Ok (map (fun d => cell_df z (Some d)) ds).
Proof.
  intros B C. unfold vector_dfs. rewrite (vector_lookup z _ (built_extrap z B)). cbn [bind cells].
  rewrite filter_all. { rewrite map_map. reflexivity. }
  apply Forall_map, Forall_forall. intros d I. apply in_range_covered. exact (C d I).
Qed.

Lemma all_dates_some (l : list date) : all_dates (map Some l) = Ok l.
Proof. unfold all_dates. apply sequence_ok. rewrite map_map. reflexivity. Qed.

Lemma list_ext {A} (l m : list A) : (forall i, nth_error l i = nth_error m i) -> l = m.
Proof.
  revert m. induction l as [|x l IH]; intros [|y m] H; [reflexivity|specialize (H 0%nat); discriminate|specialize (H 0%nat); discriminate|].
  f_equal; [specialize (H 0%nat); cbn in H; congruence|]. apply IH. intros i. exact (H (S i)).
Qed.

Lemma year_frac_pairs (s e : list date) b : plain_basis b -> length s = length e -> (forall i x y, nth_error s i = Some x -> nth_error e i = Some y -> (x <= y)%Z) ->
  exists o, year_frac s e b None = Ok o /\ out_list 1 o = map2 (yf1 b) s e.
Proof.
  intros PB L LE.
  assert (NB : ~ bad_pair s e) by (intros (i & x & y & H1 & H2 & H3); specialize (LE i x y H1 H2); lia).
  destruct s as [|x [|x' s]], e as [|y [|y' e]]; try discriminate.
  - exists (Vector []). destruct b; try (split; reflexivity). destruct (proj2 PB eq_refl).
  - assert (XY : (x <= y)%Z) by (apply (LE 0%nat); reflexivity).
    exists (Scalar (yf1 b x y)). split; [apply yf1_scalar; [apply PB|exact XY]|reflexivity].
  - set (s2 := x :: x' :: s) in *. set (e2 := y :: y' :: e) in *.
    destruct (year_frac_vector s2 e2 b L) as (r & E & LR & V); [cbn; lia|exact NB|apply PB|].
    exists (Vector r). split; [exact E|]. cbn [out_list].
    assert (LM : length (map2 (yf1 b) s2 e2) = length s2) by (rewrite map2_length; lia).
    clearbody s2 e2. clear x x' s y y' e. apply list_ext. intros i.
    destruct (nth_error s2 i) as [x|] eqn:EX.
    + destruct (nth_error e2 i) as [y|] eqn:EY.
      * destruct (V i x y EX EY) as (q & Q & S). rewrite Q. symmetry. rewrite (map2_nth (yf1 b) s2 e2 i x y EX EY). f_equal.
        assert (K : year_frac [x] [y] b (Some [(i =? length s2 - 1)%nat]) = year_frac [x] [y] b None)
          by (destruct b; try reflexivity; [destruct (proj1 PB eq_refl)]).
        rewrite K, yf1_scalar in S by (apply PB || exact (LE i x y EX EY)). congruence.
      * exfalso. apply nth_error_None in EY. assert (i < length s2)%nat by (apply nth_error_Some; congruence). lia.
    + apply nth_error_None in EX. rewrite (proj2 (nth_error_None r i)), (proj2 (nth_error_None (map2 (yf1 b) s2 e2) i)) by lia. reflexivity.
Qed.

Lemma combine_forallb (s e : list date) : length s = length e -> (forall i x y, nth_error s i = Some x -> nth_error e i = Some y -> (x <= y)%Z) ->
  forallb (fun q => (fst q <=? snd q)%Z) (combine s e) = true.
Proof.
  revert e. induction s as [|x s IH]; intros [|y e] L H; try discriminate; [reflexivity|]. cbn. apply andb_true_iff. split.
  - apply Z.leb_le. apply (H 0%nat); reflexivity.
  - apply IH; [cbn in L; lia|]. intros i a c Ha Hc. exact (H (S i) a c Ha Hc).
Qed.

Lemma forwards_checked z s e ft : in_order z s e ->
  get_forward_rates z (map Some s) (map Some e) ft =
  match ft with FWeightedAverage => average_forwards z false s e | FSimpleAverage => average_forwards z true s e | _ => period_forwards z ft s e end.
Proof.
  intros [L H]. unfold get_forward_rates. rewrite !map_length. destruct (Nat.eqb_spec (length s) (length e)) as [_|N]; [|contradiction].
  cbn [guard bind]. rewrite !all_dates_some. cbn [bind].
  assert (G : forallb (fun d => (z_date z <=? d)%Z) s = true).
  { apply forallb_forall. intros d I. apply In_nth_error in I as (i & E). assert (LI : (i < length s)%nat) by (apply (proj1 (@nth_error_Some date s i)); intros K; discriminate (eq_trans (eq_sym E) K)). rewrite L in LI.
    apply (proj2 (@nth_error_Some date e i)) in LI. destruct (nth_error e i) as [y|] eqn:EY; [|destruct (LI eq_refl)]. specialize (H i d y E EY). lia. }
  rewrite G. cbn [guard bind]. rewrite combine_forallb; [reflexivity|exact L|]. intros i x y Hx Hy. specialize (H i x y Hx Hy). lia.
Qed.

Definition forward_cell (ft : forward_type) (t : R) (a c : option R) : option R :=
  let inv := np_div 1 t in
  match ft with
  | FSimple | FDailyCompounded => let? i := inv in let? q := nan_div a c in Some (i * (q - 1))
  | FContinuous => let? i := inv in let? q := (let? x := nan_log a in let? y := nan_log c in Some (x - y)) in Some (i * q)
  | FAnnual => let? i := inv in let? q := nan_div a c in let? p := np_pow q i in Some (p - 1)
  | _ => None
  end.

Lemma with_series_zip {A B C D E} (f : A -> B -> C) (g : D -> E -> B) (h : Q -> A) (ts : list Q) (l : list D) (m : list E) :
  length l = length ts -> length m = length ts ->
  (let* q := broadcast g l m in with_series f (map h ts) q) = Ok (map2 (fun t p => f (h t) (g (fst p) (snd p))) ts (combine l m)).
Proof.
  intros L1 L2. unfold broadcast. rewrite L1, L2, Nat.eqb_refl. cbn [bind]. unfold with_series. rewrite map2_length, map_length, L1, L2, Nat.min_id, Nat.eqb_refl.
  f_equal. clear -L1 L2. revert l m L1 L2. induction ts as [|t ts IH]; intros [|x l] [|y m] L1 L2; try discriminate; [reflexivity|].
  cbn in *. unfold map2 in *. cbn. f_equal. apply IH; lia.
Qed.

Lemma period_forwards_cells z ft s e : built z -> plain_basis (z_basis z) -> period_type ft -> in_order z s e ->
  (forall d, In d s \/ In d e -> covered z d) ->
  period_forwards z ft s e = Ok (map2 (fun t p => forward_cell ft (Q2R t) (fst p) (snd p)) (map2 (yf1 (z_basis z)) s e)
      (combine (map (fun d => cell_df z (Some d)) s) (map (fun d => cell_df z (Some d)) e))).
Proof.
  intros B PB PT [L O] C. unfold period_forwards.
  destruct (year_frac_pairs s e (z_basis z) PB L) as (o & Y & OL). { intros i x y Hx Hy. specialize (O i x y Hx Hy). lia. }
  rewrite Y. cbn [bind]. rewrite OL. cbv zeta. rewrite !vector_dfs_covered by (try exact B; intros d I; apply C; auto). cbn [bind].
  set (ts := map2 (yf1 (z_basis z)) s e). assert (LT : length ts = length s) by (unfold ts; rewrite map2_length; lia).
  rewrite map_map. assert (L1 : length (map (fun d => cell_df z (Some d)) s) = length ts) by (rewrite map_length; lia).
  assert (L2 : length (map (fun d => cell_df z (Some d)) e) = length ts) by (rewrite map_length; lia).
  destruct PT as [->|[->|[->| ->]]]; cbv iota; rewrite with_series_zip by assumption; reflexivity.
Qed.

Lemma forward_cell_growth ft t a c : period_type ft -> 0 < a -> 0 < c -> t <> 0 -> exists r, forward_cell ft t (Some a) (Some c) = Some r /\ a = c * growth ft t r.
Proof.
  intros PT A C T. assert (Q : 0 < a / c) by (apply Rdiv_lt_0_compat; assumption).
  destruct PT as [->|[->|[->| ->]]]; unfold forward_cell; rewrite np_div_nz by exact T; cbn [obind nan_div nan_log growth]; rewrite ?np_div_nz by lra; cbn [obind].
  - eexists. split; [reflexivity|]. field. lra.
  - eexists. split; [reflexivity|]. field. lra.
  - rewrite !np_log_pos by assumption. cbn [obind]. eexists. split; [reflexivity|].
    replace (1 / t * (ln a - ln c) * t) with (ln a - ln c) by (field; exact T).
    unfold Rminus. rewrite exp_plus, exp_Ropp, !exp_ln by assumption. field. lra.
  - rewrite np_pow_pos by exact Q. cbn [obind]. eexists. split; [reflexivity|].
    replace (1 + (Rpower (a / c) (1 / t) - 1)) with (Rpower (a / c) (1 / t)) by ring. rewrite Rpower_mult.
    replace (1 / t * t) with 1 by (field; exact T). rewrite Rpower_1 by exact Q. field. lra.
Qed.
Lemma forward_cell_zero ft a c : period_type ft -> forward_cell ft 0 a c = None.
Proof. intros [->|[->|[->| ->]]]; unfold forward_cell; rewrite np_div_zero; reflexivity. Qed.

Lemma map2_combine_nth {A B C D} (f : A -> B * C -> D) l m n i x y w : nth_error l i = Some x -> nth_error m i = Some y -> nth_error n i = Some w ->
  nth_error (map2 f l (combine m n)) i = Some (f x (y, w)).
Proof. intros H1 H2 H3. apply map2_nth; [exact H1|]. apply combine_nth_error; assumption. Qed.

Lemma forwards_no_arbitrage z ft s e : built z -> plain_basis (z_basis z) -> period_type ft -> in_order z s e ->
  (forall d, In d s \/ In d e -> covered z d) ->
  exists fs, get_forward_rates z (map Some s) (map Some e) ft = Ok fs /\ length fs = length s /\
    forall i x y t v w, nth_error s i = Some x -> nth_error e i = Some y -> year_fraction (z_basis z) x y t -> discounts z x v -> discounts z y w ->
      (t <> 0 -> exists r, nth_error fs i = Some (Some r) /\ v = w * growth ft t r) /\ (t = 0 -> nth_error fs i = Some None).
Proof.
  intros B PB PT O C. assert (E : get_forward_rates z (map Some s) (map Some e) ft = period_forwards z ft s e).
  { rewrite (forwards_checked z s e ft O). destruct PT as [->|[->|[->| ->]]]; reflexivity. }
  rewrite E, (period_forwards_cells z ft s e B PB PT O C). eexists. split; [reflexivity|]. destruct O as [L O]. split.
  { rewrite !map2_length, combine_length, !map_length. lia. }
  intros i x y t v w Hx Hy (q & Y & ->) V W. specialize (O i x y Hx Hy).
  rewrite yf1_scalar in Y by (apply PB || lia). injection Y as <-.
  rewrite (map2_combine_nth _ _ _ _ i (yf1 (z_basis z) x y) (cell_df z (Some x)) (cell_df z (Some y))).
  2: apply map2_nth; assumption. 2: rewrite nth_error_map, Hx; reflexivity. 2: rewrite nth_error_map, Hy; reflexivity.
  cbn [fst snd]. rewrite (proj2 (discounts_cell z x v B V)), (proj2 (discounts_cell z y w B W)). split.
  - intros T. destruct (forward_cell_growth ft (Q2R (yf1 (z_basis z) x y)) v w PT) as (r & -> & G); try assumption.
    { eapply built_positive; eassumption. } { eapply built_positive; eassumption. } eauto.
  - intros ->. rewrite forward_cell_zero by exact PT. reflexivity.
Qed.

Lemma covered_discounts_forward z ft x y t r : built z -> plain_basis (z_basis z) -> period_type ft -> (z_date z <= x <= y)%Z -> covered z x -> covered z y ->
  year_fraction (z_basis z) x y t -> get_forward_rates z [Some x] [Some y] ft = Ok [Some r] -> forall v w, discounts z x v -> discounts z y w -> v = w * growth ft t r.
Proof.
  intros B PB PT O CX CY YF H v w V W.
  destruct (forwards_no_arbitrage z ft [x] [y] B PB PT) as (fs & E & _ & G).
  { split; [reflexivity|]. intros i a c Ha Hc. destruct i as [|i]; cbn in Ha, Hc; [|destruct i; discriminate]. congruence || (injection Ha as <-; injection Hc as <-; exact O). }
  { intros d [[<-|[]]|[<-|[]]]; assumption. }
  pose proof (eq_trans (eq_sym H) E) as K. clear E. injection K as <-.
  destruct (G 0%nat x y t v w eq_refl eq_refl YF V W) as [G1 G2]. destruct (Req_dec t 0) as [T|T].
  - specialize (G2 T). discriminate.
  - destruct (G1 T) as (r' & E & GG). cbn in E. injection E as <-. exact GG.
Qed.

Lemma forwards_join z ft x y w t1 t2 t r1 r2 r u1 u2 u3 : built z -> plain_basis (z_basis z) -> period_type ft -> (z_date z <= x <= y)%Z -> (y <= w)%Z ->
  discounts z x u1 -> discounts z y u2 -> discounts z w u3 ->
  year_fraction (z_basis z) x y t1 -> year_fraction (z_basis z) y w t2 -> year_fraction (z_basis z) x w t ->
  get_forward_rates z [Some x] [Some y] ft = Ok [Some r1] -> get_forward_rates z [Some y] [Some w] ft = Ok [Some r2] ->
  get_forward_rates z [Some x] [Some w] ft = Ok [Some r] -> growth ft t1 r1 * growth ft t2 r2 = growth ft t r.
Proof.
  intros B PB PT O1 O2 U1 U2 U3 Y1 Y2 Y3 F1 F2 F3.
  assert (CX := proj1 (discounts_cell z x u1 B U1)). assert (CY := proj1 (discounts_cell z y u2 B U2)). assert (CW := proj1 (discounts_cell z w u3 B U3)).
  pose proof (covered_discounts_forward z ft x y t1 r1 B PB PT ltac:(lia) CX CY Y1 F1 u1 u2 U1 U2) as E1.
  pose proof (covered_discounts_forward z ft y w t2 r2 B PB PT ltac:(lia) CY CW Y2 F2 u2 u3 U2 U3) as E2.
  pose proof (covered_discounts_forward z ft x w t r B PB PT ltac:(lia) CX CW Y3 F3 u1 u3 U1 U3) as E3.
  pose proof (built_positive z w u3 B U3) as P3. rewrite E1, E2 in E3.
  apply Rmult_eq_reg_l with u3; [|lra]. rewrite <- E3. ring.
Qed.

(* the misalignment: the second period ends after the curve *)
Lemma forward_misaligned z (x1 y1 x2 y2 : date) v1 v2 w1 t2 : built z -> plain_basis (z_basis z) -> (z_date z <= x1 <= y1)%Z -> (z_date z <= x2 <= y2)%Z ->
  discounts z x1 v1 -> discounts z x2 v2 -> discounts z y1 w1 -> (z_last z < y2)%Z -> year_fraction (z_basis z) x2 y2 t2 -> t2 <> 0 ->
  exists r1, get_forward_rates z [Some x1; Some x2] [Some y1; Some y2] FSimple = Ok [r1; Some (1 / t2 * (v2 / w1 - 1))].
Proof.
  intros B PB O1 O2 V1 V2 W1 OUT (q & Y & ->) T.
  rewrite yf1_scalar in Y by (apply PB || lia). injection Y as <-.
  change ([Some x1; Some x2]) with (map Some [x1; x2]). change ([Some y1; Some y2]) with (map Some [y1; y2]).
  assert (O : in_order z [x1; x2] [y1; y2]).
  { split; [reflexivity|]. intros i a c Ha Hc. destruct i as [|[|[|i]]]; cbn in Ha, Hc; try discriminate; injection Ha as <-; injection Hc as <-; assumption. }
  rewrite (forwards_checked z _ _ _ O). unfold period_forwards.
  destruct (year_frac_pairs [x1; x2] [y1; y2] (z_basis z) PB eq_refl) as (o & Y & OL).
  { intros i a c Ha Hc. pose proof (proj2 O i a c Ha Hc). lia. }
  rewrite Y. cbn [bind]. rewrite OL. cbv zeta.
  rewrite (vector_dfs_covered z [x1; x2] B).
  2: { intros d [<-|[<-|[]]]; eapply discounts_cell; eassumption. }
  assert (E2 : vector_dfs z [y1; y2] = Ok [cell_df z (Some y1)]).
  { unfold vector_dfs. rewrite (vector_lookup z _ (built_extrap z B)). cbn [map filter].
    assert (R1 : in_range z (@Some date y1) = true) by (apply in_range_covered; exact (proj1 (discounts_cell z y1 w1 B W1))).
    assert (R2 : in_range z (@Some date y2) = false).
    { destruct (in_range z (Some y2)) eqn:R; [|reflexivity]. apply in_range_covered in R. unfold coveredo, covered in R. lia. }
    rewrite R1, R2. reflexivity. }
  rewrite E2. cbn [bind map].
  rewrite (proj2 (discounts_cell z x1 v1 B V1)), (proj2 (discounts_cell z x2 v2 B V2)), (proj2 (discounts_cell z y1 w1 B W1)).
  pose proof (built_positive z y1 w1 B W1) as PW. unfold broadcast. cbn [length Nat.eqb]. cbn [bind map nan_div obind]. rewrite !np_div_nz by lra.
  unfold with_series. cbn. rewrite (np_div_nz 1 (Q2R (yf1 (z_basis z) x2 y2))) by exact T. cbn. eauto.
Qed.

(* averages of daily rates *)
Fixpoint days_from (a : date) (n : nat) : list date := match n with O => [] | S k => a :: days_from (a + 1)%Z k end.
Lemma date_range_days (a e : date) : date_range a e = days_from a (Z.to_nat (e - a + 1)).
Proof.
  unfold date_range. generalize (Z.to_nat (e - a + 1)). intros n. clear e.
  assert (G : forall n a k, map (fun i => (a + Z.of_nat i)%Z) (seq k n) = days_from (a + Z.of_nat k)%Z n).
  { induction n0 as [|m IH]; intros c k; [reflexivity|]. cbn [seq map days_from]. f_equal. rewrite IH. f_equal. lia. }
  rewrite G. f_equal. lia.
Qed.
Lemma days_from_app a n m : days_from a (n + m) = (days_from a n ++ days_from (a + Z.of_nat n)%Z m)%list.
Proof.
  revert a. induction n as [|n IH]; intros a; [cbn; f_equal; lia|]. cbn [Nat.add days_from List.app]. f_equal. rewrite IH.
  replace (a + 1 + Z.of_nat n)%Z with (a + Z.of_nat (S n))%Z by lia. reflexivity.
Qed.
Lemma in_days_from d a n : In d (days_from a n) -> (a <= d < a + Z.of_nat n)%Z.
Proof. revert a. induction n as [|n IH]; intros a; [intros []|]. intros [<-|I]; [lia|]. specialize (IH _ I). lia. Qed.
Lemma days_from_length a n : length (days_from a n) = n.
Proof. revert a. induction n as [|n IH]; intros a; [reflexivity|]. cbn. rewrite IH. reflexivity. Qed.
Lemma removelast_days {A} (f : date -> A) a n : removelast (map f (days_from a (S n))) = map f (days_from a n).
Proof. revert a. induction n as [|n IH]; intros a; [reflexivity|]. specialize (IH (a + 1)%Z). cbn in *. rewrite IH. reflexivity. Qed.
Lemma map2_same {A B C D} (g : B -> C -> D) (f : A -> B) (h : A -> C) l : map2 g (map f l) (map h l) = map (fun x => g (f x) (h x)) l.
Proof. induction l as [|x l IH]; [reflexivity|]. unfold map2 in *. cbn. rewrite IH. reflexivity. Qed.
Lemma map_days_succ {A} (f : date -> A) a n : map f (days_from (a + 1)%Z n) = map (fun d => f (d + 1)%Z) (days_from a n).
Proof. revert a. induction n as [|n IH]; intros a; [reflexivity|]. cbn. rewrite IH. reflexivity. Qed.
Lemma combine_map {A B C} (f : A -> B) (g : A -> C) l : combine (map f l) (map g l) = map (fun x => (f x, g x)) l.
Proof. induction l as [|x l IH]; [reflexivity|]. cbn. rewrite IH. reflexivity. Qed.
Lemma filter_map_comm {A B} (p : B -> bool) (f : A -> B) l : filter p (map f l) = map f (filter (fun x => p (f x)) l).
Proof. induction l as [|x l IH]; [reflexivity|]. cbn. destruct (p (f x)); cbn; rewrite IH; reflexivity. Qed.
Lemma filter_none {A} (p : A -> bool) l : (forall x, In x l -> p x = false) -> filter p l = [].
Proof. induction l as [|x l IH]; intros H; [reflexivity|]. cbn. rewrite (H x) by (left; reflexivity). apply IH. intros y I. apply H. right. exact I. Qed.
Lemma filter_same {A} (p q : A -> bool) l : (forall x, In x l -> p x = q x) -> filter p l = filter q l.
Proof.
  induction l as [|x l IH]; intros H; [reflexivity|]. cbn. rewrite (H x) by (left; reflexivity). rewrite IH; [reflexivity|]. intros y I. apply H. right. exact I.
Qed.

Lemma filter_window (p : date -> bool) (m : date) n (a c : date) : (m <= a)%Z -> (a <= c)%Z -> (c <= m + Z.of_nat n)%Z ->
  filter (fun d : date => (a <=? d)%Z && (d <? c)%Z && p d) (days_from m n) = filter p (days_from a (Z.to_nat (c - a))).
Proof.
  intros H1 H2 H3. set (i := Z.to_nat (a - m)). set (j := Z.to_nat (c - a)). set (k := Z.to_nat (m + Z.of_nat n - c)).
  replace n with (i + (j + k))%nat by (unfold i, j, k; lia). rewrite !days_from_app, !filter_app.
  replace (m + Z.of_nat i)%Z with a by (unfold i; lia). replace (a + Z.of_nat j)%Z with c by (unfold j; lia).
  rewrite (filter_none _ (days_from m i)), (filter_none _ (days_from c k)), app_nil_r; cbn [List.app].
  - apply filter_same. intros d I. apply in_days_from in I. destruct (Z.leb_spec a d), (Z.ltb_spec d c); try reflexivity; unfold j in I; lia.
  - intros d I. apply in_days_from in I. destruct (Z.ltb_spec d c); [lia|]. rewrite andb_false_r. reflexivity.
  - intros d I. apply in_days_from in I. destruct (Z.leb_spec a d); [unfold i in I; lia|]. reflexivity.
Qed.

Lemma mean_days p f a n : series_mean (map (fun d => Some (f d)) (filter p (days_from a n))) =
  match count_days p a n with O => None | _ => Some (sum_days (where_ p f) a n / INR (count_days p a n)) end.
Proof.
  unfold series_mean. replace (valid_dates (map (fun d => Some (f d)) (filter p (days_from a n)))) with (map f (filter p (days_from a n))).
  2: { induction (filter p (days_from a n)) as [|x l IH]; [reflexivity|]. cbn. rewrite IH. reflexivity. }
  assert (L : length (map f (filter p (days_from a n))) = count_days p a n).
  { rewrite map_length. revert a. induction n as [|n IH]; intros a; [reflexivity|]. cbn. destruct (p a); cbn; rewrite IH; reflexivity. }
  assert (F : fold_right Rplus 0 (map f (filter p (days_from a n))) = sum_days (where_ p f) a n).
  { clear L. revert a. induction n as [|n IH]; intros a; [reflexivity|]. cbn. unfold where_ at 1. destruct (p a); cbn; rewrite IH; ring. }
  cbv zeta. rewrite <- F, <- L. destruct (map f (filter p (days_from a n))); reflexivity.
Qed.

Lemma min_date_le x l : (min_date x l <= x)%Z /\ (forall y, In y l -> (min_date x l <= y)%Z) /\ (min_date x l = x \/ In (min_date x l) l).
Proof.
  unfold min_date. revert x. induction l as [|y l IH]; intros x; cbn; [repeat split; [lia|intros y []|auto]|].
  destruct (IH (Z.min x y)) as (A1 & A2 & A3). repeat split; [lia|intros w [<-|I]; [lia|auto]|].
  destruct A3 as [A3|A3]; [|auto]. rewrite A3. destruct (Z.min_spec x y) as [[_ ->]|[_ ->]]; auto.
Qed.
Lemma max_date_ge x l : (x <= max_date x l)%Z /\ (forall y, In y l -> (y <= max_date x l)%Z) /\ (max_date x l = x \/ In (max_date x l) l).
Proof.
  unfold max_date. revert x. induction l as [|y l IH]; intros x; cbn; [repeat split; [lia|intros y []|auto]|].
  destruct (IH (Z.max x y)) as (A1 & A2 & A3). repeat split; [lia|intros w [<-|I]; [lia|auto]|].
  destruct A3 as [A3|A3]; [|auto]. rewrite A3. destruct (Z.max_spec x y) as [[_ ->]|[_ ->]]; auto.
Qed.

Lemma map2_ext_nth {A B C} (f g : A -> B -> C) l m : (forall i x y, nth_error l i = Some x -> nth_error m i = Some y -> f x y = g x y) -> map2 f l m = map2 g l m.
Proof.
  revert m. induction l as [|x l IH]; intros [|y m] H; try reflexivity. unfold map2 in *. cbn. f_equal; [apply (H 0%nat); reflexivity|].
  apply IH. intros i a c Ha Hc. exact (H (S i) a c Ha Hc).
Qed.

Lemma average_forwards_value z bd s e : built z -> in_order z s e -> s <> [] -> (forall d, In d e -> (d <= z_last z)%Z) ->
  average_forwards z bd s e = Ok (map2 (fun a c => series_mean (map (fun d =>
      let? m := nan_div (cell_df z (@Some date d)) (cell_df z (@Some date (d + 1)%Z)) in let? n := days_per_year (z_basis z) in Some ((m - 1) * n))
      (filter (fun d => negb bd || is_busday (z_cal z) d) (days_from a (Z.to_nat (c - a)))))) s e).
Proof.
  intros B [L O] NE CE. unfold average_forwards. destruct s as [|s0 st]; [contradiction|]. destruct e as [|e0 et]; [discriminate|].
  cbv zeta. destruct (min_date_le s0 st) as (M1 & M2 & M3). destruct (max_date_ge e0 et) as (X1 & X2 & X3).
  set (m := min_date s0 st) in *. set (x := max_date e0 et) in *.
  assert (O0 := O 0%nat s0 e0 eq_refl eq_refl).
  assert (DM : (z_date z <= m)%Z).
  { destruct M3 as [->|I]; [lia|]. apply In_nth_error in I as (i & E). assert (LI : (i < length st)%nat) by (apply (proj1 (@nth_error_Some date st i)); intros K; discriminate (eq_trans (eq_sym E) K)).
    assert (LI2 : (i < length et)%nat) by (cbn in L; lia). apply (proj2 (@nth_error_Some date et i)) in LI2. destruct (nth_error et i) as [y|] eqn:EY; [|destruct (LI2 eq_refl)].
    exact (proj1 (O (S i) m y E EY)). }
  assert (DX : (x <= z_last z)%Z) by (destruct X3 as [->|I]; apply CE; [left; reflexivity|right; exact I]).
  assert (MX : (m <= x)%Z) by lia.
  rewrite (vector_dfs_covered z _ B). 2: { intros d I. apply in_date_range in I. unfold covered. lia. }
  cbn [bind]. rewrite date_range_days. set (n := Z.to_nat (x - m)). replace (Z.to_nat (x - m + 1)) with (S n) by (unfold n; lia).
  rewrite removelast_days. change (tl (map (fun d => cell_df z (Some d)) (days_from m (S n)))) with (map (fun d => cell_df z (Some d)) (days_from (m + 1)%Z n)).
  rewrite map_days_succ, map2_same, map_map.
  replace (removelast (days_from m (S n))) with (days_from m n). 2: { rewrite <- (map_id (days_from m n)), <- (removelast_days (fun d => d)). rewrite map_id. reflexivity. }
  rewrite map_length, Nat.eqb_refl. cbn [guard bind]. f_equal. apply map2_ext_nth. intros i a c Ha Hc.
  rewrite <- (map_id (days_from m n)) at 1. rewrite combine_map, filter_map_comm, map_map. cbn [fst snd].
  assert (OI := O i a c Ha Hc).
  assert (MA : (m <= a)%Z). { destruct i as [|i]; cbn in Ha; [injection Ha as <-; exact M1|]. apply M2. eapply nth_error_In; exact Ha. }
  assert (CX : (c <= x)%Z). { destruct i as [|i]; cbn in Hc; [injection Hc as <-; exact X1|]. apply X2. eapply nth_error_In; exact Hc. }
  rewrite (filter_window (fun d : date => negb bd || is_busday (z_cal z) d) m n a c) by (unfold n; lia). reflexivity.
Qed.

Lemma averages z bd s e v N : built z -> in_order z s e -> s <> [] -> (forall d, In d e -> (d <= z_last z)%Z) ->
  (forall d, covered z d -> discounts z d (v d)) -> days_per_year (z_basis z) = Some N ->
  get_forward_rates z (map Some s) (map Some e) (if bd : bool then FSimpleAverage else FWeightedAverage) =
  Ok (map2 (average (if bd then is_busday (z_cal z) else any_day) (daily_rate v N)) s e).
Proof.
  intros B O NE CE V DN. rewrite (forwards_checked z s e _ O).
  transitivity (average_forwards z bd s e); [destruct bd; reflexivity|].
  rewrite (average_forwards_value z bd s e B O NE CE). f_equal. apply map2_ext_nth. intros i a c Ha Hc.
  assert (OI := proj2 O i a c Ha Hc). assert (CC := CE c (nth_error_In _ _ Hc)).
  unfold average. set (p := if bd then is_busday (z_cal z) else any_day).
  rewrite (filter_same _ p). 2: { intros d _. unfold p. destruct bd; reflexivity. }
  rewrite <- (mean_days p (daily_rate v N)). f_equal. apply map_ext_in. intros d I. apply filter_In in I as [I _]. apply in_days_from in I.
  assert (C1 : covered z d) by (unfold covered; lia). assert (C2 : covered z (d + 1)%Z) by (unfold covered; lia).
  rewrite (proj2 (discounts_cell z d _ B (V d C1))), (proj2 (discounts_cell z (d + 1)%Z _ B (V _ C2))). cbn [nan_div obind].
  rewrite np_div_nz. 2: { pose proof (built_positive z (d + 1)%Z _ B (V _ C2)). lra. } cbn [obind]. rewrite DN. reflexivity.
Qed.

Lemma missing_dates (g : date -> option R) l : valid_dates (map (fun d => let? m := g d in let? n := None in Some ((m - 1) * n)) l) = [].
Proof. unfold valid_dates. induction l as [|d l IH]; [reflexivity|]. cbn [map flat_map]. rewrite IH. destruct (g d); reflexivity. Qed.

Lemma averages_missing z bd s e : built z -> in_order z s e -> s <> [] -> (forall d, In d e -> (d <= z_last z)%Z) ->
  days_per_year (z_basis z) = None ->
  get_forward_rates z (map Some s) (map Some e) (if bd : bool then FSimpleAverage else FWeightedAverage) = Ok (map (fun _ => None) s).
Proof.
  intros B O NE CE DN. rewrite (forwards_checked z s e _ O).
  transitivity (average_forwards z bd s e); [destruct bd; reflexivity|].
  rewrite (average_forwards_value z bd s e B O NE CE). f_equal. rewrite DN.
  apply list_ext. intros i. rewrite nth_error_map. destruct (nth_error s i) as [a|] eqn:Ha.
  - assert (LI : (i < length s)%nat) by (apply (proj1 (@nth_error_Some date s i)); intros K; discriminate (eq_trans (eq_sym Ha) K)).
    rewrite (proj1 O) in LI. apply (proj2 (@nth_error_Some date e i)) in LI. destruct (nth_error e i) as [c|] eqn:Hc; [|destruct (LI eq_refl)].
    rewrite (map2_nth _ s e i a c Ha Hc). cbn [option_map]. f_equal. unfold series_mean.
    set (l := filter _ _). clearbody l. assert (E : valid_dates (map (fun d => let? m := nan_div (cell_df z (@Some date d)) (cell_df z (@Some date (d + 1)%Z)) in let? n := None in Some ((m - 1) * n)) l) = []).
    { apply (missing_dates (fun d => nan_div (cell_df z (@Some date d)) (cell_df z (@Some date (d + 1)%Z)))). }
    rewrite E. reflexivity.
  - cbn. apply nth_error_None. rewrite map2_length. apply nth_error_None in Ha. lia.
Qed.

(* weighted average against daily compounded *)
Lemma prod_telescopes v a n : (forall d, (a <= d <= a + Z.of_nat n)%Z -> 0 < v d) -> prod_days (fun d => v d / v (d + 1)%Z) a n = v a / v (a + Z.of_nat n)%Z.
Proof.
  revert a. induction n as [|n IH]; intros a P; cbn [prod_days].
  - replace (a + Z.of_nat 0)%Z with a by lia. field. apply Rgt_not_eq. apply P. lia.
  - rewrite IH by (intros d D; apply P; lia). replace (a + 1 + Z.of_nat n)%Z with (a + Z.of_nat (S n))%Z by lia.
    pose proof (P (a + 1)%Z ltac:(lia)). pose proof (P (a + Z.of_nat (S n))%Z ltac:(lia)). field. split; lra.
Qed.
Lemma sum_below_prod f a n : (forall d, (a <= d < a + Z.of_nat n)%Z -> 0 <= f d) -> 0 <= sum_days f a n /\ 1 + sum_days f a n <= prod_days (fun d => 1 + f d) a n.
Proof.
  revert a. induction n as [|n IH]; intros a P; cbn [sum_days prod_days]; [split; lra|].
  destruct (IH (a + 1)%Z) as [S1 S2]; [intros d D; apply P; lia|]. pose proof (P a ltac:(lia)). split; [lra|]. nra.
Qed.
Lemma sum_days_scale f c a n : sum_days (fun d => f d * c) a n = sum_days f a n * c.
Proof. revert a. induction n as [|n IH]; intros a; cbn; [ring|]. rewrite IH. ring. Qed.
Lemma sum_days_ext f g a n : (forall d, (a <= d < a + Z.of_nat n)%Z -> f d = g d) -> sum_days f a n = sum_days g a n.
Proof. revert a. induction n as [|n IH]; intros a H; cbn; [reflexivity|]. rewrite (H a) by lia. rewrite IH; [reflexivity|]. intros d D. apply H. lia. Qed.
Lemma prod_days_ext f g a n : (forall d, (a <= d < a + Z.of_nat n)%Z -> f d = g d) -> prod_days f a n = prod_days g a n.
Proof. revert a. induction n as [|n IH]; intros a H; cbn; [reflexivity|]. rewrite (H a) by lia. rewrite IH; [reflexivity|]. intros d D. apply H. lia. Qed.

Lemma act_days_per_year b N (x y : date) : (b = ACT_360 \/ b = ACT_365 \/ b = ACT_366) -> days_per_year b = Some N -> (x <= y)%Z -> year_fraction b x y (IZR (y - x) / N) /\ 0 < N.
Proof.
  intros H D L.
  destruct H as [->|[->| ->]]; injection D as <-; (split; [|lra]); unfold year_fraction; eexists; (split; [apply yf1_scalar; [discriminate|exact L]|]);
    unfold yf1, dc_act; rewrite Q2R_div by discriminate; unfold inject_Z, Q2R; cbn [Qnum Qden]; field.
Qed.

Lemma average_below_compounded z v N (a c : date) w r : built z -> (z_basis z = ACT_360 \/ z_basis z = ACT_365 \/ z_basis z = ACT_366) ->
  days_per_year (z_basis z) = Some N -> (z_date z <= a < c)%Z -> (c <= z_last z)%Z -> (forall d, covered z d -> discounts z d (v d)) ->
  (forall d, (a <= d < c)%Z -> v (d + 1)%Z <= v d) ->
  get_forward_rates z [Some a] [Some c] FWeightedAverage = Ok [w] -> get_forward_rates z [Some a] [Some c] FDailyCompounded = Ok [r] ->
  exists x y, w = Some x /\ r = Some y /\ x <= y.
Proof.
  intros B BB DN AC CL V MONO W R.
  assert (PB : plain_basis (z_basis z)) by (destruct BB as [->|[->| ->]]; split; discriminate).
  assert (O : in_order z [a] [c]).
  { split; [reflexivity|]. intros i p q Hp Hq. destruct i as [|i]; cbn in Hp, Hq; [|destruct i; discriminate]. injection Hp as <-. injection Hq as <-. lia. }
  assert (CE : forall d, In d [c] -> (d <= z_last z)%Z) by (intros d [<-|[]]; exact CL).
  assert (E := averages z false [a] [c] v N B O ltac:(discriminate) CE V DN).
  pose proof (eq_trans (eq_sym W) E) as K. injection K as K. clear E W.
  assert (CA : covered z a) by (unfold covered; lia). assert (CC : covered z c) by (unfold covered; lia).
  destruct (act_days_per_year (z_basis z) N a c BB DN ltac:(lia)) as [YF NP].
  destruct (forwards_no_arbitrage z FDailyCompounded [a] [c] B PB ltac:(unfold period_type; auto) O) as (fs & E & _ & G).
  { intros d [[<-|[]]|[<-|[]]]; assumption. }
  pose proof (eq_trans (eq_sym R) E) as K2. injection K2 as <-. clear E R.
  destruct (G 0%nat a c _ _ _ eq_refl eq_refl YF (V a CA) (V c CC)) as [G1 _]. clear G.
  assert (TP : 0 < IZR (c - a)) by (apply IZR_lt; lia).
  assert (T : 0 < IZR (c - a) / N) by (apply Rdiv_lt_0_compat; assumption).
  destruct G1 as (y & E & GR); [lra|]. cbn in E. injection E as ->. cbn [growth] in GR.
  set (n := Z.to_nat (c - a)) in *. assert (NC : IZR (c - a) = INR n) by (unfold n; rewrite INR_IZR_INZ; f_equal; lia).
  assert (CNT : forall n d, count_days any_day d n = n) by (induction n0 as [|k IH]; intros d; [reflexivity|]; cbn; rewrite IH; reflexivity).
  unfold average in K. fold n in K. rewrite CNT in K.
  assert (NN : n = S (pred n)) by (unfold n; lia). rewrite NN in K at 1. exists (sum_days (where_ any_day (daily_rate v N)) a n / INR n), y.
  split; [exact K|]. split; [reflexivity|].
  assert (PV : forall d, (a <= d <= c)%Z -> 0 < v d) by (intros d D; apply (built_positive z d); [exact B|apply V; unfold covered; lia]).
  assert (AN : (a + Z.of_nat n)%Z = c) by (unfold n; lia).
  set (f := fun d => v d / v (d + 1)%Z - 1).
  assert (S1 : sum_days (where_ any_day (daily_rate v N)) a n = sum_days f a n * N).
  { rewrite <- sum_days_scale. apply sum_days_ext. intros d _. reflexivity. }
  assert (FP : forall d, (a <= d < a + Z.of_nat n)%Z -> 0 <= f d).
  { intros d D. unfold f. pose proof (PV (d + 1)%Z ltac:(lia)). pose proof (MONO d ltac:(lia)).
    assert (1 <= v d / v (d + 1)%Z); [|lra]. apply Rmult_le_reg_r with (v (d + 1)%Z); [assumption|]. unfold Rdiv. rewrite Rmult_assoc, Rinv_l; lra. }
  destruct (sum_below_prod f a n FP) as [_ SP].
  rewrite (prod_days_ext _ (fun d => v d / v (d + 1)%Z)) in SP by (intros d _; unfold f; ring).
  rewrite prod_telescopes, AN in SP by (intros d D; apply PV; lia).
  assert (VR : v a / v c = 1 + y * (IZR (c - a) / N)). { rewrite GR. field. split; [lra|]. apply Rgt_not_eq. apply PV. lia. }
  rewrite S1. apply Rmult_le_reg_r with (INR n / N); [rewrite <- NC; exact T|].
  replace (sum_days f a n * N / INR n * (INR n / N)) with (sum_days f a n) by (field; rewrite <- NC; lra).
  rewrite <- NC. lra.
Qed.

(* arguments that are refused *)
Lemma forward_asserts z (s e : list (option date)) ft :
  (length s <> length e \/ In None s \/ (exists d, In (Some d) s /\ (d < z_date z)%Z) \/ In None e \/
   (exists i x y, nth_error s i = Some (Some x) /\ nth_error e i = Some (Some y) /\ (y < x)%Z)) ->
  get_forward_rates z s e ft = Err AssertionError.
Proof.
  intros H. unfold get_forward_rates. destruct (Nat.eqb_spec (length s) (length e)) as [L|L]; cbn [guard bind]; [|reflexivity].
  assert (AD : forall l, {ds | l = map Some ds /\ all_dates l = Ok ds} + {In None l /\ all_dates l = Err AssertionError}).
  { clear. induction l as [|[d|] l IH].
    - left. exists []. split; reflexivity.
    - destruct IH as [(ds & -> & E)|[I E]].
      + left. exists (d :: ds). split; [reflexivity|]. unfold all_dates in *. cbn. rewrite E. reflexivity.
      + right. split; [right; exact I|]. unfold all_dates in *. cbn. rewrite E. reflexivity.
    - right. split; [left; reflexivity|]. reflexivity. }
  destruct (AD s) as [(ss & -> & ->)|[I ->]]; cbn [bind]; [|reflexivity].
  destruct (forallb (fun d : Z => (z_date z <=? d)%Z) ss) eqn:F1; cbn [guard bind]; [|reflexivity].
  destruct (AD e) as [(es & -> & ->)|[I ->]]; cbn [bind]; [|reflexivity].
  destruct (forallb (fun q : Z * Z => (fst q <=? snd q)%Z) (combine ss es)) eqn:F2; cbn [guard bind]; [|reflexivity]. exfalso.
  rewrite forallb_forall in F1, F2. destruct H as [H|[H|[H|[H|H]]]].
  - contradiction.
  - apply in_map_iff in H as (d & E & _). discriminate.
  - destruct H as (d & I & LT). apply in_map_iff in I as (d' & E & I). injection E as ->. specialize (F1 d I). cbn in F1. lia.
  - apply in_map_iff in H as (d & E & _). discriminate.
  - destruct H as (i & x & y & Hx & Hy & LT). rewrite nth_error_map in Hx, Hy.
    destruct (nth_error ss i) as [x'|] eqn:EX; [|discriminate]. destruct (nth_error es i) as [y'|] eqn:EY; [|discriminate].
    injection Hx as ->. injection Hy as ->. specialize (F2 (x, y) (nth_error_In _ _ (combine_nth_error ss es i x y EX EY))). cbn in F2. lia.
Qed.

Lemma average_out_of_range z bd s e : built z -> in_order z s e -> (exists d, In d e /\ (z_last z < d)%Z) -> (forall d, In d s -> (d < z_last z)%Z) ->
  get_forward_rates z (map Some s) (map Some e) (if bd : bool then FSimpleAverage else FWeightedAverage) = Err ValueError.
Proof.
  intros B O (d & I & LT) CS. rewrite (forwards_checked z s e _ O).
  transitivity (average_forwards z bd s e); [destruct bd; reflexivity|]. destruct O as [L O]. unfold average_forwards.
  destruct s as [|s0 st]; [reflexivity|]. destruct e as [|e0 et]; [discriminate|]. cbv zeta.
  destruct (min_date_le s0 st) as (M1 & M2 & M3). destruct (max_date_ge e0 et) as (X1 & X2 & X3).
  set (m := min_date s0 st) in *. set (x := max_date e0 et) in *.
  assert (XL : (z_last z < x)%Z). { destruct I as [->|I]; [lia|]. specialize (X2 d I). lia. }
  assert (ML : (m < z_last z)%Z). { specialize (CS s0 (or_introl eq_refl)). lia. }
  assert (DM : (z_date z <= m)%Z).
  { destruct M3 as [->|K]; [specialize (O 0%nat s0 e0 eq_refl eq_refl); lia|]. apply In_nth_error in K as (i & E). assert (LI : (i < length st)%nat) by (apply (proj1 (@nth_error_Some date st i)); intros K; discriminate (eq_trans (eq_sym E) K)).
    assert (LI2 : (i < length et)%nat) by (cbn in L; lia). apply (proj2 (@nth_error_Some date et i)) in LI2. destruct (nth_error et i) as [y|] eqn:EY; [|destruct (LI2 eq_refl)].
    exact (proj1 (O (S i) m y E EY)). }
  unfold vector_dfs. rewrite (vector_lookup z _ (built_extrap z B)). cbn [bind cells].
  set (dfs := map (cell_df z) (filter (in_range z) (map Some (date_range m x)))).
  assert (LD : (length dfs < length (date_range m x))%nat).
  { unfold dfs. rewrite map_length. rewrite <- (map_length (@Some date) (date_range m x)).
    destruct (Nat.lt_ge_cases (length (filter (in_range z) (map Some (date_range m x)))) (length (map Some (date_range m x)))) as [K|K]; [exact K|]. exfalso.
    assert (K2 : length (filter (in_range z) (map Some (date_range m x))) = length (map Some (date_range m x))).
    { pose proof (filter_length_le (in_range z) (map Some (date_range m x))). lia. }
    apply filter_length_all in K2. rewrite Forall_map, Forall_forall in K2. specialize (K2 x). cbv beta in K2.
    assert (IX : In x (date_range m x)) by (apply in_date_range; lia). specialize (K2 IX). apply in_range_covered in K2. unfold coveredo, covered in K2. lia. }
  assert (RL : forall A (l : list A), length (removelast l) = pred (length l)).
  { clear. intros A l. induction l as [|a [|b l] IH]; try reflexivity. change (removelast (a :: b :: l)) with (a :: removelast (b :: l)). cbn [length]. rewrite IH. reflexivity. }
  assert (TL : length (tl dfs) = pred (length dfs)) by (destruct dfs; reflexivity).
  rewrite map_length, map2_length, !RL, TL.
  destruct (Nat.eqb_spec (Nat.min (pred (length dfs)) (pred (length dfs))) (pred (length (date_range m x)))) as [K|K]; [|reflexivity]. exfalso.
  assert (LP : (2 <= length (date_range m x))%nat) by (rewrite date_range_length; lia). lia.
Qed.

(* ---- instantaneous forward rates ---- *)
Lemma years_df z s u : z_spline z = Some s ->
  (z_interp z = SplineCczr -> get_discount_factors z None None (Some (Scalar u)) = Ok (Scalar (option_map (fun c => exp (- 1 * c * u)) (sp_at s u))) /\
                              get_zero_rates z Continuous None None (Some (Scalar u)) = Ok (Scalar (sp_at s u))) /\
  (z_interp z = SplineLn -> get_discount_factors z None None (Some (Scalar u)) = Ok (Scalar (option_map exp (sp_at s u)))).
Proof.
  intros S1. split; intros I; unfold get_discount_factors, get_zero_rates, index_daily_data, index_years; cbn; rewrite I, S1; cbn; auto.
Qed.
Lemma instantaneous_forward z s t (D : R -> R) : z_interp z = SplineCczr \/ z_interp z = SplineLn -> z_spline z = Some s -> differentiates s ->
  (forall u, get_discount_factors z None None (Some (Scalar u)) = Ok (Scalar (Some (D u)))) ->
  exists f, get_instantaneous_forward_rate z t = Ok (Some (Some f)) /\ derivable_pt_lim (fun u => - ln (D u)) t f.
Proof.
  intros I S1 DF G. set (c := fun u => match sp_at s u with Some x => x | None => 0 end).
  assert (C : forall u, sp_at s u = Some (c u)).
  { intros u. unfold c. specialize (G u). destruct (years_df z s u S1) as (A & B). destruct I as [I|I]; [rewrite (proj1 (A I)) in G|rewrite (B I) in G]; destruct (sp_at s u); [reflexivity|discriminate|reflexivity|discriminate]. }
  destruct (DF c C t) as (d & D1 & D2). destruct I as [I|I].
  - exists (c t + t * d). unfold get_instantaneous_forward_rate. rewrite I, S1. destruct (proj1 (years_df z s t S1) I) as (_ & ->). cbn [bind]. unfold obind. rewrite C, D1. split; [reflexivity|].
    apply (derivable_pt_lim_ext (fun u => u * c u)).
    + intros u. specialize (G u). rewrite (proj1 (proj1 (years_df z s u S1) I)), C in G. cbn in G. injection G as <-. rewrite ln_exp. ring.
    + replace (c t + t * d) with (1 * c t + id t * d) by (unfold id; ring). apply (derivable_pt_lim_mult id c); [apply derivable_pt_lim_id|exact D2].
  - exists (- d). unfold get_instantaneous_forward_rate. rewrite I, S1. unfold obind. rewrite D1. split; [reflexivity|].
    apply (derivable_pt_lim_ext (fun u => - c u)); [|apply derivable_pt_lim_opp; exact D2].
    intros u. specialize (G u). rewrite (proj2 (years_df z s u S1) I), C in G. cbn in G. injection G as <-. rewrite ln_exp. reflexivity.
Qed.
Lemma instantaneous_linear z t : z_interp z = LinearLn -> get_instantaneous_forward_rate z t = Ok None.
Proof. intros I. unfold get_instantaneous_forward_rate. rewrite I. destruct (z_spline z); reflexivity. Qed.
