(* C163: the pillar frame of an FX volatility surface. *)
From Coq Require Import String ZArith QArith Qreals Reals Lra Lia List Bool Permutation Sorted.
From Verif Require Import Base Date BusDayModel BusDaySpec BusDayProofs DayCountModel ScheduleModel TenorModel TenorSpec TenorProofs CompModel CurveModel CurveSpec CurveProofs BootModel BootProofs FxModel FxSpec FxTermProofs PillarModel PillarSpec FxPillarsModel PCurve PPillar PSurfaceInit.
Import ListNotations.
Open Scope R_scope.

Definition expiry_of {Q} (x : fx_row * Q) : option date := x_rate_set (fst x).
Lemma expiries_ok {Q} (rows : list (fx_row * Q)) (es : list date) :
  sequence (map (fun x => match x_rate_set (fst x) with Some e => Ok e | None => Err ValueError end) rows) = Ok es <-> map expiry_of rows = map Some es.
Proof.
  rewrite sequence_ok. revert es. induction rows as [|x rows IH]; intros [|e es]; cbn [map]; try (split; [discriminate|discriminate]); [split; reflexivity|]. unfold expiry_of at 1. split; intros E.
  - injection E as E1 E2. destruct (x_rate_set (fst x)); [|discriminate]. injection E1 as ->. f_equal. apply IH, E2.
  - injection E as E1 E2. rewrite E1. f_equal. apply IH, E2.
Qed.
Lemma out_years (b : basis) (c : date) (es : list date) o : plain_basis b -> year_frac [c] es b None = Ok o -> Forall2 (year_fraction b c) es (map Q2R (out_list (length es) o)).
Proof.
  intros PB E. rewrite (year_frac_values c es b o PB E), map_map. pose proof (year_frac_all_le c es b o E) as LE. clear E. induction es as [|e es IH]; [constructor|]. cbn [map]. constructor; [|apply IH; intros d I; apply LE; right; exact I].
  exists (yf1 b c e). split; [apply yf1_scalar; [apply PB|apply LE; left; reflexivity]|reflexivity].
Qed.

(* whatever the frame: a pillar that is kept has an expiry on both zero curves, the year fraction to it, and the forward and zero rates of that expiry *)
Theorem C163_kept_pillars {Q : Type} tenors dates (quotes : list Q) (c : date) (spot : Z) (cal : calendar) (b : basis) (forwards : list (date * option R)) (dom fgn : zero_curve) rows :
  plain_basis b -> built dom -> built fgn -> setup_pillars tenors dates quotes c spot cal b forwards dom fgn = Ok rows ->
  forall r q y v, In ((r, q), (y, v)) rows -> exists e, x_rate_set r = Some e /\ (c <= e)%Z /\ covered dom e /\ covered fgn e /\ year_fraction b c e y /\ own_rates forwards dom fgn e v.
Proof.
  intros PB Bd Bf E r q y v I. unfold setup_pillars in E. apply bind_ok in E as (ts & _ & E). apply bind_ok in E as (ts' & _ & E). apply bind_ok in E as (made & _ & E). set (srt := sort_by (fun x => delivery_key (fst x)) (combine made quotes)) in *.
  apply bind_ok in E as (es & Es & E). apply bind_ok in E as (o & Y & E). apply bind_ok in E as (rates & Er & E). injection E as <-. apply expiries_ok in Es.
  destruct (rows_own _ _ _ _ _ Bd Bf Er) as (_ & C & F). pose proof (out_years b c es o PB Y) as G. apply In_nth_error in I as (i & I). apply nth_combine in I as [I1 I2]. apply nth_combine in I2 as [I2 I3].
  destruct (F2_nth' _ _ _ F _ _ I3) as (e & Ee & O). destruct (F2_nth' _ _ _ G _ _ I2) as (e' & Ee' & YF). rewrite Ee in Ee'. injection Ee' as <-.
  exists e. assert (X : nth_error (map expiry_of srt) i = Some (x_rate_set r)) by (rewrite (map_nth_error expiry_of i srt I1); reflexivity). rewrite Es, (map_nth_error Some i es Ee) in X. injection X as X.
  pose proof (nth_error_In _ _ Ee) as In'. split; [symmetry; exact X|]. split; [exact (year_frac_all_le c es b o Y e In')|]. destruct (C e In') as [C1 C2]. split; [exact C1|]. split; [exact C2|]. split; [exact YF|exact O].
Qed.

(* a complete frame gives one pillar for each quoted tenor: with its own quotes, dates, year fraction and rates, in order of delivery *)
Theorem C163_pillars {Q : Type} (ts : list string) (dates : list (option date * option date)) (quotes : list Q) (c : date) (spot : Z) (cal : calendar) (b : basis) (forwards : list (date * option R)) (dom fgn : zero_curve) :
  ts <> [] -> length ts = length dates -> length quotes = length dates -> wf_calendar cal -> (0 <= spot)%Z -> plain_basis b -> built dom -> built fgn -> z_date dom = c -> NoDup (map fst forwards) ->
  (forall x, In x (combine ts dates) -> datable x /\ (snd (snd x) <> None -> fst (snd x) <> None)) ->
  (forall x r e, In x (combine ts dates) -> dated_row c spot cal x r -> x_rate_set r = Some e -> covered dom e /\ covered fgn e) ->
  exists rows, setup_pillars (Some (map Some ts)) dates quotes c spot cal b forwards dom fgn = Ok rows /\ length rows = length ts /\ by_delivery (map (fun x => fst (fst x)) rows) /\
    forall i t d q, nth_error ts i = Some t -> nth_error dates i = Some d -> nth_error quotes i = Some q ->
      exists r e y v, dated_row c spot cal (t, d) r /\ x_rate_set r = Some e /\ year_fraction b c e y /\ own_rates forwards dom fgn e v /\ In ((r, q), (y, v)) rows.
Proof.
  intros NE L1 L2 W P PB Bd Bf Zc N D K. destruct (rows_ok c spot cal _ W P (fun x I => proj1 (D x I))) as (made & G & E). unfold setup_pillars. cbn [bind]. rewrite map_map.
  assert (Es : sequence (map (fun x => Ok (clean_tenor x)) ts) = Ok (map clean_tenor ts)) by (apply sequence_ok; rewrite map_map; reflexivity). rewrite Es. cbn [bind]. rewrite combine_map_l, E. cbn [bind].
  assert (Lm : length made = length ts) by (rewrite <- (F2_length _ _ _ G), combine_length, <- L1; apply Nat.min_id).
  pose proof (sort_by_perm (fun x : fx_row * Q => delivery_key (fst x)) (combine made quotes)) as Pm. set (srt := sort_by (fun x => delivery_key (fst x)) (combine made quotes)) in *.
  assert (Ls : length srt = length ts) by (rewrite (Permutation_length Pm), combine_length, Lm, L2, <- L1; apply Nat.min_id).
  assert (HX : forall x, In x srt -> exists e d, x_rate_set (fst x) = Some e /\ x_delivery (fst x) = Some d /\ covered dom e /\ covered fgn e).
  { intros (r, q) I. apply (Permutation_in _ Pm) in I. apply In_nth_error in I as (j & Ej). apply nth_combine in Ej as [Ej _]. destruct (F2_nth' _ _ _ G _ _ Ej) as (x & Ex & DR). cbn [fst]. pose proof (nth_error_In _ _ Ex) as Ix.
    assert (H : exists e d, x_rate_set r = Some e /\ x_delivery r = Some d).
    { destruct DR as [_ DR]. destruct (D x Ix) as [_ DX]. destruct (snd (snd x)) as [dl|]; [destruct DR as [R1 R2]; destruct (fst (snd x)) as [e|]; [eauto|exfalso; apply DX; [discriminate|reflexivity]]|]. destruct DR as (_ & a & b' & rs & dl & _ & Q1 & Q2 & _). eauto. }
    destruct H as (e & d & H1 & H2). exists e, d. split; [exact H1|]. split; [exact H2|]. exact (K x r e Ix DR H1). }
  assert (HE : exists es, map expiry_of srt = map Some es /\ forall e, In e es -> covered dom e /\ covered fgn e).
  { clear -HX. clearbody srt. induction srt as [|x l IH]; [exists []; split; [reflexivity|intros e []]|]. destruct IH as (es & E & C); [intros y I; apply HX; right; exact I|]. destruct (HX x (or_introl eq_refl)) as (e & d & H1 & _ & H3). exists (e :: es). split; [cbn [map]; unfold expiry_of at 1; rewrite H1, E; reflexivity|]. intros e' [<-|I]; [exact H3|apply C, I]. }
  destruct HE as (es & HE & CV). rewrite (proj2 (expiries_ok srt es) HE). cbn [bind].
  assert (Le : length es = length srt) by (rewrite <- (map_length Some es), <- HE, map_length; reflexivity).
  assert (NEe : es <> []) by (intros ->; destruct ts; [contradiction|]; cbn in *; lia).
  destruct (year_frac_ok c es b (proj2 PB) NEe) as (o & Y). { intros e I. destruct (CV e I) as [C1 _]. unfold covered in C1. lia. } rewrite Y. cbn [bind].
  destruct (C162_own_rates forwards dom fgn es Bd Bf N CV) as (rates & Er & F). rewrite Er. cbn [bind]. pose proof (out_years b c es o PB Y) as YS. set (ys := map Q2R (out_list (length es) o)) in *.
  pose proof (F2_length _ _ _ F) as Lr. pose proof (F2_length _ _ _ YS) as Ly. eexists. split; [reflexivity|].
  assert (Lc : length (combine ys rates) = length srt) by (rewrite combine_length, <- Lr, <- Ly, Nat.min_id; exact Le). split; [rewrite combine_length, Lc, Nat.min_id; exact Ls|]. split.
  - assert (M : map (fun x : (fx_row * Q) * (R * (option R * (option R * option R))) => fst (fst x)) (combine srt (combine ys rates)) = map fst srt).
    { clear -Lc. revert Lc. generalize (combine ys rates). clearbody srt. induction srt as [|x l IH]; intros [|y m] Lc; try discriminate; [reflexivity|]. cbn. f_equal. apply IH. cbn in Lc. lia. }
    rewrite M. assert (S := sort_by_sorted (fun x : fx_row * Q => delivery_key (fst x)) (combine made quotes)). fold srt in S. clear -HX S. clearbody srt. unfold by_delivery.
    induction S as [|r l S IH O]; [constructor|]. cbn [map]. constructor; [|apply IH; intros s I; apply HX; right; exact I].
    apply Forall_forall. intros s I. apply in_map_iff in I as (y & <- & I). rewrite Forall_forall in O. specialize (O y I). destruct (HX r (or_introl eq_refl)) as (_ & d & _ & H & _). destruct (HX y (or_intror I)) as (_ & d' & _ & H' & _). unfold delivery_key in O. rewrite H, H' in O. eauto.
  - intros i t d q Et Ed Eq. destruct (F2_nth _ _ _ G i (t, d)) as (r & Er' & DR); [apply nth_combine; auto|].
    assert (I : In (r, q) srt) by (apply (Permutation_in _ (Permutation_sym Pm)), nth_error_In with i, nth_combine; auto). apply In_nth_error in I as (j & Ej).
    assert (X : nth_error (map expiry_of srt) j = Some (x_rate_set r)) by (rewrite (map_nth_error expiry_of j srt Ej); reflexivity). rewrite HE in X. destruct (nth_error es j) as [e|] eqn:Ee.
    2: { apply nth_error_None in Ee. assert (j < length srt)%nat by (apply nth_error_Some; congruence). lia. }
    rewrite (map_nth_error Some j es Ee) in X. injection X as X. destruct (F2_nth _ _ _ YS _ _ Ee) as (y & Ey & YF). destruct (F2_nth _ _ _ F _ _ Ee) as (v & Ev & O).
    exists r, e, y, v. split; [exact DR|]. split; [symmetry; exact X|]. split; [exact YF|]. split; [exact O|]. apply nth_error_In with j. apply nth_combine. split; [exact Ej|]. apply nth_combine. auto.
Qed.
(* the tenor column and every tenor are required *)
Theorem C163_tenors_required {Q : Type} dates (quotes : list Q) (c : date) (spot : Z) (cal : calendar) (b : basis) (forwards : list (date * option R)) (dom fgn : zero_curve) :
  setup_pillars None dates quotes c spot cal b forwards dom fgn = Err KeyError /\ forall ts, In None ts -> setup_pillars (Some ts) dates quotes c spot cal b forwards dom fgn = Err TypeError.
Proof.
  split; [reflexivity|]. intros ts I. unfold setup_pillars. cbn [bind]. assert (E : sequence (map (fun t => match t with Some s => Ok (clean_tenor s) | None => Err TypeError end) ts) = Err TypeError); [|rewrite E; reflexivity].
  induction ts as [|[s|] ts IH]; [destruct I| |reflexivity]. destruct I as [I|I]; [discriminate|]. cbn [map sequence bind]. rewrite (IH I). reflexivity.
Qed.

Definition all_theorems := (@C163_kept_pillars, @C163_pillars, @C163_tenors_required).
Print Assumptions all_theorems.

(* ---- a case meeting the hypotheses: two quotes, given in the other order, on the curve of PCurve ---- *)
Example C163_ex : exists z f' rows, ex_new default_calendar ACT_365 = Ok (z, f') /\
  setup_pillars (Some [Some "1y"%string; Some "3m"%string]) [(Some 738365, Some 738367); (Some 738091, Some 738093)]%Z [1; 2] 738000%Z 2 default_calendar ACT_365 [(738000%Z, Some 1); (738800%Z, Some 2)] z z = Ok rows /\
  length rows = 2%nat /\ exists r v, In ((r, 1), (Q2R (365 # 365), v)) rows /\ x_tenor r = "1y"%string.
Proof.
  destruct (ex_curve default_calendar) as (z & f' & E & D & B & L). pose proof (ex_built default_calendar z f' E) as BZ.
  destruct (C163_pillars ["1y"%string; "3m"%string] [(Some 738365, Some 738367); (Some 738091, Some 738093)]%Z [1; 2] 738000%Z 2 default_calendar ACT_365 [(738000%Z, Some 1); (738800%Z, Some 2)] z z) as (rows & R & LR & _ & F).
  - discriminate.
  - reflexivity.
  - reflexivity.
  - exact wf_default.
  - lia.
  - split; discriminate.
  - exact BZ.
  - exact BZ.
  - exact D.
  - cbn. constructor; [intros [H|[]]; discriminate|constructor; [intros []|constructor]].
  - intros x [<-|[<-|[]]]; (split; [left; discriminate|discriminate]).
  - intros x r e [<-|[<-|[]]] [_ DR] X; cbn [snd fst] in DR; destruct DR as [DR _]; rewrite DR in X; injection X as <-; unfold covered; rewrite D, L; lia.
  - exists z, f', rows. split; [exact E|]. split; [exact R|]. split; [exact LR|].
    destruct (F 0%nat "1y"%string (Some 738365, Some 738367)%Z 1 eq_refl eq_refl eq_refl) as (r & e & y & v & DR & X & (q & Y & ->) & _ & I). destruct DR as [T [DR _]]. rewrite DR in X. injection X as <-. vm_compute in Y. injection Y as <-. exists r, v. split; [exact I|exact T].
Qed.
