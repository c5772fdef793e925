(* C162: forward and zero rates of the rows of an FX volatility surface. *)
From Coq Require Import String ZArith QArith Qreals Reals Lra Lia List Bool.
From Verif Require Import Base Date BusDayModel DayCountModel CompModel CurveModel CurveSpec CurveProofs FxModel FxSpec FxTermProofs PillarModel PillarSpec PCurve.
Import ListNotations.
Open Scope R_scope.

Definition day_rate (z : zero_curve) (d : date) : option R := match find_day z d with Some r => d_cczr r | None => None end.
Lemma rates_vector z (es : list date) : z_extrap z <> OtherExtrap ->
  get_zero_rates z Continuous (Some (Vector (map Some es))) None None = Ok (Vector (map (day_rate z) (filter (fun d => in_range z (@Some date d)) es))).
Proof.
  intros N. unfold get_zero_rates. cbn [first_is_scalar index_daily_data cells]. unfold index_dates. destruct (z_extrap z); try contradiction; cbn [bind shape_result]; do 2 f_equal; rewrite map_map;
    (induction es as [|d es IH]; [reflexivity|]); cbn [map filter]; destruct (in_range z (@Some date d)); cbn [map]; rewrite ?IH; try reflexivity; f_equal; unfold day_rate; destruct (find_day z d); reflexivity.
Qed.
Lemma column_covered z (es : list date) : built z -> (forall d, In d es -> covered z d) ->
  exists l, (let* r := get_zero_rates z Continuous (Some (Vector (map Some es))) None None in assign_column (length es) (cells r)) = Ok l /\ Forall2 (zero_rate_at z) es l.
Proof.
  intros B C. rewrite (rates_vector z es (built_extrap z B)). cbn [bind cells].
  assert (F : filter (fun d => in_range z (@Some date d)) es = es).
  { clear -C. induction es as [|d es IH]; [reflexivity|]. cbn [filter]. rewrite (proj2 (in_range_covered z (@Some date d)) (C d (or_introl eq_refl))). f_equal. apply IH. intros x I. apply C. right. exact I. }
  rewrite F. unfold assign_column. rewrite map_length, Nat.eqb_refl. eexists. split; [reflexivity|]. clear F. induction es as [|d es IH]; [constructor|]. constructor; [|apply IH; intros x I; apply C; right; exact I].
  unfold zero_rate_at. rewrite (rate_cell z d (built_extrap z B)). rewrite (proj2 (in_range_covered z (@Some date d)) (C d (or_introl eq_refl))). reflexivity.
Qed.
Lemma column_beyond z (es : list date) : built z -> (exists d, In d es /\ ~ covered z d) ->
  (let* r := get_zero_rates z Continuous (Some (Vector (map Some es))) None None in assign_column (length es) (cells r)) = Err ValueError.
Proof.
  intros B (d & I & N). rewrite (rates_vector z es (built_extrap z B)). cbn [bind cells]. unfold assign_column. rewrite map_length.
  destruct (Nat.eqb_spec (length (filter (fun d => in_range z (@Some date d)) es)) (length es)) as [E|]; [|reflexivity]. exfalso.
  assert (G : forall (p : date -> bool) l, (length (filter p l) <= length l)%nat /\ (length (filter p l) = length l -> forall x, In x l -> p x = true)).
  { clear. intros p l. induction l as [|x l [IH1 IH2]]; [split; [apply le_n|intros _ x []]|]. cbn [filter]. destruct (p x) eqn:P; cbn [length]; (split; [lia|]).
    - intros E y [<-|I]; [exact P|]. apply IH2; [lia|exact I].
    - intros E. lia. }
  pose proof (proj2 (G _ es) E d I) as R. cbv beta in R. apply (in_range_covered z (@Some date d)) in R. exact (N R).
Qed.

(* every row has the forward and zero rates of its own expiry *)
Theorem C162_own_rates (forwards : list (date * option R)) (dom fgn : zero_curve) (es : list date) : built dom -> built fgn -> NoDup (map fst forwards) -> (forall d, In d es -> covered dom d /\ covered fgn d) ->
  exists rows, add_fx_ir forwards dom fgn es = Ok rows /\ Forall2 (own_rates forwards dom fgn) es rows.
Proof.
  intros Bd Bf N C. destruct (interp_ok forwards es true N) as (fx & Ex & Fx). destruct (column_covered dom es Bd (fun d I => proj1 (C d I))) as (rd & Ed & Fd). destruct (column_covered fgn es Bf (fun d I => proj2 (C d I))) as (rf & Ef & Ff).
  assert (L : length fx = length es) by (clear -Fx; induction Fx; cbn; congruence). unfold add_fx_ir. rewrite Ex. cbn [bind]. unfold assign_column at 1. rewrite L, Nat.eqb_refl. cbn [bind].
  apply bind_ok in Ed as (od & E1 & E2). apply bind_ok in Ef as (of' & E3 & E4). rewrite E1. cbn [bind]. rewrite E2. cbn [bind]. rewrite E3. cbn [bind]. rewrite E4. cbn [bind]. eexists. split; [reflexivity|]. clear -Fx Fd Ff.
  revert rd rf Fd Ff. induction Fx as [|d v es fx H F IH]; intros rd rf Fd Ff; [constructor|]. inversion Fd as [|? ? ? ? H1 F1]; subst. inversion Ff as [|? ? ? ? H2 F2]; subst. cbn [combine]. constructor; [|apply IH; assumption]. split; [exact H|split; [exact H1|exact H2]].
Qed.
(* an expiry that is not on both zero curves refuses the whole frame, whatever the extrapolation setting; so do repeated fixing dates *)
Theorem C162_refused (forwards : list (date * option R)) (dom fgn : zero_curve) (es : list date) : built dom -> built fgn ->
  ~ NoDup (map fst forwards) \/ (exists d, In d es /\ (~ covered dom d \/ ~ covered fgn d)) -> add_fx_ir forwards dom fgn es = Err ValueError.
Proof.
  intros Bd Bf H. unfold add_fx_ir. destruct (interp_fx_forward_curve forwards es true) as [fx|x] eqn:Ex.
  2: { cbn [bind]. destruct H as [H|_]; [rewrite (interp_duplicates forwards es true H) in Ex; congruence|]. unfold interp_fx_forward_curve in Ex. destruct (negb (has_duplicates (map fst forwards))); cbn [guard bind] in Ex; congruence. }
  destruct H as [H|(d & I & H)]; [rewrite (interp_duplicates forwards es true H) in Ex; discriminate|]. cbn [bind]. unfold assign_column at 1. destruct (Nat.eqb (length fx) (length es)); cbn [bind]; [|reflexivity].
  assert (Dec : covered dom d \/ ~ covered dom d) by (unfold covered; lia). assert (All : (exists x, In x es /\ ~ covered dom x) \/ (forall x, In x es -> covered dom x)).
  { clear. induction es as [|x es [(y & I & N)|A]]; [right; intros x []|left; exists y; split; [right; exact I|exact N]|]. assert (Dc : covered dom x \/ ~ covered dom x) by (unfold covered; lia). destruct Dc as [Y|Y]; [right; intros z [<-|I]; [exact Y|apply A, I]|left; exists x; split; [left; reflexivity|exact Y]]. }
  destruct All as [Nd|Cd].
  - pose proof (column_beyond dom es Bd Nd) as E. destruct (get_zero_rates dom Continuous (Some (Vector (map Some es))) None None) as [o|x]; cbn [bind] in E |- *; [rewrite E; reflexivity|congruence].
  - destruct (column_covered dom es Bd Cd) as (rd & E & _). apply bind_ok in E as (o & E1 & E2). rewrite E1. cbn [bind]. rewrite E2. cbn [bind].
    assert (Nf : exists x, In x es /\ ~ covered fgn x) by (exists d; split; [exact I|]; destruct H as [H|H]; [exfalso; apply H, Cd, I|exact H]).
    pose proof (column_beyond fgn es Bf Nf) as E. destruct (get_zero_rates fgn Continuous (Some (Vector (map Some es))) None None) as [o'|x]; cbn [bind] in E |- *; [rewrite E; reflexivity|congruence].
Qed.
Lemma rows_own (forwards : list (date * option R)) (dom fgn : zero_curve) (es : list date) (rows : list (option R * (option R * option R))) : built dom -> built fgn -> add_fx_ir forwards dom fgn es = Ok rows ->
  NoDup (map fst forwards) /\ (forall d, In d es -> covered dom d /\ covered fgn d) /\ Forall2 (own_rates forwards dom fgn) es rows.
Proof.
  intros Bd Bf E.
  assert (Dec : (~ NoDup (map fst forwards) \/ (exists d, In d es /\ (~ covered dom d \/ ~ covered fgn d))) \/ (NoDup (map fst forwards) /\ forall d, In d es -> covered dom d /\ covered fgn d)).
  { destruct (ListDec.NoDup_dec Z.eq_dec (map fst forwards)) as [N|N]; [|left; left; exact N].
    assert (G : (exists x, In x es /\ (~ covered dom x \/ ~ covered fgn x)) \/ (forall x, In x es -> covered dom x /\ covered fgn x)).
    { clear. induction es as [|x es [(y & I & N)|A]]; [right; intros x []|left; exists y; split; [right; exact I|exact N]|]. assert (Dc : (covered dom x /\ covered fgn x) \/ (~ covered dom x \/ ~ covered fgn x)) by (unfold covered; lia). destruct Dc as [Y|Y]; [right; intros z [<-|I]; [exact Y|apply A, I]|left; exists x; split; [left; reflexivity|exact Y]]. }
    destruct G as [G|G]; [left; right; exact G|right; split; assumption]. }
  destruct Dec as [H|[N C]]; [rewrite (C162_refused forwards dom fgn es Bd Bf H) in E; discriminate|].
  destruct (C162_own_rates forwards dom fgn es Bd Bf N C) as (rows' & E' & F). rewrite E in E'. injection E' as <-. split; [exact N|]. split; [exact C|exact F].
Qed.
Lemma row_at {A B} (P : A -> B -> Prop) xs ys i x : Forall2 P xs ys -> nth_error xs i = Some x -> exists y, nth_error ys i = Some y /\ P x y.
Proof. intros F. revert i. induction F as [|u v xs ys H F IH]; intros [|i] E; try discriminate; cbn in *; [injection E as <-; eauto|apply IH, E]. Qed.
(* so the rates of a row discount as the curves do, over the year fraction of each curve *)
Theorem C162_rates_discount (forwards : list (date * option R)) (dom fgn : zero_curve) (es : list date) (rows : list (option R * (option R * option R))) (i : nat) (d : date) (f : option R) (rd rf td tf : R) :
  built dom -> built fgn -> plain_basis (z_basis dom) -> plain_basis (z_basis fgn) -> add_fx_ir forwards dom fgn es = Ok rows -> nth_error es i = Some d -> nth_error rows i = Some (f, (Some rd, Some rf)) ->
  year_fraction (z_basis dom) (z_date dom) d td -> year_fraction (z_basis fgn) (z_date fgn) d tf -> discounts dom d (exp (- rd * td)) /\ discounts fgn d (exp (- rf * tf)).
Proof.
  intros Bd Bf Pd Pf E Hd Hr Yd Yf. destruct (rows_own forwards dom fgn es rows Bd Bf E) as (_ & _ & F). destruct (row_at _ _ _ _ _ F Hd) as (row & Hr' & _ & O1 & O2). rewrite Hr in Hr'. injection Hr' as <-.
  split; [apply (C37_rates_and_factors_agree dom d td rd Bd Pd Yd O1)|apply (C37_rates_and_factors_agree fgn d tf rf Bf Pf Yf O2)].
Qed.
(* the pillar frame and the daily frame have the same rates for the same expiry *)
Theorem C162_same_expiry_same_rates (forwards : list (date * option R)) (dom fgn : zero_curve) (pillars days : list date) (rows rows' : list (option R * (option R * option R))) (i j : nat) (d : date) :
  built dom -> built fgn -> add_fx_ir forwards dom fgn pillars = Ok rows -> add_fx_ir forwards dom fgn days = Ok rows' -> nth_error pillars i = Some d -> nth_error days j = Some d ->
  exists row, nth_error rows i = Some row /\ nth_error rows' j = Some row.
Proof.
  intros Bd Bf E E' Hi Hj. destruct (rows_own _ _ _ _ _ Bd Bf E) as (N & _ & F). destruct (rows_own _ _ _ _ _ Bd Bf E') as (_ & _ & F').
  destruct (row_at _ _ _ _ _ F Hi) as ((f, (rd, rf)) & R & O0 & O1 & O2). destruct (row_at _ _ _ _ _ F' Hj) as ((f', (rd', rf')) & R' & O0' & O1' & O2'). cbn [fst snd] in *.
  exists (f, (rd, rf)). split; [exact R|]. rewrite R'. rewrite (interpolated_unique forwards true d f' f N O0' O0). unfold zero_rate_at in *. do 2 f_equal. f_equal; congruence.
Qed.
(* the days between two accepted pillars are accepted *)
Theorem C162_days_between (forwards : list (date * option R)) (dom fgn : zero_curve) (pillars days : list date) (rows : list (option R * (option R * option R))) : built dom -> built fgn -> add_fx_ir forwards dom fgn pillars = Ok rows ->
  (forall d, In d days -> exists a b, In a pillars /\ In b pillars /\ (a <= d <= b)%Z) -> exists rows', add_fx_ir forwards dom fgn days = Ok rows' /\ length rows' = length days.
Proof.
  intros Bd Bf E H. destruct (rows_own _ _ _ _ _ Bd Bf E) as (N & C & _). destruct (C162_own_rates forwards dom fgn days Bd Bf N) as (rows' & R & F).
  - intros d I. destruct (H d I) as (a & b & Ia & Ib & L). pose proof (C a Ia) as [A1 A2]. pose proof (C b Ib) as [B1 B2]. unfold covered in *. lia.
  - exists rows'. split; [exact R|]. clear -F. induction F; cbn; congruence.
Qed.

Definition all_theorems := (C162_own_rates, C162_refused, C162_rates_discount, C162_same_expiry_same_rates, C162_days_between).
Print Assumptions all_theorems.

(* ---- cases meeting the hypotheses: one curve of 730 days for both currencies ---- *)
Example C162_ex : forall cal, exists z f' rows, ex_new cal ACT_365 = Ok (z, f') /\ add_fx_ir [(738000%Z, Some 1); (738800%Z, Some 2)] z z [738365; 738730]%Z = Ok rows /\ length rows = 2%nat /\
  add_fx_ir [(738000%Z, Some 1); (738800%Z, Some 2)] z z [738365; 738731]%Z = Err ValueError.
Proof.
  intros cal. destruct (ex_curve cal) as (z & f' & E & D & B & L). pose proof (ex_built cal z f' E) as BZ.
  destruct (C162_own_rates [(738000%Z, Some 1); (738800%Z, Some 2)] z z [738365; 738730]%Z BZ BZ) as (rows & R & F).
  - cbn. constructor; [intros [H|[]]; discriminate|constructor; [intros []|constructor]].
  - intros d [<-|[<-|[]]]; unfold covered; rewrite D, L; lia.
  - exists z, f', rows. split; [exact E|]. split; [exact R|]. split; [inversion F as [|? ? ? ? ? F1]; subst; inversion F1 as [|? ? ? ? ? F2]; subst; inversion F2; reflexivity|].
    apply (C162_refused _ z z _ BZ BZ). right. exists 738731%Z. split; [right; left; reflexivity|]. left. unfold covered. rewrite L. lia.
Qed.
Example C162_ex_days : forall cal, exists z f' rows rows', ex_new cal ACT_365 = Ok (z, f') /\ add_fx_ir [(738000%Z, Some 1); (738800%Z, Some 2)] z z [738365; 738730]%Z = Ok rows /\
  add_fx_ir [(738000%Z, Some 1); (738800%Z, Some 2)] z z [738400; 738365; 738700]%Z = Ok rows' /\ exists row, nth_error rows 0 = Some row /\ nth_error rows' 1 = Some row.
Proof.
  intros cal. destruct (C162_ex cal) as (z & f' & rows & E & R & _). pose proof (ex_built cal z f' E) as BZ.
  destruct (C162_days_between _ z z _ [738400; 738365; 738700]%Z rows BZ BZ R) as (rows' & R' & _).
  - intros d [<-|[<-|[<-|[]]]]; exists 738365%Z, 738730%Z; (split; [left; reflexivity|]); (split; [right; left; reflexivity|lia]).
  - exists z, f', rows, rows'. split; [exact E|]. split; [exact R|]. split; [exact R'|]. apply (C162_same_expiry_same_rates _ z z _ _ rows rows' 0 1 738365%Z BZ BZ R R'); reflexivity.
Qed.
