(* Properties C132-C135: the theta grid, its search, integrated forward rates and exposure date grids. *)
From Coq Require Import ZArith Reals String List Bool Lra Lia Sorted.
From Coquelicot Require Import Coquelicot.
From Verif Require Import Base Date NumModel BusDayModel DayCountModel CompModel NormalModel HwModel CurveModel FitModel FitSpec FitProofs.
Import ListNotations.
Open Scope R_scope.

(* ---- C132: the theta grid ---- *)
Theorem C132_grid_points (num : Z) (years g : list R) : (0 < num)%Z -> theta_grid num years = Ok g ->
  List.length g = (pred (List.length years) * Z.to_nat num)%nat /\
  forall i j a b, (Z.of_nat j < num)%Z -> nth_error years i = Some a -> nth_error years (S i) = Some b -> nth_error g (i * Z.to_nat num + j) = Some (a + (b - a) * INR j / IZR num).
Proof. apply grid_point. Qed.
(* in order and without repetition; every pillar but the last is a point, the last and what is beyond are extrapolated *)
Theorem C132_grid_order (num : Z) (years g : list R) (last : R) : (0 < num)%Z -> increasing_list (years ++ [last]) -> theta_grid num (years ++ [last]) = Ok g ->
  (forall k l x y, (k < l)%nat -> nth_error g k = Some x -> nth_error g l = Some y -> x < y) /\ (forall y, In y years -> In y g) /\ (forall x, In x g -> x < last).
Proof.
  intros H I E. split; [apply (grid_increasing num _ g H I E)|]. destruct (grid_point num _ g H E) as [_ P]. split.
  - intros y Hy. apply In_nth_error in Hy as [i Hi]. assert (Li : (i < List.length years)%nat) by (apply nth_error_Some; congruence). destruct (nth_error (years ++ [last]) (S i)) as [b|] eqn:B; [|apply nth_error_None in B; rewrite app_length in B; cbn in B; lia].
    apply nth_error_In with (i * Z.to_nat num + 0)%nat. rewrite (P i O y b); [f_equal; cbn; unfold Rdiv; ring|lia|rewrite nth_error_app1; assumption|exact B].
  - intros x Hx. apply In_nth_error in Hx as [k Hk]. destruct (grid_positions num _ g k x H E Hk) as (i & j & a & b & _ & J & A & B & ->). pose proof (increasing_nth _ I i (S i) a b ltac:(lia) A B) as AB. pose proof (frac_bounds num j H J) as F.
    assert (BL : b <= last). { assert (Ll : nth_error (years ++ [last]) (List.length years) = Some last) by (rewrite nth_error_app2, Nat.sub_diag by lia; reflexivity). assert (Li : (S i < List.length (years ++ [last]))%nat) by (apply nth_error_Some; congruence). rewrite app_length in Li. cbn in Li.
      destruct (Nat.eq_dec (S i) (List.length years)) as [Q|Q]; [rewrite Q, Ll in B; injection B as <-; lra|]. apply Rlt_le, (increasing_nth _ I (S i) (List.length years)); [lia|exact B|exact Ll]. }
    unfold Rdiv in *. nra.
Qed.
Theorem C132_grid_refused (num : Z) (years : list R) : (exists g, theta_grid num years = Ok g) <-> (2 <= List.length years)%nat /\ (0 <= num)%Z.
Proof.
  split.
  - intros [g E]. destruct years as [|a [|b r]]; [discriminate|discriminate|]. split; [cbn; lia|]. destruct (Z.lt_ge_cases num 0) as [N|N]; [|exact N]. unfold theta_grid in E. rewrite pieces_neg in E by exact N. discriminate.
  - intros [L N]. destruct (theta_grid_ok num years N L) as (ps & _ & E). eauto.
Qed.
Theorem C132_grid_refusal (num : Z) (years : list R) : (List.length years < 2)%nat \/ (num < 0)%Z -> theta_grid num years = Err ValueError.
Proof.
  intros H. destruct years as [|a [|b r]]; [reflexivity|reflexivity|]. destruct H as [H|H]; [cbn in H; lia|]. unfold theta_grid. rewrite pieces_neg by exact H. reflexivity.
Qed.
(* the stored spline is drawn through theta at the points; nothing else of the object changes *)
Theorem C132_setup (splrep : list R -> list R -> result (R -> R)) (forwards : R -> list R -> result unit) (pillars : list (R * option R)) (r0 alpha sigma : R) (s s' : hw) (grid : option (list R)) (num : option Z) :
  setup_theta splrep forwards pillars r0 alpha sigma s grid num = Ok s' ->
  w_dt s' = w_dt s /\ w_num s' = w_num s /\ exists g th sp, w_theta s' = Some sp /\ splrep g th = Ok sp /\ alpha <> 0 /\
    (grid = Some g \/ (grid = None /\ theta_grid (match num with Some n => n | None => w_num s end) (map fst pillars) = Ok g)) /\
    th = map (fun t => alpha * r0 + sigma ^ 2 / (2 * alpha) * (1 - exp (-2 * alpha * t))) g.
Proof.
  unfold setup_theta. intros E. destruct (match grid with Some _ => _ | None => _ end) as [g|e] eqn:G; cbn [bind] in E; [|discriminate]. unfold get_thetas in E. destruct (forwards _ _); cbn [bind] in E; [|discriminate].
  assert (A : alpha <> 0) by (intros A; subst alpha; unfold get_theta, eqb in E; destruct (Req_EM_T (2 * 0) 0); [discriminate|lra]).
  assert (T : forall t, get_theta r0 alpha sigma t = Ok (alpha * r0 + sigma ^ 2 / (2 * alpha) * (1 - exp (-2 * alpha * t)))) by (intros t; unfold get_theta, eqb; destruct (Req_EM_T (2 * alpha) 0); [lra|reflexivity]).
  rewrite T in E. cbn [bind] in E. assert (Q : sequence (map (get_theta r0 alpha sigma) g) = Ok (map (fun t => alpha * r0 + sigma ^ 2 / (2 * alpha) * (1 - exp (-2 * alpha * t))) g)) by (clear -T; induction g as [|x g IH]; [reflexivity|]; cbn [map sequence]; rewrite T, IH; reflexivity).
  rewrite Q in E. cbn [bind] in E. destruct (splrep g _) as [sp|] eqn:S; cbn [bind] in E; [|discriminate]. injection E as <-. cbn. do 2 (split; [reflexivity|]). exists g. do 2 eexists. split; [reflexivity|]. split; [exact S|]. split; [exact A|]. split; [|reflexivity]. destruct grid; [injection G as ->; auto|auto].
Qed.

(* ---- C133: the search never ends well ---- *)
(* every curve has a pillar at zero, in first place *)
Theorem C133_first_pillar (splrep : list (R * option R) -> result spline) (curve_date : date) (b : basis) (cal : calendar) (im : interp_method) (f : frame) (freq : option CompModel.comp) ps s f' :
  process_pillars splrep curve_date b cal im f freq = Ok (ps, s, f') -> exists p t, ps = p :: t /\ p_years p = 0.
Proof.
  unfold process_pillars. intros E. destruct (guard _ _); cbn [bind] in E; [|discriminate]. destruct (guard _ _); cbn [bind] in E; [|discriminate]. destruct (filter is_x f) as [|x [|? ?]]; try discriminate. destruct (filter is_y f) as [|y [|? ?]]; try discriminate.
  destruct (process_x _ _ _ _) as [[ds ys]|]; cbn [bind] in E; [|discriminate]. match type of E with context [add_first_row ?a ?b ?c ?l] => set (pl := l) in E; destruct (add_first_row a b c pl) as [[qs sp]|e] eqn:A; cbn [bind] in E; [|discriminate] end. injection E as <- _ _.
  unfold add_first_row in A. destruct pl as [|p t] eqn:D; [discriminate|]. destruct (Req_EM_T (p_years p) 0) as [Z|Z].
  - destruct im; try discriminate; (destruct (splrep _); cbn [bind] in A; [|discriminate]); injection A as <- _; exists p, t; auto.
  - destruct im; try discriminate; try (destruct (splrep _); cbn [bind] in A; [|discriminate]); injection A as <- _; do 2 eexists; (split; [reflexivity|reflexivity]).
Qed.
Theorem C133_error_raises (quad : integrator) (pillars : list (R * option R)) (c : option R) (r0 alpha sigma : R) (s : hw) : calc_error_for_theta_fit quad ((0, c) :: pillars) r0 alpha sigma s = Err AssertionError.
Proof. unfold calc_error_for_theta_fit, recalc, ode_1, ltb. cbn [map sequence fst]. destruct (Rlt_dec 0 0); [lra|]. reflexivity. Qed.
(* otherwise the error is the root of the mean of the squared differences between the pillars' continuous rates and those of the model, in basis points *)
Theorem C133_error (quad : integrator) (pillars : list (R * option R)) (r0 alpha sigma : R) (s : hw) (e : R) : calc_error_for_theta_fit quad pillars r0 alpha sigma s = Ok (Some e) ->
  exists ds : list R, Forall2 (fun p d => exists c P, snd p = Some c /\ ode_1 quad (w_theta s) r0 alpha sigma 0 (fst p) None = Ok P /\ d = 10000 * (c - - ln P / fst p)) pillars ds /\
    pillars <> [] /\ 0 <= e /\ e ^ 2 * INR (List.length pillars) = fold_right Rplus 0 (map (fun d => d ^ 2) ds).
Proof.
  unfold calc_error_for_theta_fit. intros E. apply bind_ok in E as (rs & S & E). injection E as E.
  assert (G : forall ps rs t, sequence (map (fun p => recalc quad r0 alpha sigma s (fst p)) ps) = Ok rs ->
    fold_right (fun o acc => match o, acc with Some d, Some a => Some (d ^ 2 + a) | _, _ => None end) (Some 0) (map (fun q => match snd (fst q) with Some c => Some (10000 * (c - snd q)) | None => None end) (combine ps rs)) = Some t ->
    exists ds, Forall2 (fun p d => exists c P, snd p = Some c /\ ode_1 quad (w_theta s) r0 alpha sigma 0 (fst p) None = Ok P /\ d = 10000 * (c - - ln P / fst p)) ps ds /\ t = fold_right Rplus 0 (map (fun d => d ^ 2) ds) /\ List.length rs = List.length ps).
  { induction ps as [|p ps IH]; intros rs' t Q F; cbn [map sequence] in Q.
    - injection Q as <-. cbn in F. injection F as <-. exists []. repeat split. constructor.
    - apply bind_ok in Q as (r & Q1 & Q). apply bind_ok in Q as (rs1 & Q2 & Q). injection Q as <-. cbn [combine map fold_right fst snd] in F. destruct (snd p) as [c|] eqn:Cp; [|discriminate].
      destruct (fold_right _ _ _) as [a|] eqn:Fa; [|discriminate]. injection F as <-. destruct (IH rs1 a Q2 Fa) as (ds & D & -> & L). unfold recalc in Q1. apply bind_ok in Q1 as (P & O & Q1). injection Q1 as <-.
      exists (10000 * (c - - ln P / fst p) :: ds). split; [constructor; [exists c, P; auto|exact D]|]. split; [|cbn; congruence]. cbn [map fold_right]. replace (-1 * ln P / fst p) with (- ln P / fst p) by (unfold Rdiv; ring). reflexivity. }
  unfold root_mean_square in E. destruct (fold_right _ _ _) as [t|] eqn:F; [|discriminate]. destruct (G pillars rs t S F) as (ds & D & T & L). exists ds. split; [exact D|].
  assert (N : pillars <> []) by (intros ->; destruct rs; discriminate). split; [exact N|].
  assert (C : List.length (combine pillars rs) = List.length pillars) by (rewrite combine_length; lia). rewrite map_length, C in E. destruct (map _ (combine pillars rs)); [discriminate|]. injection E as <-.
  split; [apply sqrt_pos|]. assert (P : 0 < INR (List.length pillars)) by (apply lt_0_INR; destruct pillars; [contradiction|cbn; lia]).
  assert (Tp : 0 <= t). { rewrite T. clear. induction ds as [|d ds IH]; cbn [map fold_right]; [lra|]. pose proof (pow2_ge_0 d). lra. }
  rewrite pow2_sqrt by (apply Rmult_le_pos; [exact Tp|left; apply Rinv_0_lt_compat; exact P]). rewrite <- T. field. lra.
Qed.
(* the object is left with the first pair, its own spline and an exception *)
Theorem C133_fit_raises (quad : integrator) (splrep : list R -> list R -> result (R -> R)) (forwards : R -> list R -> result unit) (pillars : list (R * option R)) (c : option R) (r0 alpha sigma : R) (s : hw) (dt : R) (num : Z) (dts : list R) (nums : list Z) :
  let setup := setup_theta splrep forwards ((0, c) :: pillars) r0 alpha sigma (mk_hw dt num (w_theta s)) None None in
  fit_theta quad splrep forwards ((0, c) :: pillars) r0 alpha sigma s (dt :: dts) (num :: nums) =
  match setup with Ok s' => (s', Err AssertionError) | Err e => (mk_hw dt num (w_theta s), Err e) end.
Proof.
  intros setup. unfold fit_theta. cbn [list_prod map app search]. fold setup. destruct setup as [s'|e]; [|reflexivity]. rewrite C133_error_raises. reflexivity.
Qed.
(* on pillars without the zero, the first least error is chosen, but the spline stays that of the last pair tried *)
Theorem C133_choice (quad : integrator) (splrep : list R -> list R -> result (R -> R)) (forwards : R -> list R -> result unit) (pillars : list (R * option R)) (r0 alpha sigma : R) (s s' : hw) (dts : list R) (nums : list Z) :
  fit_theta quad splrep forwards pillars r0 alpha sigma s dts nums = (s', Ok tt) ->
  (forall p th e, In p (list_prod dts nums) -> trial quad splrep forwards pillars r0 alpha sigma p = Ok (th, e) -> e <> None) ->
  exists before after err, list_prod dts nums = (before ++ (w_dt s', w_num s') :: after)%list /\
    (exists th, trial quad splrep forwards pillars r0 alpha sigma (w_dt s', w_num s') = Ok (th, Some err)) /\
    (forall p, In p before -> exists th e, trial quad splrep forwards pillars r0 alpha sigma p = Ok (th, Some e) /\ err < e) /\
    (forall p, In p after -> exists th e, trial quad splrep forwards pillars r0 alpha sigma p = Ok (th, Some e) /\ err <= e) /\
    exists p e, last (map Some (list_prod dts nums)) None = Some p /\ trial quad splrep forwards pillars r0 alpha sigma p = Ok (w_theta s', e).
Proof.
  unfold fit_theta. intros E N. destruct (search _ _ _ _ _ _ _ _ s []) as [s1 [l|e]] eqn:Q; [|discriminate]. destruct (search_ok quad splrep forwards pillars r0 alpha sigma _ _ _ _ _ Q) as (errs & D & F & L). cbn in D. subst errs.
  destruct (sort_entries l) as [|[[dt num] er] t] eqn:S; [discriminate|]. injection E as <-. cbn [w_dt w_num w_theta].
  assert (Ne : l <> []) by (intros ->; discriminate). assert (Np : list_prod dts nums <> []) by (intros K; rewrite K in F; inversion F; subst; contradiction).
  assert (NN : List.Forall (fun e => snd e <> None) l). { apply List.Forall_forall. intros e He. clear -F N He. assert (G : forall ps es, Forall2 (fun p e => fst e = p /\ exists th, trial quad splrep forwards pillars r0 alpha sigma p = Ok (th, snd e)) ps es -> In e es -> exists p th, In p ps /\ trial quad splrep forwards pillars r0 alpha sigma p = Ok (th, snd e)).
    { induction 1 as [|p e' ps es [_ [th T]] _ IH]; [intros []|]. intros [->|K]; [exists p, th; split; [left; reflexivity|exact T]|]. destruct (IH K) as (p' & th' & I & T'). exists p', th'. split; [right; exact I|exact T']. }
    destruct (G _ _ F He) as (p & th & I & T). apply (N p th (snd e) I T). }
  destruct (sort_head l Ne NN) as (h & t' & before & after & S' & D & B & A). rewrite S in S'. injection S' as <- <-. rewrite D in F. apply Forall2_app_inv_r in F as (pb & pa & Fb & Fa & P). inversion Fa as [|p0 ? pa' ? [P0 [th0 T0]] Fa']; subst. cbn [fst snd] in *.
  assert (Er : exists err, er = Some err) by (destruct er as [x|]; [eauto|]; exfalso; rewrite List.Forall_forall in NN; apply (NN (dt, num, None)); [apply in_or_app; right; left; reflexivity|reflexivity]). destruct Er as [err ->].
  exists pb, pa', err. split; [exact P|]. split; [exists th0; exact T0|].
  assert (G : forall ps es (X : entry -> Prop), Forall2 (fun p e => fst e = p /\ exists th, trial quad splrep forwards pillars r0 alpha sigma p = Ok (th, snd e)) ps es -> List.Forall X es -> forall p, In p ps -> exists e th, In e es /\ X e /\ trial quad splrep forwards pillars r0 alpha sigma p = Ok (th, snd e)).
  { clear. intros ps es X. induction 1 as [|p e ps es [_ [th T]] _ IH]; intros Y q Hq; [destruct Hq|]. inversion Y; subst. destruct Hq as [<-|Hq]; [exists e, th; split; [left; reflexivity|auto]|]. destruct (IH H2 q Hq) as (e' & th' & I & X' & T'). exists e', th'. split; [right; exact I|auto]. }
  assert (M : forall e, In e (before ++ (dt, num, Some err) :: after)%list -> exists x, snd e = Some x) by (intros e He; rewrite List.Forall_forall in NN; specialize (NN e He); destruct (snd e) as [x|]; [eauto|contradiction]).
  split; [|split].
  - intros p Hp. destruct (G _ _ _ Fb B p Hp) as (e & th & I & X & T). destruct (M e ltac:(apply in_or_app; left; exact I)) as [x Ex]. rewrite Ex in T. exists th, x. split; [exact T|]. unfold less, ltb in X. rewrite Ex in X. cbn in X. destruct (Rlt_dec err x); [assumption|discriminate].
  - intros p Hp. destruct (G _ _ _ Fa' A p Hp) as (e & th & I & X & T). destruct (M e ltac:(apply in_or_app; right; right; exact I)) as [x Ex]. rewrite Ex in T. exists th, x. split; [exact T|]. unfold less, ltb in X. rewrite Ex in X. cbn in X. destruct (Rlt_dec x err); [discriminate|lra].
  - destruct (L Np) as (p & e & Lp & Tp). exists p, e. auto.
Qed.

(* ---- C134: integrated forward rates ---- *)
(* the integral is the logarithm of the ratio of discount factors: a total, not a rate per year *)
Theorem C134_integral_is_log_ratio (quad : (R -> option R) -> R -> R -> option R) (z : zero_curve) (s : spline) (f f' : R -> R) (t T : R) :
  exact_quad quad -> smooth_spline s f f' -> z_spline z = Some s -> z_interp z = SplineLn \/ z_interp z = SplineCczr ->
  exists d1 d2, get_discount_factors z None None (Some (Scalar t)) = Ok (Scalar (Some d1)) /\ get_discount_factors z None None (Some (Scalar T)) = Ok (Scalar (Some d2)) /\
    0 < d1 /\ 0 < d2 /\ get_forward_rate_by_integration quad z t T = Ok (Some (ln (d1 / d2))).
Proof.
  intros Q S E [I|I].
  - exists (exp (f t)), (exp (f T)). unfold get_discount_factors. cbn [first_is_scalar index_daily_data]. unfold index_years. rewrite I, E. cbn [cells map bind shape_result u_df]. rewrite (proj1 (S t)), (proj1 (S T)). cbn [option_map]. do 2 (split; [reflexivity|]). do 2 (split; [apply exp_pos|]).
    unfold get_forward_rate_by_integration. assert (F : forall x, get_instantaneous_forward_rate z x = Ok (Some (Some (- f' x)))) by (intros x; unfold get_instantaneous_forward_rate; rewrite I, E, (proj1 (proj2 (S x))); reflexivity). rewrite F. cbn [bind]. f_equal.
    rewrite (Q _ (fun x => - f' x)); [|intros x; rewrite F; reflexivity|intros x; apply (continuous_opp (V := R_NormedModule) f'), S]. f_equal.
    transitivity (- f T - - f t).
    + apply is_RInt_unique, (is_RInt_derive (V := R_CompleteNormedModule) (fun x => - f x)); intros x _; [apply (is_derive_opp (V := R_NormedModule)), S|apply (continuous_opp (V := R_NormedModule) f'), S].
    + rewrite ln_div by apply exp_pos. rewrite !ln_exp. match goal with |- ?a = ?b => change (@eq R a b) end. ring.
  - exists (exp (- 1 * f t * t)), (exp (- 1 * f T * T)). unfold get_discount_factors. cbn [first_is_scalar index_daily_data]. unfold index_years. rewrite I, E. cbn [cells map bind shape_result u_df]. rewrite (proj1 (S t)), (proj1 (S T)). cbn [option_map]. do 2 (split; [reflexivity|]). do 2 (split; [apply exp_pos|]).
    unfold get_forward_rate_by_integration. assert (F : forall x, get_instantaneous_forward_rate z x = Ok (Some (Some (f x + x * f' x)))) by (intros x; unfold get_instantaneous_forward_rate, get_zero_rates; cbn [first_is_scalar index_daily_data]; unfold index_years; rewrite I, E; cbn [cells map bind shape_result u_cczr]; rewrite (proj1 (S x)), (proj1 (proj2 (S x))); reflexivity). rewrite F. cbn [bind]. f_equal.
    assert (D : forall x, is_derive (fun y => f y * y) x (f x + x * f' x)).
    { intros x. destruct (S x) as (_ & _ & D & _). apply is_derive_Reals. replace (f x + x * f' x) with (f' x * x + f x * 1) by ring. apply (derivable_pt_lim_mult f (fun y => y)); [apply is_derive_Reals; exact D|apply derivable_pt_lim_id]. }
    assert (C : forall x, continuous (fun x => f x + x * f' x) x) by (intros x; apply (continuous_plus (V := R_NormedModule) f (fun x => x * f' x)); [apply (ex_derive_continuous (V := R_NormedModule)); exists (f' x); apply S|apply (continuous_mult (K := R_AbsRing) (fun x => x) f'); [apply continuous_id|apply S]]).
    rewrite (Q _ (fun x => f x + x * f' x)); [|intros x; rewrite F; reflexivity|exact C]. f_equal.
    transitivity (f T * T - f t * t).
    + apply is_RInt_unique, (is_RInt_derive (V := R_CompleteNormedModule) (fun x => f x * x)); intros x _; [apply D|apply C].
    + rewrite ln_div by apply exp_pos. rewrite !ln_exp. match goal with |- ?a = ?b => change (@eq R a b) end. ring.
Qed.
Theorem C134_linear_raises (quad : (R -> option R) -> R -> R -> option R) (z : zero_curve) (t T : R) : z_interp z = LinearLn -> get_forward_rate_by_integration quad z t T = Err TypeError.
Proof. intros I. unfold get_forward_rate_by_integration, get_instantaneous_forward_rate. rewrite I. reflexivity. Qed.

(* ---- C135: exposure date grids ---- *)
Theorem C135_returns (schedule : string -> result (list date)) (deliveries : list date) (freq : option string) (pillar : option (option (list date))) (last_day day_after : bool) (g : list date) :
  create_date_grid schedule deliveries freq pillar last_day day_after = Ok g ->
  deliveries <> [] /\ freq = None /\ last_day = false /\ day_after = false /\ exists ds, pillar = Some (Some ds) /\ (forall d, In d g <-> In d ds) /\ StronglySorted Z.lt g.
Proof.
  unfold create_date_grid. destruct deliveries as [|d0 ds0]; [discriminate|]. cbn [guard bind]. destruct freq as [q|].
  - unfold sampled_grid, unit_of. destruct (String.eqb q "1d"); [discriminate|]. destruct (String.eqb q "1w"); [discriminate|]. destruct (existsb _ _); discriminate.
  - destruct pillar as [[ds|]|]; cbn [bind]; try discriminate. destruct last_day, day_after; try discriminate. intros E. injection E as <-. split; [discriminate|]. do 3 (split; [reflexivity|]). exists ds. destruct (unique_sorted_spec ds) as [B A]. split; [reflexivity|]. split; assumption.
Qed.
Theorem C135_pillars (schedule : string -> result (list date)) (deliveries ds : list date) : deliveries <> [] -> exists g, create_date_grid schedule deliveries None (Some (Some ds)) false false = Ok g /\ (forall d, In d g <-> In d ds) /\ StronglySorted Z.lt g.
Proof. intros N. destruct deliveries; [contradiction|]. exists (unique_sorted ds). split; [reflexivity|]. destruct (unique_sorted_spec ds) as [B A]. split; assumption. Qed.
(* every sampling frequency is refused, the documented ones too *)
Theorem C135_frequencies_refused (schedule : string -> result (list date)) (deliveries : list date) (q : string) (pillar : option (option (list date))) (last_day day_after : bool) : deliveries <> [] ->
  create_date_grid schedule deliveries (Some q) pillar last_day day_after = Err (if existsb (String.eqb q) ["1d"; "1w"; "1m"; "3m"; "6m"; "12m"]%string then ValueError else NameError).
Proof.
  intros N. destruct deliveries; [contradiction|]. unfold create_date_grid. cbn [guard bind]. unfold sampled_grid, unit_of. cbn [existsb]. destruct (String.eqb q "1d"); [reflexivity|]. destruct (String.eqb q "1w"); [reflexivity|]. cbn [orb]. destruct (_ || _)%bool; reflexivity.
Qed.
Theorem C135_other_refusals (schedule : string -> result (list date)) (deliveries : list date) (last_day day_after : bool) :
  (forall freq pillar, create_date_grid schedule [] freq pillar last_day day_after = Err ValueError) /\
  (deliveries <> [] -> create_date_grid schedule deliveries None None last_day day_after = Err ValueError /\ create_date_grid schedule deliveries None (Some None) last_day day_after = Err AssertionError /\
    ((last_day || day_after)%bool = true -> forall ds, create_date_grid schedule deliveries None (Some (Some ds)) last_day day_after = Err TypeError)).
Proof. split; [reflexivity|]. intros N. destruct deliveries; [contradiction|]. do 2 (split; [reflexivity|]). intros F ds. unfold create_date_grid. cbn [guard bind]. rewrite F. reflexivity. Qed.

(* ---- not vacuous ---- *)
Example grid_example : exists g, theta_grid 2 [0; 1; 3] = Ok g /\ increasing_list [0; 1; 3] /\ nth_error g 3 = Some 2.
Proof.
  destruct (theta_grid_ok 2 [0; 1; 3] ltac:(lia) ltac:(cbn; lia)) as (ps & _ & E). exists (concat ps). split; [exact E|]. split; [cbn; lra|]. destruct (C132_grid_points 2 [0; 1; 3] _ ltac:(lia) E) as [_ P]. pose proof (P 1%nat 1%nat 1 3 ltac:(cbn; lia) eq_refl eq_refl) as K. change (nth_error (concat ps) 3 = Some (1 + (3 - 1) * INR 1 / IZR 2)) in K. rewrite K. f_equal. cbn. lra.
Qed.
Example exact_exists : exists quad s f f', exact_quad quad /\ smooth_spline s f f' /\ f 1 = -1.
Proof.
  exists (fun g a b => Some (RInt (fun x => match g x with Some v => v | None => 0 end) a b)), {| sp_at := fun x => Some (- x); sp_deriv := fun _ => Some (-1) |}, (fun x => - x), (fun _ => -1). split; [|split; [|lra]].
  - intros g f a b H _. f_equal. apply RInt_ext. intros x _. rewrite H. reflexivity.
  - intros x. do 2 (split; [reflexivity|]). split; [|apply continuous_const]. evar_last; [apply (is_derive_opp (V := R_NormedModule)), is_derive_id|cbn; ring].
Qed.
(* a search that succeeds: the pair kept has one point to an interval, the spline kept was drawn through two *)
Example choice_example : let pillars := [(1, Some 0); (2, Some 0)] in let splrep := fun g (_ : list R) => Ok (fun _ : R => INR (List.length g)) in
  exists s' sp s1 sp1, fit_theta (fun _ _ _ => 0) splrep (fun _ _ => Ok tt) pillars 0 1 1 (mk_hw 0 0 None) [1] [1%Z; 2%Z] = (s', Ok tt) /\ w_num s' = 1%Z /\ w_theta s' = Some sp /\ sp 0 = 2 /\
    setup_theta splrep (fun _ _ => Ok tt) pillars 0 1 1 s' None None = Ok s1 /\ w_theta s1 = Some sp1 /\ sp1 0 = 1.
Proof.
  intros pillars splrep.
  assert (T : forall t, get_theta 0 1 1 t = Ok (1 * 0 + 1 ^ 2 / (2 * 1) * (1 - exp (-2 * 1 * t)))) by (intros t; unfold get_theta, eqb; destruct (Req_EM_T (2 * 1) 0); [lra|reflexivity]).
  assert (U : forall dt num th k, (0 <= num)%Z -> k = Z.to_nat num -> setup_theta splrep (fun _ _ => Ok tt) pillars 0 1 1 (mk_hw dt num th) None None = Ok (mk_hw dt num (Some (fun _ => INR (k + 0))))).
  { intros dt num th k H ->. unfold setup_theta, theta_grid, pillars. cbn [map fst pieces w_num]. unfold linspace. destruct (Z.leb_spec 0 num); [|lia]. cbn [guard bind concat]. unfold get_thetas. cbn [bind]. rewrite T. cbn [bind].
    assert (Q : forall g, exists th, sequence (map (get_theta 0 1 1) g) = Ok th) by (clear -T; induction g as [|x g [th IH]]; [eexists; reflexivity|]; cbn [map sequence]; rewrite T, IH; eexists; reflexivity). match goal with |- context [sequence (map _ ?g)] => destruct (Q g) as [v ->] end. cbn [bind]. unfold splrep. cbn [bind w_dt]. rewrite app_length, map_length, seq_length. reflexivity. }
  assert (Z0 : forall f : R -> R, ode_1 (fun _ _ _ => 0) (Some f) 0 1 1 0 1 None = Ok 1 /\ ode_1 (fun _ _ _ => 0) (Some f) 0 1 1 0 2 None = Ok 1).
  { intros f. unfold ode_1, ltb. destruct (Rlt_dec 0 1); [|lra]. destruct (Rlt_dec 0 2); [|lra]. unfold short_rate, eqb. cbn [guard bind]. destruct (Req_EM_T 0 0); [|lra]. cbn [guard bind]. split; f_equal; rewrite <- exp_0; f_equal; ring. }
  assert (E : forall dt num f, calc_error_for_theta_fit (fun _ _ _ => 0) pillars 0 1 1 (mk_hw dt num (Some f)) = Ok (Some (sqrt (((10000 * (0 - -1 * ln 1 / 1)) ^ 2 + ((10000 * (0 - -1 * ln 1 / 2)) ^ 2 + 0)) / INR 2)))).
  { intros. unfold calc_error_for_theta_fit, recalc, pillars. cbn [map fst w_theta sequence]. destruct (Z0 f) as [-> ->]. cbn [bind combine map snd fst root_mean_square fold_right List.length]. reflexivity. }
  do 4 eexists. unfold fit_theta. cbn [list_prod map app search w_theta]. rewrite (U _ _ _ 1%nat) by (lia || reflexivity). rewrite E. rewrite (U _ _ _ 2%nat) by (lia || reflexivity). rewrite E. cbn [app]. unfold sort_entries. cbn [fold_right insert_sorted]. unfold less at 1. cbn [snd]. unfold ltb. match goal with |- context [Rlt_dec ?a ?b] => destruct (Rlt_dec a b); [lra|] end.
  split; [reflexivity|]. cbn [w_num w_theta]. split; [reflexivity|]. split; [reflexivity|]. split; [cbn; lra|]. rewrite (U _ _ _ 1%nat) by (lia || reflexivity). split; [reflexivity|]. split; [reflexivity|]. reflexivity.
Qed.

Definition all_theorems := (@C132_grid_points, @C132_grid_order, @C132_grid_refused, C132_grid_refusal, @C132_setup, @C133_first_pillar, @C133_error_raises, C133_error, @C133_fit_raises, @C133_choice, @C134_integral_is_log_ratio, @C134_linear_raises, @C135_returns, @C135_pillars, @C135_frequencies_refused, @C135_other_refusals).
Print Assumptions all_theorems.
