From Coq Require Import String ZArith Reals List Bool Lra Lia.
From Verif Require Import Base Date NormalModel NormalProofs BlackModel BlackSpec GkModel GkSpec GkProofs GkVecProofs GkStrikeProofs SabrModel SurfaceModel SurfaceSpec SurfaceProofs.
Import ListNotations.
Open Scope list_scope.
Open Scope R_scope.

Lemma all_fin_map (l : list R) : all_fin (map Fin l) = Some l.
Proof. induction l as [|x t IH]; [reflexivity|]. unfold all_fin in *. cbn. now rewrite IH. Qed.
Lemma all_fin_inv (l : list num) (v : list R) : all_fin l = Some v -> l = map Fin v.
Proof.
  revert v. induction l as [|x t IH]; cbn; intros v H; [injection H as <-; reflexivity|]. destruct x as [a| | |]; try discriminate.
  destruct (fold_right _ (Some []) t) as [w|] eqn:E; [|discriminate]. injection H as <-. cbn. f_equal. apply IH. exact E.
Qed.

Section Splines.
Variables (ext : externals) (s : surface).
Hypothesis spline : spline_surface s.

Lemma spline_smile (r : day_row) (f : smile) : solve_smile ext s r = Ok f -> exists g ks, f = Spline g /\ day_strikes ext s r = Ok ks /\
  (s_method s = UnivariateSpline /\ x_univariate ext (Nat.min 3 (length (s_deltas s) - 1)) ks (d_vols r) = Ok g /\ (3 <= length (s_deltas s))%nat
   \/ s_method s = CubicSpline /\ x_cubic ext ks (d_vols r) = Ok g /\ (4 <= length (s_deltas s))%nat).
Proof.
  unfold solve_smile. destruct spline as [E|E]; rewrite E; intros H.
  - apply bind_ok in H as (ks & HK & H). apply bind_ok in H as (u & HG & H). apply bind_ok in H as (g & HU & H). injection H as <-.
    unfold guard in HG. destruct (Nat.leb 3 (length (s_deltas s))) eqn:L; [|discriminate]. apply Nat.leb_le in L.
    exists g, ks. split; [reflexivity|]. split; [exact HK|]. left. split; [reflexivity|]. split; [|exact L].
    replace (Nat.min 3 (length (s_deltas s) - 1)) with (Nat.min 3 (Nat.max 2 (length (s_deltas s) - 1))) by lia. exact HU.
  - apply bind_ok in H as (ks & HK & H). apply bind_ok in H as (u & HG & H). apply bind_ok in H as (g & HU & H). injection H as <-.
    unfold guard in HG. destruct (Nat.leb 4 (length (s_deltas s))) eqn:L; [|discriminate]. apply Nat.leb_le in L. exists g, ks. tauto.
Qed.

Lemma spline_any (h h' : list request) (d : date) (K cp K' cp' : R) (q' : quote) : vols_at ext s h' [d] [K'] [cp'] = Ok [q'] ->
  exists g, solve_smile ext s (q_day q') = Ok (Spline g) /\ row_of s d = Some (q_day q') /\ vols_at ext s h [d] [K] [cp] = Ok [mk_quote (q_day q') K cp (Fin (g K))].
Proof.
  rewrite !vols_outcome, !outcome_one. destruct (row_of s d) as [r|]; [|discriminate]. intros H. apply bind_ok in H as (f & E & H). apply bind_ok in H as (v & V & H). injection H as <-. cbn.
  destruct (spline_smile r f E) as (g & ks & -> & _). exists g. rewrite E. auto.
Qed.

Lemma quote_reproduced (h h' : list request) (r : day_row) (vols : list R) (ks : list num) (i : nat) (K v cp K' cp' : R) (q' : quote) :
  exact_splines ext -> one_row_per_day s -> In r (s_daily s) -> d_vols r = map Fin vols ->
  solve_strike_from_delta (x_rs ext) (s_spot s) (d_years r) (d_rd r) (d_rf r) vols (s_deltas s) (d_conv r) (Some (d_F r)) "forward" = Ok ks ->
  nth_error ks i = Some (Fin K) -> nth_error vols i = Some v -> vols_at ext s h' [d_date r] [K'] [cp'] = Ok [q'] ->
  vols_at ext s h [d_date r] [K] [cp] = Ok [mk_quote r K cp (Fin v)].
Proof.
  intros [XC XU] ND I HV HS HK Hv H. destruct (spline_any h h' (d_date r) K cp K' cp' q' H) as (g & E & W & ->).
  rewrite (row_of_unique s r ND I) in W. injection W as W. rewrite <- W in *. do 3 f_equal. f_equal.
  destruct (spline_smile r _ E) as (g' & ks' & G & DS & M). injection G as <-.
  unfold day_strikes, quoted in DS. rewrite HV, all_fin_map in DS. cbn [bind] in DS. rewrite HS in DS. injection DS as <-.
  assert (N : nth_error (d_vols r) i = Some (Fin v)) by (rewrite HV; now rewrite (map_nth_error _ _ _ Hv)).
  destruct M as [(_ & U & _)|(_ & U & _)]; [eapply XU|eapply XC]; eauto.
Qed.

Lemma type_irrelevant (h h' : list request) (d : date) (K cp cp' : R) (q : quote) : vols_at ext s h [d] [K] [cp] = Ok [q] ->
  vols_at ext s h' [d] [K] [cp'] = Ok [mk_quote (q_day q) K cp' (q_vol q)].
Proof.
  intros H. destruct (spline_any h' h d K cp' K cp q H) as (g & E & W & ->). destruct (spline_any h h d K cp K cp q H) as (g' & E' & _ & X).
  rewrite H in X. injection X as ->. cbn in *. rewrite E in E'. injection E' as ->. reflexivity.
Qed.

Lemma few_quotes (r : day_row) (ks : list num) (vols : list R) (h : list request) (K cp : R) : one_row_per_day s -> In r (s_daily s) -> d_vols r = map Fin vols ->
  solve_strike_from_delta (x_rs ext) (s_spot s) (d_years r) (d_rd r) (d_rf r) vols (s_deltas s) (d_conv r) (Some (d_F r)) "forward" = Ok ks ->
  (length (s_deltas s) < 3)%nat \/ s_method s = CubicSpline /\ (length (s_deltas s) < 4)%nat ->
  vols_at ext s h [d_date r] [K] [cp] = Err ValueError.
Proof.
  intros ND I HV HS L. rewrite vols_outcome, outcome_one, (row_of_unique s r ND I). unfold solve_smile, day_strikes, quoted. rewrite HV, all_fin_map. cbn [bind]. rewrite HS.
  destruct spline as [E|E]; rewrite E in *; cbn [bind].
  - destruct (Nat.leb 3 (length (s_deltas s))) eqn:Q; [apply Nat.leb_le in Q; destruct L as [L|[L _]]; [lia|discriminate]|reflexivity].
  - destruct (Nat.leb 4 (length (s_deltas s))) eqn:Q; [apply Nat.leb_le in Q; lia|reflexivity].
Qed.
End Splines.

Lemma degree (ext : externals) (s : surface) (u : nat -> list num -> list num -> result (R -> R)) (h : list request) (dates : list date) (Ks cps : list R) :
  (forall xs ys, u (Nat.min 3 (length (s_deltas s) - 1)) xs ys = x_univariate ext (Nat.min 3 (length (s_deltas s) - 1)) xs ys) ->
  vols_at (with_univariate ext u) s h dates Ks cps = vols_at ext s h dates Ks cps.
Proof.
  intros H. rewrite !vols_outcome. unfold outcome. destruct (_ && _); [|reflexivity].
  assert (A : forall r, solve_smile (with_univariate ext u) s r = solve_smile ext s r).
  { intros r. unfold solve_smile. destruct (s_method s); try reflexivity. unfold day_strikes. cbn [with_univariate x_rs x_univariate].
    destruct (let* vols := quoted (d_vols r) in solve_strike_from_delta (x_rs ext) (s_spot s) (d_years r) (d_rd r) (d_rf r) vols (s_deltas s) (d_conv r) (Some (d_F r)) "forward") as [ks|e]; [|reflexivity].
    cbn [bind]. destruct (Nat.leb 3 (length (s_deltas s))) eqn:L; [|reflexivity]. apply Nat.leb_le in L. cbn [guard bind].
    replace (Nat.min 3 (Nat.max 2 (length (s_deltas s) - 1))) with (Nat.min 3 (length (s_deltas s) - 1)) by lia. now rewrite H. }
  assert (B : forall d, solve1 (with_univariate ext u) s d = solve1 ext s d) by (intros d; unfold solve1; destruct (row_of s d); [apply A|reflexivity]).
  rewrite (map_ext _ _ B). destruct (sequence (map (solve1 ext s) dates)); [|reflexivity]. cbn [bind]. f_equal. apply map_ext. intros (d & K & cp). unfold query1.
  destruct (row_of s d) as [r|]; [|reflexivity]. rewrite A. destruct (solve_smile ext s r); reflexivity.
Qed.

Section Smile.
Variables (ext : externals) (s : surface).
Hypothesis spline : spline_surface s.

Lemma solved_strikes (h : list request) (d : date) (K cp : R) (q : quote) : vols_at ext s h [d] [K] [cp] = Ok [q] ->
  exists vols ks, d_vols (q_day q) = map Fin vols /\
  solve_strike_from_delta (x_rs ext) (s_spot s) (d_years (q_day q)) (d_rd (q_day q)) (d_rf (q_day q)) vols (s_deltas s) (d_conv (q_day q)) (Some (d_F (q_day q))) "forward" = Ok ks.
Proof.
  intros H. destruct (spline_any ext s spline h h d K cp K cp q H) as (g & E & _). destruct (spline_smile ext s spline _ _ E) as (g' & ks & _ & DS & _).
  unfold day_strikes, quoted in DS. destruct (all_fin (d_vols (q_day q))) as [vols|] eqn:A; [|discriminate]. apply all_fin_inv in A. eauto.
Qed.
Lemma row_is (h : list request) (r : day_row) (K cp : R) (q : quote) : one_row_per_day s -> In r (s_daily s) -> vols_at ext s h [d_date r] [K] [cp] = Ok [q] -> q_day q = r.
Proof.
  intros ND I H. destruct (spline_any ext s spline h h _ K cp K cp q H) as (_ & _ & W & _). rewrite (row_of_unique s r ND I) in W. congruence.
Qed.
Lemma strikes_of (h : list request) (r : day_row) (vols : list R) (K cp : R) (q : quote) : one_row_per_day s -> In r (s_daily s) -> d_vols r = map Fin vols -> vols_at ext s h [d_date r] [K] [cp] = Ok [q] ->
  exists ks, solve_strike_from_delta (x_rs ext) (s_spot s) (d_years r) (d_rd r) (d_rf r) vols (s_deltas s) (d_conv r) (Some (d_F r)) "forward" = Ok ks.
Proof.
  intros ND I EV H. destruct (solved_strikes _ _ _ _ _ H) as (vols' & ks & EV' & EK). rewrite (row_is h r K cp q ND I H) in *. rewrite EV in EV'.
  assert (all_fin (map Fin vols) = all_fin (map Fin vols')) by congruence. rewrite !all_fin_map in *. exists ks. congruence.
Qed.
Lemma strike_at_ok (ks : list num) (i : nat) (k : R) : strike_at (Ok ks) i = Fin k -> nth_error ks i = Some (Fin k).
Proof. cbn. revert i. induction ks as [|x t IH]; intros [|i] H; cbn in *; try discriminate; [congruence|auto]. Qed.

Lemma regular_smile (spot : bool) (h h' : list request) (r : day_row) (vols : list R) (i : nat) (v d K' cp' : R) (q' : quote) :
  exact_splines ext -> one_row_per_day s -> In r (s_daily s) -> d_vols r = map Fin vols -> d_conv r = (if spot then "regular_spot" else "regular_forward")%string ->
  nth_error vols i = Some v -> nth_error (s_deltas s) i = Some d -> d <> 0 -> Rabs d <> 1 / 2 -> Rabs d * (if spot then exp (d_rf r * d_years r) else 1) < 1 ->
  vols_at ext s h' [d_date r] [K'] [cp'] = Ok [q'] ->
  exists K, 0 < K /\ (forall cp, vols_at ext s h [d_date r] [K] [cp] = Ok [mk_quote r K cp (Fin v)]) /\
    (if spot then spot_delta_gk else forward_delta_gk) (s_spot s) (d_years r) (d_rd r) (d_rf r) (call_put d) K v (Some (d_F r)) = Fin d.
Proof.
  intros XS ND I EV EC Hv Hd D0 D1 DA H. destruct (strikes_of h' r vols K' cp' q' ND I EV H) as (ks & EK). pose proof EK as EK0. rewrite EC in EK.
  pose proof (solver_length _ _ _ _ _ _ _ _ _ _ _ EK) as (VQ & _ & _).
  destruct (regular_ok (x_rs ext) spot (s_spot s) (d_years r) (d_rd r) (d_rf r) vols (s_deltas s) "forward" (Some (d_F r)) i v d VQ ltac:(left; reflexivity) Hv Hd D0 DA (or_intror D1)) as (K & SK & PK & DK).
  rewrite EK in SK. apply strike_at_ok in SK. exists K. split; [exact PK|]. split; [|exact DK]. intros cp. exact (quote_reproduced ext s spline h h' r vols ks i K v cp K' cp' q' XS ND I EV EK0 SK Hv H).
Qed.

Lemma atm_smile (spot : bool) (h h' : list request) (r : day_row) (vols : list R) (i : nat) (v d K' cp' : R) (q' : quote) :
  exact_splines ext -> one_row_per_day s -> In r (s_daily s) -> d_vols r = map Fin vols -> d_conv r = (if spot then "regular_spot" else "regular_forward")%string ->
  nth_error vols i = Some v -> nth_error (s_deltas s) i = Some d -> Rabs d = 1 / 2 -> vols_at ext s h' [d_date r] [K'] [cp'] = Ok [q'] ->
  exists K, 0 < K /\ (forall cp, vols_at ext s h [d_date r] [K] [cp] = Ok [mk_quote r K cp (Fin v)]) /\
    forward_delta_gk (s_spot s) (d_years r) (d_rd r) (d_rf r) 1 K v (Some (d_F r)) = Fin (1 / 2) /\ forward_delta_gk (s_spot s) (d_years r) (d_rd r) (d_rf r) (-1) K v (Some (d_F r)) = Fin (- (1 / 2)).
Proof.
  intros XS ND I EV EC Hv Hd D1 H. destruct (strikes_of h' r vols K' cp' q' ND I EV H) as (ks & EK). pose proof EK as EK0. rewrite EC in EK.
  pose proof (solver_length _ _ _ _ _ _ _ _ _ _ _ EK) as (VQ & _ & _).
  destruct (atm_forward_ok (x_rs ext) spot (s_spot s) (d_years r) (d_rd r) (d_rf r) vols (s_deltas s) (Some (d_F r)) i v d VQ Hv Hd D1) as (K & SK & PK & DC & DP & _).
  rewrite EK in SK. apply strike_at_ok in SK. exists K. split; [exact PK|]. split; [|auto]. intros cp. exact (quote_reproduced ext s spline h h' r vols ks i K v cp K' cp' q' XS ND I EV EK0 SK Hv H).
Qed.

Lemma pa_smile (eps : R) (spot : bool) (h h' : list request) (r : day_row) (vols : list R) (i : nat) (v d K' cp' : R) (q' : quote) :
  exact_splines ext -> accurate eps (x_rs ext) -> one_row_per_day s -> In r (s_daily s) -> d_vols r = map Fin vols -> d_conv r = pa_name spot ->
  nth_error vols i = Some v -> nth_error (s_deltas s) i = Some d -> d <> 0 -> d <> 1 / 2 -> d <> - (1 / 2) \/ (exists d', In d' (s_deltas s) /\ Rabs d' <> 1 / 2) ->
  vols_at ext s h' [d_date r] [K'] [cp'] = Ok [q'] ->
  exists K, 0 < K /\ (forall cp, vols_at ext s h [d_date r] [K] [cp] = Ok [mk_quote r K cp (Fin v)]) /\
    within eps d ((if spot then pa_spot_delta else pa_forward_delta) (s_spot s) (d_years r) (d_rd r) (d_rf r) (call_put d) K v (Some (d_F r))).
Proof.
  intros XS AC ND I EV EC Hv Hd D0 D1 D2 H. destruct (strikes_of h' r vols K' cp' q' ND I EV H) as (ks & EK). pose proof EK as EK0. rewrite EC in EK.
  pose proof (solver_length _ _ _ _ _ _ _ _ _ _ _ EK) as (VQ & _ & _).
  destruct (pa_ok (x_rs ext) eps spot (s_spot s) (d_years r) (d_rd r) (d_rf r) vols (s_deltas s) "forward" (Some (d_F r)) ks i v d VQ ltac:(left; reflexivity) AC EK Hv Hd D0 D1 D2) as (K & SK & PK & DK).
  exists K. split; [exact PK|]. split; [|exact DK]. intros cp. exact (quote_reproduced ext s spline h h' r vols ks i K v cp K' cp' q' XS ND I EV EK0 SK Hv H).
Qed.

Lemma surface_parity (h : list request) (d : date) (K : R) (ps : list num) (rows : list quote) (q : quote) (v : R) :
  prices_at ext s h [d; d] [K; K] [1; -1] = Ok (ps, rows) -> nth_error rows 0 = Some q -> q_vol q = Fin v -> 0 < K -> v <> 0 ->
  exists c p, ps = [Fin c; Fin p] /\ c - p = s_spot s * exp (- d_rf (q_day q) * d_years (q_day q)) * (1 - K / d_F (q_day q)).
Proof.
  intros H N EV HK Hv. apply prices in H as (HV & HS & _ & HR & HP). apply elementwise in HV as (_ & _ & L & E). cbn in L.
  destruct (E O d K 1 eq_refl eq_refl eq_refl) as (q1 & N1 & V1). destruct (E 1%nat d K (-1) eq_refl eq_refl eq_refl) as (q2 & N2 & V2). rewrite N in N1. injection N1 as <-.
  destruct (solved_strikes _ _ _ _ _ V1) as (vols & ks & _ & EK). apply solver_length in EK as ((_ & Ht & _ & _ & _ & HF) & _).
  pose proof (type_irrelevant ext s spline [] [] d K 1 (-1) q V1) as V2'. rewrite V2 in V2'. injection V2' as ->.
  apply row_content in V1 as (_ & _ & QK & QC).
  destruct rows as [|a [|b [|]]]; try discriminate. cbn in N, N2. injection N as ->. injection N2 as ->. inversion HP as [|? c0 ? ? PC HP' E1 E2]. inversion HP' as [|? p0 ? ? PP HP'' E3 E4]. inversion HP''. subst.
  unfold price_of in PC, PP. cbn in PP. rewrite EV in PC, PP.
  destruct (gk_parity (s_spot s) (d_years (q_day q)) (d_rd (q_day q)) (d_rf (q_day q)) (q_K q) v (Some (d_F (q_day q))) HS HK Ht HF (or_introl Hv)) as (c & p & EC & EP & PE).
  exists c, p. split; [rewrite PC, PP, QC, EC, EP; reflexivity|]. rewrite PE. unfold dom_df, forward_of. cbn in HF. field. lra.
Qed.
End Smile.
