From Coq Require Import String ZArith QArith Qreals Reals List Bool Lra Lia Sorted.
From Verif Require Import Base Date DayCountModel CurveSpec BootModel BootSpec BootProofs CurveProofs NormalModel NormalProofs GkModel GkSpec
  VolModel VolSpec VolProofs VolDailyProofs SurfaceModel SurfaceSpec SurfaceProofs SurfaceSplineProofs.
Import ListNotations.
Open Scope list_scope.
Open Scope R_scope.

Lemma find_next (ps : list pillar) (d : date) : StronglySorted (fun p q => (v_expiry p < v_expiry q)%Z) (map p_vol ps) ->
  (exists q, In q ps /\ (d <= v_expiry (p_vol q))%Z) -> exists q, find (fun p => (d <=? v_expiry (p_vol p))%Z) ps = Some q /\ next_pillar ps d q.
Proof.
  induction ps as [|p t IH]; intros S (q & I & H); [contradiction|]. cbn [map] in S. inversion S as [|? ? S' F]; subst. rewrite Forall_forall in F. cbn [find].
  destruct (d <=? v_expiry (p_vol p))%Z eqn:E.
  - apply Z.leb_le in E. exists p. split; [reflexivity|]. split; [left; reflexivity|]. split; [exact E|]. intros q' [<-|I'] L; [lia|]. specialize (F (p_vol q') (in_map _ _ _ I')). lia.
  - apply Z.leb_gt in E. destruct I as [<-|I]; [lia|]. destruct (IH S') as (x & FX & IX & HX & NX); [eauto|]. exists x. split; [exact FX|]. split; [right; exact IX|]. split; [exact HX|].
    intros q' [<-|I'] L; [lia|]. apply NX; assumption.
Qed.

Lemma next_unique (ps : list pillar) (d : date) (p q : pillar) : StronglySorted (fun p q => (v_expiry p < v_expiry q)%Z) (map p_vol ps) -> next_pillar ps d p -> next_pillar ps d q -> p = q.
Proof.
  intros S (I & H & N) (I' & H' & N').
  assert (E : v_expiry (p_vol p) = v_expiry (p_vol q)).
  { destruct (Z.lt_trichotomy (v_expiry (p_vol p)) (v_expiry (p_vol q))) as [L|[L|L]]; [specialize (N' p I L); lia|exact L|specialize (N q I' L); lia]. }
  clear -S I I' E. induction ps as [|x t IH]; [contradiction|]. cbn [map] in S. inversion S as [|? ? S' F]; subst. rewrite Forall_forall in F.
  destruct I as [<-|I], I' as [<-|I']; [reflexivity| | |auto].
  - specialize (F (p_vol q) (in_map _ _ _ I')). lia.
  - specialize (F (p_vol p) (in_map _ _ _ I)). lia.
Qed.

Lemma last_in {A} (l : list A) (d : A) : In (last l d) (d :: l).
Proof.
  destruct l as [|x t]; [left; reflexivity|]. right. revert x. induction t as [|y u IH]; intros x; [left; reflexivity|]. right. apply (IH y).
Qed.
Lemma last_cons {A} (l : list A) (x d : A) : last (x :: l) d = last l x.
Proof.
  revert x. induction l as [|y u IH]; intros x; [reflexivity|]. change (last (x :: y :: u) d) with (last (y :: u) d). rewrite IH. rewrite <- (IH y).
  clear IH. revert y. induction u as [|z w IH]; intros y; [reflexivity|]. apply (IH z).
Qed.

Lemma daily_rows_ok (c : date) (b : basis) (mkt : market) (w : nat) (p : pillar) (ps : list pillar) :
  strict_basis b -> good_pillars w (map p_vol (p :: ps)) -> (c <= v_expiry (p_vol p))%Z -> variance_rises c b (map p_vol (p :: ps)) ->
  exists rows vrows, daily_vols c b (map p_vol (p :: ps)) = Ok vrows /\ daily_rows c b mkt (p :: ps) = Ok rows /\
  length rows = Z.to_nat (v_expiry (last (map p_vol ps) (p_vol p)) - v_expiry (p_vol p) + 1) /\ length vrows = length rows /\
  forall (i : nat) (r : day_row), nth_error rows i = Some r ->
    d_date r = (v_expiry (p_vol p) + Z.of_nat i)%Z /\ nth_error vrows i = Some (d_date r, d_years r, d_vols r) /\ on_market mkt r /\
    exists q, next_pillar (p :: ps) (d_date r) q /\ d_conv r = p_conv q.
Proof.
  intros SB GP LE VR. cbn [map] in *. destruct (daily_surface c b w (p_vol p) (map p_vol ps) SB GP LE VR) as (vrows & EV & LV & HV).
  unfold daily_rows. cbn [map]. rewrite EV. cbn [bind].
  assert (LM : forall i x, nth_error vrows i = Some x -> (fst (fst x) <= v_expiry (last (map p_vol ps) (p_vol p)))%Z).
  { intros i [[d t] vs] H. destruct (HV i d t vs H) as (-> & _). cbn. assert (i < length vrows)%nat by (apply nth_error_Some; congruence). lia. }
  assert (EX : exists q, In q (p :: ps) /\ p_vol q = last (map p_vol ps) (p_vol p)).
  { pose proof (last_in (map p_vol ps) (p_vol p)) as I. change (p_vol p :: map p_vol ps) with (map p_vol (p :: ps)) in I. apply in_map_iff in I as (q & E & I). eauto. }
  destruct EX as (ql & Iq & Eq).
  assert (ST : StronglySorted (fun p q => (v_expiry p < v_expiry q)%Z) (map p_vol (p :: ps))) by apply GP.
  match goal with |- exists rows vrows', _ /\ sequence (map ?f vrows) = _ /\ _ => set (F := f) end.
  assert (FO : forall i d t vs, nth_error vrows i = Some (d, t, vs) -> exists q, next_pillar (p :: ps) d q /\ F (d, t, vs) = (let '(f, rd, rf) := mkt d in Ok (mk_day d t f rd rf (p_conv q) vs))).
  { intros i d t vs H. pose proof (LM _ _ H) as L. cbn [fst] in L. destruct (find_next (p :: ps) d ST) as (q & FQ & NQ); [exists ql; split; [exact Iq|rewrite Eq; exact L]|].
    exists q. split; [exact NQ|]. unfold F. rewrite FQ. reflexivity. }
  assert (SO : exists rows, sequence (map F vrows) = Ok rows).
  { clear -FO. induction vrows as [|[[d t] vs] l IH]; [exists []; reflexivity|]. cbn [map sequence]. destruct (FO O d t vs eq_refl) as (q & _ & ->).
    destruct (mkt d) as [[f rd] rf]. cbn [bind]. destruct IH as (rows & ->); [intros i d' t' vs' H; exact (FO (Datatypes.S i) d' t' vs' H)|]. cbn [bind]. eauto. }
  destruct SO as (rows & SO). exists rows, vrows. split; [reflexivity|]. split; [exact SO|]. apply sequence_map_ok in SO as [LR NR]. split; [rewrite LR; exact LV|]. split; [symmetry; exact LR|].
  intros i r Hr. destruct (nth_error vrows i) as [[[d t] vs]|] eqn:E;
    [|exfalso; apply nth_error_None in E; assert (nth_error rows i = None) by (apply nth_error_None; exact (eq_ind_r (fun n => (n <= i)%nat) E LR)); congruence]. destruct (NR i _ E) as (r' & Hr' & ER). assert (r' = r) by congruence. subst r'.
  destruct (FO i d t vs E) as (q & NQ & FQ). rewrite FQ in ER. destruct (HV i d t vs E) as (ED & _). unfold on_market. destruct (mkt d) as [[f rd] rf] eqn:EM. injection ER as <-. cbn. 
  split; [exact ED|]. split; [reflexivity|]. split; [exact EM|]. eauto.
Qed.

Lemma NoDup_seq_dates (rows : list day_row) (a : Z) : (forall i r, nth_error rows i = Some r -> d_date r = (a + Z.of_nat i)%Z) -> NoDup (map d_date rows).
Proof.
  intros H. apply NoDup_nth_error. intros i j L E. rewrite map_length in L. rewrite !nth_error_map in E.
  destruct (nth_error rows i) as [x|] eqn:EI; [|apply nth_error_None in EI; lia]. cbn in E. destruct (nth_error rows j) as [y|] eqn:EJ; [|discriminate]. cbn in E. injection E as E.
  rewrite (H i x EI), (H j y EJ) in E. lia.
Qed.

Lemma expiry_range (w : nat) (p : pillar) (ps : list pillar) (q : pillar) : good_pillars w (map p_vol (p :: ps)) -> In q (p :: ps) ->
  (v_expiry (p_vol p) <= v_expiry (p_vol q) <= v_expiry (last (map p_vol ps) (p_vol p)))%Z.
Proof.
  intros [S _]. revert p q S. induction ps as [|x t IH]; intros p q S I.
  - destruct I as [<-|[]]. cbn. lia.
  - cbn [map] in S. inversion S as [|? ? S' F]; subst. rewrite Forall_forall in F.
    assert (E : last (map p_vol (x :: t)) (p_vol p) = last (map p_vol t) (p_vol x)).
    { apply (last_cons (map p_vol t)). }
    rewrite E. destruct I as [<-|I].
    + specialize (IH x x S' (or_introl eq_refl)). specialize (F (p_vol x) (or_introl eq_refl)). lia.
    + specialize (IH x q S' I). specialize (F (p_vol x) (or_introl eq_refl)). lia.
Qed.

Lemma build_ok (ext : externals) (c : date) (b : basis) (mkt : market) (S0 : R) (m : smile_method) (quotes : list (R * R)) (w : nat) (p : pillar) (ps : list pillar) (s : surface) (ks : list (list num)) :
  strict_basis b -> good_pillars w (map p_vol (p :: ps)) -> (c < v_expiry (p_vol p))%Z -> variance_rises c b (map p_vol (p :: ps)) ->
  build ext c b mkt S0 m quotes (p :: ps) = Ok (s, ks) ->
  s_spot s = S0 /\ s_method s = m /\ s_deltas s = map fst quotes /\ s_cps s = map snd quotes /\ one_row_per_day s /\ length ks = length (p :: ps) /\
  forall (j : nat) (q : pillar), nth_error (p :: ps) j = Some q ->
    exists r strikes, In r (s_daily s) /\ d_date r = v_expiry (p_vol q) /\ year_fraction b c (d_date r) (d_years r) /\ on_market mkt r /\ d_conv r = p_conv q /\ d_vols r = map Fin (v_vols (p_vol q)) /\
      nth_error ks j = Some strikes /\
      solve_strike_from_delta (x_rs ext) S0 (d_years r) (d_rd r) (d_rf r) (v_vols (p_vol q)) (map fst quotes) (p_conv q) (Some (d_F r)) "forward" = Ok strikes.
Proof.
  intros SB GP LT VR H. unfold build in H. apply bind_ok in H as (rows & ER & H). apply bind_ok in H as (ks' & EK & H). injection H as <- <-. cbn [s_spot s_method s_deltas s_cps s_daily].
  destruct (daily_rows_ok c b mkt w p ps SB GP ltac:(lia) VR) as (rows' & vrows & EV & ER' & LR & LV & HR). rewrite ER in ER'. injection ER' as <-.
  destruct (daily_surface c b w (p_vol p) (map p_vol ps) SB GP ltac:(lia) VR) as (vrows' & EV' & _ & HV). change (p_vol p :: map p_vol ps) with (map p_vol (p :: ps)) in EV'. rewrite EV in EV'. injection EV' as <-.
  do 4 (split; [reflexivity|]). split. { unfold one_row_per_day. cbn [s_daily]. apply (NoDup_seq_dates rows (v_expiry (p_vol p))). intros i r Hr. apply (HR i r Hr). }
  unfold strike_pillars in EK. apply bind_ok in EK as (ts & ET & EK).
  rewrite <- (map_length (fun p => v_expiry (p_vol p)) (p :: ps)) in ET. apply years_column_from in ET as [-> _]; [|apply strict_plain, SB].
  apply sequence_map_ok in EK as [LK NK]. rewrite combine_length, !map_length, Nat.min_id in LK. split; [exact LK|].
  intros j q Hq. pose proof (nth_error_In _ _ Hq) as Iq. destruct (expiry_range w p ps q GP Iq) as [L1 L2].
  set (i := Z.to_nat (v_expiry (p_vol q) - v_expiry (p_vol p))). assert (HI : (i < length rows)%nat) by (unfold i; lia).
  destruct (nth_error rows i) as [r|] eqn:Er; [|apply nth_error_None in Er; lia]. destruct (HR i r Er) as (ED & EVR & OM & (q' & NQ & EC)).
  assert (DD : d_date r = v_expiry (p_vol q)) by (unfold i in ED; lia).
  destruct (HV i _ _ _ EVR) as (_ & YF & _ & PQ & _ & _).
  assert (q' = q). { apply (next_unique (p :: ps) (d_date r)); [apply GP|exact NQ|]. split; [exact Iq|]. split; [lia|]. intros x _ Lx. lia. } subst q'.
  assert (NC : nth_error (combine (p :: ps) (map (fun d => Q2R (yf1 b c d)) (map (fun p => v_expiry (p_vol p)) (p :: ps)))) j = Some (q, Q2R (yf1 b c (v_expiry (p_vol q))))).
  { clear -Hq. revert j Hq. induction (p :: ps) as [|a l IH]; intros [|j] Hq; cbn in *; try discriminate; [injection Hq as ->; reflexivity|auto]. }
  destruct (NK j _ NC) as (strikes & NS & ES).
  assert (YE : d_years r = Q2R (yf1 b c (v_expiry (p_vol q)))).
  { destruct (Forall2_yf b c [d_date r] [d_years r] (strict_plain b SB)) as [_ E]; [constructor; [exact YF|constructor]|]. injection E as E. rewrite <- DD. exact E. }
  exists r, strikes. split; [eapply nth_error_In; eauto|]. split; [exact DD|]. split; [exact YF|]. split; [exact OM|]. split; [exact EC|]. split.
  { apply (PQ (p_vol q)); [change (p_vol p :: map p_vol ps) with (map p_vol (p :: ps)); apply in_map; exact Iq|auto|lia]. }
  split; [exact NS|]. rewrite <- DD in ES at 1. unfold on_market in OM. rewrite OM in ES. rewrite YE. exact ES.
Qed.

Lemma end_to_end (ext : externals) (c : date) (b : basis) (mkt : market) (S0 : R) (m : smile_method) (quotes : list (R * R)) (w : nat) (p : pillar) (ps : list pillar) (s : surface) (ks : list (list num))
  (h h' : list request) (j i : nat) (q : pillar) (strikes : list num) (K v cp K' cp' : R) (q' : quote) :
  strict_basis b -> good_pillars w (map p_vol (p :: ps)) -> (c < v_expiry (p_vol p))%Z -> variance_rises c b (map p_vol (p :: ps)) ->
  build ext c b mkt S0 m quotes (p :: ps) = Ok (s, ks) -> m = UnivariateSpline \/ m = CubicSpline -> exact_splines ext ->
  nth_error (p :: ps) j = Some q -> nth_error ks j = Some strikes -> nth_error strikes i = Some (Fin K) -> nth_error (v_vols (p_vol q)) i = Some v ->
  vols_at ext s h' [v_expiry (p_vol q)] [K'] [cp'] = Ok [q'] ->
  exists r, vols_at ext s h [v_expiry (p_vol q)] [K] [cp] = Ok [mk_quote r K cp (Fin v)] /\ d_date r = v_expiry (p_vol q) /\ on_market mkt r.
Proof.
  intros SB GP LT VR HB HM XS Hq Hk Hi Hv H. destruct (build_ok ext c b mkt S0 m quotes w p ps s ks SB GP LT VR HB) as (E1 & E2 & E3 & E4 & ND & _ & HR).
  destruct (HR j q Hq) as (r & st & I & DD & _ & OM & EC & EV & NS & ES). assert (st = strikes) by congruence. subst st.
  exists r. split; [|auto]. rewrite <- DD in H |- *. rewrite <- E1, <- E3, <- EC in ES.
  apply (quote_reproduced ext s) with (h' := h') (vols := v_vols (p_vol q)) (ks := strikes) (i := i) (K' := K') (cp' := cp') (q' := q'); auto. unfold spline_surface. rewrite E2. exact HM.
Qed.
