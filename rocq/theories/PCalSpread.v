(* C160: option prices of different expiries on interpolated volatilities. *)
From Coq Require Import ZArith QArith Qreals Reals List Bool Sorted Lra Lia.
From Verif Require Import Base Date DayCountModel CurveSpec CurveProofs BootSpec BootProofs NormalModel BsProofs BlackModel BlackSpec BlackProofs GkModel GkSpec GkProofs StaticProofs VolModel VolSpec VolProofs VolDailyProofs.
Import ListNotations.
Open Scope R_scope.

Lemma total_sq v t : 0 <= t -> (v * sqrt t) * (v * sqrt t) = tv v t.
Proof. intros H. unfold tv. replace (v * sqrt t * (v * sqrt t)) with (v ^ 2 * (sqrt t * sqrt t)) by ring. rewrite sqrt_sqrt by exact H. ring. Qed.
Lemma total_lt t1 v1 t2 v2 : 0 < t1 -> 0 < v1 -> 0 < t2 -> 0 < v2 -> tv v1 t1 < tv v2 t2 -> v1 * sqrt t1 < v2 * sqrt t2.
Proof.
  intros A B C D H. pose proof (total_pos v1 t1 B A). pose proof (total_pos v2 t2 D C). rewrite <- (total_sq v1 t1), <- (total_sq v2 t2) in H by lra. nra.
Qed.
Lemma total_eq t1 v1 t2 v2 : 0 < t1 -> 0 < v1 -> 0 < t2 -> 0 < v2 -> tv v1 t1 = tv v2 t2 -> v1 * sqrt t1 = v2 * sqrt t2.
Proof.
  intros A B C D H. pose proof (total_pos v1 t1 B A). pose proof (total_pos v2 t2 D C). rewrite <- (total_sq v1 t1), <- (total_sq v2 t2) in H by lra. nra.
Qed.

(* Options on the same forward and strike are ordered as their total variances, whatever the expiries. *)
Theorem C160_black76_ordered_by_variance (F cp K s A t1 v1 t2 v2 : R) : call_or_put cp -> 0 < F + s -> 0 < K + s -> 0 < A -> 0 < t1 -> 0 < v1 -> 0 < t2 -> 0 < v2 ->
  exists x y, price76 F t1 cp K v1 s A = Fin x /\ price76 F t2 cp K v2 s A = Fin y /\ (x < y <-> tv v1 t1 < tv v2 t2) /\ (x = y <-> tv v1 t1 = tv v2 t2).
Proof.
  intros W HF HK HA T1 V1 T2 V2. pose proof (total_pos v1 t1 V1 T1) as P1. pose proof (total_pos v2 t2 V2 T2) as P2. rewrite !price76_fin by lra.
  do 2 eexists. split; [reflexivity|]. split; [reflexivity|].
  assert (M : forall u w, 0 < u -> u < w -> A * blk cp (F + s) (K + s) u < A * blk cp (F + s) (K + s) w) by (intros; apply Rmult_lt_compat_l; auto; apply blk_mono; auto).
  destruct (Rtotal_order (tv v1 t1) (tv v2 t2)) as [L|[E|G]].
  - pose proof (M _ _ P1 (total_lt _ _ _ _ T1 V1 T2 V2 L)). split; split; lra.
  - rewrite (total_eq _ _ _ _ T1 V1 T2 V2 E). split; split; lra.
  - pose proof (M _ _ P2 (total_lt _ _ _ _ T2 V2 T1 V1 G)). split; split; lra.
Qed.
Theorem C160_bachelier_ordered_by_variance (F cp K A t1 v1 t2 v2 : R) : call_or_put cp -> 0 < A -> 0 < t1 -> 0 < v1 -> 0 < t2 -> 0 < v2 ->
  exists x y, price_n F t1 cp K v1 A = Fin x /\ price_n F t2 cp K v2 A = Fin y /\ (x < y <-> tv v1 t1 < tv v2 t2) /\ (x = y <-> tv v1 t1 = tv v2 t2).
Proof.
  intros W HA T1 V1 T2 V2. pose proof (total_pos v1 t1 V1 T1) as P1. pose proof (total_pos v2 t2 V2 T2) as P2. rewrite !price_n_fin by lra.
  do 2 eexists. split; [reflexivity|]. split; [reflexivity|].
  assert (M : forall u w, 0 < u -> u < w -> A * nrm cp F K u < A * nrm cp F K w) by (intros; apply Rmult_lt_compat_l; auto; apply nrm_mono; auto).
  destruct (Rtotal_order (tv v1 t1) (tv v2 t2)) as [L|[E|G]].
  - pose proof (M _ _ P1 (total_lt _ _ _ _ T1 V1 T2 V2 L)). split; split; lra.
  - rewrite (total_eq _ _ _ _ T1 V1 T2 V2 E). split; split; lra.
  - pose proof (M _ _ P2 (total_lt _ _ _ _ T2 V2 T1 V1 G)). split; split; lra.
Qed.

(* FX options with one ratio of strike to forward: grown at the foreign rate to expiry, prices are ordered as total variances, whatever the expiries, rates and forwards. *)
Theorem C160_garman_kohlhagen_ordered_by_variance (S cp m t1 rd1 rf1 v1 t2 rd2 rf2 v2 : R) (F1 F2 : option R) : call_or_put cp -> 0 < S -> 0 < m -> 0 < t1 -> 0 < v1 -> 0 < t2 -> 0 < v2 ->
  good_forward F1 -> good_forward F2 ->
  exists x y, price_gk S t1 rd1 rf1 cp (m * forward_of S t1 rd1 rf1 F1) v1 F1 = Fin x /\ price_gk S t2 rd2 rf2 cp (m * forward_of S t2 rd2 rf2 F2) v2 F2 = Fin y /\
    (exp (rf1 * t1) * x < exp (rf2 * t2) * y <-> tv v1 t1 < tv v2 t2) /\ (exp (rf1 * t1) * x = exp (rf2 * t2) * y <-> tv v1 t1 = tv v2 t2).
Proof.
  intros W HS HM T1 V1 T2 V2 G1 G2. pose proof (total_pos v1 t1 V1 T1) as P1. pose proof (total_pos v2 t2 V2 T2) as P2.
  assert (Q : forall t rd rf v F, 0 < t -> 0 < v * sqrt t -> good_forward F ->
    exists x, price_gk S t rd rf cp (m * forward_of S t rd rf F) v F = Fin x /\ exp (rf * t) * x = S * blk cp 1 m (v * sqrt t)).
  { intros t rd rf v F T P G. assert (HF : 0 < forward_of S t rd rf F) by (destruct F as [f|]; cbn in *; [exact G|apply Rmult_lt_0_compat; [exact HS|apply exp_pos]]).
    rewrite price_gk_live; try assumption; [|apply Rmult_lt_0_compat; assumption|lra]. eexists. split; [reflexivity|].
    pose proof (df_forward S t rd rf F HS G) as D. set (f := forward_of S t rd rf F) in *. set (k := dom_df S t rd rf F) in *.
    replace (blk cp f (m * f) (v * sqrt t)) with (f * blk cp 1 m (v * sqrt t)) by (rewrite <- blk_scale by lra; rewrite Rmult_1_r, (Rmult_comm f m); reflexivity).
    replace (exp (rf * t) * (k * (f * blk cp 1 m (v * sqrt t)))) with (exp (rf * t) * (k * f) * blk cp 1 m (v * sqrt t)) by ring. rewrite D.
    replace (exp (rf * t) * (S * exp (- rf * t))) with (S * (exp (rf * t) * exp (- rf * t))) by ring. rewrite <- exp_plus. replace (rf * t + - rf * t) with 0 by ring. rewrite exp_0. ring. }
  destruct (Q t1 rd1 rf1 v1 F1 T1 P1 G1) as (x & X & EX). destruct (Q t2 rd2 rf2 v2 F2 T2 P2 G2) as (y & Y & EY). exists x, y. split; [exact X|]. split; [exact Y|]. rewrite EX, EY.
  assert (M : forall u w, 0 < u -> u < w -> S * blk cp 1 m u < S * blk cp 1 m w) by (intros; apply Rmult_lt_compat_l; auto; apply blk_mono; auto; lra).
  destruct (Rtotal_order (tv v1 t1) (tv v2 t2)) as [L|[E|G]].
  - pose proof (M _ _ P1 (total_lt _ _ _ _ T1 V1 T2 V2 L)). split; split; lra.
  - rewrite (total_eq _ _ _ _ T1 V1 T2 V2 E). split; split; lra.
  - pose proof (M _ _ P2 (total_lt _ _ _ _ T2 V2 T1 V1 G)). split; split; lra.
Qed.

Lemma line_at (t1 a t2 b t : R) : t1 < t2 -> line t1 a t2 b t (tv a t1 + (tv b t2 - tv a t1) * (t - t1) / (t2 - t1)).
Proof. intros L. split; [intros _; field; lra | lra]. Qed.
Lemma tv_pos v t : 0 < v -> 0 < t -> 0 < tv v t.
Proof. intros A B. unfold tv. apply Rmult_lt_0_compat; [apply pow_lt|]; assumption. Qed.
Lemma vol_pos v t : 0 <= v -> 0 < tv v t -> 0 < v.
Proof. intros A B. destruct A as [A|<-]; [exact A|]. unfold tv in B. lra. Qed.
Lemma line_le (x y d d' e : R) : 0 <= y -> 0 < e -> d <= d' -> x + y * d / e <= x + y * d' / e.
Proof. intros A B C. apply Rplus_le_compat_l. unfold Rdiv. rewrite !Rmult_assoc. apply Rmult_le_compat_l; [exact A|]. apply Rmult_le_compat_r; [left; apply Rinv_0_lt_compat; exact B | exact C]. Qed.

(* Flat forward interpolation from two pillars: the later of two expiries never gives the cheaper option. *)
Theorem C160_between_pillars (t1 t2 a b s t F cp K sh A : R) : 0 < t1 -> t1 < t2 -> 0 < a -> 0 < b -> t1 <= s -> s <= t -> tv a t1 <= tv b t2 ->
  call_or_put cp -> 0 < F + sh -> 0 < K + sh -> 0 < A ->
  exists u v x y, flat_forward_interp (FfRows [mk_ff t1 t2 s [(a, b)]; mk_ff t1 t2 t [(a, b)]]) = Ok [[Fin u]; [Fin v]] /\ 0 < u /\ 0 < v /\
    price76 F s cp K u sh A = Fin x /\ price76 F t cp K v sh A = Fin y /\ x <= y.
Proof.
  intros T1 T2 HA HB HS HT TV W HF HK HAn.
  assert (U : forall q, usable (mk_ff t1 t2 q [(a, b)])) by (intros q; split; cbn; [lra|]; intros _ p [<-|[]]; exact TV).
  assert (G : forall q, t1 <= q -> exists u, ff_elem (mk_ff t1 t2 q [(a, b)]) (a, b) = Fin u /\ 0 < u /\ tv u q = tv a t1 + (tv b t2 - tv a t1) * (q - t1) / (t2 - t1)).
  { intros q Q. pose proof (tv_pos a t1 HA T1) as P. pose proof (line_le (tv a t1) (tv b t2 - tv a t1) 0 (q - t1) (t2 - t1)) as M. unfold Rdiv in M at 1. rewrite Rmult_0_r, Rmult_0_l in M.
    destruct (ff_elem_spec (mk_ff t1 t2 q [(a, b)]) (a, b) _ (U q) ltac:(left; reflexivity) (line_at t1 a t2 b q T2)) as [V _]. cbn in V.
    destruct V as (u & E & V0 & V1); [split; [lra|lra]|]. exists u. split; [exact E|]. split; [|exact V1]. apply (vol_pos u q V0). lra. }
  destruct (G s HS) as (u & EU & PU & TU). destruct (G t ltac:(lra)) as (v & EV & PV & TVv).
  pose proof (line_le (tv a t1) (tv b t2 - tv a t1) (s - t1) (t - t1) (t2 - t1) ltac:(lra) ltac:(lra) ltac:(lra)) as M. rewrite <- TU, <- TVv in M.
  destruct (C160_black76_ordered_by_variance F cp K sh A s u t v W HF HK HAn ltac:(lra) PU ltac:(lra) PV) as (x & y & X & Y & O1 & O2).
  exists u, v, x, y. split.
  { rewrite (proj1 (ff_cases _)); [cbn; rewrite EU, EV; reflexivity|]. intros r [<-|[<-|[]]]; apply U. }
  repeat (split; [assumption|]). destruct M as [M|M]; [left; apply O1; exact M | right; apply O2; exact M].
Qed.
(* When the later pillar carries less variance, no volatilities come back at all. *)
Theorem C160_arbitrage_refused (t1 t2 a b : R) (ts : list R) : t1 < t2 -> tv b t2 < tv a t1 -> ts <> [] ->
  flat_forward_interp (FfRows (map (fun t => mk_ff t1 t2 t [(a, b)]) ts)) = Err ValueError.
Proof.
  intros L D N. apply (proj2 (ff_cases _)). destruct ts as [|t ts]; [contradiction|]. exists (mk_ff t1 t2 t [(a, b)]). split; [left; reflexivity|].
  intros [_ Q]. cbn in Q. specialize (Q L (a, b) ltac:(left; reflexivity)). cbn in Q. lra.
Qed.

(* ---- the daily surface ---- *)
Lemma bracket (l : list vol_pillar) : forall p, StronglySorted (fun p q => (v_expiry p < v_expiry q)%Z) (p :: l) -> forall d, (v_expiry p <= d < v_expiry (last l p))%Z ->
  exists q s, consecutive q s (p :: l) /\ (v_expiry q <= d < v_expiry s)%Z.
Proof.
  induction l as [|r l IH]; intros p S0 d D; [cbn in D; lia|]. destruct (Z_lt_le_dec d (v_expiry r)) as [L|L].
  - exists p, r. split; [exists [], l; reflexivity | lia].
  - inversion S0 as [|? ? S1 F]; subst. destruct (IH r S1 d) as (q & s & (l1 & l2 & E) & B).
    { replace (last l r) with (last (r :: l) p) by (destruct l; [reflexivity|]; cbn; clear; revert v; induction l; intros; cbn; auto). lia. }
    exists q, s. split; [exists (p :: l1), l2; cbn; rewrite E; reflexivity | exact B].
Qed.

Lemma nth_combine {A B} (l : list A) (m : list B) : forall j x y, nth_error l j = Some x -> nth_error m j = Some y -> In (x, y) (combine l m).
Proof. revert m. induction l as [|a l IH]; intros [|b m] [|j] x y; cbn; try discriminate; intros H1 H2; [left; congruence | right; eauto]. Qed.

Section Daily.
  Variables (c : date) (b : basis) (w : nat) (p : vol_pillar) (r : list vol_pillar).
  Hypothesis SB : strict_basis b.
  Hypothesis GP : good_pillars w (p :: r).
  Hypothesis PV : forall q x, In q (p :: r) -> In x (v_vols q) -> 0 < x.
  Hypothesis CP : (c < v_expiry p)%Z.
  Hypothesis CF : calendar_free c b (p :: r).

  Lemma yf_of (d : date) : (c <= d)%Z -> year_fraction b c d (Q2R (yf1 b c d)).
  Proof. intros L. exists (yf1 b c d). split; [apply yf1_scalar; [apply (strict_plain b SB)|exact L] | reflexivity]. Qed.
  Lemma yf_is (d : date) t : (c <= d)%Z -> year_fraction b c d t -> t = Q2R (yf1 b c d).
  Proof. intros L (q & E & ->). rewrite yf1_scalar in E by (try apply (strict_plain b SB); exact L). injection E as <-. reflexivity. Qed.
  Lemma yf_pos (d : date) : (c < d)%Z -> 0 < Q2R (yf1 b c d).
  Proof.
    intros L. pose proof (yf1_strict b c c d SB ltac:(lia)) as H. rewrite yf1_refl in H by (apply (strict_plain b SB)). exact H.
  Qed.
  Lemma rises : variance_rises c b (p :: r).
  Proof. intros q s tq ts x y H _. apply CF. exact H. Qed.
  Lemma consecutive_in (q s : vol_pillar) l : consecutive q s l -> In q l /\ In s l.
  Proof. intros (l1 & l2 & ->). rewrite !in_app_iff. cbn. tauto. Qed.
  Lemma consecutive_lt (q s : vol_pillar) l : StronglySorted (fun p q => (v_expiry p < v_expiry q)%Z) l -> consecutive q s l -> (v_expiry q < v_expiry s)%Z.
  Proof.
    intros S0 (l1 & l2 & ->). induction l1 as [|a l1 IH]; inversion S0 as [|? ? S1 F]; subst; [inversion F; assumption | apply IH; exact S1].
  Qed.
  Lemma width q : In q (p :: r) -> forall j, (j < w)%nat -> exists x, nth_error (v_vols q) j = Some x.
  Proof. intros I j J. destruct (nth_error (v_vols q) j) eqn:E; [eauto|]. apply nth_error_None in E. destruct GP as [_ G]. destruct (G q I). lia. Qed.

  (* the volatility of a row lies on the line of total variance between the two pillars around it *)
  Lemma on_line rows : daily_vols c b (p :: r) = Ok rows -> forall q s i d t vols j x y,
    nth_error rows i = Some (d, t, vols) -> consecutive q s (p :: r) -> (v_expiry q <= d <= v_expiry s)%Z -> (j < w)%nat ->
    nth_error (v_vols q) j = Some x -> nth_error (v_vols s) j = Some y ->
    exists v, nth_error vols j = Some (Fin v) /\ 0 <= v /\ line (Q2R (yf1 b c (v_expiry q))) x (Q2R (yf1 b c (v_expiry s))) y t (tv v t) /\ t = Q2R (yf1 b c d) /\ (c < d)%Z.
  Proof.
    intros E q s i d t vols j x y N C D J X Y. destruct (daily_surface c b w p r SB GP ltac:(lia) rises) as (rows' & E' & _ & H). rewrite E in E'. injection E' as <-.
    destruct (H i d t vols N) as (Dd & T & L & PIL & MID & _). destruct (consecutive_in q s _ C) as [IQ IS]. destruct GP as [SO G]. pose proof (consecutive_lt q s _ SO C) as QS.
    assert (CD : (c < d)%Z) by lia. pose proof (yf_is d t ltac:(lia) T) as TT.
    assert (CQ : (c < v_expiry q)%Z). { destruct IQ as [<-|IQ]; [exact CP|]. inversion SO as [|? ? _ F]; subst. rewrite Forall_forall in F. specialize (F q IQ). lia. }
    pose proof (yf1_strict b c (v_expiry q) (v_expiry s) SB ltac:(lia)) as TS.
    destruct (Z.eq_dec (v_expiry q) d) as [EQ|NQ]; [|destruct (Z.eq_dec (v_expiry s) d) as [ES|NS]].
    - exists x. rewrite (PIL q IQ EQ CD). split; [apply map_nth_error; exact X|]. split; [apply (proj2 (G q IQ)); eapply nth_error_In; exact X|]. split; [|auto].
      rewrite TT, <- EQ. split; [intros _; ring | lra].
    - exists y. rewrite (PIL s IS ES CD). split; [apply map_nth_error; exact Y|]. split; [apply (proj2 (G s IS)); eapply nth_error_In; exact Y|]. split; [|auto].
      rewrite TT, <- ES. split; [intros _; ring | lra].
    - destruct (MID q s j x y _ _ C ltac:(lia) X Y (yf_of (v_expiry q) ltac:(lia)) (yf_of (v_expiry s) ltac:(lia))) as (_ & v & V1 & V2 & V3). exists v. auto.
  Qed.
  Lemma line_between (x a y e t u : R) : x < y -> x <= t -> line x a y e t u -> tv a x <= tv e y -> tv a x <= u.
  Proof. intros L M [H _] O. specialize (H L). assert (0 <= (tv e y - tv a x) * (t - x)) by (apply Rmult_le_pos; lra). destruct (Rle_lt_dec (tv a x) u) as [K|K]; [exact K|]. exfalso. assert (0 < (tv a x - u) * (y - x)) by (apply Rmult_lt_0_compat; lra). lra. Qed.
  Lemma line_mono (x a y e t t' u u' : R) : x < y -> t <= t' -> line x a y e t u -> line x a y e t' u' -> tv a x <= tv e y -> u <= u'.
  Proof.
    intros L M [H _] [H' _] O. specialize (H L). specialize (H' L). assert (0 <= (tv e y - tv a x) * (t' - t)) by (apply Rmult_le_pos; lra).
    destruct (Rle_lt_dec u u') as [K|K]; [exact K|]. exfalso. assert (0 < (u - u') * (y - x)) by (apply Rmult_lt_0_compat; lra). lra.
  Qed.

  Lemma step_up rows : daily_vols c b (p :: r) = Ok rows -> forall i d t vols d' t' vols' j, (j < w)%nat ->
    nth_error rows i = Some (d, t, vols) -> nth_error rows (S i) = Some (d', t', vols') ->
    exists v v', nth_error vols j = Some (Fin v) /\ nth_error vols' j = Some (Fin v') /\ 0 < v /\ 0 < v' /\ 0 < t /\ 0 < t' /\ tv v t <= tv v' t'.
  Proof.
    intros E i d t vols d' t' vols' j J N N'. destruct (daily_surface c b w p r SB GP ltac:(lia) rises) as (rows' & E' & LEN & H). rewrite E in E'. injection E' as <-.
    destruct (H i d t vols N) as (Dd & _). destruct (H (S i) d' t' vols' N') as (Dd' & _).
    assert (B : (S i < length rows)%nat) by (apply nth_error_Some; congruence). rewrite LEN in B.
    destruct (bracket r p (proj1 GP) d ltac:(lia)) as (q & s & C & D). destruct (consecutive_in q s _ C) as [IQ IS].
    destruct (width q IQ j J) as (x & X). destruct (width s IS j J) as (y & Y).
    destruct (on_line rows E q s i d t vols j x y N C ltac:(lia) J X Y) as (v & V1 & V2 & V3 & V4 & V5).
    destruct (on_line rows E q s (S i) d' t' vols' j x y N' C ltac:(lia) J X Y) as (v' & W1 & W2 & W3 & W4 & W5).
    assert (CQ : (c < v_expiry q)%Z). { destruct GP as [SO _]. destruct IQ as [<-|IQ]; [exact CP|]. inversion SO as [|? ? _ F]; subst. rewrite Forall_forall in F. specialize (F q IQ). lia. }
    pose proof (consecutive_lt q s _ (proj1 GP) C) as QS. pose proof (yf1_strict b c (v_expiry q) (v_expiry s) SB ltac:(lia)) as TS.
    pose proof (CF q s _ _ x y C (yf_of (v_expiry q) ltac:(lia)) (yf_of (v_expiry s) ltac:(lia)) (nth_combine _ _ _ _ _ X Y)) as TV.
    pose proof (yf1_le b c (v_expiry q) d SB ltac:(lia)) as A1. pose proof (yf1_le b c d d' SB ltac:(lia)) as A2.
    pose proof (tv_pos x _ (PV q x IQ (nth_error_In _ _ X)) (yf_pos _ CQ)) as PX.
    pose proof (yf_pos d V5). pose proof (yf_pos d' W5). clear N N' H. subst t t'.
    pose proof (line_between _ _ _ _ _ _ TS A1 V3 TV) as L1. pose proof (line_mono _ _ _ _ _ _ _ _ TS A2 V3 W3 TV) as L2.
    exists v, v'. split; [exact V1|]. split; [exact W1|]. split; [apply (vol_pos v (Q2R (yf1 b c d)) V2); eapply Rlt_le_trans; [exact PX|exact L1]|]. split; [apply (vol_pos v' (Q2R (yf1 b c d')) W2); eapply Rlt_le_trans; [eapply Rlt_le_trans; [exact PX|exact L1]|exact L2]|]. repeat (split; [assumption|]). exact L2.
  Qed.

  Lemma row_live rows : daily_vols c b (p :: r) = Ok rows -> forall i d t vols j, (j < w)%nat -> nth_error rows i = Some (d, t, vols) ->
    exists v, nth_error vols j = Some (Fin v) /\ 0 < v /\ 0 < t.
  Proof.
    intros E i d t vols j J N. destruct (nth_error rows (S i)) as [[[d' t'] vols']|] eqn:N'.
    - destruct (step_up rows E i d t vols d' t' vols' j J N N') as (v & v' & H). exists v. tauto.
    - destruct i as [|i].
      + destruct (daily_surface c b w p r SB GP ltac:(lia) rises) as (rows' & E' & LEN & H). rewrite E in E'. injection E' as <-.
        destruct (H 0%nat d t vols N) as (Dd & T & _ & PIL & _). destruct (width p ltac:(left; reflexivity) j J) as (x & X).
        exists x. rewrite (PIL p ltac:(left; reflexivity) ltac:(lia) ltac:(lia)). split; [apply map_nth_error; exact X|]. split; [apply (PV p); [left; reflexivity|eapply nth_error_In; exact X]|].
        rewrite (yf_is d t ltac:(lia) T). apply yf_pos. lia.
      + assert (B : (S i < length rows)%nat) by (apply nth_error_Some; congruence).
        destruct (nth_error rows i) as [[[d0 t0] vols0]|] eqn:N0; [|apply nth_error_None in N0; lia].
        destruct (step_up rows E i d0 t0 vols0 d t vols j J N0 N) as (v & v' & H). exists v'. tauto.
  Qed.
  Lemma up rows : daily_vols c b (p :: r) = Ok rows -> forall n i d t vols d' t' vols' j, (j < w)%nat ->
    nth_error rows i = Some (d, t, vols) -> nth_error rows (n + i) = Some (d', t', vols') ->
    exists v v', nth_error vols j = Some (Fin v) /\ nth_error vols' j = Some (Fin v') /\ 0 < v /\ 0 < v' /\ 0 < t /\ 0 < t' /\ tv v t <= tv v' t'.
  Proof.
    intros E. induction n as [|n IH]; intros i d t vols d' t' vols' j J N N'.
    - cbn in N'. rewrite N in N'. injection N' as <- <- <-. destruct (row_live rows E i d t vols j J N) as (v & A & B & C). exists v, v. repeat (split; [assumption|]). lra.
    - assert (B : (S n + i < length rows)%nat) by (apply nth_error_Some; congruence).
      destruct (nth_error rows (n + i)) as [[[d0 t0] vols0]|] eqn:N0; [|apply nth_error_None in N0; lia].
      destruct (IH i d t vols d0 t0 vols0 j J N N0) as (v & u & A1 & A2 & A3 & A4 & A5 & A6 & A7).
      destruct (step_up rows E (n + i) d0 t0 vols0 d' t' vols' j J N0 N') as (u' & v' & B1 & B2 & B3 & B4 & B5 & B6 & B7).
      rewrite A2 in B1. injection B1 as <-. exists v, v'. repeat (split; [assumption|]). lra.
  Qed.
End Daily.

(* A surface whose pillars do not lose variance has no calendar arbitrage: on every day the surface is finite, and of two
   options on the same forward and strike priced with one column the later never is the cheaper. *)
Theorem C160_daily_surface (c : date) (b : basis) (w : nat) (p : vol_pillar) (r : list vol_pillar) : strict_basis b -> good_pillars w (p :: r) ->
  (forall q x, In q (p :: r) -> In x (v_vols q) -> 0 < x) -> (c < v_expiry p)%Z -> calendar_free c b (p :: r) ->
  exists rows, daily_vols c b (p :: r) = Ok rows /\
  forall i k d t vols d' t' vols' j, (i <= k)%nat -> (j < w)%nat -> nth_error rows i = Some (d, t, vols) -> nth_error rows k = Some (d', t', vols') ->
  exists v v', nth_error vols j = Some (Fin v) /\ nth_error vols' j = Some (Fin v') /\ 0 < v /\ 0 < v' /\
    forall F cp K s A, call_or_put cp -> 0 < F + s -> 0 < K + s -> 0 < A ->
      exists x y, price76 F t cp K v s A = Fin x /\ price76 F t' cp K v' s A = Fin y /\ x <= y.
Proof.
  intros SB GP PV CP CF. destruct (daily_surface c b w p r SB GP ltac:(lia) (rises c b p r CF)) as (rows & E & _). exists rows. split; [exact E|].
  intros i k d t vols d' t' vols' j IK J N N'. replace k with ((k - i) + i)%nat in N' by lia.
  destruct (up c b w p r SB GP PV CP CF rows E (k - i) i d t vols d' t' vols' j J N N') as (v & v' & A1 & A2 & A3 & A4 & A5 & A6 & A7).
  exists v, v'. repeat (split; [assumption|]). intros F cp K s A W HF HK HA.
  destruct (C160_black76_ordered_by_variance F cp K s A t v t' v' W HF HK HA A5 A3 A6 A4) as (x & y & X & Y & O1 & O2).
  exists x, y. repeat (split; [assumption|]). destruct A7 as [A7|A7]; [left; apply O1; exact A7 | right; apply O2; exact A7].
Qed.

(* The same for FX options with one ratio of strike to forward, whatever the rates and forwards of the two days. *)
Theorem C160_daily_fx_surface (c : date) (b : basis) (w : nat) (p : vol_pillar) (r : list vol_pillar) : strict_basis b -> good_pillars w (p :: r) ->
  (forall q x, In q (p :: r) -> In x (v_vols q) -> 0 < x) -> (c < v_expiry p)%Z -> calendar_free c b (p :: r) ->
  exists rows, daily_vols c b (p :: r) = Ok rows /\
  forall i k d t vols d' t' vols' j, (i <= k)%nat -> (j < w)%nat -> nth_error rows i = Some (d, t, vols) -> nth_error rows k = Some (d', t', vols') ->
  exists v v', nth_error vols j = Some (Fin v) /\ nth_error vols' j = Some (Fin v') /\ 0 < v /\ 0 < v' /\
    forall S cp m rd rf rd' rf' F F', call_or_put cp -> 0 < S -> 0 < m -> good_forward F -> good_forward F' ->
      exists x y, price_gk S t rd rf cp (m * forward_of S t rd rf F) v F = Fin x /\ price_gk S t' rd' rf' cp (m * forward_of S t' rd' rf' F') v' F' = Fin y /\
        exp (rf * t) * x <= exp (rf' * t') * y.
Proof.
  intros SB GP PV CP CF. destruct (daily_surface c b w p r SB GP ltac:(lia) (rises c b p r CF)) as (rows & E & _). exists rows. split; [exact E|].
  intros i k d t vols d' t' vols' j IK J N N'. replace k with ((k - i) + i)%nat in N' by lia.
  destruct (up c b w p r SB GP PV CP CF rows E (k - i) i d t vols d' t' vols' j J N N') as (v & v' & A1 & A2 & A3 & A4 & A5 & A6 & A7).
  exists v, v'. repeat (split; [assumption|]). intros S cp m rd rf rd' rf' F F' W HS HM HF HF'.
  destruct (C160_garman_kohlhagen_ordered_by_variance S cp m t rd rf v t' rd' rf' v' F F' W HS HM A5 A3 A6 A4 HF HF') as (x & y & X & Y & O1 & O2).
  exists x, y. repeat (split; [assumption|]). destruct A7 as [A7|A7]; [left; apply O1; exact A7 | right; apply O2; exact A7].
Qed.

(* Pillars on consecutive days escape the check: a surface that loses variance overnight is accepted, and the later option is cheaper. *)
Theorem C160_overnight_refuted : exists c b w p r rows d t vols d' t' vols' v v',
  strict_basis b /\ good_pillars w (p :: r) /\ (c < v_expiry p)%Z /\ daily_vols c b (p :: r) = Ok rows /\
  nth_error rows 0 = Some (d, t, vols) /\ nth_error rows 1 = Some (d', t', vols') /\ nth_error vols 0 = Some (Fin v) /\ nth_error vols' 0 = Some (Fin v') /\ t < t' /\
  forall F cp K s A, call_or_put cp -> 0 < F + s -> 0 < K + s -> 0 < A ->
    exists x y, price76 F t cp K v s A = Fin x /\ price76 F t' cp K v' s A = Fin y /\ y < x.
Proof.
  set (p := mk_pillar 120%Z [1 / 5]). set (q := mk_pillar 121%Z [1 / 10]).
  assert (SB : strict_basis ACT_365) by (right; left; reflexivity).
  assert (GP : good_pillars 1 [p; q]).
  { split; [repeat constructor; cbn; lia|]. intros x [<-|[<-|[]]]; cbn; (split; [reflexivity|]); intros y [<-|[]]; lra. }
  assert (VR : variance_rises 100%Z ACT_365 [p; q]).
  { intros x y tx ty a b (l1 & l2 & E) G. destruct l1 as [|z [|z' l1]]; cbn in E; [injection E as <- <- <-; cbn in G; lia | discriminate | destruct l1; discriminate]. }
  destruct (daily_surface 100%Z ACT_365 1 p [q] SB GP ltac:(cbn; lia) VR) as (rows & E & L & H).
  change (length rows = 2%nat) in L. destruct rows as [|[[d t] vols] [|[[d' t'] vols'] [|? ?]]]; try discriminate.
  destruct (H 0%nat d t vols eq_refl) as (D & T & _ & P & _). destruct (H 1%nat d' t' vols' eq_refl) as (D' & T' & _ & P' & _). cbn in D, D'.
  specialize (P p ltac:(left; reflexivity) ltac:(cbn; lia) ltac:(lia)). specialize (P' q ltac:(right; left; reflexivity) ltac:(cbn; lia) ltac:(lia)). cbn in P, P'.
  pose proof (yf_is 100%Z ACT_365 SB d t ltac:(lia) T) as Q. pose proof (yf_is 100%Z ACT_365 SB d' t' ltac:(lia) T') as Q'. subst d d' vols vols'.
  assert (Y : t = 20 / 365) by (rewrite Q; unfold yf1, dc_act; rewrite Q2R_div by discriminate; unfold inject_Z, Q2R; cbn; lra).
  assert (Y' : t' = 21 / 365) by (rewrite Q'; unfold yf1, dc_act; rewrite Q2R_div by discriminate; unfold inject_Z, Q2R; cbn; lra). clear Q Q'.
  exists 100%Z, ACT_365, 1%nat, p, [q]. do 7 eexists. exists (1 / 5), (1 / 10). split; [exact SB|]. split; [exact GP|]. split; [cbn; lia|]. split; [exact E|].
  do 4 (split; [reflexivity|]). split; [lra|]. intros F cp K s A W HF HK HA.
  destruct (C160_black76_ordered_by_variance F cp K s A t' (1 / 10) t (1 / 5) W HF HK HA) as (y & x & Y1 & X1 & O & _); try lra.
  exists x, y. split; [exact X1|]. split; [exact Y1|]. apply O. unfold tv. subst. lra.
Qed.

Definition all_theorems := (C160_black76_ordered_by_variance, C160_bachelier_ordered_by_variance, C160_garman_kohlhagen_ordered_by_variance, C160_between_pillars, C160_arbitrage_refused, C160_daily_surface, C160_daily_fx_surface, C160_overnight_refuted).
Print Assumptions all_theorems.

(* ---- cases meeting the hypotheses ---- *)
Definition ex_rising : list vol_pillar := [mk_pillar 110 [1/10; 1/5]; mk_pillar 120 [1/10; 1/4]; mk_pillar 121 [1/9; 1/4]].
Example C160_ex : good_pillars 2 ex_rising /\ (forall q x, In q ex_rising -> In x (v_vols q) -> 0 < x) /\ calendar_free 100%Z ACT_365 ex_rising.
Proof.
  split; [split; [repeat constructor; cbn; lia | ]; intros p [<- | [<- | [<- | []]]]; cbn; (split; [reflexivity | ]); intros x [<- | [<- | []]]; lra|].
  split; [intros q x [<- | [<- | [<- | []]]] [<- | [<- | []]]; lra|].
  assert (Y : forall (d : date) (t : R), (100 <= d)%Z -> year_fraction ACT_365 100 d t -> t = IZR (d - 100) / 365).
  { intros d t L (q & E & ->). destruct (act_days_per_year ACT_365 365 100 d ltac:(auto) eq_refl L) as [(q' & E' & ->) _]. rewrite E in E'. injection E' as <-. reflexivity. }
  intros p q tp tq x y (l1 & l2 & E) F1 F2 I. unfold ex_rising in E.
  destruct l1 as [ | a l1]; cbn in E; [ | destruct l1 as [ | a' l1]; cbn in E]; [ | | destruct l1; [discriminate | destruct l1; discriminate]].
  - injection E as <- <- <-. cbn in *. apply Y in F1; [ | lia]. apply Y in F2; [ | lia]. subst. destruct I as [I | [I | []]]; injection I as <- <-; unfold tv; cbn; lra.
  - injection E as <- <- <- <-. cbn in *. apply Y in F1; [ | lia]. apply Y in F2; [ | lia]. subst. destruct I as [I | [I | []]]; injection I as <- <-; unfold tv; cbn; lra.
Qed.
