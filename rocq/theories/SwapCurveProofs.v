From Coq Require Import ZArith QArith Qreals Reals List Bool Lia Lra Sorted Permutation.
From Verif Require Import Base Date BusDayModel DayCountModel DayCountProofs ScheduleModel LegModel LegProofs NumModel CurveModel CurveSpec CurveProofs
  FixingModel FixingSpec FixingProofs.
Import ListNotations.
Open Scope R_scope.

(* ---- masks ---- *)
Lemma count_true_map (mask : period -> bool) ps : count_true (map mask ps) = length (filter mask ps).
Proof. unfold count_true. induction ps as [|p t IH]; [reflexivity|]. cbn. destruct (mask p); cbn; rewrite IH; reflexivity. Qed.

Lemma assign_map (mask : period -> bool) (g h : period -> option R) ps :
  assign (map mask ps) (map g ps) (map h (filter mask ps)) = Ok (map (fun p => if mask p then h p else g p) ps).
Proof.
  unfold assign. rewrite count_true_map, map_length, Nat.eqb_refl. f_equal.
  induction ps as [|p t IH]; [reflexivity|]. cbn [map filter place]. destruct (mask p); cbn [map place]; rewrite IH; reflexivity.
Qed.

(* ---- every rate depends on its own period only ---- *)
Lemma sorted_head x l : StronglySorted fle l -> Forall (fle x) l -> insert_fixing x l = x :: l.
Proof. intros S F. destruct l as [|y t]; [reflexivity|]. cbn. inversion F as [|a b H _]; subst. unfold fle in H. destruct (Z.leb_spec (fst x) (fst y)); [reflexivity|lia]. Qed.

Lemma filter_insert f x l : StronglySorted fle l -> filter f (insert_fixing x l) = if f x then insert_fixing x (filter f l) else filter f l.
Proof.
  induction 1 as [|y t S IH F]; [cbn; destruct (f x); reflexivity|]. cbn [insert_fixing]. destruct (Z.leb_spec (fst x) (fst y)) as [L|L].
  - cbn [filter]. destruct (f x) eqn:FX; [|reflexivity]. symmetry. apply (sorted_head x (filter f (y :: t))).
    + apply sorted_filter. constructor; assumption.
    + rewrite Forall_forall in *. intros q I. apply filter_In in I as [[<-|I] _]; [exact L|]. pose proof (F q I) as K. unfold fle in *. lia.
  - cbn [filter]. rewrite IH. destruct (f y) eqn:FY; destruct (f x) eqn:FX; try reflexivity. cbn [insert_fixing]. destruct (Z.leb_spec (fst x) (fst y)); [lia|reflexivity].
Qed.
Lemma filter_sort f l : filter f (sort_fixings l) = sort_fixings (filter f l).
Proof.
  induction l as [|x t IH]; [reflexivity|]. change (sort_fixings (x :: t)) with (insert_fixing x (sort_fixings t)).
  rewrite filter_insert by apply sort_fixings_sorted. cbn [filter]. rewrite IH. destruct (f x); reflexivity.
Qed.

Lemma own_of_window fx first hi (s : date) last : (first <= s)%Z -> (last <= hi)%Z ->
  filter (within s last) (applicable fx first hi) = sort_fixings (filter (within s last) fx).
Proof.
  intros L1 L2. unfold applicable. rewrite filter_sort. f_equal. induction fx as [|q t IH]; [reflexivity|]. cbn [filter].
  destruct (within s last q) eqn:W.
  - assert (W' : within first hi q = true) by (apply within_true in W; apply within_true; lia). rewrite W'. cbn [filter]. rewrite W, IH. reflexivity.
  - destruct (within first hi q); cbn [filter]; rewrite ?W; exact IH.
Qed.

Definition hist_cell (n : option R) (fx : list fixing) (m : rfr_method) (p : period) : option R :=
  match coupon_rate n (applicable fx (fst p) (snd p - 1)) m (fst p) (snd p - 1)%Z with Ok v => v | Err _ => None end.

Lemma hist_rows n fx m ps rs : get_coupon_rates n fx ps m = Ok rs -> rs = map (hist_cell n fx m) ps.
Proof.
  intros H. apply get_coupon_rates_nth in H as [L H]. apply list_ext. intros i. rewrite nth_error_map.
  destruct (nth_error ps i) as [[s e]|] eqn:E.
  - destruct (H i s e E) as (first & hi & L1 & L2 & v & V & C). rewrite V. cbn [option_map]. f_equal. unfold hist_cell. cbn [fst snd].
    assert (K : coupon_rate n (applicable fx s (e - 1)) m s (e - 1) = Ok v).
    { rewrite <- C. unfold coupon_rate. rewrite (own_of_window fx first hi s (e - 1)%Z L1 L2), (own_of_window fx s (e - 1)%Z s (e - 1)%Z (Z.le_refl _) (Z.le_refl _)). reflexivity. }
    rewrite K. reflexivity.
  - apply nth_error_None. apply nth_error_None in E. lia.
Qed.

(* forward rates *)
Definition fwd_cell (z : zero_curve) (m : rfr_method) (p : period) : option R :=
  let average bd := series_mean (map (fun d =>
      let? m := nan_div (cell_df z (@Some date d)) (cell_df z (@Some date (d + 1)%Z)) in let? n := days_per_year (z_basis z) in Some ((m - 1) * n))
      (filter (fun d => negb bd || is_busday (z_cal z) d) (days_from (fst p) (Z.to_nat (snd p - fst p))))) in
  match m with
  | WeightedAverage => average false
  | SimpleAverage => average true
  | _ => forward_cell FDailyCompounded (Q2R (yf1 (z_basis z) (fst p) (snd p))) (cell_df z (Some (fst p))) (cell_df z (Some (snd p)))
  end.

Lemma nth_both {A B C} (g : A -> B) (h : A -> C) l i x y : nth_error (map g l) i = Some x -> nth_error (map h l) i = Some y ->
  exists p, In p l /\ x = g p /\ y = h p.
Proof.
  intros X Y. rewrite nth_error_map in X, Y. destruct (nth_error l i) as [p|] eqn:K; [|discriminate]. injection X as <-. injection Y as <-.
  exists p. split; [exact (nth_error_In _ _ K)|auto].
Qed.
Lemma in_order_rows z (ps : list period) : (forall p : period, In p ps -> (z_date z <= fst p <= snd p)%Z) -> in_order z (map fst ps) (map snd ps).
Proof.
  intros H. split; [rewrite !map_length; reflexivity|]. intros i x y X Y. destruct (nth_both _ _ _ _ _ _ X Y) as (p & K & -> & ->). exact (H p K).
Qed.

Lemma map2_rows {A B C} (f : A -> B -> C) (g : period -> A) (h : period -> B) ps : map2 f (map g ps) (map h ps) = map (fun p => f (g p) (h p)) ps.
Proof. apply map2_map. Qed.

Lemma fwd_rows z m (ps : list period) : built z -> plain_basis (z_basis z) -> m <> RfrOther -> ps <> [] ->
  (forall p : period, In p ps -> (z_date z <= fst p <= snd p)%Z /\ (snd p <= z_last z)%Z) ->
  forward_rates z ps (forward_of m) = Ok (map (fwd_cell z m) ps).
Proof.
  intros B PB NM NE C. assert (O : in_order z (map fst ps) (map snd ps)) by (apply in_order_rows; intros p I; apply C; exact I).
  unfold forward_rates. rewrite <- (map_map fst Some), <- (map_map snd Some), (forwards_checked z _ _ _ O).
  assert (NE' : map fst ps <> []) by (destruct ps; [contradiction|discriminate]).
  assert (CE : forall d, In d (map snd ps) -> (d <= z_last z)%Z). { intros d I. apply in_map_iff in I as (p & <- & I). apply C. exact I. }
  destruct m; try contradiction; unfold forward_of.
  - rewrite (period_forwards_cells z FDailyCompounded _ _ B PB); [|unfold period_type; auto|exact O|].
    + f_equal. rewrite !map_map, map2_rows, combine_map. rewrite map2_rows. reflexivity.
    + intros d [I|I]; apply in_map_iff in I as (p & <- & I); destruct (C p I); unfold covered; lia.
  - rewrite (average_forwards_value z false _ _ B O NE' CE). f_equal. rewrite map2_rows. reflexivity.
  - rewrite (average_forwards_value z true _ _ B O NE' CE). f_equal. rewrite map2_rows. reflexivity.
Qed.

(* the straddling periods *)
Lemma broadcast_map {A B C} (f : A -> B -> C) (g : period -> A) (h : period -> B) ps :
  broadcast f (map g ps) (map h ps) = Ok (map (fun p => f (g p) (h p)) ps).
Proof. unfold broadcast. rewrite !map_length, Nat.eqb_refl, map2_rows. reflexivity. Qed.

Lemma year_frac_to (c : date) (ps : list period) b : ps <> [] -> plain_basis b -> (forall p : period, In p ps -> (fst p <= c)%Z) ->
  exists o, year_frac (map fst ps) [c] b None = Ok o /\ out_list 1 o = map (fun p => yf1 b (fst p) c) ps.
Proof.
  intros NE PB L.
  assert (E : year_frac (map fst ps) [c] b None = year_frac (map fst ps) (map (fun _ => c) ps) b None).
  { destruct ps as [|p [|p' t]]; [contradiction|reflexivity|].
    assert (R : same_shape (map fst (p :: p' :: t)) [c] = same_shape (map fst (p :: p' :: t)) (map (fun _ => c) (p :: p' :: t))).
    { cbn [map same_shape]. f_equal. f_equal. cbn [length repeat]. f_equal. f_equal. rewrite map_length. clear. induction t as [|x t IH]; [reflexivity|]. cbn. f_equal. exact IH. }
    unfold year_frac, day_count. rewrite R. reflexivity. }
  rewrite E. destruct (year_frac_pairs (map fst ps) (map (fun _ => c) ps) b PB) as (o & Y & OL).
  - rewrite !map_length. reflexivity.
  - intros i x y X Y. destruct (nth_both _ _ _ _ _ _ X Y) as (p & K & -> & ->). exact (L p K).
  - exists o. split; [exact Y|]. rewrite OL, map2_rows. reflexivity.
Qed.
Lemma year_frac_from (c : date) (ps : list period) b : ps <> [] -> plain_basis b -> (forall p : period, In p ps -> (c <= snd p)%Z) ->
  exists o, year_frac [c] (map snd ps) b None = Ok o /\ out_list 1 o = map (fun p => yf1 b c (snd p)) ps.
Proof.
  intros NE PB L.
  assert (E : year_frac [c] (map snd ps) b None = year_frac (map (fun _ => c) ps) (map snd ps) b None).
  { destruct ps as [|p [|p' t]]; [contradiction|reflexivity|]. rewrite year_frac_repeat by (cbn; lia). f_equal.
    generalize (p :: p' :: t). intros l. rewrite map_length. induction l as [|x l IH]; [reflexivity|]. cbn. f_equal. exact IH. }
  rewrite E. destruct (year_frac_pairs (map (fun _ => c) ps) (map snd ps) b PB) as (o & Y & OL).
  - rewrite !map_length. reflexivity.
  - intros i x y X Y. destruct (nth_both _ _ _ _ _ _ X Y) as (p & K & -> & ->). exact (L p K).
  - exists o. split; [exact Y|]. rewrite OL, map2_rows. reflexivity.
Qed.

Definition cross_cell (z : zero_curve) (fx : list fixing) (m : rfr_method) (p : period) : option R :=
  let c := z_date z in let b := z_basis z in
  let h := Some (Q2R (yf1 b (fst p) c)) in let f := Some (Q2R (yf1 b c (snd p))) in
  let a := mul2 h (hist_cell (days_per_year b) fx m (until c p)) in
  nan_div (add2 a (mul2 (mul2 (add2 (Some 1) a) f) (fwd_cell z m (from c p)))) (add2 h f).

Lemma cross_rows z fx m (ps : list period) : built z -> plain_basis (z_basis z) -> m <> RfrOther -> ps <> [] ->
  (forall p : period, In p ps -> (fst p < z_date z < snd p)%Z /\ (snd p <= z_last z)%Z) ->
  forall hs, get_coupon_rates (days_per_year (z_basis z)) fx (map (until (z_date z)) ps) m = Ok hs ->
  crossover_rates z fx ps m = Ok (map (cross_cell z fx m) ps).
Proof.
  intros B PB NM NE C hs H. unfold crossover_rates. cbv zeta.
  destruct (year_frac_to (z_date z) ps (z_basis z) NE PB) as (oh & -> & OH). { intros p I. destruct (C p I). lia. }
  destruct (year_frac_from (z_date z) ps (z_basis z) NE PB) as (of & -> & OF). { intros p I. destruct (C p I). lia. }
  cbn [bind]. rewrite H. cbn [bind]. pose proof (hist_rows _ _ _ _ _ H) as E. rewrite map_map in E. subst hs.
  rewrite (fwd_rows z m (map (from (z_date z)) ps) B PB NM).
  2: destruct ps; [contradiction|discriminate].
  2: { intros p I. apply in_map_iff in I as (q & <- & I). cbn [from fst snd]. destruct (C q I). lia. }
  cbn [bind]. rewrite OH, OF, !map_map. rewrite broadcast_map. cbn [bind]. rewrite map_map. rewrite broadcast_map. cbn [bind].
  rewrite broadcast_map. cbn [bind]. rewrite broadcast_map. cbn [bind]. rewrite broadcast_map. cbn [bind]. rewrite broadcast_map. reflexivity.
Qed.

(* all together *)
Definition rfr_cell (z : zero_curve) (fx : list fixing) (m : rfr_method) (p : period) : option R :=
  if (z_date z <=? fst p)%Z then fwd_cell z m p
  else if (snd p <=? z_date z)%Z then hist_cell (days_per_year (z_basis z)) fx m p
  else cross_cell z fx m p.

Definition past (z : zero_curve) (p : period) : bool := (snd p <=? z_date z)%Z.
Definition straddles (z : zero_curve) (p : period) : bool := (fst p <? z_date z)%Z && (z_date z <? snd p)%Z.
Definition future (z : zero_curve) (p : period) : bool := (z_date z <=? fst p)%Z.

Definition mask_part (ps : list period) (mask : period -> bool) (f : list period -> result (list (option R))) (a : list (option R)) :=
  if existsb mask ps then let* v := f (filter mask ps) in assign (map mask ps) a v else Ok a.

Lemma rfr_unfold z fx (ps : list period) m : rfr_get_fixings z fx ps m =
  (let* a := mask_part ps (future z) (fun l => forward_rates z l (forward_of m)) (map (fun _ => None) ps) in
   let* a := mask_part ps (past z) (fun l => get_coupon_rates (days_per_year (z_basis z)) fx l m) a in
   mask_part ps (straddles z) (fun l => crossover_rates z fx l m) a).
Proof. reflexivity. Qed.

Lemma mask_part_rows (ps : list period) mask f g h : (existsb mask ps = true -> f (filter mask ps) = Ok (map h (filter mask ps))) ->
  mask_part ps mask f (map g ps) = Ok (map (fun p => if mask p then h p else g p) ps).
Proof.
  intros H. unfold mask_part. destruct (existsb mask ps) eqn:E.
  - rewrite H by reflexivity. cbn [bind]. apply assign_map.
  - f_equal. apply map_ext_in. intros p I. assert (mask p = false).
    { destruct (mask p) eqn:M; [|reflexivity]. assert (existsb mask ps = true) by (apply existsb_exists; exists p; auto). congruence. }
    rewrite H0. reflexivity.
Qed.


Lemma existsb_filter {A} (f : A -> bool) l : existsb f l = true -> filter f l <> [].
Proof. intros H E. apply existsb_exists in H as (x & I & F). assert (K : In x (filter f l)) by (apply filter_In; auto). rewrite E in K. destruct K. Qed.

Lemma rfr_rows z fx (ps : list period) m fs : built z -> plain_basis (z_basis z) -> m <> RfrOther -> good_periods z ps ->
  rfr_get_fixings z fx ps m = Ok fs -> fs = map (rfr_cell z fx m) ps.
Proof.
  intros B PB NM G H. rewrite rfr_unfold in H.
  rewrite (mask_part_rows ps (future z) _ (fun _ => None) (fwd_cell z m)) in H.
  2: { intros E. apply fwd_rows; try assumption; [apply existsb_filter; exact E|]. intros p I. apply filter_In in I as [I F]. unfold future in F.
       apply Z.leb_le in F. destruct (G p I). lia. }
  cbn [bind] in H. apply bind_ok in H as (a & H1 & H2).
  assert (HP : existsb (past z) ps = true -> get_coupon_rates (days_per_year (z_basis z)) fx (filter (past z) ps) m =
                                            Ok (map (hist_cell (days_per_year (z_basis z)) fx m) (filter (past z) ps))).
  { intros E. unfold mask_part in H1. rewrite E in H1. apply bind_ok in H1 as (v & H1 & _). rewrite H1. f_equal. exact (hist_rows _ _ _ _ _ H1). }
  rewrite (mask_part_rows ps (past z) _ _ _ HP) in H1. injection H1 as <-.
  assert (HX : existsb (straddles z) ps = true -> crossover_rates z fx (filter (straddles z) ps) m = Ok (map (cross_cell z fx m) (filter (straddles z) ps))).
  { intros E. unfold mask_part in H2. rewrite E in H2. apply bind_ok in H2 as (v & H2 & _).
    assert (HH : exists hs, get_coupon_rates (days_per_year (z_basis z)) fx (map (until (z_date z)) (filter (straddles z) ps)) m = Ok hs).
    { unfold crossover_rates in H2. cbv zeta in H2. apply bind_ok in H2 as (oh & _ & H2). apply bind_ok in H2 as (of & _ & H2). apply bind_ok in H2 as (hs & H2 & _). exists hs. exact H2. }
    destruct HH as (hs & HH). apply (cross_rows z fx m _ B PB NM (existsb_filter _ _ E)) with (hs := hs); [|exact HH].
    intros p I. apply filter_In in I as [I F]. unfold straddles in F. apply andb_true_iff in F as [F1 F2]. apply Z.ltb_lt in F1. apply Z.ltb_lt in F2. destruct (G p I). lia. }
  rewrite (mask_part_rows ps (straddles z) _ _ _ HX) in H2. injection H2 as <-. apply map_ext_in. intros p I. destruct (G p I) as [G1 G2].
  unfold rfr_cell, straddles, past, future.
  destruct (Z.leb_spec (z_date z) (fst p)), (Z.leb_spec (snd p) (z_date z)), (Z.ltb_spec (fst p) (z_date z)), (Z.ltb_spec (z_date z) (snd p)); cbn [andb]; try reflexivity; exfalso; lia.
Qed.

Lemma rfr_ok z fx (ps : list period) m : built z -> plain_basis (z_basis z) -> m <> RfrOther -> good_periods z ps ->
  (forall d : date, (d < z_date z)%Z -> (exists p : period, In p ps /\ (fst p <= d)%Z) -> In d (map fst fx)) ->
  exists fs, rfr_get_fixings z fx ps m = Ok fs.
Proof.
  intros B PB NM G F. rewrite rfr_unfold.
  assert (CV : forall l : list period, l <> [] -> (forall p : period, In p l -> (fst p < snd p <= z_date z)%Z /\ exists q : period, In q ps /\ (fst q <= fst p)%Z) ->
                 exists rs, get_coupon_rates (days_per_year (z_basis z)) fx l m = Ok rs).
  { intros l NE L. destruct (coverage (days_per_year (z_basis z)) fx l m NE NM) as [[[_ PC] _]|[_ H]]; [|exact H]. exfalso.
    assert (FX : forall (p : period) (d : date), In p l -> (fst p <= d < snd p)%Z -> exists q : fixing, In q fx /\ fst q = d /\ in_window l (fst q)).
    { intros p d I D. destruct (L p I) as (L1 & q & Q1 & Q2).
      assert (K : In d (map fst fx)) by (apply F; [lia|]; exists q; split; [exact Q1|lia]).
      apply in_map_iff in K as (r & K1 & K2). exists r. split; [exact K2|]. split; [exact K1|]. split; exists p; split; try exact I; lia. }
    destruct PC as [PC|PC].
    - assert (MX : exists p : period, In p l /\ forall q : period, In q l -> (snd q <= snd p)%Z).
      { clear -NE. induction l as [|p t IH]; [contradiction|]. destruct t as [|p' t].
        - exists p. split; [left; reflexivity|]. intros q [<-|[]]. lia.
        - destruct IH as (r & R1 & R2); [discriminate|]. destruct (Z.leb_spec (snd p) (snd r)).
          + exists r. split; [right; exact R1|]. intros q [<-|I]; [exact H|exact (R2 q I)].
          + exists p. split; [left; reflexivity|]. intros q [<-|I]; [lia|]. pose proof (R2 q I). lia. }
      destruct MX as (p & P1 & P2). destruct (L p P1) as [L1 _]. destruct (FX p (snd p - 1)%Z P1) as (q & Q1 & Q2 & Q3); [lia|].
      destruct (PC q Q1 Q3) as (p' & R1 & R2). pose proof (P2 p' R1). lia.
    - destruct PC as (p & P1 & P2). destruct (L p P1) as [L1 _]. destruct (FX p (fst p) P1) as (q & Q1 & Q2 & Q3); [lia|]. pose proof (P2 q Q1 Q3). lia. }
  rewrite (mask_part_rows ps (future z) _ (fun _ => None) (fwd_cell z m)).
  2: { intros E. apply fwd_rows; try assumption; [apply existsb_filter; exact E|]. intros p I. apply filter_In in I as [I K]. unfold future in K.
       apply Z.leb_le in K. destruct (G p I). lia. }
  cbn [bind]. rewrite (mask_part_rows ps (past z) _ _ (hist_cell (days_per_year (z_basis z)) fx m)).
  2: { intros E. destruct (CV (filter (past z) ps) (existsb_filter _ _ E)) as (rs & R).
       - intros p I. apply filter_In in I as [I K]. unfold past in K. apply Z.leb_le in K. destruct (G p I). split; [lia|]. exists p. split; [exact I|lia].
       - rewrite R. f_equal. exact (hist_rows _ _ _ _ _ R). }
  cbn [bind]. rewrite (mask_part_rows ps (straddles z) _ _ (cross_cell z fx m)).
  - eexists. reflexivity.
  - intros E. destruct (CV (map (until (z_date z)) (filter (straddles z) ps))) as (rs & R).
    + pose proof (existsb_filter _ _ E). destruct (filter (straddles z) ps); [contradiction|discriminate].
    + intros p I. apply in_map_iff in I as (q & <- & I). cbn [until fst snd]. apply filter_In in I as [I K]. unfold straddles in K. apply andb_true_iff in K as [K1 K2].
      apply Z.ltb_lt in K1. split; [lia|]. exists q. split; [exact I|lia].
    + apply cross_rows with (hs := rs); try assumption; [apply existsb_filter; exact E|]. intros p I. apply filter_In in I as [I K]. unfold straddles in K. apply andb_true_iff in K as [K1 K2].
      apply Z.ltb_lt in K1. apply Z.ltb_lt in K2. destruct (G p I). lia.
Qed.

Lemma hist_cell_value n fx (s e : date) f : NoDup (map fst fx) -> n <> 0 -> (s < e)%Z -> observed fx s e f ->
  exists r, hist_cell (Some n) fx DailyCompounded (s, e) = Some r /\ 1 + r * (IZR (e - s) / n) = prod_days (day_factor n f) s (days_between s e).
Proof.
  intros ND NZ L O. unfold hist_cell. cbn [fst snd].
  destruct (coupon_rate_ok (Some n) (applicable fx s (e - 1)) DailyCompounded s (e - 1) ltac:(discriminate)) as (v & V).
  destruct (compounded_cell n fx s (e - 1) s e f v ND NZ (Z.le_refl _) (Z.le_refl _) L O V) as (r & -> & E). exists r. split; [|exact E]. rewrite V. reflexivity.
Qed.

Lemma act_yf b N (x y : date) : act_basis b -> days_per_year b = Some N -> (x <= y)%Z -> Q2R (yf1 b x y) = IZR (y - x) / N /\ 0 < N.
Proof.
  intros H D L. destruct (act_days_per_year b N x y H D L) as [(q & Y & E) P]. split; [|exact P].
  rewrite yf1_scalar in Y; [injection Y as <-; symmetry; exact E| |exact L]. destruct H as [->|[->| ->]]; discriminate.
Qed.
Lemma act_plain b : act_basis b -> plain_basis b.
Proof. intros [->|[->| ->]]; split; discriminate. Qed.

Lemma fwd_cell_value z N (s e : date) v w : built z -> act_basis (z_basis z) -> days_per_year (z_basis z) = Some N -> (s < e)%Z -> discounts z s v -> discounts z e w ->
  exists r, fwd_cell z DailyCompounded (s, e) = Some r /\ 1 + r * (IZR (e - s) / N) = v / w.
Proof.
  intros B A D L V W. unfold fwd_cell. cbn [fst snd]. rewrite (proj2 (discounts_cell z s v B V)), (proj2 (discounts_cell z e w B W)).
  destruct (act_yf (z_basis z) N s e A D (Z.lt_le_incl _ _ L)) as [-> P]. pose proof (built_positive z s v B V). pose proof (built_positive z e w B W).
  assert (T : 0 < IZR (e - s) / N) by (apply Rdiv_lt_0_compat; [apply IZR_lt; lia|exact P]).
  destruct (forward_cell_growth FDailyCompounded (IZR (e - s) / N) v w) as (r & -> & G); [unfold period_type; auto|assumption|assumption|lra|].
  exists r. split; [reflexivity|]. unfold growth in G. rewrite G. field. split; lra.
Qed.

Lemma discounts_unique z d v w : discounts z d v -> discounts z d w -> v = w.
Proof. unfold discounts. congruence. Qed.

Lemma rfr_growth z fx (ps : list period) fs i (s e : date) N f v w : built z -> act_basis (z_basis z) -> days_per_year (z_basis z) = Some N -> NoDup (map fst fx) ->
  good_periods z ps -> rfr_get_fixings z fx ps DailyCompounded = Ok fs -> nth_error ps i = Some (s, e) ->
  observed fx s (Z.min e (z_date z)) f -> discounts z (Z.max s (z_date z)) v -> discounts z (Z.max e (z_date z)) w ->
  exists r, nth_error fs i = Some (Some r) /\
    1 + r * (IZR (e - s) / N) = prod_days (day_factor N f) s (days_between s (Z.min e (z_date z))) * (v / w).
Proof.
  intros B A D ND G H K O V W. assert (H' := rfr_rows z fx ps DailyCompounded fs B (act_plain _ A) ltac:(discriminate) G H). subst fs.
  assert (E : nth_error (map (rfr_cell z fx DailyCompounded) ps) i = Some (rfr_cell z fx DailyCompounded (s, e))).
  { rewrite nth_error_map. change (date * date)%type with period in K. rewrite K. reflexivity. }
  rewrite E. clear E H. destruct (G (s, e) (nth_error_In _ _ K)) as [G1 G2]. cbn [fst snd] in G1, G2.
  set (c := z_date z) in *. unfold rfr_cell. cbn [fst snd]. fold c.
  pose proof (built_positive _ _ _ B V) as PV. pose proof (built_positive _ _ _ B W) as PW.
  assert (NP : 0 < N) by exact (proj2 (act_yf (z_basis z) N s e A D (Z.lt_le_incl _ _ G1))).
  destruct (Z.leb_spec c s) as [L|L]; [|destruct (Z.leb_spec e c) as [L'|L']].
  - rewrite Z.max_l in V by lia. rewrite Z.max_l in W by lia. rewrite Z.min_r by lia.
    destruct (fwd_cell_value z N s e v w B A D G1 V W) as (r & -> & E). exists r. split; [reflexivity|].
    replace (days_between s c) with 0%nat by (unfold days_between; lia). cbn [prod_days]. rewrite E. ring.
  - rewrite Z.max_r in V by lia. rewrite Z.max_r in W by lia. rewrite Z.min_l in * by lia. pose proof (discounts_unique _ _ _ _ V W). subst w.
    rewrite D. destruct (hist_cell_value N fx s e f ND ltac:(lra) G1 O) as (r & -> & E). exists r. split; [reflexivity|]. rewrite E. field. lra.
  - rewrite Z.max_r in V by lia. rewrite Z.max_l in W by lia. rewrite Z.min_r in * by lia.
    unfold cross_cell. cbv zeta. fold c. unfold until, from. cbn [fst snd]. rewrite D.
    destruct (hist_cell_value N fx s c f ND ltac:(lra) L O) as (rh & -> & EH).
    destruct (fwd_cell_value z N c e v w B A D L' V W) as (rf & -> & EF).
    destruct (act_yf (z_basis z) N s c A D (Z.lt_le_incl _ _ L)) as [-> _]. destruct (act_yf (z_basis z) N c e A D (Z.lt_le_incl _ _ L')) as [-> _].
    cbn [mul2 add2 obind nan_div].
    assert (P1 : 0 < IZR (c - s)) by (apply IZR_lt; lia). assert (P2 : 0 < IZR (e - c)) by (apply IZR_lt; lia).
    assert (T : IZR (e - s) = IZR (c - s) + IZR (e - c)) by (rewrite <- plus_IZR; f_equal; lia).
    assert (NZ : IZR (c - s) / N + IZR (e - c) / N <> 0) by (apply Rgt_not_eq; apply Rplus_lt_0_compat; apply Rdiv_lt_0_compat; assumption).
    rewrite np_div_nz by exact NZ. eexists. split; [reflexivity|]. rewrite <- EH, <- EF, T. field. split; lra.
Qed.

(* the combination for any basis and method *)
Lemma straddling_single z fx (s e : date) m h t H F x : (s < z_date z < e)%Z -> year_fraction (z_basis z) s (z_date z) h -> year_fraction (z_basis z) (z_date z) e t -> h + t <> 0 ->
  get_coupon_rates (days_per_year (z_basis z)) fx [(s, z_date z)] m = Ok [Some H] ->
  get_forward_rates z [Some (z_date z)] [Some e] (forward_of m) = Ok [Some F] ->
  rfr_get_fixings z fx [(s, e)] m = Ok x -> exists r, x = [Some r] /\ (1 + h * H) * (1 + t * F) = 1 + r * (h + t).
Proof.
  intros L (qh & Yh & ->) (qt & Yt & ->) NZ HC HF R. rewrite rfr_unfold in R. unfold mask_part, future, past, straddles in R. cbn [existsb map filter fst snd] in R.
  destruct (Z.leb_spec (z_date z) s); [lia|]. destruct (Z.leb_spec e (z_date z)); [lia|]. destruct (Z.ltb_spec s (z_date z)); [|lia]. destruct (Z.ltb_spec (z_date z) e); [|lia].
  cbn [orb andb bind map] in R. assert (XR : crossover_rates z fx [(s, e)] m = Ok [nan_div (Some (Q2R qh * H + (1 + Q2R qh * H) * Q2R qt * F)) (Some (Q2R qh + Q2R qt))]).
  { unfold crossover_rates. cbv zeta. assert (E1 : year_frac (map fst [(s, e)]) [z_date z] (z_basis z) None = Ok (Scalar qh)) by exact Yh.
    assert (E2 : year_frac [z_date z] (map snd [(s, e)]) (z_basis z) None = Ok (Scalar qt)) by exact Yt. rewrite E1, E2. cbn [bind].
    assert (E3 : get_coupon_rates (days_per_year (z_basis z)) fx (map (until (z_date z)) [(s, e)]) m = Ok [Some H]) by exact HC.
    assert (E4 : forward_rates z (map (from (z_date z)) [(s, e)]) (forward_of m) = Ok [Some F]) by exact HF. rewrite E3, E4. reflexivity. }
  assert (XR' : (let* v := crossover_rates z fx [(s, e)] m in assign [true] [None] v) = Ok x) by exact R.
  rewrite XR in XR'. cbn [bind nan_div obind] in XR'. rewrite np_div_nz in XR' by exact NZ.
  cbn in XR'. injection XR' as <-. eexists. split; [reflexivity|]. field. exact NZ.
Qed.

Lemma all_future z fx ps m : ps <> [] -> (forall p : period, In p ps -> (z_date z <= fst p < snd p)%Z) ->
  forall fs, forward_rates z ps (forward_of m) = Ok fs -> length fs = length ps -> rfr_get_fixings z fx ps m = Ok fs.
Proof.
  intros NE C fs F L. rewrite rfr_unfold. unfold mask_part.
  assert (E1 : forall l : list period, (forall p : period, In p l -> (z_date z <= fst p < snd p)%Z) -> filter (future z) l = l /\ map (future z) l = repeat true (length l) /\
       existsb (past z) l = false /\ existsb (straddles z) l = false).
  { induction l as [|p t IH]; intros K; [repeat split|]. destruct IH as (I1 & I2 & I3 & I4); [intros q I; apply K; right; exact I|]. pose proof (K p (or_introl eq_refl)).
    cbn [filter map existsb length repeat]. rewrite I2, I3, I4, I1. unfold future, past, straddles.
    destruct (Z.leb_spec (z_date z) (fst p)), (Z.leb_spec (snd p) (z_date z)), (Z.ltb_spec (fst p) (z_date z)); try lia. repeat split; reflexivity. }
  destruct (E1 ps C) as (I1 & I2 & I3 & I4). rewrite I1, I2, I3, I4.
  assert (X : existsb (future z) ps = true).
  { destruct ps as [|p t]; [contradiction|]. cbn. pose proof (C p (or_introl eq_refl)). unfold future. destruct (Z.leb_spec (z_date z) (fst p)); [reflexivity|lia]. }
  rewrite X, F. cbn [bind]. unfold assign, count_true.
  assert (Y : forall k, filter (fun x : bool => x) (repeat true k) = repeat true k) by (induction k as [|k IH]; [reflexivity|]; cbn; rewrite IH; reflexivity).
  rewrite Y, repeat_length, L, Nat.eqb_refl. cbn [bind]. f_equal. clear -L. revert fs L. induction ps as [|p t IH]; intros [|x fs] L; try discriminate; [reflexivity|].
  cbn [map length repeat place]. rewrite IH; [reflexivity|]. cbn in L. lia.
Qed.

Lemma all_past z fx ps m : ps <> [] -> (forall p : period, In p ps -> (fst p < snd p <= z_date z)%Z) ->
  rfr_get_fixings z fx ps m = get_coupon_rates (days_per_year (z_basis z)) fx ps m.
Proof.
  intros NE C. rewrite rfr_unfold. unfold mask_part.
  assert (E1 : forall l : list period, (forall p : period, In p l -> (fst p < snd p <= z_date z)%Z) -> filter (past z) l = l /\ map (past z) l = repeat true (length l) /\
       existsb (future z) l = false /\ existsb (straddles z) l = false).
  { induction l as [|p t IH]; intros K; [repeat split|]. destruct IH as (I1 & I2 & I3 & I4); [intros q I; apply K; right; exact I|]. pose proof (K p (or_introl eq_refl)).
    cbn [filter map existsb length repeat]. rewrite I2, I3, I4, I1. unfold future, past, straddles.
    destruct (Z.leb_spec (z_date z) (fst p)), (Z.leb_spec (snd p) (z_date z)), (Z.ltb_spec (fst p) (z_date z)), (Z.ltb_spec (z_date z) (snd p)); try lia. repeat split; reflexivity. }
  destruct (E1 ps C) as (I1 & I2 & I3 & I4). rewrite I1, I2, I3, I4.
  assert (X : existsb (past z) ps = true).
  { destruct ps as [|p t]; [contradiction|]. cbn. pose proof (C p (or_introl eq_refl)). unfold past. destruct (Z.leb_spec (snd p) (z_date z)); [reflexivity|lia]. }
  rewrite X. cbn [bind]. destruct (get_coupon_rates _ fx ps m) as [fs|] eqn:F; [|reflexivity]. cbn [bind].
  assert (L := proj1 (get_coupon_rates_nth _ _ _ _ _ F)). unfold assign, count_true.
  assert (Y : forall k, filter (fun x : bool => x) (repeat true k) = repeat true k) by (induction k as [|k IH]; [reflexivity|]; cbn; rewrite IH; reflexivity).
  rewrite Y, repeat_length, L, Nat.eqb_refl. cbn [bind]. f_equal. clear -L. revert fs L. induction ps as [|p t IH]; intros [|x fs] L; try discriminate; [reflexivity|].
  cbn [map length repeat place]. rewrite IH; [reflexivity|]. cbn in L. lia.
Qed.

(* ---- TermSwapCurve ---- *)
Lemma term_value z fx ps ft fs : term_get_fixings z fx ps ft = Ok fs ->
  length fs = length ps /\ in_date_order fx /\
  forall i s e, nth_error ps i = Some (s, e) -> exists v, nth_error fs i = Some v /\ ((z_date z <= s)%Z -> in_force fx s v) /\ ((s < z_date z)%Z -> v = None).
Proof.
  unfold term_get_fixings. cbv zeta. fold (future z). intros H. apply bind_ok in H as (fwd & _ & H). apply bind_ok in H as (a & HA & H).
  apply bind_ok in H as (hist & HI & H). unfold index_historical_fixings in HI. destruct (dates_sorted fx) eqn:DS; [|discriminate].
  cbn [guard bind] in HI. injection HI as <-. rewrite map_map in H.
  assert (LA : length a = length ps /\ forall i p, nth_error ps i = Some p -> future z p = false -> nth_error a i = Some None).
  { assert (PL : forall v l, let r := place (map (future z) l) (map (fun _ : period => @None R) l) v in
        length r = length l /\ forall i p, nth_error l i = Some p -> future z p = false -> nth_error r i = Some None).
    { cbv zeta. intros v l. revert v. induction l as [|p t IH]; intros v; [split; [reflexivity|intros [|i] p; discriminate]|].
      cbn [map place]. destruct (future z p) eqn:F.
      - destruct v as [|x w].
        + split; [cbn; rewrite map_length; reflexivity|]. intros [|i] q; cbn [nth_error]; [intros _ _; reflexivity|]. intros Q _. rewrite nth_error_map, Q. reflexivity.
        + destruct (IH w) as [I1 I2]. split; [cbn [length]; rewrite I1; reflexivity|]. intros [|i] q; cbn [nth_error]; [intros Q; injection Q as <-; congruence|]. apply I2.
      - destruct (IH v) as [I1 I2]. split; [cbn [length]; rewrite I1; reflexivity|]. intros [|i] q; cbn [nth_error]; [reflexivity|]. apply I2. }
    unfold assign in HA. destruct (length fwd =? count_true (map (future z) ps))%nat; [injection HA as <-; apply PL|].
    destruct fwd as [|x [|]]; try discriminate. injection HA as <-. apply PL. }
  destruct LA as [LA NA].
  assert (PH : forall l b, length b = length l -> length (place (map (future z) l) b (map (fun p => as_of fx (fst p)) (filter (future z) l))) = length l /\
     forall i p, nth_error l i = Some p -> nth_error (place (map (future z) l) b (map (fun p => as_of fx (fst p)) (filter (future z) l))) i =
        if future z p then Some (as_of fx (fst p)) else nth_error b i).
  { induction l as [|p t IH]; intros [|y b] L; try discriminate; [split; [reflexivity|intros [|i] p; discriminate]|]. cbn [length] in L.
    destruct (IH b ltac:(lia)) as [I1 I2]. cbn [map filter place]. destruct (future z p) eqn:F; cbn [map place length]; (split; [rewrite I1; reflexivity|]).
    - intros [|i] q; cbn [nth_error]; [intros Q; injection Q as <-; rewrite F; reflexivity|]. apply I2.
    - intros [|i] q; cbn [nth_error]; [intros Q; injection Q as <-; rewrite F; reflexivity|]. apply I2. }
  destruct (PH ps a LA) as [P1 P2].
  unfold assign in H. rewrite count_true_map, map_length, Nat.eqb_refl in H. injection H as <-.
  split; [exact P1|]. assert (O := proj1 (dates_sorted_order fx) DS). split; [exact O|]. intros i s e K. pose proof (P2 i (s, e) K) as E.
  destruct (future z (s, e)) eqn:F; unfold future in F; cbn [fst snd] in F.
  - exists (as_of fx s). split; [exact E|]. apply Z.leb_le in F. split; [intros _; apply as_of_in_force; exact (in_date_order_split fx O)|]. intros L. lia.
  - exists None. split; [rewrite E; apply (NA i (s, e) K); unfold future; exact F|]. apply Z.leb_gt in F. split; [intros L; lia|reflexivity].
Qed.

(* the forward rates it computes and overwrites can still make it fail *)
Lemma term_forward_error z fx ps ft x : forward_rates z (filter (future z) ps) ft = Err x -> term_get_fixings z fx ps ft = Err x.
Proof. intros H. unfold term_get_fixings. cbv zeta. fold (future z). rewrite H. reflexivity. Qed.

Lemma term_ok z fx ps ft : built z -> plain_basis (z_basis z) -> period_type ft -> in_date_order fx ->
  (forall p : period, In p ps -> (z_date z <= fst p)%Z -> (fst p <= snd p <= z_last z)%Z) -> exists fs, term_get_fixings z fx ps ft = Ok fs.
Proof.
  intros B PB PT O C. unfold term_get_fixings. cbv zeta. fold (future z).
  destruct (forwards_no_arbitrage z ft (map fst (filter (future z) ps)) (map snd (filter (future z) ps)) B PB PT) as (fs & E & L & _).
  - apply in_order_rows. intros p I. apply filter_In in I as [I F]. unfold future in F. apply Z.leb_le in F. pose proof (C p I F). lia.
  - intros d [I|I]; apply in_map_iff in I as (p & <- & I); apply filter_In in I as [I F]; unfold future in F; apply Z.leb_le in F; pose proof (C p I F); unfold covered; lia.
  - unfold forward_rates. rewrite <- (map_map fst Some), <- (map_map snd Some), E. cbn [bind]. rewrite map_length in L. unfold assign at 1. rewrite count_true_map, L, Nat.eqb_refl. cbn [bind].
    unfold index_historical_fixings. rewrite (proj2 (dates_sorted_order fx) O). cbn [guard bind]. rewrite map_map. unfold assign. rewrite count_true_map, map_length, Nat.eqb_refl.
    eexists. reflexivity.
Qed.

(* ---- further consequences ---- *)
Lemma single_day n fx ps rs i (s : date) x : NoDup (map fst fx) -> 0 < n -> get_coupon_rates (Some n) fx ps DailyCompounded = Ok rs ->
  nth_error ps i = Some (s, (s + 1)%Z) -> In (s, Some x) fx -> nth_error rs i = Some (Some x).
Proof.
  intros ND P H K I.
  assert (O : observed fx s (s + 1) (fun _ => Some x)).
  { intros d D. apply (lt_found fx _ (s, Some x)); [exact I|cbn; lia|]. intros q J L. cbn. lia. }
  destruct (compounded_value n fx ps rs i s (s + 1)%Z _ ND ltac:(lra) H K ltac:(lia) O) as (r & E & G). rewrite E. do 2 f_equal.
  unfold days_between in G. replace (s + 1 - s)%Z with 1%Z in G by lia. change (Z.to_nat 1) with 1%nat in G. cbn [prod_days] in G. unfold day_factor in G.
  assert (r * (1 / n) = x / n) by lra. apply (Rmult_eq_reg_r (/ n)); [unfold Rdiv in *; lra|]. apply Rinv_neq_0_compat. lra.
Qed.

Lemma coverage_iff n fx ps m : ps <> [] -> m <> RfrOther ->
  (get_coupon_rates n fx ps m = Err ValueError <-> poorly_covered fx ps) /\ (~ poorly_covered fx ps -> exists rs, get_coupon_rates n fx ps m = Ok rs).
Proof.
  intros NE NO. destruct (coverage n fx ps m NE NO) as [[P E]|[P (rs & E)]].
  - split; [tauto|]. intros N. destruct (N P).
  - split; [|intros _; exists rs; exact E]. split; [rewrite E; discriminate|]. intros K. destruct (P K).
Qed.

Lemma earlier_ignored n fx (q : fixing) ps m : ps <> [] -> (forall p : period, In p ps -> (fst q < fst p)%Z) ->
  get_coupon_rates n (q :: fx) ps m = get_coupon_rates n fx ps m.
Proof.
  intros NE L. destruct ps as [|p0 pt]; [contradiction|]. unfold get_coupon_rates. cbn [filter].
  destruct (window_bounds p0 pt) as (W & _). cbv zeta in W.
  destruct (within _ _ q) eqn:E; [|reflexivity]. apply W in E as [(p & I & K) _]. specialize (L p I). lia.
Qed.

Lemma one_class (c : date) (p : period) : (fst p < snd p)%Z -> exists! k, classified c p k.
Proof.
  intros L. destruct (Z.leb_spec c (fst p)) as [A|A]; [exists Future|destruct (Z.leb_spec (snd p) c) as [B|B]; [exists Past|exists Straddling]];
    (split; [cbn; lia|intros [| |]; cbn; intros K; reflexivity || lia]).
Qed.

Lemma rfr_total z fx ps m : built z -> plain_basis (z_basis z) -> m <> RfrOther -> good_periods z ps ->
  (forall d, (d < z_date z)%Z -> (exists p : period, In p ps /\ (fst p <= d)%Z) -> In d (map fst fx)) ->
  exists fs, rfr_get_fixings z fx ps m = Ok fs /\ length fs = length ps.
Proof.
  intros B PB NM G F. destruct (rfr_ok z fx ps m B PB NM G F) as (fs & E). exists fs. split; [exact E|].
  rewrite (rfr_rows z fx ps m fs B PB NM G E), map_length. reflexivity.
Qed.

Lemma rows_independent z fx ps qs m fs gs i j p : built z -> plain_basis (z_basis z) -> m <> RfrOther -> good_periods z ps -> good_periods z qs ->
  rfr_get_fixings z fx ps m = Ok fs -> rfr_get_fixings z fx qs m = Ok gs -> nth_error ps i = Some p -> nth_error qs j = Some p ->
  nth_error fs i = nth_error gs j.
Proof.
  intros B PB NM G1 G2 E1 E2 K1 K2. rewrite (rfr_rows z fx ps m fs B PB NM G1 E1), (rfr_rows z fx qs m gs B PB NM G2 E2), !nth_error_map.
  unfold period in *. rewrite K1, K2. reflexivity.
Qed.

Lemma term_curve_ignored z z' fx ps ft ft' fs fs' : term_get_fixings z fx ps ft = Ok fs -> term_get_fixings z' fx ps ft' = Ok fs' ->
  NoDup (map fst fx) -> z_date z = z_date z' -> fs = fs'.
Proof.
  intros H1 H2 ND D. destruct (term_value _ _ _ _ _ H1) as (L1 & _ & V1). destruct (term_value _ _ _ _ _ H2) as (L2 & _ & V2).
  apply list_ext. intros i. destruct (nth_error ps i) as [[s e]|] eqn:K.
  - destruct (V1 i s e K) as (v & -> & A1 & A2). destruct (V2 i s e K) as (w & -> & B1 & B2). f_equal. rewrite <- D in *.
    destruct (Z.leb_spec (z_date z) s) as [L|L].
    + exact (latest_unique fx _ v w ND (A1 L) (B1 L)).
    + rewrite (A2 L), (B2 L). reflexivity.
  - apply nth_error_None in K. rewrite (proj2 (nth_error_None fs i)), (proj2 (nth_error_None fs' i)) by lia. reflexivity.
Qed.
