(* Proofs about legs and swaps. *)
From Coq Require Import ZArith QArith Qreals Reals List Bool Lia Lra.
From Verif Require Import Base Date DateProofs BusDayModel DayCountModel ScheduleModel ScheduleProofs LegModel LegSpec.
Import ListNotations.
Open Scope R_scope.

Lemma map2_map {A B C D} (f : B -> C -> D) (g : A -> B) (h : A -> C) l :
  map2 f (map g l) (map h l) = map (fun x => f (g x) (h x)) l.
Proof. unfold map2. induction l as [|x l IH]; cbn; [reflexivity|]. f_equal. exact IH. Qed.

Lemma Forall2_length {A B} (P : A -> B -> Prop) l m : Forall2 P l m -> length l = length m.
Proof. induction 1; cbn; congruence. Qed.

Lemma nansum_app a b : nansum (a ++ b) = nansum a + nansum b.
Proof. induction a as [|[x|] a IH]; cbn; [lra| rewrite IH; lra | exact IH]. Qed.

Lemma nansum_real l : nansum l = sum_R (map real l).
Proof. induction l as [|[x|] l IH]; cbn; [reflexivity | rewrite IH; reflexivity | rewrite IH; unfold sum_R; lra]. Qed.

Lemma sum_R_app a b : sum_R (a ++ b) = sum_R a + sum_R b.
Proof. unfold sum_R. induction a as [|x a IH]; cbn; [lra|rewrite IH; lra]. Qed.
Lemma sum_R_cons x a : sum_R (x :: a) = x + sum_R a. Proof. reflexivity. Qed.

Lemma sum_R_plus {A} (g h : A -> R) l : sum_R (map (fun x => g x + h x) l) = sum_R (map g l) + sum_R (map h l).
Proof. unfold sum_R. induction l as [|x l IH]; cbn; [lra|rewrite IH; lra]. Qed.
Lemma sum_R_scale {A} k (g : A -> R) l : sum_R (map (fun x => k * g x) l) = k * sum_R (map g l).
Proof. unfold sum_R. induction l as [|x l IH]; cbn; [lra|rewrite IH; lra]. Qed.
Lemma sum_R_ext {A} (g h : A -> R) l : (forall x, In x l -> g x = h x) -> sum_R (map g l) = sum_R (map h l).
Proof. intros H. f_equal. apply map_ext_in. exact H. Qed.
Lemma sum_R_zero {A} (g : A -> R) l : (forall x, In x l -> g x = 0) -> sum_R (map g l) = 0.
Proof. unfold sum_R. induction l as [|x l IH]; cbn; intros H; [reflexivity|]. rewrite IH, H by auto. lra. Qed.

(* ---- discounting ---- *)
Definition skip (st : settings) (d : option date) : bool :=
  if include_on_value_date st then cell_lt d (value_date st) else cell_le d (value_date st).

Lemma skip_to_come st t : skip st (Some t) = negb (to_come st t).
Proof.
  unfold skip, to_come, cell_lt, cell_le. destruct (include_on_value_date st); cbn;
    destruct (Z.ltb_spec (value_date st) t); destruct (Z.eqb_spec t (value_date st));
    try destruct (Z.ltb_spec t (value_date st)); try destruct (Z.leb_spec t (value_date st)); cbn; try reflexivity; lia.
Qed.

Definition disc (st : settings) (f : date -> R) (d : option date) : R := value_of st f d 1.

Lemma discount_payments_ok st cv f ds : answers cv f ds ->
  discount_payments st (Some cv) ds = Ok (map (fun d => Some (disc st f d)) ds).
Proof.
  unfold answers, discount_payments. intros H.
  assert (L := Forall2_length _ _ _ H). rewrite <- L, Nat.eqb_refl. cbn [guard bind].
  f_equal. clear L. revert H. generalize (cv ds). intros xs H.
  induction H as [|d x ds xs Hd H IH]; [reflexivity|]. cbn [combine map]. f_equal; [|exact IH].
  destruct d as [t|]; [|reflexivity]. change (if include_on_value_date st then cell_lt (Some t) (value_date st) else cell_le (Some t) (value_date st))
    with (skip st (Some t)). rewrite skip_to_come. unfold disc, value_of.
  destruct (to_come st t); cbn [negb]; [|reflexivity]. rewrite (Hd t eq_refl). f_equal. lra.
Qed.

Lemma value_of_disc st f d a : value_of st f d a = a * disc st f d.
Proof. unfold disc, value_of. destruct d as [t|]; [destruct (to_come st t)|]; lra. Qed.

Lemma override_dates l ov : map r_ndate (override_rows l ov) = map r_ndate l /\ map r_cdate (override_rows l ov) = map r_cdate l.
Proof. destruct ov; cbn [override_rows]; [rewrite !map_map|]; split; reflexivity. Qed.

(* The leg after calc_coupon_payment: same contract, new rate and coupon columns. *)
Definition coupon_of (k : leg_kind) (p : payrcv) (r : row) : option R :=
  match k with FixedLeg => fixed_coupon p r | _ => float_coupon r end.

Lemma calc_coupon_ok l ov : kind_ready (l_kind l) = true -> exists l1,
  calc_coupon_payment l ov = (l1, Ok tt) /\ l_rows l1 = override_rows (l_rows l) ov /\ l_curve l1 = l_curve l /\
  l_side l1 = l_side l /\ l_basis l1 = l_basis l /\ l_kind l1 = l_kind l /\
  l_coupons l1 = Some (map (coupon_of (l_kind l) (l_side l)) (override_rows (l_rows l) ov)).
Proof.
  unfold calc_coupon_payment. destruct (l_kind l) as [|[|]|[|]] eqn:K; cbn [kind_ready]; intros H; try discriminate;
    eexists; repeat split; try exact K; reflexivity.
Qed.

Lemma dirty_pv_ok st l ov f : priced_by l f -> kind_ready (l_kind l) = true -> exists l2,
  calc_dirty_pv st l ov = (l2, Ok (sum_R (map (fun r => row_value st f r (coupon_of (l_kind l) (l_side l) r)) (override_rows (l_rows l) ov)))) /\
  l_rows l2 = override_rows (l_rows l) ov /\ l_side l2 = l_side l /\ l_basis l2 = l_basis l /\ l_kind l2 = l_kind l /\
  l_curve l2 = l_curve l /\
  l_coupons l2 = Some (map (coupon_of (l_kind l) (l_side l)) (override_rows (l_rows l) ov)) /\
  l_pvs l2 = Some (map (fun r => (Some (value_of st f (r_ndate r) (r_npay r)),
     nan_mult (coupon_of (l_kind l) (l_side l) r) (Some (disc st f (r_cdate r))))) (override_rows (l_rows l) ov)).
Proof.
  intros (cv & Hcv & An & Ac) K. unfold calc_dirty_pv.
  destruct (calc_coupon_ok l ov K) as (l1 & -> & Hr & Hc & Hs & Hb & Hk & Hcs).
  rewrite Hc, Hcv, Hr. destruct (override_dates (l_rows l) ov) as [E1 E2]. rewrite E1, E2.
  rewrite (discount_payments_ok st cv f _ An), (discount_payments_ok st cv f _ Ac).
  rewrite Hcs. rewrite <- E1, <- E2. rewrite !map_map.
  set (rows := override_rows (l_rows l) ov) in *.
  rewrite !map2_map.
  eexists. split; [f_equal; f_equal|].
  2:{ unfold set_pvs; cbn [l_rows l_side l_basis l_kind l_curve l_coupons l_pvs].
      repeat split; try assumption; try congruence. f_equal.
      clearbody rows. clear. induction rows as [|r rows IH]; cbn [map combine]; [reflexivity|].
      rewrite IH. f_equal. f_equal. cbn [nan_mult]. f_equal. rewrite (value_of_disc st f _ (r_npay r)). reflexivity. }
  rewrite nansum_real, map_map. apply sum_R_ext. intros r _. unfold row_value.
  destruct (coupon_of _ _ r) as [a|]; cbn [nan_mult nan_plus real]; [|reflexivity].
  rewrite (value_of_disc st f _ (r_npay r)), (value_of_disc st f _ a). lra.
Qed.

Lemma dirty_pv_value st l ov f : priced_by l f -> kind_ready (l_kind l) = true ->
  snd (calc_dirty_pv st l ov) =
  Ok (sum_R (map (fun r => row_value st f r (coupon_of (l_kind l) (l_side l) r)) (override_rows (l_rows l) ov))).
Proof. intros H K. destruct (dirty_pv_ok st l ov f H K) as (l2 & -> & _). reflexivity. Qed.

(* ---- fixed legs ---- *)
Lemma fixed_defined p r : (r_cdate r <> None -> r_yf r <> None) -> (r_cdate r <> None -> r_rate r <> None) ->
  fixed_coupon p r = Some (match r_cdate r with None => 0 | Some _ => multiplier p * r_notional r * real (r_rate r) * real (r_yf r) end).
Proof.
  unfold fixed_coupon. intros Hy Hr. destruct (r_cdate r); [|reflexivity].
  destruct (r_yf r); [|exfalso; apply Hy; congruence]. destruct (r_rate r); [|exfalso; apply Hr; congruence]. reflexivity.
Qed.

Lemma fixed_dirty_pv st l f : priced_by l f -> l_kind l = FixedLeg -> has_lengths l -> has_rates l ->
  snd (calc_dirty_pv st l None) =
  Ok (sum_R (map (fun r => value_of st f (r_ndate r) (r_npay r) +
        value_of st f (r_cdate r) (multiplier (l_side l) * r_notional r * real (r_rate r) * real (r_yf r))) (l_rows l))).
Proof.
  intros H K Hy Hr. rewrite (dirty_pv_value st l None f H) by (rewrite K; reflexivity).
  f_equal. cbn [override_rows]. apply sum_R_ext. intros r Hin. rewrite K. cbn [coupon_of].
  rewrite (fixed_defined _ r (Hy r Hin) (Hr r Hin)).
  unfold row_value. f_equal. unfold value_of. destruct (r_cdate r); reflexivity.
Qed.

Lemma fixed_affine st l f x : priced_by l f -> l_kind l = FixedLeg -> has_lengths l ->
  snd (calc_dirty_pv st l (Some x)) = Ok (notional_value st f l + x * annuity st f l).
Proof.
  intros H K Hy. rewrite (dirty_pv_value st l (Some x) f H) by (rewrite K; reflexivity).
  f_equal. cbn [override_rows]. rewrite map_map. unfold notional_value, annuity.
  rewrite <- sum_R_scale, <- sum_R_plus. apply sum_R_ext. intros r Hin. rewrite K. cbn [coupon_of].
  rewrite fixed_defined; cbn [with_rate r_cdate r_yf r_rate r_notional]; [|intros; apply (Hy r Hin); assumption | intros; discriminate].
  unfold row_value. cbn [with_rate r_ndate r_npay r_cdate real]. f_equal.
  unfold value_of. destruct (r_cdate r) as [t|]; [destruct (to_come st t)|]; lra.
Qed.

Lemma fixed_unique st l f x target : priced_by l f -> l_kind l = FixedLeg -> has_lengths l -> annuity st f l <> 0 ->
  (snd (calc_dirty_pv st l (Some x)) = Ok target <-> x = (target - notional_value st f l) / annuity st f l).
Proof.
  intros H K Hy NZ. rewrite (fixed_affine st l f x H K Hy). split; intros E.
  - injection E as E. rewrite <- E. field. exact NZ.
  - subst x. f_equal. field. exact NZ.
Qed.

Lemma scale_value st f k d a : value_of st f d (k * a) = k * value_of st f d a.
Proof. unfold value_of. destruct d as [t|]; [destruct (to_come st t)|]; lra. Qed.

Lemma scale_override k rows ov : override_rows (map (scale_row k) rows) ov = map (scale_row k) (override_rows rows ov).
Proof. destruct ov; cbn [override_rows]; [rewrite !map_map|]; reflexivity. Qed.

Lemma scale_priced k l f : priced_by l f -> priced_by (scale k l) f.
Proof.
  intros (cv & H & A & B). exists cv. unfold scale, set_rows; cbn [l_curve l_rows]. rewrite !map_map. cbn. auto.
Qed.

Lemma scale_coupon k kd p r : coupon_of kd p (scale_row k r) = option_map (Rmult k) (coupon_of kd p r).
Proof.
  destruct kd; cbn [coupon_of]; unfold fixed_coupon, float_coupon, float_coupon_rate; cbn [scale_row r_cdate r_notional r_rate r_yf];
    destruct (r_cdate r), (r_rate r), (r_yf r); cbn; try reflexivity; f_equal; ring.
Qed.

Lemma dirty_pv_scale st k l ov f v : priced_by l f -> kind_ready (l_kind l) = true ->
  snd (calc_dirty_pv st l ov) = Ok v -> snd (calc_dirty_pv st (scale k l) ov) = Ok (k * v).
Proof.
  intros H K E. rewrite (dirty_pv_value st l ov f H K) in E. injection E as <-.
  rewrite (dirty_pv_value st (scale k l) ov f (scale_priced k l f H)) by exact K.
  f_equal. unfold scale, set_rows; cbn [l_rows l_kind l_side]. rewrite scale_override, map_map, <- sum_R_scale.
  apply sum_R_ext. intros r _. rewrite scale_coupon. unfold row_value.
  destruct (coupon_of _ _ r) as [a|]; cbn [option_map]; [|lra]. cbn [scale_row r_ndate r_npay r_cdate].
  rewrite !scale_value. lra.
Qed.

(* ---- solver ---- *)
Lemma same_override l1 l ov : l_rows l1 = l_rows l -> l_side l1 = l_side l -> l_kind l1 = l_kind l -> l_curve l1 = l_curve l ->
  l_coupons (fst (calc_coupon_payment l1 ov)) = match snd (calc_coupon_payment l ov) with Ok _ => l_coupons (fst (calc_coupon_payment l ov)) | Err _ => l_coupons l1 end.
Proof.
  intros R S K C. unfold calc_coupon_payment. rewrite R, S, K. destruct (l_kind l) as [|[|]|[|]]; reflexivity.
Qed.

(* Legs that differ only in rate and computed columns; an override erases the difference. *)
Definition same_contract (a b : leg) : Prop :=
  l_side a = l_side b /\ l_basis a = l_basis b /\ l_curve a = l_curve b /\ l_kind a = l_kind b /\
  map (fun r => with_rate r None) (l_rows a) = map (fun r => with_rate r None) (l_rows b).

Lemma same_contract_refl a : same_contract a a. Proof. repeat split. Qed.
Lemma same_contract_trans a b c : same_contract a b -> same_contract b c -> same_contract a c.
Proof. unfold same_contract. intros (?&?&?&?&?) (?&?&?&?&?). repeat split; congruence. Qed.

Lemma with_rate_with_rate r x y : with_rate (with_rate r x) y = with_rate r y. Proof. reflexivity. Qed.
Lemma with_rate_self r : with_rate r (r_rate r) = r. Proof. destruct r; reflexivity. Qed.

Lemma same_contract_override a b x : same_contract a b -> override_rows (l_rows a) (Some x) = override_rows (l_rows b) (Some x).
Proof.
  intros (_ & _ & _ & _ & H). cbn [override_rows].
  assert (G : forall l, map (fun r => with_rate r (Some x)) l = map (fun r => with_rate r (Some x)) (map (fun r => with_rate r None) l)).
  { intros l. rewrite map_map. reflexivity. }
  rewrite (G (l_rows a)), (G (l_rows b)), H. reflexivity.
Qed.

Lemma calc_coupon_contract l ov : same_contract (fst (calc_coupon_payment l ov)) l.
Proof.
  unfold calc_coupon_payment. destruct (l_kind l) as [|[|]|[|]] eqn:K; cbn [fst]; try apply same_contract_refl;
    (repeat split; cbn [l_kind set_coupons l_rows]; try assumption; destruct ov; cbn [override_rows]; [rewrite map_map|]; reflexivity).
Qed.

Lemma dirty_contract st l ov : same_contract (fst (calc_dirty_pv st l ov)) l.
Proof.
  unfold calc_dirty_pv. pose proof (calc_coupon_contract l ov) as H.
  destruct (calc_coupon_payment l ov) as [l1 [[]|e]]; cbn [fst] in *; [|exact H].
  destruct (discount_payments st (l_curve l1) (map r_ndate (l_rows l1))); [|exact H].
  destruct (discount_payments st (l_curve l1) (map r_cdate (l_rows l1))); [|exact H].
  cbn [fst]. unfold same_contract, set_pvs in *. cbn. exact H.
Qed.

(* The effect of one trial: coupons become those of the trial rate (unless a market curve is missing), the value depends on the contract only. *)
Lemma coupons_of_dirty st l ov : l_coupons (fst (calc_dirty_pv st l ov)) = l_coupons (fst (calc_coupon_payment l ov)).
Proof.
  unfold calc_dirty_pv. destruct (calc_coupon_payment l ov) as [l1 [[]|e]]; cbn [fst]; [|reflexivity].
  destruct (discount_payments st (l_curve l1) (map r_ndate (l_rows l1))); [|reflexivity].
  destruct (discount_payments st (l_curve l1) (map r_cdate (l_rows l1))); reflexivity.
Qed.

Lemma objective_contract st target a b x : same_contract a b -> objective st target a x = objective st target b x.
Proof.
  intros H. pose proof (same_contract_override a b x H) as E. destruct H as (S & B & C & K & _).
  unfold objective, calc_dirty_pv, calc_coupon_payment. rewrite E, S, K.
  destruct (l_kind b) as [|[|]|[|]]; cbn [l_curve set_coupons l_rows l_coupons snd]; try reflexivity; rewrite C;
    destruct (discount_payments st (l_curve b) _); try reflexivity;
    destruct (discount_payments st (l_curve b) _); reflexivity.
Qed.

Lemma coupons_contract a b x : same_contract a b -> kind_ready (l_kind b) = true ->
  l_coupons (fst (calc_coupon_payment a (Some x))) = l_coupons (fst (calc_coupon_payment b (Some x))).
Proof.
  intros H Kr. pose proof (same_contract_override a b x H) as E. destruct H as (S & B & C & K & _).
  unfold calc_coupon_payment. rewrite E, S, K.
  destruct (l_kind b) as [|[|]|[|]]; try discriminate; reflexivity.
Qed.

Lemma run_solver_spec st target s : forall l l0, same_contract l l0 ->
  snd (run_solver st target s l) = reported (objective st target l0) s /\
  same_contract (fst (run_solver st target s l)) l0 /\
  (kind_ready (l_kind l0) = true ->
   l_coupons (fst (run_solver st target s l)) =
   match rev (asked (objective st target l0) s) with
   | [] => l_coupons l
   | x :: _ => l_coupons (fst (calc_coupon_payment l0 (Some x)))
   end).
Proof.
  induction s as [o|x k IH]; intros l l0 H; cbn [run_solver reported asked].
  - split; [reflexivity|]. split; [exact H|]. reflexivity.
  - pose proof (dirty_contract st l (Some x)) as D. pose proof (coupons_of_dirty st l (Some x)) as Cp.
    pose proof (objective_contract st target l l0 x H) as O. unfold objective at 1 in O.
    rewrite <- O. destruct (calc_dirty_pv st l (Some x)) as [l1 [v|e]]; cbn [fst snd] in *.
    + specialize (IH (v - target) l1 l0 (same_contract_trans _ _ _ D H)). destruct IH as (I1 & I2 & I3).
      split; [exact I1|]. split; [exact I2|]. intros Kr. rewrite (I3 Kr).
      cbn [rev]. destruct (rev (asked (objective st target l0) (k (v - target)))) as [|y t]; cbn [app]; [|reflexivity].
      rewrite Cp. apply coupons_contract; assumption.
    + split; [reflexivity|]. split; [exact (same_contract_trans _ _ _ D H)|]. intros Kr. cbn [rev app].
      rewrite Cp. apply coupons_contract; assumption.
Qed.

Lemma restore_rows a b : map (fun r => with_rate r None) a = map (fun r => with_rate r None) b ->
  map2 with_rate a (map r_rate b) = b.
Proof.
  revert b. unfold map2. induction a as [|r a IH]; intros [|q b]; cbn; intros H; try discriminate; [reflexivity|].
  injection H as H1 H2 H3 H4 H5 H6 H7 H8. f_equal; [|apply IH; exact H8].
  unfold with_rate. rewrite H1, H2, H3, H4, H5, H6, H7. destruct q; reflexivity.
Qed.

Lemma solver_restores st s target l : l_rows (fst (solver_helper st s target l)) = l_rows l.
Proof.
  unfold solver_helper. destruct (run_solver_spec st target s l l (same_contract_refl l)) as (_ & C & _).
  destruct (run_solver st target s l) as [l1 o]. cbn [fst] in *. unfold set_rows. cbn [l_rows].
  apply restore_rows. apply C.
Qed.

Lemma solver_result st s target l : snd (solver_helper st s target l) =
  match reported (objective st target l) s with Ok r => r | Err _ => None end.
Proof.
  unfold solver_helper. destruct (run_solver_spec st target s l l (same_contract_refl l)) as (E & _ & _).
  destruct (run_solver st target s l) as [l1 o]. cbn [snd] in *. rewrite E. reflexivity.
Qed.

Lemma solver_coupons st s target l : kind_ready (l_kind l) = true ->
  l_coupons (fst (solver_helper st s target l)) =
   match rev (asked (objective st target l) s) with
   | [] => l_coupons l
   | x :: _ => l_coupons (fst (calc_coupon_payment l (Some x)))
   end.
Proof.
  intros K. unfold solver_helper. destruct (run_solver_spec st target s l l (same_contract_refl l)) as (_ & _ & C).
  destruct (run_solver st target s l) as [l1 o]. cbn [fst] in *. unfold set_rows. cbn [l_coupons]. exact (C K).
Qed.

Lemma solver_same_static st s target l : l_side (fst (solver_helper st s target l)) = l_side l /\
  l_basis (fst (solver_helper st s target l)) = l_basis l /\ l_curve (fst (solver_helper st s target l)) = l_curve l /\
  l_kind (fst (solver_helper st s target l)) = l_kind l.
Proof.
  unfold solver_helper. destruct (run_solver_spec st target s l l (same_contract_refl l)) as (_ & C & _).
  destruct (run_solver st target s l) as [l1 o]. cbn [fst] in *. unfold set_rows. cbn. destruct C as (?&?&?&?&_). auto.
Qed.

Lemma solver_exact st s target l f x : priced_by l f -> l_kind l = FixedLeg -> has_lengths l -> annuity st f l <> 0 ->
  exact_on (objective st target l) s -> snd (solver_helper st s target l) = Some x ->
  x = (target - notional_value st f l) / annuity st f l /\ snd (calc_dirty_pv st l (Some x)) = Ok target.
Proof.
  intros H K Hy NZ Ex E. rewrite solver_result in E.
  destruct (reported (objective st target l) s) as [r|e] eqn:Rp; [|discriminate]. subst r.
  specialize (Ex x Rp). unfold objective in Ex.
  destruct (snd (calc_dirty_pv st l (Some x))) as [v|] eqn:V; [|discriminate]. injection Ex as Ex.
  assert (v = target) by lra. subst v. split; [|reflexivity].
  apply (fixed_unique st l f x target H K Hy NZ). exact V.
Qed.

Lemma solver_no_curve st target l x k : l_curve l = None -> snd (solver_helper st (Try x k) target l) = None.
Proof.
  intros C. rewrite solver_result. cbn [reported]. unfold objective, calc_dirty_pv, calc_coupon_payment.
  destruct (l_kind l) as [|[|]|[|]]; cbn [l_curve set_coupons snd]; try rewrite C; reflexivity.
Qed.

(* ---- notional schedule ---- *)
Lemma scatter_len {A B} (mask : list (option A)) (vals : list B) : length (scatter mask vals) = length mask.
Proof. revert vals. induction mask as [|[a|] m IH]; intros vals; cbn; [reflexivity| |]; [destruct vals|]; cbn; rewrite IH; reflexivity. Qed.

Lemma payment_dates_len c rc rows delay t nd : add_payment_dates c rc rows delay t = Ok nd -> length nd = length rows.
Proof.
  unfold add_payment_dates. intros H. apply bind_ok in H as (ds & H1 & H2). apply bind_ok in H2 as (vs & H2 & H3).
  injection H3 as <-. rewrite scatter_len. destruct t; try discriminate; injection H1 as <-; rewrite map_length; reflexivity.
Qed.

Lemma set_last_snoc l r n : set_last_payment (l ++ [r]) n =
  l ++ [{| s_start := s_start r; s_end := s_end r; s_notional := s_notional r; s_npay := n; s_ndate := s_ndate r; s_cdate := s_cdate r |}].
Proof.
  induction l as [|q l IH]; [reflexivity|]. cbn [app]. rewrite <- IH. cbn [set_last_payment].
  destruct (l ++ [r]) eqn:E; [destruct l; discriminate|]. reflexivity.
Qed.

Lemma set_last_npay l n : l <> [] -> map s_npay (set_last_payment l n) = map s_npay (removelast l) ++ [n].
Proof.
  intros H. destruct (exists_last H) as (l' & r & ->). rewrite set_last_snoc, removelast_last, map_app. reflexivity.
Qed.
Lemma set_last_other l n : map s_ndate (set_last_payment l n) = map s_ndate l /\ map s_notional (set_last_payment l n) = map s_notional l /\
  dates_of_rows (set_last_payment l n) = dates_of_rows l /\ map s_cdate (set_last_payment l n) = map s_cdate l.
Proof.
  destruct l as [|x l _] using rev_ind; [repeat split; reflexivity|]. rewrite set_last_snoc. unfold dates_of_rows. rewrite !map_app. cbn. auto.
Qed.

Lemma map_repeat_const {A B} (b : B) (l : list A) : map (fun _ => b) l = repeat b (length l).
Proof. induction l; cbn; congruence. Qed.

Lemma map_fst_combine {A B} (l : list A) (m : list B) : length m = length l -> map fst (combine l m) = l.
Proof. revert m. induction l as [|x l IH]; intros [|y m]; cbn; intros; try discriminate; [reflexivity|]. rewrite IH by lia. reflexivity. Qed.
Lemma map_snd_combine {A B} (l : list A) (m : list B) : length m = length l -> map snd (combine l m) = m.
Proof. revert m. induction l as [|x l IH]; intros [|y m]; cbn; intros; try discriminate; [reflexivity|]. rewrite IH by lia. reflexivity. Qed.

Lemma repeat_snoc {A} (a : A) k : repeat a (S k) = repeat a k ++ [a].
Proof. cbn [repeat]. apply repeat_cons. Qed.
Lemma removelast_repeat {A} (a : A) k : removelast (repeat a (S k)) = repeat a k.
Proof. induction k; [reflexivity|]. cbn [repeat]. cbn [repeat] in IHk. cbn [removelast]. cbn [removelast] in IHk. f_equal. exact IHk. Qed.
Lemma map_removelast {A B} (f : A -> B) l : map f (removelast l) = removelast (map f l).
Proof. induction l as [|x l IH]; [reflexivity|]. cbn. destruct l; [reflexivity|]. cbn in *. f_equal. exact IH. Qed.

Lemma notional_schedule_ok c rc rows n x delay t init nd : rows <> [] -> add_payment_dates c rc rows delay t = Ok nd ->
  exists l, notional_schedule c rc rows [n] x delay t init = Ok l /\
    map s_npay l = expected_payments x n (length rows - 1) /\
    map s_ndate l = (if at_start x then [match init with Some d => Some d | None => fst (hd (None, None) rows) end] else []) ++ nd /\
    map s_notional l = (if at_start x then [0] else []) ++ repeat n (length rows) /\
    dates_of_rows l = (if at_start x then [(None, None)] else []) ++ rows.
Proof.
  intros NE H. pose proof (payment_dates_len _ _ _ _ _ _ H) as L. unfold notional_schedule. rewrite H. cbn [bind].
  set (base := map _ (combine rows nd)).
  assert (B1 : map s_npay base = repeat 0 (length rows)).
  { unfold base. rewrite map_map. cbn [s_npay]. rewrite map_repeat_const, combine_length. f_equal. lia. }
  assert (B2 : map s_ndate base = nd). { unfold base. rewrite map_map. cbn [s_ndate]. apply map_snd_combine. exact L. }
  assert (B3 : map s_notional base = repeat n (length rows)).
  { unfold base. rewrite map_map. cbn [s_notional]. rewrite map_repeat_const, combine_length. f_equal. lia. }
  assert (B4 : dates_of_rows base = rows).
  { unfold base, dates_of_rows. rewrite map_map. cbn [s_start s_end].
    transitivity (map fst (combine rows nd)); [apply map_ext; intros [[a b] d]; reflexivity | apply map_fst_combine; exact L]. }
  assert (B5 : exists r t, base = r :: t /\ s_start r = fst (hd (None, None) rows)).
  { unfold base. destruct rows as [|q rows]; [congruence|]. destruct nd as [|d nd]; [discriminate|]. cbn [combine map]. eauto. }
  clearbody base. destruct B5 as (r & tl & E & HS).
  assert (Lk : length rows = S (length rows - 1)%nat) by (destruct rows; [congruence|cbn; lia]).
  assert (NEb : base <> []) by (rewrite E; discriminate).
  unfold expected_payments. set (k := (length rows - 1)%nat) in *. clearbody k.
  destruct x; cbn [at_start at_end]; rewrite E; cbn [bind]; rewrite <- E.
  - eexists. split; [reflexivity|]. unfold dates_of_rows in *. cbn [map s_npay s_ndate s_notional s_start s_end].
    rewrite B1, B2, B3, B4, Lk, HS. repeat split. rewrite repeat_snoc. cbn [app]. f_equal. lra.
  - destruct (set_last_other base n) as (O1 & O2 & O3 & O4). exists (set_last_payment base n). split; [rewrite E; reflexivity|].
    rewrite set_last_npay, O1, O2, O3, map_removelast, B1, B2, B3, B4, Lk, removelast_repeat by exact NEb. repeat split.
  - eexists. split; [reflexivity|]. rewrite set_last_npay by discriminate.
    match goal with |- context [set_last_payment ?l n] => destruct (set_last_other l n) as (O1 & O2 & O3 & O4); rewrite O1, O2, O3 end.
    unfold dates_of_rows in *. cbn [map s_ndate s_notional s_start s_end]. rewrite B2, B3, B4, HS. repeat split.
    rewrite map_removelast. cbn [map s_npay]. rewrite B1, Lk.
    change (removelast (- 1 * n :: repeat 0 (S k))) with (- 1 * n :: removelast (repeat 0 (S k))).
    rewrite removelast_repeat. cbn [app]. f_equal. lra.
  - eexists. split; [reflexivity|]. rewrite B1, B2, B3, B4, Lk. repeat split. rewrite repeat_snoc. reflexivity.
Qed.

Lemma notional_vector_rejected c rc rows amounts x delay t init : length amounts <> 1%nat ->
  notional_schedule c rc rows amounts x delay t init = Err ValueError.
Proof. destruct amounts as [|a [|b l]]; cbn; intros H; congruence. Qed.

Lemma sum_repeat_0 k : sum_R (repeat 0 k) = 0.
Proof. induction k; cbn; [reflexivity|]. unfold sum_R in *. lra. Qed.
Lemma expected_sum x n k : sum_R (expected_payments x n k) = (if at_start x then - n else 0) + (if at_end x then n else 0).
Proof. unfold expected_payments. rewrite !sum_R_app, sum_repeat_0. destruct x; cbn; lra. Qed.

Lemma notional_schedule_total c rc rows n x delay t init l : rows <> [] ->
  notional_schedule c rc rows [n] x delay t init = Ok l ->
  sum_R (map s_npay l) = match x with ExStart => - n | ExEnd => n | ExBoth | ExNeither => 0 end.
Proof.
  intros NE H. assert (E : exists nd, add_payment_dates c rc rows delay t = Ok nd).
  { unfold notional_schedule in H. apply bind_ok in H as (nd & H1 & _). exists nd. exact H1. }
  destruct E as (nd & E). destruct (notional_schedule_ok c rc rows n x delay t init nd NE E) as (l' & H1 & H2 & _).
  rewrite H in H1. injection H1 as <-. rewrite H2, expected_sum. destruct x; cbn; lra.
Qed.

(* the coupon dates come last and touch nothing else *)
Lemma coupon_schedule_ok c rc rows amounts x nd nt init cd ct l :
  coupon_schedule c rc rows amounts x nd nt init cd ct = Ok l ->
  exists l0, notional_schedule c rc rows amounts x nd nt init = Ok l0 /\
    map s_npay l = map s_npay l0 /\ map s_ndate l = map s_ndate l0 /\ map s_notional l = map s_notional l0 /\
    dates_of_rows l = dates_of_rows l0 /\ add_payment_dates c rc (dates_of_rows l0) cd ct = Ok (map s_cdate l).
Proof.
  unfold coupon_schedule. intros H. apply bind_ok in H as (l0 & H1 & H2). apply bind_ok in H2 as (ds & H2 & H3).
  injection H3 as <-. exists l0. split; [exact H1|].
  pose proof (payment_dates_len _ _ _ _ _ _ H2) as L. unfold dates_of_rows in L. rewrite map_length in L.
  unfold dates_of_rows. rewrite !map_map. cbn [s_npay s_ndate s_notional s_start s_end s_cdate].
  rewrite <- (map_map fst s_npay), <- (map_map fst s_ndate), <- (map_map fst s_notional).
  rewrite <- (map_map fst (fun r => (s_start r, s_end r))). rewrite !map_fst_combine, map_snd_combine by exact L. auto.
Qed.

(* ---- the two sides of the same terms ---- *)
Definition mirror_row (r q : row) : Prop :=
  r_start r = r_start q /\ r_end r = r_end q /\ r_notional r = - r_notional q /\ r_npay r = - r_npay q /\
  r_ndate r = r_ndate q /\ r_cdate r = r_cdate q /\ r_yf r = r_yf q /\ r_rate r = r_rate q.

Lemma new_leg_sides b cv k x rows param lp lr :
  new_leg Pay b cv k x rows param = Ok lp -> new_leg Rcv b cv k x rows param = Ok lr ->
  Forall2 mirror_row (l_rows lp) (l_rows lr) /\ l_side lp = Pay /\ l_side lr = Rcv /\ l_basis lp = l_basis lr /\
  l_kind lp = l_kind lr /\ l_curve lp = l_curve lr /\ l_kind lr = k /\ l_curve lr = cv /\ l_basis lr = b.
Proof.
  unfold new_leg. intros H1 H2.
  destruct (add_period_daycount _ _); cbn [bind] in *; [|discriminate].
  destruct (add_period_yearfrac _ _) as [yf|]; cbn [bind] in *; [|discriminate].
  match type of H1 with context [bind ?e _] => destruct e as [col|]; cbn [bind] in *; [|discriminate] end.
  injection H1 as <-. injection H2 as <-. cbn [l_rows l_side l_basis l_kind l_curve]. repeat split.
  generalize (combine (combine rows yf) (if at_start x then None :: col else col)). clear.
  induction l as [|[[r y] z] l IH]; cbn [map]; constructor; [|exact IH].
  repeat split; cbn; lra.
Qed.

Lemma mirror_fixed r q : mirror_row r q -> fixed_coupon Pay r = fixed_coupon Rcv q.
Proof.
  intros (_ & _ & N & _ & _ & C & Y & Rt). unfold fixed_coupon. rewrite C, Y, Rt, N. destruct (r_cdate q); [|reflexivity].
  destruct (r_rate q), (r_yf q); cbn; try reflexivity. f_equal. ring.
Qed.

Lemma mirror_override p q ov : Forall2 mirror_row p q -> Forall2 mirror_row (override_rows p ov) (override_rows q ov).
Proof.
  intros H. destruct ov; cbn [override_rows]; [|exact H]. induction H as [|r1 s1 p1 q1 M H IH]; cbn [map]; constructor; [|exact IH].
  destruct M as (?&?&?&?&?&?&?&?). repeat split; cbn; assumption.
Qed.

Lemma mirror_coupons b cv x rows param lp lr ov :
  new_leg Pay b cv FixedLeg x rows param = Ok lp -> new_leg Rcv b cv FixedLeg x rows param = Ok lr ->
  l_coupons (fst (calc_coupon_payment lp ov)) = l_coupons (fst (calc_coupon_payment lr ov)).
Proof.
  intros H1 H2. destruct (new_leg_sides _ _ _ _ _ _ _ _ H1 H2) as (F & S1 & S2 & _ & K & _ & K2 & _).
  unfold calc_coupon_payment. rewrite K, K2, S1, S2. cbn [set_coupons l_coupons fst]. f_equal.
  apply (mirror_override _ _ ov) in F. induction F; cbn [map]; [reflexivity|]. f_equal; [|assumption]. apply mirror_fixed. assumption.
Qed.

Lemma mirror_npay b cv k x rows param lp lr :
  new_leg Pay b cv k x rows param = Ok lp -> new_leg Rcv b cv k x rows param = Ok lr ->
  map r_npay lp.(l_rows) = map Ropp (map r_npay lr.(l_rows)).
Proof.
  intros H1 H2. destruct (new_leg_sides _ _ _ _ _ _ _ _ H1 H2) as (F & _).
  induction F as [|r q p s (_&_&_&E&_)]; cbn; [reflexivity|]. f_equal; assumption.
Qed.

Lemma mirror_accrued st b cv x rows param lp lr :
  new_leg Pay b cv FixedLeg x rows param = Ok lp -> new_leg Rcv b cv FixedLeg x rows param = Ok lr ->
  accrued_part st lp = let* a := accrued_part st lr in Ok (- a).
Proof.
  intros H1 H2. destruct (new_leg_sides _ _ _ _ _ _ _ _ H1 H2) as (F & S1 & S2 & B & K & _ & K2 & _).
  unfold accrued_part. rewrite K, K2, B.
  assert (G : Forall2 mirror_row (filter (is_current st) (l_rows lp)) (filter (is_current st) (l_rows lr))).
  { clear -F. induction F as [|r q p s M F IH]; cbn [filter]; [constructor|].
    assert (E : is_current st r = is_current st q) by (unfold is_current; destruct M as (-> & -> & _); reflexivity).
    rewrite E. destruct (is_current st q); [constructor|]; assumption. }
  destruct G as [|r q cp cr M G]; [reflexivity|].
  assert (E : r_start r = r_start q) by apply M. rewrite E. destruct (r_start q) as [s0|]; [|reflexivity].
  destruct (scalar_yf s0 (value_date st) (l_basis lr)) as [y|]; cbn [bind]; [|reflexivity].
  f_equal. apply (Forall2_cons _ _ M) in G. clear -G. rewrite !nansum_real, !map_map.
  induction G as [|a c l m M G IH]; cbn [map]; [unfold sum_R; cbn; lra|]. rewrite !sum_R_cons, IH.
  destruct M as (_ & _ & -> & _ & _ & _ & _ & ->). destruct (r_rate c); cbn; lra.
Qed.

Lemma mirror_values st f b cv x rows param lp lr :
  new_leg Pay b cv FixedLeg x rows param = Ok lp -> new_leg Rcv b cv FixedLeg x rows param = Ok lr ->
  annuity st f lp = annuity st f lr /\ notional_value st f lp = - notional_value st f lr /\ par_value st lp = - par_value st lr.
Proof.
  intros H1 H2. destruct (new_leg_sides _ _ _ _ _ _ _ _ H1 H2) as (F & S1 & S2 & _).
  unfold annuity, notional_value, par_value. rewrite S1, S2. clear H1 H2 S1 S2.
  induction F as [|r q l m (_ & _ & N & P & D & C & Y & _) F (I1 & I2 & I3)]; cbn [map]; [cbn; repeat split; unfold sum_R; cbn; lra|].
  rewrite !sum_R_cons, I1, I2, N, P, C, D, Y. repeat split.
  - f_equal. f_equal. cbn [multiplier]. ring.
  - unfold value_of. destruct (r_ndate q) as [t|]; [destruct (to_come st t)|]; lra.
  - unfold select in *. cbn [combine filter fst].
    match goal with |- context [if ?e then cell_ge _ _ else _] => destruct e end;
    match goal with |- context [if ?e then (_ :: _) else _] => destruct e end; cbn [map snd nansum]; rewrite ?I3; lra.
Qed.

Lemma mirror_par st b cv f x rows param lp lr sp sr xp xr :
  new_leg Pay b cv FixedLeg x rows param = Ok lp -> new_leg Rcv b cv FixedLeg x rows param = Ok lr ->
  priced_by lp f -> priced_by lr f -> has_lengths lp -> has_lengths lr -> annuity st f lr <> 0 ->
  exact_on (objective st (par_value st lp) lp) sp -> exact_on (objective st (par_value st lr) lr) sr ->
  snd (par_solve st sp lp) = Some xp -> snd (par_solve st sr lr) = Some xr -> xp = - xr.
Proof.
  intros H1 H2 P1 P2 Y1 Y2 NZ E1 E2 R1 R2. unfold par_solve in *.
  destruct (new_leg_sides _ _ _ _ _ _ _ _ H1 H2) as (_ & _ & _ & _ & K & _ & K2 & _).
  destruct (mirror_values st f _ _ _ _ _ _ _ H1 H2) as (A & N & P).
  destruct (solver_exact _ _ _ _ f _ P1 (eq_trans K K2) Y1 ltac:(rewrite A; exact NZ) E1 R1) as [-> _].
  destruct (solver_exact _ _ _ _ f _ P2 K2 Y2 NZ E2 R2) as [-> _].
  rewrite A, N, P. field. exact NZ.
Qed.

(* ---- floating legs ---- *)
Lemma float_pv st l ov f : priced_by l f -> kind_ready (l_kind l) = true -> l_kind l <> FixedLeg ->
  snd (calc_dirty_pv st l ov) =
  Ok (sum_where (fun r => match r_cdate r with None => true | Some _ => false end) (fun r => value_of st f (r_ndate r) (r_npay r)) (l_rows l)).
Proof.
  intros H K NF. rewrite (dirty_pv_value st l ov f H K). f_equal. unfold sum_where.
  assert (G : forall r, row_value st f r (coupon_of (l_kind l) (l_side l) r) =
    if match r_cdate r with None => true | Some _ => false end then value_of st f (r_ndate r) (r_npay r) else 0).
  { intros r. destruct (l_kind l); [congruence| |]; cbn [coupon_of]; unfold float_coupon, float_coupon_rate;
    destruct (r_cdate r) eqn:C; cbn; try reflexivity; unfold value_of at 2; rewrite C; lra. }
  destruct ov; cbn [override_rows]; [rewrite map_map|]; apply sum_R_ext; intros q _; rewrite G; reflexivity.
Qed.

(* ---- current / non-current ---- *)
Lemma nansum_select {A} (p : A -> bool) (g : A -> option R) l :
  nansum (select (map p l) (map g l)) = sum_where p (fun x => real (g x)) l.
Proof.
  unfold select, sum_where. induction l as [|x l IH]; cbn [map combine filter fst]; [reflexivity|].
  rewrite sum_R_cons, <- IH. destruct (p x); cbn [map snd nansum]; [destruct (g x); cbn [real]|]; lra.
Qed.

Lemma beyond_mask st d : (if include_on_value_date st then cell_le d (add_months (value_date st) 12) else cell_lt d (add_months (value_date st) 12))
  = negb (beyond_year st d).
Proof.
  unfold beyond_year. generalize (add_months (value_date st) 12). intros u. unfold cell_le, cell_lt.
  destruct d as [t|]; [|destruct (include_on_value_date st); reflexivity].
  destruct (include_on_value_date st); cbn [negb andb];
  destruct (Z.ltb_spec u t), (Z.eqb_spec t u); try destruct (Z.leb_spec t u); try destruct (Z.ltb_spec t u); cbn; try reflexivity; lia.
Qed.

Lemma sum_where_split {A} (p : A -> bool) g l : sum_where p g l + sum_where (fun x => negb (p x)) g l = sum_R (map g l).
Proof. unfold sum_where. rewrite <- sum_R_plus. apply sum_R_ext. intros x _. destruct (p x); cbn; lra. Qed.

Lemma split_value st l f : priced_by l f -> l_kind l = FixedLeg -> has_lengths l -> has_rates l ->
  exists cur non d, snd (current_non_current st l true) = Ok (cur, non) /\ snd (calc_dirty_pv st l None) = Ok d /\
   let npv r := value_of st f (r_ndate r) (r_npay r) in
   let cpv r := value_of st f (r_cdate r) (multiplier (l_side l) * r_notional r * real (r_rate r) * real (r_yf r)) in
   cur = sum_where (fun r => negb (beyond_year st (r_ndate r))) npv (l_rows l) + sum_where (fun r => negb (beyond_year st (r_cdate r))) cpv (l_rows l) /\
   non = sum_where (fun r => beyond_year st (r_ndate r)) npv (l_rows l) + sum_where (fun r => beyond_year st (r_cdate r)) npv (l_rows l) /\
   d = sum_R (map npv (l_rows l)) + sum_R (map cpv (l_rows l)).
Proof.
  intros H K Hy Hr. destruct (dirty_pv_ok st l None f H) as (l2 & E & R2 & S2 & _ & _ & _ & _ & Pv); [rewrite K; reflexivity|].
  unfold current_non_current. pose proof (fixed_dirty_pv st l f H K Hy Hr) as Dv. rewrite E in *. rewrite Pv, R2. cbn [override_rows snd] in *.
  injection Dv as Dv. do 3 eexists. split; [reflexivity|]. split; [reflexivity|]. cbn [fst snd]. rewrite Dv.
  unfold split_columns, split_masks. cbn [fst snd]. rewrite !map_map. cbn [fst snd]. rewrite !nansum_select. cbn [real].
  assert (Cp : forall r, In r (l_rows l) -> real (nan_mult (coupon_of (l_kind l) (l_side l) r) (Some (disc st f (r_cdate r)))) =
    value_of st f (r_cdate r) (multiplier (l_side l) * r_notional r * real (r_rate r) * real (r_yf r))).
  { intros r Hin. rewrite K. cbn [coupon_of]. rewrite (fixed_defined _ r (Hy r Hin) (Hr r Hin)). cbn [nan_mult real].
    unfold disc, value_of. destruct (r_cdate r) as [t|]; [destruct (to_come st t)|]; lra. }
  split; [|split].
  - f_equal; unfold sum_where; apply sum_R_ext; intros r Hin; rewrite beyond_mask; destruct (beyond_year st _); cbn [negb]; try reflexivity.
    apply Cp. exact Hin.
  - f_equal; unfold sum_where; apply sum_R_ext; intros r Hin; rewrite beyond_mask, negb_involutive; reflexivity.
  - apply sum_R_plus.
Qed.

Lemma split_iff st l f : priced_by l f -> l_kind l = FixedLeg -> has_lengths l -> has_rates l ->
  exists cur non d, snd (current_non_current st l true) = Ok (cur, non) /\ snd (calc_dirty_pv st l None) = Ok d /\
  (cur + non = d <->
   sum_where (fun r => beyond_year st (r_cdate r)) (fun r => value_of st f (r_ndate r) (r_npay r)) (l_rows l) =
   sum_where (fun r => beyond_year st (r_cdate r))
     (fun r => value_of st f (r_cdate r) (multiplier (l_side l) * r_notional r * real (r_rate r) * real (r_yf r))) (l_rows l)).
Proof.
  intros H K Hy Hr. destruct (split_value st l f H K Hy Hr) as (cur & non & d & E1 & E2 & Hc & Hn & Hd). cbn zeta in *.
  exists cur, non, d. split; [exact E1|]. split; [exact E2|].
  pose proof (sum_where_split (fun r => beyond_year st (r_ndate r)) (fun r => value_of st f (r_ndate r) (r_npay r)) (l_rows l)) as S1.
  pose proof (sum_where_split (fun r => beyond_year st (r_cdate r)) (fun r => value_of st f (r_cdate r) (multiplier (l_side l) * r_notional r * real (r_rate r) * real (r_yf r))) (l_rows l)) as S2.
  cbn beta in *. lra.
Qed.

(* ---- buckets ---- *)
Lemma masked_sum_pairs (p : option date -> bool) ds pay : length pay = length ds ->
  masked_sum (map p ds) pay = sum_where (fun q => p (fst q)) (fun q => real (snd q)) (combine ds pay).
Proof.
  intros L. unfold masked_sum.
  transitivity (nansum (select (map (fun q => p (fst q)) (combine ds pay)) (map snd (combine ds pay)))).
  - rewrite map_snd_combine by exact L. rewrite <- (map_map fst p), map_fst_combine by exact L. reflexivity.
  - apply nansum_select.
Qed.

Lemma Ok_inj {A} (a b : A) : Ok a = Ok b -> a = b.
Proof. congruence. Qed.

Lemma bucket_loop_cons v ds pay lower b bs upper : bucket_loop v ds pay lower (b :: bs) upper =
  let* rest := bucket_loop v ds pay (map (fun d => cell_ge d (add_months v (12 * b))) ds) bs (Some (add_months v (12 * b))) in
  Ok (masked_sum (map2 andb lower (map (fun d => cell_lt d (add_months v (12 * b))) ds)) pay :: rest).
Proof. reflexivity. Qed.

Lemma bucket_loop_sum v ds pay : length pay = length ds -> forall buckets a bs lower,
  increasing_from a buckets -> lower = map (fun d => cell_ge d (add_months v (12 * a))) ds ->
  bucket_loop v ds pay lower buckets (Some (add_months v (12 * a))) = Ok bs ->
  sum_R bs = sum_where (fun q => cell_ge (fst q) (add_months v (12 * a))) (fun q => real (snd q)) (combine ds pay).
Proof.
  intros L. induction buckets as [|b buckets IH]; intros a bs lower Inc -> E; cbn [bucket_loop] in E.
  - injection E as <-. rewrite sum_R_cons. rewrite (masked_sum_pairs (fun d => cell_ge d (add_months v (12 * a)))) by exact L. unfold sum_R; cbn. lra.
  - apply bind_ok in E as (rest & E1 & E2). injection E2 as <-. destruct Inc as [Hab Inc].
    rewrite sum_R_cons. rewrite (IH b rest _ Inc eq_refl E1).
    rewrite map2_map. rewrite (masked_sum_pairs (fun d => cell_ge d (add_months v (12 * a)) && cell_lt d (add_months v (12 * b)))) by exact L.
    unfold sum_where. rewrite <- sum_R_plus. apply sum_R_ext. intros [d x] _. cbn [fst snd].
    pose proof (add_months_mono v (12 * a) (12 * b) ltac:(lia)) as M.
    destruct d as [t|]; cbn [cell_ge cell_lt]; [|cbn; lra].
    destruct (Z.leb_spec (add_months v (12 * a)) t), (Z.ltb_spec t (add_months v (12 * b))), (Z.leb_spec (add_months v (12 * b)) t); cbn [andb]; try lra; exfalso; clear -M H H0 H1; lia.
Qed.

Lemma bucket_partition st buckets ds pay bs : length pay = length ds -> increasing_from 0 buckets ->
  bucket_helper st buckets ds pay = Ok bs ->
  sum_R bs = sum_R (map (fun q => amount_of st (fst q) (real (snd q))) (combine ds pay)) /\ length bs = S (length buckets).
Proof.
  intros L Inc E. unfold bucket_helper in E. destruct buckets as [|b buckets]; [discriminate|].
  rewrite bucket_loop_cons in E. apply bind_ok in E as (rest & E1 & E2). apply Ok_inj in E2. subst bs. destruct Inc as [Hb Inc].
  split.
  - rewrite sum_R_cons. rewrite (bucket_loop_sum _ _ _ L buckets b rest _ Inc eq_refl E1).
    rewrite map2_map. match goal with |- masked_sum (map ?p ds) pay + _ = _ => rewrite (masked_sum_pairs p) by exact L end.
    unfold sum_where. rewrite <- sum_R_plus. apply sum_R_ext. intros [d x] _. cbn [fst snd].
    pose proof (add_months_mono (value_date st) 0 (12 * b) ltac:(lia)) as M. rewrite add_months_0 in M.
    unfold amount_of, value_of, to_come. destruct d as [t|]; cbn [cell_ge cell_gt cell_lt]; [|destruct (include_on_value_date st); cbn; lra].
    clear E1 Inc. revert M. generalize (add_months (value_date st) (12 * b)). intros u M.
    destruct (include_on_value_date st); cbn [andb];
    destruct (Z.ltb_spec (value_date st) t), (Z.leb_spec (value_date st) t), (Z.ltb_spec t u), (Z.leb_spec u t), (Z.eqb_spec t (value_date st));
      cbn [andb orb]; try lra; exfalso; lia.
  - cbn. f_equal. clear -E1. revert rest E1. generalize (add_months (value_date st) (12 * b)) as u.
    generalize (map (fun d => cell_ge d (add_months (value_date st) (12 * b))) ds) as lw.
    induction buckets as [|c buckets IH]; intros lw u rest E; cbn [bucket_loop] in E; [injection E as <-; reflexivity|].
    apply bind_ok in E as (r & E1 & E2). injection E2 as <-. cbn. f_equal. exact (IH lw _ _ E1).
Qed.

Lemma bucket_loop_nth v ds pay : length pay = length ds -> forall buckets lo upper bs j x,
  bucket_loop v ds pay (map lo ds) buckets upper = Ok bs -> (buckets = [] -> lo = fun d => match upper with Some u => cell_ge d u | None => false end) -> nth_error bs j = Some x ->
  x = sum_where (fun q => (match j with O => lo (fst q) | S i => match nth_error buckets i with Some b => cell_ge (fst q) (add_months v (12 * b)) | None => false end end)
        && (match nth_error buckets j with Some b => cell_lt (fst q) (add_months v (12 * b)) | None => true end)) (fun q => real (snd q)) (combine ds pay).
Proof.
  intros L. induction buckets as [|b buckets IH]; intros lo upper bs j x E Lo N.
  - cbn [bucket_loop] in E. destruct upper as [u|]; [|discriminate]. apply Ok_inj in E. subst bs. destruct j as [|j]; [|destruct j; discriminate]. cbn in N. injection N as <-. rewrite (Lo eq_refl).
    rewrite (masked_sum_pairs (fun d => cell_ge d u)) by exact L. unfold sum_where. apply sum_R_ext. intros q _. rewrite andb_true_r. reflexivity.
  - rewrite bucket_loop_cons in E. apply bind_ok in E as (rest & E1 & E2). apply Ok_inj in E2. subst bs. destruct j as [|j]; cbn [nth_error] in N.
    + injection N as <-. rewrite map2_map. rewrite (masked_sum_pairs (fun d => lo d && cell_lt d (add_months v (12 * b)))) by exact L. reflexivity.
    + rewrite (IH (fun d => cell_ge d (add_months v (12 * b))) (Some (add_months v (12 * b))) rest j x E1 (fun _ => eq_refl) N). unfold sum_where. apply sum_R_ext. intros q _. destruct j; reflexivity.
Qed.
Lemma bucket_content st buckets ds pay bs j x : length pay = length ds -> bucket_helper st buckets ds pay = Ok bs -> nth_error bs j = Some x ->
  x = sum_where (fun q => in_bucket st buckets j (fst q)) (fun q => real (snd q)) (combine ds pay).
Proof.
  intros L E N. unfold bucket_helper in E. destruct buckets as [|b buckets]; [discriminate|].
  rewrite (bucket_loop_nth _ _ _ L _ (fun d => if include_on_value_date st then cell_ge d (value_date st) else cell_gt d (value_date st)) None bs j x E (fun H => ltac:(discriminate H)) N).
  unfold sum_where. apply sum_R_ext. intros [[t|] y] _; cbn [fst snd in_bucket].
  - assert (T : (if include_on_value_date st then cell_ge (Some t) (value_date st) else cell_gt (Some t) (value_date st)) = to_come st t).
    { unfold to_come. cbn [cell_ge cell_gt]. destruct (include_on_value_date st); destruct (Z.ltb_spec (value_date st) t), (Z.leb_spec (value_date st) t), (Z.eqb_spec t (value_date st)); cbn; try reflexivity; exfalso; lia. }
    rewrite T. destruct j; reflexivity.
  - replace (_ && _) with false; [reflexivity|]. symmetry. apply andb_false_intro1. destruct j; cbn [cell_ge cell_gt]; [destruct (include_on_value_date st); reflexivity|]. destruct (nth_error (b :: buckets) j); reflexivity.
Qed.
Lemma bucket_length st buckets ds pay bs : bucket_helper st buckets ds pay = Ok bs -> length bs = S (length buckets).
Proof.
  unfold bucket_helper. destruct buckets as [|b buckets]; [discriminate|]. rewrite bucket_loop_cons. intros E. apply bind_ok in E as (rest & E1 & E2). apply Ok_inj in E2. subst bs.
  cbn. f_equal. clear -E1. revert rest E1. generalize (add_months (value_date st) (12 * b)) as u.
  generalize (map (fun d => cell_ge d (add_months (value_date st) (12 * b))) ds) as lw.
  induction buckets as [|c buckets IH]; intros lw u rest E; cbn [bucket_loop] in E; [injection E as <-; reflexivity|].
  apply bind_ok in E as (r & E1 & E2). injection E2 as <-. cbn. f_equal. exact (IH lw _ _ E1).
Qed.
Lemma dirty_coupons_length st l ov l1 v : calc_dirty_pv st l ov = (l1, Ok v) -> exists cs, l_coupons l1 = Some cs /\ length cs = length (l_rows l1).
Proof.
  intros E. pose proof (coupons_of_dirty st l ov) as C. rewrite E in C. cbn [fst] in C. unfold calc_dirty_pv, calc_coupon_payment in *.
  destruct (l_kind l) as [|[|]|[|]]; cbn [fst snd] in *; try discriminate; rewrite C; cbn [l_coupons set_coupons] in *; (eexists; split; [reflexivity|]);
    repeat match type of E with context [match discount_payments ?a ?b ?c with _ => _ end] => destruct (discount_payments a b c); [|discriminate] end; injection E as <- _; cbn [l_rows set_pvs set_coupons]; rewrite map_length; reflexivity.
Qed.

Lemma bucket_no_bounds st ds pay : bucket_helper st [] ds pay = Err NameError.
Proof. reflexivity. Qed.
Lemma bucket_total_defined st ds pay b bs : exists r, bucket_helper st (b :: bs) ds pay = Ok r.
Proof.
  unfold bucket_helper. cbn [bucket_loop]. generalize (add_months (value_date st) (12 * b)). intros u.
  assert (G : forall lw u, exists r, bucket_loop (value_date st) ds pay lw bs (Some u) = Ok r).
  { induction bs as [|c bs IH]; intros lw w; cbn [bucket_loop]; [eauto|].
    destruct (IH (map (fun d => cell_ge d (add_months (value_date st) (12 * c))) ds) (add_months (value_date st) (12 * c))) as (r & ->). cbn. eauto. }
  destruct (G (map (fun d => cell_ge d u) ds) u) as (r & ->). cbn. eauto.
Qed.

(* ---- accrued ---- *)
Lemma accrued_value st l a cs : accrued_part st l = Ok a -> l_coupons l = Some (map Some cs) ->
  calc_accrued_interest st l =
  Ok (if limit_accrued st then (if Rlt_dec 0 (sum_R cs) then sum_R cs else a) else a + sum_R cs).
Proof.
  intros H C. unfold calc_accrued_interest. rewrite H, C. cbn [bind].
  rewrite nansum_real, map_map. cbn [real]. rewrite map_id. destruct (limit_accrued st); [|reflexivity]. destruct (Rlt_dec 0 (sum_R cs)); reflexivity.
Qed.

Lemma accrued_no_period st l : filter (is_current st) (l_rows l) = [] -> calc_accrued_interest st l = Err IndexError.
Proof. intros H. unfold calc_accrued_interest, accrued_part. rewrite H. reflexivity. Qed.

Lemma clean_no_period st l : filter (is_current st) (l_rows l) = [] -> forall v, snd (calc_clean_pv st l) <> Ok v.
Proof.
  intros H v. unfold calc_clean_pv. pose proof (dirty_contract st l None) as D.
  destruct (calc_dirty_pv st l None) as [l1 [d|e]]; cbn [snd fst] in *; [|discriminate].
  rewrite accrued_no_period; [discriminate|].
  destruct D as (_ & _ & _ & _ & D). clear -H D. revert H D. generalize (l_rows l1) as p. generalize (l_rows l) as q.
  induction q as [|r q IH]; intros [|s p]; cbn [filter map]; intros H D; try discriminate; [reflexivity|].
  injection D as D1 D2 _ _ _ _ _ D3.
  assert (E : is_current st s = is_current st r) by (unfold is_current; rewrite D1, D2; reflexivity). rewrite E.
  destruct (is_current st r); [discriminate|]. apply IH; assumption.
Qed.

(* ---- swap ---- *)
Lemma swap_sides a b : (exists w, new_swap a b = Ok w) <-> l_side a <> l_side b.
Proof.
  unfold new_swap. destruct (l_side a), (l_side b); cbn; split; intros H; try congruence; try (destruct H; discriminate); eauto.
Qed.

Lemma swap_dirty_sum st w x y : snd (calc_dirty_pv st (fst w) None) = Ok x -> snd (calc_dirty_pv st (snd w) None) = Ok y ->
  swap_dirty_pv st w = ((fst (calc_dirty_pv st (fst w) None), fst (calc_dirty_pv st (snd w) None)), Ok (x + y)).
Proof.
  unfold swap_dirty_pv. destruct (calc_dirty_pv st (fst w) None) as [a r]. cbn. intros -> .
  destruct (calc_dirty_pv st (snd w) None) as [b r']. cbn. intros ->. reflexivity.
Qed.

Lemma swap_clean_sum st w x y a b : snd (calc_dirty_pv st (fst w) None) = Ok x -> snd (calc_dirty_pv st (snd w) None) = Ok y ->
  calc_accrued_interest st (fst (calc_dirty_pv st (fst w) None)) = Ok a ->
  calc_accrued_interest st (fst (calc_dirty_pv st (snd w) None)) = Ok b ->
  snd (calc_clean_pv st (fst w)) = Ok (x - a) /\ snd (calc_clean_pv st (snd w)) = Ok (y - b) /\
  snd (swap_clean_pv st w) = Ok ((x - a) + (y - b)).
Proof.
  intros X Y A B. unfold swap_clean_pv. rewrite (swap_dirty_sum st w x y X Y). cbn [fst snd]. unfold swap_accrued. cbn [fst snd].
  rewrite A. cbn [bind]. rewrite B. cbn [bind]. unfold calc_clean_pv.
  destruct (calc_dirty_pv st (fst w) None) as [l1 r1]. destruct (calc_dirty_pv st (snd w) None) as [l2 r2]. cbn [fst snd] in *. subst.
  rewrite A, B. cbn [bind snd]. repeat split; try reflexivity. f_equal. lra.
Qed.

(* ---- statements in terms of the resulting columns ---- *)
Lemma row_value_with_rate st f r x a : row_value st f (with_rate r x) a = row_value st f r a. Proof. reflexivity. Qed.

Lemma map_combine_self {A B C} (f : A -> B -> C) (g : A -> B) l : map (fun q => f (fst q) (snd q)) (combine l (map g l)) = map (fun x => f x (g x)) l.
Proof. induction l; cbn; congruence. Qed.

Lemma pv_columns st l ov f : priced_by l f -> kind_ready (l_kind l) = true ->
  exists l2 cs, calc_dirty_pv st l ov = (l2, Ok (sum_R (map (fun q => row_value st f (fst q) (snd q)) (combine (l_rows l) cs)))) /\
    l_coupons l2 = Some cs /\ length cs = length (l_rows l).
Proof.
  intros H K. destruct (dirty_pv_ok st l ov f H K) as (l2 & E & _ & _ & _ & _ & _ & C & _).
  exists l2, (map (coupon_of (l_kind l) (l_side l)) (override_rows (l_rows l) ov)). split; [|split; [exact C|]].
  - rewrite E. f_equal. f_equal. f_equal. destruct ov as [x|]; cbn [override_rows].
    + rewrite !map_map. rewrite (map_combine_self (row_value st f)). reflexivity.
    + rewrite (map_combine_self (row_value st f)). reflexivity.
  - rewrite map_length. destruct ov; cbn [override_rows]; rewrite ?map_length; reflexivity.
Qed.

Lemma pv_no_curve st l ov : l_curve l = None -> snd (calc_dirty_pv st l ov) = Err MarketDataNotAvailable.
Proof.
  intros C. unfold calc_dirty_pv, calc_coupon_payment. destruct (l_kind l) as [|[|]|[|]]; cbn [l_curve set_coupons]; try rewrite C; reflexivity.
Qed.
Lemma pv_no_index_curve st l ov : kind_ready (l_kind l) = false -> calc_dirty_pv st l ov = (l, Err MarketDataNotAvailable).
Proof. unfold calc_dirty_pv, calc_coupon_payment. destruct (l_kind l) as [|[|]|[|]]; cbn; intros; try discriminate; reflexivity. Qed.

(* A curve that answers with another number of values than it was asked for makes the valuation fail. *)
Lemma pv_wrong_count st l ov cv : kind_ready (l_kind l) = true -> l_curve l = Some cv ->
  length (cv (map r_ndate (l_rows l))) <> length (l_rows l) \/ length (cv (map r_cdate (l_rows l))) <> length (l_rows l) ->
  snd (calc_dirty_pv st l ov) = Err ValueError.
Proof.
  intros K C H. unfold calc_dirty_pv. destruct (calc_coupon_ok l ov K) as (l1 & -> & Hr & Hc & _).
  rewrite Hc, C, Hr. destruct (override_dates (l_rows l) ov) as [-> ->].
  assert (D : forall ds, length (cv ds) <> length ds -> discount_payments st (Some cv) ds = Err ValueError).
  { intros ds N. unfold discount_payments. destruct (Nat.eqb_spec (length (cv ds)) (length ds)); [contradiction|reflexivity]. }
  assert (D2 : forall ds, discount_payments st (Some cv) ds = Err ValueError \/ exists x, discount_payments st (Some cv) ds = Ok x).
  { intros ds. unfold discount_payments. destruct (length (cv ds) =? length ds)%nat; cbn; eauto. }
  destruct H as [H|H].
  - rewrite D by (rewrite map_length; exact H). reflexivity.
  - destruct (D2 (map r_ndate (l_rows l))) as [->|(x & ->)]; [reflexivity|]. rewrite D by (rewrite map_length; exact H). reflexivity.
Qed.

Lemma coupon_terms p b cv x rows param l : new_leg p b cv FixedLeg x rows param = Ok l ->
  l_coupons (fst (calc_coupon_payment l None)) =
  Some (map (fun q => match s_cdate (fst q) with
                      | None => Some 0
                      | Some _ => nan_mult (nan_mult (Some (s_notional (fst q))) (r_rate (snd q))) (r_yf (snd q))
                      end) (combine rows (l_rows l))).
Proof.
  unfold new_leg. intros H.
  destruct (add_period_daycount _ _); cbn [bind] in *; [|discriminate].
  destruct (add_period_yearfrac _ _) as [yf|]; cbn [bind] in *; [|discriminate].
  match type of H with context [bind ?e _] => destruct e as [col|]; cbn [bind] in *; [|discriminate] end.
  injection H as <-. cbn. f_equal.
  generalize (if at_start x then None :: col else col). clear. intros m. revert yf m.
  induction rows as [|r rows IH]; intros [|y yf] [|z m]; cbn; try reflexivity. f_equal; [|apply IH].
  unfold fixed_coupon. cbn. destruct (s_cdate r); [|reflexivity]. destruct z, y; cbn; try reflexivity. f_equal. destruct p; cbn; ring.
Qed.

(* A plain one-sided leg needs a rate per coupon row, or one for all. *)
Lemma new_leg_shape p b cv k x rows param l : new_leg p b cv k x rows param = Ok l ->
  length param = 1%nat \/ length param = (length rows - (if at_start x then 1 else 0))%nat.
Proof.
  unfold new_leg. intros H.
  destruct (add_period_daycount _ _); cbn [bind] in *; [|discriminate].
  destruct (add_period_yearfrac _ _) as [yf|]; cbn [bind] in *; [|discriminate].
  apply bind_ok in H as (col & H & _).
  assert (V : (if at_start x then length rows - 1 else length rows)%nat = (length rows - (if at_start x then 1 else 0))%nat) by (destruct (at_start x); lia).
  rewrite V in H. destruct param as [|a0 [|c0 q]]; auto; right.
  - destruct (Nat.eqb_spec (length (@nil (option R))) (length rows - (if at_start x then 1 else 0))); [assumption|discriminate].
  - destruct (Nat.eqb_spec (length (a0 :: c0 :: q)) (length rows - (if at_start x then 1 else 0))); [assumption|discriminate].
Qed.

Lemma other_coupons st l cs : length cs = length (l_rows l) ->
  sum_R cs = unsettled st l cs +
  sum_R (map (fun q => match r_cdate (fst q), r_end (fst q) with
                       | Some t, Some e => if to_come st t && (e <=? value_date st)%Z then 0 else snd q
                       | _, _ => snd q end) (combine (l_rows l) cs)).
Proof.
  intros L. unfold unsettled. rewrite <- sum_R_plus. rewrite <- (map_snd_combine (l_rows l) cs L) at 1. apply sum_R_ext.
  intros [r a] _. cbn [fst snd]. destruct (r_cdate r), (r_end r); try lra. destruct (_ && _); lra.
Qed.

Lemma accrued_fresh st p b cv k x rows param l v : new_leg p b cv k x rows param = Ok l -> calc_accrued_interest st l <> Ok v.
Proof.
  unfold new_leg. intros H.
  destruct (add_period_daycount _ _); cbn [bind] in *; [|discriminate].
  destruct (add_period_yearfrac _ _) as [yf|]; cbn [bind] in *; [|discriminate].
  match type of H with context [bind ?e _] => destruct e as [col|]; cbn [bind] in *; [|discriminate] end.
  injection H as <-. unfold calc_accrued_interest. cbn [l_coupons]. destruct (accrued_part _ _); cbn [bind]; discriminate.
Qed.

(* Solving one leg of a swap: the swap is worth the target plus the other leg. *)
Lemma swap_target st s target w x f y : priced_by (fst w) f -> l_kind (fst w) = FixedLeg -> has_lengths (fst w) -> annuity st f (fst w) <> 0 ->
  exact_on (objective st target (fst w)) s -> snd (swap_target_solve st s target 1 w) = Ok (Some x) ->
  snd (calc_dirty_pv st (snd w) None) = Ok y ->
  exists v, snd (calc_dirty_pv st (fst w) (Some x)) = Ok v /\ v + y = target + y /\ (v + y = target <-> y = 0).
Proof.
  intros H K Hy NZ Ex E Y. unfold swap_target_solve in E. cbn in E. unfold target_solve in E.
  pose proof (solver_exact st s target (fst w) f x H K Hy NZ Ex) as S. destruct (solver_helper st s target (fst w)) as [l1 o].
  cbn [snd] in *. injection E as ->. destruct (S eq_refl) as [_ V]. exists target. split; [exact V|]. lra.
Qed.
