From Coq Require Import String Reals List Bool Lra Lia Classical_Prop.
From Verif Require Import Base NormalModel NormalProofs BsProofs BlackModel BlackSpec BlackProofs BlackVecProofs GkModel GkSpec GkProofs GkVecProofs.
Import ListNotations.
Open Scope R_scope.

Lemma sgn_cp (d : R) : d <> 0 -> sgn d = call_put d.
Proof. intros H. unfold sgn, call_put. destruct (Rlt_dec 0 d); auto. destruct (Rlt_dec d 0); auto. lra. Qed.
Lemma sgn_0 : sgn 0 = 0.
Proof. unfold sgn. destruct (Rlt_dec 0 0); [lra | reflexivity]. Qed.
Lemma call_put_cp (d : R) : call_or_put (call_put d).
Proof. unfold call_put, call_or_put. destruct (Rlt_dec 0 d); auto. Qed.
Lemma call_put_abs (d : R) : call_put d * d = Rabs d.
Proof. unfold call_put. destruct (Rlt_dec 0 d); [rewrite Rabs_right by lra | rewrite Rabs_left1 by lra]; ring. Qed.
Lemma call_put_back (d : R) : call_put d * Rabs d = d.
Proof. unfold call_put. destruct (Rlt_dec 0 d); [rewrite Rabs_right by lra | rewrite Rabs_left1 by lra]; ring. Qed.

(* the strike at standardised moneyness z *)
Lemma strike_d1 (cp F v z : R) : call_or_put cp -> 0 < F -> 0 < v -> cp * bd1 F (F * exp (- cp * z * v + v * v / 2)) v = z.
Proof.
  intros W HF Hv. unfold bd1. pose proof (exp_pos (- cp * z * v + v * v / 2)) as P. rewrite ln_quot by (auto; apply Rmult_lt_0_compat; auto). rewrite ln_mult, ln_exp by auto.
  destruct W as [-> | ->]; field; lra.
Qed.

Lemma regular_strike_fin (spot : bool) (F rf tau vol d p z : R) : d <> 0 -> 0 < tau -> p = Rabs d * (if spot then exp (rf * tau) else 1) -> ppf p = Some z ->
  let v := vol * sqrt tau in
  regular_strike spot F rf tau vol d = Fin (F * exp (- call_put d * z * v + v * v / 2)).
Proof.
  intros Hd Ht Hp Hz. cbv zeta. unfold regular_strike. rewrite sgn_cp, call_put_abs by auto.
  assert (E : (if spot then Fin (Rabs d * exp (rf * tau)) else Fin (Rabs d)) = Fin p) by (subst p; destruct spot; f_equal; ring).
  cbv zeta. rewrite E. unfold nppf. rewrite Hz. rewrite nsqrt_fin by lra. cbn [mul add nexp]. do 3 f_equal.
  replace (vol * sqrt tau * (vol * sqrt tau)) with (vol * vol * (sqrt tau * sqrt tau)) by ring. rewrite sqrt_sqrt by lra. field.
Qed.

Lemma regular_inverts (spot : bool) (S tau rd rf vol d : R) (F : option R) : 0 < S -> 0 < tau -> 0 < vol -> good_forward F -> d <> 0 ->
  Rabs d * (if spot then exp (rf * tau) else 1) < 1 ->
  exists k, regular_strike spot (forward_of S tau rd rf F) rf tau vol d = Fin k /\ 0 < k /\
    (if spot then spot_delta_gk else forward_delta_gk) S tau rd rf (call_put d) k vol F = Fin d.
Proof.
  intros HS Ht Hv HF Hd L. pose proof (fwd_pos S tau rd rf F HS HF) as Hf. pose proof (total_pos vol tau Hv Ht) as T.
  set (p := Rabs d * (if spot then exp (rf * tau) else 1)) in *. assert (P : 0 < p).
  { apply Rmult_lt_0_compat; [apply Rabs_pos_lt; auto | destruct spot; [apply exp_pos | lra]]. }
  destruct (cdf_onto p (conj P L)) as (z & E). pose proof (proj2 (ppf_spec p z) E) as Z. rewrite (regular_strike_fin spot _ rf tau vol d p z) by auto. cbv zeta.
  set (f := forward_of S tau rd rf F) in *. set (v := vol * sqrt tau) in *. set (k := f * exp _).
  assert (Hk : 0 < k) by (apply Rmult_lt_0_compat; [auto | apply exp_pos]). exists k. split; [reflexivity | ]. split; auto.
  pose proof (strike_d1 (call_put d) f v z (call_put_cp d) Hf T) as D. fold k in D.
  destruct spot.
  - rewrite spot_delta_live by (auto using call_put_cp; fold v; lra). fold f v. rewrite D, E. f_equal. unfold p.
    assert (X : exp (- rf * tau) * exp (rf * tau) = 1) by (rewrite <- exp_plus; replace (- rf * tau + rf * tau) with 0 by ring; apply exp_0).
    transitivity (call_put d * Rabs d * (exp (- rf * tau) * exp (rf * tau))); [ring | ]. rewrite X, call_put_back. ring.
  - rewrite forward_delta_live by (auto using call_put_cp; fold v; lra). fold f v. rewrite D, E. f_equal. unfold p. rewrite Rmult_1_r. apply call_put_back.
Qed.

Lemma is_atm_iff (d : R) : is_atm d = true <-> Rabs d = 1 / 2.
Proof. unfold is_atm. destruct (Req_EM_T (Rabs d) (1 / 2)); split; auto; try discriminate; contradiction. Qed.
Lemma not_atm (d : R) : Rabs d <> 1 / 2 -> is_atm d = false.
Proof. intros H. destruct (is_atm d) eqn:E; auto. apply is_atm_iff in E. contradiction. Qed.

Lemma valid_guards (S tau : R) (vols deltas : list R) (F : option R) : valid_quotes S tau vols deltas F <->
  (all_pos [S] && all_pos [tau] && all_pos vols = true /\ forallb (fun d => if Rle_dec (Rabs d) (1 / 2) then true else false) deltas = true /\
   (length deltas =? length vols)%nat = true /\ match F with Some f => all_pos [f] = true | None => True end).
Proof.
  unfold valid_quotes. rewrite !andb_true_iff, Nat.eqb_eq. rewrite (all_pos_iff vols).
  assert (one : forall x, all_pos [x] = true <-> 0 < x) by (intros x; rewrite all_pos_iff; split; [intros H; now inversion H | intros; auto]).
  rewrite (one S), (one tau). assert (D : Forall (fun d => Rabs d <= 1 / 2) deltas <-> forallb (fun d => if Rle_dec (Rabs d) (1 / 2) then true else false) deltas = true).
  { rewrite Forall_forall, forallb_forall. split; intros H x I; specialize (H x I); destruct (Rle_dec (Rabs x) (1 / 2)); auto; try contradiction; discriminate. }
  rewrite D. destruct F as [f | ]; cbn [good_forward]; [rewrite (one f) | ]; tauto.
Qed.

Lemma mem_in (x : string) (l : list string) : existsb (String.eqb x) l = true <-> In x l.
Proof.
  rewrite existsb_exists. split; [intros (y & I & E); apply String.eqb_eq in E; now subst | intros I; exists x; split; auto; apply String.eqb_refl].
Qed.

Lemma solver_run (rs : root_finder) (S tau rd rf : R) (vols deltas : list R) (conv atm : string) (F : option R) :
  valid_quotes S tau vols deltas F -> known conv atm ->
  solve_strike_from_delta rs S tau rd rf vols deltas conv F atm =
  let fwd := forward_of S tau rd rf F in
  if String.eqb conv "regular_spot" || String.eqb conv "regular_forward"
  then Ok (map (fun q => regular_quote (String.eqb conv "regular_spot") (String.eqb atm "forward") fwd rf tau (fst q) (snd q)) (combine vols deltas))
  else premium_adjusted rs (String.eqb conv "premium_adjusted_spot") S tau rd rf fwd (combine vols deltas).
Proof.
  intros V [K1 K2]. apply valid_guards in V as (A & B & C & D). apply mem_in in K1, K2. unfold solve_strike_from_delta. rewrite A, B, C, K1, K2. cbn [guard bind].
  destruct F as [f | ]; [rewrite D | ]; reflexivity.
Qed.

Lemma solver_rejects (rs : root_finder) (S tau rd rf : R) (vols deltas : list R) (conv atm : string) (F : option R) :
  ~ (valid_quotes S tau vols deltas F /\ known conv atm) -> solve_strike_from_delta rs S tau rd rf vols deltas conv F atm = Err AssertionError.
Proof.
  intros N. unfold solve_strike_from_delta.
  destruct (all_pos [S] && all_pos [tau] && all_pos vols) eqn:A; [ | reflexivity].
  destruct (forallb _ deltas) eqn:B; [ | reflexivity]. destruct (length deltas =? length vols)%nat eqn:C; [ | reflexivity].
  destruct (existsb (String.eqb conv) _) eqn:K1; [ | reflexivity]. destruct (existsb (String.eqb atm) _) eqn:K2; [ | reflexivity]. cbn [guard bind].
  apply mem_in in K1, K2. destruct F as [f | ].
  - destruct (all_pos [f]) eqn:D; [ | reflexivity]. exfalso. apply N. split; [apply valid_guards; auto | split; auto].
  - exfalso. apply N. split; [apply valid_guards; auto | split; auto].
Qed.

Lemma nth_quote {A B} (l : list A) (m : list B) (i : nat) (x : A) (y : B) : nth_error l i = Some x -> nth_error m i = Some y -> nth_error (combine l m) i = Some (x, y).
Proof. revert m i. induction l as [ | a l IH]; intros [ | b m] [ | i]; cbn; try discriminate; auto. intros E G. injection E as ->. now injection G as ->. Qed.

Lemma regular_solver (rs : root_finder) (spot : bool) (S tau rd rf : R) (vols deltas : list R) (atm : string) (F : option R) (i : nat) (vol d : R) :
  valid_quotes S tau vols deltas F -> In atm ["forward"; "per_delta_convention"]%string -> nth_error vols i = Some vol -> nth_error deltas i = Some d ->
  strike_at (solve_strike_from_delta rs S tau rd rf vols deltas (if spot then "regular_spot" else "regular_forward") F atm) i =
  regular_quote spot (String.eqb atm "forward") (forward_of S tau rd rf F) rf tau vol d.
Proof.
  intros V A EV ED. rewrite solver_run; auto.
  - cbv zeta. assert (C : String.eqb (if spot then "regular_spot" else "regular_forward") "regular_spot" = spot) by (destruct spot; reflexivity).
    assert (C' : (String.eqb (if spot then "regular_spot" else "regular_forward") "regular_spot" || String.eqb (if spot then "regular_spot" else "regular_forward") "regular_forward")%bool = true) by (destruct spot; reflexivity).
    rewrite C', C. cbn [strike_at]. apply nth_error_nth. erewrite map_nth_error; [ | apply nth_quote; eassumption]. reflexivity.
  - split; auto. destruct spot; cbn; auto.
Qed.

Lemma valid_inv (S tau : R) (vols deltas : list R) (F : option R) (i : nat) (vol d : R) : valid_quotes S tau vols deltas F ->
  nth_error vols i = Some vol -> nth_error deltas i = Some d -> 0 < S /\ 0 < tau /\ 0 < vol /\ Rabs d <= 1 / 2 /\ good_forward F.
Proof.
  intros (HS & Ht & V & D & _ & HF) EV ED. apply nth_error_In in EV, ED. rewrite Forall_forall in V, D. repeat split; auto.
Qed.

(* a delta is reproduced by the strike found for it *)
Lemma regular_ok (rs : root_finder) (spot : bool) (S tau rd rf : R) (vols deltas : list R) (atm : string) (F : option R) (i : nat) (vol d : R) :
  valid_quotes S tau vols deltas F -> In atm ["forward"; "per_delta_convention"]%string -> nth_error vols i = Some vol -> nth_error deltas i = Some d ->
  d <> 0 -> Rabs d * (if spot then exp (rf * tau) else 1) < 1 -> atm = "per_delta_convention"%string \/ Rabs d <> 1 / 2 ->
  exists k, strike_at (solve_strike_from_delta rs S tau rd rf vols deltas (if spot then "regular_spot" else "regular_forward") F atm) i = Fin k /\ 0 < k /\
    (if spot then spot_delta_gk else forward_delta_gk) S tau rd rf (call_put d) k vol F = Fin d.
Proof.
  intros V A EV ED Hd L C. destruct (valid_inv _ _ _ _ _ _ _ _ V EV ED) as (HS & Ht & Hv & _ & HF).
  rewrite (regular_solver rs spot S tau rd rf vols deltas atm F i vol d V A EV ED).
  assert (E : regular_quote spot (String.eqb atm "forward") (forward_of S tau rd rf F) rf tau vol d = regular_strike spot (forward_of S tau rd rf F) rf tau vol d).
  { unfold regular_quote. destruct C as [-> | C]; [reflexivity | ]. rewrite not_atm by auto. now rewrite andb_false_r. }
  rewrite E. apply regular_inverts; auto.
Qed.

Lemma bd1_atm (f v : R) : 0 < f -> 0 < v -> bd1 f (f * exp (1 / 2 * (v * v))) v = 0.
Proof.
  intros Hf Hv. pose proof (exp_pos (1 / 2 * (v * v))). unfold bd1. rewrite ln_quot by (auto; apply Rmult_lt_0_compat; auto). rewrite ln_mult, ln_exp by auto. field. lra.
Qed.
Lemma bd2_atm (f v : R) : 0 < f -> 0 < v -> bd2 f (f * exp (- (1 / 2) * (v * v))) v = 0.
Proof.
  intros Hf Hv. pose proof (exp_pos (- (1 / 2) * (v * v))). unfold bd2, bd1. rewrite ln_quot by (auto; apply Rmult_lt_0_compat; auto). rewrite ln_mult, ln_exp by auto. field. lra.
Qed.
Lemma var_total (vol tau : R) : 0 < tau -> vol * vol * tau = vol * sqrt tau * (vol * sqrt tau).
Proof. intros. replace (vol * sqrt tau * (vol * sqrt tau)) with (vol * vol * (sqrt tau * sqrt tau)) by ring. now rewrite sqrt_sqrt by lra. Qed.

(* the at-the-money strike is delta neutral in both conventions *)
Lemma atm_forward_ok (rs : root_finder) (spot : bool) (S tau rd rf : R) (vols deltas : list R) (F : option R) (i : nat) (vol d : R) :
  valid_quotes S tau vols deltas F -> nth_error vols i = Some vol -> nth_error deltas i = Some d -> Rabs d = 1 / 2 ->
  exists k, strike_at (solve_strike_from_delta rs S tau rd rf vols deltas (if spot then "regular_spot" else "regular_forward") F "forward") i = Fin k /\ 0 < k /\
    forward_delta_gk S tau rd rf 1 k vol F = Fin (1 / 2) /\ forward_delta_gk S tau rd rf (-1) k vol F = Fin (- (1 / 2)) /\
    exists s, spot_delta_gk S tau rd rf 1 k vol F = Fin s /\ spot_delta_gk S tau rd rf (-1) k vol F = Fin (- s).
Proof.
  intros V EV ED Hd. destruct (valid_inv _ _ _ _ _ _ _ _ V EV ED) as (HS & Ht & Hv & _ & HF).
  rewrite (regular_solver rs spot S tau rd rf vols deltas "forward" F i vol d V (or_introl eq_refl) EV ED).
  unfold regular_quote. rewrite (proj2 (is_atm_iff d) Hd). cbn [andb String.eqb]. cbn. pose proof (fwd_pos S tau rd rf F HS HF) as Hf. pose proof (total_pos vol tau Hv Ht) as T.
  eexists. split; [reflexivity | ]. rewrite Rmult_assoc, var_total by auto. set (v := vol * sqrt tau) in *. set (f := forward_of S tau rd rf F) in *.
  assert (Hk : 0 < f * exp (1 / 2 * (v * v))) by (apply Rmult_lt_0_compat; [auto | apply exp_pos]). split; auto.
  rewrite !forward_delta_live, !spot_delta_live by (unfold call_or_put; auto; fold v; lra). fold f v. rewrite bd1_atm by auto.
  rewrite !Rmult_0_r, cdf_0. split; [f_equal; lra | ]. split; [f_equal; lra | ]. eexists. split; [reflexivity | f_equal; ring].
Qed.

(* deltas that no strike attains *)
Lemma regular_undefined (rs : root_finder) (S tau rd rf : R) (vols deltas : list R) (F : option R) (i : nat) (vol d : R) (atm : string) (spot : bool) :
  valid_quotes S tau vols deltas F -> In atm ["forward"; "per_delta_convention"]%string -> nth_error vols i = Some vol -> nth_error deltas i = Some d ->
  d = 0 \/ (1 < Rabs d * (if spot then exp (rf * tau) else 1) /\ (atm = "per_delta_convention"%string \/ Rabs d <> 1 / 2)) ->
  strike_at (solve_strike_from_delta rs S tau rd rf vols deltas (if spot then "regular_spot" else "regular_forward") F atm) i = NaN.
Proof.
  intros V A EV ED C. destruct (valid_inv _ _ _ _ _ _ _ _ V EV ED) as (HS & Ht & Hv & _ & HF). pose proof (fwd_pos S tau rd rf F HS HF) as Hf.
  rewrite (regular_solver rs spot S tau rd rf vols deltas atm F i vol d V A EV ED).
  assert (E : regular_quote spot (String.eqb atm "forward") (forward_of S tau rd rf F) rf tau vol d = regular_strike spot (forward_of S tau rd rf F) rf tau vol d).
  { unfold regular_quote. destruct C as [-> | [_ [-> | C]]]; [ | reflexivity | ].
    - rewrite not_atm by (rewrite Rabs_R0; lra). now rewrite andb_false_r.
    - rewrite not_atm by auto. now rewrite andb_false_r. }
  rewrite E. unfold regular_strike. destruct C as [-> | [L _]].
  - rewrite sgn_0. cbv zeta. replace (if spot then Fin (0 * 0 * exp (rf * tau)) else Fin (0 * 0)) with (Fin 0) by (destruct spot; f_equal; ring).
    unfold nppf. rewrite (proj2 (ppf_none 0)) by lra. destruct (Req_EM_T 0 0); [ | lra]. cbn [mul]. rewrite !Ropp_0, scale_0. reflexivity.
  - assert (Hd : d <> 0). { intros ->. rewrite Rabs_R0, Rmult_0_l in L. lra. }
    rewrite sgn_cp, call_put_abs by auto. cbv zeta.
    replace (if spot then Fin (Rabs d * exp (rf * tau)) else Fin (Rabs d)) with (Fin (Rabs d * (if spot then exp (rf * tau) else 1))) by (destruct spot; f_equal; ring).
    unfold nppf. rewrite (proj2 (ppf_none _)) by lra. destruct (Req_EM_T _ 0); [lra | ]. destruct (Req_EM_T _ 1); [lra | ]. reflexivity.
Qed.

(* ---- premium adjusted ---- *)
Lemma pa_spot_live (S tau rd rf cp K vol : R) (F : option R) : 0 < S -> 0 < tau -> call_or_put cp -> good_forward F -> 0 < K -> 0 < vol ->
  let f := forward_of S tau rd rf F in
  pa_spot_delta S tau rd rf cp K vol F = Fin (exp (- rf * tau) * (cp * (K / f) * cdf (cp * bd2 f K (vol * sqrt tau)))).
Proof.
  intros HS Ht W HF HK Hv. cbv zeta. pose proof (total_pos vol tau Hv Ht) as T. pose proof (fwd_pos S tau rd rf F HS HF) as Hf.
  unfold pa_spot_delta. rewrite spot_delta_live, price_gk_live by (auto; lra). rewrite div_fin by lra. cbn [sub neg add]. f_equal.
  unfold blk, dom_df. field. lra.
Qed.

Lemma pa_forward_live (S tau rd rf cp K vol : R) (F : option R) : 0 < S -> 0 < tau -> call_or_put cp -> good_forward F -> 0 < K -> 0 < vol ->
  let f := forward_of S tau rd rf F in
  pa_forward_delta S tau rd rf cp K vol F = Fin (cp * (K / f) * cdf (cp * bd2 f K (vol * sqrt tau))).
Proof.
  intros. cbv zeta. unfold pa_forward_delta. rewrite pa_spot_live by auto. cbn [mul]. f_equal. cbv zeta.
  assert (E : exp (rf * tau) * exp (- rf * tau) = 1) by (rewrite <- exp_plus; replace (rf * tau + - rf * tau) with 0 by ring; apply exp_0).
  set (x := _ * cdf _). transitivity (exp (rf * tau) * exp (- rf * tau) * x); [ring | rewrite E; ring].
Qed.

Lemma solve_delta_live (spot : bool) (S tau rd rf vol d K : R) (F : option R) : 0 < S -> 0 < tau -> good_forward F -> 0 < K -> 0 < vol -> d <> 0 ->
  exists x, (if spot then pa_spot_delta else pa_forward_delta) S tau rd rf (call_put d) K vol F = Fin x /\
    solve_delta spot (forward_of S tau rd rf F) rf tau vol d K = Fin (x - d).
Proof.
  intros HS Ht HF HK Hv Hd. pose proof (total_pos vol tau Hv Ht) as T. pose proof (fwd_pos S tau rd rf F HS HF) as Hf. set (f := forward_of S tau rd rf F) in *.
  exists ((if spot then exp (- rf * tau) else 1) * (call_put d * (K / f) * cdf (call_put d * bd2 f K (vol * sqrt tau)))). split.
  - destruct spot; [rewrite pa_spot_live by (auto using call_put_cp); reflexivity | rewrite pa_forward_live by (auto using call_put_cp)]. cbv zeta. fold f. f_equal. ring.
  - unfold solve_delta. rewrite sgn_cp by auto. cbv zeta. rewrite !div_fin by lra. rewrite nlog_fin by (apply quot_pos; auto). rewrite nsqrt_fin by lra. cbn [mul sub neg add].
    rewrite div_fin by lra. cbn [ncdf mul sub neg add]. unfold Rminus.
    replace (call_put d * (ln (f / K) + - (1 / 2 * (vol * vol) * tau)) / (vol * sqrt tau)) with (call_put d * bd2 f K (vol * sqrt tau)).
    + f_equal. destruct spot; field; lra.
    + rewrite bd2_alt by auto. rewrite <- var_total by auto. field. split; intros E; rewrite E in T; lra.
Qed.

Definition found (rs : root_finder) (spot : bool) (S0 tau rd rf F vol d k : R) : Prop :=
  let f := solve_delta spot F rf tau vol d in let K_max := regular_quote spot true F rf tau vol d in
  (d < 0 /\ rs f (/ 1000000) K_max = RS k true) \/
  (0 < d /\ exists kmin, rs (solve_k_lower_bound S0 tau rd rf vol) (/ 100000) K_max = RS kmin true /\ rs f kmin K_max = RS k true).

Lemma pa_step_ok (rs : root_finder) (spot : bool) (S0 tau rd rf F : R) (prev : option (R * bool)) (vol d k : R) (s : option (R * bool)) :
  pa_step rs spot S0 tau rd rf F prev vol d = Ok (k, s) -> s = Some (k, true) /\ (d <> 0 -> found rs spot S0 tau rd rf F vol d k) /\ (d = 0 -> prev = Some (k, true)).
Proof.
  unfold pa_step, found. cbv zeta. destruct (Rlt_dec d 0).
  - destruct (rs _ _ _) as [x [ | ] | e]; try discriminate. intros E. injection E as <- <-. split; auto. split; [left; auto | lra].
  - destruct (Rlt_dec 0 d).
    + destruct (rs (solve_k_lower_bound S0 tau rd rf vol) _ _) as [x [ | ] | e] eqn:E1; try discriminate.
      destruct (rs (solve_delta _ _ _ _ _ _) _ _) as [y [ | ] | e] eqn:E2; try discriminate. intros E. injection E as <- <-. split; auto. split; [right; split; auto; exists x; auto | lra].
    + destruct prev as [[x [ | ]] | ]; try discriminate. intros E. injection E as <- <-. split; auto. split; [lra | auto].
Qed.

Lemma pa_loop_ok (rs : root_finder) (spot : bool) (S0 tau rd rf F : R) (quotes : list (R * R)) : forall (prev : option (R * bool)) (ks : list R),
  pa_loop rs spot S0 tau rd rf F prev quotes = Ok ks -> forall i vol d, nth_error quotes i = Some (vol, d) ->
  exists k, nth_error ks i = Some k /\ (d = 1 / 2 -> k = F * exp (- (1 / 2) * (vol * vol) * tau)) /\ (d <> 1 / 2 -> d <> 0 -> found rs spot S0 tau rd rf F vol d k).
Proof.
  induction quotes as [ | [v0 d0] q IH]; intros prev ks E i vol d H; [destruct i; discriminate | ].
  cbn [pa_loop] in E. destruct (Req_EM_T d0 (1 / 2)) as [D | D].
  - destruct (pa_loop rs spot S0 tau rd rf F prev q) as [t | ] eqn:L; [ | discriminate]. injection E as <-. destruct i as [ | i]; cbn [nth_error] in *.
    + injection H as <- <-. eexists. split; [reflexivity | ]. split; auto. contradiction.
    + eapply IH; eauto.
  - destruct (pa_step _ _ _ _ _ _ _ _ _ _) as [[k s] | ] eqn:P; [ | discriminate]. cbn [bind fst snd] in E.
    destruct (pa_loop rs spot S0 tau rd rf F s q) as [t | ] eqn:L; [ | discriminate]. injection E as <-. destruct i as [ | i]; cbn [nth_error] in *.
    + injection H as <- <-. exists k. split; [reflexivity | ]. apply pa_step_ok in P as (_ & P & _). split; [contradiction | auto].
    + eapply IH; eauto.
Qed.

(* a zero delta repeats the strike of the quote before it *)
Lemma pa_loop_stale (rs : root_finder) (spot : bool) (S0 tau rd rf F : R) (quotes : list (R * R)) : forall (prev : option (R * bool)) (ks : list R),
  pa_loop rs spot S0 tau rd rf F prev quotes = Ok ks -> forall i vol d vol', nth_error quotes i = Some (vol, d) -> d <> 1 / 2 -> nth_error quotes (S i) = Some (vol', 0) ->
  nth_error ks (S i) = nth_error ks i.
Proof.
  induction quotes as [ | [v0 d0] q IH]; intros prev ks E i vol d vol' H N H'; [destruct i; discriminate | ].
  cbn [pa_loop] in E. destruct (Req_EM_T d0 (1 / 2)) as [D | D].
  - destruct (pa_loop rs spot S0 tau rd rf F prev q) as [t | ] eqn:L; [ | discriminate]. injection E as <-. destruct i as [ | i]; cbn [nth_error] in *.
    + injection H as <- <-. contradiction.
    + eapply IH; eauto.
  - destruct (pa_step _ _ _ _ _ _ _ _ _ _) as [[k s] | ] eqn:P; [ | discriminate]. cbn [bind fst snd] in E. apply pa_step_ok in P as (-> & _ & _).
    destruct (pa_loop rs spot S0 tau rd rf F _ q) as [t | ] eqn:L; [ | discriminate]. injection E as <-. destruct i as [ | i]; cbn [nth_error] in *.
    + destruct q as [ | [v1 d1] q]; [discriminate | ]. injection H' as -> ->. cbn [pa_loop] in L. destruct (Req_EM_T 0 (1 / 2)); [lra | ].
      destruct (pa_step _ _ _ _ _ _ _ _ _ _) as [[k' s'] | ] eqn:P; [ | discriminate]. cbn [bind fst snd] in L. apply pa_step_ok in P as (_ & _ & P). specialize (P eq_refl).
      injection P as <-. destruct (pa_loop _ _ _ _ _ _ _ _ q); [ | discriminate]. injection L as <-. reflexivity.
    + eapply IH; eauto.
Qed.

Lemma found_ok (rs : root_finder) (eps : R) (spot : bool) (S tau rd rf vol d k : R) (F : option R) : accurate eps rs -> 0 < S -> 0 < tau -> 0 < vol -> good_forward F ->
  found rs spot S tau rd rf (forward_of S tau rd rf F) vol d k ->
  0 < k /\ within eps d ((if spot then pa_spot_delta else pa_forward_delta) S tau rd rf (call_put d) k vol F).
Proof.
  intros A HS Ht Hv HF Fd. unfold found in Fd. cbv zeta in Fd.
  assert (X : 0 < k /\ d <> 0 /\ exists y, solve_delta spot (forward_of S tau rd rf F) rf tau vol d k = Fin y /\ Rabs y <= eps).
  { destruct Fd as [(L & E) | (L & m & E1 & E2)].
    - apply A in E as (B & E). repeat split; auto; lra.
    - apply A in E1 as (B1 & _). apply A in E2 as (B2 & E). repeat split; auto; lra. }
  destruct X as (Hk & Hd & y & E & B). split; auto. destruct (solve_delta_live spot S tau rd rf vol d k F HS Ht HF Hk Hv Hd) as (x & P & Q).
  rewrite P. exists x. split; auto. rewrite Q in E. injection E as <-. exact B.
Qed.

Lemma pa_run (rs : root_finder) (spot : bool) (S tau rd rf : R) (vols deltas : list R) (atm : string) (F : option R) :
  valid_quotes S tau vols deltas F -> In atm ["forward"; "per_delta_convention"]%string ->
  solve_strike_from_delta rs S tau rd rf vols deltas (pa_name spot) F atm = premium_adjusted rs spot S tau rd rf (forward_of S tau rd rf F) (combine vols deltas).
Proof.
  intros V A. rewrite solver_run; auto.
  - destruct spot; reflexivity.
  - split; auto. destruct spot; cbn; auto.
Qed.

(* whether the quotes go through the root finder at all *)
Lemma not_all_atm (vols deltas : list R) (i : nat) (vol d : R) : nth_error vols i = Some vol -> nth_error deltas i = Some d -> Rabs d <> 1 / 2 ->
  existsb (fun q : R * R => negb (is_atm (snd q))) (combine vols deltas) = true.
Proof.
  intros EV ED Hd. apply existsb_exists. exists (vol, d). split; [eapply nth_error_In, nth_quote; eauto | ]. cbn [snd]. now rewrite not_atm.
Qed.

Lemma pa_ok (rs : root_finder) (eps : R) (spot : bool) (S tau rd rf : R) (vols deltas : list R) (atm : string) (F : option R) (ks : list num) (i : nat) (vol d : R) :
  valid_quotes S tau vols deltas F -> In atm ["forward"; "per_delta_convention"]%string -> accurate eps rs ->
  solve_strike_from_delta rs S tau rd rf vols deltas (pa_name spot) F atm = Ok ks ->
  nth_error vols i = Some vol -> nth_error deltas i = Some d -> d <> 0 -> d <> 1 / 2 -> d <> - (1 / 2) \/ (exists d', In d' deltas /\ Rabs d' <> 1 / 2) ->
  exists k, nth_error ks i = Some (Fin k) /\ 0 < k /\ within eps d ((if spot then pa_spot_delta else pa_forward_delta) S tau rd rf (call_put d) k vol F).
Proof.
  intros V A Acc E EV ED H0 H1 H2. rewrite pa_run in E by auto. destruct (valid_inv _ _ _ _ _ _ _ _ V EV ED) as (HS & Ht & Hv & HB & HF).
  assert (M : existsb (fun q : R * R => negb (is_atm (snd q))) (combine vols deltas) = true).
  { destruct H2 as [H2 | (d' & I & H2)].
    - apply (not_all_atm _ _ i vol d); auto. intros E1. unfold Rabs in E1. destruct (Rcase_abs d); lra.
    - apply In_nth_error in I as (j & J). destruct V as (_ & _ & _ & _ & L & _).
      assert (j < length vols)%nat by (rewrite <- L; apply nth_error_Some; congruence). destruct (nth_error vols j) as [v' | ] eqn:EV'; [ | apply nth_error_None in EV'; lia].
      apply (not_all_atm _ _ j v' d'); auto. }
  unfold premium_adjusted in E. rewrite M in E. destruct (pa_loop _ _ _ _ _ _ _ _ _) as [k | ] eqn:L; [ | discriminate]. injection E as <-.
  destruct (pa_loop_ok _ _ _ _ _ _ _ _ _ _ L i vol d (nth_quote _ _ _ _ _ EV ED)) as (x & N & _ & Fd). specialize (Fd H1 H0).
  exists x. split; [now apply map_nth_error | ]. eapply found_ok; eauto.
Qed.

(* the strike at which the premium adjusted call and put deltas cancel *)
Lemma pa_atm_strike (S tau rd rf vol : R) (F : option R) : 0 < S -> 0 < tau -> 0 < vol -> good_forward F ->
  let k := forward_of S tau rd rf F * exp (- (1 / 2) * (vol * vol) * tau) in
  0 < k /\ exists x, pa_forward_delta S tau rd rf 1 k vol F = Fin x /\ pa_forward_delta S tau rd rf (-1) k vol F = Fin (- x) /\
    exists y, pa_spot_delta S tau rd rf 1 k vol F = Fin y /\ pa_spot_delta S tau rd rf (-1) k vol F = Fin (- y).
Proof.
  intros HS Ht Hv HF. cbv zeta. pose proof (fwd_pos S tau rd rf F HS HF) as Hf. pose proof (total_pos vol tau Hv Ht) as T.
  rewrite Rmult_assoc, var_total by auto. set (v := vol * sqrt tau) in *. set (f := forward_of S tau rd rf F) in *.
  assert (Hk : 0 < f * exp (- (1 / 2) * (v * v))) by (apply Rmult_lt_0_compat; [auto | apply exp_pos]). split; auto.
  rewrite !pa_forward_live, !pa_spot_live by (unfold call_or_put; auto). cbv zeta. fold f v. rewrite bd2_atm by auto. rewrite !Rmult_0_r, cdf_0.
  eexists. split; [reflexivity | ]. split; [f_equal; ring | ]. eexists. split; [reflexivity | f_equal; ring].
Qed.

Lemma pa_atm_ok (rs : root_finder) (spot : bool) (S tau rd rf : R) (vols deltas : list R) (atm : string) (F : option R) (ks : list num) (i : nat) (vol d : R) :
  valid_quotes S tau vols deltas F -> In atm ["forward"; "per_delta_convention"]%string ->
  solve_strike_from_delta rs S tau rd rf vols deltas (pa_name spot) F atm = Ok ks ->
  nth_error vols i = Some vol -> nth_error deltas i = Some d -> d = 1 / 2 \/ Forall (fun d' => Rabs d' = 1 / 2) deltas ->
  exists k, nth_error ks i = Some (Fin k) /\ 0 < k /\
    exists x, pa_forward_delta S tau rd rf 1 k vol F = Fin x /\ pa_forward_delta S tau rd rf (-1) k vol F = Fin (- x) /\
    exists y, pa_spot_delta S tau rd rf 1 k vol F = Fin y /\ pa_spot_delta S tau rd rf (-1) k vol F = Fin (- y).
Proof.
  intros V A E EV ED H. rewrite pa_run in E by auto. destruct (valid_inv _ _ _ _ _ _ _ _ V EV ED) as (HS & Ht & Hv & _ & HF).
  exists (forward_of S tau rd rf F * exp (- (1 / 2) * (vol * vol) * tau)). split; [ | apply pa_atm_strike; auto].
  unfold premium_adjusted in E. destruct (existsb _ _) eqn:M.
  - destruct (pa_loop _ _ _ _ _ _ _ _ _) as [k | ] eqn:L; [ | discriminate]. injection E as <-.
    destruct (pa_loop_ok _ _ _ _ _ _ _ _ _ _ L i vol d (nth_quote _ _ _ _ _ EV ED)) as (x & N & P & _).
    destruct H as [-> | H]; [rewrite P in N by auto; now apply (map_nth_error Fin) in N | ].
    exfalso. apply existsb_exists in M as ([v' d'] & I & M). apply in_combine_r in I. rewrite Forall_forall in H. specialize (H d' I). cbn [snd] in M. rewrite (proj2 (is_atm_iff d') H) in M. discriminate.
  - injection E as <-. rewrite (map_nth_error _ _ _ (nth_quote _ _ _ _ _ EV ED)). reflexivity.
Qed.

(* an all-at-the-money list never meets the root finder; otherwise the strikes are exactly one per quote *)
Lemma pa_loop_length (rs : root_finder) (spot : bool) (S0 tau rd rf F : R) (quotes : list (R * R)) : forall (prev : option (R * bool)) (ks : list R),
  pa_loop rs spot S0 tau rd rf F prev quotes = Ok ks -> length ks = length quotes.
Proof.
  induction quotes as [ | [v0 d0] q IH]; intros prev ks E; cbn [pa_loop] in E; [now injection E as <- | ]. destruct (Req_EM_T d0 (1 / 2)).
  - destruct (pa_loop _ _ _ _ _ _ _ _ q) eqn:L; [ | discriminate]. injection E as <-. cbn. f_equal. eauto.
  - destruct (pa_step _ _ _ _ _ _ _ _ _ _) as [[k s] | ]; [ | discriminate]. cbn [bind fst snd] in E. destruct (pa_loop _ _ _ _ _ _ _ _ q) eqn:L; [ | discriminate]. injection E as <-. cbn. f_equal. eauto.
Qed.

Lemma solver_length (rs : root_finder) (S tau rd rf : R) (vols deltas : list R) (conv atm : string) (F : option R) (ks : list num) :
  solve_strike_from_delta rs S tau rd rf vols deltas conv F atm = Ok ks -> valid_quotes S tau vols deltas F /\ known conv atm /\ length ks = length deltas.
Proof.
  intros E. assert (V : valid_quotes S tau vols deltas F /\ known conv atm).
  { destruct (classic (valid_quotes S tau vols deltas F /\ known conv atm)) as [ | N]; auto. rewrite solver_rejects in E by auto. discriminate. }
  destruct V as [V K]. split; auto. split; auto. rewrite solver_run in E by auto. cbv zeta in E. destruct V as (_ & _ & _ & _ & L & _).
  assert (Q : length (combine vols deltas) = length deltas) by (rewrite combine_length; lia). rewrite <- Q. destruct (_ || _).
  - injection E as <-. apply map_length.
  - unfold premium_adjusted in E. destruct (existsb _ _).
    + destruct (pa_loop _ _ _ _ _ _ _ _ _) eqn:P; [ | discriminate]. injection E as <-. rewrite map_length. eapply pa_loop_length; eauto.
    + injection E as <-. apply map_length.
Qed.

(* a zero delta *)
Lemma pa_zero_first (rs : root_finder) (spot : bool) (S tau rd rf vol : R) (vols deltas : list R) (atm : string) (F : option R) :
  valid_quotes S tau (vol :: vols) (0 :: deltas) F -> In atm ["forward"; "per_delta_convention"]%string ->
  solve_strike_from_delta rs S tau rd rf (vol :: vols) (0 :: deltas) (pa_name spot) F atm = Err NameError.
Proof.
  intros V A. rewrite pa_run by auto. unfold premium_adjusted. rewrite (not_all_atm _ _ 0 vol 0) by (auto; rewrite Rabs_R0; lra). cbn [combine pa_loop].
  destruct (Req_EM_T 0 (1 / 2)); [lra | ]. unfold pa_step. destruct (Rlt_dec 0 0); [lra | ]. reflexivity.
Qed.
Lemma pa_zero_later (rs : root_finder) (spot : bool) (S tau rd rf : R) (vols deltas : list R) (atm : string) (F : option R) (ks : list num) (i : nat) (d : R) :
  solve_strike_from_delta rs S tau rd rf vols deltas (pa_name spot) F atm = Ok ks -> nth_error deltas i = Some d -> d <> 1 / 2 -> nth_error deltas (Datatypes.S i) = Some 0 ->
  exists k, nth_error ks i = Some (Fin k) /\ nth_error ks (Datatypes.S i) = Some (Fin k).
Proof.
  intros E ED Hd EZ. destruct (solver_length _ _ _ _ _ _ _ _ _ _ _ E) as (V & [_ A] & _). rewrite pa_run in E by auto.
  destruct V as (_ & _ & _ & _ & L & _).
  assert (I1 : exists v, nth_error vols i = Some v).
  { assert (i < length vols)%nat by (rewrite <- L; apply nth_error_Some; congruence). destruct (nth_error vols i) eqn:Q; eauto. apply nth_error_None in Q. lia. }
  assert (I2 : exists v, nth_error vols (Datatypes.S i) = Some v).
  { assert (Datatypes.S i < length vols)%nat by (rewrite <- L; apply nth_error_Some; congruence). destruct (nth_error vols (Datatypes.S i)) eqn:Q; eauto. apply nth_error_None in Q. lia. }
  destruct I1 as (v1 & E1), I2 as (v2 & E2). unfold premium_adjusted in E. rewrite (not_all_atm _ _ _ _ _ E2 EZ) in E by (rewrite Rabs_R0; lra).
  destruct (pa_loop _ _ _ _ _ _ _ _ _) as [k | ] eqn:P; [ | discriminate]. injection E as <-.
  pose proof (pa_loop_stale _ _ _ _ _ _ _ _ _ _ P i v1 d v2 (nth_quote _ _ _ _ _ E1 ED) Hd (nth_quote _ _ _ _ _ E2 EZ)) as X.
  destruct (pa_loop_ok _ _ _ _ _ _ _ _ _ _ P i v1 d (nth_quote _ _ _ _ _ E1 ED)) as (x & N & _). exists x. rewrite N in X. split; now apply map_nth_error.
Qed.

(* what happens when the root finder gives up on a single quote *)
Lemma pa_put_fails (rs : root_finder) (spot : bool) (S tau rd rf vol d : R) (atm : string) (F : option R) : valid_quotes S tau [vol] [d] F -> In atm ["forward"; "per_delta_convention"]%string ->
  d < 0 -> d <> - (1 / 2) ->
  let bound := regular_quote spot true (forward_of S tau rd rf F) rf tau vol d in
  solve_strike_from_delta rs S tau rd rf [vol] [d] (pa_name spot) F atm =
    match rs (solve_delta spot (forward_of S tau rd rf F) rf tau vol d) (/ 1000000) bound with
    | RS k true => Ok [Fin k] | RS _ false => Err ValueError | RSRaises e => Err e end.
Proof.
  intros V A Hd Hh. cbv zeta. rewrite pa_run by auto. unfold premium_adjusted.
  assert (H : Rabs d <> 1 / 2) by (rewrite Rabs_left by auto; lra). rewrite (not_all_atm _ _ 0 vol d) by auto. cbn [combine pa_loop].
  destruct (Req_EM_T d (1 / 2)); [lra | ]. unfold pa_step. destruct (Rlt_dec d 0); [ | lra]. destruct (rs _ _ _) as [k [ | ] | e]; reflexivity.
Qed.

Lemma pa_call_fails (rs : root_finder) (spot : bool) (S tau rd rf vol d : R) (atm : string) (F : option R) : valid_quotes S tau [vol] [d] F -> In atm ["forward"; "per_delta_convention"]%string ->
  0 < d -> d <> 1 / 2 ->
  let bound := regular_quote spot true (forward_of S tau rd rf F) rf tau vol d in
  solve_strike_from_delta rs S tau rd rf [vol] [d] (pa_name spot) F atm =
    match rs (solve_k_lower_bound S tau rd rf vol) (/ 100000) bound with
    | RS m true => match rs (solve_delta spot (forward_of S tau rd rf F) rf tau vol d) m bound with
                   | RS k true => Ok [Fin k] | RS _ false => Err ValueError | RSRaises _ => Err TypeError end
    | RS _ false => Err ValueError | RSRaises _ => Err TypeError end.
Proof.
  intros V A Hd Hh. cbv zeta. rewrite pa_run by auto. unfold premium_adjusted.
  assert (H : Rabs d <> 1 / 2) by (rewrite Rabs_right by lra; lra). rewrite (not_all_atm _ _ 0 vol d) by auto. cbn [combine pa_loop].
  destruct (Req_EM_T d (1 / 2)); [lra | ]. unfold pa_step. destruct (Rlt_dec d 0); [lra | ]. destruct (Rlt_dec 0 d); [ | lra].
  destruct (rs _ _ _) as [m [ | ] | e]; try reflexivity. destruct (rs _ _ _) as [k [ | ] | e]; reflexivity.
Qed.

(* ---- shape of the premium adjusted delta in the strike ---- *)
Definition pa_mult (spot : bool) (rf tau : R) : R := if spot then exp (- rf * tau) else 1.
Lemma pa_mult_pos (spot : bool) (rf tau : R) : 0 < pa_mult spot rf tau.
Proof. destruct spot; [apply exp_pos | cbn; lra]. Qed.
Lemma pa_live (spot : bool) (S tau rd rf cp K vol : R) (F : option R) : 0 < S -> 0 < tau -> call_or_put cp -> good_forward F -> 0 < K -> 0 < vol ->
  let f := forward_of S tau rd rf F in
  pa_delta spot S tau rd rf cp K vol F = Fin (pa_mult spot rf tau * (cp * (K / f) * cdf (cp * bd2 f K (vol * sqrt tau)))).
Proof.
  intros. destruct spot; cbn [pa_delta pa_mult]; [now rewrite pa_spot_live by auto | rewrite pa_forward_live by auto]. f_equal. cbv zeta. fold f. ring.
Qed.

Lemma bd2_strike (f K1 K2 v : R) : 0 < f -> 0 < v -> 0 < K1 -> K1 < K2 -> bd2 f K2 v < bd2 f K1 v.
Proof.
  intros Hf Hv H1 H2. rewrite !bd2_alt by auto. rewrite !ln_quot by lra. pose proof (ln_increasing K1 K2 H1 H2).
  apply Rmult_lt_compat_r; [apply Rinv_0_lt_compat; auto | lra].
Qed.

Lemma put_mono (f K1 K2 v : R) : 0 < f -> 0 < v -> 0 < K1 -> K1 < K2 -> K1 / f * cdf (-1 * bd2 f K1 v) < K2 / f * cdf (-1 * bd2 f K2 v).
Proof.
  intros Hf Hv H1 H2. pose proof (bd2_strike f K1 K2 v Hf Hv H1 H2). pose proof (cdf_incr (-1 * bd2 f K1 v) (-1 * bd2 f K2 v) ltac:(lra)) as C. pose proof (cdf_gt_0 (-1 * bd2 f K1 v)).
  assert (K1 / f < K2 / f) by (apply Rmult_lt_compat_r; [apply Rinv_0_lt_compat; auto | lra]). pose proof (quot_pos K1 f H1 Hf). nra.
Qed.

Lemma pa_put_mono (spot : bool) (S tau rd rf vol K1 K2 : R) (F : option R) : 0 < S -> 0 < tau -> 0 < vol -> good_forward F -> 0 < K1 -> K1 < K2 ->
  below (pa_delta spot S tau rd rf (-1) K2 vol F) (pa_delta spot S tau rd rf (-1) K1 vol F).
Proof.
  intros HS Ht Hv HF H1 H2. rewrite !pa_live by (unfold call_or_put; auto; lra). cbv zeta. eexists _, _. split; [reflexivity | ]. split; [reflexivity | ].
  apply Rmult_lt_compat_l; [apply pa_mult_pos | ]. pose proof (put_mono _ _ _ _ (fwd_pos S tau rd rf F HS HF) (total_pos vol tau Hv Ht) H1 H2) as P. lra.
Qed.

Lemma bd2_cont (f v K : R) : 0 < f -> 0 < v -> 0 < K -> derivable_pt_lim (fun k => bd2 f k v) K (- / (K * v)).
Proof.
  intros Hf Hv HK. unfold bd2, bd1.
  assert (D : derivable_pt_lim (fun k => ln (f / k)) K (- / K)).
  { refine (dlim_val _ K _ _ _ (derivable_pt_lim_comp (fun k => f / k) ln K _ _ (derivable_pt_lim_div (fct_cte f) id K _ _ (derivable_pt_lim_const f K) (derivable_pt_lim_id K) _) (derivable_pt_lim_ln _ _))).
    - unfold fct_cte, id, Rsqr. field. lra.
    - unfold id. lra.
    - unfold fct_cte, id. apply quot_pos; auto. }
  refine (dlim_val _ K _ _ _ (derivable_pt_lim_minus (fun k => ((ln (f / k) + v * v / 2) / v)) (fct_cte v) K _ _ (derivable_pt_lim_mult (fun k => ln (f / k) + v * v / 2) (fct_cte (/ v)) K _ _
    (derivable_pt_lim_plus (fun k => ln (f / k)) (fct_cte (v * v / 2)) K _ _ D (derivable_pt_lim_const _ K)) (derivable_pt_lim_const _ K)) (derivable_pt_lim_const v K))).
  unfold fct_cte. field. lra.
Qed.

(* every negative delta is attained by exactly one strike *)
Lemma pa_put_onto (spot : bool) (S tau rd rf vol d : R) (F : option R) : 0 < S -> 0 < tau -> 0 < vol -> good_forward F -> d < 0 ->
  exists K, 0 < K /\ pa_delta spot S tau rd rf (-1) K vol F = Fin d /\ forall K', 0 < K' -> pa_delta spot S tau rd rf (-1) K' vol F = Fin d -> K' = K.
Proof.
  intros HS Ht Hv HF Hd. pose proof (fwd_pos S tau rd rf F HS HF) as Hf. pose proof (total_pos vol tau Hv Ht) as T. pose proof (pa_mult_pos spot rf tau) as Hm.
  set (f := forward_of S tau rd rf F) in *. set (v := vol * sqrt tau) in *. set (m := pa_mult spot rf tau) in *.
  set (g := fun K => K / f * cdf (-1 * bd2 f K v)). set (y := - d / m). assert (Hy : 0 < y) by (apply quot_pos; lra).
  assert (C : forall x, 0 < x -> continuity_pt g x).
  { intros x Hx. apply derivable_continuous_pt. eexists. unfold g.
    refine (derivable_pt_lim_mult (fun K => K / f) (fun K => cdf (-1 * bd2 f K v)) x _ _ _ (cdf_comp (fun K => -1 * bd2 f K v) x _ (derivable_pt_lim_scal _ (-1) x _ (bd2_cont f v x Hf T Hx)))).
    exact (scale_dlim (/ f) x). }
  set (a := Rmin (f * y) (f / 2)). set (b := f * (1 + 2 * y)).
  assert (Ha : 0 < a) by (apply Rmin_glb_lt; [apply Rmult_lt_0_compat; auto | lra]).
  assert (fy : 0 < f * y) by (apply Rmult_lt_0_compat; auto).
  assert (Hab : a < b) by (pose proof (Rmin_r (f * y) (f / 2)); unfold b; fold a in H; lra).
  assert (L : g a < y).
  { unfold g. pose proof (cdf_lt_1 (-1 * bd2 f a v)) as C1. pose proof (cdf_gt_0 (-1 * bd2 f a v)). pose proof (quot_pos a f Ha Hf).
    assert (a / f <= y). { apply (Rmult_le_reg_r f); auto. unfold Rdiv. rewrite Rmult_assoc, Rinv_l by lra. pose proof (Rmin_l (f * y) (f / 2)) as A. fold a in A. lra. }
    nra. }
  assert (U : y < g b).
  { unfold g. assert (Eb : b / f = 1 + 2 * y) by (unfold b; field; lra). rewrite Eb. assert (B : bd2 f b v < 0).
    { rewrite bd2_alt by auto. rewrite ln_quot by lra. pose proof (ln_increasing f b Hf ltac:(unfold b; lra)). pose proof (Rmult_lt_0_compat v v T T).
      apply (Rmult_lt_reg_r v); auto. unfold Rdiv at 1. rewrite Rmult_assoc, Rinv_l by lra. lra. }
    pose proof (cdf_incr 0 (-1 * bd2 f b v) ltac:(lra)) as B1. rewrite cdf_0 in B1. nra. }
  destruct (ivt_pos g a b y Ha Hab C L U) as (K & [K1 K2] & E). exists K. assert (HK : 0 < K) by lra. split; auto.
  assert (P : pa_delta spot S tau rd rf (-1) K vol F = Fin d).
  { rewrite pa_live by (unfold call_or_put; auto). cbv zeta. fold f v m. f_equal. replace (-1 * (K / f) * cdf (-1 * bd2 f K v)) with (- g K) by (unfold g; ring). rewrite E. unfold y. field. lra. }
  split; auto. intros K' HK' P'. destruct (Rtotal_order K' K) as [X | [X | X]]; auto; exfalso.
  - destruct (pa_put_mono spot S tau rd rf vol K' K F HS Ht Hv HF HK' X) as (u & w & U1 & U2 & U3). rewrite P in U1. rewrite P' in U2. injection U1 as <-. injection U2 as <-. lra.
  - destruct (pa_put_mono spot S tau rd rf vol K K' F HS Ht Hv HF HK X) as (u & w & U1 & U2 & U3). rewrite P' in U1. rewrite P in U2. injection U1 as <-. injection U2 as <-. lra.
Qed.

(* deducting the premium lowers the delta *)
Lemma pa_below_regular (spot : bool) (S tau rd rf cp K vol : R) (F : option R) : 0 < S -> 0 < tau -> call_or_put cp -> good_forward F -> 0 < K -> 0 < vol ->
  below (pa_delta spot S tau rd rf cp K vol F) (regular_delta spot S tau rd rf cp K vol F).
Proof.
  intros HS Ht W HF HK Hv. rewrite pa_live by auto. cbv zeta. pose proof (fwd_pos S tau rd rf F HS HF) as Hf. pose proof (total_pos vol tau Hv Ht) as T.
  assert (R : regular_delta spot S tau rd rf cp K vol F = Fin (pa_mult spot rf tau * (cp * cdf (cp * bd1 (forward_of S tau rd rf F) K (vol * sqrt tau))))).
  { destruct spot; cbn [regular_delta pa_mult]; [rewrite spot_delta_live by (auto; lra) | rewrite forward_delta_live by (auto; lra)]; f_equal; ring. }
  rewrite R. set (f := forward_of S tau rd rf F) in *. set (v := vol * sqrt tau) in *. eexists _, _. split; [reflexivity | ]. split; [reflexivity | ].
  apply Rmult_lt_compat_l; [apply pa_mult_pos | ]. pose proof (blk_pos cp f K v W Hf HK T) as P. unfold blk in P.
  apply (Rmult_lt_reg_l f); auto. replace (f * (cp * (K / f) * cdf (cp * bd2 f K v))) with (cp * (K * cdf (cp * bd2 f K v))) by (field; lra). lra.
Qed.

(* the upper end of the bracket: the regular strike lies above every premium adjusted put strike *)
Lemma pa_put_bracket (rs : root_finder) (spot : bool) (S tau rd rf vol d K : R) (F : option R) : 0 < S -> 0 < tau -> 0 < vol -> good_forward F -> d < 0 ->
  Rabs d * (if spot then exp (rf * tau) else 1) < 1 -> 0 < K -> pa_delta spot S tau rd rf (-1) K vol F = Fin d ->
  exists M, regular_strike spot (forward_of S tau rd rf F) rf tau vol d = Fin M /\ K < M.
Proof.
  intros HS Ht Hv HF Hd L HK P. destruct (regular_inverts spot S tau rd rf vol d F HS Ht Hv HF ltac:(lra) L) as (M & E & HM & D). exists M. split; auto.
  assert (CP : call_put d = -1) by (unfold call_put; destruct (Rlt_dec 0 d); lra). rewrite CP in D.
  destruct (pa_below_regular spot S tau rd rf (-1) M vol F HS Ht (or_intror eq_refl) HF HM Hv) as (x & y & X & Y & XY). unfold regular_delta in Y. rewrite D in Y. injection Y as <-.
  destruct (Rlt_or_le K M) as [ | [G | <-]]; auto; exfalso.
  - destruct (pa_put_mono spot S tau rd rf vol M K F HS Ht Hv HF HM G) as (u & w & U1 & U2 & U3). rewrite P in U1. rewrite X in U2. injection U1 as <-. injection U2 as <-. lra.
  - rewrite X in P. injection P as <-. lra.
Qed.

(* the premium adjusted call delta rises to a single peak and falls after it *)
Definition peak_fun (v x : R) : R := v * cdf x - pdf x.
Lemma peak_derive (v x : R) : derivable_pt_lim (peak_fun v) x ((v + x) * pdf x).
Proof.
  refine (dlim_val _ x _ _ _ (derivable_pt_lim_minus (fun y => v * cdf y) pdf x _ _ (derivable_pt_lim_scal cdf v x _ (cdf_dlim x)) (pdf_derive x))). ring.
Qed.
Lemma peak_low (v x : R) : x <= - v -> peak_fun v x < 0.
Proof. intros H. unfold peak_fun. pose proof (hfun_pos x) as P. unfold hfun in P. pose proof (cdf_gt_0 x). nra. Qed.
Lemma peak_rise (v x y : R) : - v <= x -> x < y -> peak_fun v x < peak_fun v y.
Proof.
  intros H L. destruct (MVT_cor2 (peak_fun v) (fun x => (v + x) * pdf x) x y L) as (c & E & C); [intros; apply peak_derive | ].
  assert (0 < (v + c) * pdf c * (y - x)) by (apply Rmult_lt_0_compat; [apply Rmult_lt_0_compat; [lra | apply pdf_pos] | lra]). lra.
Qed.
Lemma peak_sign (v x0 x : R) : peak_fun v x0 = 0 -> (x < x0 -> peak_fun v x < 0) /\ (x0 < x -> 0 < peak_fun v x).
Proof.
  intros Z. assert (N : - v < x0) by (destruct (Rlt_or_le (- v) x0); auto; pose proof (peak_low v x0 ltac:(lra)); lra). split; intros L.
  - destruct (Rle_or_lt x (- v)); [now apply peak_low | rewrite <- Z; apply peak_rise; lra].
  - rewrite <- Z. apply peak_rise; lra.
Qed.

Lemma call_derive (f v K : R) : 0 < f -> 0 < v -> 0 < K -> derivable_pt_lim (fun k => k / f * cdf (1 * bd2 f k v)) K (peak_fun v (bd2 f K v) / (f * v)).
Proof.
  intros Hf Hv HK.
  refine (dlim_val _ K _ _ _ (derivable_pt_lim_mult (fun k => k / f) (fun k => cdf (1 * bd2 f k v)) K _ _ (scale_dlim (/ f) K) (cdf_comp (fun k => 1 * bd2 f k v) K _ (derivable_pt_lim_scal _ 1 K _ (bd2_cont f v K Hf Hv HK))))).
  rewrite Rmult_1_l. unfold peak_fun. field. lra.
Qed.

Lemma call_shape (f v m K1 K2 : R) : 0 < f -> 0 < v -> 0 < m -> peak_fun v (bd2 f m v) = 0 -> 0 < K1 -> K1 < K2 ->
  (K2 <= m -> K1 / f * cdf (1 * bd2 f K1 v) < K2 / f * cdf (1 * bd2 f K2 v)) /\ (m <= K1 -> K2 / f * cdf (1 * bd2 f K2 v) < K1 / f * cdf (1 * bd2 f K1 v)).
Proof.
  intros Hf Hv Hm Z H1 H2. destruct (MVT_cor2 (fun k => k / f * cdf (1 * bd2 f k v)) (fun k => peak_fun v (bd2 f k v) / (f * v)) K1 K2 H2) as (c & E & C); [intros; apply call_derive; auto; lra | ].
  cbv beta in E. assert (I : 0 < / (f * v)) by (apply Rinv_0_lt_compat, Rmult_lt_0_compat; auto). change (peak_fun v (bd2 f c v) / (f * v)) with (peak_fun v (bd2 f c v) * / (f * v)) in E. split; intros B.
  - assert (P : 0 < peak_fun v (bd2 f c v)) by (apply (peak_sign v (bd2 f m v)); auto; apply bd2_strike; auto; lra).
    assert (0 < peak_fun v (bd2 f c v) * / (f * v) * (K2 - K1)) by (apply Rmult_lt_0_compat; [apply Rmult_lt_0_compat; auto | lra]). lra.
  - assert (P : peak_fun v (bd2 f c v) < 0) by (apply (peak_sign v (bd2 f m v)); auto; apply bd2_strike; auto; lra).
    assert (0 < - peak_fun v (bd2 f c v) * / (f * v) * (K2 - K1)) by (apply Rmult_lt_0_compat; [apply Rmult_lt_0_compat; lra | lra]). lra.
Qed.

Lemma bd2_scale (k f K v : R) : 0 < k -> 0 < f -> 0 < K -> bd2 (k * f) (k * K) v = bd2 f K v.
Proof. intros. unfold bd2, bd1. replace (k * f / (k * K)) with (f / K) by (field; lra). reflexivity. Qed.

Lemma lower_bound_live (S tau rd rf vol m : R) : 0 < S -> 0 < tau -> 0 < vol -> 0 < m ->
  solve_k_lower_bound S tau rd rf vol m = Fin (peak_fun (vol * sqrt tau) (bd2 (S * exp ((rd - rf) * tau)) m (vol * sqrt tau))).
Proof.
  intros HS Ht Hv Hm. pose proof (total_pos vol tau Hv Ht) as T. unfold solve_k_lower_bound. rewrite gk_d2_fin by (auto; lra). rewrite nsqrt_fin by lra. cbn [mul ncdf npdf sub neg add]. reflexivity.
Qed.

Lemma pa_call_shape (spot : bool) (S tau rd rf vol m K1 K2 : R) (F : option R) : 0 < S -> 0 < tau -> 0 < vol -> good_forward F -> 0 < m ->
  solve_k_lower_bound S tau rd rf vol m = Fin 0 -> 0 < K1 -> K1 < K2 ->
  let peak := m * forward_of S tau rd rf F / forward_of S tau rd rf None in
  (K2 <= peak -> below (pa_delta spot S tau rd rf 1 K1 vol F) (pa_delta spot S tau rd rf 1 K2 vol F)) /\
  (peak <= K1 -> below (pa_delta spot S tau rd rf 1 K2 vol F) (pa_delta spot S tau rd rf 1 K1 vol F)).
Proof.
  intros HS Ht Hv HF Hm Z H1 H2. cbv zeta. rewrite lower_bound_live in Z by auto. injection Z as Z. pose proof (total_pos vol tau Hv Ht) as T.
  pose proof (fwd_pos S tau rd rf F HS HF) as Hf. pose proof (fwd_pos S tau rd rf None HS I) as Hf0. change (S * exp ((rd - rf) * tau)) with (forward_of S tau rd rf None) in Z.
  rewrite !pa_live by (unfold call_or_put; auto; lra). cbv zeta. set (f := forward_of S tau rd rf F) in *. set (f0 := forward_of S tau rd rf None) in *. set (v := vol * sqrt tau) in *.
  set (p := m * f / f0). assert (Hp : 0 < p) by (apply quot_pos; auto; apply Rmult_lt_0_compat; auto).
  assert (Zp : peak_fun v (bd2 f p v) = 0).
  { rewrite <- Z. f_equal. rewrite <- (bd2_scale (f / f0) f0 m v) by (auto; apply quot_pos; auto). f_equal; unfold p; field; lra. }
  pose proof (call_shape f v p K1 K2 Hf T Hp Zp H1 H2) as [A B]. pose proof (pa_mult_pos spot rf tau) as M.
  split; intros L; (eexists _, _; split; [reflexivity | ]; split; [reflexivity | ]; apply Rmult_lt_compat_l; [auto | ]; rewrite !Rmult_1_l in *).
  - now apply A.
  - now apply B.
Qed.

(* exact answers above the peak are the only ones there *)
Lemma pa_call_unique (spot : bool) (S tau rd rf vol m K K' d : R) : 0 < S -> 0 < tau -> 0 < vol -> 0 < m ->
  solve_k_lower_bound S tau rd rf vol m = Fin 0 -> m <= K -> m <= K' ->
  pa_delta spot S tau rd rf 1 K vol None = Fin d -> pa_delta spot S tau rd rf 1 K' vol None = Fin d -> K' = K.
Proof.
  intros HS Ht Hv Hm Z A B P P'. pose proof (fwd_pos S tau rd rf None HS I) as Hf0.
  assert (E : m * forward_of S tau rd rf None / forward_of S tau rd rf None = m) by (field; lra).
  destruct (Rtotal_order K' K) as [X | [X | X]]; auto; exfalso.
  - destruct (pa_call_shape spot S tau rd rf vol m K' K None HS Ht Hv I Hm Z ltac:(lra) X) as [_ U]. rewrite E in U. destruct (U B) as (u & w & U1 & U2 & U3).
    rewrite P in U1. rewrite P' in U2. injection U1 as <-. injection U2 as <-. lra.
  - destruct (pa_call_shape spot S tau rd rf vol m K K' None HS Ht Hv I Hm Z ltac:(lra) X) as [_ U]. rewrite E in U. destruct (U A) as (u & w & U1 & U2 & U3).
    rewrite P' in U1. rewrite P in U2. injection U1 as <-. injection U2 as <-. lra.
Qed.

(* ---- implied volatility ---- *)
Lemma gk_error_live (S tau rd rf cp K X v : R) : 0 < S -> 0 <= tau -> call_or_put cp -> gk_error S tau rd rf cp K X v = Value (sub (price_gk S tau rd rf cp K v None) (Fin X)).
Proof.
  intros HS Ht W. unfold gk_error, price_gk, scalar_gk. pose proof (core_scalar S tau rd rf cp K v None false false HS Ht W I) as C.
  unfold scalar_gk in C. rewrite C. reflexivity.
Qed.
Lemma gk_error_invalid (S tau rd rf cp K X v : R) : ~ (0 < S /\ 0 <= tau /\ call_or_put cp) -> gk_error S tau rd rf cp K X v = Raise AssertionError.
Proof.
  intros N. unfold gk_error, garman_kohlhagen_price, gk_core. cbn [g_S g_tau g_cp].
  destruct (all_pos [S]) eqn:A; [ | reflexivity]. destruct (all_nonneg [tau]) eqn:B; [ | reflexivity]. destruct (forallb is_cp [cp]) eqn:C; [ | reflexivity].
  exfalso. apply N. apply all_pos_iff in A. apply all_nonneg_iff in B. inversion A. inversion B. cbn in C. rewrite andb_true_r in C. apply cp_inv in C. auto.
Qed.

Lemma run_live {O} (f : R -> num) (e : R -> evaluation) (s : search O) : (forall x, e x = Value (f x)) -> exists o, run e s = Ended o.
Proof. intros H. induction s as [o | x k IH]; cbn [run]; [eauto | rewrite H; apply IH]. Qed.

Lemma gk_solver_report (S tau rd rf cp K X : R) (newton : search root_outcome) (brent : search rs_outcome) : 0 < S -> 0 <= tau -> call_or_put cp ->
  let e := gk_error S tau rd rf cp K X in
  exists o, run e newton = Ended o /\
  gk_solve_implied_vol S tau rd rf cp K X newton brent =
    match o with
    | Root x => Ok (Fin x)
    | RootRaises x => Err x
    | NoConvergence => match run e brent with
                       | Ended (RS x _) => Ok (Fin x)
                       | Ended (RSRaises ValueError) => Ok PInf
                       | Ended (RSRaises x) => Err x
                       | _ => Ok NaN end
    end.
Proof.
  intros HS Ht W. cbv zeta. assert (E : forall v, gk_error S tau rd rf cp K X v = Value (sub (price_gk S tau rd rf cp K v None) (Fin X))) by (intros; apply gk_error_live; auto).
  destruct (run_live _ _ newton E) as (o & On). exists o. split; auto. unfold gk_solve_implied_vol. rewrite On. destruct o; auto.
  destruct (run_live _ _ brent E) as (b & Ob). rewrite Ob. destruct b as [x c | e]; [reflexivity | destruct e; reflexivity].
Qed.

Lemma gk_solver_invalid (S tau rd rf cp K X x : R) (k : num -> search root_outcome) (brent : search rs_outcome) : ~ (0 < S /\ 0 <= tau /\ call_or_put cp) ->
  gk_solve_implied_vol S tau rd rf cp K X (Probe x k) brent = Err AssertionError.
Proof. intros N. unfold gk_solve_implied_vol. cbn [run]. rewrite gk_error_invalid by auto. reflexivity. Qed.

(* the bracket of the fallback encloses the implied volatility exactly when it lies between 0.01% and 200% *)
Lemma gk_fallback_bracket (S tau rd rf cp K v : R) : 0 < S -> 0 < tau -> call_or_put cp -> 0 < K -> 0 < v ->
  exists X lo hi, price_gk S tau rd rf cp K v None = Fin X /\
    gk_error S tau rd rf cp K X (1 / 10000) = Value (Fin lo) /\ gk_error S tau rd rf cp K X 2 = Value (Fin hi) /\ (lo < 0 < hi <-> 1 / 10000 < v < 2).
Proof.
  intros HS Ht W HK Hv.
  assert (P : forall x, 0 < x -> exists p, price_gk S tau rd rf cp K x None = Fin p).
  { intros x Hx. rewrite price_gk_live by (cbn; auto; pose proof (total_pos x tau Hx Ht); lra). eauto. }
  destruct (P v Hv) as (X & EX). destruct (P (1 / 10000) ltac:(lra)) as (a & Ea). destruct (P 2 ltac:(lra)) as (b & Eb).
  exists X, (a - X), (b - X). rewrite !gk_error_live, Ea, Eb by (auto; lra). split; auto. split; auto. split; auto.
  assert (M : forall v1 v2 p1 p2, 0 < v1 -> v1 < v2 -> price_gk S tau rd rf cp K v1 None = Fin p1 -> price_gk S tau rd rf cp K v2 None = Fin p2 -> p1 < p2).
  { intros v1 v2 p1 p2 H1 H2 E1 E2. destruct (gk_vol_mono S tau rd rf cp K v1 v2 None W HS HK Ht H1 H2 I) as (x & y & Q1 & Q2 & Q3). rewrite E1 in Q1. rewrite E2 in Q2. injection Q1 as <-. injection Q2 as <-. auto. }
  split.
  - intros [L H]. split.
    + destruct (Rtotal_order (1 / 10000) v) as [ | [Q | Q]]; auto; exfalso; [rewrite Q, EX in Ea; injection Ea as <-; lra | pose proof (M _ _ _ _ Hv Q EX Ea); lra].
    + destruct (Rtotal_order v 2) as [ | [Q | Q]]; auto; exfalso; [rewrite <- Q, EX in Eb; injection Eb as <-; lra | pose proof (M 2 v b X ltac:(lra) Q Eb EX); lra].
  - intros [L H]. pose proof (M (1 / 10000) v a X ltac:(lra) L Ea EX). pose proof (M v 2 X b Hv H EX Eb). lra.
Qed.
