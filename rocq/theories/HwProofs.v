(* Hull-White: bond prices, bond options, decomposition of swaptions *)
From Coq Require Import ZArith Reals String List Bool Lra Lia Psatz.
From Coquelicot Require Import Coquelicot.
From Verif Require Import Base NormalModel NormalProofs BsProofs BlackModel BlackSpec BlackProofs MonteModel MonteSpec MonteProofs HwModel HwSpec.
Import ListNotations.
Open Scope R_scope.

Ltac rb := unfold ltb, leb, eqb in *; repeat match goal with |- context [Rlt_dec ?a ?b] => destruct (Rlt_dec a b) | |- context [Rle_dec ?a ?b] => destruct (Rle_dec a b) | |- context [Req_EM_T ?a ?b] => destruct (Req_EM_T a b) end.

Ltac inR := match goal with |- @eq _ ?a ?b => change (@eq R a b) end.

(* ---- calc_b ---- *)
Definition small : R := 1 / 100000000.
Lemma b_large (alpha t T : R) : small <= alpha -> calc_b alpha t T = (1 - exp (- alpha * (T - t))) / alpha.
Proof. intros H. unfold calc_b. fold small. destruct Rlt_dec; [lra|]. unfold small in *. field. lra. Qed.
Lemma small_pos (alpha : R) : small <= alpha -> 0 < alpha. Proof. unfold small. lra. Qed.
Lemma b_end (alpha T : R) : calc_b alpha T T = 0.
Proof. unfold calc_b. destruct Rlt_dec; [ring|]. replace (- alpha * (T - T)) with 0 by ring. rewrite exp_0. field. lra. Qed.
Lemma b_ode (alpha t T : R) : small <= alpha -> is_derive (fun s => calc_b alpha s T) t (alpha * calc_b alpha t T - 1).
Proof.
  intros H. pose proof (small_pos _ H) as P. rewrite b_large by exact H. apply (is_derive_ext (fun s => (1 - exp (- alpha * (T - s))) / alpha)); [intros s; symmetry; apply b_large; exact H|].
  auto_derive; [lra|]. rewrite ?Ropp_mult_distr_l_reverse. replace (T + - t) with (T - t) by ring. field. lra.
Qed.
Lemma b_compose (alpha t1 t2 t3 : R) : small <= alpha -> calc_b alpha t1 t3 = calc_b alpha t1 t2 + exp (- alpha * (t2 - t1)) * calc_b alpha t2 t3.
Proof. intros H. pose proof (small_pos _ H). rewrite !b_large by exact H. replace (exp (- alpha * (t3 - t1))) with (exp (- alpha * (t2 - t1)) * exp (- alpha * (t3 - t2))) by (rewrite <- exp_plus; f_equal; ring). field. lra. Qed.
Lemma b_pos (alpha t T : R) : t < T -> 0 < calc_b alpha t T.
Proof.
  intros L. unfold calc_b. destruct Rlt_dec as [|N]; [lra|]. assert (0 < alpha) by lra. apply Rmult_lt_0_compat; [apply Rdiv_lt_0_compat; lra|].
  assert (exp (- alpha * (T - t)) < exp 0) by (apply exp_increasing; nra). rewrite exp_0 in *. lra.
Qed.
Lemma b_nonpos (alpha t T : R) : T <= t -> calc_b alpha t T <= 0.
Proof.
  intros L. unfold calc_b. destruct Rlt_dec as [|N]; [lra|]. assert (0 < alpha) by lra. assert (0 < 1 / alpha) by (apply Rdiv_lt_0_compat; lra).
  assert (exp 0 <= exp (- alpha * (T - t))). { destruct (Req_dec T t) as [->|]; [right; f_equal; ring|]. left. apply exp_increasing. nra. } rewrite exp_0 in *. nra.
Qed.
Lemma b_cont (alpha T : R) (s : R) : continuous (fun t => calc_b alpha t T) s.
Proof.
  destruct (Rlt_dec alpha small) as [L|L].
  - apply (continuous_ext (fun t => T - t)); [intros x; unfold calc_b; fold small; destruct Rlt_dec; [reflexivity|contradiction]|]. apply (ex_derive_continuous (K := R_AbsRing) (V := R_NormedModule)). auto_derive. trivial.
  - apply (ex_derive_continuous (K := R_AbsRing) (V := R_NormedModule)). eexists. apply b_ode. lra.
Qed.

(* ---- discount factors ---- *)
Definition theta_of (r0 alpha sigma t : R) : R := alpha * r0 + sigma ^ 2 / (2 * alpha) * (1 - exp (-2 * alpha * t)).
Lemma theta_ok (r0 alpha sigma t : R) : alpha <> 0 -> get_theta r0 alpha sigma t = Ok (theta_of r0 alpha sigma t).
Proof. intros N. unfold get_theta. rb; [lra|]. reflexivity. Qed.
Definition log_a (r0 alpha sigma T t : R) : R := - r0 * (T - t) + calc_b alpha t T * r0 - sigma ^ 2 / (4 * alpha) * (1 - exp (-2 * alpha * t)) * calc_b alpha t T ^ 2.
Lemma log_a_derive (r0 alpha sigma T t : R) : small <= alpha ->
  is_derive (log_a r0 alpha sigma T) t (theta_of r0 alpha sigma t * calc_b alpha t T - 1 / 2 * sigma ^ 2 * calc_b alpha t T ^ 2).
Proof.
  intros H. pose proof (small_pos _ H) as P. pose proof (b_ode alpha t T H) as B. unfold log_a. set (b := fun s => calc_b alpha s T) in *.
  change (is_derive (fun s => - r0 * (T - s) + b s * r0 - sigma ^ 2 / (4 * alpha) * (1 - exp (-2 * alpha * s)) * b s ^ 2) t (theta_of r0 alpha sigma t * b t - 1 / 2 * sigma ^ 2 * b t ^ 2)).
  assert (E : ex_derive b t) by (eexists; exact B). assert (D : Derive b t = alpha * b t - 1) by (apply is_derive_unique; exact B). clearbody b.
  auto_derive; [repeat split; assumption|]. change (Derive (fun x : R => b x) t) with (Derive b t). rewrite D. unfold theta_of. field. lra.
Qed.
Lemma ode_1_closed (quad : integrator) (theta : R -> R) (r0 alpha sigma t1 t2 : R) (r : option R) (rt : R) : exact_quad quad -> small <= alpha -> t1 < t2 ->
  (forall t : R, t1 <= t <= t2 -> theta t = theta_of r0 alpha sigma t) -> short_rate r0 t1 r = Ok rt ->
  ode_1 quad (Some theta) r0 alpha sigma t1 t2 r = Ok (exp (log_a r0 alpha sigma t2 t1 - rt * calc_b alpha t1 t2)).
Proof.
  intros Q H L Th Rt. pose proof (small_pos _ H) as P. unfold ode_1. rb; [|lra]. cbn [guard bind]. rewrite Rt. cbn [bind]. do 3 f_equal.
  set (f1 := fun t => calc_b alpha t t2 ^ 2). set (f2 := fun t => theta t * calc_b alpha t t2).
  assert (C1 : forall s, continuous f1 s). { intros s. unfold f1. apply (continuous_ext (fun t => calc_b alpha t t2 * calc_b alpha t t2)); [intros; cbn; ring|]. apply (continuous_mult (K := R_AbsRing)); apply b_cont. }
  assert (C2 : forall s, continuous (fun t => theta_of r0 alpha sigma t * calc_b alpha t t2) s). { intros s. apply (continuous_mult (K := R_AbsRing)); [|apply b_cont]. unfold theta_of. apply (ex_derive_continuous (K := R_AbsRing) (V := R_NormedModule)). auto_derive. trivial. }
  assert (Q1 : is_RInt f1 t1 t2 (quad f1 t1 t2)) by (apply Q, (ex_RInt_continuous (V := R_CompleteNormedModule)); intros; apply C1).
  assert (Q2 : is_RInt f2 t1 t2 (quad f2 t1 t2)).
  { apply Q. apply (ex_RInt_ext (fun t => theta_of r0 alpha sigma t * calc_b alpha t t2)). { intros x. rewrite Rmin_left, Rmax_right by lra. intros X. unfold f2. rewrite Th by lra. reflexivity. } apply (ex_RInt_continuous (V := R_CompleteNormedModule)). intros; apply C2. }
  assert (I : is_RInt (fun t => 1 / 2 * sigma ^ 2 * f1 t - f2 t) t1 t2 (1 / 2 * sigma ^ 2 * quad f1 t1 t2 - quad f2 t1 t2)).
  { apply (is_RInt_minus (V := R_NormedModule)); [apply (is_RInt_scal (V := R_NormedModule)); exact Q1 | exact Q2]. }
  assert (J : is_RInt (fun t => - (theta_of r0 alpha sigma t * calc_b alpha t t2 - 1 / 2 * sigma ^ 2 * calc_b alpha t t2 ^ 2)) t1 t2 (opp (log_a r0 alpha sigma t2 t2 - log_a r0 alpha sigma t2 t1))).
  { apply (is_RInt_opp (V := R_NormedModule)). apply (is_RInt_derive (V := R_CompleteNormedModule)); intros x _; [apply log_a_derive; exact H|].
    apply (continuous_minus (V := R_NormedModule)); [apply C2|]. apply (continuous_scal_r (K := R_AbsRing) (V := R_NormedModule)). apply C1. }
  assert (E : 1 / 2 * sigma ^ 2 * quad f1 t1 t2 - quad f2 t1 t2 = - (log_a r0 alpha sigma t2 t2 - log_a r0 alpha sigma t2 t1)).
  { apply (is_RInt_unique (V := R_CompleteNormedModule)) in I. apply (is_RInt_unique (V := R_CompleteNormedModule)) in J. etransitivity; [symmetry; exact I|]. etransitivity; [|exact J]. apply RInt_ext. intros x. rewrite Rmin_left, Rmax_right by lra. intros X. unfold f2, f1. rewrite Th by lra. inR. ring. }
  rewrite E. unfold log_a. rewrite b_end. ring.
Qed.

Lemma ode_2_closed (df fwd : R -> R) (r0 alpha sigma t1 t2 : R) (r : option R) (rt : R) : alpha <> 0 -> t1 < t2 -> df t1 <> 0 -> short_rate r0 t1 r = Ok rt ->
  ode_2 df fwd r0 alpha sigma t1 t2 r = Ok (df t2 / df t1 * exp (calc_b alpha t1 t2 * (fwd t1 - rt) - sigma ^ 2 / (4 * alpha) * (1 - exp (-2 * alpha * t1)) * calc_b alpha t1 t2 ^ 2)).
Proof.
  intros A L D S. unfold ode_2. rb; try lra. cbn [guard bind negb]. rewrite S. cbn [bind]. f_equal. rewrite Rmult_assoc, <- exp_plus. do 2 f_equal. ring.
Qed.

(* ---- bond options ---- *)
Definition sdev (alpha sigma T S : R) : R := sigma * sqrt ((1 - exp (-2 * alpha * T)) / (2 * alpha)) * calc_b alpha T S.
Lemma decay_nonneg (alpha T : R) : 0 < alpha -> 0 <= T -> 0 <= (1 - exp (-2 * alpha * T)) / (2 * alpha).
Proof.
  intros A H. apply Rmult_le_pos; [|left; apply Rinv_0_lt_compat; lra]. assert (exp (-2 * alpha * T) <= exp 0).
  { destruct H as [H| <-]; [left; apply exp_increasing; nra | right; f_equal; ring]. } rewrite exp_0 in *. lra.
Qed.
Lemma decay_pos (alpha T : R) : 0 < alpha -> 0 < T -> 0 < (1 - exp (-2 * alpha * T)) / (2 * alpha).
Proof. intros A H. apply Rdiv_lt_0_compat; [|lra]. assert (exp (-2 * alpha * T) < exp 0) by (apply exp_increasing; nra). rewrite exp_0 in *. lra. Qed.
Lemma bond_vol_fin (alpha sigma T S : R) : 0 < alpha -> 0 <= T -> bond_vol alpha sigma T S = Fin (sdev alpha sigma T S).
Proof. intros A H. unfold bond_vol. rewrite div_fin by lra. rewrite nsqrt_fin by (apply decay_nonneg; assumption). reflexivity. Qed.
Lemma sdev_pos (alpha sigma T S : R) : 0 < alpha -> 0 < sigma -> 0 < T -> T < S -> 0 < sdev alpha sigma T S.
Proof. intros. unfold sdev. apply Rmult_lt_0_compat; [apply Rmult_lt_0_compat; [assumption|apply sqrt_lt_R0, decay_pos; assumption]|apply b_pos; assumption]. Qed.
Lemma sdev_sq (alpha sigma T S : R) : small <= alpha -> 0 <= T ->
  is_RInt (fun u => (sigma * (calc_b alpha u S - calc_b alpha u T)) ^ 2) 0 T (sdev alpha sigma T S ^ 2).
Proof.
  intros H HT. pose proof (small_pos _ H) as P.
  apply (is_RInt_ext (fun u => sigma ^ 2 * calc_b alpha T S ^ 2 * exp (-2 * alpha * (T - u)))).
  { intros u _. rewrite (b_compose alpha u T S) by exact H. replace (exp (-2 * alpha * (T - u))) with (exp (- alpha * (T - u)) * exp (- alpha * (T - u))) by (rewrite <- exp_plus; f_equal; ring). inR. ring. }
  set (F := fun u => sigma ^ 2 * calc_b alpha T S ^ 2 * (exp (-2 * alpha * (T - u)) / (2 * alpha))).
  replace (sdev alpha sigma T S ^ 2) with (minus (F T) (F 0)).
  2: { unfold F, sdev, minus, plus, opp; cbn -[exp sqrt calc_b]. replace (-2 * alpha * (T - T)) with 0 by ring. rewrite exp_0. replace (-2 * alpha * (T - 0)) with (-2 * alpha * T) by ring.
    replace (sigma * sqrt ((1 - exp (-2 * alpha * T)) / (2 * alpha)) * calc_b alpha T S * (sigma * sqrt ((1 - exp (-2 * alpha * T)) / (2 * alpha)) * calc_b alpha T S * 1))
      with (sigma * sigma * calc_b alpha T S * calc_b alpha T S * (sqrt ((1 - exp (-2 * alpha * T)) / (2 * alpha)) * sqrt ((1 - exp (-2 * alpha * T)) / (2 * alpha)))) by ring.
    rewrite sqrt_sqrt by (apply decay_nonneg; assumption). field. lra. }
  apply (is_RInt_derive (V := R_CompleteNormedModule)); intros u _.
  - unfold F. auto_derive; [lra|]. replace (T + - u) with (T - u) by ring. field. lra.
  - apply (ex_derive_continuous (K := R_AbsRing) (V := R_NormedModule)). auto_derive. trivial.
Qed.
Lemma ltb_false (a b : R) : b <= a -> ltb a b = false. Proof. intros. unfold ltb. destruct Rlt_dec; [lra|reflexivity]. Qed.
Lemma zcbo_single (df : R -> R) (alpha sigma T S K cp : R) : zcbo df alpha sigma [T] [S] [K] [cp] 0 = Ok [zcbo_elem df alpha sigma T S K cp].
Proof. unfold zcbo. cbn [List.length fold_right Nat.max forallb Nat.eqb orb andb guard bind]. unfold eqb. destruct Req_EM_T; [|contradiction]. reflexivity. Qed.
Lemma zcbo_elem_fin (df : R -> R) (alpha sigma T S K cp : R) : 0 < alpha -> 0 < sigma -> 0 < T -> T < S -> 0 < df T -> 0 < df S -> 0 < K ->
  zcbo_elem df alpha sigma T S K cp = Fin (df T * blk cp (df S / df T) K (sdev alpha sigma T S)).
Proof.
  intros A Sg HT HS PT PS HK. pose proof (sdev_pos alpha sigma T S A Sg HT HS) as V. unfold zcbo_elem. rewrite bond_vol_fin by lra. set (v := sdev alpha sigma T S) in *.
  rewrite ltb_false by lra. unfold nonpos, leb. destruct Rle_dec; [lra|]. assert (Q : 0 < K * df T) by (apply Rmult_lt_0_compat; assumption).
  rewrite !div_fin by lra. rewrite nlog_fin by (apply quot_pos; assumption). cbn [mul add sub neg ncdf]. f_equal. unfold blk, bd2, bd1.
  replace (df S / (K * df T)) with (df S / df T / K) by (field; lra).
  replace (1 / v * ln (df S / df T / K) + 1 / 2 * v) with ((ln (df S / df T / K) + v * v / 2) / v) by (field; lra).
  replace ((ln (df S / df T / K) + v * v / 2) / v + - v) with ((ln (df S / df T / K) + v * v / 2) / v - v) by ring. field. lra.
Qed.
Lemma zcbo_elem_zero (df : R -> R) (alpha sigma T S K cp : R) : small <= alpha -> 0 <= T -> T <= S -> sdev alpha sigma T S <= 0 -> df T <> 0 ->
  zcbo_elem df alpha sigma T S K cp = Fin (Rmax 0 (cp * (df S / df T - K))).
Proof.
  intros A HT HS V D. unfold zcbo_elem. rewrite bond_vol_fin by (try apply small_pos; assumption). rewrite ltb_false by lra. unfold nonpos, leb. destruct Rle_dec; [|lra].
  rewrite div_fin by exact D. reflexivity.
Qed.
Lemma zcbo_elem_flat (df : R -> R) (sigma T S K cp : R) : T <= S -> zcbo_elem df 0 sigma T S K cp = NaN.
Proof.
  intros HS. unfold zcbo_elem, bond_vol. replace (-2 * 0 * T) with 0 by ring. rewrite exp_0. replace (1 - 1) with 0 by ring. replace (2 * 0) with 0 by ring.
  rewrite div_zero, scale_0. rewrite ltb_false by exact HS. cbn [nsqrt mul nonpos]. unfold div at 1. cbn [mul]. cbn [add]. cbn [sub mul neg ncdf add]. reflexivity.
Qed.
Lemma zcbo_elem_after (df : R -> R) (alpha sigma T S K cp : R) : S < T -> zcbo_elem df alpha sigma T S K cp = Fin 0.
Proof. intros H. unfold zcbo_elem, ltb. destruct Rlt_dec; [reflexivity|contradiction]. Qed.

(* ---- swaptions ---- *)
Definition coef (quad : integrator) (theta : R -> R) (alpha sigma t1 t2 : R) : R :=
  1 / 2 * sigma ^ 2 * quad (fun t => calc_b alpha t t2 ^ 2) t1 t2 - quad (fun t => theta t * calc_b alpha t t2) t1 t2.
Definition state (r0 t1 r : R) : R := if eqb t1 0 then r0 else r.
Lemma ode_1_affine (quad : integrator) (theta : R -> R) (r0 alpha sigma t1 t2 r x : R) : ode_1 quad (Some theta) r0 alpha sigma t1 t2 (Some r) = Ok x ->
  t1 < t2 /\ x = exp (coef quad theta alpha sigma t1 t2 - state r0 t1 r * calc_b alpha t1 t2).
Proof. unfold ode_1, short_rate, state, ltb. destruct (Rlt_dec t1 t2); [|discriminate]. cbn [guard bind]. destruct (eqb t1 0); cbn [bind]; intros E; injection E as <-; (split; [assumption|reflexivity]). Qed.
Lemma ode_1_ok (quad : integrator) (theta : R -> R) (r0 alpha sigma t1 t2 r : R) : t1 < t2 -> exists x, ode_1 quad (Some theta) r0 alpha sigma t1 t2 (Some r) = Ok x.
Proof. intros L. unfold ode_1, short_rate, ltb. destruct Rlt_dec; [|contradiction]. cbn [guard bind]. destruct (eqb t1 0); cbn [bind]; eexists; reflexivity. Qed.
Lemma sequence_forall2 {A B} (f : A -> result B) (l : list A) (ys : list B) : sequence (map f l) = Ok ys <-> Forall2 (fun x y => f x = Ok y) l ys.
Proof.
  revert ys. induction l as [|x l IH]; intros ys; cbn [map sequence].
  - split; [intros E; injection E as <-; constructor | intros F; inversion F; reflexivity].
  - destruct (f x) as [y|e] eqn:Fx; cbn [bind]; [|split; [discriminate|intros F; inversion F; subst; congruence]].
    destruct (sequence (map f l)) as [t|e] eqn:St; cbn [bind].
    + split; [intros E; injection E as <-; constructor; [exact Fx|apply IH; reflexivity] | intros F; inversion F; subst; f_equal; f_equal; [congruence|]]. apply IH in H3. congruence.
    + split; [discriminate|intros F; inversion F; subst]. apply IH in H3. discriminate.
Qed.
Lemma combine_values (P : R -> result R) (rate : R) (times fractions ps cs : list R) : Forall2 (fun t x => P t = Ok x) times ps ->
  Forall2 (fun tf c => (let* p := P (fst tf) in Ok (rate * snd tf * p)) = Ok c) (combine times fractions) cs -> fold_right Rplus 0 cs = coupon_sum rate fractions ps.
Proof.
  intros F. revert fractions cs. induction F as [|t p times ps E F IH]; intros fractions cs G.
  - cbn in G. inversion G. destruct fractions; reflexivity.
  - destruct fractions as [|f fr]; cbn in G; [inversion G; reflexivity|]. inversion G as [|? c ? cs' Ec Gc]; subst. cbn [fst snd] in Ec. rewrite E in Ec. cbn [bind] in Ec. injection Ec as <-. cbn. rewrite (IH _ _ Gc). reflexivity.
Qed.
Lemma zero_value (P : R -> R -> result R) (times fractions : list R) (nt rate r v p : R) (ps : list R) : zero_function P times fractions nt rate r = Ok v ->
  Forall2 (fun t x => P t r = Ok x) times ps -> P nt r = Ok p -> v = coupon_sum rate fractions ps + p - 1.
Proof.
  intros Z F E. unfold zero_function in Z. rewrite E in Z. cbn [bind] in Z.
  match type of Z with (bind ?s _ = _) => destruct s as [cs|] eqn:Sq; [|discriminate] end. cbn [bind] in Z. injection Z as <-. apply sequence_forall2 in Sq. rewrite (combine_values (fun t => P t r) rate _ _ _ _ F Sq). ring.
Qed.
Lemma coupon_app (rate : R) (fractions ps qs : list R) : List.length fractions = List.length ps -> coupon_sum rate fractions (ps ++ qs)%list = coupon_sum rate fractions ps.
Proof. revert ps. induction fractions as [|f fr IH]; intros [|p ps] L; try discriminate; cbn; [destruct qs; reflexivity|]. rewrite IH by (injection L; trivial). reflexivity. Qed.
Lemma option_app (cp rate : R) (fractions ps ks qs : list R) : List.length fractions = List.length ks -> option_sum cp rate fractions ps (ks ++ qs)%list = option_sum cp rate fractions ps ks.
Proof. revert ps ks. induction fractions as [|f fr IH]; intros [|p ps] [|k ks] L; try discriminate; cbn; try reflexivity. rewrite IH by (injection L; trivial). reflexivity. Qed.
Lemma last_forall2 (P : R -> result R) (times ss : list R) : times <> [] -> Forall2 (fun t x => P t = Ok x) times ss -> P (last times 0) = Ok (last ss 0).
Proof.
  intros N F. induction F as [|t x times ss E F IH]; [congruence|]. destruct times as [|t' times]; [inversion F; exact E|]. inversion F as [|? x' ? ss' E' F']; subst. apply IH. discriminate.
Qed.
Lemma jamshidian_inv (brentq : root_finder) (P : R -> R -> result R) (times fractions : list R) (nt rate : R) (ks : list R) : exact_root brentq -> jamshidian brentq P times fractions nt rate = Ok ks ->
  exists r ss : _, List.length times = List.length fractions /\ Forall2 (fun t x => P t r = Ok x) times ss /\ P nt r = Ok (last ks 0) /\ (ks = ss \/ exists k, ks = (ss ++ [k])%list)
    /\ coupon_sum rate fractions ss + last ks 0 = 1.
Proof.
  intros X J. unfold jamshidian in J. destruct (Nat.eqb (List.length times) (List.length fractions)) eqn:L; [|discriminate]. apply Nat.eqb_eq in L. cbn [guard bind] in J.
  destruct (increasing times); [|discriminate]. cbn [guard bind] in J. destruct (Nat.leb 2 (List.length times)) eqn:T2; [|discriminate]. cbn [guard bind] in J.
  match type of J with (bind (guard ?b _) _ = _) => destruct b; [|discriminate] end. cbn [guard bind] in J.
  match type of J with (bind ?b _ = _) => destruct b as [r|] eqn:B; [|discriminate] end. cbn [bind] in J. apply X in B.
  match type of J with (bind ?b _ = _) => destruct b as [ss|] eqn:Sq; [|discriminate] end. cbn [bind] in J. apply sequence_forall2 in Sq.
  assert (N : times <> []) by (intros ->; discriminate). exists r, ss. unfold eqb in J. destruct Req_EM_T as [E|E].
  - injection J as <-. assert (Q : P nt r = Ok (last ss 0)) by (rewrite E; apply (last_forall2 (fun t => P t r)); assumption). split; [exact L|]. split; [exact Sq|]. split; [exact Q|]. split; [left; reflexivity|]. pose proof (zero_value P _ _ _ _ _ _ _ _ B Sq Q). lra.
  - destruct (P nt r) as [k|] eqn:Q; [|discriminate]. cbn [bind] in J. injection J as <-. rewrite last_last. split; [exact L|]. split; [exact Sq|]. split; [reflexivity|]. split; [right; exists k; reflexivity|]. pose proof (zero_value P _ _ _ _ _ _ _ _ B Sq Q). lra.
Qed.
(* all bond prices lie on the same side of the strikes *)
Lemma option_ordered (w rate : R) (fractions ps ks : list R) : Forall2 (fun p k => 0 <= w * (p - k)) ps ks ->
  option_sum w rate fractions ps ks = w * (coupon_sum rate fractions ps - coupon_sum rate fractions ks) /\ option_sum (- w) rate fractions ps ks = 0.
Proof.
  intros F. revert fractions. induction F as [|p k ps ks E F IH]; intros [|f fr]; cbn; try (split; ring). destruct (IH fr) as [A B]. rewrite A, B.
  rewrite Rmax_right by exact E. rewrite Rmax_left by lra. split; ring.
Qed.
Lemma coupon_ordered (w rate : R) (fractions ps ks : list R) : List.Forall (fun f => 0 <= rate * f) fractions -> Forall2 (fun p k => 0 <= w * (p - k)) ps ks ->
  0 <= w * (coupon_sum rate fractions ps - coupon_sum rate fractions ks).
Proof.
  intros N F. revert fractions N. induction F as [|p k ps ks E F IH]; intros [|f fr] N; cbn; try lra. inversion N; subst. pose proof (IH fr H2). nra.
Qed.
Lemma ordered_payoff (w rate : R) (fractions ps ks : list R) (p k : R) : List.Forall (fun f => 0 <= rate * f) fractions -> Forall2 (fun p k => 0 <= w * (p - k)) ps ks -> 0 <= w * (p - k) -> coupon_sum rate fractions ks + k = 1 ->
  Rmax 0 (w * (coupon_sum rate fractions ps + p - 1)) = option_sum w rate fractions ps ks + Rmax 0 (w * (p - k))
  /\ Rmax 0 (- w * (coupon_sum rate fractions ps + p - 1)) = option_sum (- w) rate fractions ps ks + Rmax 0 (- w * (p - k)).
Proof.
  intros N F E One. destruct (option_ordered w rate fractions ps ks F) as [A B]. pose proof (coupon_ordered w rate fractions ps ks N F) as C. rewrite A, B.
  assert (D : w * (coupon_sum rate fractions ps + p - 1) = w * (coupon_sum rate fractions ps - coupon_sum rate fractions ks) + w * (p - k)) by (rewrite <- One; ring).
  rewrite (Rmax_right 0 (w * (p - k))) by exact E. rewrite (Rmax_left 0 (- w * (p - k))) by lra. split; [rewrite Rmax_right by lra; lra | rewrite Rmax_left by lra; lra].
Qed.
Lemma exp_le (a b : R) : a <= b -> exp a <= exp b. Proof. intros [H| ->]; [left; apply exp_increasing; exact H|right; reflexivity]. Qed.
Lemma bond_order (quad : integrator) (theta : R -> R) (r0 alpha sigma t1 t r s p k : R) : ode_1 quad (Some theta) r0 alpha sigma t1 t (Some r) = Ok p -> ode_1 quad (Some theta) r0 alpha sigma t1 t (Some s) = Ok k ->
  state r0 t1 r <= state r0 t1 s -> k <= p.
Proof.
  intros A B L. apply ode_1_affine in A. apply ode_1_affine in B. destruct A as [T ->], B as [_ ->]. apply exp_le. pose proof (b_pos alpha t1 t T). nra.
Qed.
Lemma bonds_order (quad : integrator) (theta : R -> R) (r0 alpha sigma t1 r s : R) (times ps ks : list R) : Forall2 (fun t x => ode_1 quad (Some theta) r0 alpha sigma t1 t (Some r) = Ok x) times ps ->
  Forall2 (fun t x => ode_1 quad (Some theta) r0 alpha sigma t1 t (Some s) = Ok x) times ks -> state r0 t1 r <= state r0 t1 s -> Forall2 (fun p k => k <= p) ps ks.
Proof.
  intros F G L. revert ks G. induction F as [|t p times ps E F IH]; intros ks G; inversion G; subst; constructor; [eapply bond_order; eassumption|apply IH; assumption].
Qed.
Lemma forall2_len {A B} (P : A -> B -> Prop) (l : list A) (m : list B) : Forall2 P l m -> List.length l = List.length m. Proof. intros F. induction F; cbn; congruence. Qed.
Lemma forall2_impl {A B} (P Q : A -> B -> Prop) (l : list A) (m : list B) : (forall a b, P a b -> Q a b) -> Forall2 P l m -> Forall2 Q l m. Proof. intros H F. induction F; constructor; auto. Qed.
Lemma forall2_swap_impl {A B} (P : A -> B -> Prop) (Q : B -> A -> Prop) (l : list A) (m : list B) : (forall a b, P a b -> Q b a) -> Forall2 P l m -> Forall2 Q m l.
Proof. intros H F. induction F; constructor; auto. Qed.
Lemma decomposition (brentq : root_finder) (quad : integrator) (theta : R -> R) (r0 alpha sigma expiry : R) (times fractions : list R) (nt rate : R) (ks : list R) : exact_root brentq ->
  let P := fun t r => ode_1 quad (Some theta) r0 alpha sigma expiry t (Some r) in
  jamshidian brentq P times fractions nt rate = Ok ks -> List.Forall (fun f => 0 <= rate * f) fractions ->
  forall (cp r p : R) (ps : list R), call_or_put cp -> Forall2 (fun t x => P t r = Ok x) times ps -> P nt r = Ok p ->
  Rmax 0 (cp * (coupon_sum rate fractions ps + p - 1)) = option_sum cp rate fractions ps ks + Rmax 0 (cp * (p - last ks 0)).
Proof.
  intros X P J N cp r p ps C F E. destruct (jamshidian_inv _ _ _ _ _ _ _ X J) as (s & ss & L & G & K & Ks & One).
  assert (O : option_sum cp rate fractions ps ks = option_sum cp rate fractions ps ss).
  { destruct Ks as [->|[k ->]]; [reflexivity|]. apply option_app. rewrite <- L. eapply forall2_len, G. }
  rewrite O. destruct (Rle_dec (state r0 expiry r) (state r0 expiry s)) as [Le|Le].
  - pose proof (bonds_order _ _ _ _ _ _ _ _ _ _ _ F G Le) as B. pose proof (bond_order _ _ _ _ _ _ _ _ _ _ _ E K Le) as D.
    assert (B' : Forall2 (fun p k => 0 <= 1 * (p - k)) ps ss) by (eapply forall2_impl; [|exact B]; intros; cbn beta; lra).
    destruct (ordered_payoff 1 rate fractions ps ss p (last ks 0) N B' ltac:(lra) One) as [U V]. destruct C as [->| ->]; [exact U|exact V].
  - assert (Ge : state r0 expiry s <= state r0 expiry r) by lra. pose proof (bonds_order _ _ _ _ _ _ _ _ _ _ _ G F Ge) as B. pose proof (bond_order _ _ _ _ _ _ _ _ _ _ _ K E Ge) as D.
    assert (B' : Forall2 (fun p k => 0 <= (-1) * (p - k)) ps ss) by (eapply forall2_swap_impl; [|exact B]; intros; cbn beta in *; lra).
    destruct (ordered_payoff (-1) rate fractions ps ss p (last ks 0) N B' ltac:(lra) One) as [U V]. destruct C as [->| ->]; [|exact U]. replace (- (-1)) with 1 in V by ring. exact V.
Qed.
(* the critical rate is unique *)
Lemma exp_strict (quad : integrator) (theta : R -> R) (r0 alpha sigma t1 t r s p k : R) : t1 <> 0 -> ode_1 quad (Some theta) r0 alpha sigma t1 t (Some r) = Ok p -> ode_1 quad (Some theta) r0 alpha sigma t1 t (Some s) = Ok k ->
  r < s -> k < p.
Proof.
  intros N A B L. apply ode_1_affine in A. apply ode_1_affine in B. destruct A as [T ->], B as [_ ->]. unfold state, eqb. destruct Req_EM_T; [contradiction|]. apply exp_increasing. pose proof (b_pos alpha t1 t T). nra.
Qed.
Lemma zero_inv (P : R -> R -> result R) (times fractions : list R) (nt rate r v : R) : List.length times = List.length fractions -> zero_function P times fractions nt rate r = Ok v ->
  exists ps p, Forall2 (fun t x => P t r = Ok x) times ps /\ P nt r = Ok p /\ v = coupon_sum rate fractions ps + p - 1.
Proof.
  intros L Z. pose proof Z as Z0. unfold zero_function in Z. destruct (P nt r) as [p|] eqn:E; [|discriminate]. cbn [bind] in Z.
  match type of Z with (bind ?s _ = _) => destruct s as [cs|] eqn:Sq; [|discriminate] end. apply sequence_forall2 in Sq.
  assert (H : exists ps, Forall2 (fun t x => P t r = Ok x) times ps).
  { clear Z Z0. revert fractions cs L Sq. induction times as [|t times IH]; intros [|f fr] cs L Sq; try discriminate; [exists []; constructor|]. cbn in Sq. inversion Sq as [|? c ? cs' Ec Gc]; subst. cbn [fst snd] in Ec.
    destruct (P t r) as [q|] eqn:Eq; [|discriminate]. destruct (IH fr cs' ltac:(injection L; trivial) Gc) as [ps F]. exists (q :: ps). constructor; assumption. }
  destruct H as [ps F]. exists ps, p. split; [exact F|]. split; [reflexivity|]. eapply zero_value; eassumption.
Qed.
Lemma zero_decreasing (quad : integrator) (theta : R -> R) (r0 alpha sigma expiry : R) (times fractions : list R) (nt rate r s v w : R) : expiry <> 0 -> List.length times = List.length fractions -> List.Forall (fun f => 0 <= rate * f) fractions ->
  let P := fun t r => ode_1 quad (Some theta) r0 alpha sigma expiry t (Some r) in
  zero_function P times fractions nt rate r = Ok v -> zero_function P times fractions nt rate s = Ok w -> r < s -> w < v.
Proof.
  intros Ne L N P A B Lt. destruct (zero_inv _ _ _ _ _ _ _ L A) as (ps & p & F & E & ->). destruct (zero_inv _ _ _ _ _ _ _ L B) as (qs & q & G & D & ->).
  pose proof (exp_strict _ _ _ _ _ _ _ _ _ _ _ Ne E D Lt) as X. assert (Le : state r0 expiry r <= state r0 expiry s) by (unfold state, eqb; destruct Req_EM_T; lra).
  pose proof (bonds_order _ _ _ _ _ _ _ _ _ _ _ F G Le) as Y. assert (Y' : Forall2 (fun p k => 0 <= 1 * (p - k)) ps qs) by (eapply forall2_impl; [|exact Y]; intros; cbn beta; lra).
  pose proof (coupon_ordered 1 rate fractions ps qs N Y'). lra.
Qed.
Lemma zero_constant (quad : integrator) (theta : R -> R) (r0 alpha sigma : R) (times fractions : list R) (nt rate r s : R) :
  let P := fun t r => ode_1 quad (Some theta) r0 alpha sigma 0 t (Some r) in zero_function P times fractions nt rate r = zero_function P times fractions nt rate s.
Proof.
  intros P. assert (E : forall t, P t r = P t s) by (intros t; unfold P, ode_1, short_rate, eqb; destruct (Req_EM_T 0 0); [reflexivity|contradiction]). unfold zero_function. rewrite E. destruct (P nt s); [|reflexivity]. cbn [bind].
  assert (M : map (fun tf => let* p := P (fst tf) r in Ok (rate * snd tf * p)) (combine times fractions) = map (fun tf => let* p := P (fst tf) s in Ok (rate * snd tf * p)) (combine times fractions)) by (apply map_ext; intros; rewrite E; reflexivity).
  rewrite M. reflexivity.
Qed.
