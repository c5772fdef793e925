(* The three characteristic functions share one exponent; values at 0 and -i *)
From Coq Require Import Reals Lra Psatz.
From Coquelicot Require Import Complex.
From Verif Require Import Base NumModel CurveModel ChfModel ChfSpec CplxProofs.
Open Scope R_scope.

Ltac c_simpl := apply c_eq; cbn -[sqrt exp cos sin pow]; ring.

(* coefficients of kappa theta and of the initial variance *)
Definition core (W D : C) (tau vv : R) : option (C * C) :=
  (let? g := cdiv (W - D)%C (W + D)%C in
   let? s := if Req_EM_T vv 0 then None else Some (/ vv ^ 2)%R in
   let? ratio := cdiv (1 - g * cexp (- D * tau)%C)%C (1 - g)%C in
   let? l := clog ratio in
   Some (s * ((W - D) * tau - 2 * l), s * ((W - D) * ((1 - cexp (- D * tau)%C) / (1 - g * cexp (- D * tau)%C)))))%C.

Lemma ratio_nz (x y r l : C) : cdiv x y = Some r -> clog r = Some l -> x <> 0.
Proof.
  unfold cdiv. destruct Ceq_dec as [|N]; [discriminate|]. intros [= <-] H ->. unfold clog in H. destruct Ceq_dec as [|M]; [discriminate|].
  apply M. unfold Cdiv. apply Cmult_0_l.
Qed.
Lemma ratio_none (x y r : C) : cdiv x y = Some r -> clog r = None -> x = 0.
Proof.
  unfold cdiv. destruct Ceq_dec as [|N]; [discriminate|]. intros [= <-] H. apply clog_none in H.
  replace x with (x / y * y)%C by (field; assumption). rewrite H. apply Cmult_0_l.
Qed.

Definition wval (p : params) (u : C) : C := (p_kappa p - Ci * p_rho p * p_vv p * u)%C.
Definition dval (p : params) (u : C) : C := csqrt (csq (wval p u) + (csq u + Ci * u) * (p_vv p ^ 2)%R)%C.

Lemma fang_core (p : params) (u : C) :
  chf_fang p u =
  let? ab := core (wval p u) (dval p u) (p_tau p) (p_vv p) in
  Some (cexp (Ci * u * (p_r p - p_q p)%R * p_tau p + p_var0 p * snd ab + (p_kappa p * p_theta p)%R * fst ab)%C).
Proof.
  unfold chf_fang, core. fold (wval p u). fold (dval p u). set (W := wval p u). set (D := dval p u). set (E := cexp (- D * p_tau p)%C).
  destruct (cdiv (W - D)%C (W + D)%C) as [g|]; [|reflexivity]. cbn [obind].
  destruct (Req_EM_T (p_vv p) 0) as [|V]; [reflexivity|]. cbn [obind].
  destruct (cdiv (1 - g * E)%C (1 - g)%C) as [ratio|] eqn:R; cbn [obind].
  2:{ destruct (cdiv (1 - E)%C (1 - g * E)%C); reflexivity. }
  destruct (clog ratio) as [l|] eqn:L; cbn [obind].
  - rewrite cdiv_some by (apply (ratio_nz _ _ _ _ R L)). cbn [obind fst snd]. f_equal. f_equal.
    unfold Rdiv. rewrite !RtoC_mult, !RtoC_minus. ring.
  - destruct (cdiv (1 - E)%C (1 - g * E)%C); reflexivity.
Qed.

Lemma albrecher_core (p : params) (s : R) (u : C) : 0 <= p_var0 p ->
  chf_albrecher p s u =
  let? ab := core (wval p u) (dval p u) (p_tau p) (p_vv p) in
  Some (cexp (Ci * u * (s + (p_r p - p_q p) * p_tau p)%R + p_var0 p * snd ab + (p_kappa p * p_theta p)%R * fst ab)%C).
Proof.
  intros V0. unfold chf_albrecher, core. destruct Rle_dec; [|lra]. cbn [obind].
  replace (csqrt (csq (p_rho p * p_vv p * u * Ci - p_kappa p)%C + (p_vv p ^ 2)%R * (Ci * u + csq u))%C) with (dval p u).
  2:{ unfold dval. f_equal. unfold csq, wval. ring. }
  replace (p_kappa p - p_rho p * p_vv p * Ci * u)%C with (wval p u) by (unfold wval; ring).
  set (W := wval p u). set (D := dval p u). set (E := cexp (- D * p_tau p)%C).
  destruct (cdiv (W - D)%C (W + D)%C) as [g|]; [|reflexivity]. cbn [obind].
  destruct (Req_EM_T (p_vv p) 0) as [|V]; [reflexivity|]. cbn [obind].
  destruct (cdiv (1 - g * E)%C (1 - g)%C) as [ratio|] eqn:R; cbn [obind]; [|reflexivity].
  destruct (clog ratio) as [l|] eqn:L; cbn [obind]; [|reflexivity].
  pose proof (ratio_nz _ _ _ _ R L) as N. rewrite cdiv_some by exact N. cbn [obind fst snd]. f_equal. f_equal.
  replace (sqrt (p_var0 p) ^ 2) with (p_var0 p) by (rewrite <- Rsqr_pow2, Rsqr_sqrt; [reflexivity | assumption]).
  rewrite RtoC_mult. field. exact N.
Qed.

Definition b1 (p : params) (lambda_ : R) (m : nat) : R := match m with 1%nat => p_kappa p + lambda_ - p_rho p * p_vv p | _ => p_kappa p + lambda_ end.
Definition u1 (m : nat) : R := match m with 1%nat => 1 / 2 | _ => - (1 / 2) end.
Definition wval1 (p : params) (lambda_ : R) (m : nat) (phi : C) : C := (b1 p lambda_ m - p_rho p * p_vv p * phi * Ci)%C.
Definition dval1 (p : params) (lambda_ : R) (m : nat) (phi : C) : C :=
  csqrt (csq (wval1 p lambda_ m phi) - (p_vv p ^ 2)%R * (2 * u1 m * phi * Ci - csq phi))%C.
Lemma core_1993 (p : params) (lambda_ s : R) (m : nat) (phi : C) :
  chf_1993 p lambda_ s m phi =
  let? ab := core (wval1 p lambda_ m phi) (dval1 p lambda_ m phi) (p_tau p) (p_vv p) in
  Some (cexp (Ci * phi * (s + (p_r p - p_q p) * p_tau p)%R + p_var0 p * snd ab + (p_kappa p * p_theta p)%R * fst ab)%C).
Proof.
  unfold chf_1993, core.
  fold (b1 p lambda_ m). fold (u1 m). set (b := b1 p lambda_ m). set (um := u1 m).
  replace (csqrt (csq (p_rho p * p_vv p * phi * Ci - b) - (p_vv p ^ 2)%R * (2 * um * phi * Ci - csq phi))%C) with (dval1 p lambda_ m phi).
  2:{ unfold dval1. f_equal. unfold csq, wval1. fold b. fold um. ring. }
  replace (b - p_rho p * p_vv p * phi * Ci)%C with (wval1 p lambda_ m phi) by reflexivity.
  set (W := wval1 p lambda_ m phi). set (D := dval1 p lambda_ m phi). set (E := cexp (- D * p_tau p)%C).
  destruct (cdiv (W - D)%C (W + D)%C) as [g|]; [|reflexivity]. cbn [obind].
  destruct (Req_EM_T (p_vv p) 0) as [|V]; [reflexivity|]. cbn [obind].
  destruct (cdiv (1 - g * E)%C (1 - g)%C) as [ratio|] eqn:R; cbn [obind]; [|reflexivity].
  destruct (clog ratio) as [l|] eqn:L; cbn [obind]; [|reflexivity].
  pose proof (ratio_nz _ _ _ _ R L) as N. rewrite cdiv_some by exact N. cbn [obind fst snd]. f_equal. f_equal.
  assert (V2 : p_vv p ^ 2 <> 0) by (apply pow_nonzero; assumption).
  assert (V2' : RtoC (p_vv p ^ 2) <> 0) by (intros H; injection H; assumption).
  unfold Rdiv. rewrite RtoC_plus, !RtoC_mult, RtoC_minus, (RtoC_inv (p_vv p ^ 2)) by assumption. field. split; assumption.
Qed.

(* ---- consistency ---- *)
Lemma fang_albrecher (p : params) (s : R) (u : C) : 0 <= p_var0 p ->
  chf_albrecher p s u = let? z := chf_fang p u in Some (cexp (Ci * u * s)%C * z)%C.
Proof.
  intros V. rewrite fang_core, albrecher_core by assumption. destruct core as [ab|]; [|reflexivity]. cbn [obind]. f_equal. rewrite <- cexp_add. f_equal.
  rewrite RtoC_plus, RtoC_mult, RtoC_minus. ring.
Qed.
Lemma second_1993 (p : params) (s : R) (u : C) : 0 <= p_var0 p -> chf_1993 p 0 s 2 u = chf_albrecher p s u.
Proof.
  intros V. rewrite core_1993, albrecher_core by assumption.
  replace (wval1 p 0 2 u) with (wval p u) by (unfold wval, wval1, b1; rewrite Rplus_0_r; ring).
  replace (dval1 p 0 2 u) with (dval p u). { reflexivity. }
  unfold dval, dval1, u1. f_equal. replace (wval1 p 0 2 u) with (wval p u) by (unfold wval, wval1, b1; rewrite Rplus_0_r; ring).
  unfold csq. apply c_eq; cbn -[pow]; field.
Qed.
Lemma first_1993 (p : params) (s : R) (u : C) : 0 <= p_var0 p ->
  chf_albrecher p s (u - Ci)%C = let? z := chf_1993 p 0 s 1 u in Some (exp (s + (p_r p - p_q p) * p_tau p) * z)%C.
Proof.
  intros V. rewrite core_1993, albrecher_core by assumption.
  assert (W : wval1 p 0 1 u = wval p (u - Ci)%C). { unfold wval, wval1, b1. rewrite Rplus_0_r, RtoC_minus, RtoC_mult. apply c_eq; cbn -[pow]; ring. }
  rewrite W. replace (dval1 p 0 1 u) with (dval p (u - Ci)%C).
  2:{ unfold dval, dval1, u1. rewrite W. f_equal. unfold csq. apply c_eq; cbn -[pow]; field. }
  destruct core as [ab|]; [|reflexivity]. cbn [obind]. f_equal. rewrite <- cexp_real, <- cexp_add. f_equal.
  apply c_eq; cbn -[pow]; ring.
Qed.
(* the market price of risk changes speed and level of the mean reversion *)
Lemma risk_1993 (p : params) (lambda_ s : R) (u : C) : 0 <= p_var0 p -> p_kappa p + lambda_ <> 0 ->
  chf_1993 p lambda_ s 2 u = chf_albrecher (with_risk p lambda_) s u.
Proof.
  intros V K. rewrite core_1993, albrecher_core by assumption. unfold with_risk. cbn [p_tau p_r p_q p_var0 p_vv p_kappa p_theta p_rho].
  set (p' := mk_params _ _ _ _ _ _ _ _).
  assert (W : wval1 p lambda_ 2 u = wval p' u). { unfold wval, wval1, b1, p'. cbn. ring. }
  rewrite W. replace (dval1 p lambda_ 2 u) with (dval p' u).
  2:{ unfold dval, dval1, u1. rewrite W. f_equal. unfold csq. apply c_eq; cbn -[pow]; field. }
  destruct core as [ab|]; [|reflexivity]. cbn [obind]. do 3 f_equal. unfold p'; cbn. f_equal. f_equal. field. assumption.
Qed.
