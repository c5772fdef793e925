(* Lipton's integrand against the characteristic function *)
From Coq Require Import Reals Lra Psatz.
From Coquelicot Require Import Coquelicot.
From Verif Require Import Base NumModel CurveModel ChfModel ChfSpec CplxProofs ChfProofs RiccatiProofs RiccatiUniqueProofs.
Open Scope R_scope.

Definition line (v : R) : C := (- v - (1 / 2)%R * Ci)%C.
Definition khat (p : params) : R := p_kappa p - p_rho p * p_vv p / 2.
(* the code's linear term, and the right one *)
Definition wcode (p : params) : C := (Ci * p_kappa p * p_rho p * p_vv p + khat p)%C.
Lemma w_line (p : params) (v : R) : wval p (line v) = (khat p, p_rho p * p_vv p * v).
Proof. unfold wval, line, khat. apply c_eq; cbn; field. Qed.
Lemma w_code (p : params) : wcode p = (khat p, p_rho p * p_vv p * p_kappa p).
Proof. unfold wcode. apply c_eq; cbn; ring. Qed.
Definition zeta2 (p : params) (v : R) : C := (v ^ 2 * p_vv p ^ 2 * (1 - p_rho p ^ 2) + khat p ^ 2 + p_vv p ^ 2 / 4, 2 * v * p_vv p * p_rho p * khat p).
Lemma d_line (p : params) (v : R) : dval p (line v) = csqrt (zeta2 p v).
Proof. unfold dval. f_equal. rewrite w_line. unfold csq, zeta2, line. apply c_eq; cbn; field. Qed.
Lemma dw_line (p : params) (v : R) : (dval p (line v) * dval p (line v) - wval p (line v) * wval p (line v))%C = RtoC (p_vv p ^ 2 * (v ^ 2 + 1 / 4)).
Proof. rewrite d_line. change (csqrt (zeta2 p v) * csqrt (zeta2 p v))%C with (csq (csqrt (zeta2 p v))). rewrite csqrt_sq, w_line. unfold zeta2. apply c_eq; cbn; field. Qed.

(* the code, given its linear term *)
Definition lipton_with (p : params) (W D : C) (X v : R) : option R :=
  (let? ratio := cdiv (W + D + (D - W) * cexp (- D * p_tau p)) (2 * D) in
   let? l := clog ratio in
   let? a := if Req_EM_T (p_vv p) 0 then None else Some (- p_kappa p * p_theta p / p_vv p ^ 2)%R in
   let? beta := cdiv (1 - cexp (- D * p_tau p)) (W + D + (D - W) * cexp (- D * p_tau p)) in
   Some (Re (cexp ((- Ci * v + (1 / 2)%R) * X + a * ((D - W) * p_tau p + 2 * l) - (v ^ 2 + 1 / 4)%R * beta * p_var0 p)%C) / (v ^ 2 + 1 / 4))%R)%C.
Lemma lipton_code (p : params) (S0 K v : R) : 0 < S0 -> 0 < K ->
  integrand_lipton p S0 K v = lipton_with p (wcode p) (dval p (line v)) (ln (S0 / K) + (p_r p - p_q p) * p_tau p) v.
Proof.
  intros HS HK. unfold integrand_lipton. destruct Req_EM_T; [lra|]. unfold log_of. destruct Rlt_dec as [_|N]; [|exfalso; apply N; apply Rdiv_lt_0_compat; assumption]. cbn [obind].
  rewrite d_line. fold (khat p).
  replace ((v ^ 2 * p_vv p ^ 2 * (1 - p_rho p ^ 2))%R + 2 * Ci * v * p_vv p * p_rho p * khat p + (khat p ^ 2)%R + (p_vv p ^ 2 / 4)%R)%C with (zeta2 p v).
  2:{ unfold zeta2. apply c_eq; cbn; field. }
  fold (wcode p). unfold lipton_with. set (D := csqrt (zeta2 p v)). set (W := wcode p).
  replace (- W + D)%C with (D - W)%C by ring. reflexivity.
Qed.
Lemma lipton_right (p : params) (S0 K v : R) :
  lipton_target p S0 K v = lipton_with p (wval p (line v)) (dval p (line v)) (ln (S0 / K) + (p_r p - p_q p) * p_tau p) v.
Proof.
  unfold lipton_target. change (- v - (1 / 2)%R * Ci)%C with (line v). rewrite fang_core. unfold core, lipton_with.
  pose proof (dw_line p v) as Q. set (W := wval p (line v)) in *. set (D := dval p (line v)) in *. set (E := cexp (- D * p_tau p)%C).
  destruct (Req_EM_T (p_vv p) 0) as [Z|NZ].
  { destruct (cdiv (W + D + (D - W) * E)%C (2 * D)%C) as [r|]; cbn [obind]; [destruct (clog r); cbn [obind]|]; destruct (cdiv (W - D)%C (W + D)%C); reflexivity. }
  assert (E2 : p_vv p ^ 2 <> 0) by (apply pow_nonzero; exact NZ).
  assert (V : 0 < v ^ 2 + 1 / 4) by nra.
  assert (WD : (W + D)%C <> RtoC 0).
  { intros H. assert (DD : (D * D - W * W)%C = RtoC 0). { replace (D * D - W * W)%C with ((W + D) * (D - W))%C by ring. rewrite H. ring. } rewrite Q in DD. apply (f_equal fst) in DD. cbn [fst RtoC] in DD. apply Rmult_integral in DD. destruct DD; [contradiction | lra]. }
  rewrite cdiv_some by exact WD. cbn [obind].
  assert (T : RtoC 2 = (1 + 1)%C) by (apply c_eq; cbn; lra).
  assert (T0 : RtoC 2 <> RtoC 0) by (intros H; apply (f_equal fst) in H; cbn in H; lra).
  destruct (Ceq_dec D 0) as [D0|DN].
  { rewrite D0. assert (W0 : W <> RtoC 0) by (intros H; apply WD; rewrite H, D0; ring).
    replace (2 * 0)%C with (RtoC 0) by ring. rewrite cdiv_none. replace (W - 0)%C with W by ring. replace (W + 0)%C with W by ring. replace (W / W)%C with (RtoC 1) by (field; exact W0). replace (1 - 1 * cexp (- 0 * p_tau p)%C)%C with (1 - 1 * E)%C by (unfold E; rewrite D0; reflexivity). replace (1 - 1)%C with (RtoC 0) by ring. rewrite cdiv_none. reflexivity. }
  set (g := ((W - D) / (W + D))%C).
  assert (G1 : (1 - g)%C = (2 * D / (W + D))%C) by (unfold g; rewrite T; field; exact WD).
  assert (G2 : (1 - g * E)%C = ((W + D + (D - W) * E) / (W + D))%C) by (unfold g; field; exact WD).
  assert (D2 : (2 * D)%C <> RtoC 0) by (apply Cmult_neq_0; assumption).
  assert (N1 : (1 - g)%C <> RtoC 0). { intros H. apply D2. rewrite G1 in H. replace (2 * D)%C with (2 * D / (W + D) * (W + D))%C by (field; exact WD). rewrite H. ring. }
  rewrite !cdiv_some by assumption. cbn [obind].
  assert (Rat : ((1 - g * E) / (1 - g))%C = ((W + D + (D - W) * E) / (2 * D))%C). { rewrite G2, G1. field. repeat split; assumption. }
  rewrite Rat. destruct (clog ((W + D + (D - W) * E) / (2 * D))%C) as [l|] eqn:L; [|reflexivity]. cbn [obind].
  assert (N2 : (W + D + (D - W) * E)%C <> RtoC 0). { intros H. rewrite H in L. replace (0 / (2 * D))%C with (RtoC 0) in L by (unfold Cdiv; ring). rewrite (proj2 (clog_none 0) eq_refl) in L. discriminate. }
  rewrite cdiv_some by exact N2. cbn [obind fst snd]. f_equal. f_equal. f_equal. rewrite <- cexp_add. f_equal.
  assert (N3 : RtoC (p_vv p ^ 2) <> RtoC 0) by (intros H; apply (f_equal fst) in H; exact (E2 H)).
  assert (B : ((/ p_vv p ^ 2)%R * ((W - D) * ((1 - E) / (1 - g * E))))%C = (- (v ^ 2 + 1 / 4)%R * ((1 - E) / (W + D + (D - W) * E)))%C).
  { rewrite G2, RtoC_inv by exact E2. transitivity (- (D * D - W * W) / (p_vv p ^ 2)%R * ((1 - E) / (W + D + (D - W) * E)))%C; [field; repeat split; assumption|].
    rewrite Q, RtoC_mult. field. split; assumption. }
  rewrite B. replace (RtoC (- p_kappa p * p_theta p / p_vv p ^ 2)) with (- (p_kappa p * p_theta p)%R * (/ p_vv p ^ 2)%R)%C by (apply c_eq; cbn -[pow]; field; first [exact NZ | exact E2]).
  set (b := ((1 - E) / (W + D + (D - W) * E))%C). set (i2 := RtoC (/ p_vv p ^ 2)).
  replace (Ci * line v)%C with ((1 / 2)%R - Ci * v)%C by (unfold line; apply c_eq; cbn; ring).
  rewrite !RtoC_plus, !RtoC_mult. ring.
Qed.

(* ---- when the two agree ---- *)
Section Line.
Variables (p : params) (v : R).
Hypothesis reg : regular p.
Hypothesis tau_pos : 0 < p_tau p.
Let D := dval p (line v). Let E := cexp (- D * p_tau p)%C.
Lemma line_re : 0 < fst D.
Proof.
  unfold D. rewrite d_line. apply csqrt_re_pos. destruct reg as (K & V & Rho & _). cbn [zeta2 fst].
  assert (0 <= v ^ 2 * p_vv p ^ 2 * (1 - p_rho p ^ 2)) by (apply Rmult_le_pos; [apply Rmult_le_pos; apply pow2_ge_0 | nra]). assert (0 < p_vv p ^ 2) by (apply pow_lt; exact V). pose proof (pow2_ge_0 (khat p)). lra.
Qed.
Lemma line_e : Cmod E < 1.
Proof.
  unfold E. rewrite cexp_mod. cbn [fst snd Cmult Copp RtoC]. pose proof line_re. rewrite <- exp_0. apply exp_increasing. assert (0 < fst D * p_tau p) by (apply Rmult_lt_0_compat; assumption). lra.
Qed.
Lemma line_den : (wval p (line v) + D + (D - wval p (line v)) * E)%C <> RtoC 0.
Proof.
  intros H. set (W := wval p (line v)) in *. assert (M : Cmod (W + D)%C = Cmod ((W - D) * E)%C). { f_equal. replace (W + D)%C with (W + D + (D - W) * E + (W - D) * E)%C by ring. rewrite H. ring. }
  rewrite Cmod_mult in M. pose proof line_re as P. destruct reg as (K & V & Rho & R4).
  assert (Le : Cmod (W - D)%C <= Cmod (W + D)%C).
  { apply Rsqr_incr_0; [|apply Cmod_ge_0|apply Cmod_ge_0]. rewrite !Rsqr_pow2, !mod2. cbn [Cminus Cplus Copp fst snd].
    assert (0 <= fst W * fst D + snd W * snd D); [|nra]. unfold W. rewrite w_line. cbn [fst snd].
    assert (I : 2 * fst D * snd D = 2 * v * p_vv p * p_rho p * khat p). { pose proof (csqrt_sq (zeta2 p v)) as Q. rewrite <- d_line in Q. fold D in Q. apply (f_equal snd) in Q. cbn [snd csq Cmult zeta2] in Q. lra. }
    assert (KH : 0 <= khat p) by (unfold khat; lra).
    apply (Rmult_le_reg_l (fst D)); [exact P|]. rewrite Rmult_0_r. replace (fst D * (khat p * fst D + p_rho p * p_vv p * v * snd D)) with (khat p * fst D ^ 2 + p_rho p * p_vv p * v * (2 * fst D * snd D) / 2) by field. rewrite I.
    replace (khat p * fst D ^ 2 + p_rho p * p_vv p * v * (2 * v * p_vv p * p_rho p * khat p) / 2) with (khat p * (fst D ^ 2 + (p_rho p * p_vv p * v) ^ 2)) by field.
    apply Rmult_le_pos; [exact KH|]. pose proof (pow2_ge_0 (fst D)). pose proof (pow2_ge_0 (p_rho p * p_vv p * v)). lra. }
  assert (Pos : 0 < Cmod (W + D)%C). { apply Cmod_gt_0. intros H'. apply (f_equal fst) in H'. unfold W in H'. rewrite w_line in H'. cbn [fst Cplus RtoC] in H'. unfold khat in H'. lra. }
  pose proof line_e as Q. pose proof (Cmod_ge_0 (W - D)%C). pose proof (Cmod_ge_0 E). assert (Cmod (W - D)%C * Cmod E < Cmod (W + D)%C); [|lra].
  destruct (Rle_lt_or_eq_dec _ _ (Cmod_ge_0 (W - D)%C)) as [P1|P1]; [|rewrite <- P1; lra]. assert (Cmod (W - D)%C * Cmod E < Cmod (W - D)%C * 1) by (apply Rmult_lt_compat_l; assumption). lra.
Qed.
Lemma e_not_one : E <> RtoC 1.
Proof. intros H. pose proof line_e as L. rewrite H, Cmod_1 in L. lra. Qed.
Lemma d_nz : D <> RtoC 0.
Proof. intros H. pose proof line_re as P. rewrite H in P. cbn in P. lra. Qed.
End Line.

Lemma re_zero (v : R) (z : C) : 0 < v -> (forall X : R, Re (cexp ((- Ci * v + (1 / 2)%R) * X)%C * z)%C = 0) -> z = RtoC 0.
Proof.
  intros V H. assert (E1 : cexp ((- Ci * v + (1 / 2)%R) * 0)%C = RtoC 1) by (rewrite <- cexp_0; f_equal; ring).
  pose proof (H 0) as H0. rewrite E1, Cmult_1_l in H0. pose proof (H (PI / (2 * v))) as H1.
  unfold cexp in H1. cbn [fst snd Cmult Cplus Copp Ci RtoC Re] in H1.
  replace ((- 0 * v - - (1) * 0 + 1 / 2) * 0 + (- 0 * 0 + - (1) * v + 0) * (PI / (2 * v))) with (- (PI / 2)) in H1 by (field; lra).
  rewrite cos_neg, sin_neg, cos_PI2, sin_PI2 in H1. unfold Re in *. cbn [fst] in H1. set (e := exp _) in H1. assert (P : 0 < e) by apply exp_pos.
  apply c_eq; cbn [fst snd RtoC]; [exact H0|]. nra.
Qed.
Lemma some_inj (A : Type) (x y : A) : Some x = Some y -> x = y. Proof. congruence. Qed.
Lemma div_inj (x y c : R) : c <> 0 -> x / c = y / c -> x = y. Proof. intros N H. replace x with (x / c * c) by (field; exact N). rewrite H. field. exact N. Qed.
Lemma exp_one (d : C) : (forall x : R, 0 <= x -> cexp (d * x)%C = RtoC 1) -> d = RtoC 0.
Proof.
  intros H. assert (R0 : fst d = 0).
  { pose proof (H 1 ltac:(lra)) as H1. apply (f_equal Cmod) in H1. rewrite cexp_mod, Cmod_1 in H1. cbn [fst Cmult RtoC snd] in H1. replace (fst d * 1 - snd d * 0) with (fst d) in H1 by ring. rewrite <- exp_0 in H1. apply exp_inv in H1. lra. }
  apply c_eq; cbn [fst snd RtoC]; [exact R0|]. destruct (Req_dec (snd d) 0) as [Z|N]; [exact Z|]. exfalso.
  assert (A : 0 < Rabs (snd d)) by (apply Rabs_pos_lt; exact N). pose proof PI_RGT_0.
  pose proof (H (PI / Rabs (snd d)) ltac:(apply Rlt_le, Rdiv_lt_0_compat; assumption)) as H1. apply (f_equal fst) in H1. unfold cexp in H1. cbn [fst Cmult RtoC snd] in H1. rewrite R0 in H1.
  replace (0 * (PI / Rabs (snd d)) - snd d * 0) with 0 in H1 by ring. rewrite exp_0, Rmult_0_l, Rplus_0_l, Rmult_1_l in H1.
  assert (C0 : cos (snd d * (PI / Rabs (snd d))) = -1).
  { unfold Rabs. destruct (Rcase_abs (snd d)).
    - replace (snd d * (PI / - snd d)) with (- PI) by (field; lra). rewrite cos_neg. apply cos_PI.
    - replace (snd d * (PI / snd d)) with PI by (field; lra). apply cos_PI. }
  lra.
Qed.

Lemma lipton_iff (p : params) (v : R) : regular p -> 0 < p_tau p -> 0 < v ->
  ((forall S0 K var0 : R, 0 < S0 -> 0 < K -> 0 <= var0 -> integrand_lipton (with_var0 p var0) S0 K v = lipton_target (with_var0 p var0) S0 K v) <-> p_rho p = 0 \/ v = p_kappa p).
Proof.
  intros Reg T V. assert (Eta : 0 < p_vv p) by (destruct Reg; tauto). split.
  2:{ intros H S0 K var0 HS HK _. rewrite lipton_code, lipton_right by assumption. f_equal. rewrite w_code, w_line. unfold khat. cbn [with_var0 p_rho p_vv p_kappa]. f_equal. destruct H as [->| ->]; ring. }
  intros H. set (W := wval p (line v)). set (W' := wcode p). set (D := dval p (line v)). set (E := cexp (- D * p_tau p)%C).
  pose proof (line_den p v Reg T) as N. fold W D E in N. pose proof (d_nz p v Reg) as DN. fold D in DN. pose proof (e_not_one p v Reg T) as E1. fold D E in E1.
  assert (T0 : RtoC 2 <> RtoC 0) by (intros Z; apply (f_equal fst) in Z; cbn in Z; lra). assert (D2 : (2 * D)%C <> RtoC 0) by (apply Cmult_neq_0; assumption).
  assert (K1 : 0 < v ^ 2 + 1 / 4) by nra.
  assert (G : forall X x : R, 0 <= x -> lipton_with (with_var0 p x) W' D X v = lipton_with (with_var0 p x) W D X v).
  { intros X x Hx. pose proof (H (exp (X - (p_r p - p_q p) * p_tau p)) 1 x (exp_pos _) Rlt_0_1 Hx) as Q. rewrite lipton_code, lipton_right in Q by (try apply exp_pos; lra).
    cbn [with_var0 p_tau p_r p_q] in Q. replace (ln (exp (X - (p_r p - p_q p) * p_tau p) / 1) + (p_r p - p_q p) * p_tau p) with X in Q; [exact Q|]. unfold Rdiv. rewrite Rinv_1, Rmult_1_r, ln_exp. ring. }
  set (a := RtoC (- p_kappa p * p_theta p / p_vv p ^ 2)).
  unfold lipton_with in G. cbn [with_var0 p_tau p_vv p_kappa p_theta p_var0] in G. fold E a in G.
  assert (LW : exists l, clog ((W + D + (D - W) * E) / (2 * D))%C = Some l).
  { destruct (clog ((W + D + (D - W) * E) / (2 * D))%C) eqn:L; [eexists; reflexivity|]. exfalso. apply clog_none in L. apply N. replace (W + D + (D - W) * E)%C with ((W + D + (D - W) * E) / (2 * D) * (2 * D))%C by (field; split; assumption). rewrite L. ring. }
  destruct LW as [l Hl]. destruct (Req_EM_T (p_vv p) 0) as [Z|_]; [lra|].
  pose proof (G 0 0 ltac:(lra)) as G0. rewrite !(fun x => cdiv_some x _ D2) in G0. cbn [obind] in G0. rewrite Hl in G0. cbn [obind] in G0. rewrite (cdiv_some _ _ N) in G0. cbn [obind] in G0.
  destruct (clog ((W' + D + (D - W') * E) / (2 * D))%C) as [l'|] eqn:Hl'; [|discriminate]. cbn [obind] in G0.
  assert (N' : (W' + D + (D - W') * E)%C <> RtoC 0). { intros Z. rewrite Z, cdiv_none in G0. discriminate. }
  clear G0. set (b := ((1 - E) / (W + D + (D - W) * E))%C). set (b' := ((1 - E) / (W' + D + (D - W') * E))%C). set (c := (v ^ 2 + 1 / 4)%R) in *.
  assert (Z : forall x : R, 0 <= x -> cexp (a * ((D - W') * p_tau p + 2 * l') - c * b' * x)%C = cexp (a * ((D - W) * p_tau p + 2 * l) - c * b * x)%C).
  { intros x Hx. set (z' := cexp (a * ((D - W') * p_tau p + 2 * l') - c * b' * x)%C). set (z := cexp (a * ((D - W) * p_tau p + 2 * l) - c * b * x)%C).
    assert (Z0 : (z' - z)%C = RtoC 0).
    { apply (re_zero v); [exact V|]. intros X. pose proof (G X x Hx) as Q. rewrite !(fun x => cdiv_some x _ D2) in Q. cbn [obind] in Q. rewrite Hl, Hl' in Q. cbn [obind] in Q. rewrite (cdiv_some _ _ N), (cdiv_some _ _ N') in Q. cbn [obind] in Q. fold b b' in Q.
      apply some_inj in Q. apply (div_inj _ _ c ltac:(apply Rgt_not_eq; exact K1)) in Q. fold a in Q.
      replace ((- Ci * v + (1 / 2)%R) * X + a * ((D - W') * p_tau p + 2 * l') - c * b' * x)%C with ((- Ci * v + (1 / 2)%R) * X + (a * ((D - W') * p_tau p + 2 * l') - c * b' * x))%C in Q by ring.
      replace ((- Ci * v + (1 / 2)%R) * X + a * ((D - W) * p_tau p + 2 * l) - c * b * x)%C with ((- Ci * v + (1 / 2)%R) * X + (a * ((D - W) * p_tau p + 2 * l) - c * b * x))%C in Q by ring.
      rewrite !cexp_add in Q. fold z z' in Q. set (y := cexp _) in *. clearbody y z z'. unfold Re in *. cbn in *. lra. }
    replace z' with (z' - z + z)%C by ring. rewrite Z0. ring. }
  assert (Bd : (- (c * (b' - b)))%C = RtoC 0).
  { apply exp_one. intros x Hx. pose proof (Z x Hx) as Zx. pose proof (Z 0 ltac:(lra)) as Z0. replace (c * b' * 0)%C with (RtoC 0) in Z0 by ring. replace (c * b * 0)%C with (RtoC 0) in Z0 by ring.
    unfold Cminus in Zx, Z0. rewrite !cexp_add in Zx, Z0. replace (- RtoC 0)%C with (RtoC 0) in Z0 by ring. rewrite cexp_0, !Cmult_1_r in Z0. rewrite Z0 in Zx.
    set (m := cexp (a * ((D + - W) * p_tau p + 2 * l))%C) in *. assert (M : m <> RtoC 0) by apply cexp_nz.
    assert (X : cexp (- (c * b' * x))%C = cexp (- (c * b * x))%C). { replace (cexp (- (c * b' * x))%C) with (/ m * (m * cexp (- (c * b' * x))%C))%C by (field; exact M). rewrite Zx. field. exact M. }
    replace (- (c * (b' - b)) * x)%C with (- (c * b' * x) + - - (c * b * x))%C by ring. rewrite cexp_add, X, <- cexp_add, <- cexp_0. f_equal. ring. }
  assert (C0 : RtoC c <> RtoC 0) by (intros Y; apply (f_equal fst) in Y; cbn [fst RtoC] in Y; lra).
  assert (Bb : b' = b). { replace b' with (b + - / c * (- (c * (b' - b))))%C by (field; exact C0). rewrite Bd. ring. }
  assert (E0 : (1 - E)%C <> RtoC 0). { intros Y. apply E1. replace E with (1 - (1 - E))%C by ring. rewrite Y. ring. }
  assert (Dn : (W + D + (D - W) * E)%C = (W' + D + (D - W') * E)%C).
  { unfold b, b' in Bb. replace (W + D + (D - W) * E)%C with ((1 - E) / ((1 - E) / (W + D + (D - W) * E)))%C by (field; split; assumption). rewrite <- Bb. field. split; assumption. }
  assert (WW : W = W'). { replace W with (W' + ((W + D + (D - W) * E) - (W' + D + (D - W') * E)) / (1 - E))%C by (field; exact E0). rewrite Dn. unfold Cdiv, Cminus. ring. }
  apply (f_equal snd) in WW. unfold W, W' in WW. rewrite w_line, w_code in WW. cbn [snd] in WW. assert (P0 : p_vv p * (p_rho p * (v - p_kappa p)) = 0) by lra.
  apply Rmult_integral in P0. destruct P0 as [P0|P0]; [lra|]. apply Rmult_integral in P0. destruct P0; [left; assumption | right; lra].
Qed.
