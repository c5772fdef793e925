From Coq Require Import Reals List Bool Lra Lia Arith.
From Verif Require Import Base NormalModel BlackModel SabrModel SabrSpec SabrProofs.
Import ListNotations.
Open Scope R_scope.

(* ---- real roots of cubics ---- *)
Lemma poly_continuity (a b c d : R) : continuity (poly a b c d).
Proof. unfold poly. intros x. reg. Qed.

Lemma pow_le_bound (m x : R) : 1 <= m -> Rabs x <= m -> Rabs (x ^ 2) <= m ^ 2.
Proof. intros M X. rewrite <- RPow_abs. apply pow_incr. split; [apply Rabs_pos | auto]. Qed.

(* beyond 1 + (|b| + |c| + |d|) / a the leading term wins *)
Lemma cubic_large (a b c d : R) : 0 < a -> exists m, 0 < m /\ (forall x : R, m <= x -> 0 < poly a b c d x) /\ (forall x : R, x <= - m -> poly a b c d x < 0).
Proof.
  intros A. set (s := Rabs b + Rabs c + Rabs d). assert (S0 : 0 <= s) by (unfold s; pose proof (Rabs_pos b); pose proof (Rabs_pos c); pose proof (Rabs_pos d); lra).
  set (m := 1 + s / a). assert (M : 1 <= m) by (unfold m; assert (0 <= s / a) by (apply Rmult_le_pos; [auto | left; apply Rinv_0_lt_compat; auto]); lra).
  assert (AM : a * m = a + s) by (unfold m; field; lra).
  exists m. split; [lra | ].
  assert (B1 := Rle_abs b). assert (B2 := Rle_abs (- b)). rewrite Rabs_Ropp in B2.
  assert (C1 := Rle_abs c). assert (C2 := Rle_abs (- c)). rewrite Rabs_Ropp in C2.
  assert (D1 := Rle_abs d). assert (D2 := Rle_abs (- d)). rewrite Rabs_Ropp in D2.
  assert (PB := Rabs_pos b). assert (PC := Rabs_pos c). assert (PD := Rabs_pos d).
  assert (K : forall y : R, m <= y -> 0 < a * y ^ 3 - (Rabs b * y ^ 2 + Rabs c * y + Rabs d)).
  { intros y Y. assert (Y1 : 1 <= y) by lra. assert (AY : a + s <= a * y) by (rewrite <- AM; apply Rmult_le_compat_l; lra).
    assert (Y2 : y <= y ^ 2) by (replace (y ^ 2) with (y * y) by ring; nra). assert (Y3 : 1 <= y ^ 2) by lra.
    assert (H : (a + s) * y ^ 2 <= a * y * y ^ 2) by (apply Rmult_le_compat_r; lra).
    assert (H2 : Rabs c * y <= Rabs c * y ^ 2) by (apply Rmult_le_compat_l; lra).
    assert (H3 : Rabs d * 1 <= Rabs d * y ^ 2) by (apply Rmult_le_compat_l; lra).
    assert (H4 : 0 < a * y ^ 2) by (apply Rmult_lt_0_compat; lra).
    replace (a * y ^ 3) with (a * y * y ^ 2) by ring. unfold s in H. lra. }
  split; intros x X.
  - specialize (K x X). assert (X1 : 1 <= x) by lra. assert (0 <= x ^ 2) by (apply pow_le; lra). unfold poly.
    assert (- (Rabs b * x ^ 2) <= b * x ^ 2) by nra. assert (- (Rabs c * x) <= c * x) by nra. lra.
  - assert (Y : m <= - x) by lra. specialize (K (- x) Y). assert (0 <= (- x) ^ 2) by (apply pow_le; lra). unfold poly.
    replace ((- x) ^ 3) with (- x ^ 3) in K by ring. replace ((- x) ^ 2) with (x ^ 2) in * by ring.
    assert (b * x ^ 2 <= Rabs b * x ^ 2) by nra. assert (c * x <= Rabs c * - x) by nra. lra.
Qed.

Lemma cubic_root_above (a b c d lo : R) : 0 < a -> poly a b c d lo <= 0 -> exists x, lo <= x /\ poly a b c d x = 0.
Proof.
  intros A L. destruct (cubic_large a b c d A) as (m & M & P & _).
  set (hi := Rmax lo m). assert (H1 : lo <= hi) by apply Rmax_l. assert (H2 : m <= hi) by apply Rmax_r.
  destruct (IVT_cor (poly a b c d) lo hi (poly_continuity a b c d) H1) as (z & [Z1 _] & Z).
  - specialize (P hi H2). assert (0 <= (- poly a b c d lo) * poly a b c d hi) by (apply Rmult_le_pos; lra). lra.
  - exists z. auto.
Qed.
Lemma cubic_root (a b c d : R) : 0 < a -> exists x, poly a b c d x = 0.
Proof.
  intros A. destruct (cubic_large a b c d A) as (m & M & _ & N). destruct (cubic_root_above a b c d (- m) A) as (x & _ & X); [left; apply N; lra | exists x; auto].
Qed.

(* ---- an exact solver ---- *)
Definition cauchy (a b c d : R) : R := 1 + (Rabs b + Rabs c + Rabs d) / Rabs a.
Lemma poly_scale (k a b c d x : R) : poly (k * a) (k * b) (k * c) (k * d) x = k * poly a b c d x.
Proof. unfold poly. ring. Qed.
Lemma cubic_bracket (a b c d : R) : a <> 0 -> poly a b c d (- cauchy a b c d) * poly a b c d (cauchy a b c d) <= 0 /\ 0 < cauchy a b c d.
Proof.
  assert (G : forall a b c d : R, 0 < a -> poly a b c d (- cauchy a b c d) < 0 /\ 0 < poly a b c d (cauchy a b c d) /\ 0 < cauchy a b c d).
  { clear. intros a b c d A. unfold cauchy. rewrite (Rabs_pos_eq a) by lra.
    set (s := Rabs b + Rabs c + Rabs d). assert (PB := Rabs_pos b). assert (PC := Rabs_pos c). assert (PD := Rabs_pos d). assert (S0 : 0 <= s) by (unfold s; lra).
    set (m := 1 + s / a). assert (M : 1 <= m) by (unfold m; assert (0 <= s / a) by (apply Rmult_le_pos; [auto | left; apply Rinv_0_lt_compat; auto]); lra).
    assert (AM : a * m = a + s) by (unfold m; field; lra).
    assert (B1 := Rle_abs b). assert (B2 := Rle_abs (- b)). rewrite Rabs_Ropp in B2.
    assert (C1 := Rle_abs c). assert (C2 := Rle_abs (- c)). rewrite Rabs_Ropp in C2.
    assert (D1 := Rle_abs d). assert (D2 := Rle_abs (- d)). rewrite Rabs_Ropp in D2.
    assert (M2 : m <= m ^ 2) by (replace (m ^ 2) with (m * m) by ring; nra).
    assert (H1 : a * m ^ 3 = (a + s) * m ^ 2) by (rewrite <- AM; ring).
    assert (H2 : Rabs c * m <= Rabs c * m ^ 2) by (apply Rmult_le_compat_l; lra).
    assert (H3 : Rabs d * 1 <= Rabs d * m ^ 2) by (apply Rmult_le_compat_l; lra).
    assert (H4 : 0 < a * m ^ 2) by (apply Rmult_lt_0_compat; lra).
    assert (H5 : - (Rabs b * m ^ 2) <= b * m ^ 2) by nra. assert (H6 : b * m ^ 2 <= Rabs b * m ^ 2) by nra.
    assert (H7 : - (Rabs c * m) <= c * m) by nra. assert (H8 : c * m <= Rabs c * m) by nra.
    unfold s in H1. unfold poly. replace ((- m) ^ 3) with (- m ^ 3) by ring. replace ((- m) ^ 2) with (m ^ 2) by ring. repeat split; lra. }
  intros N. destruct (Rdichotomy _ _ N) as [L | P].
  - destruct (G (- 1 * a) (- 1 * b) (- 1 * c) (- 1 * d)) as (G1 & G2 & G3); [lra | ].
    assert (E : cauchy (- 1 * a) (- 1 * b) (- 1 * c) (- 1 * d) = cauchy a b c d).
    { unfold cauchy. replace (-1 * a) with (- a) by ring. replace (-1 * b) with (- b) by ring. replace (-1 * c) with (- c) by ring. replace (-1 * d) with (- d) by ring. rewrite !Rabs_Ropp. reflexivity. }
    rewrite E in *. rewrite poly_scale in G1, G2. split; [nra | auto].
  - destruct (G a b c d P) as (G1 & G2 & G3). split; [nra | auto].
Qed.

Definition one_root (a b c d : R) (N : a <> 0) : {x : R | poly a b c d x = 0}.
Proof.
  destruct (IVT_cor (poly a b c d) (- cauchy a b c d) (cauchy a b c d) (poly_continuity a b c d)) as (z & _ & Z).
  - pose proof (proj2 (cubic_bracket a b c d N)). lra.
  - apply (proj1 (cubic_bracket a b c d N)).
  - exists z. exact Z.
Defined.

Definition quad_roots (a b c : R) : list R :=
  if Req_EM_T a 0 then (if Req_EM_T b 0 then [] else [- c / b])
  else if Rlt_dec (b * b - 4 * a * c) 0 then [] else [(- b + sqrt (b * b - 4 * a * c)) / (2 * a); (- b - sqrt (b * b - 4 * a * c)) / (2 * a)].
Lemma quad_roots_ok (a b c x : R) : ~ (a = 0 /\ b = 0) -> (In x (quad_roots a b c) <-> a * x ^ 2 + b * x + c = 0).
Proof.
  intros N. unfold quad_roots. destruct (Req_EM_T a 0) as [-> | A].
  - destruct (Req_EM_T b 0) as [-> | B]; [exfalso; auto | ]. split.
    + intros [<- | []]. field. auto.
    + intros E. left. apply (Rmult_eq_reg_l b); auto. transitivity (- c); [field; auto | lra].
  - destruct (Rlt_dec (b * b - 4 * a * c) 0) as [L | L].
    + split; [intros [] | ]. intros E. assert ((2 * a * x + b) * (2 * a * x + b) = b * b - 4 * a * c + 4 * a * (a * x ^ 2 + b * x + c)) by ring.
      rewrite E in H. pose proof (Rle_0_sqr (2 * a * x + b)) as Q. unfold Rsqr in Q. lra.
    + set (s := sqrt _). assert (SS : s * s = b * b - 4 * a * c) by (apply sqrt_sqrt; lra). split.
      * assert (F4 : c = (b * b - s * s) / (4 * a)) by (rewrite SS; field; auto).
        intros [<- | [<- | []]]; rewrite F4; field; auto.
      * intros E. assert (P : (2 * a * x + b - s) * (2 * a * x + b + s) = 0).
        { transitivity (4 * a * (a * x ^ 2 + b * x + c) + (b * b - 4 * a * c) - s * s); [ring | rewrite E, SS; ring]. }
        apply Rmult_integral in P as [P | P]; [left | right; left]; apply (Rmult_eq_reg_l (2 * a)); try lra.
        -- transitivity (- b + s); [field; auto | lra].
        -- transitivity (- b - s); [field; auto | lra].
Qed.

Definition cubic_solver (a b c d : R) : list (R * R) :=
  map (fun x => (x, 0))
      (match Req_EM_T a 0 with
       | left _ => quad_roots b c d
       | right N => let z := proj1_sig (one_root a b c d N) in z :: quad_roots a (b + a * z) (c + (b + a * z) * z)
       end).
Lemma cubic_solver_exact : exact_solver cubic_solver.
Proof.
  split.
  - intros a b c d N x. unfold cubic_solver. rewrite in_map_iff. destruct (Req_EM_T a 0) as [-> | A].
    + split.
      * intros (y & E & I). injection E as ->. apply quad_roots_ok in I; [lra | intros [B C]; apply N; auto].
      * intros E. exists x. split; auto. apply quad_roots_ok; [intros [B C]; apply N; auto | lra].
    + destruct (one_root a b c d A) as [z Z]. cbn [proj1_sig]. unfold poly in Z.
      assert (F : a * x ^ 3 + b * x ^ 2 + c * x + d = (x - z) * (a * x ^ 2 + (b + a * z) * x + (c + (b + a * z) * z))).
      { assert (D : d = - (a * z ^ 3 + b * z ^ 2 + c * z)) by lra. rewrite D. ring. }
      rewrite F. split.
      * intros (y & E & [I | I]); injection E as <-; [rewrite I; ring | ]. apply quad_roots_ok in I; [rewrite I; ring | intros [Q _]; auto].
      * intros E. exists x. split; auto. apply Rmult_integral in E as [E | E]; [left; lra | right]. apply quad_roots_ok; auto. intros [Q _]; auto.
  - intros d. unfold cubic_solver. destruct (Req_EM_T 0 0) as [E | E]; [ | exfalso; auto]. unfold quad_roots.
    destruct (Req_EM_T 0 0); [reflexivity | exfalso; auto].
Qed.

(* ---- solve_alpha_from_sln_vol ---- *)
Lemma in_roots (roots : solver) (a b c d x : R) : exact_solver roots -> d <> 0 -> (In (x, 0) (roots a b c d) <-> poly a b c d x = 0).
Proof.
  intros [E Z] D. destruct (Req_EM_T a 0) as [Ha | Ha]; [destruct (Req_EM_T b 0) as [Hb | Hb]; [destruct (Req_EM_T c 0) as [Hc | Hc] | ] | ].
  - subst. rewrite Z. unfold poly. split; [intros [] | intros Q; exfalso; apply D; lra].
  - apply E. intros (A & B & C). auto.
  - apply E. intros (A & B & C). auto.
  - apply E. intros (A & B & C). auto.
Qed.
Lemma in_roots_sound (roots : solver) (a b c d x : R) : exact_solver roots -> In (x, 0) (roots a b c d) -> poly a b c d x = 0.
Proof.
  intros [E Z] I. destruct (Req_EM_T a 0) as [Ha | Ha]; [destruct (Req_EM_T b 0) as [Hb | Hb]; [destruct (Req_EM_T c 0) as [Hc | Hc] | ] | ].
  - subst. rewrite Z in I. destruct I.
  - apply E in I; auto. intros (A & B & C). auto.
  - apply E in I; auto. intros (A & B & C). auto.
  - apply E in I; auto. intros (A & B & C). auto.
Qed.

Lemma alpha_reprices (roots : solver) (tau F beta rho v vol shift alpha : R) : exact_solver roots -> 0 < F + shift ->
  solve_alpha roots tau F beta rho v vol shift = Ok alpha -> sabr_vol_is tau F alpha beta rho v F shift vol.
Proof.
  intros X P S. pose proof (solve_alpha_cases roots tau F beta rho v vol shift) as C. rewrite S in C. destruct C as [I _].
  apply reprices; auto. apply (in_roots_sound roots); auto.
Qed.
Lemma constant_nonzero (vol F shift beta : R) : vol <> 0 -> - vol * Rpower (F + shift) (1 - beta) <> 0.
Proof. intros V. pose proof (rpower_pos (F + shift) (1 - beta)). apply Rmult_integral_contrapositive_currified; lra. Qed.

Lemma alpha_closest (roots : solver) (tau F beta rho v vol shift alpha other : R) : exact_solver roots -> 0 < F + shift -> vol <> 0 ->
  solve_alpha roots tau F beta rho v vol shift = Ok alpha -> sabr_vol_is tau F other beta rho v F shift vol ->
  Rabs (alpha - vol * Rpower (F + shift) (1 - beta)) <= Rabs (other - vol * Rpower (F + shift) (1 - beta)).
Proof.
  intros X P V S O. pose proof (solve_alpha_cases roots tau F beta rho v vol shift) as C. rewrite S in C. destruct C as [_ M].
  apply M. apply in_roots; auto; [apply constant_nonzero; auto | ]. apply reprices in O; auto.
Qed.
Lemma alpha_iff (roots : solver) (tau F beta rho v vol shift : R) : exact_solver roots -> 0 < F + shift -> vol <> 0 ->
  ((exists alpha, solve_alpha roots tau F beta rho v vol shift = Ok alpha) <-> exists alpha, sabr_vol_is tau F alpha beta rho v F shift vol)
  /\ ((~ exists alpha, sabr_vol_is tau F alpha beta rho v F shift vol) -> solve_alpha roots tau F beta rho v vol shift = Err ValueError).
Proof.
  intros X P V. pose proof (solve_alpha_cases roots tau F beta rho v vol shift) as C.
  destruct (solve_alpha roots tau F beta rho v vol shift) as [x | e] eqn:S.
  - assert (R1 : sabr_vol_is tau F x beta rho v F shift vol) by (apply (alpha_reprices roots); auto).
    split; [split; intros _; exists x; auto | intros N; exfalso; apply N; exists x; auto].
  - destruct C as [-> N]. split; [split | auto].
    + intros (a & A). discriminate.
    + intros (a & A). exfalso. apply (N a). apply in_roots; auto; [apply constant_nonzero; auto | ]. apply reprices in A; auto.
Qed.

Lemma cubic_a_pos (tau F beta : R) : 0 < tau -> beta <> 1 -> 0 < cubic_a tau F beta.
Proof.
  intros T B. unfold cubic_a. pose proof (rpower_pos F (2 - 2 * beta)). apply Rdiv_lt_0_compat; auto. apply Rmult_lt_0_compat; auto.
  assert (0 < (1 - beta) ^ 2); [ | lra]. replace ((1 - beta) ^ 2) with (Rsqr (1 - beta)) by (unfold Rsqr; ring). apply Rsqr_pos_lt. lra.
Qed.

Lemma alpha_exists (tau F beta rho v vol shift : R) : 0 < F + shift -> 0 < tau -> beta <> 1 ->
  (exists alpha, sabr_vol_is tau F alpha beta rho v F shift vol) /\ (0 < vol -> exists alpha, 0 < alpha /\ sabr_vol_is tau F alpha beta rho v F shift vol).
Proof.
  intros P T B. pose proof (cubic_a_pos tau (F + shift) beta T B) as A. split.
  - destruct (cubic_root _ (cubic_b tau (F + shift) beta rho v) (cubic_c tau rho v) (- vol * Rpower (F + shift) (1 - beta)) A) as (x & X).
    exists x. apply reprices; auto.
  - intros V. pose proof (rpower_pos (F + shift) (1 - beta)) as Q. assert (D : 0 < vol * Rpower (F + shift) (1 - beta)) by (apply Rmult_lt_0_compat; auto).
    destruct (cubic_root_above _ (cubic_b tau (F + shift) beta rho v) (cubic_c tau rho v) (- vol * Rpower (F + shift) (1 - beta)) 0 A) as (x & X0 & X).
    + unfold poly. lra.
    + exists x. split; [ | apply reprices; auto]. destruct X0 as [X0 | <-]; auto. unfold poly in X. lra.
Qed.

(* beta = 1: a quadratic *)
Lemma alpha_lognormal (tau F rho v vol shift : R) : 0 < F + shift -> rho * v * tau <> 0 ->
  ((exists alpha, sabr_vol_is tau F alpha 1 rho v F shift vol) <-> 0 <= (1 + (2 - 3 * rho ^ 2) * v ^ 2 * tau / 24) ^ 2 + rho * v * tau * vol).
Proof.
  intros P N.
  assert (E : forall alpha : R, sabr_vol_is tau F alpha 1 rho v F shift vol <-> 1 / 4 * rho * v * tau * alpha ^ 2 + cubic_c tau rho v * alpha + - vol = 0).
  { intros a. rewrite reprices by auto. unfold poly, cubic_a, cubic_b. replace (2 - 2 * 1) with 0 by ring. replace (1 - 1) with 0 by ring. rewrite Rpower_O by auto.
    replace (1 / 24 * 0 ^ 2 * tau / 1 * a ^ 3 + 1 / 4 * rho * 1 * v * tau / 1 * a ^ 2 + cubic_c tau rho v * a + - vol * 1)
      with (1 / 4 * rho * v * tau * a ^ 2 + cubic_c tau rho v * a + - vol) by field. tauto. }
  assert (NZ : ~ (1 / 4 * rho * v * tau = 0 /\ cubic_c tau rho v = 0)) by (intros [Q _]; apply N; lra).
  assert (D : cubic_c tau rho v * cubic_c tau rho v - 4 * (1 / 4 * rho * v * tau) * - vol = (1 + (2 - 3 * rho ^ 2) * v ^ 2 * tau / 24) ^ 2 + rho * v * tau * vol) by (unfold cubic_c; field).
  split.
  - intros (a & A). apply E in A. apply (quad_roots_ok _ _ _ _ NZ) in A. unfold quad_roots in A.
    destruct (Req_EM_T (1 / 4 * rho * v * tau) 0) as [Q | Q]; [exfalso; apply N; lra | ].
    destruct (Rlt_dec _ 0) as [L | L] in A; [destruct A | rewrite D in L; lra].
  - intros L. set (l := quad_roots (1 / 4 * rho * v * tau) (cubic_c tau rho v) (- vol)).
    assert (I : exists x, In x l).
    { unfold l, quad_roots. destruct (Req_EM_T (1 / 4 * rho * v * tau) 0) as [Q | Q]; [exfalso; apply N; lra | ].
      destruct (Rlt_dec _ 0) as [L' | L']; [rewrite D in L'; lra | ]. eexists. left. reflexivity. }
    destruct I as (x & I). exists x. apply E. apply (quad_roots_ok _ _ _ _ NZ). exact I.
Qed.

(* if twice the first guess overshoots the quoted volatility, the alpha chosen is positive *)
Lemma alpha_positive (roots : solver) (tau F beta rho v vol shift alpha y : R) : exact_solver roots -> 0 < F + shift -> 0 < vol ->
  sabr_vol_is tau F (2 * (vol * Rpower (F + shift) (1 - beta))) beta rho v F shift y -> vol <= y ->
  solve_alpha roots tau F beta rho v vol shift = Ok alpha -> 0 < alpha.
Proof.
  intros X P V Y L S. set (g := vol * Rpower (F + shift) (1 - beta)) in *.
  pose proof (rpower_pos (F + shift) (1 - beta)) as Q. assert (G : 0 < g) by (apply Rmult_lt_0_compat; auto).
  set (a := cubic_a tau (F + shift) beta). set (b := cubic_b tau (F + shift) beta rho v). set (c := cubic_c tau rho v). set (d := - vol * Rpower (F + shift) (1 - beta)).
  apply vol_is in Y. rewrite atm_at_forward in Y by auto. injection Y as Y.
  assert (Y2 : 0 <= poly a b c d (2 * g)).
  { unfold poly. unfold a, b, c. rewrite <- atm_cubic by auto. rewrite Y. unfold d.
    assert (0 <= (y - vol) * Rpower (F + shift) (1 - beta)) by (apply Rmult_le_pos; lra). lra. }
  destruct (IVT_cor (poly a b c d) 0 (2 * g) (poly_continuity a b c d)) as (z & [Z0 Z1] & Z); [lra | | ].
  - assert (D0 : poly a b c d 0 = - g) by (unfold poly, d, g; ring). rewrite D0.
    assert (0 <= g * poly a b c d (2 * g)) by (apply Rmult_le_pos; lra). lra.
  - assert (ZP : z <> 0). { intros ->. unfold poly, d in Z. unfold g in G. lra. }
    assert (C : Rabs (alpha - g) <= Rabs (z - g)).
    { apply (alpha_closest roots tau F beta rho v vol shift alpha z); auto; [lra | ]. apply reprices; auto. }
    assert (B : Rabs (z - g) <= g) by (apply Rabs_le; lra).
    assert (A0 : 0 <= alpha). { assert (A1 := Rle_abs (- (alpha - g))). rewrite Rabs_Ropp in A1. lra. }
    assert (A : alpha <> 0). { intros E. assert (R1 := alpha_reprices roots tau F beta rho v vol shift alpha X P S). apply reprices in R1; auto. rewrite E in R1. unfold poly in R1. fold d in R1. unfold d in R1. unfold g in G. lra. }
    lra.
Qed.
