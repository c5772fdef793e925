(* Uniqueness of the Riccati solution, modulus and symmetry of the characteristic function *)
From Coq Require Import Reals Lra Psatz.
From Coquelicot Require Import Coquelicot.
From Verif Require Import Base NumModel CurveModel ChfModel ChfSpec CplxProofs ChfProofs RiccatiProofs.
Open Scope R_scope.

(* f' <= c f from f 0 <= 0 keeps f <= 0 *)
Lemma stays_below (f f' c : R -> R) :
  (forall t : R, 0 <= t -> is_derive f t (f' t)) -> (forall t : R, 0 <= t -> continuous c t) -> (forall t : R, 0 <= t -> f' t <= c t * f t) ->
  f 0 <= 0 -> forall t : R, 0 <= t -> f t <= 0.
Proof.
  intros Df Cc Le F0 T HT.
  set (ce := fun t => c (Rmax 0 t)).
  assert (Cce : forall t : R, continuous ce t).
  { intros t. apply (continuous_comp (fun t => Rmax 0 t) c); [|apply Cc, Rmax_l].
    intros P [e He]. exists e. intros y Hy. apply He. unfold ball in *. cbn in *. unfold AbsRing_ball, abs, minus, plus, opp in *. cbn in *.
    eapply Rle_lt_trans; [|exact Hy]. unfold Rmax. destruct (Rle_dec 0 y), (Rle_dec 0 t); unfold Rabs; repeat destruct Rcase_abs; lra. }
  set (G := fun t => RInt ce 0 t).
  assert (DG : forall t : R, is_derive G t (ce t)).
  { intros t. apply (is_derive_RInt ce G 0 t); [|apply Cce]. exists (mkposreal 1 Rlt_0_1). intros y _. apply (RInt_correct (V := R_CompleteNormedModule) ce 0 y). apply (ex_RInt_continuous (V := R_CompleteNormedModule)). intros z _. apply Cce. }
  set (h := fun t => f t * exp (- G t)).
  assert (Dh : forall t : R, 0 <= t -> is_derive h t ((f' t - c t * f t) * exp (- G t))).
  { intros t Ht. evar_last.
    - apply (is_derive_mult (K := R_AbsRing) f (fun s => exp (- G s))); [apply Df, Ht | | intros; apply Rmult_comm].
      apply (is_derive_comp exp (fun s => - G s)); [apply is_derive_exp|]. apply (is_derive_opp (K := R_AbsRing) (V := R_NormedModule)), DG.
    - unfold plus, mult, scal, opp; cbn. unfold mult; cbn. unfold ce. rewrite Rmax_right by assumption. ring. }
  assert (Mono : h T <= h 0).
  { destruct (MVT_gen h 0 T (fun t => (f' t - c t * f t) * exp (- G t))) as (x & Hx & E).
    - intros x. rewrite Rmin_left, Rmax_right by assumption. intros Hx. apply Dh. lra.
    - intros x. rewrite Rmin_left, Rmax_right by assumption. intros Hx. apply continuity_pt_filterlim, (ex_derive_continuous h). eexists. apply Dh. lra.
    - rewrite Rmin_left, Rmax_right in Hx by assumption. pose proof (Le x (proj1 Hx)). pose proof (exp_pos (- G x)).
      assert ((f' x - c x * f x) * exp (- G x) <= 0) by nra. nra. }
  unfold h in Mono. assert (G0 : G 0 = 0) by exact (RInt_point (V := R_CompleteNormedModule) 0 ce). rewrite G0, Ropp_0, exp_0 in Mono. pose proof (exp_pos (- G T)). nra.
Qed.

Lemma derives_cont (f : R -> C) (t : R) (l : C) : derives f t l -> continuous (fun s => fst (f s)) t /\ continuous (fun s => snd (f s)) t.
Proof. intros [H1 H2]. split; apply (ex_derive_continuous (K := R_AbsRing) (V := R_NormedModule)); eexists; eassumption. Qed.

Lemma riccati_unique (p : params) (u : C) (A B A' B' : R -> C) : riccati p u A B -> riccati p u A' B' -> forall t : R, 0 <= t -> A t = A' t /\ B t = B' t.
Proof.
  intros (A0 & B0 & H) (A0' & B0' & H').
  set (n := fun t => fst (B t - B' t)%C ^ 2 + snd (B t - B' t)%C ^ 2).
  set (c := fun t => ((p_vv p ^ 2 / 2)%R * (B t + B' t) - (p_kappa p - Ci * p_rho p * p_vv p * u))%C).
  assert (EB : forall t : R, 0 <= t -> B t = B' t).
  { intros t T. assert (N : n t <= 0).
    { apply (stays_below n (fun t => 2 * fst (c t) * n t) (fun t => 2 * fst (c t))); [| | intros s _; lra | | exact T].
      - intros s S. destruct (H s S) as [[B1 B2] _]. destruct (H' s S) as [[B1' B2'] _]. unfold n. evar_last.
        + apply (is_derive_plus (K := R_AbsRing) (V := R_NormedModule)).
          * apply (is_derive_pow (fun s => fst (B s - B' s)%C) 2). cbn [Cminus Cplus Copp fst]. apply (is_derive_plus (K := R_AbsRing) (V := R_NormedModule)); [exact B1 | apply (is_derive_opp (K := R_AbsRing) (V := R_NormedModule)); exact B1'].
          * apply (is_derive_pow (fun s => snd (B s - B' s)%C) 2). cbn [Cminus Cplus Copp snd]. apply (is_derive_plus (K := R_AbsRing) (V := R_NormedModule)); [exact B2 | apply (is_derive_opp (K := R_AbsRing) (V := R_NormedModule)); exact B2'].
        + unfold plus, opp; cbn -[pow c]. unfold c, n. cbn -[pow]. change (INR 2) with 2. field.
      - intros s S. destruct (derives_cont _ _ _ (proj1 (H s S))) as [C1 C2]. destruct (derives_cont _ _ _ (proj1 (H' s S))) as [C1' C2'].
        apply (continuous_ext (fun s => (p_vv p ^ 2) * (fst (B s) + fst (B' s)) + - 2 * fst (p_kappa p - Ci * p_rho p * p_vv p * u)%C)).
        { intros x. unfold c. cbn -[pow]. field. }
        apply (continuous_plus (V := R_NormedModule) (fun s => (p_vv p ^ 2) * (fst (B s) + fst (B' s))) (fun _ => - 2 * fst (p_kappa p - Ci * p_rho p * p_vv p * u)%C)); [|apply continuous_const].
        apply (continuous_mult (K := R_AbsRing) (fun _ => p_vv p ^ 2) (fun s => fst (B s) + fst (B' s))); [apply continuous_const|].
        apply (continuous_plus (V := R_NormedModule) (fun s => fst (B s)) (fun s => fst (B' s))); assumption.
      - unfold n. rewrite B0, B0'. cbn. lra. }
    unfold n in N. cbn [Cminus Cplus Copp fst snd] in N. set (x := fst (B t) + - fst (B' t)) in N. set (y := snd (B t) + - snd (B' t)) in N.
    assert (X : x = 0) by (apply Rsqr_0_uniq; unfold Rsqr; nra). assert (Y : y = 0) by (apply Rsqr_0_uniq; unfold Rsqr; nra). unfold x, y in X, Y. apply c_eq; lra. }
  assert (Z : forall f : R -> R, (forall t : R, 0 <= t -> is_derive f t 0) -> f 0 = 0 -> forall t : R, 0 <= t -> f t <= 0).
  { intros f Hf F0 t T. apply (stays_below f (fun _ => 0) (fun _ => 0)); [exact Hf | intros; apply continuous_const | intros; lra | lra | exact T]. }
  intros t T. split; [|apply EB, T].
  assert (D1 : forall s : R, 0 <= s -> is_derive (fun s => fst (A s) + - fst (A' s)) s 0 /\ is_derive (fun s => snd (A s) + - snd (A' s)) s 0).
  { intros s S. destruct (H s S) as [_ [A1 A2]]. destruct (H' s S) as [_ [A1' A2']]. rewrite <- (EB s S) in A1', A2'. split.
    - evar_last; [apply (is_derive_plus (K := R_AbsRing) (V := R_NormedModule)); [exact A1 | apply (is_derive_opp (K := R_AbsRing) (V := R_NormedModule)); exact A1']|]. unfold plus, opp; cbn. ring.
    - evar_last; [apply (is_derive_plus (K := R_AbsRing) (V := R_NormedModule)); [exact A2 | apply (is_derive_opp (K := R_AbsRing) (V := R_NormedModule)); exact A2']|]. unfold plus, opp; cbn. ring. }
  assert (D2 : forall f : R -> R, (forall t : R, 0 <= t -> is_derive f t 0) -> forall t : R, 0 <= t -> is_derive (fun s => - f s) t 0).
  { intros f Hf s S. evar_last; [apply (is_derive_opp (K := R_AbsRing) (V := R_NormedModule)), Hf, S|]. unfold opp; cbn. ring. }
  assert (P : forall f : R -> R, (forall t : R, 0 <= t -> is_derive f t 0) -> f 0 = 0 -> forall t : R, 0 <= t -> f t = 0).
  { intros f Hf F0 s S. pose proof (Z f Hf F0 s S). pose proof (Z (fun s => - f s) (D2 f Hf) ltac:(cbn; lra) s S). cbn in *. lra. }
  apply c_eq.
  - pose proof (P _ (fun s S => proj1 (D1 s S)) ltac:(cbn; rewrite A0, A0'; cbn; lra) t T). cbn in *. lra.
  - pose proof (P _ (fun s S => proj2 (D1 s S)) ltac:(cbn; rewrite A0, A0'; cbn; lra) t T). cbn in *. lra.
Qed.

(* real parts of the solution stay negative for real arguments *)
Lemma riccati_negative (p : params) (u : R) (A B : R -> C) : -1 <= p_rho p <= 1 -> 0 <= p_kappa p * p_theta p -> riccati p u A B ->
  forall t : R, 0 <= t -> fst (B t) <= 0 /\ fst (A t) <= 0.
Proof.
  intros Rho Kt (A0 & B0 & H).
  assert (NB : forall t : R, 0 <= t -> fst (B t) <= 0).
  { intros t T. eapply (stays_below (fun t => fst (B t)) _ (fun t => p_vv p ^ 2 / 2 * fst (B t) - p_kappa p)); [intros s S; exact (proj1 (proj1 (H s S))) | | | | exact T].
    - intros s S. destruct (derives_cont _ _ _ (proj1 (H s S))) as [C1 _].
      apply (continuous_minus (V := R_NormedModule) (fun s => p_vv p ^ 2 / 2 * fst (B s)) (fun _ => p_kappa p)); [|apply continuous_const].
      apply (continuous_mult (K := R_AbsRing) (fun _ => p_vv p ^ 2 / 2) (fun s => fst (B s))); [apply continuous_const | exact C1].
    - intros s S. cbn -[pow]. set (x := fst (B s)). set (y := snd (B s)). set (e := p_vv p). set (r := p_rho p) in *.
      assert (0 <= (e * y + r * u) ^ 2 + (1 - r ^ 2) * u ^ 2). { assert (0 <= 1 - r ^ 2) by nra. pose proof (pow2_ge_0 (e * y + r * u)). pose proof (pow2_ge_0 u). nra. }
      nra.
    - cbn. rewrite B0. cbn. lra. }
  intros t T. split; [apply NB, T|].
  eapply (stays_below (fun t => fst (A t)) _ (fun _ => 0)); [intros s S; exact (proj1 (proj2 (H s S))) | intros; apply continuous_const | | rewrite A0; cbn; lra | exact T].
  intros s S. cbn -[pow]. pose proof (NB s S). nra.
Qed.

Lemma regular_tau (p : params) (t : R) : regular p -> regular (with_tau p t).
Proof. intros H. exact H. Qed.
Lemma chf_from_solution (p : params) (u : C) (A B : R -> C) : strip p u -> riccati p u A B ->
  forall t : R, 0 <= t -> chf_fang (with_tau p t) u = Some (cexp (Ci * u * ((p_r p - p_q p) * t)%R + A t + p_var0 p * B t)%C).
Proof.
  intros Reg Ric t T. rewrite fang_core. cbn [with_tau p_tau p_r p_q p_var0 p_vv p_kappa p_theta].
  change (wval (with_tau p t) u) with (wval p u). change (dval (with_tau p t) u) with (dval p u).
  rewrite (core_regular p u Reg t T). cbn [obind fst snd].
  destruct (riccati_unique p u A B _ _ Ric (riccati_solved p u Reg) t T) as [-> ->]. unfold sol_a. f_equal. f_equal. rewrite !RtoC_mult, !RtoC_minus. ring.
Qed.
Lemma chf_defined (p : params) (u : C) : strip p u -> 0 <= p_tau p -> exists z : C, chf_fang p u = Some z.
Proof.
  intros Reg T. rewrite fang_core, (core_regular p u Reg (p_tau p) T). eexists. reflexivity.
Qed.
Lemma chf_bounded (p : params) (u : R) (z : C) : regular p -> 0 <= p_tau p -> 0 <= p_theta p -> 0 <= p_var0 p -> chf_fang p u = Some z -> Cmod z <= 1.
Proof.
  intros Reg T Th V. pose proof Reg as (K & _ & Rho & _).
  destruct (riccati_negative p u _ _ Rho ltac:(apply Rmult_le_pos; lra) (riccati_solved p u (regular_strip p u Reg)) (p_tau p) T) as [NB NA].
  assert (E : p = with_tau p (p_tau p)) by (destruct p; reflexivity). rewrite E at 1. pose proof (regular_strip p u Reg) as Str. rewrite (chf_from_solution p u _ _ Str (riccati_solved p u Str) _ T).
  intros [= <-]. rewrite cexp_mod. cbn [fst snd Cplus Cmult Ci RtoC]. rewrite <- exp_0.
  set (x := _ + _). assert (X : x <= 0) by (unfold x; nra). destruct X as [X | ->]; [left; apply exp_increasing, X | lra].
Qed.

(* ---- conjugation ---- *)
Lemma wval_opp (p : params) (u : C) : wval p (- Cconj u)%C = Cconj (wval p u).
Proof. apply c_eq; unfold wval; cbn; ring. Qed.
Lemma strip_opp (p : params) (u : C) : strip p u -> strip p (- Cconj u)%C.
Proof. unfold strip. destruct u as [a b]. cbn [snd fst Cconj Copp]. rewrite !Ropp_involutive. exact (fun H => H). Qed.
Lemma conj_mult (x y : C) : Cconj (x * y)%C = (Cconj x * Cconj y)%C. Proof. apply c_eq; cbn; ring. Qed.
Lemma conj_plus (x y : C) : Cconj (x + y)%C = (Cconj x + Cconj y)%C. Proof. apply c_eq; cbn; ring. Qed.
Lemma conj_minus (x y : C) : Cconj (x - y)%C = (Cconj x - Cconj y)%C. Proof. apply c_eq; cbn; ring. Qed.
Lemma conj_inv (x : C) : Cconj (/ x)%C = (/ Cconj x)%C.
Proof. apply c_eq; cbn; replace (- snd x * (- snd x * 1)) with (snd x * (snd x * 1)) by ring; [reflexivity | unfold Rdiv; ring]. Qed.
Lemma conj_div (x y : C) : Cconj (x / y)%C = (Cconj x / Cconj y)%C. Proof. unfold Cdiv. rewrite conj_mult, conj_inv. reflexivity. Qed.
Lemma conj_real (x : R) : Cconj (RtoC x) = RtoC x. Proof. apply c_eq; cbn; ring. Qed.
Lemma conj_hlog (z : C) : hlog (Cconj z) = Cconj (hlog z).
Proof.
  unfold hlog, Cconj. cbn [fst snd]. f_equal; [f_equal; f_equal; ring|]. replace (- snd z / fst z) with (- (snd z / fst z)) by (unfold Rdiv; ring). apply atan_opp.
Qed.
Lemma dval_opp (p : params) (u : C) : strip p u -> dval p (- Cconj u)%C = Cconj (dval p u).
Proof.
  intros Reg. unfold dval. rewrite <- csqrt_conj.
  - f_equal. rewrite wval_opp. unfold csq. rewrite !conj_plus, !conj_mult, !conj_plus, !conj_mult, conj_real. apply c_eq; cbn -[pow]; ring.
  - rewrite (s_val p u Reg). cbn [fst]. intros _. left. exact (s_re_pos p u Reg).
Qed.
Lemma chf_conj (p : params) (u z : C) : strip p u -> 0 <= p_tau p -> chf_fang p u = Some z -> chf_fang p (- Cconj u)%C = Some (Cconj z).
Proof.
  intros Reg T. pose proof (strip_opp p u Reg) as Reg'. rewrite !fang_core, (core_regular p u Reg _ T), (core_regular p _ Reg' _ T). cbn [obind fst snd]. intros [= <-]. f_equal.
  rewrite <- cexp_conj. f_equal.
  assert (Eg : gval p (- Cconj u)%C = Cconj (gval p u)). { unfold gval. rewrite wval_opp, dval_opp, conj_div, conj_plus, conj_minus by assumption. reflexivity. }
  assert (Ee : eval_ p (- Cconj u)%C (p_tau p) = Cconj (eval_ p u (p_tau p))). { unfold eval_. rewrite dval_opp by assumption. rewrite <- cexp_conj. f_equal. apply c_eq; cbn; ring. }
  assert (Eb : fun_b p (- Cconj u)%C (p_tau p) = Cconj (fun_b p u (p_tau p))).
  { unfold fun_b. rewrite Eg, Ee, wval_opp, dval_opp by assumption. rewrite !conj_mult, conj_div, !conj_minus, !conj_mult, !conj_real. reflexivity. }
  assert (El : fun_l p (- Cconj u)%C (p_tau p) = Cconj (fun_l p u (p_tau p))).
  { unfold fun_l. rewrite Eg, Ee, wval_opp, dval_opp by assumption. rewrite !conj_mult, !conj_minus, !conj_mult, !conj_minus, !conj_real, <- !conj_hlog, !conj_minus, !conj_mult, !conj_real. reflexivity. }
  rewrite Eb, El, !conj_plus, !conj_mult, !conj_real. apply c_eq; cbn -[fun_b fun_l]; ring.
Qed.
