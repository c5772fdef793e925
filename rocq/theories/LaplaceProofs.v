(* sin (c x) / x and Laplace's integrals of cos (b x) / (1 + x^2) and x sin (b x) / (1 + x^2) *)
From Coq Require Import Reals Lra Psatz.
From Coquelicot Require Import Coquelicot.
From Verif Require Import SincProofs.
Open Scope R_scope.

Ltac rr := match goal with |- ?a = ?b => change (@eq R a b) end.
Definition sign_of (x : R) : R := if Rlt_dec 0 x then 1 else if Rlt_dec x 0 then -1 else 0.
Lemma sign_pos (x : R) : 0 < x -> sign_of x = 1. Proof. intros. unfold sign_of. destruct Rlt_dec; [reflexivity | contradiction]. Qed.
Lemma sign_neg (x : R) : x < 0 -> sign_of x = -1. Proof. intros. unfold sign_of. destruct Rlt_dec; [lra | ]. destruct Rlt_dec; [reflexivity | contradiction]. Qed.
Lemma sign_0 : sign_of 0 = 0. Proof. unfold sign_of. repeat (destruct Rlt_dec; [lra | ]). reflexivity. Qed.

Lemma sin_over_int (c e T : R) : 0 < c -> 0 < e -> e <= T -> is_RInt (fun y => sin (c * y) / y) e T (RInt (fun y => sin y / y) (c * e) (c * T)).
Proof.
  intros C E L. pose proof (sinc_int (c * e) (c * T) ltac:(nra) ltac:(nra)) as I. rewrite <- (Rplus_0_r (c * e)), <- (Rplus_0_r (c * T)) in I at 1.
  apply (is_RInt_comp_lin (V := R_NormedModule)) in I. revert I. apply is_RInt_ext. intros y. rewrite Rmin_left, Rmax_right by lra. intros Y. unfold scal. cbn. unfold mult. cbn. rewrite Rplus_0_r. field. split; nra.
Qed.
Lemma sin_over_bound (c e T : R) : 0 < c -> 0 < e -> e <= T -> Rabs (RInt (fun y => sin (c * y) / y) e T - PI / 2) <= 2 / (c * T) + c * e.
Proof.
  intros C E L. rewrite (is_RInt_unique _ _ _ _ (sin_over_int c e T C E L)). apply dirichlet_bound; nra.
Qed.
Lemma small_choice (A B eps : R) : 0 <= A -> 0 <= B -> 0 < eps -> exists d M : R, 0 < d /\ d <= 1 /\ 1 <= M /\ forall e T : R, 0 < e -> e < d -> M < T -> A / T + B * e < eps.
Proof.
  intros A0 B0 P. exists (Rmin 1 (eps / (2 * (B + 1)))), (Rmax 1 (2 * (A + 1) / eps)).
  assert (0 < eps / (2 * (B + 1))) by (apply Rdiv_lt_0_compat; lra). assert (0 < 2 * (A + 1) / eps) by (apply Rdiv_lt_0_compat; lra).
  split; [apply Rmin_pos; lra | ]. split; [apply Rmin_l | ]. split; [apply Rmax_l | ]. intros e T E1 E2 HT. pose proof (Rmin_r 1 (eps / (2 * (B + 1)))) as Q. pose proof (Rmax_r 1 (2 * (A + 1) / eps)) as S. pose proof (Rmax_l 1 (2 * (A + 1) / eps)).
  assert (E3 : e < eps / (2 * (B + 1))) by lra. apply Rlt_div_r in E3; [ | lra]. assert (T3 : 2 * (A + 1) / eps < T) by lra. apply Rlt_div_l in T3; [ | lra].
  assert (A / T < eps / 2) by (apply Rlt_div_l; lra). nra.
Qed.
Lemma sin_over (c : R) : is_RInt_gen (fun y => sin (c * y) / y) (at_right 0) (Rbar_locally p_infty) (sign_of c * (PI / 2)).
Proof.
  assert (P : forall c, 0 < c -> forall eps : R, 0 < eps -> exists d B : R, 0 < d /\ forall e T : R, 0 < e -> e < d -> B < T -> Rabs (RInt (fun y => sin y / y) (c * e) (c * T) - PI / 2) < eps).
  { clear c. intros c C eps Q. assert (X : 0 < 2 / c) by (apply Rdiv_lt_0_compat; lra). destruct (small_choice (2 / c) c eps ltac:(lra) ltac:(lra) Q) as (d & M & D0 & D1 & M1 & H). exists d, M. split; [exact D0 | ].
    intros e T E1 E2 HT. apply Rle_lt_trans with (2 / (c * T) + c * e); [apply dirichlet_bound; nra | ]. replace (2 / (c * T)) with (2 / c / T) by (field; lra). apply H; assumption. }
  destruct (Rtotal_order 0 c) as [C | [C | C]].
  - rewrite sign_pos, Rmult_1_l by exact C. apply (gen_intro _ (fun e T => RInt (fun y => sin y / y) (c * e) (c * T))); [intros; apply sin_over_int; assumption | apply P; exact C].
  - subst c. rewrite sign_0, Rmult_0_l. apply (gen_intro _ (fun _ _ => 0)).
    + intros e T _ _. apply (is_RInt_ext (fun _ => 0)); [intros y _; rewrite Rmult_0_l, sin_0; unfold Rdiv; symmetry; apply Rmult_0_l | ]. evar_last; [apply (is_RInt_const (V := R_NormedModule)) | ]. unfold scal. cbn. unfold mult. cbn. rr. ring.
    + intros eps Q. exists 1, 0. split; [lra | ]. intros. rewrite Rminus_0_r, Rabs_R0. exact Q.
  - rewrite sign_neg by lra. apply (gen_intro _ (fun e T => - RInt (fun y => sin y / y) (- c * e) (- c * T))).
    + intros e T E L. apply (is_RInt_ext (fun y => - (sin (- c * y) / y))); [intros y _; replace (- c * y) with (- (c * y)) by ring; rewrite sin_neg; rr; unfold Rdiv; ring | ].
      apply (is_RInt_opp (V := R_NormedModule)). apply sin_over_int; lra.
    + intros eps Q. destruct (P (- c) ltac:(lra) eps Q) as (d & B & D & H). exists d, B. split; [exact D | ]. intros e T E1 E2 HT. specialize (H e T E1 E2 HT). rewrite <- Rabs_Ropp. revert H. generalize (RInt (fun y => sin y / y) (- c * e) (- c * T)). intros x H.
      match goal with |- Rabs ?z < _ => replace z with (x - PI / 2) by lra end. exact H.
Qed.

(* ---- Laplace ---- *)
Section Laplace.
Variable T : R.
Hypothesis HT : 0 < T.
Definition k1 (b v : R) : R := cos (b * v) * / (1 + v * v).
Definition l1 (b v : R) : R := v * sin (b * v) * / (1 + v * v).
Definition q1 (b v : R) : R := v * v * cos (b * v) * / (1 + v * v).
Lemma k1_derive (b v : R) : is_derive (fun x => k1 x v) b (- l1 b v). Proof. unfold k1, l1. auto_derive; [trivial | ring]. Qed.
Lemma l1_derive (b v : R) : is_derive (fun x => l1 x v) b (q1 b v). Proof. unfold l1, q1. auto_derive; [trivial | ring]. Qed.
Lemma inv_2d (b v : R) : continuity_2d_pt (fun _ u => / (1 + u * u)) b v.
Proof. apply (c2d_comp (fun u => / (1 + u * u)) (fun _ u => u)); [apply cont_inv | c2d]. Qed.
Lemma l1_2d (b v : R) : continuity_2d_pt (fun x u => - l1 x u) b v.
Proof. apply continuity_2d_pt_opp. unfold l1. apply continuity_2d_pt_mult; [ | apply inv_2d]. apply continuity_2d_pt_mult; [c2d | ]. apply (c2d_comp sin (fun x u => x * u)); [apply cont_sin | c2d]. Qed.
Lemma q1_2d (b v : R) : continuity_2d_pt q1 b v.
Proof. unfold q1. apply continuity_2d_pt_mult; [ | apply inv_2d]. apply continuity_2d_pt_mult; [c2d | ]. apply (c2d_comp cos (fun x u => x * u)); [apply cont_cos | c2d]. Qed.
Lemma k1_cont (b v : R) : continuous (k1 b) v. Proof. unfold k1. eapply cont_d. auto_derive; [nra | reflexivity]. Qed.
Lemma l1_cont (b v : R) : continuous (l1 b) v. Proof. unfold l1. eapply cont_d. auto_derive; [nra | reflexivity]. Qed.
Lemma k1_int (b x y : R) : ex_RInt (k1 b) x y. Proof. apply (ex_RInt_continuous (V := R_CompleteNormedModule)). intros t _. apply k1_cont. Qed.
Lemma l1_int (b x y : R) : ex_RInt (l1 b) x y. Proof. apply (ex_RInt_continuous (V := R_CompleteNormedModule)). intros t _. apply l1_cont. Qed.
Definition Ki (b : R) : R := RInt (k1 b) 0 T.
Definition Li (b : R) : R := RInt (l1 b) 0 T.
Lemma K_derive (b : R) : is_derive Ki b (- Li b).
Proof.
  evar_last; [apply (param_derive k1 (fun x u => - l1 x u) 0 T b k1_derive l1_2d); intros y; apply k1_int | ].
  apply is_RInt_unique. apply (is_RInt_opp (V := R_NormedModule)). apply (RInt_correct (V := R_CompleteNormedModule)). apply l1_int.
Qed.
Lemma q1_val (b : R) : 0 < b -> is_RInt (q1 b) 0 T (sin (b * T) / b - Ki b).
Proof.
  intros B. assert (S : is_RInt (fun v => cos (b * v)) 0 T (sin (b * T) / b)).
  { apply (primitive (fun v => sin (b * v) / b)); [intros v _; auto_derive; [trivial | field; lra] | intros v _; eapply cont_d; auto_derive; [trivial | reflexivity] | rewrite Rmult_0_r, sin_0; field; lra]. }
  pose proof (is_RInt_minus (V := R_NormedModule) _ _ _ _ _ _ S (RInt_correct (V := R_CompleteNormedModule) _ _ _ (k1_int b 0 T))) as D. revert D.
  apply is_RInt_ext. intros v _. unfold minus, plus, opp. cbn. unfold k1, q1. field. nra.
Qed.
Lemma L_derive (b : R) : 0 < b -> is_derive Li b (sin (b * T) / b - Ki b).
Proof.
  intros B. rewrite <- (is_RInt_unique _ _ _ _ (q1_val b B)). apply (param_derive l1 q1 0 T b l1_derive q1_2d). intros y. apply l1_int.
Qed.
Lemma L_cont0 : continuous Li 0.
Proof. eapply cont_d. apply (param_derive l1 q1 0 T 0 l1_derive q1_2d). intros y. apply l1_int. Qed.
Lemma K_0 : Ki 0 = atan T.
Proof.
  unfold Ki. apply is_RInt_unique. replace (atan T) with (atan T - atan 0) by (rewrite atan_0; rr; ring). apply (is_RInt_ext (fun t => / (1 + t * t))); [ | apply atan_int].
  intros t _. cbv beta. match goal with |- ?a = ?b => change (@eq R a b) end. unfold k1. rewrite Rmult_0_l, cos_0. ring.
Qed.
Lemma L_0 : Li 0 = 0.
Proof.
  unfold Li. apply is_RInt_unique. apply (is_RInt_ext (fun _ => 0)); [intros t _; unfold l1; rewrite Rmult_0_l, sin_0; match goal with |- ?a = ?b => change (@eq R a b) end; ring | ].
  evar_last; [apply (is_RInt_const (V := R_NormedModule)) | ]. unfold scal. cbn. unfold mult. cbn. rr. ring.
Qed.
Variable s : R.
Hypothesis Hs : s = 1 \/ s = -1.
Definition Yi (b : R) : R := exp (s * b) * (Ki b + s * Li b).
Lemma Y_derive (b : R) : 0 < b -> is_derive Yi b (s * exp (s * b) * (sin (b * T) / b)).
Proof.
  intros B. unfold Yi. evar_last.
  - apply (is_derive_mult (fun x => exp (s * x)) (fun x => Ki x + s * Li x) b (s * exp (s * b)) (- Li b + s * (sin (b * T) / b - Ki b))).
    + auto_derive; [trivial | ring].
    + apply (is_derive_plus (K := R_AbsRing) (V := R_NormedModule)); [apply K_derive | ]. apply (is_derive_scal Li b s). apply L_derive. exact B.
    + intros x y. apply Rmult_comm.
  - unfold plus, mult. cbn. destruct Hs as [-> | ->]; ring.
Qed.
(* h(x) = (exp (s x) - 1) / x increases *)
Definition hs (x : R) : R := (exp (s * x) - 1) / x.
Definition dhs (x : R) : R := (s * x * exp (s * x) - exp (s * x) + 1) / (x * x).
Lemma h_derive (x : R) : 0 < x -> is_derive hs x (dhs x).
Proof. intros X. unfold hs, dhs. auto_derive; [lra | ]. field. lra. Qed.
Lemma dh_nonneg (x : R) : 0 < x -> 0 <= dhs x.
Proof.
  intros X. unfold dhs. apply Rmult_le_pos; [ | left; apply Rinv_0_lt_compat; nra]. pose proof (exp_ineq1_le (- (s * x))) as E. pose proof (exp_pos (s * x)) as P.
  assert (Q : exp (s * x) * exp (- (s * x)) = 1) by (rewrite <- exp_plus, Rplus_opp_r; apply exp_0). nra.
Qed.
Lemma h_bound (b x : R) : 0 < x -> x <= b -> Rabs (hs x) <= exp b.
Proof.
  intros X XB. unfold hs. rewrite Rabs_div by lra. rewrite (Rabs_pos_eq x) by lra. apply Rle_div_l; [lra | ].
  pose proof (exp_ineq1_le x). pose proof (exp_ineq1_le (- x)). pose proof (exp_pos x). pose proof (exp_pos (- x)). assert (Q : exp x * exp (- x) = 1) by (rewrite <- exp_plus, Rplus_opp_r; apply exp_0).
  assert (M : exp x <= exp b) by (destruct XB as [L | ->]; [left; apply exp_increasing; exact L | lra]). assert (1 <= exp x) by lra.
  apply Rle_trans with (x * exp x); [ | rewrite Rmult_comm; apply Rmult_le_compat_r; lra].
  destruct Hs as [-> | ->]; apply Rabs_le; [rewrite Rmult_1_l; nra | ]. replace (-1 * x) with (- x) by ring. nra.
Qed.
Lemma oscillation (e b : R) : 0 < e -> e <= b -> Rabs (RInt (fun x => hs x * sin (x * T)) e b) <= 4 * exp b / T.
Proof.
  intros E L.
  assert (DC : forall x, 0 < x -> continuous dhs x) by (intros x X; unfold dhs; eapply cont_d; auto_derive; [nra | reflexivity]).
  assert (CC : forall x, 0 < x -> continuous (fun y => dhs y * (cos (y * T) / T)) x).
  { intros x X. apply (continuous_mult dhs (fun y => cos (y * T) / T)); [apply DC; exact X | ]. eapply cont_d. auto_derive; [trivial | reflexivity]. }
  assert (I1 : is_RInt (fun y => dhs y * (cos (y * T) / T)) e b (RInt (fun y => dhs y * (cos (y * T) / T)) e b)).
  { apply (RInt_correct (V := R_CompleteNormedModule)), (ex_RInt_continuous (V := R_CompleteNormedModule)). intros x X. rewrite Rmin_left, Rmax_right in X by lra. apply CC. lra. }
  assert (I2 : is_RInt dhs e b (hs b - hs e)).
  { apply (primitive hs); [ | | reflexivity]; intros x X; rewrite Rmin_left, Rmax_right in X by lra; [apply h_derive | apply DC]; lra. }
  assert (I3 : is_RInt (fun y => hs y * sin (y * T) - dhs y * (cos (y * T) / T)) e b (- (hs b * cos (b * T) / T) + hs e * cos (e * T) / T)).
  { apply (primitive (fun x => - (hs x * (cos (x * T) / T)))); [ | | unfold Rdiv; ring]; intros x X; rewrite Rmin_left, Rmax_right in X by lra.
    - evar_last.
      + apply (is_derive_opp (K := R_AbsRing) (V := R_NormedModule)). apply (is_derive_mult hs (fun y => cos (y * T) / T) x (dhs x) (- sin (x * T))); [apply h_derive; lra | auto_derive; [trivial | field; lra] | intros; apply Rmult_comm].
      + unfold opp, plus, mult. cbn. ring.
    - apply (continuous_minus (V := R_NormedModule) (fun y => hs y * sin (y * T)) (fun y => dhs y * (cos (y * T) / T))); [ | apply CC; lra]. apply (continuous_mult hs (fun y => sin (y * T))); [eapply cont_d; apply h_derive; lra | eapply cont_d; auto_derive; [trivial | reflexivity]]. }
  pose proof (is_RInt_plus (V := R_NormedModule) _ _ _ _ _ _ I3 I1) as I4. apply (is_RInt_ext _ (fun y => hs y * sin (y * T))) in I4; [ | intros x _; unfold plus; cbn; ring].
  assert (V : RInt (fun y => hs y * sin (y * T)) e b = (- (hs b * cos (b * T) / T) + hs e * cos (e * T) / T) + RInt (fun y => dhs y * (cos (y * T) / T)) e b) by exact (is_RInt_unique _ _ _ _ I4).
  rewrite V. clear V I3 I4.
  assert (B1 : Rabs (RInt (fun y => dhs y * (cos (y * T) / T)) e b) <= (hs b - hs e) / T).
  { apply (norm_RInt_le (V := R_NormedModule) (fun y => dhs y * (cos (y * T) / T)) (fun y => dhs y * / T) e b); [exact L | | exact I1 | ].
    - intros x X. change (Rabs (dhs x * (cos (x * T) / T)) <= dhs x * / T). unfold Rdiv. rewrite !Rabs_mult. rewrite (Rabs_pos_eq (dhs x)) by (apply dh_nonneg; lra). apply Rmult_le_compat_l; [apply dh_nonneg; lra | ].
      rewrite (Rabs_pos_eq (/ T)) by (left; apply Rinv_0_lt_compat; exact HT). assert (0 < / T) by (apply Rinv_0_lt_compat; exact HT). pose proof (COS_bound (x * T)). assert (Rabs (cos (x * T)) <= 1) by (apply Rabs_le; lra). nra.
    - unfold Rdiv. rewrite Rmult_comm. apply (is_RInt_ext (fun y => scal (/ T) (dhs y))); [intros x _; unfold scal; cbn; unfold mult; cbn; ring | ]. apply (is_RInt_scal (V := R_NormedModule) dhs e b (/ T)). exact I2. }
  assert (B2 : forall x, 0 < x -> x <= b -> Rabs (hs x * cos (x * T) / T) <= exp b / T).
  { intros x X XB. unfold Rdiv. rewrite !Rabs_mult. rewrite (Rabs_pos_eq (/ T)) by (left; apply Rinv_0_lt_compat; exact HT). assert (0 < / T) by (apply Rinv_0_lt_compat; exact HT). apply Rmult_le_compat_r; [lra | ].
    pose proof (h_bound b x X XB). pose proof (COS_bound (x * T)). assert (Rabs (cos (x * T)) <= 1) by (apply Rabs_le; lra). pose proof (Rabs_pos (hs x)). pose proof (Rabs_pos (cos (x * T))). nra. }
  pose proof (B2 b ltac:(lra) ltac:(lra)) as B3. pose proof (B2 e E L) as B4.
  assert (B5 : (hs b - hs e) / T <= 2 * exp b / T).
  { unfold Rdiv. apply Rmult_le_compat_r; [left; apply Rinv_0_lt_compat; exact HT | ]. pose proof (h_bound b b ltac:(lra) ltac:(lra)) as X1. pose proof (h_bound b e E L) as X2. apply Rabs_le_between in X1, X2. lra. }
  replace (4 * exp b / T) with (exp b / T + exp b / T + 2 * exp b / T) by (field; lra). revert B1 B3 B4 B5.
  generalize (RInt (fun y => dhs y * (cos (y * T) / T)) e b) ((hs b - hs e) / T) (hs b * cos (b * T) / T) (hs e * cos (e * T) / T). intros i j m n B1 B3 B4 B5. apply Rabs_le_between in B1, B3, B4. apply Rabs_le. lra.
Qed.
Lemma Y_near (e b : R) : 0 < e -> e <= b -> Rabs (Yi b - Yi e - s * (PI / 2)) <= 2 / (T * b) + T * e + 4 * exp b / T.
Proof.
  intros E L. assert (CI : forall f : R -> R, (forall x, 0 < x -> continuous f x) -> is_RInt f e b (RInt f e b)).
  { intros f C. apply (RInt_correct (V := R_CompleteNormedModule)), (ex_RInt_continuous (V := R_CompleteNormedModule)). intros x X. rewrite Rmin_left, Rmax_right in X by lra. apply C. lra. }
  assert (I1 : is_RInt (fun x => s * exp (s * x) * (sin (x * T) / x)) e b (Yi b - Yi e)).
  { apply (primitive Yi); [ | | reflexivity]; intros x X; rewrite Rmin_left, Rmax_right in X by lra; [apply Y_derive; lra | eapply cont_d; auto_derive; [lra | reflexivity]]. }
  assert (I2 : is_RInt (fun x => hs x * sin (x * T)) e b (RInt (fun x => hs x * sin (x * T)) e b)).
  { apply CI. intros x X. unfold hs. eapply cont_d. auto_derive; [lra | reflexivity]. }
  assert (I3 : is_RInt (fun x => sin (T * x) / x) e b (RInt (fun x => sin (T * x) / x) e b)).
  { apply CI. intros x X. eapply cont_d. auto_derive; [lra | reflexivity]. }
  pose proof (is_RInt_scal (V := R_NormedModule) _ _ _ s _ (is_RInt_plus (V := R_NormedModule) _ _ _ _ _ _ I2 I3)) as I4.
  apply (is_RInt_ext _ (fun x => s * exp (s * x) * (sin (x * T) / x))) in I4.
  2: { intros x. rewrite Rmin_left, Rmax_right by lra. intros X. unfold scal, plus. cbn. unfold mult. cbn. unfold hs. rewrite (Rmult_comm T x). field. lra. }
  assert (V : Yi b - Yi e = s * (RInt (fun x => hs x * sin (x * T)) e b + RInt (fun x => sin (T * x) / x) e b)).
  { transitivity (RInt (fun x => s * exp (s * x) * (sin (x * T) / x)) e b); [symmetry; exact (is_RInt_unique _ _ _ _ I1) | exact (is_RInt_unique _ _ _ _ I4)]. }
  rewrite V. clear V I1 I2 I3 I4.
  pose proof (oscillation e b E L) as O. pose proof (sin_over_bound T e b HT E L) as D. revert O D.
  generalize (RInt (fun x => hs x * sin (x * T)) e b) (RInt (fun x => sin (T * x) / x) e b). intros i j O D. apply Rabs_le_between in O, D. apply Rabs_le. destruct Hs as [-> | ->]; lra.
Qed.
Lemma Y_cont0 : continuous Yi 0.
Proof.
  unfold Yi. apply (continuous_mult (fun b => exp (s * b)) (fun b => Ki b + s * Li b)); [eapply cont_d; auto_derive; [trivial | reflexivity] | ].
  apply (continuous_plus (V := R_NormedModule) Ki (fun b => s * Li b)); [eapply cont_d; apply K_derive | ]. apply (continuous_scal_r (V := R_NormedModule) s Li). apply L_cont0.
Qed.
Lemma Y_val (b : R) : 0 < b -> Rabs (Yi b - atan T - s * (PI / 2)) <= 2 / (T * b) + 4 * exp b / T.
Proof.
  intros B. apply le_epsilon. intros d D. assert (D2 : 0 < d / 2) by lra. destruct (proj1 (filterlim_locally Yi (Yi 0)) Y_cont0 (mkposreal (d / 2) D2)) as [r Hr]. pose proof (cond_pos r) as R0.
  assert (Q : 0 < d / (2 * T)) by (apply Rdiv_lt_0_compat; lra).
  set (e := Rmin b (Rmin (r / 2) (d / (2 * T)))). assert (E0 : 0 < e) by (unfold e; repeat apply Rmin_pos; lra). assert (E1 : e <= b) by apply Rmin_l.
  assert (E2 : e <= r / 2) by (unfold e; eapply Rle_trans; [apply Rmin_r | apply Rmin_l]). assert (E3 : e <= d / (2 * T)) by (unfold e; eapply Rle_trans; [apply Rmin_r | apply Rmin_r]).
  assert (Y0 : Yi 0 = atan T) by (unfold Yi; rewrite Rmult_0_r, exp_0, K_0, L_0; ring).
  assert (N : Rabs (Yi e - atan T) < d / 2).
  { rewrite <- Y0. specialize (Hr e). unfold ball in Hr. cbn -[Yi] in Hr. unfold AbsRing_ball, abs, minus, plus, opp in Hr. cbn -[Yi] in Hr. apply Hr. rewrite Ropp_0, Rplus_0_r, Rabs_pos_eq by lra. lra. }
  pose proof (Y_near e b E0 E1) as Y. assert (T * e <= d / 2). { apply Rle_trans with (T * (d / (2 * T))); [apply Rmult_le_compat_l; lra | right; field; lra]. }
  revert N Y. generalize (Yi e) (Yi b) (2 / (T * b)) (4 * exp b / T). intros x y z w N Y. apply Rabs_def2 in N. apply Rabs_le_between in Y. apply Rabs_le. lra.
Qed.
End Laplace.

Lemma atan_le (x : R) : 0 <= x -> atan x <= x.
Proof.
  intros X. pose proof (atan_int 0 x) as I. rewrite atan_0, Rminus_0_r in I.
  pose proof (norm_RInt_le_const (V := R_NormedModule) (fun t => / (1 + t * t)) 0 x (atan x) 1 X) as N. assert (H : Rabs (atan x) <= (x - 0) * 1).
  { apply N; [ | exact I]. intros t [T0 T1]. change (Rabs (/ (1 + t * t)) <= 1). rewrite Rabs_pos_eq by (left; apply Rinv_0_lt_compat; nra). rewrite <- Rinv_1 at 2. apply Rinv_le_contravar; nra. }
  pose proof (Rle_abs (atan x)). lra.
Qed.
Lemma atan_far (T : R) : 0 < T -> Rabs (atan T - PI / 2) <= / T.
Proof.
  intros P. pose proof (atan_inv T P) as A. pose proof (Rinv_0_lt_compat _ P) as I. pose proof (atan_le (/ T) ltac:(lra)) as L. assert (0 < atan (/ T)) by (rewrite <- atan_0; apply atan_increasing; exact I).
  rewrite Rabs_left1; lra.
Qed.
Definition lapC (b : R) : R := exp b * (2 / b + 4 * exp b + 1).
Lemma lapC_pos (b : R) : 0 < b -> 0 < lapC b.
Proof. intros B. unfold lapC. pose proof (exp_pos b). assert (0 < 2 / b) by (apply Rdiv_lt_0_compat; lra). nra. Qed.
Lemma lap_near (T b : R) : 0 < T -> 0 < b -> Rabs (Ki T b - PI / 2 * exp (- b)) <= lapC b / T /\ Rabs (Li T b - PI / 2 * exp (- b)) <= lapC b / T.
Proof.
  intros HT B. pose proof (Y_val T HT 1 (or_introl eq_refl) b B) as P. pose proof (Y_val T HT (-1) (or_intror eq_refl) b B) as N. pose proof (atan_far T HT) as A. unfold Yi in P, N.
  replace (-1 * b) with (- b) in N by ring. rewrite Rmult_1_l in P. pose proof (exp_pos b) as E. pose proof (exp_pos (- b)) as E'. assert (Q : exp b * exp (- b) = 1) by (rewrite <- exp_plus, Rplus_opp_r; apply exp_0).
  assert (E1 : 1 < exp b) by (rewrite <- exp_0; apply exp_increasing; exact B). assert (E2 : exp (- b) < 1) by (rewrite <- exp_0; apply exp_increasing; lra).
  set (z := 2 / (T * b) + 4 * exp b / T) in *. assert (IT : 0 < / T) by (apply Rinv_0_lt_compat; exact HT).
  assert (Z : lapC b / T = exp b * (z + / T)) by (unfold z, lapC; field; lra). rewrite Z. assert (Z0 : 0 < z) by (unfold z; assert (0 < 2 / (T * b)) by (apply Rdiv_lt_0_compat; nra); assert (0 < 4 * exp b / T) by (apply Rdiv_lt_0_compat; lra); lra).
  clearbody z. clear Z. revert P N A. generalize (Ki T b) (Li T b) (atan T). intros k l a P N A. apply Rabs_le_between in P, N, A.
  assert (P' : - (z + / T) <= exp b * (k + l) - PI <= z + / T) by lra. assert (N' : - (z + / T) <= exp (- b) * (k - l) <= z + / T) by lra. clear P N A.
  set (w := z + / T) in *. assert (W : 0 < w) by (unfold w; lra). clearbody w.
  assert (P2 : - (exp (- b) * w) <= k + l - PI * exp (- b) <= exp (- b) * w).
  { replace (k + l - PI * exp (- b)) with (exp (- b) * (exp b * (k + l) - PI)); [split; nra | ]. rewrite Rmult_minus_distr_l, <- Rmult_assoc, (Rmult_comm (exp (- b))), Q. ring. }
  assert (N2 : - (exp b * w) <= k - l <= exp b * w).
  { replace (k - l) with (exp b * (exp (- b) * (k - l))); [split; nra | ]. rewrite <- Rmult_assoc, Q. ring. }
  assert (W2 : exp (- b) * w <= exp b * w) by (apply Rmult_le_compat_r; lra). split; apply Rabs_le; lra.
Qed.
Lemma k1_tail (b e : R) : 0 < e -> Rabs (RInt (k1 b) 0 e) <= e.
Proof.
  intros E. replace e with ((e - 0) * 1) at 2 by ring. apply (norm_RInt_le_const (V := R_NormedModule) (k1 b) 0 e); [lra | | apply (RInt_correct (V := R_CompleteNormedModule)); apply k1_int].
  intros v [V0 V1]. change (Rabs (k1 b v) <= 1). unfold k1. rewrite Rabs_mult, (Rabs_pos_eq (/ _)) by (left; apply Rinv_0_lt_compat; nra). apply Rle_div_l; [nra | ]. pose proof (COS_bound (b * v)). apply Rle_trans with 1; [apply Rabs_le; lra | nra].
Qed.
Lemma l1_tail (b e : R) : 0 < e -> Rabs (RInt (l1 b) 0 e) <= e.
Proof.
  intros E. replace e with ((e - 0) * 1) at 2 by ring. apply (norm_RInt_le_const (V := R_NormedModule) (l1 b) 0 e); [lra | | apply (RInt_correct (V := R_CompleteNormedModule)); apply l1_int].
  intros v [V0 V1]. change (Rabs (l1 b v) <= 1). unfold l1. rewrite !Rabs_mult, (Rabs_pos_eq (/ _)) by (left; apply Rinv_0_lt_compat; nra). rewrite (Rabs_pos_eq v) by lra. apply Rle_div_l; [nra | ].
  pose proof (SIN_bound (b * v)). assert (Rabs (sin (b * v)) <= 1) by (apply Rabs_le; lra). pose proof (Rabs_pos (sin (b * v))). nra.
Qed.
Lemma from_tail (f : R -> R) (e T m C : R) : (forall x y, ex_RInt f x y) -> Rabs (RInt f 0 T - m) <= C -> Rabs (RInt f 0 e) <= e -> Rabs (RInt f e T - m) <= C + e.
Proof.
  intros I A B. pose proof (RInt_Chasles (V := R_CompleteNormedModule) f 0 e T (I 0 e) (I e T)) as S. change plus with Rplus in S.
  revert A B S. generalize (RInt f 0 T) (RInt f 0 e) (RInt f e T). intros x y z A B S. change (y + z = x) in S. apply Rabs_le_between in A, B. apply Rabs_le. lra.
Qed.
Lemma lap_gen (f g : R -> R) (a m C : R) : 0 < a -> 0 <= C -> (forall x y, ex_RInt f x y) -> (forall e T, 0 < e -> e <= T -> Rabs (RInt f e T - m) <= C / T + e) ->
  (forall y, 0 < y -> g y = / a * f (/ a * y)) -> is_RInt_gen g (at_right 0) (Rbar_locally p_infty) m.
Proof.
  intros A C0 I N Q. assert (IA : 0 < / a) by (apply Rinv_0_lt_compat; exact A). apply (gen_intro _ (fun e T => RInt f (/ a * e) (/ a * T))).
  - intros e T E L. pose proof (RInt_correct (V := R_CompleteNormedModule) _ _ _ (I (/ a * e + 0) (/ a * T + 0))) as J. apply (is_RInt_comp_lin (V := R_NormedModule)) in J. rewrite !Rplus_0_r in J. revert J.
    apply is_RInt_ext. intros y. rewrite Rmin_left, Rmax_right by lra. intros Y. unfold scal. cbn. unfold mult. cbn. rewrite Rplus_0_r. rr. symmetry. apply Q. lra.
  - intros eps P. assert (CA : 0 <= C * a) by nra. destruct (small_choice (C * a) (/ a) eps CA ltac:(lra) P) as (d & M & D0 & D1 & M1 & H). exists d, M. split; [exact D0 | ]. intros e T E1 E2 HT.
    apply Rle_lt_trans with (C / (/ a * T) + / a * e); [apply N; nra | ]. replace (C / (/ a * T)) with (C * a / T) by (field; lra). apply H; assumption.
Qed.
Lemma lap_cos (a b : R) : 0 < a -> is_RInt_gen (fun v => a * cos (b * v) / (a * a + v * v)) (at_right 0) (Rbar_locally p_infty) (PI / 2 * exp (- (a * Rabs b))).
Proof.
  assert (S : forall b y, 0 < a -> a * cos (b * y) / (a * a + y * y) = / a * k1 (a * b) (/ a * y)).
  { intros c y A. unfold k1. replace (a * c * (/ a * y)) with (c * y) by (field; lra). field. repeat split; nra. }
  assert (P : forall b, 0 < a -> 0 < b -> is_RInt_gen (fun v => a * cos (b * v) / (a * a + v * v)) (at_right 0) (Rbar_locally p_infty) (PI / 2 * exp (- (a * b)))).
  { intros c A B. apply (lap_gen (k1 (a * c)) _ a _ (lapC (a * c)) A); [left; apply lapC_pos; nra | apply k1_int | | intros; apply S; exact A].
    intros e T E L. apply from_tail; [apply k1_int | apply (lap_near T (a * c)); nra | apply k1_tail; exact E]. }
  intros A. destruct (Rtotal_order 0 b) as [B | [B | B]].
  - rewrite Rabs_pos_eq by lra. apply P; assumption.
  - subst b. rewrite Rabs_R0, Rmult_0_r, Ropp_0, exp_0, Rmult_1_r. apply (lap_gen (k1 0) _ a _ 1 A); [lra | apply k1_int | | intros; rewrite S by exact A; rewrite Rmult_0_r; reflexivity].
    intros e T E L. apply from_tail; [apply k1_int | | apply k1_tail; exact E]. change (RInt (k1 0) 0 T) with (Ki T 0). rewrite K_0. unfold Rdiv at 2. rewrite Rmult_1_l. apply atan_far. lra.
  - rewrite Rabs_left by lra. apply is_RInt_gen_ext with (f := fun v => a * cos (- b * v) / (a * a + v * v)).
    + apply filter_forall. intros ab y _. replace (- b * y) with (- (b * y)) by ring. rewrite cos_neg. reflexivity.
    + apply P; lra.
Qed.
Lemma lap_sin (a b : R) : 0 < a -> is_RInt_gen (fun v => v * sin (b * v) / (a * a + v * v)) (at_right 0) (Rbar_locally p_infty) (sign_of b * (PI / 2 * exp (- (a * Rabs b)))).
Proof.
  intros A. assert (P : forall b, 0 < b -> is_RInt_gen (fun v => v * sin (b * v) / (a * a + v * v)) (at_right 0) (Rbar_locally p_infty) (PI / 2 * exp (- (a * b)))).
  { intros c B. apply (lap_gen (l1 (a * c)) _ a _ (lapC (a * c)) A); [left; apply lapC_pos; nra | apply l1_int | | ].
    - intros e T E L. apply from_tail; [apply l1_int | apply (lap_near T (a * c)); nra | apply l1_tail; exact E].
    - intros y Y. unfold l1. replace (a * c * (/ a * y)) with (c * y) by (field; lra). field. repeat split; nra. }
  destruct (Rtotal_order 0 b) as [B | [B | B]].
  - rewrite sign_pos, Rmult_1_l, Rabs_pos_eq by lra. apply P; assumption.
  - subst b. rewrite sign_0, Rmult_0_l. apply (gen_intro _ (fun _ _ => 0)).
    + intros e T _ _. apply (is_RInt_ext (fun _ => 0)); [intros y _; rewrite Rmult_0_l, sin_0; rr; unfold Rdiv; ring | ]. evar_last; [apply (is_RInt_const (V := R_NormedModule)) | ]. unfold scal. cbn. unfold mult. cbn. rr. ring.
    + intros eps Q. exists 1, 0. split; [lra | ]. intros. rewrite Rminus_0_r, Rabs_R0. exact Q.
  - rewrite sign_neg, Rabs_left by lra. replace (-1 * (PI / 2 * exp (- (a * - b)))) with (opp (PI / 2 * exp (- (a * - b)))) by (unfold opp; cbn; ring).
    apply is_RInt_gen_ext with (f := fun v => opp (v * sin (- b * v) / (a * a + v * v))).
    + apply filter_forall. intros ab y _. replace (- b * y) with (- (b * y)) by ring. rewrite sin_neg. unfold opp. cbn. rr. unfold Rdiv. ring.
    + apply (is_RInt_gen_opp (V := R_NormedModule)). apply P. lra.
Qed.
