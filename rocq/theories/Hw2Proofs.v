(* The Monte-Carlo bond option of hw1f2.py *)
From Coq Require Import ZArith Reals Lra Lia List.
From Coquelicot Require Import Coquelicot.
From Flocq Require Import Core.
From Verif Require Import Base NormalModel NormalProofs BsProofs MonteModel MonteSpec MonteProofs HwModel HwSpec HwProofs HwSimProofs MeanSpec MeanProofs PathMeanProofs CsMeanProofs HwMeanProofs HwMcProofs HwLimProofs BlackModel BlackSpec BlackProofs BlackProofs Hw2Model Hw2Spec.
Open Scope R_scope.

(* ---- the grid ---- *)
Section SimGrid.
  Variables (s T : R) (Hs : 0 < s) (HT : 0 < T).
  Let m := Z.to_nat (Zceil ((T - s) / s)).
  Lemma grid_below : INR m * s < T.
  Proof.
    unfold m. destruct (Z.le_gt_cases (Zceil ((T - s) / s)) 0) as [L|L].
    - replace (Z.to_nat (Zceil ((T - s) / s))) with O by lia. cbn [INR]. lra.
    - rewrite INR_IZR_INZ, Z2Nat.id by lia. pose proof (Zceil_lb ((T - s) / s)) as B. apply (Rmult_lt_compat_r s) in B; [|exact Hs]. replace (((T - s) / s + 1) * s) with T in B by (field; lra). exact B.
  Qed.
  Lemma grid_above : T - INR m * s <= s.
  Proof.
    assert (B : (T - s) / s <= INR m).
    { unfold m. destruct (Z.le_gt_cases (Zceil ((T - s) / s)) 0) as [L|L].
      - replace (Z.to_nat (Zceil ((T - s) / s))) with O by lia. cbn [INR]. apply Rle_trans with (IZR (Zceil ((T - s) / s))); [apply Zceil_ub|apply IZR_le; exact L].
      - rewrite INR_IZR_INZ, Z2Nat.id by lia. apply Zceil_ub. }
    apply (Rmult_le_compat_r s) in B; [|lra]. replace ((T - s) / s * s) with (T - s) in B by (field; lra). lra.
  Qed.
  Lemma grid_start : sim_grid s T O = 0. Proof. unfold sim_grid, grid_steps. cbn. ring. Qed.
  Lemma grid_end : sim_grid s T (grid_steps s T) = T. Proof. unfold sim_grid. rewrite Nat.ltb_irrefl. reflexivity. Qed.
  Lemma grid_step i : (i < grid_steps s T)%nat -> 0 < sim_grid s T (S i) - sim_grid s T i <= s.
  Proof.
    intros L. unfold sim_grid. rewrite (proj2 (Nat.ltb_lt _ _) L). destruct (Nat.ltb_spec (S i) (grid_steps s T)) as [L'|L'].
    - rewrite S_INR. lra.
    - assert (i = m) as -> by (unfold grid_steps in *; fold m in L, L'; lia). pose proof grid_below. pose proof grid_above. lra.
  Qed.
End SimGrid.

(* ---- moments on a grid ---- *)
Lemma total_upto n i (f : nat -> R) : (i <= n)%nat -> total n (fun j => if Nat.ltb j i then f j else 0) = total i f.
Proof.
  induction n as [|n IH]; intros L; [assert (i = O) as -> by lia; reflexivity|]. rewrite total_S. destruct (Nat.ltb_spec n i) as [A|A].
  - assert (i = S n) as -> by lia. rewrite total_S. f_equal. apply total_ext. intros j J. destruct (Nat.ltb_spec j (S n)); [reflexivity|lia].
  - rewrite IH by lia. ring.
Qed.
Section Grid.
  Variables (k vol : R) (t : nat -> R) (n : nat) (Kp : 0 < k) (T0 : t O = 0) (Mo : forall j, (j < n)%nat -> t j < t (S j)).
  Lemma grid_mono i j : (i <= j)%nat -> (j <= n)%nat -> t i <= t j.
  Proof. induction 1 as [|j L IH]; intros B; [lra|]. pose proof (Mo j ltac:(lia)). specialize (IH ltac:(lia)). lra. Qed.
  Lemma y_variance s : y_t s vol k = state_variance k vol s. Proof. unfold state_variance. apply y_t_closed. lra. Qed.
  Definition wt i j := if Nat.ltb j i then x_weight k vol t i j else 0.
  Lemma state_path i z : (i <= n)%nat -> x_path k vol t z i = x_mean k vol (t i) + total n (fun j => wt i j * z j).
  Proof.
    intros L. destruct (x_closed k vol t z i ltac:(lra) T0 ltac:(intros j J; left; apply Mo; lia)) as [E _]. rewrite E. f_equal. rewrite <- (total_upto n i) by exact L. apply total_ext. intros j J. unfold wt. destruct (Nat.ltb j i); ring.
  Qed.
  Lemma wt_cov_le i j : (i <= j)%nat -> (j <= n)%nat -> total n (fun l => wt i l * wt j l) = state_covariance k vol (t i) (t j).
  Proof.
    intros L B. pose proof (grid_mono i j L B) as G. unfold state_covariance. rewrite Rabs_pos_eq, Rmin_left by lra. rewrite <- y_variance.
    destruct (x_closed k vol t (fun _ => 0) i ltac:(lra) T0 ltac:(intros l J; left; apply Mo; lia)) as [_ E]. rewrite <- E, <- total_scal, <- (total_upto n i) by lia. apply total_ext. intros l J. unfold wt. destruct (Nat.ltb_spec l i); [|ring]. destruct (Nat.ltb_spec l j); [|lia].
    assert (W : x_weight k vol t j l = exp (- k * (t j - t i)) * x_weight k vol t i l) by (unfold x_weight; rewrite <- Rmult_assoc, <- exp_plus; do 2 f_equal; ring). rewrite W. ring.
  Qed.
  Lemma state_covariance_sym s u : state_covariance k vol s u = state_covariance k vol u s.
  Proof. unfold state_covariance. rewrite Rmin_comm. do 3 f_equal. apply Rabs_minus_sym. Qed.
  Lemma wt_cov i j : (i <= n)%nat -> (j <= n)%nat -> total n (fun l => wt i l * wt j l) = state_covariance k vol (t i) (t j).
  Proof.
    intros I J. destruct (Nat.le_ge_cases i j) as [L|L]; [apply wt_cov_le; assumption|]. rewrite state_covariance_sym, <- (wt_cov_le j i L I). apply total_ext. intros. ring.
  Qed.
  Lemma wt_var i : (i <= n)%nat -> total n (fun l => wt i l ^ 2) = state_variance k vol (t i).
  Proof.
    intros L. rewrite (total_ext n _ (fun l => wt i l * wt i l)) by (intros; ring). rewrite wt_cov by exact L. unfold state_covariance. replace (t i - t i) with 0 by ring. rewrite Rabs_R0, Rmin_left by lra. replace (- k * 0) with 0 by ring. rewrite exp_0. ring.
  Qed.
  (* what a random number adds to the sum of the discount factor *)
  Definition dw l := total (Nat.pred n) (fun i => (t (S (S i)) - t (S i)) * wt (S (S i)) l).
  Lemma cumulative_exp fwd z : hw2_cumulative fwd k vol t z n = exp (- (later_sum t n (fun s => fwd s + x_mean k vol s) + total n (fun l => dw l * z l))).
  Proof.
    assert (E : forall m, hw2_cumulative fwd k vol t z (S m) = exp (- total m (fun i => (t (S (S i)) - t (S i)) * (x_path k vol t z (S (S i)) + fwd (t (S (S i))))))).
    { induction m as [|m IH]; [cbn [hw2_cumulative hw2_dt]; rewrite total_0, Rmult_1_l; f_equal; ring|]. change (hw2_cumulative fwd k vol t z (S (S m))) with (hw2_cumulative fwd k vol t z (S m) * exp (- hw2_rate fwd k vol t z (S m) * hw2_dt t (S m))). rewrite IH, <- exp_plus, total_S. f_equal. unfold hw2_rate. cbn [hw2_dt]. ring. }
    destruct (Nat.eq_dec n 0) as [Z|Z]; [rewrite Z; cbn [hw2_cumulative]; unfold later_sum; cbn [Nat.pred]; rewrite !total_0; replace (- (0 + 0)) with 0 by ring; symmetry; apply exp_0|].
    replace (hw2_cumulative fwd k vol t z n) with (hw2_cumulative fwd k vol t z (S (Nat.pred n))) by (f_equal; lia). rewrite E. do 2 f_equal. unfold later_sum, dw.
    rewrite (total_ext (Nat.pred n) _ (fun i => (t (S (S i)) - t (S i)) * (fwd (t (S (S i))) + x_mean k vol (t (S (S i)))) + total n (fun l => (t (S (S i)) - t (S i)) * wt (S (S i)) l * z l))).
    - rewrite total_plus. f_equal. rewrite total_swap. apply total_ext. intros l L. rewrite <- (Rmult_comm (z l)), <- total_scal. apply total_ext. intros. ring.
    - intros i I. rewrite state_path by lia. rewrite (total_ext n (fun l => (t (S (S i)) - t (S i)) * wt (S (S i)) l * z l) (fun l => (t (S (S i)) - t (S i)) * (wt (S (S i)) l * z l))) by (intros; ring). rewrite total_scal. ring.
  Qed.
  Lemma dw_last : (1 <= n)%nat -> total n (fun l => wt n l * dw l) = grid_covariance k vol t n.
  Proof.
    intros L. unfold grid_covariance, later_sum, dw. rewrite (total_ext n _ (fun l => total (Nat.pred n) (fun i => (t (S (S i)) - t (S i)) * (wt (S (S i)) l * wt n l)))) by (intros l B; rewrite <- total_scal; apply total_ext; intros; ring).
    rewrite total_swap. apply total_ext. intros i I. rewrite total_scal, wt_cov by lia. reflexivity.
  Qed.
  Lemma dw_square : (1 <= n)%nat -> total n (fun l => dw l ^ 2) = later_sum t n (fun s => later_sum t n (fun u => state_covariance k vol s u)).
  Proof.
    intros L. unfold later_sum. rewrite (total_ext n (fun l => dw l ^ 2) (fun l => total (Nat.pred n) (fun i => total (Nat.pred n) (fun j => (t (S (S i)) - t (S i)) * ((t (S (S j)) - t (S j)) * (wt (S (S i)) l * wt (S (S j)) l)))))).
    2: { intros l B. unfold dw. cbn [pow]. rewrite Rmult_1_r, total_product. apply total_ext. intros i I. apply total_ext. intros. ring. }
    rewrite total_swap. apply total_ext. intros i I. rewrite total_swap, <- total_scal. apply total_ext. intros j J. rewrite !total_scal, wt_cov by lia. ring.
  Qed.
  Lemma option_mean df fwd tau K cp : vol <> 0 -> (1 <= n)%nat -> 0 < df (t n) -> 0 < df (t n + tau) -> 0 < tau -> 0 < K -> cp = 1 \/ cp = -1 ->
    let b := (1 - exp (- k * tau)) / k in let V := state_variance k vol (t n) in
    0 < V /\ expected_n n (fun z => hw2_option df fwd k vol t n z tau K cp)
      (cp * (exp (grid_log_discount fwd k vol t n) * blk cp (df (t n + tau) / df (t n) * exp (- b * (x_mean k vol (t n) - grid_covariance k vol t n))) K (b * sqrt V))).
  Proof.
    intros Vn L D1 D2 Ht HK W b V. assert (B : 0 < b) by (apply Rdiv_lt_0_compat; [assert (exp (- k * tau) < 1) by (rewrite <- exp_0; apply exp_increasing; nra); lra|exact Kp]).
    assert (Tn : 0 < t n). { pose proof (Mo O ltac:(lia)). pose proof (grid_mono 1 n L ltac:(lia)). rewrite T0 in *. lra. }
    assert (VP : 0 < V). { unfold V, state_variance. apply Rmult_lt_0_compat; [apply Rdiv_lt_0_compat; [apply pow2_gt_0; exact Vn|lra]|]. assert (exp (-2 * k * t n) < 1) by (rewrite <- exp_0; apply exp_increasing; nra). lra. }
    split; [exact VP|]. set (A := df (t n + tau) / df (t n) * exp (- (V * b ^ 2 / 2))). assert (Ap : 0 < A) by (apply Rmult_lt_0_compat; [apply Rdiv_lt_0_compat; assumption|apply exp_pos]).
    pose proof (affine_payoff_tilted n cp A b K (x_mean k vol (t n)) (later_sum t n (fun s => fwd s + x_mean k vol s)) (wt n) dw W Ap B HK) as P. cbv zeta in P. rewrite (wt_var n (le_n n)) in P. fold V in P. specialize (P VP).
    rewrite dw_last in P by exact L. rewrite (total_ext n (fun l => dw l ^ 2 / 2) (fun l => / 2 * dw l ^ 2)) in P by (intros; field). rewrite total_scal, dw_square in P by exact L.
    match type of P with expected_n _ _ ?v => replace (exp (grid_log_discount fwd k vol t n) * blk cp (df (t n + tau) / df (t n) * exp (- b * (x_mean k vol (t n) - grid_covariance k vol t n))) K (b * sqrt V)) with v end.
    2: { f_equal; [f_equal; unfold grid_log_discount; field|]. f_equal. unfold A. rewrite Rmult_assoc, <- exp_plus. do 2 f_equal. field. }
    eapply expected_n_ext; [|exact (expected_n_scal n _ _ cp P)]. intros z. cbv beta. unfold hw2_option. rewrite cumulative_exp, <- Rmult_assoc. f_equal. f_equal. f_equal. f_equal. f_equal.
    unfold bond_from_state, hw2_rate. replace (S (Nat.pred n)) with n by lia. rewrite state_path by lia. rewrite y_variance. fold V. unfold A. rewrite Rmult_assoc, <- exp_plus. do 2 f_equal. fold b. field.
  Qed.
End Grid.

(* ---- sums over fine grids ---- *)
Definition fine (t : nat -> R) (n : nat) (T d : R) : Prop := t O = 0 /\ t n = T /\ (1 <= n)%nat /\ forall i, (i < n)%nat -> 0 < t (S i) - t i < d.
Lemma fine_mono t n T d i j : fine t n T d -> (i <= j)%nat -> (j <= n)%nat -> t i <= t j.
Proof. intros (_ & _ & _ & H) L. induction L as [|j L IH]; intros B; [lra|]. specialize (H j ltac:(lia)). specialize (IH ltac:(lia)). lra. Qed.
Lemma fine_weaken t n T d e : d <= e -> fine t n T d -> fine t n T e.
Proof. intros L (A & B & C & H). repeat split; try assumption; specialize (H i H0); lra. Qed.
Section Riemann.
  Variables (f F : R -> R) (T : R) (HT : 0 < T) (D : forall x, is_derive F x (f x)) (C : forall x, continuous f x).
  Lemma riemann eps : 0 < eps -> exists d, 0 < d /\ forall t n, fine t n T d -> (Rabs (f (t 1%nat)) <= Rabs (f 0) + eps) /\ forall j, (j <= n)%nat -> Rabs (total j (fun i => (t (S i) - t i) * f (t (S i))) - (F (t j) - F 0)) <= eps * t j.
  Proof.
    intros E. destruct (Heine_cor2 (f := f) (a := 0) (b := T) (fun x _ => proj2 (continuity_pt_filterlim f x) (C x)) (mkposreal eps E)) as [d Hd]. cbn [pos] in Hd. exists d. split; [apply cond_pos|]. intros t n G. pose proof G as (T0 & Tn & N1 & H).
    assert (Rg : forall i, (i <= n)%nat -> 0 <= t i <= T) by (intros i L; rewrite <- T0, <- Tn; split; apply (fine_mono t n T d); auto; lia).
    split.
    - specialize (H O ltac:(lia)). rewrite T0 in H. pose proof (Hd (t 1%nat) 0 (Rg 1%nat N1) ltac:(lra)) as B. rewrite Rminus_0_r, Rabs_pos_eq in B by lra. specialize (B ltac:(lra)). pose proof (Rabs_triang_inv (f (t 1%nat)) (f 0)). lra.
    - induction j as [|j IH]; intros L.
      + rewrite total_0, T0. replace (0 - (F 0 - F 0)) with 0 by ring. rewrite Rabs_R0. lra.
      + specialize (IH ltac:(lia)). pose proof (H j ltac:(lia)) as Hj. rewrite total_S. destruct (MVT_cor2 F f (t j) (t (S j)) ltac:(lra) (fun c _ => proj1 (is_derive_Reals F c (f c)) (D c))) as (c & Ec & Bc).
        pose proof (Rg j ltac:(lia)). pose proof (Rg (S j) L). pose proof (Hd (t (S j)) c ltac:(lra) ltac:(lra)) as B. rewrite (Rabs_pos_eq (t (S j) - c)) in B by lra. specialize (B ltac:(lra)).
        replace (total j (fun i => (t (S i) - t i) * f (t (S i))) + (t (S j) - t j) * f (t (S j)) - (F (t (S j)) - F 0)) with ((total j (fun i => (t (S i) - t i) * f (t (S i))) - (F (t j) - F 0)) + (t (S j) - t j) * (f (t (S j)) - f c)) by (replace (F (t (S j))) with (F (t j) + f c * (t (S j) - t j)) by lra; ring).
        eapply Rle_trans; [apply Rabs_triang|]. rewrite Rabs_mult, (Rabs_pos_eq (t (S j) - t j)) by lra. nra.
  Qed.
  Lemma riemann_later eps : 0 < eps -> exists d, 0 < d /\ forall t n, fine t n T d -> forall j, (1 <= j <= n)%nat -> Rabs (later_sum t j f - (F (t j) - F 0)) <= eps.
  Proof.
    intros E. set (e := Rmin 1 (eps / (2 * T))). assert (He : 0 < e) by (apply Rmin_pos; [lra|apply Rdiv_lt_0_compat; lra]). assert (e1 : e <= 1) by apply Rmin_l. assert (e2 : e * T <= eps / 2). { apply Rle_trans with (eps / (2 * T) * T); [apply Rmult_le_compat_r; [lra|apply Rmin_r]|]. right. field. lra. }
    destruct (riemann e He) as (d & Hd & P). pose proof (Rabs_pos (f 0)) as F0. set (d' := Rmin d (eps / (2 * (Rabs (f 0) + 1)))). assert (Hd' : 0 < d') by (apply Rmin_pos; [exact Hd|apply Rdiv_lt_0_compat; lra]). exists d'. split; [exact Hd'|]. intros t n G j J. pose proof G as (T0 & Tn & N1 & H).
    destruct (P t n (fine_weaken t n T d' d (Rmin_l _ _) G)) as [B Q]. specialize (Q j ltac:(lia)). assert (Tj : t j <= T) by (rewrite <- Tn; apply (fine_mono t n T d'); auto; lia).
    assert (Sp : later_sum t j f = total j (fun i => (t (S i) - t i) * f (t (S i))) - (t 1%nat - t O) * f (t 1%nat)) by (unfold later_sum; replace (total j) with (total (S (Nat.pred j))) by (f_equal; lia); rewrite total_shift; ring).
    rewrite Sp. match goal with |- Rabs ?x <= _ => replace x with ((total j (fun i => (t (S i) - t i) * f (t (S i))) - (F (t j) - F 0)) - (t 1%nat - t O) * f (t 1%nat)) by ring end.
    eapply Rle_trans; [apply Rabs_triang|]. rewrite Rabs_Ropp, Rabs_mult. specialize (H O ltac:(lia)). rewrite (Rabs_pos_eq (t 1%nat - t O)) by lra.
    assert (X : (t 1%nat - t O) * Rabs (f (t 1%nat)) <= eps / 2). { apply Rle_trans with (eps / (2 * (Rabs (f 0) + 1)) * (Rabs (f 0) + 1)); [|right; field; lra]. apply Rmult_le_compat; [lra|apply Rabs_pos| |lra]. pose proof (Rmin_r d (eps / (2 * (Rabs (f 0) + 1)))). fold d' in H0. lra. }
    assert (e * t j <= e * T) by (apply Rmult_le_compat_l; lra). lra.
  Qed.
End Riemann.
Lemma symmetric_sum N (g : nat -> nat -> R) : (forall i j, g i j = g j i) -> total N (fun i => total N (fun j => g i j)) = total N (fun j => 2 * total (S j) (fun i => g i j) - g j j).
Proof.
  intros Sy. induction N as [|N IH]; [reflexivity|]. rewrite !(total_S N). rewrite (total_ext N (fun i => total (S N) (fun j => g i j)) (fun i => total N (fun j => g i j) + g i N)) by (intros; apply total_S). rewrite total_plus, IH. rewrite (total_ext N (fun j => g N j) (fun i => g i N)) by (intros; apply Sy). ring.
Qed.

(* ---- vanishing time steps ---- *)
Section Fine.
  Variables (k vol T : R) (Kp : 0 < k) (HT : 0 < T).
  Let v s := state_variance k vol s.
  Let m s := x_mean k vol s.
  Lemma v_bound s : 0 <= s -> 0 <= v s <= vol ^ 2 / (2 * k).
  Proof.
    intros L. unfold v, state_variance. assert (P : 0 <= vol ^ 2 / (2 * k)) by (apply Rmult_le_pos; [apply pow2_ge_0|left; apply Rinv_0_lt_compat; lra]). assert (exp (-2 * k * s) <= 1) by (rewrite <- exp_0; apply exp_le; nra). pose proof (exp_pos (-2 * k * s)). split; nra.
  Qed.
  Let w s := exp (k * s) * v s.
  Let G s := exp (k * s) * m s.
  Lemma G_derive x : is_derive G x (w x).
  Proof.
    unfold G, w, m, v, x_mean, state_variance. auto_derive; [trivial|]. replace (exp (-2 * k * x)) with (exp (- k * x) * exp (- k * x)) by (rewrite <- exp_plus; f_equal; ring). field. lra.
  Qed.
  Lemma w_continuous x : continuous w x.
  Proof. apply (ex_derive_continuous (K := R_AbsRing) (V := R_NormedModule)). unfold w, v, state_variance. auto_derive. trivial. Qed.
  Lemma G_0 : G 0 = 0. Proof. unfold G, m, x_mean. replace (- k * 0) with 0 by ring. rewrite exp_0. ring. Qed.
  Lemma covariance_of s u : s <= u -> state_covariance k vol s u = exp (- k * u) * w s.
  Proof. intros L. unfold state_covariance. rewrite Rabs_pos_eq, Rmin_left by lra. unfold w, v. rewrite <- Rmult_assoc, <- exp_plus. do 2 f_equal. ring. Qed.
  Lemma unscale u x : 0 <= u -> forall eps, Rabs (x - G u) <= eps -> Rabs (exp (- k * u) * x - m u) <= eps.
  Proof.
    intros L eps B. replace (m u) with (exp (- k * u) * G u) by (unfold G; rewrite <- Rmult_assoc, <- exp_plus; replace (- k * u + k * u) with 0 by ring; rewrite exp_0; ring). rewrite <- Rmult_minus_distr_l, Rabs_mult, (Rabs_pos_eq (exp (- k * u))) by (left; apply exp_pos).
    assert (exp (- k * u) <= 1) by (rewrite <- exp_0; apply exp_le; nra). pose proof (exp_pos (- k * u)). pose proof (Rabs_pos (x - G u)). nra.
  Qed.
  Lemma later_scal t n c f : later_sum t n (fun s => c * f s) = c * later_sum t n f.
  Proof. unfold later_sum. rewrite <- total_scal. apply total_ext. intros. ring. Qed.
  Lemma later_ext t n f g : (forall i, (1 <= i <= n)%nat -> f (t i) = g (t i)) -> later_sum t n f = later_sum t n g.
  Proof. intros H. unfold later_sum. apply total_ext. intros i I. rewrite H by lia. reflexivity. Qed.
  Lemma fine_covariance eps : 0 < eps -> exists d, 0 < d /\ forall t n, fine t n T d -> Rabs (grid_covariance k vol t n - m T) <= eps.
  Proof.
    intros E. destruct (riemann_later w G T HT G_derive w_continuous eps E) as (d & Hd & P). exists d. split; [exact Hd|]. intros t n F. pose proof F as (T0 & Tn & N1 & _). specialize (P t n F n ltac:(lia)). rewrite G_0, Rminus_0_r, Tn in P.
    unfold grid_covariance. rewrite (later_ext t n _ (fun s => exp (- k * t n) * w s)) by (intros i I; apply covariance_of; apply (fine_mono t n T d); auto; lia). rewrite later_scal, Tn. apply unscale; [lra|exact P].
  Qed.
  Lemma fine_correction eps : 0 < eps -> exists d, 0 < d /\ forall t n, fine t n T d -> Rabs (later_sum t n (fun s => later_sum t n (fun u => state_covariance k vol s u)) / 2 - later_sum t n m) <= eps.
  Proof.
    intros E. set (c := vol ^ 2 / (2 * k)). assert (Hc : 0 <= c) by (destruct (v_bound 0 ltac:(lra)); unfold c; lra). set (e := eps / (2 * T)). assert (He : 0 < e) by (apply Rdiv_lt_0_compat; lra). destruct (riemann_later w G T HT G_derive w_continuous e He) as (d & Hd & P).
    set (d' := Rmin d (eps / (T * (c + 1)))). assert (Hd' : 0 < d') by (apply Rmin_pos; [exact Hd|apply Rdiv_lt_0_compat; [exact E|apply Rmult_lt_0_compat; lra]]). exists d'. split; [exact Hd'|]. intros t n F. pose proof F as (T0 & Tn & N1 & H). specialize (P t n (fine_weaken t n T d' d (Rmin_l _ _) F)).
    unfold later_sum at 1 2. set (N := Nat.pred n) in *. set (dt := fun i => t (S (S i)) - t (S i)). set (s := fun i => t (S (S i))).
    rewrite (total_ext N (fun i => (t (S (S i)) - t (S i)) * total N (fun j => (t (S (S j)) - t (S j)) * state_covariance k vol (t (S (S i))) (t (S (S j))))) (fun i => total N (fun j => dt i * dt j * state_covariance k vol (s i) (s j)))) by (intros i I; rewrite <- total_scal; apply total_ext; intros; unfold dt, s; ring).
    rewrite (symmetric_sum N (fun i j => dt i * dt j * state_covariance k vol (s i) (s j))) by (intros i j; rewrite state_covariance_sym; ring).
    assert (Dt : forall j, (j < N)%nat -> 0 < dt j < d') by (intros j J; apply H; lia). assert (Sn : forall j, (j < N)%nat -> 0 <= s j) by (intros j J; rewrite <- T0; apply (fine_mono t n T d'); auto; lia).
    assert (Tot : total N dt <= T). { assert (X : forall q, (q < n)%nat -> total q dt = t (S q) - t 1%nat) by (induction q as [|q IH]; intros Q; [rewrite total_0; ring|rewrite total_S, IH by lia; unfold dt; ring]). destruct n as [|n']; [lia|]. cbn [Nat.pred] in N. unfold N. rewrite X by lia. rewrite Tn. pose proof (fine_mono t (S n') T d' 0 1 F ltac:(lia) ltac:(lia)). lra. }
    assert (Bd : forall j, (j < N)%nat -> Rabs ((2 * total (S j) (fun i => dt i * dt j * state_covariance k vol (s i) (s j)) - dt j * dt j * state_covariance k vol (s j) (s j)) / 2 - dt j * m (s j)) <= (e + d' * c / 2) * dt j).
    { intros j J. specialize (P (S (S j)) ltac:(lia)). rewrite G_0, Rminus_0_r in P. pose proof (Dt j J) as Dj. pose proof (Sn j J) as Sj.
      rewrite (total_ext (S j) _ (fun i => dt j * exp (- k * s j) * (dt i * w (s i)))) by (intros i I; rewrite covariance_of by (apply (fine_mono t n T d'); auto; lia); ring). rewrite total_scal.
      change (total (S j) (fun i => dt i * w (s i))) with (later_sum t (S (S j)) w). rewrite covariance_of by lra.
      pose proof (unscale (s j) (later_sum t (S (S j)) w) Sj e P) as U.
      replace (exp (- k * s j) * w (s j)) with (v (s j)) by (unfold w; rewrite <- Rmult_assoc, <- exp_plus; replace (- k * s j + k * s j) with 0 by ring; rewrite exp_0; ring). destruct (v_bound (s j) Sj) as [V1 V2]. fold c in V2.
      match goal with |- Rabs ?x <= _ => replace x with (dt j * ((exp (- k * s j) * later_sum t (S (S j)) w - m (s j)) - dt j * v (s j) / 2)) by field end. rewrite Rabs_mult, (Rabs_pos_eq (dt j)) by lra. rewrite Rmult_comm. apply Rmult_le_compat_r; [lra|].
      eapply Rle_trans; [apply Rabs_triang|]. rewrite Rabs_Ropp, (Rabs_pos_eq (dt j * v (s j) / 2)) by (apply Rmult_le_pos; [apply Rmult_le_pos; lra|lra]). assert (dt j * v (s j) <= d' * c) by (apply Rmult_le_compat; lra). lra. }
    assert (Sum : Rabs (total N (fun j => 2 * total (S j) (fun i => dt i * dt j * state_covariance k vol (s i) (s j)) - dt j * dt j * state_covariance k vol (s j) (s j)) / 2 - later_sum t n m) <= (e + d' * c / 2) * total N dt).
    { unfold later_sum. fold N. clear Tot. induction N as [|q IH]; [rewrite !total_0; replace (0 / 2 - 0) with 0 by field; rewrite Rabs_R0; lra|]. rewrite !total_S.
      assert (Q : forall j, (j < q)%nat -> (j < S q)%nat) by (intros; lia). specialize (IH (fun j J => Dt j (Q j J)) (fun j J => Sn j (Q j J)) (fun j J => Bd j (Q j J))). specialize (Bd q ltac:(lia)).
      match goal with |- Rabs ((?a + ?b) / 2 - (?x + ?y)) <= _ => replace ((a + b) / 2 - (x + y)) with ((a / 2 - x) + (b / 2 - y)) by field end. eapply Rle_trans; [apply Rabs_triang|]. rewrite (Rmult_plus_distr_l (e + d' * c / 2)). apply Rplus_le_compat; [exact IH|]. rewrite !total_S in Bd. exact Bd. }
    eapply Rle_trans; [exact Sum|]. assert (Dc : d' * c <= eps / T). { apply Rle_trans with (eps / (T * (c + 1)) * (c + 1)); [apply Rmult_le_compat; try lra; apply Rmin_r|]. right. field. split; lra. }
    assert (Z : (e + d' * c / 2) * T <= eps). { apply Rle_trans with ((e + eps / T / 2) * T); [apply Rmult_le_compat_r; lra|]. unfold e. right. field. lra. }
    assert (0 <= e + d' * c / 2) by (assert (0 <= d' * c) by (apply Rmult_le_pos; lra); lra). assert ((e + d' * c / 2) * total N dt <= (e + d' * c / 2) * T) by (apply Rmult_le_compat_l; assumption). lra.
  Qed.
  Lemma fine_discount df fwd eps : smooth_curve df fwd -> 0 < eps -> exists d, 0 < d /\ forall t n, fine t n T d -> Rabs (grid_log_discount fwd k vol t n - ln (df T)) <= eps.
  Proof.
    intros [D0 S] E. destruct (riemann_later fwd (fun s => - ln (df s)) T HT (fun x => proj1 (proj2 (S x))) (fun x => proj2 (proj2 (S x))) (eps / 2) ltac:(lra)) as (d1 & H1 & P1). destruct (fine_correction (eps / 2) ltac:(lra)) as (d2 & H2 & P2).
    exists (Rmin d1 d2). split; [apply Rmin_pos; assumption|]. intros t n F. pose proof F as (T0 & Tn & N1 & _). specialize (P1 t n (fine_weaken _ _ _ _ _ (Rmin_l _ _) F) n ltac:(lia)). specialize (P2 t n (fine_weaken _ _ _ _ _ (Rmin_r _ _) F)). rewrite D0, ln_1, Tn in P1.
    unfold grid_log_discount. replace (later_sum t n (fun s => fwd s + x_mean k vol s)) with (later_sum t n fwd + later_sum t n m) by (unfold later_sum; rewrite <- total_plus; apply total_ext; intros; unfold m; ring).
    match goal with |- Rabs ?x <= _ => replace x with (- (later_sum t n fwd - (- ln (df T) - - 0)) + (later_sum t n (fun s => later_sum t n (fun u => state_covariance k vol s u)) / 2 - later_sum t n m)) by ring end.
    eapply Rle_trans; [apply Rabs_triang|]. rewrite Rabs_Ropp. lra.
  Qed.
End Fine.

(* ---- the analytic valuation of the validation script ---- *)
Lemma knots_telescope (vn : list R) vol k n : fold_right Rplus 0 (map (fun i => variance_int (nth i vn 0) (nth (S i) vn 0) vol k) (seq 0 n)) = variance_int (nth 0 vn 0) (nth n vn 0) vol k.
Proof.
  change (total n (fun i => variance_int (nth i vn 0) (nth (S i) vn 0) vol k) = variance_int (nth 0 vn 0) (nth n vn 0) vol k).
  induction n as [|n IH]; [rewrite total_0; unfold variance_int; ring|]. rewrite total_S, IH. unfold variance_int. ring.
Qed.
Definition tff_sd (k vol T S : R) : R := Rabs vol * sqrt ((1 - exp (-2 * k * T)) / (2 * k)) * ((1 - exp (- k * (S - T))) / k).
Lemma tff_variance_sq knots k vol T S : 0 < k -> 0 <= T -> tff_variance knots k vol T S = tff_sd k vol T S ^ 2.
Proof.
  intros Kp HT. unfold tff_variance. rewrite knots_telescope. cbn [nth]. set (i := List.length _). unfold tff_sd, variance_int.
  rewrite !Rpow_mult_distr, pow2_abs, pow2_sqrt by (apply decay_nonneg; assumption).
  replace (exp (- k * S)) with (exp (- k * T) * exp (- k * (S - T))) by (rewrite <- exp_plus; f_equal; ring). replace (2 * k * 0) with 0 by ring. rewrite exp_0.
  replace (-2 * k * T) with (- k * T + - k * T) by ring. replace (2 * k * T) with (- (- k * T) + - (- k * T)) by ring. rewrite !exp_plus, exp_Ropp. pose proof (exp_pos (- k * T)). field. split; lra.
Qed.
Lemma tff_sd_nonneg k vol T S : 0 < k -> T <= S -> 0 <= tff_sd k vol T S.
Proof.
  intros Kp L. unfold tff_sd. apply Rmult_le_pos; [apply Rmult_le_pos; [apply Rabs_pos|apply sqrt_pos]|]. apply Rmult_le_pos; [|left; apply Rinv_0_lt_compat; exact Kp].
  assert (exp (- k * (S - T)) <= exp 0) by (destruct L as [L| ->]; [left; apply exp_increasing; nra|right; f_equal; ring]). rewrite exp_0 in *. lra.
Qed.
Lemma tff_positive rate knots k vol T S K call : 0 < k -> 0 <= T -> T <= S -> 0 < K -> 0 < tff_sd k vol T S ->
  tff_option rate knots k vol T S K call = Fin (exp (- rate T * T) * blk (option_sign call) (exp (- rate S * S) / exp (- rate T * T)) K (tff_sd k vol T S)).
Proof.
  intros Kp HT L HK V. unfold tff_option. rewrite tff_variance_sq by assumption. cbv zeta. set (v := tff_sd k vol T S) in *. pose proof (exp_pos (- rate T * T)) as A. pose proof (exp_pos (- rate S * S)) as B. set (a := exp (- rate T * T)) in *. set (b := exp (- rate S * S)) in *.
  rewrite nsqrt_fin by (apply pow2_ge_0). rewrite sqrt_pow2 by lra. unfold ltb. destruct Rlt_dec as [N|_]; [lra|]. unfold is_pos. destruct Rlt_dec as [_|N]; [|lra].
  rewrite div_fin by lra. assert (Q : 0 < b / a / K) by (apply Rdiv_lt_0_compat; [apply Rdiv_lt_0_compat; assumption|exact HK]). unfold nlog. destruct Rlt_dec as [_|N]; [|lra]. cbn [add]. unfold divide_no_nan, is_zero. destruct Req_EM_T as [N|_]; [lra|]. rewrite div_fin by lra.
  assert (D1 : (ln (b / a / K) + 1 / 2 * v ^ 2) / v = bd1 (b / a) K v) by (unfold bd1; field; lra). rewrite D1. cbn [sub neg add ncdf mul].
  assert (D2 : bd1 (b / a) K v + - v = bd2 (b / a) K v) by (unfold bd2, bd1; field; lra). rewrite D2. unfold blk, option_sign. destruct call.
  - f_equal. rewrite !Rmult_1_l. field. lra.
  - f_equal. replace (-1 * bd1 (b / a) K v) with (- bd1 (b / a) K v) by ring. replace (-1 * bd2 (b / a) K v) with (- bd2 (b / a) K v) by ring. field. lra.
Qed.
Lemma tff_zero rate knots k vol T S K call : 0 < k -> 0 <= T -> T <= S -> tff_sd k vol T S = 0 ->
  tff_option rate knots k vol T S K call = Fin (Rmax 0 (option_sign call * (exp (- rate S * S) / exp (- rate T * T) - K))).
Proof.
  intros Kp HT L V. unfold tff_option. rewrite tff_variance_sq by assumption. cbv zeta. rewrite V. replace (0 ^ 2) with 0 by ring. rewrite nsqrt_fin by lra. rewrite sqrt_0. unfold ltb. destruct Rlt_dec as [N|_]; [lra|]. unfold is_pos. destruct Rlt_dec as [N|_]; [lra|].
  unfold option_sign. destruct call; f_equal; rewrite Rmax_comm; f_equal; ring.
Qed.
