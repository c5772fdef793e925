From Coq Require Import ZArith Reals Lra Lia.
From Coquelicot Require Import Coquelicot.
From Verif Require Import Base ChfModel ChfSpec CplxProofs ChfProofs RiccatiProofs HestonLimitSpec.
Open Scope R_scope.

(* ---- limits from the right at zero, component by component ---- *)
Definition tends (f : R -> R) (l : R) : Prop := filterlim f (at_right 0) (locally l).
Definition ctends (f : R -> C) (l : C) : Prop := tends (fun e => fst (f e)) (fst l) /\ tends (fun e => snd (f e)) (snd l).
Lemma tends_const (c : R) : tends (fun _ => c) c.
Proof. apply filterlim_const. Qed.
Lemma tends_id : tends (fun e => e) 0.
Proof. intros P H. unfold at_right, within. destruct H as [d H]. exists d. intros y B _. exact (H y B). Qed.
Lemma tends_cont (g f : R -> R) (l : R) : tends f l -> continuous g l -> tends (fun e => g (f e)) (g l).
Proof. intros H G. exact (filterlim_comp _ _ _ f g _ _ _ H G). Qed.
Lemma tends_plus (f g : R -> R) (a b : R) : tends f a -> tends g b -> tends (fun e => f e + g e) (a + b).
Proof. intros F G. exact (filterlim_comp_2 f g Rplus F G (filterlim_plus (V := R_NormedModule) a b)). Qed.
Lemma tends_mult (f g : R -> R) (a b : R) : tends f a -> tends g b -> tends (fun e => f e * g e) (a * b).
Proof. intros F G. exact (filterlim_comp_2 f g Rmult F G (filterlim_mult (K := R_AbsRing) a b)). Qed.
Lemma tends_opp (f : R -> R) (a : R) : tends f a -> tends (fun e => - f e) (- a).
Proof. intros F. apply (tends_cont Ropp); [exact F|]. apply (continuous_opp (V := R_NormedModule) (fun x => x)), continuous_id. Qed.
Definition near (P : R -> Prop) : Prop := exists d : R, 0 < d /\ forall e : R, 0 < e < d -> P e.
Lemma near_and (P Q : R -> Prop) : near P -> near Q -> near (fun e => P e /\ Q e).
Proof. intros (d & D & H) (d' & D' & H'). exists (Rmin d d'). split; [apply Rmin_pos; assumption|]. intros e E. pose proof (Rmin_l d d'). pose proof (Rmin_r d d'). split; [apply H|apply H']; lra. Qed.
Lemma near_mono (P Q : R -> Prop) : (forall e, 0 < e -> P e -> Q e) -> near P -> near Q.
Proof. intros I (d & D & H). exists d. split; [exact D|]. intros e E. apply I; [lra|apply H, E]. Qed.
Lemma near_all (P : R -> Prop) : (forall e, 0 < e -> P e) -> near P.
Proof. intros H. exists 1. split; [lra|]. intros e E. apply H. lra. Qed.
Lemma near_right (P : R -> Prop) : near P -> at_right 0 P.
Proof. intros (d & D & H). exists (mkposreal d D). intros y B Y. apply H. unfold ball in B; cbn in B; unfold AbsRing_ball, minus, plus, opp, abs in B; cbn in B. apply Rabs_def2 in B. lra. Qed.
Lemma right_near (P : R -> Prop) : at_right 0 P -> near P.
Proof. intros [d H]. exists d. split; [apply cond_pos|]. intros e E. apply H; [|lra]. unfold ball; cbn; unfold AbsRing_ball, minus, plus, opp, abs; cbn. rewrite Rabs_pos_eq; lra. Qed.
Lemma tends_near (f : R -> R) (l eps : R) : tends f l -> 0 < eps -> near (fun e => Rabs (f e - l) < eps).
Proof. intros F E. apply right_near. apply (F (fun x => Rabs (x - l) < eps)). exists (mkposreal eps E). intros y B. exact B. Qed.
Lemma tends_ext (f g : R -> R) (l : R) : near (fun e => f e = g e) -> tends f l -> tends g l.
Proof. intros H F. apply (filterlim_ext_loc f); [apply near_right, H|exact F]. Qed.
Lemma tends_inv (f : R -> R) (a : R) : tends f a -> a <> 0 -> tends (fun e => / f e) (/ a).
Proof. intros F N. apply (tends_cont Rinv); [exact F|]. apply continuity_pt_filterlim. apply (continuity_pt_inv (fun x => x)); [apply derivable_continuous_pt, derivable_pt_id|exact N]. Qed.
Lemma tends_squeeze (f g : R -> R) : near (fun e => Rabs (f e) <= g e) -> tends g 0 -> tends f 0.
Proof.
  intros H G P [d HP]. apply near_right. apply (near_mono (fun e => Rabs (f e) <= g e /\ Rabs (g e - 0) < d)); [|apply near_and; [exact H|apply tends_near; [exact G|apply cond_pos]]].
  intros e _ [A B]. apply HP. unfold ball; cbn; unfold AbsRing_ball, minus, plus, opp, abs; cbn. replace (f e + - 0) with (f e) by ring.
  pose proof (Rle_abs (g e - 0)). lra.
Qed.

Lemma ctends_ext (f g : R -> C) (l : C) : near (fun e => f e = g e) -> ctends f l -> ctends g l.
Proof. intros H [A B]. split; [apply (tends_ext (fun e => fst (f e)))|apply (tends_ext (fun e => snd (f e)))]; try assumption; (apply (near_mono (fun e => f e = g e)); [|exact H]; intros e _ E; rewrite E; reflexivity). Qed.
Lemma ctends_eq (f : R -> C) (l m : C) : ctends f l -> l = m -> ctends f m.
Proof. intros H <-. exact H. Qed.
Lemma ctends_const (c : C) : ctends (fun _ => c) c.
Proof. split; apply tends_const. Qed.
Lemma ctends_real (f : R -> R) (a : R) : tends f a -> ctends (fun e => RtoC (f e)) (RtoC a).
Proof. intros H. split; [exact H|apply tends_const]. Qed.
Lemma ctends_plus (f g : R -> C) (a b : C) : ctends f a -> ctends g b -> ctends (fun e => f e + g e)%C (a + b)%C.
Proof. intros [F1 F2] [G1 G2]. split; cbn [Cplus fst snd]; apply tends_plus; assumption. Qed.
Lemma ctends_opp (f : R -> C) (a : C) : ctends f a -> ctends (fun e => - f e)%C (- a)%C.
Proof. intros [F1 F2]. split; cbn [Copp fst snd]; apply tends_opp; assumption. Qed.
Lemma ctends_minus (f g : R -> C) (a b : C) : ctends f a -> ctends g b -> ctends (fun e => f e - g e)%C (a - b)%C.
Proof. intros F G. apply ctends_plus; [exact F|apply ctends_opp; exact G]. Qed.
Lemma ctends_mult (f g : R -> C) (a b : C) : ctends f a -> ctends g b -> ctends (fun e => f e * g e)%C (a * b)%C.
Proof.
  intros [F1 F2] [G1 G2]. split; cbn [Cmult fst snd].
  - apply tends_plus; [|apply tends_opp]; apply tends_mult; assumption.
  - apply tends_plus; apply tends_mult; assumption.
Qed.
Lemma ctends_inv (f : R -> C) (a : C) : ctends f a -> a <> RtoC 0 -> ctends (fun e => / f e)%C (/ a)%C.
Proof.
  intros [F1 F2] N. pose proof (sq_pos a N) as Q.
  assert (S : tends (fun e => fst (f e) ^ 2 + snd (f e) ^ 2) (fst a ^ 2 + snd a ^ 2)).
  { cbn [pow]. apply tends_plus; (apply tends_mult; [assumption|apply tends_mult; [assumption|apply tends_const]]). }
  assert (I := tends_inv _ _ S ltac:(lra)).
  split; cbn [Cinv fst snd]; unfold Rdiv; apply tends_mult; try assumption. apply tends_opp, F2.
Qed.
Lemma ctends_cexp (f : R -> C) (a : C) : ctends f a -> ctends (fun e => cexp (f e)) (cexp a).
Proof.
  intros [F1 F2].
  assert (X : tends (fun e => exp (fst (f e))) (exp (fst a))) by (apply (tends_cont exp); [exact F1|apply continuity_pt_filterlim, derivable_continuous_pt, derivable_pt_exp]).
  split; cbn [cexp fst snd]; apply tends_mult; try exact X.
  - apply (tends_cont cos); [exact F2|apply continuity_pt_filterlim, continuity_cos].
  - apply (tends_cont sin); [exact F2|apply continuity_pt_filterlim, continuity_sin].
Qed.
Lemma tends_cmod (f : R -> C) (a : C) : ctends f a -> tends (fun e => Cmod (f e)) (Cmod a).
Proof.
  intros [F1 F2]. unfold Cmod. apply (tends_cont sqrt).
  - cbn [pow]. apply tends_plus; (apply tends_mult; [assumption|apply tends_mult; [assumption|apply tends_const]]).
  - apply continuity_pt_filterlim, continuity_pt_sqrt. nra.
Qed.
Lemma ctends_csqrt (f : R -> C) (k : R) : 0 < k -> ctends f (RtoC (k * k)) -> ctends (fun e => csqrt (f e)) (RtoC k).
Proof.
  intros K F. pose proof (tends_cmod f _ F) as M. destruct F as [F1 F2]. assert (P : 0 < k * k) by nra.
  assert (MK : Cmod (RtoC (k * k)) = k * k) by (rewrite Cmod_R; apply Rabs_pos_eq; lra). rewrite MK in M. cbn [fst snd RtoC] in *.
  split; cbn [fst snd RtoC].
  - apply (tends_ext (fun e => sqrt ((Cmod (f e) + fst (f e)) / 2))). { apply near_all. intros e _. destruct (f e). reflexivity. }
    replace k with (sqrt ((k * k + k * k) / 2)) by (replace ((k * k + k * k) / 2) with (k ^ 2) by field; apply sqrt_pow2; lra).
    apply (tends_cont sqrt); [|apply continuity_pt_filterlim, continuity_pt_sqrt; nra]. unfold Rdiv. apply tends_mult; [|apply tends_const]. apply tends_plus; assumption.
  - apply (tends_squeeze _ (fun e => sqrt ((Cmod (f e) - fst (f e)) / 2))).
    + apply near_all. intros e _. destruct (f e) as [x y]. cbn [csqrt fst snd]. rewrite Rabs_mult, (Rabs_pos_eq (sqrt _)) by apply sqrt_pos.
      assert (A : Rabs (if Rle_dec 0 y then 1 else -1) = 1) by (destruct (Rle_dec 0 y); [apply Rabs_R1|rewrite Rabs_left; lra]). rewrite A. lra.
    + assert (Z : sqrt ((k * k + - (k * k)) * / 2) = 0) by (replace ((k * k + - (k * k)) * / 2) with 0 by field; apply sqrt_0).
      assert (T : tends (fun e => sqrt ((Cmod (f e) + - fst (f e)) * / 2)) (sqrt ((k * k + - (k * k)) * / 2))).
      { apply (tends_cont sqrt); [|apply continuity_pt_filterlim, continuity_pt_sqrt; lra]. apply tends_mult; [|apply tends_const]. apply tends_plus; [exact M|apply tends_opp, F1]. }
      rewrite Z in T. exact T.
Qed.

(* ---- logarithm near one ---- *)
Lemma small_log (z : C) : Cmod z <= 1 / 2 -> Rabs (fst (hlog (1 - z) + z)%C) <= 2 * Cmod z ^ 2 /\ Rabs (snd (hlog (1 - z) + z)%C) <= 2 * Cmod z ^ 2.
Proof.
  intros Hz. pose proof (mod_bounds z) as [_ Pz].
  set (g := fun s : R => (hlog (1 - z * s) + z * s)%C).
  assert (Ms : forall s : R, 0 <= s <= 1 -> Cmod (z * s)%C <= 1 / 2).
  { intros s S. rewrite Cmod_mult, Cmod_R, Rabs_pos_eq by lra. nra. }
  assert (Re1 : forall s : R, 0 <= s <= 1 -> 1 / 2 <= fst (1 - z * s)%C).
  { intros s S. pose proof (Ms s S) as M. pose proof (mod_bounds (z * s)%C) as [B _]. apply Rabs_le_between in B. cbn [fst Cminus Cplus Copp RtoC] in *. lra. }
  assert (Dg : forall s : R, 0 <= s <= 1 -> derives g s (- (z / (1 - z * s)) + z)%C).
  { intros s S. unfold g. apply derives_plus; [|apply derives_id]. eapply derives_eq.
    - apply (derives_hlog (fun s => 1 - z * s)%C s (- z)%C).
      + eapply derives_eq. { apply (derives_ext (fun s => 1 + - z * s)%C); [intros x; ring|]. apply derives_plus; [apply derives_const|apply derives_id]. } ring.
      + pose proof (Re1 s S). lra.
    - unfold Cdiv. ring. }
  assert (Bd : forall s : R, 0 <= s <= 1 -> Cmod (- (z / (1 - z * s)) + z)%C <= 2 * Cmod z ^ 2).
  { intros s S. pose proof (Re1 s S) as R1. assert (N : (1 - z * s)%C <> RtoC 0) by (apply half_nz; lra).
    replace (- (z / (1 - z * s)) + z)%C with (- (z * (z * s)) / (1 - z * s))%C by (field; exact N).
    rewrite Cmod_div by exact N. rewrite Cmod_opp, Cmod_mult. pose proof (mod_bounds (1 - z * s)%C) as [B _]. pose proof (Rle_abs (fst (1 - z * s)%C)) as B2.
    assert (Ms2 : Cmod (z * s)%C <= Cmod z) by (rewrite Cmod_mult, Cmod_R, Rabs_pos_eq by lra; nra).
    apply (Rmult_le_reg_r (Cmod (1 - z * s)%C)); [lra|]. unfold Rdiv. rewrite Rmult_assoc, Rinv_l, Rmult_1_r by lra. pose proof (mod_bounds (z * s)%C) as [_ Pq]. nra. }
  assert (G0 : g 0 = RtoC 0).
  { unfold g. replace (1 - z * 0)%C with (RtoC 1) by ring. unfold hlog. cbn [fst snd RtoC]. apply c_eq; cbn [fst snd Cplus Cmult RtoC].
    - replace (1 ^ 2 + 0 ^ 2) with 1 by ring. rewrite ln_1. field.
    - replace (0 / 1) with 0 by field. rewrite atan_0. ring. }
  assert (G1 : g 1 = (hlog (1 - z) + z)%C) by (unfold g; rewrite Cmult_1_r; reflexivity). rewrite <- G1.
  assert (MV : forall h dh : R -> R, h 0 = 0 -> (forall s, 0 <= s <= 1 -> is_derive h s (dh s)) -> (forall s, 0 <= s <= 1 -> Rabs (dh s) <= 2 * Cmod z ^ 2) -> Rabs (h 1) <= 2 * Cmod z ^ 2).
  { intros h dh H0 HD HB. destruct (MVT_gen h 0 1 dh) as (c & Hc & E).
    - intros x. rewrite Rmin_left, Rmax_right by lra. intros X. apply HD. lra.
    - intros x. rewrite Rmin_left, Rmax_right by lra. intros X. apply continuity_pt_filterlim. apply (ex_derive_continuous (K := R_AbsRing) (V := R_NormedModule) h). exists (dh x). apply HD. lra.
    - rewrite Rmin_left, Rmax_right in Hc by lra. replace (h 1) with (h 1 - h 0) by lra. rewrite E. replace (dh c * (1 - 0)) with (dh c) by ring. apply HB, Hc. }
  assert (S2 : forall w : C, Rabs (snd w) <= Cmod w).
  { intros w. unfold Cmod. rewrite <- (sqrt_Rsqr_abs (snd w)). apply sqrt_le_1_alt. unfold Rsqr. nra. }
  split.
  - apply (MV (fun s => fst (g s)) (fun s => fst (- (z / (1 - z * s)) + z)%C)).
    + rewrite G0. reflexivity.
    + intros s S. exact (proj1 (Dg s S)).
    + intros s S. eapply Rle_trans; [apply mod_bounds|apply Bd, S].
  - apply (MV (fun s => snd (g s)) (fun s => snd (- (z / (1 - z * s)) + z)%C)).
    + rewrite G0. reflexivity.
    + intros s S. exact (proj2 (Dg s S)).
    + intros s S. eapply Rle_trans; [apply S2|apply Bd, S].
Qed.
Lemma log_limit (c : R -> C) (l : C) : ctends c l -> ctends (fun e => (/ e ^ 2)%R * hlog (1 - (e ^ 2)%R * c e))%C (- l)%C.
Proof.
  intros HC.
  assert (E2 : tends (fun e => e ^ 2) 0). { replace 0 with (0 * (0 * 1)) by ring. cbn [pow]. apply tends_mult; [apply tends_id|apply tends_mult; [apply tends_id|apply tends_const]]. }
  set (rem := fun e => ((/ e ^ 2)%R * (hlog (1 - (e ^ 2)%R * c e) + (e ^ 2)%R * c e))%C).
  assert (Bound : tends (fun e => 2 * e ^ 2 * Cmod (c e) ^ 2) 0).
  { replace 0 with (2 * 0 * (Cmod l * (Cmod l * 1))) by ring. apply tends_mult; [apply tends_mult; [apply tends_const|exact E2]|]. cbn [pow]. pose proof (tends_cmod c l HC). apply tends_mult; [assumption|apply tends_mult; [assumption|apply tends_const]]. }
  assert (Small : near (fun e => Cmod ((e ^ 2)%R * c e)%C <= 1 / 2)).
  { assert (T : tends (fun e => Cmod ((e ^ 2)%R * c e)%C) 0).
    { replace 0 with (Cmod (0%R * l)%C) by (rewrite Cmult_0_l; apply Cmod_0). apply tends_cmod, ctends_mult; [apply ctends_real, E2|exact HC]. }
    apply (near_mono (fun e => Rabs (Cmod ((e ^ 2)%R * c e)%C - 0) < 1 / 2)); [|apply tends_near; [exact T|lra]]. intros e _ H. pose proof (Rle_abs (Cmod ((e ^ 2)%R * c e)%C - 0)). lra. }
  assert (R0 : ctends rem (RtoC 0)).
  { assert (Key : near (fun e => Rabs (fst (rem e)) <= 2 * e ^ 2 * Cmod (c e) ^ 2 /\ Rabs (snd (rem e)) <= 2 * e ^ 2 * Cmod (c e) ^ 2)).
    { apply (near_mono (fun e => Cmod ((e ^ 2)%R * c e)%C <= 1 / 2)); [|exact Small]. intros e He H. destruct (small_log _ H) as [A B]. unfold rem.
      assert (P2 : 0 < e ^ 2) by nra. assert (MM : Cmod ((e ^ 2)%R * c e)%C = e ^ 2 * Cmod (c e)) by (rewrite Cmod_mult, Cmod_R, Rabs_pos_eq by lra; reflexivity). rewrite MM in A, B.
      set (w := (hlog (1 - (e ^ 2)%R * c e) + (e ^ 2)%R * c e)%C) in *. assert (PI : 0 < / e ^ 2) by (apply Rinv_0_lt_compat, P2).
      assert (X : forall x, Rabs x <= 2 * (e ^ 2 * Cmod (c e)) ^ 2 -> Rabs (/ e ^ 2 * x) <= 2 * e ^ 2 * Cmod (c e) ^ 2).
      { intros x Hx. rewrite Rabs_mult, (Rabs_pos_eq (/ e ^ 2)) by lra. apply (Rmult_le_reg_l (e ^ 2)); [exact P2|]. rewrite <- Rmult_assoc, Rinv_r, Rmult_1_l by lra. eapply Rle_trans; [exact Hx|]. apply Req_le. ring. }
      cbn [Cmult RtoC fst snd]. split.
      - replace (/ e ^ 2 * fst w - 0 * snd w) with (/ e ^ 2 * fst w) by ring. apply X, A.
      - replace (/ e ^ 2 * snd w + 0 * fst w) with (/ e ^ 2 * snd w) by ring. apply X, B. }
    split; cbn [fst snd RtoC].
    - apply (tends_squeeze _ (fun e => 2 * e ^ 2 * Cmod (c e) ^ 2)); [|exact Bound]. revert Key. apply near_mono. tauto.
    - apply (tends_squeeze _ (fun e => 2 * e ^ 2 * Cmod (c e) ^ 2)); [|exact Bound]. revert Key. apply near_mono. tauto. }
  apply (ctends_ext (fun e => rem e - c e)%C).
  - apply near_all. intros e He. unfold rem. assert (N : RtoC (e ^ 2) <> RtoC 0). { intros Q. apply (f_equal fst) in Q. cbn [fst RtoC] in Q. revert Q. apply pow_nonzero. lra. }
    rewrite RtoC_inv by (apply pow_nonzero; lra). field. exact N.
  - eapply ctends_eq; [apply ctends_minus; [exact R0|exact HC]|ring].
Qed.

(* ---- the characteristic function ---- *)
Lemma strip_near (p : params) (u : C) : 0 < p_kappa p -> -1 <= p_rho p <= 1 -> near (fun e => strip (with_vv p e) u).
Proof.
  intros K Rh. set (y := - snd u). set (a := Rabs y). assert (A : 0 <= a) by apply Rabs_pos. set (k := p_kappa p) in *. set (r := p_rho p) in *.
  exists (k / (4 * (1 + a))). split; [apply Rdiv_lt_0_compat; lra|]. intros e [E1 E2].
  assert (Q : e * (1 + a) < k / 4). { apply (Rmult_lt_compat_r (1 + a)) in E2; [|lra]. replace (k / (4 * (1 + a)) * (1 + a)) with (k / 4) in E2 by (field; lra). exact E2. }
  assert (Qe : e < k / 4) by nra. assert (Qa : e * a < k / 4) by nra.
  assert (RY : Rabs (r * e * y) <= e * a).
  { rewrite !Rabs_mult, (Rabs_pos_eq e) by lra. fold a. assert (Rabs r <= 1) by (apply Rabs_le; lra). assert (0 <= e * a) by (apply Rmult_le_pos; lra). pose proof (Rabs_pos r). nra. }
  apply Rabs_le_between in RY.
  unfold strip. cbn [with_vv p_vv p_rho p_kappa]. fold y k r. repeat split; try lra; try nra.
  assert (Yb : y ^ 2 - y <= a ^ 2 + a). { unfold a. rewrite <- (pow2_abs y). pose proof (Rle_abs (- y)) as X. rewrite Rabs_Ropp in X. lra. }
  assert (Up : e ^ 2 * (y ^ 2 - y) <= e ^ 2 * (a ^ 2 + a)) by (apply Rmult_le_compat_l; [nra|exact Yb]).
  assert (U1 : e ^ 2 * a ^ 2 <= (k / 4) ^ 2). { replace (e ^ 2 * a ^ 2) with ((e * a) ^ 2) by ring. apply pow_incr. split; [apply Rmult_le_pos; lra|lra]. }
  assert (U2 : e ^ 2 * a <= (k / 4) ^ 2). { replace (e ^ 2 * a) with (e * (e * a)) by ring. replace ((k / 4) ^ 2) with (k / 4 * (k / 4)) by ring. apply Rmult_le_compat; try lra; apply Rmult_le_pos; lra. }
  assert (L : 3 * k / 4 <= k - r * e * y) by lra. assert ((3 * k / 4) ^ 2 <= (k - r * e * y) ^ 2) by (apply pow_incr; lra). nra.
Qed.

Section Limit.
Variables (p : params) (u : C).
Hypothesis K : 0 < p_kappa p.
Hypothesis Rh : -1 <= p_rho p <= 1.
Let k := p_kappa p. Let t := p_tau p.
Let m : C := (u * u + Ci * u)%C.
Let q (e : R) := with_vv p e.

Lemma square_tends : tends (fun e => e ^ 2) 0.
Proof. replace 0 with (0 * (0 * 1)) by ring. cbn [pow]. apply tends_mult; [apply tends_id|apply tends_mult; [apply tends_id|apply tends_const]]. Qed.
Lemma w_tends : ctends (fun e => wval (q e) u) (RtoC k).
Proof.
  unfold wval, q. cbn [with_vv p_kappa p_rho p_vv]. eapply ctends_eq.
  - apply ctends_minus; [apply ctends_const|]. apply ctends_mult; [|apply ctends_const]. apply ctends_mult; [apply ctends_const|apply ctends_real, tends_id].
  - fold k. ring.
Qed.
Lemma d_tends : ctends (fun e => dval (q e) u) (RtoC k).
Proof.
  unfold dval. apply ctends_csqrt; [exact K|]. eapply ctends_eq.
  - apply ctends_plus; [unfold csq; apply ctends_mult; exact w_tends|]. apply ctends_mult; [apply ctends_const|]. unfold q. cbn [with_vv p_vv]. apply ctends_real, square_tends.
  - rewrite RtoC_mult. ring.
Qed.
Lemma k_nz : RtoC k <> RtoC 0.
Proof. apply half_nz. exact K. Qed.
Lemma sum_tends : ctends (fun e => / (wval (q e) u + dval (q e) u))%C (/ (2 * k))%C.
Proof.
  apply ctends_inv; [|apply Cmult_neq_0; [apply half_nz; cbn; lra|exact k_nz]]. eapply ctends_eq; [apply ctends_plus; [exact w_tends|exact d_tends]|]. replace (RtoC 2) with (1 + 1)%C by (apply c_eq; cbn; lra). ring.
Qed.
Lemma e_tends : ctends (fun e => eval_ (q e) u t) (RtoC (exp (- k * t))).
Proof.
  unfold eval_. eapply ctends_eq.
  - apply ctends_cexp, ctends_mult; [apply ctends_opp, d_tends|apply ctends_const].
  - rewrite <- cexp_real. f_equal. apply c_eq; cbn; ring.
Qed.
Lemma diff_val (e : R) : strip (q e) u -> (wval (q e) u - dval (q e) u)%C = ((e ^ 2)%R * - (m * / (wval (q e) u + dval (q e) u)))%C.
Proof.
  intros S. pose proof (wd_nz (q e) u S) as N. set (W := wval (q e) u) in *. set (D := dval (q e) u) in *.
  assert (Q : (D * D = W * W + m * (e ^ 2)%R)%C) by exact (d_sq (q e) u).
  assert (X : ((W - D) * (W + D) = - (m * (e ^ 2)%R))%C). { replace ((W - D) * (W + D))%C with (W * W - D * D)%C by ring. rewrite Q. ring. }
  transitivity ((W - D) * (W + D) * / (W + D))%C; [field; exact N|]. rewrite X. ring.
Qed.
Lemma g_val (e : R) : strip (q e) u -> gval (q e) u = ((e ^ 2)%R * - (m * / (wval (q e) u + dval (q e) u) * / (wval (q e) u + dval (q e) u)))%C.
Proof. intros S. unfold gval, Cdiv. rewrite (diff_val e S). ring. Qed.
Lemma g_tends : ctends (fun e => gval (q e) u) (RtoC 0).
Proof.
  apply (ctends_ext (fun e => (e ^ 2)%R * - (m * / (wval (q e) u + dval (q e) u) * / (wval (q e) u + dval (q e) u)))%C).
  - apply (near_mono (fun e => strip (q e) u)); [|apply strip_near; assumption]. intros e _ S. symmetry. apply g_val, S.
  - eapply ctends_eq; [apply ctends_mult; [apply ctends_real, square_tends|apply ctends_opp, ctends_mult; [apply ctends_mult; [apply ctends_const|exact sum_tends]|exact sum_tends]]|ring].
Qed.
Lemma b_tends : ctends (fun e => fun_b (q e) u t) (- (m * (/ 2 * ((1 - exp (- k * t)) / k))%R))%C.
Proof.
  apply (ctends_ext (fun e => - (m * / (wval (q e) u + dval (q e) u)) * ((1 - eval_ (q e) u t) * / (1 - gval (q e) u * eval_ (q e) u t)))%C).
  - apply (near_mono (fun e => strip (q e) u)); [|apply strip_near; assumption]. intros e He S. unfold fun_b. rewrite (diff_val e S). change (p_vv (q e)) with e.
    assert (N : RtoC (e ^ 2) <> RtoC 0). { intros Q. apply (f_equal fst) in Q. cbn [fst RtoC] in Q. revert Q. apply pow_nonzero. lra. }
    rewrite RtoC_inv by (apply pow_nonzero; lra). unfold Cdiv. set (i := (/ (wval (q e) u + dval (q e) u))%C). set (j := (/ (1 - gval (q e) u * eval_ (q e) u t))%C).
    transitivity (/ (e ^ 2)%R * (e ^ 2)%R * (- (m * i) * ((1 - eval_ (q e) u t) * j)))%C; [|ring]. rewrite Cinv_l by exact N. ring.
  - eapply ctends_eq.
    + apply ctends_mult; [apply ctends_opp, ctends_mult; [apply ctends_const|exact sum_tends]|].
      apply ctends_mult; [apply ctends_minus; [apply ctends_const|exact e_tends]|].
      apply ctends_inv; [apply ctends_minus; [apply ctends_const|apply ctends_mult; [exact g_tends|exact e_tends]]|].
      rewrite Cmult_0_l. apply half_nz. cbn. lra.
    + assert (Kn : k <> 0) by (unfold k; lra). unfold Rdiv. rewrite !RtoC_mult, RtoC_minus, !RtoC_inv by lra. field. split; [exact k_nz|]. split; [apply half_nz; cbn; lra|]. apply half_nz; cbn; lra.
Qed.
Lemma l_tends : ctends (fun e => fun_l (q e) u t) (- (m * (/ 2 * (t / k - (1 - exp (- k * t)) / (k * k)))%R))%C.
Proof.
  set (c := fun e => (- (m * / (wval (q e) u + dval (q e) u) * / (wval (q e) u + dval (q e) u)))%C).
  assert (Cc : ctends c (- (m * / (2 * k) * / (2 * k)))%C) by (apply ctends_opp, ctends_mult; [apply ctends_mult; [apply ctends_const|exact sum_tends]|exact sum_tends]).
  pose proof (log_limit c _ Cc) as L2.
  pose proof (log_limit (fun e => c e * eval_ (q e) u t)%C _ (ctends_mult _ _ _ _ Cc e_tends)) as L1.
  apply (ctends_ext (fun e => - (m * / (wval (q e) u + dval (q e) u)) * t - 2 * ((/ e ^ 2)%R * hlog (1 - (e ^ 2)%R * (c e * eval_ (q e) u t)) - (/ e ^ 2)%R * hlog (1 - (e ^ 2)%R * c e)))%C).
  - apply (near_mono (fun e => strip (q e) u)); [|apply strip_near; assumption]. intros e He S. unfold fun_l. rewrite (diff_val e S).
    rewrite (g_val e S). fold (c e). change (p_vv (q e)) with e.
    replace ((e ^ 2)%R * c e * eval_ (q e) u t)%C with ((e ^ 2)%R * (c e * eval_ (q e) u t))%C by ring.
    assert (N : RtoC (e ^ 2) <> RtoC 0). { intros Q. apply (f_equal fst) in Q. cbn [fst RtoC] in Q. revert Q. apply pow_nonzero. lra. }
    rewrite RtoC_inv by (apply pow_nonzero; lra). set (h1 := hlog _). set (h2 := hlog _). set (i := (/ (wval (q e) u + dval (q e) u))%C).
    transitivity (/ (e ^ 2)%R * (e ^ 2)%R * (- (m * i) * t) - 2 * (/ (e ^ 2)%R * h1 - / (e ^ 2)%R * h2))%C; [rewrite Cinv_l by exact N; ring|ring].
  - eapply ctends_eq.
    + apply ctends_minus; [apply ctends_mult; [apply ctends_opp, ctends_mult; [apply ctends_const|exact sum_tends]|apply ctends_const]|].
      apply ctends_mult; [apply ctends_const|]. apply ctends_minus; [exact L1|exact L2].
    + assert (Kn : k <> 0) by (unfold k; lra). unfold Rdiv. assert (k * k <> 0) by nra. rewrite !RtoC_mult, !RtoC_minus, !RtoC_mult, !RtoC_minus, !RtoC_inv, RtoC_mult by (try lra; assumption).
      replace (RtoC 2) with (1 + 1)%C by (apply c_eq; cbn; lra). field. split; [exact k_nz|]. apply half_nz; cbn; lra.
Qed.

Lemma fang_limit : 0 <= p_tau p ->
  tends_at_zero (fun e => chf_fang (with_vv p e) u)
    (lognormal_chf ((p_r p - p_q p) * t) (p_theta p * t + (p_var0 p - p_theta p) * (1 - exp (- k * t)) / k) u).
Proof.
  intros T.
  set (z := fun e => cexp (Ci * u * (p_r p - p_q p)%R * t + p_var0 p * fun_b (q e) u t + (p_kappa p * p_theta p)%R * fun_l (q e) u t)%C).
  set (V := p_theta p * t + (p_var0 p - p_theta p) * (1 - exp (- k * t)) / k).
  assert (Z : ctends z (lognormal_chf ((p_r p - p_q p) * t) V u)).
  { eapply ctends_eq.
    - apply ctends_cexp. apply ctends_plus; [apply ctends_plus; [apply ctends_const|apply ctends_mult; [apply ctends_const|exact b_tends]]|apply ctends_mult; [apply ctends_const|exact l_tends]].
    - unfold lognormal_chf. f_equal. fold m. fold k. assert (Kn : k <> 0) by (unfold k; lra).
      replace (V / 2) with (p_var0 p * (/ 2 * ((1 - exp (- k * t)) / k)) + k * p_theta p * (/ 2 * (t / k - (1 - exp (- k * t)) / (k * k)))) by (unfold V; field; exact Kn).
      rewrite (RtoC_mult (p_r p - p_q p) t), RtoC_plus, (RtoC_mult (p_var0 p)), (RtoC_mult (k * p_theta p)). ring. }
  intros eps Eps.
  assert (M : tends (fun e => Cmod (z e - lognormal_chf ((p_r p - p_q p) * t) V u)%C) 0).
  { replace 0 with (Cmod (lognormal_chf ((p_r p - p_q p) * t) V u - lognormal_chf ((p_r p - p_q p) * t) V u)%C) by (replace (lognormal_chf ((p_r p - p_q p) * t) V u - lognormal_chf ((p_r p - p_q p) * t) V u)%C with (RtoC 0) by ring; apply Cmod_0).
    apply tends_cmod, ctends_minus; [exact Z|apply ctends_const]. }
  destruct (near_and _ _ (strip_near p u K Rh) (tends_near _ _ eps M Eps)) as (d & Hd & H). exists d. split; [exact Hd|]. intros e E. destruct (H e E) as [S B].
  exists (z e). split; [|pose proof (Rle_abs (Cmod (z e - lognormal_chf ((p_r p - p_q p) * t) V u)%C - 0)); lra].
  rewrite fang_core. change (p_tau (with_vv p e)) with (p_tau p). rewrite (core_regular (with_vv p e) u S (p_tau p) T). reflexivity.
Qed.
End Limit.

(* ---- the variance path ---- *)
Lemma path_integral (p : params) (v : R -> R) : 0 < p_kappa p -> 0 <= p_tau p -> variance_path p v ->
  is_RInt v 0 (p_tau p) (p_theta p * p_tau p + (p_var0 p - p_theta p) * (1 - exp (- p_kappa p * p_tau p)) / p_kappa p).
Proof.
  intros K T [V0 V]. set (k := p_kappa p) in *. set (th := p_theta p) in *. set (t := p_tau p) in *.
  assert (Vt : forall s, 0 <= s -> v s = th + (p_var0 p - th) * exp (- k * s)).
  { intros s S. set (h := fun x => (v x - th) * exp (k * x)).
    assert (Dh : forall x, 0 <= x -> is_derive h x 0).
    { intros x X. unfold h. evar_last. { apply (is_derive_mult (fun x => v x - th) (fun x => exp (k * x)) x (k * (th - v x)) (k * exp (k * x))); [| |intros a b; apply Rmult_comm].
        - evar_last. { apply (is_derive_minus (K := R_AbsRing) (V := R_NormedModule) v (fun _ => th)); [apply V, X|apply (is_derive_const (K := R_AbsRing) (V := R_NormedModule) th)]. } unfold minus, plus, opp, zero; cbn. ring.
        - auto_derive; [trivial|ring]. }
      unfold plus, mult; cbn. ring. }
    assert (Hs : h s = h 0).
    { destruct (Req_dec s 0) as [->|Ns]; [reflexivity|]. destruct (MVT_gen h 0 s (fun _ => 0)) as (c & _ & E).
      - intros x. rewrite Rmin_left, Rmax_right by lra. intros X. apply Dh. lra.
      - intros x. rewrite Rmin_left, Rmax_right by lra. intros X. apply continuity_pt_filterlim, (ex_derive_continuous (K := R_AbsRing) (V := R_NormedModule) h). exists 0. apply Dh. lra.
      - lra. }
    unfold h in Hs. rewrite Rmult_0_r, exp_0, V0 in Hs. assert (E1 : exp (k * s) * exp (- k * s) = 1) by (rewrite <- exp_plus; replace (k * s + - k * s) with 0 by ring; apply exp_0).
    assert (v s - th = (p_var0 p - th) * exp (- k * s)); [|lra]. replace (v s - th) with ((v s - th) * exp (k * s) * exp (- k * s)) by (rewrite Rmult_assoc, E1; ring). rewrite Hs. ring. }
  apply (is_RInt_ext (fun s => th + (p_var0 p - th) * exp (- k * s))). { intros x. rewrite Rmin_left by exact T. intros X. symmetry. apply Vt. lra. }
  set (F := fun s => th * s - (p_var0 p - th) * exp (- k * s) / k).
  replace (th * t + (p_var0 p - th) * (1 - exp (- k * t)) / k) with (minus (F t) (F 0)).
  2:{ unfold F, minus, plus, opp; cbn. rewrite Rmult_0_r, (Rmult_0_r (- k)), exp_0. field. lra. }
  apply (is_RInt_derive (V := R_CompleteNormedModule) F).
  - intros x _. unfold F. auto_derive; [trivial|]. field. lra.
  - intros x _. apply (ex_derive_continuous (K := R_AbsRing) (V := R_NormedModule)). auto_derive. trivial.
Qed.
