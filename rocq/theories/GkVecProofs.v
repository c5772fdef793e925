From Coq Require Import String Reals List Bool Lra Lia.
From Verif Require Import Base NormalModel NormalProofs BsProofs BlackModel BlackSpec BlackProofs BlackVecProofs GkModel GkSpec GkProofs.
Import ListNotations.
Open Scope R_scope.

(* ---- arrays ---- *)
Lemma broadcast_iff (lens : list nat) (n : nat) : lens <> [] -> (broadcast lens = Some n <-> fits lens n).
Proof.
  intros NE. split.
  - assert (G : forall l m, broadcast l = Some m -> Forall (fun k => k = 1%nat \/ k = m) l /\ (In m l \/ l = [] /\ m = 1%nat)).
    { induction l as [ | k l IH]; intros m; cbn [broadcast].
      - intros E. injection E as <-. split; auto.
      - destruct (broadcast l) as [m' | ]; [ | discriminate]. specialize (IH m' eq_refl) as [A B].
        destruct (k =? 1)%nat eqn:K1; [ | destruct (m' =? 1)%nat eqn:M1; [ | destruct (k =? m')%nat eqn:KM; [ | discriminate]]]; intros E; injection E as <-.
        + apply Nat.eqb_eq in K1. subst k. split; [constructor; auto | ]. left. destruct B as [B | [_ ->]]; [right; auto | left; auto].
        + apply Nat.eqb_eq in M1. subst m'. split; [ | left; left; auto]. constructor; auto. eapply Forall_impl; [ | exact A]. cbn. lia.
        + apply Nat.eqb_eq in KM. subst m'. split; [constructor; auto | left; left; auto]. }
    intros E. destruct (G lens n E) as [A [B | [B _]]]; [split; auto | contradiction].
  - intros [A B]. rewrite (broadcast_fits lens n A). destruct (in_dec Nat.eq_dec n lens); [reflexivity | contradiction].
Qed.

Lemma gk_lens_nonempty (a : gk) : gk_lens a <> [].
Proof. unfold gk_lens. destruct (g_F a); discriminate. Qed.

Lemma valid_gk_iff (a : gk) : valid_gk a <->
  all_pos (g_S a) = true /\ all_nonneg (g_tau a) = true /\ forallb is_cp (g_cp a) = true /\ (length (g_cp a) =? length (g_vol a))%nat = true /\
  (length (g_cp a) =? length (g_K a))%nat = true /\ match g_F a with Some f => all_pos f = true | None => True end.
Proof.
  unfold valid_gk. rewrite all_pos_iff, all_nonneg_iff, !Nat.eqb_eq, forallb_forall, Forall_forall.
  assert (C : Forall call_or_put (g_cp a) <-> forall x, In x (g_cp a) -> is_cp x = true).
  { rewrite Forall_forall. split; intros H x I; [apply cp_true | apply cp_inv]; auto. }
  rewrite C. destruct (g_F a) as [f | ]; [rewrite all_pos_iff | ]; rewrite ?Forall_forall; tauto.
Qed.

Definition rate_at (a : gk) (i : nat) : num :=
  gk_rate (Fin (at_ (g_S a) i)) (Fin (at_ (g_tau a) i)) (Fin (at_ (g_rd a) i)) (Fin (at_ (g_rf a) i)) (match g_F a with Some f => Some (Fin (at_ f i)) | None => None end).
Definition col (a : gk) (f : num -> num -> num -> num -> num -> num -> num -> num) (i : nat) : num :=
  f (Fin (at_ (g_S a) i)) (Fin (at_ (g_tau a) i)) (rate_at a i) (Fin (at_ (g_rf a) i)) (Fin (at_ (g_cp a) i)) (Fin (at_ (g_K a) i)) (Fin (at_ (g_vol a) i)).
Definition payoffs (a : gk) : list num :=
  vec (size [length (g_cp a); length (g_S a); length (g_K a)]) (fun i => intrinsic_elem (Fin (at_ (g_S a) i)) (Fin (at_ (g_cp a) i)) (Fin (at_ (g_K a) i))).
Definition greeks_of (a : gk) (n : nat) : list (list num) :=
  [vec n (col a gk_spot_delta); vec n (col a gk_forward_delta); vec n (col a (fun s t r q _ k v => gk_vega s t r q k v)); vec n (col a gk_theta);
   vec n (col a (fun s t r q _ k v => gk_gamma s t r q k v)); vec n (col a gk_rho)].

Lemma core_run (a : gk) (n : nat) (sp an : bool) : valid_gk a -> fits (gk_lens a) n ->
  gk_core a sp an =
  let* X := at_expiry (g_tau a) (payoffs a) (vec n (col a gk_elem)) in
  let* s := if sp then let* s := split_values (g_tau a) (vec n (col a (fun s t r q c k _ => gk_intrinsic s t r q c k))) X in Ok (Some s) else Ok None in
  Ok (mk_priced X s (if an then Some (greeks_of a n) else None) None).
Proof.
  intros V H. apply valid_gk_iff in V as (A & B & C & D & E & G). apply broadcast_iff in H; [ | apply gk_lens_nonempty].
  unfold gk_core. rewrite A, B, C, D, E, H. cbn [guard bind]. destruct (g_F a) as [f | ] eqn:EF; [rewrite G | ]; cbn [guard bind];
    unfold col, rate_at, payoffs, greeks_of, col, rate_at; rewrite EF; reflexivity.
Qed.

Lemma core_invalid (a : gk) (sp an : bool) : ~ valid_gk a -> gk_core a sp an = Err AssertionError.
Proof.
  intros V. rewrite valid_gk_iff in V. unfold gk_core.
  destruct (all_pos (g_S a)); [ | reflexivity]. destruct (all_nonneg (g_tau a)); [ | reflexivity]. destruct (forallb is_cp (g_cp a)); [ | reflexivity].
  destruct (length (g_cp a) =? length (g_vol a))%nat; [ | reflexivity]. destruct (length (g_cp a) =? length (g_K a))%nat; [ | reflexivity].
  cbn [guard bind]. destruct (g_F a) as [f | ]; [destruct (all_pos f); [ | reflexivity] | ]; exfalso; apply V; repeat split.
Qed.

Lemma core_no_broadcast (a : gk) (sp an : bool) : valid_gk a -> ~ (exists n, fits (gk_lens a) n) -> gk_core a sp an = Err ValueError.
Proof.
  intros V H. apply valid_gk_iff in V as (A & B & C & D & E & G).
  assert (N : broadcast (gk_lens a) = None).
  { destruct (broadcast (gk_lens a)) as [n | ] eqn:EB; [ | reflexivity]. exfalso. apply H. exists n. apply broadcast_iff; auto. apply gk_lens_nonempty. }
  unfold gk_core. rewrite A, B, C, D, E, N. cbn [guard bind]. destruct (g_F a) as [f | ]; [rewrite G | ]; reflexivity.
Qed.

(* the mask tau==0 must have the length of the price and of the payoff *)
Definition mask_ok (a : gk) (n : nat) : Prop := length (g_tau a) = n /\ (length (g_S a) = n \/ length (g_cp a) = n).

Lemma payoff_length (a : gk) (n : nat) : valid_gk a -> fits (gk_lens a) n -> length (g_tau a) = n ->
  (length (payoffs a) = n <-> length (g_S a) = n \/ length (g_cp a) = n).
Proof.
  intros (_ & _ & _ & _ & EK & _) [H _] T. unfold payoffs. rewrite vec_length.
  assert (L : (length (g_S a) = 1%nat \/ length (g_S a) = n) /\ (length (g_cp a) = 1%nat \/ length (g_cp a) = n) /\ (length (g_K a) = 1%nat \/ length (g_K a) = n)).
  { unfold gk_lens in H. destruct (g_F a); repeat match goal with X : Forall _ (_ :: _) |- _ => inversion X; clear X; subst end; auto. }
  destruct L as (L1 & L2 & L3). rewrite (size_fits _ n) by (repeat (apply Forall_cons; [assumption | ]); apply Forall_nil).
  destruct (in_dec Nat.eq_dec n [length (g_cp a); length (g_S a); length (g_K a)]) as [I | I].
  - split; auto. intros _. cbn in I. rewrite <- EK in I. intuition.
  - cbn in I. split; [intros E | intros [E | E]; exfalso; apply I; auto]. exfalso. apply I. lia.
Qed.

Lemma at_expiry_ok (tau : list R) (p x : list num) : length tau = length p -> length tau = length x ->
  at_expiry tau p x = Ok (map (fun q : R * (num * num) => let '(t, (p, x)) := q in if is_zero (Fin t) then p else x) (combine tau (combine p x))).
Proof. intros A B. unfold at_expiry. rewrite (proj2 (Nat.eqb_eq _ _) A), (proj2 (Nat.eqb_eq _ _) B). reflexivity. Qed.

Lemma at_expiry_fails (tau : list R) (p x : list num) : ~ (length tau = length p /\ length tau = length x) -> at_expiry tau p x = Err IndexError.
Proof.
  intros H. unfold at_expiry. destruct (length tau =? length p)%nat eqn:A; [ | reflexivity]. destruct (length tau =? length x)%nat eqn:B; [ | reflexivity].
  exfalso. apply H. split; apply Nat.eqb_eq; auto.
Qed.

Lemma core_mask (a : gk) (n : nat) (sp an : bool) : valid_gk a -> fits (gk_lens a) n -> ~ mask_ok a n -> gk_core a sp an = Err IndexError.
Proof.
  intros V H M. rewrite (core_run a n) by auto. rewrite at_expiry_fails; [reflexivity | ]. rewrite vec_length. intros [A B]. apply M. split; auto.
  apply (payoff_length a n V H B). congruence.
Qed.

Lemma core_ok (a : gk) (n : nat) (sp an : bool) : valid_gk a -> fits (gk_lens a) n -> mask_ok a n ->
  exists X s, at_expiry (g_tau a) (payoffs a) (vec n (col a gk_elem)) = Ok X /\ length X = n /\
    gk_core a sp an = Ok (mk_priced X s (if an then Some (greeks_of a n) else None) None).
Proof.
  intros V H [T M]. apply (payoff_length a n V H T) in M. assert (L : length (vec n (col a gk_elem)) = n) by apply vec_length.
  rewrite (core_run a n) by auto. rewrite at_expiry_ok by congruence. eexists. cbn [bind].
  set (X := map _ _). assert (LX : length X = n). { unfold X. rewrite map_length, !combine_length, M, L, T. lia. }
  destruct sp; [ | exists None; repeat split; auto].
  unfold split_values. rewrite vec_length, LX, T, Nat.eqb_refl. cbn [guard bind]. eexists. repeat split; auto.
Qed.

Lemma price_core (a : gk) (sp an : bool) : garman_kohlhagen_price a sp an false = gk_core a sp an.
Proof. unfold garman_kohlhagen_price. destruct (gk_core a sp an); reflexivity. Qed.

Lemma gk_accepts (a : gk) (sp an : bool) (n : nat) :
  (exists r, garman_kohlhagen_price a sp an false = Ok r /\ length (p_price r) = n) <->
  valid_gk a /\ fits (gk_lens a) n /\ length (g_tau a) = n /\ (length (g_S a) = n \/ length (g_cp a) = n).
Proof.
  rewrite price_core. split.
  - intros (r & E & L). assert (V : valid_gk a).
    { destruct (Classical_Prop.classic (valid_gk a)) as [V | V]; auto. rewrite core_invalid in E by auto. discriminate. }
    destruct (Classical_Prop.classic (exists m, fits (gk_lens a) m)) as [[m H] | H]; [ | rewrite core_no_broadcast in E by auto; discriminate].
    destruct (Classical_Prop.classic (mask_ok a m)) as [M | M]; [ | rewrite (core_mask a m) in E by auto; discriminate].
    destruct (core_ok a m sp an V H M) as (X & s & _ & LX & E'). rewrite E in E'. injection E' as ->. cbn [p_price] in L. assert (Q : n = m) by congruence. rewrite Q. destruct M. auto.
  - intros (V & H & M). destruct (core_ok a n sp an V H M) as (X & s & _ & LX & E'). eexists. split; [exact E' | exact LX].
Qed.

Lemma gk_rejects (a : gk) (sp an nu : bool) :
  (~ valid_gk a -> garman_kohlhagen_price a sp an nu = Err AssertionError) /\
  (valid_gk a -> ~ (exists n, fits (gk_lens a) n) -> garman_kohlhagen_price a sp an nu = Err ValueError) /\
  (forall n, valid_gk a -> fits (gk_lens a) n -> ~ (length (g_tau a) = n /\ (length (g_S a) = n \/ length (g_cp a) = n)) -> garman_kohlhagen_price a sp an nu = Err IndexError).
Proof.
  unfold garman_kohlhagen_price. repeat split; intros.
  - now rewrite core_invalid.
  - now rewrite core_no_broadcast.
  - now rewrite (core_mask a n).
Qed.

Lemma bump_valid (k : R) (a : gk) : 0 < k -> valid_gk a -> valid_gk (gk_bump k a).
Proof.
  intros Hk (A & B & C & D & E & G). unfold valid_gk, gk_bump. cbn. assert (P : forall l, Forall (fun x => 0 < x) l -> Forall (fun x => 0 < x) (bscale k l)).
  { intros l H. unfold bscale. apply Forall_forall. intros y I. apply in_map_iff in I as (x & <- & I). rewrite Forall_forall in H. apply Rmult_lt_0_compat; auto. }
  repeat split; auto. destruct (g_F a); auto.
Qed.
Lemma bump_lens (k : R) (a : gk) : gk_lens (gk_bump k a) = gk_lens a.
Proof. unfold gk_lens, gk_bump, bscale. cbn. destruct (g_F a); now rewrite !map_length. Qed.

Lemma gk_numerical (a : gk) (sp an : bool) (r : priced) : garman_kohlhagen_price a sp an false = Ok r -> garman_kohlhagen_price a sp an true = Err KeyError.
Proof.
  intros E. assert (A : exists r', garman_kohlhagen_price a sp an false = Ok r' /\ length (p_price r') = length (p_price r)) by eauto.
  apply gk_accepts in A as (V & H & M). set (n := length (p_price r)) in *.
  assert (B : forall k, 0 < k -> exists q, gk_core (gk_bump k a) false true = Ok q).
  { intros k Hk. destruct (core_ok (gk_bump k a) n false true) as (X & s & _ & _ & Q); [apply bump_valid; auto | now rewrite bump_lens | | eauto].
    unfold mask_ok, gk_bump, bscale. cbn. rewrite map_length. exact M. }
  unfold garman_kohlhagen_price. rewrite <- price_core. rewrite E. cbn [bind negb].
  destruct (B (101 / 100) ltac:(lra)) as (q1 & ->). destruct (B (99 / 100) ltac:(lra)) as (q2 & ->). reflexivity.
Qed.

Lemma used_forward_at (F : option (list R)) (i : nat) (f : option R) : used_forward F i f -> match F with Some l => Some (Fin (at_ l i)) | None => None end = nF f.
Proof. destruct F as [l | ], f as [x | ]; cbn; try contradiction; [intros U; now rewrite (used_at l i x U) | reflexivity]. Qed.

Lemma used_in (l : list R) (i : nat) (x : R) : used l i x -> In x l.
Proof. intros [E | ->]; [apply nth_error_In in E; auto | left; auto]. Qed.

Lemma nth_combine3 (tau : list R) (p x : list num) (i : nat) (t : R) (a b : num) : nth_error tau i = Some t -> nth_error p i = Some a -> nth_error x i = Some b ->
  nth_error (combine tau (combine p x)) i = Some (t, (a, b)).
Proof.
  revert p x i. induction tau as [ | t0 tau IH]; intros [ | a0 p] [ | b0 x] [ | i]; cbn; try discriminate.
  - intros A B C. injection A as ->. injection B as ->. now injection C as ->.
  - apply IH.
Qed.

Lemma used_full (l : list R) (n i : nat) (x : R) : length l = n -> (i < n)%nat -> used l i x -> nth_error l i = Some x.
Proof. intros L I [E | ->]; auto. cbn in L. subst n. destruct i; [reflexivity | lia]. Qed.

Lemma gk_elementwise (a : gk) (sp an : bool) (r : priced) : garman_kohlhagen_price a sp an false = Ok r ->
  forall (i : nat) (S tau rd rf cp K vol : R) (F : option R), (i < length (p_price r))%nat ->
  used (g_S a) i S -> used (g_tau a) i tau -> used (g_rd a) i rd -> used (g_rf a) i rf -> used (g_cp a) i cp -> used (g_K a) i K -> used (g_vol a) i vol -> used_forward (g_F a) i F ->
  nth_error (p_price r) i = Some (price_gk S tau rd rf cp K vol F) /\
  (an = true -> exists cols, p_analytical r = Some cols /\ length cols = 6%nat /\
     forall k c, nth_error cols k = Some c -> nth_error c i = Some (greek_gk k S tau rd rf cp K vol F)).
Proof.
  intros E i S tau rd rf cp K vol F Hi US Ut Ud Uf Uc UK Uv UF.
  assert (A : exists r', garman_kohlhagen_price a sp an false = Ok r' /\ length (p_price r') = length (p_price r)) by eauto.
  apply gk_accepts in A as (V & H & M). remember (length (p_price r)) as n eqn:EN. pose proof V as (VS & Vt & Vc & _ & _ & VF).
  destruct (core_ok a n sp an V H M) as (X & s & EX & LX & EC). rewrite price_core, EC in E. injection E as Er. rewrite <- Er. cbn [p_price p_analytical].
  assert (HS : 0 < S) by (apply used_in in US; rewrite Forall_forall in VS; auto).
  assert (Ht : 0 <= tau) by (apply used_in in Ut; rewrite Forall_forall in Vt; auto).
  assert (Hc : call_or_put cp) by (apply used_in in Uc; rewrite Forall_forall in Vc; auto).
  assert (HF : good_forward F). { destruct (g_F a) as [l | ], F as [f | ]; cbn in *; try contradiction; auto. apply used_in in UF. rewrite Forall_forall in VF. auto. }
  assert (C : forall f, col a f i = elem_of S tau rd rf cp K vol F f).
  { intros f. unfold col, rate_at, elem_of. rewrite (used_forward_at _ _ _ UF). now rewrite (used_at _ _ _ US), (used_at _ _ _ Ut), (used_at _ _ _ Ud), (used_at _ _ _ Uf), (used_at _ _ _ Uc), (used_at _ _ _ UK), (used_at _ _ _ Uv). }
  split.
  - destruct M as [T M]. pose proof M as M'. apply (payoff_length a n V H T) in M'.
    rewrite at_expiry_ok in EX by (rewrite ?vec_length; congruence). injection EX as <-.
    rewrite (map_nth_error _ _ _ (d := (tau, (intrinsic_elem (Fin S) (Fin cp) (Fin K), col a gk_elem i)))).
    + cbv beta iota. rewrite C. rewrite price_gk_elem by auto. reflexivity.
    + apply nth_combine3; [apply (used_full _ n); auto | | apply vec_nth; auto]. unfold payoffs in M' |- *. rewrite vec_length in M'. rewrite M'. rewrite vec_nth by auto.
      now rewrite (used_at _ _ _ US), (used_at _ _ _ Uc), (used_at _ _ _ UK).
  - intros ->. exists (greeks_of a n). split; [reflexivity | ]. split; [reflexivity | ].
    assert (G : forall k, greek_gk k S tau rd rf cp K vol F = the_greek k (garman_kohlhagen_price (scalar_gk S tau rd rf cp K vol F) false true false)) by reflexivity.
    intros k c Hk. rewrite G, (core_scalar S tau rd rf cp K vol F false true) by auto. cbn [the_greek p_analytical].
    unfold greeks_of in Hk. do 6 (destruct k as [ | k]; [injection Hk as <-; rewrite vec_nth by auto; rewrite C; reflexivity | cbn [nth_error] in Hk |- *]).
    destruct k; discriminate.
Qed.
