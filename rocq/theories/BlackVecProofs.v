From Coq Require Import Reals List Bool Lra Lia Arith.
From Verif Require Import Base NormalModel NormalProofs BsProofs BlackModel BlackSpec BlackProofs.
Import ListNotations.
Open Scope R_scope.

(* ---- shapes ---- *)
Lemma shapes_ok_fits (lens : list nat) : lens <> [] -> (shapes_ok lens = true <-> exists n, fits lens n).
Proof.
  intros NE. unfold shapes_ok, fits. set (d := nodup Nat.eq_dec lens).
  assert (ND : NoDup d) by apply NoDup_nodup.
  assert (IN : forall x, In x d <-> In x lens) by (intros; apply nodup_In).
  split.
  - intros H. apply andb_prop in H as [H1 H2]. apply orb_prop in H1 as [H1 | H1]; apply Nat.eqb_eq in H1.
    + destruct d as [ | n [ | ? ?]] eqn:Ed; try discriminate. exists n. split.
      * apply Forall_forall. intros x X. apply IN in X. destruct X as [<- | []]. auto.
      * apply IN. left; auto.
    + rewrite H1 in H2. change (2 =? 2)%nat with true in H2. apply existsb_exists in H2 as (o & O & E). apply Nat.eqb_eq in E. subst o.
      destruct d as [ | a [ | b [ | ? ?]]] eqn:Ed; try discriminate.
      destruct O as [<- | [<- | []]].
      * exists b. split; [apply Forall_forall; intros x X; apply IN in X; destruct X as [<- | [<- | []]]; auto | apply IN; right; left; auto].
      * exists a. split; [apply Forall_forall; intros x X; apply IN in X; destruct X as [<- | [<- | []]]; auto | apply IN; left; auto].
  - intros (n & F & I).
    assert (INC : incl d [1%nat; n]). { intros x X. apply IN in X. rewrite Forall_forall in F. destruct (F x X) as [-> | ->]; simpl; auto. }
    pose proof (NoDup_incl_length ND INC) as L. cbn [length] in L.
    assert (P : (0 < length d)%nat). { destruct d eqn:Ed; [ | cbn; lia]. apply IN in I. destruct I. }
    destruct (Nat.eq_dec (length d) 1) as [E1 | N1].
    + rewrite E1. reflexivity.
    + assert (E2 : length d = 2%nat) by lia. rewrite E2. cbn [Nat.eqb orb andb].
      apply existsb_exists. exists 1%nat. split; [ | reflexivity].
      apply (NoDup_length_incl ND) in INC; [ | cbn; lia]. apply INC. left; auto.
Qed.

Lemma broadcast_fits (lens : list nat) (n : nat) : Forall (fun m => m = 1%nat \/ m = n) lens ->
  broadcast lens = Some (if in_dec Nat.eq_dec n lens then n else 1%nat).
Proof.
  induction 1 as [ | m r M F IH]. { destruct (in_dec Nat.eq_dec n []) as [I | I]; [destruct I | reflexivity]. }
  cbn [broadcast]. rewrite IH. destruct (in_dec Nat.eq_dec n r) as [I | I]; destruct (in_dec Nat.eq_dec n (m :: r)) as [J | J].
  - destruct M as [-> | ->]; [reflexivity | ]. destruct (n =? 1)%nat eqn:E; [reflexivity | ]. now rewrite Nat.eqb_refl.
  - exfalso. apply J. right; auto.
  - destruct J as [-> | J]; [ | contradiction]. destruct (n =? 1)%nat eqn:E; [apply Nat.eqb_eq in E; congruence | reflexivity].
  - destruct M as [-> | ->]; [reflexivity | exfalso; apply J; left; auto].
Qed.

Lemma size_fits (lens : list nat) (n : nat) : Forall (fun m => m = 1%nat \/ m = n) lens -> size lens = if in_dec Nat.eq_dec n lens then n else 1%nat.
Proof. intros F. unfold size. now rewrite (broadcast_fits lens n F). Qed.

Lemma size_in (lens : list nat) (n : nat) : fits lens n -> size lens = n.
Proof. intros [F I]. rewrite (size_fits _ n F). destruct (in_dec Nat.eq_dec n lens); [reflexivity | contradiction]. Qed.

Lemma fits_unique (lens : list nat) (n m : nat) : fits lens n -> fits lens m -> n = m.
Proof. intros A B. rewrite <- (size_in _ _ A). apply size_in; auto. Qed.

Lemma used_at (l : list R) (i : nat) (x : R) : used l i x -> at_ l i = x.
Proof.
  intros [E | ->]; [ | reflexivity]. unfold at_. destruct (length l =? 1)%nat eqn:L.
  - apply Nat.eqb_eq in L. destruct l as [ | a [ | ? ?]]; try discriminate. destruct i; [injection E as ->; reflexivity | destruct i; discriminate].
  - apply nth_error_nth; auto.
Qed.

Lemma vec_length (n : nat) (f : nat -> num) : length (vec n f) = n.
Proof. unfold vec. now rewrite map_length, seq_length. Qed.

Lemma vec_nth (n : nat) (f : nat -> num) (i : nat) : (i < n)%nat -> nth_error (vec n f) i = Some (f i).
Proof.
  intros L. unfold vec. rewrite (map_nth_error f i (seq 0 n) (d := i)); auto.
  rewrite (nth_error_nth' (seq 0 n) 0%nat) by (rewrite seq_length; auto). now rewrite seq_nth.
Qed.

Lemma guard_true (b : bool) (e : exn) : b = true -> guard b e = Ok tt. Proof. now intros ->. Qed.
Lemma guard_false (b : bool) (e : exn) : b = false -> guard b e = Err e. Proof. now intros ->. Qed.

(* ---- black76_price on arrays ---- *)
Definition F_at (a : b76) i := Fin (at_ (b_F a) i + at_ (b_shift a) i).
Definition K_at (a : b76) i := Fin (at_ (b_K a) i + at_ (b_shift a) i).
Definition prices76 (a : b76) (n : nat) : list num :=
  vec n (fun i => b76_elem (F_at a i) (Fin (at_ (b_tau a) i)) (Fin (at_ (b_cp a) i)) (K_at a i) (Fin (at_ (b_vol a) i)) (Fin (at_ (b_annuity a) i))).
Definition deltas76 (a : b76) (n : nat) : list num :=
  vec n (fun i => b76_delta_elem (F_at a i) (Fin (at_ (b_tau a) i)) (Fin (at_ (b_cp a) i)) (K_at a i) (Fin (at_ (b_vol a) i)) (Fin (at_ (b_annuity a) i))).
Definition vegas76 (a : b76) (n : nat) : list num :=
  vec n (fun i => b76_vega_elem (F_at a i) (Fin (at_ (b_tau a) i)) (K_at a i) (Fin (at_ (b_vol a) i)) (Fin (at_ (b_annuity a) i))).
Definition payoffs76 (a : b76) (n : nat) : list num := vec n (fun i => intrinsic_elem (F_at a i) (Fin (at_ (b_cp a) i)) (K_at a i)).

Lemma core_rejects (a : b76) (sp an : bool) : ~ (length (b_F a) = length (b_tau a) /\ exists n, fits (lens76 a) n) ->
  black76_core a sp an = Err AssertionError.
Proof.
  intros H. unfold black76_core. destruct (length (b_F a) =? length (b_tau a))%nat eqn:E; [ | reflexivity]. apply Nat.eqb_eq in E.
  cbn [guard bind]. change ([length (b_F a); _; _; _; _; _; _]) with (lens76 a).
  destruct (shapes_ok (lens76 a)) eqn:S; [ | reflexivity]. exfalso. apply H. split; auto. apply shapes_ok_fits in S; auto. discriminate.
Qed.

Lemma core_accepts (a : b76) (n : nat) (sp an : bool) : length (b_F a) = length (b_tau a) -> fits (lens76 a) n ->
  black76_core a sp an =
  let* s := if sp then let* s := split_values (b_tau a) (payoffs76 a (size [length (b_cp a); length (b_F a); length (b_K a); length (b_shift a)])) (prices76 a n) in Ok (Some s) else Ok None in
  let* g := if an then let* v := column n (vegas76 a (size (uncp76 a))) in Ok (Some [deltas76 a n; v]) else Ok None in
  Ok (mk_priced (prices76 a n) s g None).
Proof.
  intros E H. unfold black76_core. rewrite (guard_true (length (b_F a) =? length (b_tau a))%nat) by (apply Nat.eqb_eq; auto). cbn [bind].
  change ([length (b_F a); length (b_tau a); length (b_cp a); length (b_K a); length (b_vol a); length (b_shift a); length (b_annuity a)]) with (lens76 a).
  rewrite guard_true by (apply shapes_ok_fits; [discriminate | exists n; auto]). cbn [bind].
  rewrite (size_in _ _ H). rewrite vec_length. reflexivity.
Qed.

Lemma split_rejects (tau : list R) (x p : list num) : length tau <> length p \/ length tau <> length x -> split_values tau x p = Err IndexError.
Proof.
  intros H. unfold split_values. destruct (length tau =? length x)%nat eqn:A; [ | reflexivity]. apply Nat.eqb_eq in A. cbn [guard bind].
  destruct (length tau =? length p)%nat eqn:B; [ | reflexivity]. apply Nat.eqb_eq in B. lia.
Qed.

Lemma fits_lens (a : b76) (n : nat) : fits (lens76 a) n ->
  (length (b_F a) = 1%nat \/ length (b_F a) = n) /\ (length (b_tau a) = 1%nat \/ length (b_tau a) = n) /\ (length (b_cp a) = 1%nat \/ length (b_cp a) = n) /\
  (length (b_K a) = 1%nat \/ length (b_K a) = n) /\ (length (b_vol a) = 1%nat \/ length (b_vol a) = n) /\ (length (b_shift a) = 1%nat \/ length (b_shift a) = n) /\
  (length (b_annuity a) = 1%nat \/ length (b_annuity a) = n).
Proof. intros [F _]. unfold lens76 in F. repeat match goal with H : Forall _ (_ :: _) |- _ => inversion H; clear H; subst end. auto 20. Qed.

Lemma core_split_index (a : b76) (n : nat) (an : bool) : length (b_F a) = length (b_tau a) -> fits (lens76 a) n -> length (b_F a) <> n ->
  black76_core a true an = Err IndexError.
Proof.
  intros E H N. rewrite (core_accepts a n) by auto. rewrite split_rejects; [reflexivity | ].
  left. unfold prices76. rewrite vec_length. congruence.
Qed.

Lemma payoff_size (a : b76) (n : nat) : fits (lens76 a) n -> length (b_F a) = n -> size [length (b_cp a); length (b_F a); length (b_K a); length (b_shift a)] = n.
Proof.
  intros H E. apply fits_lens in H as (A & B & C & D & G & I & J). apply size_in. split.
  - repeat (apply Forall_cons; [assumption | ]). apply Forall_nil.
  - cbn [In]. rewrite E. auto.
Qed.

Lemma vega_size (a : b76) (n : nat) : fits (lens76 a) n -> size (uncp76 a) = if in_dec Nat.eq_dec n (uncp76 a) then n else 1%nat.
Proof. intros H. apply fits_lens in H as (A & B & C & D & G & I & J). apply size_fits. repeat (apply Forall_cons; [assumption | ]). apply Forall_nil. Qed.

(* cp is the only array of length n *)
Lemma core_vega_length (a : b76) (n : nat) : length (b_F a) = length (b_tau a) -> fits (lens76 a) n -> n <> 1%nat -> ~ In n (uncp76 a) ->
  black76_core a false true = Err ValueError.
Proof.
  intros E H N I. rewrite (core_accepts a n) by auto. cbn [bind]. unfold column, vegas76. rewrite vec_length, (vega_size a n H).
  destruct (in_dec Nat.eq_dec n (uncp76 a)); [contradiction | ]. rewrite guard_false; [reflexivity | ]. apply Nat.eqb_neq. lia.
Qed.

Lemma core_vega_ok (a : b76) (n : nat) : length (b_F a) = length (b_tau a) -> fits (lens76 a) n -> n = 1%nat \/ In n (uncp76 a) ->
  black76_core a false true = Ok (mk_priced (prices76 a n) None (Some [deltas76 a n; vegas76 a n]) None).
Proof.
  intros E H I. rewrite (core_accepts a n) by auto. cbn [bind]. unfold column.
  assert (S : size (uncp76 a) = n). { rewrite (vega_size a n H). destruct (in_dec Nat.eq_dec n (uncp76 a)); auto. destruct I; [auto | contradiction]. }
  rewrite S. rewrite guard_true; [reflexivity | ]. unfold vegas76. rewrite vec_length. apply Nat.eqb_refl.
Qed.

(* results of successful calls *)
Lemma price_inv (a : b76) (sp an nu : bool) (r : priced) : black76_price a sp an nu = Ok r ->
  exists n, length (b_F a) = length (b_tau a) /\ fits (lens76 a) n /\ p_price r = prices76 a n /\
    (an = true -> p_analytical r = Some [deltas76 a n; vegas76 a n]) /\
    (sp = true -> exists s, split_values (b_tau a) (payoffs76 a (size [length (b_cp a); length (b_F a); length (b_K a); length (b_shift a)])) (prices76 a n) = Ok s /\ p_split r = Some s).
Proof.
  intros H. unfold black76_price in H. apply bind_ok in H as (r0 & C & H).
  assert (S : p_price r = p_price r0 /\ p_analytical r = p_analytical r0 /\ p_split r = p_split r0).
  { destruct nu; cbn [negb] in H; [ | injection H as <-; auto].
    apply bind_ok in H as (fu & _ & H). apply bind_ok in H as (fd & _ & H). apply bind_ok in H as (vu & _ & H). apply bind_ok in H as (vd & _ & H).
    apply bind_ok in H as (v & _ & H). injection H as <-. auto. }
  destruct S as (S1 & S2 & S3). rewrite S1, S2, S3. clear S1 S2 S3 H.
  assert (G : length (b_F a) = length (b_tau a) /\ exists n, fits (lens76 a) n).
  { destruct (Nat.eq_dec (length (b_F a)) (length (b_tau a))) as [E | E].
    - destruct (shapes_ok (lens76 a)) eqn:SO. + apply shapes_ok_fits in SO; [auto | discriminate].
      + rewrite core_rejects in C; [discriminate | ]. intros [_ X]. apply shapes_ok_fits in X; [congruence | discriminate].
    - rewrite core_rejects in C; [discriminate | ]. tauto. }
  destruct G as (E & n & Fi). exists n. split; auto. split; auto. rewrite (core_accepts a n) in C by auto.
  apply bind_ok in C as (s & Cs & C). apply bind_ok in C as (g & Cg & C). injection C as <-. cbn [p_price p_analytical p_split]. split; [reflexivity | split].
  - intros ->. apply bind_ok in Cg as (v & Cv & Cg). injection Cg as <-. unfold column in Cv. apply bind_ok in Cv as (u & Cu & Cv). injection Cv as <-.
    destruct (length (vegas76 a (size (uncp76 a))) =? n)%nat eqn:L; [ | discriminate]. apply Nat.eqb_eq in L. unfold vegas76 in L. rewrite vec_length in L. now rewrite L.
  - intros ->. apply bind_ok in Cs as (s0 & Cs0 & Cs). injection Cs as <-. exists s0. auto.
Qed.

Lemma used_elem (a : b76) (i : nat) (F tau cp K vol s A : R) :
  used (b_F a) i F -> used (b_tau a) i tau -> used (b_cp a) i cp -> used (b_K a) i K -> used (b_vol a) i vol -> used (b_shift a) i s -> used (b_annuity a) i A ->
  F_at a i = Fin (F + s) /\ K_at a i = Fin (K + s) /\ at_ (b_tau a) i = tau /\ at_ (b_cp a) i = cp /\ at_ (b_vol a) i = vol /\ at_ (b_annuity a) i = A.
Proof. intros. unfold F_at, K_at. repeat match goal with H : used _ _ _ |- _ => apply used_at in H; rewrite H end. auto 10. Qed.

Lemma b76_elementwise (a : b76) (sp an nu : bool) (r : priced) : black76_price a sp an nu = Ok r ->
  forall (i : nat) (F tau cp K vol s A : R), (i < length (p_price r))%nat ->
  used (b_F a) i F -> used (b_tau a) i tau -> used (b_cp a) i cp -> used (b_K a) i K -> used (b_vol a) i vol -> used (b_shift a) i s -> used (b_annuity a) i A ->
  nth_error (p_price r) i = Some (price76 F tau cp K vol s A) /\
  (an = true -> exists ds vs, p_analytical r = Some [ds; vs] /\ nth_error ds i = Some (delta76 F tau cp K vol s A) /\ nth_error vs i = Some (vega76 F tau cp K vol s A)).
Proof.
  intros H i F tau cp K vol s A L U1 U2 U3 U4 U5 U6 U7.
  destruct (used_elem a i F tau cp K vol s A U1 U2 U3 U4 U5 U6 U7) as (E1 & E2 & E3 & E4 & E5 & E6).
  apply price_inv in H as (n & E & Fi & P & G & _). rewrite P in *. unfold prices76 in L. rewrite vec_length in L. split.
  - unfold prices76. rewrite vec_nth by auto. rewrite E1, E2, E3, E4, E5, E6, price76_elem. reflexivity.
  - intros T. exists (deltas76 a n), (vegas76 a n). split; [auto | split].
    + unfold deltas76. rewrite vec_nth by auto. rewrite E1, E2, E3, E4, E5, E6, delta76_elem. reflexivity.
    + unfold vegas76. rewrite vec_nth by auto. rewrite E1, E2, E3, E5, E6, vega76_elem. reflexivity.
Qed.

Lemma b76_accepts (a : b76) (n : nat) :
  (exists r, black76_price a false false false = Ok r /\ length (p_price r) = n) <-> length (b_F a) = length (b_tau a) /\ fits (lens76 a) n.
Proof.
  split.
  - intros (r & H & L). apply price_inv in H as (m & E & Fi & P & _). rewrite P in L. unfold prices76 in L. rewrite vec_length in L. subst m. auto.
  - intros [E Fi]. unfold black76_price. rewrite (core_accepts a n) by auto. cbn [bind negb]. eexists. split; [reflexivity | ]. cbn [p_price]. unfold prices76. apply vec_length.
Qed.

Lemma b76_rejects (a : b76) (sp an nu : bool) : ~ (length (b_F a) = length (b_tau a) /\ exists n, fits (lens76 a) n) -> black76_price a sp an nu = Err AssertionError.
Proof. intros H. unfold black76_price. now rewrite core_rejects. Qed.

Lemma b76_greeks_shape (a : b76) (n : nat) : length (b_F a) = length (b_tau a) -> fits (lens76 a) n ->
  (black76_price a false true false = Err ValueError <-> n <> 1%nat /\ ~ In n (uncp76 a)) /\
  (n = 1%nat \/ In n (uncp76 a) -> exists r, black76_price a false true false = Ok r).
Proof.
  intros E Fi. unfold black76_price. split; [split | ].
  - intros H. destruct (Nat.eq_dec n 1) as [-> | N].
    + rewrite (core_vega_ok a 1) in H by auto. discriminate.
    + split; auto. intros I. rewrite (core_vega_ok a n) in H by auto. discriminate.
  - intros [N I]. now rewrite (core_vega_length a n).
  - intros I. rewrite (core_vega_ok a n) by auto. cbn [bind negb]. eexists; reflexivity.
Qed.

Lemma b76_split_shape (a : b76) (n : nat) : length (b_F a) = length (b_tau a) -> fits (lens76 a) n ->
  (black76_price a true false false = Err IndexError <-> length (b_F a) <> n) /\ (length (b_F a) = n -> exists r, black76_price a true false false = Ok r).
Proof.
  intros E Fi. unfold black76_price.
  assert (OK : length (b_F a) = n -> exists r, black76_core a true false = Ok r).
  { intros L. rewrite (core_accepts a n) by auto. rewrite (payoff_size a n Fi L). unfold split_values, payoffs76, prices76. rewrite !vec_length.
    rewrite !guard_true by (apply Nat.eqb_eq; congruence). cbn [bind]. eexists; reflexivity. }
  split; [split | ].
  - intros H L. destruct (OK L) as (r & Hr). rewrite Hr in H. discriminate.
  - intros L. now rewrite (core_split_index a n).
  - intros L. destruct (OK L) as (r & Hr). rewrite Hr. cbn [bind negb]. eexists; reflexivity.
Qed.

(* ---- intrinsic and time value ---- *)
Lemma split76_value (F tau cp K vol s A : R) : split76 F tau cp K vol s A =
  let x := price76 F tau cp K vol s A in
  let i := if is_pos (Fin tau) then positive_part (mul (Fin cp) (Fin (F - K))) else if is_zero (Fin tau) then x else NaN in
  Some (i, sub x i).
Proof.
  unfold split76. rewrite price76_elem. cbn. unfold intrinsic_elem, b76_elem. cbn [sub neg add].
  replace (F + s + - (K + s)) with (F - K) by ring. reflexivity.
Qed.

Lemma split_n_value (F tau cp K vol A : R) : split_n F tau cp K vol A =
  let x := price_n F tau cp K vol A in
  let i := if is_pos (Fin tau) then positive_part (mul (Fin cp) (Fin (F - K))) else if is_zero (Fin tau) then x else NaN in
  Some (i, sub x i).
Proof. reflexivity. Qed.

Lemma is_pos_fin (t : R) : 0 < t -> is_pos (Fin t) = true.
Proof. intros. unfold is_pos. destruct (Rlt_dec 0 t); [reflexivity | contradiction]. Qed.

Lemma b76_split (F tau cp K vol s A : R) : call_or_put cp -> 0 < F + s -> 0 < K + s -> 0 < tau -> 0 < vol ->
  exists x, price76 F tau cp K vol s A = Fin x /\ split76 F tau cp K vol s A = Some (Fin (Rmax 0 (cp * (F - K))), Fin (x - Rmax 0 (cp * (F - K)))).
Proof.
  intros W HF HK Ht Hv. pose proof (total_pos vol tau Hv Ht). rewrite split76_value. cbv zeta. rewrite is_pos_fin by auto. rewrite price76_fin by lra.
  eexists. split; [reflexivity | ]. reflexivity.
Qed.

Lemma b76_time_value_sign (F tau cp K vol s A : R) : call_or_put cp -> 0 < F + s -> 0 < K + s -> 0 < tau -> 0 < vol -> 1 <= A ->
  exists i t, split76 F tau cp K vol s A = Some (Fin i, Fin t) /\ 0 < t.
Proof.
  intros W HF HK Ht Hv HA. destruct (b76_split F tau cp K vol s A W HF HK Ht Hv) as (x & P & S). do 2 eexists. split; [exact S | ].
  destruct (b76_bounds F tau cp K vol s A W HF HK Ht Hv ltac:(lra)) as (y & Q & L & _). rewrite P in Q. injection Q as <-.
  pose proof (Rmax_l 0 (cp * (F - K))). nra.
Qed.

(* discounted prices against undiscounted intrinsic values *)
Lemma b76_time_value_negative (tau vol s A : R) : 0 < tau -> 0 < vol -> 0 < A < 1 ->
  exists F K i t, 0 < F + s /\ 0 < K + s /\ split76 F tau 1 K vol s A = Some (Fin i, Fin t) /\ t < 0.
Proof.
  intros Ht Hv HA. set (f := 1). set (k := (1 - A) / 2). exists (f - s), (k - s).
  assert (P1 : 0 < f - s + s) by (unfold f; lra). assert (P2 : 0 < k - s + s) by (unfold k; lra).
  destruct (b76_split (f - s) tau 1 (k - s) vol s A (or_introl eq_refl) P1 P2 Ht Hv) as (x & P & S). do 2 eexists. split; [auto | split; [auto | split; [exact S | ]]].
  destruct (b76_bounds (f - s) tau 1 (k - s) vol s A (or_introl eq_refl) P1 P2 Ht Hv ltac:(lra)) as (y & Q & _ & U). rewrite P in Q. injection Q as <-.
  destruct (Rlt_dec 0 1); [ | lra]. pose proof (Rmax_r 0 (1 * (f - s - (k - s)))). unfold f, k in *. lra.
Qed.

Lemma b76_split_expired (F cp K vol s A : R) : split76 F 0 cp K vol s A = Some (price76 F 0 cp K vol s A, sub (price76 F 0 cp K vol s A) (price76 F 0 cp K vol s A)).
Proof.
  rewrite split76_value. cbv zeta. unfold is_pos, is_zero. destruct (Rlt_dec 0 0); [lra | ]. destruct (Req_EM_T 0 0); [ | lra]. reflexivity.
Qed.

Lemma b76_no_vol (F tau cp K vol s A : R) : call_or_put cp -> 0 < F + s -> 0 < K + s -> 0 <= tau -> vol = 0 \/ tau = 0 ->
  (F <> K -> price76 F tau cp K vol s A = Fin (A * Rmax 0 (cp * (F - K)))) /\ (F = K -> price76 F tau cp K vol s A = NaN).
Proof.
  intros W HF HK Ht Z. assert (V : vol * sqrt tau = 0) by (destruct Z as [-> | ->]; [ring | rewrite sqrt_0; ring]).
  rewrite price76_elem, b76_elem_zero by auto. destruct (Req_EM_T (F + s) (K + s)); split; intros; try lra; auto. do 2 f_equal. f_equal. ring.
Qed.

Lemma bach_no_vol (F tau cp K vol A : R) : call_or_put cp -> 0 <= tau -> vol = 0 \/ tau = 0 ->
  (F <> K -> price_n F tau cp K vol A = Fin (A * Rmax 0 (cp * (F - K)))) /\ (F = K -> price_n F tau cp K vol A = NaN).
Proof.
  intros W Ht Z. assert (V : vol * sqrt tau = 0) by (destruct Z as [-> | ->]; [ring | rewrite sqrt_0; ring]).
  rewrite price_n_elem, bach_elem_zero by auto. destruct (Req_EM_T F K); split; intros; try lra; auto.
Qed.

(* ---- numerical greeks ---- *)
Lemma bumped_delta_value (F tau cp K vol s A : R) :
  bumped_delta76 F tau cp K vol s A = central (fun f => price76 f tau cp (K + s) vol s A) (F + s) ((F + s) / 100) (2 * (F + s) / 100).
Proof.
  unfold bumped_delta76, central. rewrite !price76_elem. cbn.
  replace (101 / 100 * (F + s)) with (F + s + (F + s) / 100) by field. replace (99 / 100 * (F + s)) with (F + s - (F + s) / 100) by field.
  replace (2 * (F + s) * (1 / 100)) with (2 * (F + s) / 100) by field. reflexivity.
Qed.

Lemma bumped_vega_value (F tau cp K vol s A : R) :
  bumped_vega76 F tau cp K vol s A = central (fun v => price76 (F + s) tau cp (K + s) v s A) vol (1 / 100) 2.
Proof. reflexivity. Qed.

Lemma bumped_unshifted (F tau cp K vol A : R) :
  bumped_delta76 F tau cp K vol 0 A = central (fun f => price76 f tau cp K vol 0 A) F (F / 100) (2 * F / 100) /\
  bumped_vega76 F tau cp K vol 0 A = central (fun v => price76 F tau cp K v 0 A) vol (1 / 100) 2.
Proof. rewrite bumped_delta_value, bumped_vega_value, !Rplus_0_r. auto. Qed.

(* the shift is applied twice *)
Lemma bumped_shifted (F tau cp K vol s A : R) :
  bumped_vega76 F tau cp K vol s A = central (fun v => price76 F tau cp K v (2 * s) A) vol (1 / 100) 2 /\
  bumped_delta76 F tau cp K vol s A = central (fun f => price76 f tau cp K vol (2 * s) A) F ((F + s) / 100) (2 * (F + s) / 100).
Proof.
  rewrite bumped_vega_value, bumped_delta_value. unfold central. split.
  - rewrite <- (b76_shift_invariant F tau cp K _ (2 * s) A s). replace (2 * s - s) with s by ring.
    rewrite <- (b76_shift_invariant F tau cp K _ (2 * s) A s). replace (2 * s - s) with s by ring. reflexivity.
  - rewrite <- (b76_shift_invariant (F + (F + s) / 100) tau cp K _ (2 * s) A s). rewrite <- (b76_shift_invariant (F - (F + s) / 100) tau cp K _ (2 * s) A s).
    replace (2 * s - s) with s by ring. replace (F + (F + s) / 100 + s) with (F + s + (F + s) / 100) by ring.
    replace (F - (F + s) / 100 + s) with (F + s - (F + s) / 100) by ring. reflexivity.
Qed.

(* ---- implied volatility solver ---- *)
Lemma error_stop (price : R -> result (list num)) (X : num) (sq : bool) (v : R) : error_function price X sq v = Stop ->
  exists ps S x, price v = Ok ps /\ nsum ps = Fin S /\ X = Fin x /\ x <> 0 /\ close_to x S.
Proof.
  unfold error_function. destruct (price v) as [ps | e]; [ | discriminate]. intros H. exists ps.
  destruct (abs_below _ _) eqn:B; [ | discriminate]. clear H.
  assert (R1 : exists q, div (sub (nsum ps) X) X = Fin q /\ Rabs q < solve_tol).
  { destruct sq.
    - destruct (div (sub (nsum ps) X) X) as [q | | | ] eqn:D; try discriminate. exists q. split; auto. cbn in B.
      destruct (Rlt_dec (Rabs (q * q)) (solve_tol * solve_tol)) as [L | L]; [ | discriminate]. rewrite Rabs_mult in L.
      pose proof (Rabs_pos q). unfold solve_tol in *. destruct (Rlt_or_le (Rabs q) (/ 100000)) as [C | C]; auto. exfalso.
      assert (/ 100000 * / 100000 <= Rabs q * Rabs q) by (apply Rmult_le_compat; lra). lra.
    - destruct (div (sub (nsum ps) X) X) as [q | | | ] eqn:D; try discriminate. exists q. split; auto. cbn in B.
      destruct (Rlt_dec (Rabs q) solve_tol); [auto | discriminate]. }
  destruct R1 as (q & D & L). unfold close_to.
  destruct X as [x | | | ]; destruct (nsum ps) as [S | | | ]; cbn [sub neg add div] in D; try discriminate.
  2: destruct (Rlt_dec x 0); discriminate. 2: destruct (Rlt_dec x 0); discriminate.
  exists S, x. split; auto. split; auto. split; auto. destruct (Req_EM_T x 0) as [Z | Z].
  { exfalso. unfold scale_inf in D. destruct (Rlt_dec 0 (S + - x)); [discriminate | ]. destruct (Rlt_dec (S + - x) 0); discriminate. }
  split; auto. injection D as <-. unfold solve_tol in L.
  unfold Rdiv in L. rewrite Rabs_mult, Rabs_inv in L. assert (0 < Rabs x) by (apply Rabs_pos_lt; auto).
  apply Rmult_lt_compat_r with (r := Rabs x) in L; auto. rewrite Rmult_assoc, Rinv_l in L by lra.
  replace (S - x) with (S + - x) by ring. lra.
Qed.

Lemma error_not_stop (price : R -> result (list num)) (x : R) (sq : bool) (v : R) (ps : list num) (S : R) :
  x <> 0 -> price v = Ok ps -> nsum ps = Fin S -> close_to x S -> error_function price (Fin x) sq v = Stop.
Proof.
  intros Hx E N C. unfold error_function. rewrite E, N. cbn [sub neg add]. rewrite div_fin by auto.
  assert (0 < Rabs x) by (apply Rabs_pos_lt; auto).
  assert (L : Rabs ((S + - x) / x) < solve_tol).
  { unfold close_to in C. unfold solve_tol, Rdiv. rewrite Rabs_mult, Rabs_inv. apply (Rmult_lt_reg_r (Rabs x)); auto.
    rewrite Rmult_assoc, Rinv_l by lra. replace (S + - x) with (S - x) by ring. lra. }
  destruct sq; cbn [mul abs_below].
  - destruct (Rlt_dec _ _) as [D | D]; [reflexivity | exfalso; apply D]. rewrite Rabs_mult. pose proof (Rabs_pos ((S + - x) / x)).
    unfold solve_tol in *. apply Rmult_le_0_lt_compat; auto.
  - destruct (Rlt_dec _ _); [reflexivity | contradiction].
Qed.

Lemma run_stopped {O} (f : R -> evaluation) (s : search O) (x : R) : run f s = Stopped x -> f x = Stop.
Proof.
  induction s as [o | z k IH]; cbn; [discriminate | ]. destruct (f z) as [y | | e] eqn:E; [apply IH | | discriminate]. intros H. injection H as <-. exact E.
Qed.

Lemma run_reported (f : R -> evaluation) (s : search min_outcome) (seen : list R) (x : R) (b : bool) (v : num) :
  (forall y, In y seen -> f y <> Stop) -> reports_evaluated seen s -> run f s = Ended (Minimum x b v) -> f x <> Stop.
Proof.
  revert seen. induction s as [o | z k IH]; intros seen Hs R H; cbn in H.
  - destruct o as [x0 b0 v0 | e]; [ | discriminate]. injection H as -> -> ->. apply Hs. exact R.
  - destruct (f z) as [y | | e] eqn:E; try discriminate. apply (IH y (z :: seen)); auto.
    intros u [<- | U]; [congruence | apply Hs; auto].
Qed.

Lemma solver_ok (price : R -> result (list num)) (X : num) (brent : search root_outcome) (lbfgs : search min_outcome) (v : R) :
  solve_implied_vol price X brent lbfgs = Ok v ->
  (exists ps S x, price v = Ok ps /\ nsum ps = Fin S /\ X = Fin x /\ x <> 0 /\ close_to x S) \/
  (exists b val, run (error_function price X true) lbfgs = Ended (Minimum v b val) /\ (b = true \/ abs_below (solve_tol * solve_tol) val = true)).
Proof.
  intros H. unfold solve_implied_vol in H.
  set (fb := match run (error_function price X true) lbfgs with Stopped x => Ok x | Failed e => Err e | Ended (MinRaises e) => Err e
             | Ended (Minimum x success value) => if success || abs_below (solve_tol * solve_tol) value then Ok x else Err ValueError end) in H.
  assert (FB : fb = Ok v -> (exists ps S x, price v = Ok ps /\ nsum ps = Fin S /\ X = Fin x /\ x <> 0 /\ close_to x S) \/
     (exists b val, run (error_function price X true) lbfgs = Ended (Minimum v b val) /\ (b = true \/ abs_below (solve_tol * solve_tol) val = true))).
  { unfold fb. intros G. destruct (run (error_function price X true) lbfgs) as [x | [x b val | e] | e] eqn:E; try discriminate.
    - injection G as <-. left. apply run_stopped in E. eapply error_stop; eauto.
    - right. destruct (b || abs_below (solve_tol * solve_tol) val) eqn:C; [ | discriminate]. injection G as <-. exists b, val. split; auto. apply orb_prop in C. exact C. }
  destruct (run (error_function price X false) brent) as [x | [x | | e] | e] eqn:E; try discriminate; auto.
  - injection H as <-. left. apply run_stopped in E. eapply error_stop; eauto.
  - destruct (error_function price X false x) as [y | | e] eqn:G; try discriminate.
    + assert (AB : abs_below solve_tol y = false).
      { unfold error_function in G. destruct (price x); [ | discriminate]. destruct (abs_below solve_tol (div (sub (nsum a) X) X)) eqn:Q; [discriminate | ]. injection G as <-. exact Q. }
      rewrite AB in H. auto.
    + injection H as <-. left. eapply error_stop; eauto.
Qed.

(* the minimiser's own answer never meets the tolerance *)
Lemma solver_min_far (price : R -> result (list num)) (x : R) (lbfgs : search min_outcome) (v : R) (b : bool) (val : num) (ps : list num) (S : R) :
  x <> 0 -> reports_evaluated [] lbfgs -> run (error_function price (Fin x) true) lbfgs = Ended (Minimum v b val) ->
  price v = Ok ps -> nsum ps = Fin S -> ~ close_to x S.
Proof.
  intros Hx Rp E P N C. apply (run_reported _ lbfgs [] v b val) in E; auto. apply E. eapply error_not_stop; eauto.
Qed.

Lemma b76_prices_scalar (F tau cp K vol s A v : R) : b76_prices (scalar76 F tau cp K vol s A) v = Ok [price76 F tau cp K v s A].
Proof. reflexivity. Qed.
Lemma bach_prices_scalar (F tau cp K vol A v : R) : bach_prices (scalar_n F tau cp K vol A) v = Ok [price_n F tau cp K v A].
Proof. reflexivity. Qed.

Lemma nsum_one (x : num) (S : R) : nsum [x] = Fin S -> x = Fin S.
Proof. destruct x; cbn; try discriminate. rewrite Rplus_0_r. auto. Qed.

(* ---- conversions ---- *)
Lemma atm_close (F : R) : Rabs (F - F) < atm_tol.
Proof. unfold atm_tol. replace (F - F) with 0 by ring. rewrite Rabs_R0. lra. Qed.

Lemma blk_atm (cp F v : R) : call_or_put cp -> 0 < F -> 0 < v -> blk cp F F v = 2 * F * cdf (v / 2) - F.
Proof.
  intros W HF Hv. assert (E : blk 1 F F v = 2 * F * cdf (v / 2) - F).
  { unfold blk. rewrite !Rmult_1_l. unfold bd2, bd1. replace (F / F) with 1 by (field; lra). rewrite ln_1.
    replace ((0 + v * v / 2) / v) with (v / 2) by (field; lra). replace (v / 2 - v) with (- (v / 2)) by field. rewrite cdf_sym. ring. }
  destruct W as [-> | ->]; auto. pose proof (blk_parity F F v). lra.
Qed.

Lemma nrm_atm (cp F v : R) : 0 < v -> nrm cp F F v = v * pdf 0.
Proof. intros Hv. unfold nrm. replace (F - F) with 0 by ring. replace (0 / v) with 0 by (field; lra). ring. Qed.

Lemma sln_to_normal_atm (F tau K vol s : R) (b : search root_outcome) (l : search min_outcome) : 0 < F + s -> 0 < tau -> 0 < vol -> Rabs (F - K) < atm_tol ->
  exists n, black76_sln_to_normal_vol F tau K vol s b l = Ok (Fin n) /\ 0 < n /\
    forall cp A, call_or_put cp -> price_n F tau cp F n A = price76 F tau cp F vol s A.
Proof.
  intros HF Ht Hv C. unfold black76_sln_to_normal_vol. destruct (Rlt_dec (Rabs (F - K)) atm_tol); [ | contradiction].
  pose proof (sqrt_lt_R0 tau Ht). pose proof (pdf_pos 0). pose proof (total_pos vol tau Hv Ht).
  assert (P : 0 < sqrt tau * pdf 0) by (apply Rmult_lt_0_compat; auto).
  rewrite nsqrt_fin by lra. cbn [mul]. rewrite (div_fin _ 2) by lra. cbn [ncdf mul sub neg add]. rewrite div_fin by lra. eexists. split; [reflexivity | ].
  set (n := (2 * (F + s) * cdf (vol * sqrt tau / 2) + - (F + s)) / (sqrt tau * pdf 0)).
  assert (N : n * sqrt tau * pdf 0 = 2 * (F + s) * cdf (vol * sqrt tau / 2) - (F + s)) by (unfold n; field; lra).
  assert (HN : 0 < n).
  { unfold n. apply Rdiv_lt_0_compat; auto. assert (1 / 2 < cdf (vol * sqrt tau / 2)) by (rewrite <- cdf_0; apply cdf_incr; lra). nra. }
  split; auto. intros cp A W. pose proof (total_pos n tau HN Ht). rewrite price76_fin by lra. rewrite price_n_fin by lra.
  rewrite nrm_atm, blk_atm by auto. rewrite N. reflexivity.
Qed.

Lemma nppf_cdf (x : R) : nppf (Fin (cdf x)) = Fin x.
Proof. unfold nppf. now rewrite ppf_cdf. Qed.

(* lognormal -> normal -> lognormal *)
Lemma atm_round_trip (F tau vol s : R) (b : search root_outcome) (l : search min_outcome) : 0 < F + s -> 0 < tau -> 0 < vol ->
  exists n, black76_sln_to_normal_vol F tau F vol s b l = Ok (Fin n) /\ normal_vol_atm_to_black76_sln_atm F tau n s = Fin vol.
Proof.
  intros HF Ht Hv. destruct (sln_to_normal_atm F tau F vol s b l HF Ht Hv (atm_close F)) as (n & E & HN & P). exists n. split; auto.
  specialize (P 1 1 (or_introl eq_refl)). pose proof (total_pos vol tau Hv Ht). pose proof (total_pos n tau HN Ht).
  rewrite price76_fin in P by lra. rewrite price_n_fin in P by lra. injection P as P. rewrite !Rmult_1_l in P.
  rewrite nrm_atm, blk_atm in P by (auto; left; auto).
  unfold normal_vol_atm_to_black76_sln_atm. rewrite nsqrt_fin by lra. pose proof (sqrt_lt_R0 tau Ht). rewrite (div_fin 2) by lra. cbn [mul add]. rewrite div_fin by lra.
  rewrite P. replace ((2 * (F + s) * cdf (vol * sqrt tau / 2) - (F + s) + (F + s)) / (2 * (F + s))) with (cdf (vol * sqrt tau / 2)) by (field; lra).
  rewrite nppf_cdf. cbn [mul]. f_equal. field. lra.
Qed.

(* normal -> lognormal: prices agree, defined exactly when the Bachelier price is below the shifted forward *)
Lemma normal_to_sln_atm (F tau n s : R) : 0 < F + s -> 0 < tau -> 0 < n ->
  (n * sqrt tau * pdf 0 < F + s -> exists vol, normal_vol_atm_to_black76_sln_atm F tau n s = Fin vol /\ 0 < vol /\
     (forall cp A, call_or_put cp -> price76 F tau cp F vol s A = price_n F tau cp F n A) /\
     (forall b l, black76_sln_to_normal_vol F tau F vol s b l = Ok (Fin n))) /\
  (F + s < n * sqrt tau * pdf 0 -> normal_vol_atm_to_black76_sln_atm F tau n s = NaN) /\
  (F + s = n * sqrt tau * pdf 0 -> normal_vol_atm_to_black76_sln_atm F tau n s = PInf).
Proof.
  intros HF Ht Hn. pose proof (sqrt_lt_R0 tau Ht). pose proof (total_pos n tau Hn Ht). pose proof (pdf_pos 0).
  assert (NP : 0 < n * sqrt tau * pdf 0) by (apply Rmult_lt_0_compat; auto).
  unfold normal_vol_atm_to_black76_sln_atm. rewrite nsqrt_fin by lra. rewrite (div_fin 2) by lra. cbn [mul add]. rewrite div_fin by lra.
  set (m := n * sqrt tau * pdf 0) in *. set (q := (m + (F + s)) / (2 * (F + s))).
  assert (Q : q * (2 * (F + s)) = m + (F + s)) by (unfold q; field; lra).
  split; [ | split].
  - intros L. assert (B : 0 < q < 1) by (split; nra). destruct (cdf_onto q B) as (z & Z). assert (Z0 : 0 < z).
    { destruct (Rlt_or_le 0 z) as [Y | Y]; auto. exfalso. apply cdf_le in Y. rewrite cdf_0 in Y. nra. }
    rewrite <- Z, nppf_cdf. cbn [mul]. exists (2 / sqrt tau * z).
    assert (V : 0 < 2 / sqrt tau * z) by (apply Rmult_lt_0_compat; auto; apply Rdiv_lt_0_compat; lra).
    assert (T : 2 / sqrt tau * z * sqrt tau = 2 * z) by (field; lra).
    assert (PE : forall cp A, call_or_put cp -> price76 F tau cp F (2 / sqrt tau * z) s A = price_n F tau cp F n A).
    { intros cp A W. rewrite price76_fin by (rewrite ?T; lra). rewrite price_n_fin by lra. rewrite T, blk_atm, nrm_atm by (auto; lra).
      replace (2 * z / 2) with z by field. rewrite Z. fold m. do 2 f_equal. lra. }
    split; [reflexivity | split; [exact V | split; [exact PE | ]]].
    intros b l. destruct (sln_to_normal_atm F tau F (2 / sqrt tau * z) s b l HF Ht V (atm_close F)) as (n' & E & HN & P). rewrite E. do 2 f_equal.
    specialize (P 1 1 (or_introl eq_refl)). rewrite PE in P by (left; auto).
    destruct (bach_implied F tau 1 F 1 (1 * nrm 1 F F (n * sqrt tau)) (or_introl eq_refl) Ht ltac:(lra)) as [_ U].
    apply U; auto. { rewrite P. apply price_n_fin; lra. } apply price_n_fin; lra.
  - intros L. assert (B : 1 < q) by nra. unfold nppf. rewrite (proj2 (ppf_none q)) by lra.
    destruct (Req_EM_T q 0); [lra | ]. destruct (Req_EM_T q 1); [lra | ]. reflexivity.
  - intros L. assert (B : q = 1) by nra. unfold nppf. rewrite (proj2 (ppf_none q)) by lra.
    destruct (Req_EM_T q 0); [lra | ]. destruct (Req_EM_T q 1); [ | lra]. cbn [mul]. apply scale_pos. apply Rdiv_lt_0_compat; lra.
Qed.

(* off the money the conversion is the solver's *)
Lemma sln_to_normal_off (F tau K vol s : R) (b : search root_outcome) (l : search min_outcome) (n : num) : atm_tol <= Rabs (F - K) -> 0 < tau -> 0 < vol -> 0 < F + s -> 0 < K + s ->
  black76_sln_to_normal_vol F tau K vol s b l = Ok n ->
  exists v p, n = Fin v /\ price76 F tau 1 K vol s 1 = Fin p /\
    ((exists q, price_n F tau 1 K v 1 = Fin q /\ close_to p q) \/
     (exists g val, run (error_function (bach_prices (bach_scalar F tau 1 K 0)) (Fin p) true) l = Ended (Minimum v g val))).
Proof.
  intros L Ht Hv HF HK H. unfold black76_sln_to_normal_vol in H. destruct (Rlt_dec (Rabs (F - K)) atm_tol); [lra | ].
  apply bind_ok in H as (px & Px & H). apply bind_ok in H as (g & _ & H). apply bind_ok in H as (v & V & H). injection H as <-.
  assert (Q : px = price76 F tau 1 K vol s 1) by (injection Px as <-; reflexivity). subst px. pose proof (total_pos vol tau Hv Ht).
  destruct (b76_bounds F tau 1 K vol s 1 (or_introl eq_refl) HF HK Ht Hv ltac:(lra)) as (p & P & _ & _).
  exists v, p. split; auto. split; auto. rewrite P in V. apply solver_ok in V as [(ps & S & x & A & B & C & _ & D) | (g1 & val & A & _)].
  - left. injection C as <-. change (bach_scalar F tau 1 K 0) with (scalar_n F tau 1 K 0 1) in A. rewrite bach_prices_scalar in A. injection A as <-. apply nsum_one in B. exists S. auto.
  - right. exists g1, val. exact A.
Qed.

Lemma run_minimise (f : R -> evaluation) (s : search min_outcome) (v : R) : minimise f s = Ok v -> exists b val, run f s = Ended (Minimum v b val) /\ (b = true \/ abs_below (solve_tol * solve_tol) val = true).
Proof.
  unfold minimise. destruct (run f s) as [x | [x b val | e] | e]; try discriminate.
  destruct (b || abs_below (solve_tol * solve_tol) val) eqn:C; [ | discriminate]. intros H. injection H as <-. apply orb_prop in C. eauto.
Qed.

(* normal_vol_to_black76_sln at the money ignores the closed form and returns whatever the minimiser reports *)
Lemma normal_to_sln_any (F tau K n s x : R) (val : num) : F + s <> 0 -> normal_vol_to_black76_sln F tau K n s (Finish (Minimum x true val)) = Ok x.
Proof. intros H. unfold normal_vol_to_black76_sln. cbn. unfold nonzero. destruct (Req_EM_T (F + s) 0); [contradiction | reflexivity]. Qed.

(* ---- the relative objective ---- *)
Lemma rel_close (p q : R) : p <> 0 -> (abs_below (solve_tol * solve_tol) (npow2 (div (sub (Fin q) (Fin p)) (Fin p))) = true <-> close_to p q).
Proof.
  intros P. assert (N : nsum [Fin q] = Fin q) by (cbn; rewrite Rplus_0_r; auto).
  assert (E : error_function (fun _ => Ok [Fin q]) (Fin p) true 0 = if abs_below (solve_tol * solve_tol) (npow2 (div (sub (Fin q) (Fin p)) (Fin p))) then Stop
              else Value (npow2 (div (sub (Fin q) (Fin p)) (Fin p)))) by (unfold error_function; rewrite N; reflexivity).
  split.
  - intros H. rewrite H in E. apply error_stop in E. destruct E as (ps & S & x & E1 & E2 & E3 & _ & C). injection E1 as <-. rewrite N in E2. injection E2 as <-. injection E3 as <-. exact C.
  - intros C. rewrite (error_not_stop _ p true 0 [Fin q] q P eq_refl N C) in E. destruct (abs_below _ _); [auto | discriminate].
Qed.
Lemma run_honest (f : R -> evaluation) (s : search min_outcome) (seen : list (R * num)) (x : R) (b : bool) (v : num) :
  (forall z y, In (z, y) seen -> f z = Value y) -> honest seen s -> run f s = Ended (Minimum x b v) -> b = false /\ f x = Value v.
Proof.
  revert seen. induction s as [o | z k IH]; intros seen Hs Q H; cbn in H.
  - destruct o as [x0 b0 v0 | e]; [ | discriminate]. injection H as -> -> ->. destruct Q as [Q I]. split; auto.
  - destruct (f z) as [y | | e] eqn:E; try discriminate. apply (IH y ((z, y) :: seen)); auto. intros u w [U | U]; [injection U as <- <-; exact E | auto].
Qed.
Lemma minimise_honest (g : R -> num) (p x : R) (l : search min_outcome) : p <> 0 -> honest [] l ->
  minimise (relative_objective (fun v => Ok (g v)) (Fin p)) l = Ok x -> (exists q, g x = Fin q /\ close_to p q).
Proof.
  intros P Hn H. unfold minimise in H. destruct (run _ l) as [z | [z b val | e] | e] eqn:E; try discriminate.
  destruct (run_honest _ l [] z b val ltac:(intros ? ? []) Hn E) as [-> V]. cbn [orb] in H.
  destruct (abs_below _ val) eqn:A; [ | discriminate]. injection H as <-. unfold relative_objective in V. injection V as <-.
  destruct (g z) as [q | | | ]; cbn [sub neg add div npow2] in A.
  - exists q. split; auto. apply rel_close; auto.
  - destruct (Rlt_dec p 0); discriminate.
  - destruct (Rlt_dec p 0); discriminate.
  - discriminate.
Qed.
Lemma minimise_probe (g : R -> num) (p q x : R) : p <> 0 -> g x = Fin q ->
  (close_to p q -> minimise (relative_objective (fun v => Ok (g v)) (Fin p)) (Probe x (fun y => Finish (Minimum x false y))) = Ok x)
  /\ (~ close_to p q -> minimise (relative_objective (fun v => Ok (g v)) (Fin p)) (Probe x (fun y => Finish (Minimum x false y))) = Err ValueError).
Proof.
  intros P G. unfold minimise. cbn [run]. unfold relative_objective. rewrite G. cbn [orb]. split; intros C.
  - rewrite (proj2 (rel_close p q P) C). reflexivity.
  - destruct (abs_below _ _) eqn:A; [ | reflexivity]. exfalso. apply C. apply rel_close; auto.
Qed.
Lemma shift_run (F tau K vol s t p : R) (l : search min_outcome) : F + (t - s) <> 0 -> price76 F tau 1 K vol s 1 = Fin p ->
  shift_black76_vol F tau K vol s t l = minimise (relative_objective (fun v => Ok (price76 F tau 1 K v t 1)) (Fin p)) l.
Proof. intros N P. unfold shift_black76_vol. cbn -[minimise relative_objective]. unfold nonzero. destruct (Req_EM_T _ _); [contradiction | ]. cbn [bind]. rewrite <- P. reflexivity. Qed.
Lemma normal_run (F tau K n s p : R) (l : search min_outcome) : F + s <> 0 -> price_n F tau 1 K n 1 = Fin p ->
  normal_vol_to_black76_sln F tau K n s l = minimise (relative_objective (fun v => Ok (price76 F tau 1 K v s 1)) (Fin p)) l.
Proof. intros N P. unfold normal_vol_to_black76_sln. cbn -[minimise relative_objective]. unfold nonzero. destruct (Req_EM_T _ _); [contradiction | ]. cbn [bind]. rewrite <- P. reflexivity. Qed.

Lemma shift_vol_reprices (F tau K vol s t p x : R) (l : search min_outcome) : F + (t - s) <> 0 -> price76 F tau 1 K vol s 1 = Fin p -> p <> 0 ->
  (honest [] l -> shift_black76_vol F tau K vol s t l = Ok x -> exists q, price76 F tau 1 K x t 1 = Fin q /\ close_to p q)
  /\ (forall q : R, price76 F tau 1 K x t 1 = Fin q -> shift_black76_vol F tau K vol s t (Probe x (fun y => Finish (Minimum x false y))) = Ok x <-> close_to p q).
Proof.
  intros N P Z. rewrite !(shift_run F tau K vol s t p) by auto. split.
  - exact (minimise_honest (fun v => price76 F tau 1 K v t 1) p x l Z).
  - intros q G. destruct (minimise_probe (fun v => price76 F tau 1 K v t 1) p q x Z G) as [A B]. split; auto. intros H.
    destruct (Rlt_dec (Rabs (q - p)) (Rabs p / 100000)) as [L | L]; [exact L | ]. rewrite B in H by exact L. discriminate.
Qed.
Lemma normal_vol_reprices (F tau K n s p x : R) (l : search min_outcome) : F + s <> 0 -> price_n F tau 1 K n 1 = Fin p -> p <> 0 ->
  (honest [] l -> normal_vol_to_black76_sln F tau K n s l = Ok x -> exists q, price76 F tau 1 K x s 1 = Fin q /\ close_to p q)
  /\ (forall q : R, price76 F tau 1 K x s 1 = Fin q -> normal_vol_to_black76_sln F tau K n s (Probe x (fun y => Finish (Minimum x false y))) = Ok x <-> close_to p q).
Proof.
  intros N P Z. rewrite !(normal_run F tau K n s p) by auto. split.
  - exact (minimise_honest (fun v => price76 F tau 1 K v s 1) p x l Z).
  - intros q G. destruct (minimise_probe (fun v => price76 F tau 1 K v s 1) p q x Z G) as [A B]. split; auto. intros H.
    destruct (Rlt_dec (Rabs (q - p)) (Rabs p / 100000)) as [L | L]; [exact L | ]. rewrite B in H by exact L. discriminate.
Qed.
Lemma shift_vol_zero (F tau K vol s t : R) (l : search min_outcome) : F + (t - s) = 0 -> shift_black76_vol F tau K vol s t l = Err ZeroDivisionError.
Proof. intros N. unfold shift_black76_vol. cbn -[minimise relative_objective]. unfold nonzero. destruct (Req_EM_T _ _); [reflexivity | contradiction]. Qed.
Lemma normal_vol_zero (F tau K n s : R) (l : search min_outcome) : F + s = 0 -> normal_vol_to_black76_sln F tau K n s l = Err ZeroDivisionError.
Proof. intros N. unfold normal_vol_to_black76_sln. cbn -[minimise relative_objective]. unfold nonzero. destruct (Req_EM_T _ _); [reflexivity | contradiction]. Qed.

(* ---- bachelier_price on arrays ---- *)
Definition prices_n (a : bach) (n : nat) : list num :=
  vec n (fun i => bach_elem (Fin (at_ (n_F a) i)) (Fin (at_ (n_tau a) i)) (Fin (at_ (n_cp a) i)) (Fin (at_ (n_K a) i)) (Fin (at_ (n_vol a) i)) (Fin (at_ (n_annuity a) i))).
Definition deltas_n (a : bach) (n : nat) : list num :=
  vec n (fun i => bach_delta_elem (Fin (at_ (n_F a) i)) (Fin (at_ (n_tau a) i)) (Fin (at_ (n_cp a) i)) (Fin (at_ (n_K a) i)) (Fin (at_ (n_vol a) i)) (Fin (at_ (n_annuity a) i))).
Definition vegas_n (a : bach) (n : nat) : list num :=
  vec n (fun i => bach_vega_elem (Fin (at_ (n_F a) i)) (Fin (at_ (n_tau a) i)) (Fin (at_ (n_cp a) i)) (Fin (at_ (n_K a) i)) (Fin (at_ (n_vol a) i)) (Fin (at_ (n_annuity a) i))).
Definition thetas_n (a : bach) (n : nat) : list num :=
  vec n (fun i => bach_theta_elem (Fin (at_ (n_F a) i)) (Fin (at_ (n_tau a) i)) (Fin (at_ (n_K a) i)) (Fin (at_ (n_vol a) i)) (Fin (at_ (n_annuity a) i))).
Definition payoffs_n (a : bach) (n : nat) : list num := vec n (fun i => intrinsic_elem (Fin (at_ (n_F a) i)) (Fin (at_ (n_cp a) i)) (Fin (at_ (n_K a) i))).

Lemma bach_rejects (a : bach) (sp an nu : bool) : ~ (length (n_F a) = length (n_tau a) /\ exists n, fits (lens_n a) n) ->
  bachelier_price a sp an nu = Err AssertionError.
Proof.
  intros H. unfold bachelier_price. destruct (length (n_F a) =? length (n_tau a))%nat eqn:E; [ | reflexivity]. apply Nat.eqb_eq in E.
  cbn [guard bind]. change ([length (n_F a); _; _; _; _; _]) with (lens_n a).
  destruct (shapes_ok (lens_n a)) eqn:S; [ | reflexivity]. exfalso. apply H. split; auto. apply shapes_ok_fits in S; auto. discriminate.
Qed.

Lemma bach_run (a : bach) (n : nat) (sp an nu : bool) : length (n_F a) = length (n_tau a) -> fits (lens_n a) n ->
  bachelier_price a sp an nu =
  let* s := if sp then let* s := split_values (n_tau a) (payoffs_n a (size [length (n_cp a); length (n_F a); length (n_K a)])) (prices_n a n) in Ok (Some s) else Ok None in
  let* g := if an then let* v := column n (vegas_n a n) in let* t := column n (thetas_n a (size (uncp_n a))) in Ok (Some [deltas_n a n; v; t]) else Ok None in
  Ok (mk_priced (prices_n a n) s g None).
Proof.
  intros E H. unfold bachelier_price. rewrite (guard_true (length (n_F a) =? length (n_tau a))%nat) by (apply Nat.eqb_eq; auto). cbn [bind].
  change ([length (n_F a); length (n_tau a); length (n_cp a); length (n_K a); length (n_vol a); length (n_annuity a)]) with (lens_n a).
  rewrite guard_true by (apply shapes_ok_fits; [discriminate | exists n; auto]). cbn [bind].
  rewrite (size_in _ _ H). rewrite vec_length. reflexivity.
Qed.

Lemma fits_lens_n (a : bach) (n : nat) : fits (lens_n a) n ->
  (length (n_F a) = 1%nat \/ length (n_F a) = n) /\ (length (n_tau a) = 1%nat \/ length (n_tau a) = n) /\ (length (n_cp a) = 1%nat \/ length (n_cp a) = n) /\
  (length (n_K a) = 1%nat \/ length (n_K a) = n) /\ (length (n_vol a) = 1%nat \/ length (n_vol a) = n) /\ (length (n_annuity a) = 1%nat \/ length (n_annuity a) = n).
Proof. intros [F _]. unfold lens_n in F. repeat match goal with H : Forall _ (_ :: _) |- _ => inversion H; clear H; subst end. auto 20. Qed.

Lemma theta_size (a : bach) (n : nat) : fits (lens_n a) n -> size (uncp_n a) = if in_dec Nat.eq_dec n (uncp_n a) then n else 1%nat.
Proof. intros H. apply fits_lens_n in H as (A & B & C & D & G & I). apply size_fits. repeat (apply Forall_cons; [assumption | ]). apply Forall_nil. Qed.

Lemma payoff_size_n (a : bach) (n : nat) : fits (lens_n a) n -> length (n_F a) = n -> size [length (n_cp a); length (n_F a); length (n_K a)] = n.
Proof.
  intros H E. apply fits_lens_n in H as (A & B & C & D & G & I). apply size_in. split.
  - repeat (apply Forall_cons; [assumption | ]). apply Forall_nil.
  - cbn [In]. rewrite E. auto.
Qed.

Lemma bach_inv (a : bach) (sp an nu : bool) (r : priced) : bachelier_price a sp an nu = Ok r ->
  exists n, length (n_F a) = length (n_tau a) /\ fits (lens_n a) n /\ p_price r = prices_n a n /\ p_numerical r = None /\
    (an = true -> p_analytical r = Some [deltas_n a n; vegas_n a n; thetas_n a n]).
Proof.
  intros C.
  assert (G : length (n_F a) = length (n_tau a) /\ exists n, fits (lens_n a) n).
  { destruct (Nat.eq_dec (length (n_F a)) (length (n_tau a))) as [E | E].
    - destruct (shapes_ok (lens_n a)) eqn:SO. + apply shapes_ok_fits in SO; [auto | discriminate].
      + rewrite bach_rejects in C; [discriminate | ]. intros [_ X]. apply shapes_ok_fits in X; [congruence | discriminate].
    - rewrite bach_rejects in C; [discriminate | ]. tauto. }
  destruct G as (E & n & Fi). exists n. split; auto. split; auto. rewrite (bach_run a n) in C by auto.
  apply bind_ok in C as (s & Cs & C). apply bind_ok in C as (g & Cg & C). injection C as <-. cbn [p_price p_analytical p_numerical]. split; [reflexivity | split; [reflexivity | ]].
  intros ->. apply bind_ok in Cg as (v & Cv & Cg). apply bind_ok in Cg as (t & Ct & Cg). injection Cg as <-.
  unfold column in Cv, Ct. apply bind_ok in Cv as (u & Cu & Cv). injection Cv as <-. apply bind_ok in Ct as (u' & Cu' & Ct). injection Ct as <-.
  destruct (length (thetas_n a (size (uncp_n a))) =? n)%nat eqn:L; [ | discriminate]. apply Nat.eqb_eq in L. unfold thetas_n in L. rewrite vec_length in L. now rewrite L.
Qed.

Lemma bach_elementwise (a : bach) (sp an nu : bool) (r : priced) : bachelier_price a sp an nu = Ok r ->
  forall (i : nat) (F tau cp K vol A : R), (i < length (p_price r))%nat ->
  used (n_F a) i F -> used (n_tau a) i tau -> used (n_cp a) i cp -> used (n_K a) i K -> used (n_vol a) i vol -> used (n_annuity a) i A ->
  nth_error (p_price r) i = Some (price_n F tau cp K vol A) /\
  (an = true -> exists ds vs ts, p_analytical r = Some [ds; vs; ts] /\ nth_error ds i = Some (delta_n F tau cp K vol A) /\
     nth_error vs i = Some (vega_n F tau cp K vol A) /\ nth_error ts i = Some (theta_n F tau cp K vol A)).
Proof.
  intros H i F tau cp K vol A L U1 U2 U3 U4 U5 U6.
  apply used_at in U1, U2, U3, U4, U5, U6.
  apply bach_inv in H as (n & E & Fi & P & _ & G). rewrite P in *. unfold prices_n in L. rewrite vec_length in L. split.
  - unfold prices_n. rewrite vec_nth by auto. rewrite U1, U2, U3, U4, U5, U6, price_n_elem. reflexivity.
  - intros T. exists (deltas_n a n), (vegas_n a n), (thetas_n a n). split; [auto | split; [ | split]].
    + unfold deltas_n. rewrite vec_nth by auto. rewrite U1, U2, U3, U4, U5, U6, delta_n_elem. reflexivity.
    + unfold vegas_n. rewrite vec_nth by auto. rewrite U1, U2, U3, U4, U5, U6, vega_n_elem. reflexivity.
    + unfold thetas_n. rewrite vec_nth by auto. rewrite U1, U2, U4, U5, U6, theta_n_elem. reflexivity.
Qed.

Lemma bach_accepts (a : bach) (n : nat) :
  (exists r, bachelier_price a false false false = Ok r /\ length (p_price r) = n) <-> length (n_F a) = length (n_tau a) /\ fits (lens_n a) n.
Proof.
  split.
  - intros (r & H & L). apply bach_inv in H as (m & E & Fi & P & _). rewrite P in L. unfold prices_n in L. rewrite vec_length in L. subst m. auto.
  - intros [E Fi]. rewrite (bach_run a n) by auto. cbn [bind]. eexists. split; [reflexivity | ]. cbn [p_price]. unfold prices_n. apply vec_length.
Qed.

Lemma bach_greeks_shape (a : bach) (n : nat) : length (n_F a) = length (n_tau a) -> fits (lens_n a) n ->
  (bachelier_price a false true false = Err ValueError <-> n <> 1%nat /\ ~ In n (uncp_n a)) /\
  (n = 1%nat \/ In n (uncp_n a) -> exists r, bachelier_price a false true false = Ok r).
Proof.
  intros E Fi. rewrite (bach_run a n) by auto. cbn [bind]. unfold column, vegas_n, thetas_n. rewrite !vec_length, Nat.eqb_refl. cbn [guard bind].
  rewrite (theta_size a n Fi).
  assert (OK : n = 1%nat \/ In n (uncp_n a) -> ((if in_dec Nat.eq_dec n (uncp_n a) then n else 1) =? n)%nat = true).
  { intros I. destruct (in_dec Nat.eq_dec n (uncp_n a)); [apply Nat.eqb_refl | ]. destruct I as [-> | I]; [reflexivity | contradiction]. }
  split; [split | ].
  - intros H. destruct (Nat.eq_dec n 1) as [N | N]; [exfalso; rewrite (OK (or_introl N)) in H; discriminate | ]. split; auto. intros I. rewrite (OK (or_intror I)) in H. discriminate.
  - intros [N I]. destruct (in_dec Nat.eq_dec n (uncp_n a)); [contradiction | ]. destruct (1 =? n)%nat eqn:Q; [apply Nat.eqb_eq in Q; congruence | reflexivity].
  - intros I. rewrite (OK I). cbn [guard bind]. eexists; reflexivity.
Qed.

Lemma bach_split_shape (a : bach) (n : nat) : length (n_F a) = length (n_tau a) -> fits (lens_n a) n ->
  (bachelier_price a true false false = Err IndexError <-> length (n_F a) <> n) /\ (length (n_F a) = n -> exists r, bachelier_price a true false false = Ok r).
Proof.
  intros E Fi.
  assert (OK : length (n_F a) = n -> exists r, bachelier_price a true false false = Ok r).
  { intros L. rewrite (bach_run a n) by auto. rewrite (payoff_size_n a n Fi L). unfold split_values, payoffs_n, prices_n. rewrite !vec_length.
    rewrite !guard_true by (apply Nat.eqb_eq; congruence). cbn [bind]. eexists; reflexivity. }
  split; [split | ]; auto.
  - intros H L. destruct (OK L) as (r & Hr). rewrite Hr in H. discriminate.
  - intros L. rewrite (bach_run a n) by auto. rewrite split_rejects; [reflexivity | ]. left. unfold prices_n. rewrite vec_length. congruence.
Qed.

Lemma bach_split (F tau cp K vol A : R) : call_or_put cp -> 0 < tau -> 0 < vol ->
  exists x, price_n F tau cp K vol A = Fin x /\ split_n F tau cp K vol A = Some (Fin (Rmax 0 (cp * (F - K))), Fin (x - Rmax 0 (cp * (F - K)))).
Proof.
  intros W Ht Hv. pose proof (total_pos vol tau Hv Ht). rewrite split_n_value. cbv zeta. rewrite is_pos_fin by auto. rewrite price_n_fin by lra.
  eexists. split; [reflexivity | ]. reflexivity.
Qed.

(* numerical_greeks=True is ignored *)
Lemma bach_ignores_numerical (a : bach) (sp an : bool) : bachelier_price a sp an true = bachelier_price a sp an false.
Proof. reflexivity. Qed.
