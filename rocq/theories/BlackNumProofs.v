(* Numerical greeks of black76_price on arrays *)
From Coq Require Import Reals List Bool Lra Lia Arith.
From Verif Require Import Base NormalModel NormalProofs BsProofs BlackModel BlackSpec BlackProofs BlackVecProofs.
Import ListNotations.
Open Scope R_scope.

Lemma badd_length (x y : list R) (n : nat) : (length x = 1 \/ length x = n)%nat -> (length y = 1 \/ length y = n)%nat ->
  length (badd x y) = if Nat.eq_dec (length x) 1 then length y else length x.
Proof.
  intros A B. unfold badd. rewrite map_length, seq_length. rewrite (size_fits _ n) by (apply Forall_cons; [exact A | apply Forall_cons; [exact B | apply Forall_nil]]).
  destruct (in_dec Nat.eq_dec n [length x; length y]) as [I|I]; destruct (Nat.eq_dec (length x) 1) as [E|E]; cbn [In] in I; destruct A as [A|A], B as [B|B]; lia.
Qed.
Lemma badd_full (x y : list R) (n : nat) : (length x = 1 \/ length x = n)%nat -> (length y = 1 \/ length y = n)%nat -> (length (badd x y) = n <-> length x = n \/ length y = n).
Proof. intros A B. rewrite (badd_length x y n A B). destruct (Nat.eq_dec (length x) 1); destruct A, B; lia. Qed.
Lemma at_one (l : list R) (i : nat) : length l = 1%nat -> at_ l i = at_ l 0. Proof. intros E. unfold at_. now rewrite E. Qed.
Lemma at_map (f : R -> R) (l : list R) (i n : nat) : (length l = 1 \/ length l = n)%nat -> (i < n)%nat -> at_ (map f l) i = f (at_ l i).
Proof.
  intros L I. unfold at_. rewrite map_length. destruct (Nat.eqb_spec (length l) 1) as [E|E].
  - rewrite (nth_indep _ 0 (f 0)) by (rewrite map_length; lia). apply map_nth.
  - rewrite (nth_indep _ 0 (f 0)) by (rewrite map_length; lia). apply map_nth.
Qed.
Lemma at_badd (x y : list R) (i n : nat) : (length x = 1 \/ length x = n)%nat -> (length y = 1 \/ length y = n)%nat -> (i < n)%nat -> at_ (badd x y) i = at_ x i + at_ y i.
Proof.
  intros A B I. pose proof (badd_length x y n A B) as L. unfold at_ at 1. destruct (Nat.eqb_spec (length (badd x y)) 1) as [E|E].
  - assert (N : at_ x 0 = at_ x i /\ at_ y 0 = at_ y i).
    { rewrite E in L. destruct (Nat.eq_dec (length x) 1) as [X|X]; [|exfalso; lia]. split; symmetry; apply at_one; lia. }
    destruct N as [<- <-]. unfold badd in *. rewrite map_length, seq_length in E. rewrite E. reflexivity.
  - assert (S : length (badd x y) = n) by (rewrite L in *; destruct (Nat.eq_dec (length x) 1), A, B; lia).
    unfold badd in *. rewrite map_length, seq_length in S. rewrite S. rewrite (nth_indep _ 0 ((fun i => at_ x i + at_ y i) 0%nat)) by (rewrite map_length, seq_length; lia).
    rewrite (map_nth (fun i => at_ x i + at_ y i)), seq_nth by lia. reflexivity.
Qed.

Section Bump.
Variables (a : b76) (n : nat) (f v : R -> R).
Hypothesis E : length (b_F a) = length (b_tau a).
Hypothesis H : fits (lens76 a) n.
Let b := b76_bump a (map f) (map v).

Lemma bump_len : (length (b_F b) = 1 \/ length (b_F b) = n)%nat /\ (length (b_K b) = 1 \/ length (b_K b) = n)%nat.
Proof.
  destruct (fits_lens a n H) as (L1 & _ & _ & L4 & _ & L6 & _). subst b. cbn [b76_bump b_F b_K]. rewrite map_length, !(badd_length _ _ n) by assumption.
  destruct (Nat.eq_dec (length (b_F a)) 1), (Nat.eq_dec (length (b_K a)) 1); split; assumption.
Qed.
Lemma bump_fits : fits (lens76 b) n.
Proof.
  destruct (fits_lens a n H) as (L1 & L2 & L3 & L4 & L5 & L6 & L7). destruct bump_len as [M1 M4]. split.
  - unfold lens76. apply Forall_cons; [exact M1|]. apply Forall_cons; [exact L2|]. apply Forall_cons; [exact L3|]. apply Forall_cons; [exact M4|].
    apply Forall_cons; [subst b; cbn; rewrite map_length; exact L5|]. apply Forall_cons; [exact L6|]. apply Forall_cons; [exact L7|constructor].
  - destruct H as [_ I]. pose proof (badd_full (b_F a) (b_shift a) n L1 L6) as BF. pose proof (badd_full (b_K a) (b_shift a) n L4 L6) as BK.
    unfold lens76 in *. subst b. cbn [b76_bump b_F b_K b_tau b_cp b_vol b_shift b_annuity In] in *. rewrite !map_length. clear - BF BK I. tauto.
Qed.
Lemma bump_uncp : In n (uncp76 b) <-> In n (uncp76 a).
Proof.
  destruct (fits_lens a n H) as (L1 & L2 & L3 & L4 & L5 & L6 & L7). pose proof (badd_full (b_F a) (b_shift a) n L1 L6) as BF. pose proof (badd_full (b_K a) (b_shift a) n L4 L6) as BK.
  unfold uncp76. subst b. cbn [b76_bump b_F b_K b_tau b_cp b_vol b_shift b_annuity In] in *. rewrite !map_length. clear - BF BK. tauto.
Qed.
Lemma bump_same : length (b_F b) = length (b_tau b) <-> length (b_F a) <> 1%nat \/ length (b_shift a) = 1%nat.
Proof.
  destruct (fits_lens a n H) as (L1 & _ & _ & _ & _ & L6 & _). subst b. cbn [b76_bump b_F b_tau]. rewrite map_length, !(badd_length _ _ n) by assumption. rewrite <- E.
  destruct (Nat.eq_dec (length (b_F a)) 1); lia.
Qed.
Lemma bump_core_ok : length (b_F a) <> 1%nat \/ length (b_shift a) = 1%nat -> n = 1%nat \/ In n (uncp76 a) ->
  exists r, black76_core b false true = Ok r /\ p_price r = prices76 b n.
Proof.
  intros S U. eexists. split; [apply (core_vega_ok b n); [apply bump_same; exact S | exact bump_fits | rewrite bump_uncp; exact U]|]. reflexivity.
Qed.
Lemma bump_core_assert : length (b_F a) = 1%nat -> length (b_shift a) <> 1%nat -> black76_core b false true = Err AssertionError.
Proof. intros S U. apply core_rejects. intros [X _]. apply bump_same in X. tauto. Qed.
Lemma bump_core_value : length (b_F a) <> 1%nat \/ length (b_shift a) = 1%nat -> n <> 1%nat -> ~ In n (uncp76 a) -> black76_core b false true = Err ValueError.
Proof. intros S U W. apply (core_vega_length b n); [apply bump_same; exact S | exact bump_fits | exact U | rewrite bump_uncp; exact W]. Qed.
Lemma bump_elem (i : nat) (F tau cp K vol s A : R) : (i < n)%nat ->
  used (b_F a) i F -> used (b_tau a) i tau -> used (b_cp a) i cp -> used (b_K a) i K -> used (b_vol a) i vol -> used (b_shift a) i s -> used (b_annuity a) i A ->
  nth i (prices76 b n) NaN = price76 (f (F + s)) tau cp (K + s) (v vol) s A.
Proof.
  intros I U1 U2 U3 U4 U5 U6 U7. destruct (fits_lens a n H) as (L1 & L2 & L3 & L4 & L5 & L6 & L7). apply used_at in U1, U2, U3, U4, U5, U6, U7.
  rewrite price76_elem. apply nth_error_nth. unfold prices76. rewrite vec_nth by exact I. f_equal. unfold F_at, K_at. subst b. cbn [b76_bump b_F b_K b_tau b_cp b_vol b_shift b_annuity].
  assert (B : forall l, (length l = 1 \/ length l = n)%nat -> (length (badd l (b_shift a)) = 1 \/ length (badd l (b_shift a)) = n)%nat) by (intros l X; rewrite (badd_length _ _ n X L6); destruct Nat.eq_dec; assumption).
  rewrite (at_map f _ i n) by auto. rewrite (at_map v _ i n) by auto. rewrite !(at_badd _ _ i n) by auto. rewrite U1, U2, U3, U4, U5, U6, U7. reflexivity.
Qed.
End Bump.

Lemma map_self (l : list R) : map (fun x => x) l = l. Proof. apply map_id. Qed.
Lemma bump_forms (a : b76) :
  b76_bump a (bscale (101 / 100)) (fun v => v) = b76_bump a (map (fun x => 101 / 100 * x)) (map (fun x => x)) /\ b76_bump a (bscale (99 / 100)) (fun v => v) = b76_bump a (map (fun x => 99 / 100 * x)) (map (fun x => x)) /\
  b76_bump a (fun f => f) (map (fun v => v + 1 / 100)) = b76_bump a (map (fun x => x)) (map (fun v => v + 1 / 100)) /\ b76_bump a (fun f => f) (map (fun v => v - 1 / 100)) = b76_bump a (map (fun x => x)) (map (fun v => v - 1 / 100)).
Proof. unfold b76_bump, bscale. rewrite !map_self. repeat split. Qed.

Lemma num_core (a : b76) (n : nat) : length (b_F a) = length (b_tau a) -> fits (lens76 a) n -> black76_core a false false = Ok (mk_priced (prices76 a n) None None None).
Proof. intros E H. rewrite (core_accepts a n) by auto. reflexivity. Qed.
Lemma num_assert (a : b76) (n : nat) : length (b_F a) = length (b_tau a) -> fits (lens76 a) n -> length (b_F a) = 1%nat -> length (b_shift a) <> 1%nat ->
  black76_price a false false true = Err AssertionError.
Proof.
  intros E H S U. unfold black76_price. rewrite (num_core a n E H). cbn [bind negb]. destruct (bump_forms a) as (-> & _).
  rewrite (bump_core_assert a n (fun x => 101 / 100 * x) (fun x => x) E H S U). reflexivity.
Qed.
Lemma num_value (a : b76) (n : nat) : length (b_F a) = length (b_tau a) -> fits (lens76 a) n -> length (b_F a) <> 1%nat \/ length (b_shift a) = 1%nat -> n <> 1%nat -> ~ In n (uncp76 a) ->
  black76_price a false false true = Err ValueError.
Proof.
  intros E H S U W. unfold black76_price. rewrite (num_core a n E H). cbn [bind negb]. destruct (bump_forms a) as (-> & _).
  rewrite (bump_core_value a n (fun x => 101 / 100 * x) (fun x => x) E H S U W). reflexivity.
Qed.
Lemma num_ok (a : b76) (n : nat) : length (b_F a) = length (b_tau a) -> fits (lens76 a) n -> length (b_F a) <> 1%nat \/ length (b_shift a) = 1%nat -> n = 1%nat \/ In n (uncp76 a) ->
  exists (r : priced) (ds vs : list num), black76_price a false false true = Ok r /\ p_numerical r = Some [ds; vs] /\ length ds = n /\ length vs = n /\
  forall (i : nat) (F tau cp K vol s A : R), (i < n)%nat ->
    used (b_F a) i F -> used (b_tau a) i tau -> used (b_cp a) i cp -> used (b_K a) i K -> used (b_vol a) i vol -> used (b_shift a) i s -> used (b_annuity a) i A ->
    nth_error ds i = Some (bumped_delta76 F tau cp K vol s A) /\ nth_error vs i = Some (bumped_vega76 F tau cp K vol s A).
Proof.
  intros E H S U. unfold black76_price. rewrite (num_core a n E H). cbn [bind negb p_price]. destruct (bump_forms a) as (-> & -> & -> & ->).
  destruct (bump_core_ok a n (fun x => 101 / 100 * x) (fun x => x) E H S U) as (fu & -> & Pfu). destruct (bump_core_ok a n (fun x => 99 / 100 * x) (fun x => x) E H S U) as (fd & -> & Pfd).
  destruct (bump_core_ok a n (fun x => x) (fun v => v + 1 / 100) E H S U) as (vu & -> & Pvu). destruct (bump_core_ok a n (fun x => x) (fun v => v - 1 / 100) E H S U) as (vd & -> & Pvd).
  cbn [bind]. rewrite Pfu, Pfd, Pvu, Pvd. unfold ratio_column, column. rewrite !vec_length, Nat.eqb_refl. cbn [guard bind]. do 3 eexists. split; [reflexivity|]. cbn [p_numerical]. split; [reflexivity|].
  rewrite !vec_length. assert (L : length (prices76 a n) = n) by apply vec_length. rewrite L. split; [reflexivity|]. split; [reflexivity|].
  intros i F tau cp K vol s A I U1 U2 U3 U4 U5 U6 U7. rewrite !vec_nth by exact I. rewrite !(bump_elem a n _ _ H i F tau cp K vol s A I U1 U2 U3 U4 U5 U6 U7).
  apply used_at in U1, U6. rewrite U1, U6, bumped_delta_value, bumped_vega_value. unfold central. split; f_equal.
  replace (F + s + (F + s) / 100) with (101 / 100 * (F + s)) by field. replace (F + s - (F + s) / 100) with (99 / 100 * (F + s)) by field.
  replace (2 * (F + s) / 100) with (2 * (F + s) * (1 / 100)) by field. reflexivity.
Qed.
