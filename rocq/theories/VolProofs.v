From Coq Require Import Reals List Bool Lra Lia.
From Verif Require Import Base NormalModel BlackModel BlackSpec BlackProofs BlackVecProofs GkVecProofs VolModel VolSpec.
Import ListNotations.
Open Scope R_scope.

Lemma has_used (lens : list nat) (n i : nat) (l : list R) : fits lens n -> In (length l) lens -> (i < n)%nat -> exists x, used l i x.
Proof.
  intros [F _] I L. rewrite Forall_forall in F. destruct (F _ I) as [E | E].
  - destruct l as [ | x [ | ? ?]]; try discriminate. exists x. right. reflexivity.
  - destruct (nth_error l i) as [x | ] eqn:N; [exists x; left; auto | ]. apply nth_error_None in N. lia.
Qed.
Lemma has_elem (t1 v1 t2 v2 : arr) (n i : nat) : shape t1 v1 t2 v2 n -> (i < n)%nat -> exists x a y b, elem t1 v1 t2 v2 i x a y b.
Proof.
  intros S L.
  destruct (has_used _ n i (vals t1) S ltac:(cbn; auto) L) as (x & X). destruct (has_used _ n i (vals v1) S ltac:(cbn; auto) L) as (a & A).
  destruct (has_used _ n i (vals t2) S ltac:(cbn; auto) L) as (y & Y). destruct (has_used _ n i (vals v2) S ltac:(cbn; auto) L) as (b & B).
  exists x, a, y, b. repeat split; auto.
Qed.

(* ---- one element ---- *)
Lemma var_live (x a y b : R) : x <> y -> fwd_var x a y b = Fin ((tv b y - tv a x) / (y - x)).
Proof. intros N. unfold fwd_var. rewrite div_fin by lra. reflexivity. Qed.
Lemma var_equal (x a b : R) : fwd_var x a x b = scale_inf (tv b x - tv a x).
Proof. unfold fwd_var. replace (x - x) with 0 by ring. apply div_zero. Qed.
Lemma div_sign (p q : R) : q <> 0 -> (p / q < 0 <-> p * q < 0).
Proof.
  intros Q. assert (E : p * q = p / q * (q * q)) by (field; auto). assert (0 < q * q) by (pose proof (Rsqr_pos_lt q Q); auto).
  rewrite E. split; intros H1; nra.
Qed.
Lemma is_neg_iff (x a y b : R) : is_neg (fwd_var x a y b) = true <-> inconsistent x a y b.
Proof.
  unfold inconsistent. destruct (Req_EM_T x y) as [<- | N].
  - rewrite var_equal. unfold scale_inf, is_neg. destruct (Rlt_dec 0 _) as [P | P]; [split; [discriminate | intros [[? _] | [_ ?]]; lra] | ].
    destruct (Rlt_dec _ 0) as [Q | Q]; [split; [right; split; auto; lra | auto] | split; [discriminate | intros [[? _] | [_ ?]]; lra]].
  - rewrite var_live by auto. unfold is_neg. pose proof (div_sign (tv b y - tv a x) (y - x) ltac:(lra)) as D.
    destruct (Rlt_dec _ 0) as [P | P]; split; auto; try discriminate.
    + intros _. left. tauto.
    + intros [[_ Q] | [Q _]]; [tauto | contradiction].
Qed.
Lemma root_carries (x a y b : R) : x <> y -> ~ inconsistent x a y b -> exists f, nsqrt (fwd_var x a y b) = Fin f /\ carries x a y b f.
Proof.
  intros N C. rewrite <- is_neg_iff in C. rewrite var_live in * by auto. cbn [is_neg nsqrt] in *. destruct (Rlt_dec _ 0) as [L | L]; [exfalso; apply C; auto | ].
  eexists. split; [reflexivity | ]. unfold carries. split; [apply sqrt_pos | ]. rewrite <- Rsqr_pow2, Rsqr_sqrt by lra. field. lra.
Qed.
Lemma root_equal (x a b : R) : (tv a x < tv b x -> nsqrt (fwd_var x a x b) = PInf) /\ (tv a x = tv b x -> nsqrt (fwd_var x a x b) = NaN).
Proof. rewrite var_equal. unfold scale_inf. split; intros H; destruct (Rlt_dec 0 _); try lra; cbn; auto. destruct (Rlt_dec _ 0); [lra | reflexivity]. Qed.

(* ---- arrays ---- *)
Definition vars (t1 v1 t2 v2 : arr) (n : nat) : list num := vec n (fun i => fwd_var (at_ (vals t1) i) (at_ (vals v1) i) (at_ (vals t2) i) (at_ (vals v2) i)).
Definition finish (t1 v1 t2 v2 : arr) (n : nat) : result (list num) := let* _ := guard (negb (existsb is_neg (vars t1 v1 t2 v2 n))) ValueError in Ok (map nsqrt (vars t1 v1 t2 v2 n)).
Lemma vars_nth (t1 v1 t2 v2 : arr) (n i : nat) (x a y b : R) : elem t1 v1 t2 v2 i x a y b -> (i < n)%nat -> nth_error (vars t1 v1 t2 v2 n) i = Some (fwd_var x a y b).
Proof. intros (X & A & Y & B) L. unfold vars. rewrite vec_nth by auto. apply used_at in X, A, Y, B. congruence. Qed.

Lemma finish_cases (t1 v1 t2 v2 : arr) (n : nat) : shape t1 v1 t2 v2 n ->
  ((exists i x a y b, (i < n)%nat /\ elem t1 v1 t2 v2 i x a y b /\ inconsistent x a y b) -> finish t1 v1 t2 v2 n = Err ValueError)
  /\ ((forall i x a y b, (i < n)%nat -> elem t1 v1 t2 v2 i x a y b -> ~ inconsistent x a y b) ->
      exists vols, finish t1 v1 t2 v2 n = Ok vols /\ length vols = n /\
      forall i x a y b, (i < n)%nat -> elem t1 v1 t2 v2 i x a y b -> nth_error vols i = Some (nsqrt (fwd_var x a y b))).
Proof.
  intros S. unfold finish. split.
  - intros (i & x & a & y & b & L & E & I). apply is_neg_iff in I.
    assert (X : existsb is_neg (vars t1 v1 t2 v2 n) = true); [ | rewrite X; reflexivity].
    apply existsb_exists. exists (fwd_var x a y b). split; auto. eapply nth_error_In. eapply vars_nth; eauto.
  - intros G. assert (X : existsb is_neg (vars t1 v1 t2 v2 n) = false).
    { destruct (existsb is_neg (vars t1 v1 t2 v2 n)) eqn:X; auto. exfalso. apply existsb_exists in X as (z & Z & N). apply In_nth_error in Z as (i & Z).
      assert (L : (i < n)%nat) by (rewrite <- (vec_length n (fun i => fwd_var (at_ (vals t1) i) (at_ (vals v1) i) (at_ (vals t2) i) (at_ (vals v2) i))); apply nth_error_Some; unfold vars in Z; congruence).
      destruct (has_elem t1 v1 t2 v2 n i S L) as (x & a & y & b & E). rewrite (vars_nth t1 v1 t2 v2 n i x a y b E L) in Z. injection Z as <-. apply is_neg_iff in N. eapply G; eauto. }
    rewrite X. cbn [negb guard bind]. eexists. split; [reflexivity | ]. split; [unfold vars; rewrite map_length; apply vec_length | ].
    intros i x a y b L E. rewrite nth_error_map, (vars_nth t1 v1 t2 v2 n i x a y b E L). reflexivity.
Qed.

(* the order check *)
Definition taus (t1 t2 : arr) (m : nat) : list R := map (fun i => at_ (vals t2) i - at_ (vals t1) i) (seq 0 m).
Lemma first_size (t1 v1 t2 v2 : arr) (n : nat) : shape t1 v1 t2 v2 n ->
  exists m, broadcast [length (vals t1); length (vals t2)] = Some m /\ broadcast [length (vals t1); length (vals v1); length (vals t2); length (vals v2)] = Some n /\ fits [length (vals t1); length (vals t2)] m
  /\ (m = n \/ (m = 1%nat /\ length (vals t1) = 1%nat /\ length (vals t2) = 1%nat)).
Proof.
  intros S. assert (B : broadcast [length (vals t1); length (vals v1); length (vals t2); length (vals v2)] = Some n) by (apply broadcast_iff; [discriminate | exact S]).
  destruct S as [F I]. inversion F as [ | ? ? F1 G]; subst. inversion G as [ | ? ? F2 G2]; subst. inversion G2 as [ | ? ? F3 _]; subst.
  assert (Q : Forall (fun m => m = 1%nat \/ m = n) [length (vals t1); length (vals t2)]) by auto.
  pose proof (broadcast_fits _ n Q) as E. eexists. split; [exact E | ]. split; [exact B | ]. split; [apply broadcast_iff; [discriminate | exact E] | ].
  destruct (in_dec _ _ _) as [J | J]; [left; reflexivity | right]. split; [reflexivity | ]. cbn in J.
  destruct F1 as [F1 | F1], F3 as [F3 | F3]; auto; exfalso; apply J; auto.
Qed.
Lemma taus_in (t1 t2 : arr) (m : nat) (d : R) : fits [length (vals t1); length (vals t2)] m -> (In d (taus t1 t2 m) <-> exists i x y, (i < m)%nat /\ used (vals t1) i x /\ used (vals t2) i y /\ d = y - x).
Proof.
  intros F. unfold taus. rewrite in_map_iff. split.
  - intros (i & <- & I). apply in_seq in I. destruct (has_used _ m i (vals t1) F ltac:(cbn; auto) ltac:(lia)) as (x & X). destruct (has_used _ m i (vals t2) F ltac:(cbn; auto) ltac:(lia)) as (y & Y).
    exists i, x, y. split; [lia | ]. split; auto. split; auto. rewrite (used_at _ _ _ X), (used_at _ _ _ Y). reflexivity.
  - intros (i & x & y & L & X & Y & ->). exists i. split; [rewrite (used_at _ _ _ X), (used_at _ _ _ Y); reflexivity | apply in_seq; lia].
Qed.
(* differences of times over the first broadcast are those over the whole one *)
Lemma taus_elem (t1 v1 t2 v2 : arr) (n m : nat) (d : R) : shape t1 v1 t2 v2 n -> (0 < n)%nat -> fits [length (vals t1); length (vals t2)] m ->
  m = n \/ (m = 1%nat /\ length (vals t1) = 1%nat /\ length (vals t2) = 1%nat) ->
  (In d (taus t1 t2 m) <-> exists i x a y b, (i < n)%nat /\ elem t1 v1 t2 v2 i x a y b /\ d = y - x).
Proof.
  intros S N F M. rewrite (taus_in t1 t2 m d F). split.
  - intros (i & x & y & L & X & Y & D). assert (Li : (i < n)%nat) by (destruct M as [-> | (-> & _)]; lia).
    destruct (has_used _ n i (vals v1) S ltac:(cbn; auto) Li) as (a & A). destruct (has_used _ n i (vals v2) S ltac:(cbn; auto) Li) as (b & B).
    exists i, x, a, y, b. split; auto. split; auto. repeat split; auto.
  - intros (i & x & a & y & b & L & (X & _ & Y & _) & D). destruct M as [-> | (-> & L1 & L2)].
    + exists i, x, y. auto.
    + exists 0%nat, x, y. split; [lia | ].
      assert (G : forall (l : list R) (z : R), length l = 1%nat -> used l i z -> used l 0 z).
      { intros l z Ll [U | ->]; [ | right; reflexivity]. destruct l as [ | w [ | ? ?]]; try discriminate. destruct i; [ | destruct i; discriminate]. injection U as ->. right. reflexivity. }
      split; [apply G; auto | ]. split; [apply G; auto | auto].
Qed.
Definition zero_tau (t1 t2 : arr) (m : nat) : bool := existsb (fun x => if Req_EM_T x 0 then true else false) (taus t1 t2 m).
Definition neg_tau (t1 t2 : arr) (m : nat) : bool := existsb (fun x => if Rlt_dec x 0 then true else false) (taus t1 t2 m).
Lemma fv_unfold (t1 v1 t2 v2 : arr) (n : nat) : shape t1 v1 t2 v2 n -> (0 < n)%nat -> exists m,
  forward_volatility t1 v1 t2 v2 = (let* _ := if zero_tau t1 t2 m then (let* _ := masked t1 m in masked t2 m) else guard (negb (neg_tau t1 t2 m)) ValueError in finish t1 v1 t2 v2 n)
  /\ (zero_tau t1 t2 m = true <-> exists i x a y b, (i < n)%nat /\ elem t1 v1 t2 v2 i x a y b /\ x = y)
  /\ (neg_tau t1 t2 m = true <-> exists i x a y b, (i < n)%nat /\ elem t1 v1 t2 v2 i x a y b /\ y < x)
  /\ (m = n \/ (m = 1%nat /\ length (vals t1) = 1%nat /\ length (vals t2) = 1%nat)) /\ fits [length (vals t1); length (vals t2)] m.
Proof.
  intros S N. destruct (first_size t1 v1 t2 v2 n S) as (m & B1 & B2 & F & M). exists m.
  split. { unfold forward_volatility. rewrite B1, B2. reflexivity. }
  pose proof (fun d => taus_elem t1 v1 t2 v2 n m d S N F M) as T. split; [ | split; [ | auto]].
  - unfold zero_tau. rewrite existsb_exists. split.
    + intros (d & I & Z). apply T in I as (i & x & a & y & b & L & E & D). exists i, x, a, y, b. split; auto. split; auto. destruct (Req_EM_T d 0); [lra | discriminate].
    + intros (i & x & a & y & b & L & E & D). exists (y - x). split; [apply T; exists i, x, a, y, b; auto | ]. destruct (Req_EM_T (y - x) 0); [auto | exfalso; lra].
  - unfold neg_tau. rewrite existsb_exists. split.
    + intros (d & I & Z). apply T in I as (i & x & a & y & b & L & E & D). exists i, x, a, y, b. split; auto. split; auto. destruct (Rlt_dec d 0); [lra | discriminate].
    + intros (i & x & a & y & b & L & E & D). exists (y - x). split; [apply T; exists i, x, a, y, b; auto | ]. destruct (Rlt_dec (y - x) 0); [auto | exfalso; lra].
Qed.

(* t1 < t2 throughout *)
Lemma fv_ordered (t1 v1 t2 v2 : arr) (n : nat) : shape t1 v1 t2 v2 n -> (0 < n)%nat ->
  (forall i x a y b, (i < n)%nat -> elem t1 v1 t2 v2 i x a y b -> x < y) ->
  ((exists i x a y b, (i < n)%nat /\ elem t1 v1 t2 v2 i x a y b /\ tv b y < tv a x) -> forward_volatility t1 v1 t2 v2 = Err ValueError)
  /\ ((forall i x a y b, (i < n)%nat -> elem t1 v1 t2 v2 i x a y b -> tv a x <= tv b y) ->
      exists vols, forward_volatility t1 v1 t2 v2 = Ok vols /\ length vols = n /\
      forall i x a y b, (i < n)%nat -> elem t1 v1 t2 v2 i x a y b -> exists f, nth_error vols i = Some (Fin f) /\ carries x a y b f).
Proof.
  intros S N O. destruct (fv_unfold t1 v1 t2 v2 n S N) as (m & -> & Z & G & _).
  destruct (zero_tau t1 t2 m). { exfalso. destruct (proj1 Z eq_refl) as (i & x & a & y & b & L & E & D). pose proof (O i x a y b L E). lra. }
  destruct (neg_tau t1 t2 m). { exfalso. destruct (proj1 G eq_refl) as (i & x & a & y & b & L & E & D). pose proof (O i x a y b L E). lra. }
  cbn [negb guard bind]. destruct (finish_cases t1 v1 t2 v2 n S) as [F1 F2].
  assert (I : forall i x a y b, (i < n)%nat -> elem t1 v1 t2 v2 i x a y b -> (inconsistent x a y b <-> tv b y < tv a x)).
  { intros i x a y b L E. pose proof (O i x a y b L E) as X. unfold inconsistent. split.
    - intros [[_ Q] | [Q _]]; [ | lra]. nra.
    - intros Q. left. split; [intros R; lra | nra]. }
  split.
  - intros (i & x & a & y & b & L & E & D). apply F1. exists i, x, a, y, b. split; auto. split; auto. apply (I i x a y b L E). exact D.
  - intros D. destruct F2 as (vols & EQ & LN & V).
    { intros i x a y b L E Q. apply (I i x a y b L E) in Q. pose proof (D i x a y b L E). lra. }
    exists vols. split; auto. split; auto. intros i x a y b L E. pose proof (O i x a y b L E) as X.
    destruct (root_carries x a y b) as (f & R & C); [intros Q; lra | intros Q; apply (I i x a y b L E) in Q; pose proof (D i x a y b L E); lra | ].
    exists f. split; auto. rewrite (V i x a y b L E), R. reflexivity.
Qed.
(* a later first time is refused, unless some other pair of times is equal *)
Lemma fv_disordered (t1 v1 t2 v2 : arr) (n : nat) : shape t1 v1 t2 v2 n -> (0 < n)%nat ->
  (forall i x a y b, (i < n)%nat -> elem t1 v1 t2 v2 i x a y b -> x <> y) -> (exists i x a y b, (i < n)%nat /\ elem t1 v1 t2 v2 i x a y b /\ y < x) ->
  forward_volatility t1 v1 t2 v2 = Err ValueError.
Proof.
  intros S N O D. destruct (fv_unfold t1 v1 t2 v2 n S N) as (m & -> & Z & G & _).
  destruct (zero_tau t1 t2 m). { exfalso. destruct (proj1 Z eq_refl) as (i & x & a & y & b & L & E & Q). exact (O i x a y b L E Q). }
  rewrite (proj2 G D). reflexivity.
Qed.
(* some pair of times is equal *)
Lemma fv_equal (t1 v1 t2 v2 : arr) (n : nat) : shape t1 v1 t2 v2 n -> (0 < n)%nat ->
  (exists i x a y b, (i < n)%nat /\ elem t1 v1 t2 v2 i x a y b /\ x = y) ->
  ((exists x : R, t1 = Sc x) -> forward_volatility t1 v1 t2 v2 = Err TypeError)
  /\ (forall l1 l2 : list R, t1 = Ar l1 -> t2 = Ar l2 -> length l1 <> length l2 -> forward_volatility t1 v1 t2 v2 = Err IndexError)
  /\ (forall l1 l2 : list R, t1 = Ar l1 -> t2 = Ar l2 -> length l1 = length l2 ->
       ((exists i x a y b, (i < n)%nat /\ elem t1 v1 t2 v2 i x a y b /\ inconsistent x a y b) -> forward_volatility t1 v1 t2 v2 = Err ValueError)
       /\ ((forall i x a y b, (i < n)%nat -> elem t1 v1 t2 v2 i x a y b -> ~ inconsistent x a y b) ->
         exists vols, forward_volatility t1 v1 t2 v2 = Ok vols /\ length vols = n /\
         forall i x a y b, (i < n)%nat -> elem t1 v1 t2 v2 i x a y b ->
           (x <> y -> exists f, nth_error vols i = Some (Fin f) /\ carries x a y b f)
           /\ (x = y -> tv a x < tv b y -> nth_error vols i = Some PInf) /\ (x = y -> tv a x = tv b y -> nth_error vols i = Some NaN))).
Proof.
  intros S N D. destruct (fv_unfold t1 v1 t2 v2 n S N) as (m & -> & Z & _ & M & F). rewrite (proj2 Z D).
  split; [intros (x & ->); reflexivity | ]. split.
  - intros l1 l2 -> -> L. cbn [masked vals] in *. destruct F as [F I]. inversion F as [ | ? ? F1 G]; subst. inversion G as [ | ? ? F2 _]; subst.
    destruct (length l1 =? m)%nat eqn:A; [ | reflexivity]. cbn [guard bind]. destruct (length l2 =? m)%nat eqn:B; [ | reflexivity].
    apply Nat.eqb_eq in A, B. exfalso. lia.
  - intros l1 l2 E1 E2 L. subst t1 t2. assert (Q : length l1 = m /\ length l2 = m).
    { destruct F as [_ I]. cbn in I. destruct I as [I | [I | []]]; lia. }
    cbn [masked vals]. rewrite (proj2 (Nat.eqb_eq _ _) (proj1 Q)), (proj2 (Nat.eqb_eq _ _) (proj2 Q)). cbn [guard bind].
    destruct (finish_cases (Ar l1) v1 (Ar l2) v2 n S) as [F1 F2]. split; auto. intros G. destruct (F2 G) as (vols & EQ & LN & V). exists vols. split; auto. split; auto.
    intros i x a y b Li E. rewrite (V i x a y b Li E). split; [ | split].
    + intros X. destruct (root_carries x a y b X (G i x a y b Li E)) as (f & R & C). exists f. rewrite R. auto.
    + intros <- X. rewrite (proj1 (root_equal x a b) X). reflexivity.
    + intros <- X. rewrite (proj2 (root_equal x a b) X). reflexivity.
Qed.

(* consecutive intervals *)
Lemma fv_scalar (x a y b : R) : x < y -> tv a x <= tv b y -> exists f, forward_volatility (Sc x) (Sc a) (Sc y) (Sc b) = Ok [Fin f] /\ carries x a y b f.
Proof.
  intros X D. assert (S : shape (Sc x) (Sc a) (Sc y) (Sc b) 1) by (split; [repeat constructor | left; reflexivity]).
  assert (U : forall i x' a' y' b', (i < 1)%nat -> elem (Sc x) (Sc a) (Sc y) (Sc b) i x' a' y' b' -> x' = x /\ a' = a /\ y' = y /\ b' = b).
  { intros i x' a' y' b' L (A1 & A2 & A3 & A4). apply used_at in A1, A2, A3, A4. cbn in *. auto. }
  destruct (fv_ordered _ _ _ _ 1%nat S ltac:(lia)) as [_ H].
  { intros i x' a' y' b' L E. destruct (U i x' a' y' b' L E) as (-> & _ & -> & _). exact X. }
  destruct H as (vols & EQ & LN & V). { intros i x' a' y' b' L E. destruct (U i x' a' y' b' L E) as (-> & -> & -> & ->). exact D. }
  destruct (V 0%nat x a y b) as (f & Nf & C); [lia | repeat split; right; reflexivity | ]. exists f. split; auto.
  destruct vols as [ | v [ | ? ?]]; try discriminate. injection Nf as ->. exact EQ.
Qed.
Lemma fv_compose (x a y b z c f g : R) : x < y -> y < z -> forward_volatility (Sc x) (Sc a) (Sc y) (Sc b) = Ok [Fin f] -> forward_volatility (Sc y) (Sc b) (Sc z) (Sc c) = Ok [Fin g] ->
  exists h, forward_volatility (Sc x) (Sc a) (Sc z) (Sc c) = Ok [Fin h] /\ 0 <= h /\ h ^ 2 * (z - x) = f ^ 2 * (y - x) + g ^ 2 * (z - y).
Proof.
  assert (G : forall x a y b f, x < y -> forward_volatility (Sc x) (Sc a) (Sc y) (Sc b) = Ok [Fin f] -> tv a x <= tv b y /\ carries x a y b f).
  { clear. intros x a y b f X H. destruct (Rle_dec (tv a x) (tv b y)) as [D | D].
    - split; auto. destruct (fv_scalar x a y b X D) as (f' & E & C). rewrite E in H. injection H as <-. exact C.
    - exfalso. assert (S : shape (Sc x) (Sc a) (Sc y) (Sc b) 1) by (split; [repeat constructor | left; reflexivity]).
      destruct (fv_ordered _ _ _ _ 1%nat S ltac:(lia)) as [E _].
      { intros i x' a' y' b' L (A1 & A2 & A3 & A4). apply used_at in A1, A3. cbn in *. subst. exact X. }
      rewrite E in H; [discriminate | ]. exists 0%nat, x, a, y, b. split; [lia | ]. split; [repeat split; right; reflexivity | lra]. }
  intros XY YZ F H. destruct (G _ _ _ _ _ XY F) as [D1 [P1 C1]]. destruct (G _ _ _ _ _ YZ H) as [D2 [P2 C2]].
  destruct (fv_scalar x a z c) as (h & E & [P3 C3]); [lra | lra | ]. exists h. split; auto. split; auto. lra.
Qed.

(* ---- flat forward interpolation ---- *)
Lemma ff_elem_spec (r : ff_row) (p : R * R) (w : R) : usable r -> In p (f_vols r) -> line (f_t1 r) (fst p) (f_t2 r) (snd p) (f_t r) w -> vol_of w (f_t r) (ff_elem r p).
Proof.
  intros [O U] I [L1 L2]. unfold ff_elem, ff_vol12, ff_live.
  assert (E : exists u, add (Fin (fst p ^ 2 * f_t1 r)) (mul (npow2 (if if Req_EM_T (f_t1 r) (f_t2 r) then false else true then nsqrt (fwd_var (f_t1 r) (fst p) (f_t2 r) (snd p)) else Fin 0)) (Fin (f_t r - f_t1 r))) = Fin u /\ u = w).
  { destruct (Req_EM_T (f_t1 r) (f_t2 r)) as [E | E].
    - cbn. eexists. split; [reflexivity | ]. rewrite (L2 E). unfold tv. ring.
    - assert (X : f_t1 r < f_t2 r) by lra. pose proof (U X p I) as D. destruct (root_carries (f_t1 r) (fst p) (f_t2 r) (snd p) E) as (f & -> & C1 & C2).
      { unfold inconsistent. intros [[_ Q] | [Q _]]; [nra | contradiction]. }
      cbn. eexists. split; [reflexivity | ]. specialize (L1 X). apply (Rmult_eq_reg_r (f_t2 r - f_t1 r)); [ | lra]. unfold tv in *.
      transitivity (fst p ^ 2 * f_t1 r * (f_t2 r - f_t1 r) + f ^ 2 * (f_t2 r - f_t1 r) * (f_t r - f_t1 r)); [ring | ].
      replace (f ^ 2 * (f_t2 r - f_t1 r)) with (snd p ^ 2 * f_t2 r - fst p ^ 2 * f_t1 r) by lra. rewrite <- L1. ring. }
  destruct E as (u & -> & ->). unfold vol_of. split; [ | split; [ | split]].
  - intros [T W]. rewrite div_fin by lra. cbn [nsqrt]. assert (Q : 0 <= w / f_t r) by (apply Rmult_le_pos; [auto | left; apply Rinv_0_lt_compat; auto]).
    destruct (Rlt_dec _ 0); [lra | ]. eexists. split; [reflexivity | ]. split; [apply sqrt_pos | ]. unfold tv. rewrite <- Rsqr_pow2, Rsqr_sqrt by auto. field. lra.
  - intros [T W]. rewrite div_fin by lra. cbn [nsqrt]. assert (Q : w / f_t r < 0) by (apply div_sign; [lra | nra]). destruct (Rlt_dec _ 0); [reflexivity | lra].
  - intros [-> W]. rewrite div_zero. unfold scale_inf. destruct (Rlt_dec 0 w); [reflexivity | lra].
  - intros [-> W]. rewrite div_zero. unfold scale_inf. destruct (Rlt_dec 0 w); [lra | ]. destruct (Rlt_dec w 0); reflexivity.
Qed.

Lemma ff_cases (rows : list ff_row) :
  ((forall r : ff_row, In r rows -> usable r) -> flat_forward_interp (FfRows rows) = Ok (map (fun r => map (ff_elem r) (f_vols r)) rows))
  /\ ((exists r : ff_row, In r rows /\ ~ usable r) -> flat_forward_interp (FfRows rows) = Err ValueError).
Proof.
  unfold flat_forward_interp.
  assert (LV : forall r : ff_row, In r (filter ff_live rows) <-> In r rows /\ f_t1 r <> f_t2 r).
  { intros r. rewrite filter_In. unfold ff_live. destruct (Req_EM_T (f_t1 r) (f_t2 r)); split; intros [? ?]; split; auto; try discriminate; contradiction. }
  set (o := forallb _ (filter ff_live rows)). set (u := forallb _ (filter ff_live rows)).
  assert (HO : o = true <-> forall r : ff_row, In r rows -> f_t1 r <= f_t2 r).
  { unfold o. rewrite forallb_forall. split; intros H r I.
    - destruct (Req_EM_T (f_t1 r) (f_t2 r)) as [E | E]; [lra | ]. specialize (H r (proj2 (LV r) (conj I E))). destruct (Rlt_dec _ 0); [discriminate | lra].
    - apply LV in I as [I _]. specialize (H r I). destruct (Rlt_dec _ 0); [lra | reflexivity]. }
  assert (HU : o = true -> (u = true <-> forall r : ff_row, In r rows -> usable r)).
  { intros O. pose proof (proj1 HO O) as OR. unfold u. rewrite forallb_forall. split; intros H r I.
    - split; [apply OR; auto | ]. intros X p P. specialize (H r (proj2 (LV r) (conj I (Rlt_not_eq _ _ X)))). rewrite forallb_forall in H. specialize (H p P).
      apply negb_true_iff in H. destruct (Rle_dec (tv (fst p) (f_t1 r)) (tv (snd p) (f_t2 r))) as [ | Q]; auto. exfalso.
      assert (is_neg (fwd_var (f_t1 r) (fst p) (f_t2 r) (snd p)) = true); [ | congruence]. apply is_neg_iff. left. split; [lra | nra].
    - apply LV in I as [I NE]. destruct (H r I) as [L V]. apply forallb_forall. intros p P. apply negb_true_iff.
      destruct (is_neg _) eqn:Q; auto. exfalso. apply is_neg_iff in Q as [[_ Q] | [Q _]]; [ | contradiction]. assert (X : f_t1 r < f_t2 r) by lra. specialize (V X p P). nra. }
  split.
  - intros H. assert (O : o = true) by (apply HO; intros r I; exact (proj1 (H r I))). rewrite O, (proj2 (HU O) H). reflexivity.
  - intros (r & I & N). destruct o eqn:O; [ | reflexivity]. destruct u eqn:U; [ | reflexivity]. exfalso. apply N. apply HU; auto.
Qed.

(* at the pillars *)
Lemma tv_inj (a b t : R) : 0 < t -> 0 <= a -> 0 <= b -> tv a t = tv b t -> a = b.
Proof.
  unfold tv. intros T A B E. apply Rmult_eq_reg_r in E; [ | lra]. assert (Q : (a - b) * (a + b) = 0) by (transitivity (a ^ 2 - b ^ 2); [ring | lra]).
  apply Rmult_integral in Q as [Q | Q]; lra.
Qed.
Lemma tv_nonneg (a t : R) : 0 <= t -> 0 <= tv a t.
Proof. intros T. unfold tv. apply Rmult_le_pos; auto. apply pow2_ge_0. Qed.
Lemma ff_at_pillars (r : ff_row) (p : R * R) : usable r -> In p (f_vols r) -> 0 < f_t r -> 0 <= fst p -> 0 <= snd p ->
  (f_t r = f_t1 r -> ff_elem r p = Fin (fst p)) /\ (f_t1 r < f_t2 r -> f_t r = f_t2 r -> ff_elem r p = Fin (snd p)).
Proof.
  intros U I T A B. split.
  - intros E. destruct (ff_elem_spec r p (tv (fst p) (f_t1 r)) U I) as [H _]; [split; [intros _; rewrite E; ring | auto] | ].
    destruct H as (v & -> & P & Q); [split; auto; apply tv_nonneg; lra | ]. f_equal. apply (tv_inj v (fst p) (f_t r)); auto. congruence.
  - intros X E. destruct (ff_elem_spec r p (tv (snd p) (f_t2 r)) U I) as [H _]; [split; [intros _; rewrite E; ring | intros Q; lra] | ].
    destruct H as (v & -> & P & Q); [split; auto; apply tv_nonneg; lra | ]. f_equal. apply (tv_inj v (snd p) (f_t r)); auto. congruence.
Qed.
