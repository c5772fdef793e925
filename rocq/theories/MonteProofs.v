From Coq Require Import ZArith Reals List Bool Lia Lra Arith.
From Verif Require Import Base NormalModel BlackProofs MonteModel MonteSpec.
Import ListNotations.
Open Scope R_scope.

(* ---- sums ---- *)
Lemma fold_plus_acc (l : list R) (a : R) : fold_right Rplus a l = fold_right Rplus 0 l + a.
Proof. induction l as [ | x l IH]; cbn; [lra | ]. rewrite IH. lra. Qed.
Lemma total_S (n : nat) (f : nat -> R) : total (S n) f = total n f + f n.
Proof. unfold total. rewrite seq_S, map_app, fold_right_app. cbn. rewrite fold_plus_acc. lra. Qed.
Lemma total_0 (f : nat -> R) : total 0 f = 0. Proof. reflexivity. Qed.
Lemma sum_to_total (n : nat) (f : nat -> R) : sum_to n f = total n f.
Proof. induction n; cbn [sum_to]; [reflexivity | ]. rewrite IHn, total_S. reflexivity. Qed.
Lemma total_ext (n : nat) (f g : nat -> R) : (forall i : nat, (i < n)%nat -> f i = g i) -> total n f = total n g.
Proof. induction n; intros H; [reflexivity | ]. rewrite !total_S, IHn by (intros; apply H; lia). rewrite H by lia. reflexivity. Qed.
Lemma total_plus (n : nat) (f g : nat -> R) : total n (fun i => f i + g i) = total n f + total n g.
Proof. induction n; [rewrite !total_0; lra | ]. rewrite !total_S, IHn. lra. Qed.
Lemma total_scal (n : nat) (c : R) (f : nat -> R) : total n (fun i => c * f i) = c * total n f.
Proof. induction n; [rewrite !total_0; lra | ]. rewrite !total_S, IHn. lra. Qed.
Lemma total_zero (n : nat) (f : nat -> R) : (forall i : nat, (i < n)%nat -> f i = 0) -> total n f = 0.
Proof. induction n; intros H; [reflexivity | ]. rewrite total_S, IHn by (intros; apply H; lia). rewrite H by lia. lra. Qed.
Lemma total_const (n : nat) (c : R) : total n (fun _ => c) = INR n * c.
Proof. induction n; [rewrite total_0; cbn; lra | ]. rewrite total_S, IHn, S_INR. lra. Qed.
Lemma total_single (n k : nat) (f : nat -> R) : (k < n)%nat -> (forall i : nat, (i < n)%nat -> i <> k -> f i = 0) -> total n f = f k.
Proof.
  intros L H. induction n; [lia | ]. rewrite total_S. destruct (Nat.eq_dec k n) as [-> | N].
  - rewrite total_zero; [lra | ]. intros i I. apply H; lia.
  - rewrite IHn; [ | lia | intros; apply H; lia]. rewrite (H n) by lia. lra.
Qed.
Lemma total_swap (n m : nat) (f : nat -> nat -> R) : total n (fun i => total m (f i)) = total m (fun j => total n (fun i => f i j)).
Proof.
  induction n.
  - rewrite total_0. symmetry. apply total_zero. intros. reflexivity.
  - rewrite total_S, IHn. rewrite <- total_plus. apply total_ext. intros j _. rewrite total_S. reflexivity.
Qed.
Lemma total_nonneg (n : nat) (f : nat -> R) : (forall i : nat, (i < n)%nat -> 0 <= f i) -> 0 <= total n f.
Proof. induction n; intros H; [rewrite total_0; lra | ]. rewrite total_S. pose proof (IHn ltac:(intros; apply H; lia)). pose proof (H n ltac:(lia)). lra. Qed.
Lemma total_nonneg_zero (n : nat) (f : nat -> R) : (forall i : nat, (i < n)%nat -> 0 <= f i) -> total n f = 0 -> forall i : nat, (i < n)%nat -> f i = 0.
Proof.
  induction n; intros P T i L; [lia | ]. rewrite total_S in T.
  pose proof (total_nonneg n f ltac:(intros; apply P; lia)). pose proof (P n ltac:(lia)).
  destruct (Nat.eq_dec i n) as [-> | N]; [lra | ]. apply IHn; [intros; apply P; lia | lra | lia].
Qed.
Lemma total_shift (n : nat) (f : nat -> R) : total (S n) f = f O + total n (fun i => f (S i)).
Proof. induction n; [rewrite !total_S, !total_0; lra | ]. rewrite total_S, IHn, total_S. lra. Qed.
Lemma total_product (n : nat) (f g : nat -> R) : total n f * total n g = total n (fun i => total n (fun j => f i * g j)).
Proof.
  rewrite Rmult_comm, <- total_scal. apply total_ext. intros i _. rewrite total_scal. lra.
Qed.
Lemma total_pairs (n : nat) (f : nat -> R) : total (2 * n) f = total n (fun i => f (2 * i)%nat + f (2 * i + 1)%nat).
Proof.
  induction n; [reflexivity | ]. replace (2 * S n)%nat with (S (S (2 * n))) by lia. rewrite !total_S, IHn.
  replace (2 * n + 1)%nat with (S (2 * n)) by lia. lra.
Qed.

(* ---- generate_rand_nbs ---- *)
Ltac bools := rewrite ?andb_true_iff, ?andb_false_iff, ?orb_true_iff, ?orb_false_iff, ?Z.leb_le, ?Z.ltb_lt, ?Z.leb_gt, ?Z.ltb_ge, ?Z.eqb_eq, ?Z.eqb_neq, ?Nat.eqb_eq, ?Nat.eqb_neq, ?Nat.leb_le, ?Nat.ltb_lt, ?negb_true_iff, ?negb_false_iff in *.

Lemma seeds : (2 ^ 32 = 4294967296)%Z. Proof. reflexivity. Qed.
Definition draws (normal : normals) (steps vars sims : Z) (anti : bool) (seed : Z) : arr3 R :=
  let n := Z.to_nat sims in
  if anti then
    let pairs := Nat.div n 2 in
    let half := (n - pairs)%nat in
    let z := normal seed (Z.to_nat steps, Z.to_nat vars, half) in
    mk_arr3 (Z.to_nat steps) (Z.to_nat vars) (2 * pairs)
      (fun i j k => let q := if Nat.even k then Nat.div k 2 else (Nat.div k 2 + pairs)%nat in if Nat.ltb q half then z i j q else -1 * z i j (q - half)%nat)
  else mk_arr3 (Z.to_nat steps) (Z.to_nat vars) n (normal seed (Z.to_nat steps, Z.to_nat vars, n)).

Lemma generate_ok (normal : normals) (steps vars sims : Z) (anti : bool) (seed : Z) :
  drawable steps vars sims anti seed -> generate_rand_nbs normal steps vars sims anti seed = Ok (draws normal steps vars sims anti seed).
Proof.
  intros (A & B & C & D & E & F). unfold generate_rand_nbs, max_simulations.
  assert (G1 : ((0 <=? seed) && (seed <? 2 ^ 32))%Z = true) by (rewrite seeds; bools; lia).
  assert (G2 : ((1 <=? steps) && (1 <=? vars) && (1 <=? sims))%Z = true) by (bools; lia).
  assert (G3 : (steps * sims <=? 100000000)%Z = true) by (bools; lia).
  assert (G4 : negb (anti && (sims =? 1)%Z) = true).
  { destruct anti; [ | reflexivity]. cbn. bools. specialize (F eq_refl). lia. }
  rewrite G1, G2, G3, G4. cbn [guard bind]. unfold draws. destruct anti; reflexivity.
Qed.
Lemma generate_rejects (normal : normals) (steps vars sims : Z) (anti : bool) (seed : Z) :
  ~ drawable steps vars sims anti seed ->
  generate_rand_nbs normal steps vars sims anti seed = Err (if ((0 <=? seed) && (seed <? 4294967296) && negb ((1 <=? steps) && (1 <=? vars) && (1 <=? sims)))%Z then AssertionError else ValueError).
Proof.
  intros N. unfold generate_rand_nbs, max_simulations, guard. rewrite seeds.
  destruct ((0 <=? seed) && (seed <? 4294967296))%Z eqn:G1; [ | reflexivity].
  destruct ((1 <=? steps) && (1 <=? vars) && (1 <=? sims))%Z eqn:G2; [ | reflexivity].
  cbn [bind negb andb]. destruct (steps * sims <=? 100000000)%Z eqn:G3; [ | reflexivity].
  destruct (negb (anti && (sims =? 1)%Z)) eqn:G4; [ | reflexivity]. exfalso. apply N.
  bools. unfold drawable. repeat split; try lia. intros ->. cbn in G4. bools. lia.
Qed.
Lemma drawable_dec (steps vars sims : Z) (anti : bool) (seed : Z) : {drawable steps vars sims anti seed} + {~ drawable steps vars sims anti seed}.
Proof.
  unfold drawable.
  destruct (Z_le_dec 0 seed); [ | right; lia]. destruct (Z_lt_dec seed 4294967296); [ | right; lia]. destruct (Z_le_dec 1 steps); [ | right; lia]. destruct (Z_le_dec 1 vars); [ | right; lia].
  destruct (Z_le_dec 1 sims); [ | right; lia]. destruct (Z_le_dec (steps * sims) 100000000); [ | right; lia].
  destruct anti; [ | left; repeat split; auto; discriminate]. destruct (Z_le_dec 2 sims) as [T | T]; [left; repeat split; auto | right; intros (_ & _ & _ & _ & _ & Q); apply T, Q; reflexivity].
Qed.
Lemma generate_iff (normal : normals) (steps vars sims : Z) (anti : bool) (seed : Z) :
  (exists a, generate_rand_nbs normal steps vars sims anti seed = Ok a) <-> drawable steps vars sims anti seed.
Proof.
  split; [ | intros D; eexists; apply generate_ok; exact D].
  intros [a H]. destruct (drawable_dec steps vars sims anti seed) as [D | N]; [exact D | ]. rewrite (generate_rejects normal _ _ _ _ _ N) in H. discriminate.
Qed.

Lemma even_double (k : nat) : Nat.even (2 * k) = true. Proof. rewrite Nat.even_mul. reflexivity. Qed.
Lemma odd_double (k : nat) : Nat.even (2 * k + 1) = false.
Proof. rewrite Nat.even_add, even_double. reflexivity. Qed.
Lemma div_double (k : nat) : Nat.div (2 * k) 2 = k. Proof. rewrite Nat.mul_comm. apply Nat.div_mul. lia. Qed.
Lemma div_double1 (k : nat) : Nat.div (2 * k + 1) 2 = k.
Proof. symmetry. apply (Nat.div_unique (2 * k + 1) 2 k 1); lia. Qed.

Lemma generate_even (normal : normals) (steps vars : Z) (m : nat) (seed : Z) :
  drawable steps vars (2 * Z.of_nat m) true seed ->
  exists a, generate_rand_nbs normal steps vars (2 * Z.of_nat m) true seed = Ok a
    /\ (d0 a, d1 a, d2 a) = (Z.to_nat steps, Z.to_nat vars, (2 * m)%nat)
    /\ (forall i j k : nat, (k < m)%nat ->
         let z := normal seed (Z.to_nat steps, Z.to_nat vars, m) i j k in el a i j (2 * k)%nat = z /\ el a i j (2 * k + 1)%nat = - z)
    /\ (forall i j : nat, total (d2 a) (el a i j) = 0).
Proof.
  intros D. eexists. split; [apply generate_ok; exact D | ]. unfold draws. replace (Z.to_nat (2 * Z.of_nat m)) with (2 * m)%nat by lia. rewrite div_double.
  replace (2 * m - m)%nat with m by lia. cbn [d0 d1 d2 el].
  set (z := normal seed (Z.to_nat steps, Z.to_nat vars, m)).
  assert (K : forall i j k : nat, (k < m)%nat ->
    (let q := if Nat.even (2 * k) then Nat.div (2 * k) 2 else (Nat.div (2 * k) 2 + m)%nat in if Nat.ltb q m then z i j q else -1 * z i j (q - m)%nat) = z i j k
    /\ (let q := if Nat.even (2 * k + 1) then Nat.div (2 * k + 1) 2 else (Nat.div (2 * k + 1) 2 + m)%nat in if Nat.ltb q m then z i j q else -1 * z i j (q - m)%nat) = - z i j k).
  { intros i j k L. rewrite even_double, odd_double, div_double, div_double1. cbv zeta. split.
    - rewrite (proj2 (Nat.ltb_lt k m) L). reflexivity.
    - rewrite (proj2 (Nat.ltb_ge (k + m) m)) by lia. replace (k + m - m)%nat with k by lia. lra. }
  split; [reflexivity | ]. split; [exact K | ].
  intros i j. rewrite total_pairs. apply total_zero. intros k L. destruct (K i j k L) as [E O]. cbv zeta in E, O |- *. rewrite E, O. lra.
Qed.
Lemma generate_odd (normal : normals) (steps vars : Z) (m : nat) (seed : Z) :
  (1 <= m)%nat -> drawable steps vars (2 * Z.of_nat m + 1) true seed ->
  exists a, generate_rand_nbs normal steps vars (2 * Z.of_nat m + 1) true seed = Ok a
    /\ (d0 a, d1 a, d2 a) = (Z.to_nat steps, Z.to_nat vars, (2 * m)%nat)
    /\ (forall i j : nat, let z := normal seed (Z.to_nat steps, Z.to_nat vars, (m + 1)%nat) i j in
         (forall k : nat, (k < m)%nat -> el a i j (2 * k)%nat = z k) /\ el a i j 1%nat = z m
         /\ (forall k : nat, (k + 1 < m)%nat -> el a i j (2 * k + 3)%nat = - z k)
         /\ total (d2 a) (el a i j) = z (m - 1)%nat + z m).
Proof.
  intros M D. eexists. split; [apply generate_ok; exact D | ]. unfold draws. replace (Z.to_nat (2 * Z.of_nat m + 1)) with (2 * m + 1)%nat by lia. rewrite div_double1.
  replace (2 * m + 1 - m)%nat with (m + 1)%nat by lia. cbn [d0 d1 d2 el].
  set (z := normal seed (Z.to_nat steps, Z.to_nat vars, (m + 1)%nat)).
  set (e := fun i j k => (let q := if Nat.even k then Nat.div k 2 else (Nat.div k 2 + m)%nat in if Nat.ltb q (m + 1) then z i j q else -1 * z i j (q - (m + 1))%nat)).
  assert (E : forall i j k : nat, (k < m)%nat -> e i j (2 * k)%nat = z i j k).
  { intros i j k L. unfold e. rewrite even_double, div_double. cbv zeta. rewrite (proj2 (Nat.ltb_lt k (m + 1))) by lia. reflexivity. }
  assert (O : forall i j : nat, e i j 1%nat = z i j m).
  { intros i j. unfold e. change (Nat.even 1) with false. change (Nat.div 1 2) with 0%nat. cbv zeta iota. change (0 + m)%nat with m. rewrite (proj2 (Nat.ltb_lt m (m + 1))) by lia. reflexivity. }
  assert (N : forall i j k : nat, (k + 1 < m)%nat -> e i j (2 * k + 3)%nat = - z i j k).
  { intros i j k L. unfold e. replace (2 * k + 3)%nat with (2 * (k + 1) + 1)%nat by lia. rewrite odd_double, div_double1. cbv zeta.
    rewrite (proj2 (Nat.ltb_ge (k + 1 + m) (m + 1))) by lia. replace (k + 1 + m - (m + 1))%nat with k by lia. lra. }
  split; [reflexivity | ]. intros i j. cbv zeta. split; [intros k L; exact (E i j k L) | ]. split; [exact (O i j) | ]. split; [intros k L; exact (N i j k L) | ].
  change (total (2 * m) (e i j) = z i j (m - 1)%nat + z i j m). rewrite total_pairs. destruct m as [ | m']; [lia | ].
  assert (G : forall c : nat, (c <= m')%nat -> total (S c) (fun i0 => e i j (2 * i0)%nat + e i j (2 * i0 + 1)%nat) = z i j c + z i j (S m')).
  { induction c; intros L.
    - rewrite total_S, total_0, E by lia. change (2 * 0 + 1)%nat with 1%nat. rewrite O. lra.
    - rewrite total_S, IHc by lia. rewrite E by lia. replace (2 * S c + 1)%nat with (2 * c + 3)%nat by lia. rewrite N by lia. lra. }
  rewrite G by lia. replace (S m' - 1)%nat with m' by lia. reflexivity.
Qed.

(* ---- normal_corr ---- *)
Lemma corr_ok (cholesky : factorisation) (n : nat) (C L r : mat R) :
  cholesky C = Ok L -> is_cholesky n C L -> nc r = n ->
  exists out, normal_corr cholesky C r = Ok out /\ nr out = nr r /\ nc out = n /\ forall s v : nat, me out s v = total n (fun u => me L u v * me r s u).
Proof.
  intros E (A & B & _) N. eexists. unfold normal_corr. rewrite E. cbn [bind]. rewrite A, B, N, Nat.eqb_refl. cbn [guard bind].
  split; [reflexivity | ]. cbn. repeat split. intros s v. apply sum_to_total.
Qed.
Lemma corr_moment (cholesky : factorisation) (n : nat) (C L r out : mat R) :
  cholesky C = Ok L -> is_cholesky n C L -> standard n r -> normal_corr cholesky C r = Ok out ->
  forall i j : nat, moment out i j = INR (nr r) * total n (fun k => me L k i * me L k j).
Proof.
  intros E K [N S] H i j. destruct (corr_ok cholesky n C L r E K N) as (o & O & A & B & V). rewrite H in O. injection O as ->.
  unfold moment. rewrite A.
  rewrite (total_ext _ _ (fun s => total n (fun u => total n (fun w => me L u i * me L w j * (me r s u * me r s w))))).
  2: { intros s _. rewrite !V, total_product. apply total_ext. intros u _. apply total_ext. intros w _. lra. }
  rewrite total_swap. rewrite <- total_scal. apply total_ext. intros u U. rewrite total_swap.
  rewrite (total_single n u _ U).
  - rewrite total_scal. fold (moment r u u). rewrite (S u u U U), Nat.eqb_refl. lra.
  - intros w W D. rewrite total_scal. fold (moment r u w). rewrite (S u w U W). apply Nat.eqb_neq in D. rewrite Nat.eqb_sym in D. rewrite D. lra.
Qed.

Lemma normal_triangular (n : nat) (C L : mat R) : is_cholesky n C L ->
  (forall k : nat, (k < n)%nat -> total n (fun i => me L i k * me L i k) = me C k k) -> forall i k : nat, (i < n)%nat -> (k < n)%nat -> i <> k -> me L i k = 0.
Proof.
  intros (_ & _ & U & _ & F) H.
  assert (G : forall k : nat, (k < n)%nat -> forall i : nat, (k < i < n)%nat -> me L i k = 0).
  { induction k as [k IH] using (well_founded_induction lt_wf). intros K i I.
    specialize (H k K). rewrite <- (F k k K K) in H.
    rewrite (total_single n k (fun k0 => me L k k0 * me L k k0) K) in H.
    2: { intros j J D. destruct (lt_dec j k); [rewrite (IH j) by lia; lra | rewrite U by lia; lra]. }
    pose (f := fun i => if Nat.eqb i k then 0 else me L i k * me L i k).
    assert (Z : total n f = 0).
    { assert (T : total n (fun i => me L i k * me L i k) = total n (fun i => f i + (if Nat.eqb i k then me L k k * me L k k else 0))).
      { apply total_ext. intros a A. unfold f. destruct (Nat.eqb a k) eqn:Q; [apply Nat.eqb_eq in Q; subst a | ]; lra. }
      rewrite T, total_plus, (total_single n k (fun i => if Nat.eqb i k then _ else 0) K) in H. 2: { intros a A D. apply Nat.eqb_neq in D. rewrite D. reflexivity. }
      rewrite Nat.eqb_refl in H. lra. }
    assert (P : forall a : nat, (a < n)%nat -> 0 <= f a). { intros a A. unfold f. destruct (Nat.eqb a k); [lra | ]. apply Rle_0_sqr. }
    pose proof (total_nonneg_zero n f P Z i ltac:(lia)) as Q. unfold f in Q. assert (D : Nat.eqb i k = false) by (apply Nat.eqb_neq; lia). rewrite D in Q.
    apply Rsqr_0_uniq. exact Q. }
  intros i k I K D. destruct (lt_dec i k); [apply U; lia | apply G; lia].
Qed.
Lemma diagonal_factor (n : nat) (C L : mat R) : is_cholesky n C L ->
  (forall i j : nat, (i < n)%nat -> (j < n)%nat -> i <> j -> me C i j = 0) -> forall i k : nat, (i < n)%nat -> (k < n)%nat -> i <> k -> me L i k = 0.
Proof.
  intros (_ & _ & U & P & F) H.
  assert (G : forall k : nat, (k < n)%nat -> forall i : nat, (k < i < n)%nat -> me L i k = 0).
  { induction k as [k IH] using (well_founded_induction lt_wf). intros K i I.
    specialize (H i k ltac:(lia) K ltac:(lia)). rewrite <- (F i k ltac:(lia) K) in H.
    rewrite (total_single n k (fun k0 => me L i k0 * me L k k0) K) in H.
    2: { intros j J D. destruct (lt_dec j k); [rewrite (IH j) by lia; lra | rewrite (U k j) by lia; lra]. }
    pose proof (P k K). apply Rmult_integral in H. destruct H; lra. }
  intros i k I K D. destruct (lt_dec i k); [apply U; lia | apply G; lia].
Qed.

Lemma corr_correct_iff (cholesky : factorisation) (n : nat) (C r out : mat R) :
  factors cholesky n C -> standard n r -> (0 < nr r)%nat -> normal_corr cholesky C r = Ok out ->
  ((forall i j : nat, (i < n)%nat -> (j < n)%nat -> moment out i j = INR (nr r) * me C i j) <-> (forall i j : nat, (i < n)%nat -> (j < n)%nat -> i <> j -> me C i j = 0)).
Proof.
  intros (L & E & K) S Q H. pose proof (corr_moment _ _ _ _ _ _ E K S H) as M. pose proof K as (_ & _ & U & P & F).
  assert (QR : 0 < INR (nr r)) by (apply lt_0_INR; lia). split.
  - intros G. assert (T : forall i k : nat, (i < n)%nat -> (k < n)%nat -> i <> k -> me L i k = 0).
    { apply (normal_triangular n C L K). intros k KK. specialize (G k k KK KK). rewrite M in G. nra. }
    intros i j I J D. rewrite <- (F i j I J). apply total_zero. intros k KK. destruct (Nat.eq_dec i k); [subst; rewrite (T j k) by auto; lra | rewrite (T i k) by auto; lra].
  - intros G i j I J. pose proof (diagonal_factor n C L K G) as T. rewrite M. f_equal. destruct (Nat.eq_dec i j) as [<- | D].
    + rewrite <- (F i i I I). rewrite (total_single n i (fun k => me L k i * me L k i) I), (total_single n i (fun k => me L i k * me L i k) I); [reflexivity | | ];
        intros k KK D; [rewrite (T i k) by auto | rewrite (T k i) by auto]; lra.
    + rewrite (G i j I J D). apply total_zero. intros k KK. destruct (Nat.eq_dec k i); [subst; rewrite (T i j) by auto; lra | rewrite (T k i) by auto; lra].
Qed.
Lemma corr_total (cholesky : factorisation) (n : nat) (C r out : mat R) :
  factors cholesky n C -> standard n r -> normal_corr cholesky C r = Ok out -> total n (fun i => moment out i i) = INR (nr r) * total n (fun i => me C i i).
Proof.
  intros (L & E & K) S H. pose proof (corr_moment _ _ _ _ _ _ E K S H) as M. pose proof K as (_ & _ & _ & _ & F).
  rewrite <- total_scal. rewrite (total_ext _ _ (fun i => INR (nr r) * total n (fun k => me L k i * me L k i))) by (intros; apply M).
  rewrite !total_scal. f_equal. rewrite total_swap. apply total_ext. intros i I. apply F; exact I.
Qed.
Lemma total_2 (f : nat -> R) : total 2 f = f 0%nat + f 1%nat. Proof. rewrite !total_S, total_0. lra. Qed.
Lemma cholesky_2 (rho : R) (L : mat R) : is_cholesky 2 (correlation2 rho) L ->
  -1 < rho < 1 /\ me L 0 0 = 1 /\ me L 0 1 = 0 /\ me L 1 0 = rho /\ me L 1 1 = sqrt (1 - rho ^ 2).
Proof.
  intros (_ & _ & U & P & F). pose proof (F 0 0 ltac:(lia) ltac:(lia))%nat as A. pose proof (F 1 0 ltac:(lia) ltac:(lia))%nat as B. pose proof (F 1 1 ltac:(lia) ltac:(lia))%nat as D.
  rewrite total_2 in A, B, D. cbn [correlation2 me Nat.eqb] in A, B, D. rewrite (U 0 1 ltac:(lia))%nat in *. pose proof (P 0 ltac:(lia))%nat as P0. pose proof (P 1 ltac:(lia))%nat as P1.
  assert (X : me L 0 0 = 1) by nra. rewrite X in B. assert (Y : me L 1 0 = rho) by lra. rewrite Y in D.
  assert (Z : 0 < me L 1 1 * me L 1 1) by (apply Rmult_lt_0_compat; assumption).
  split; [nra | ]. repeat split; auto. replace (1 - rho ^ 2) with (Rsqr (me L 1 1)) by (unfold Rsqr; nra). rewrite sqrt_Rsqr; lra.
Qed.
Lemma cholesky_2_exists (rho : R) : -1 < rho < 1 -> exists L, is_cholesky 2 (correlation2 rho) L.
Proof.
  intros B. assert (Q : 0 < 1 - rho ^ 2) by nra. pose (s := sqrt (1 - rho ^ 2)). assert (SS : s * s = 1 - rho ^ 2) by (apply sqrt_sqrt; lra). assert (SP : 0 < s) by (apply sqrt_lt_R0; lra).
  exists (mk_mat 2 2 (fun i j => match i, j with O, O => 1 | O, _ => 0 | _, O => rho | _, _ => s end)). repeat split; cbn [nr nc me].
  - intros i j I. assert (i = 0 /\ j = 1)%nat as [-> ->] by lia. reflexivity.
  - intros [ | [ | i]] I; [lra | exact SP | lia].
  - intros i j I J. rewrite total_2. destruct i as [ | [ | i]]; destruct j as [ | [ | j]]; try lia; cbn [correlation2 me Nat.eqb]; nra.
Qed.
Lemma corr_2 (cholesky : factorisation) (rho : R) (r out : mat R) :
  factors cholesky 2 (correlation2 rho) -> standard 2 r -> normal_corr cholesky (correlation2 rho) r = Ok out ->
  moment out 0 0 = INR (nr r) * (1 + rho ^ 2) /\ moment out 1 1 = INR (nr r) * (1 - rho ^ 2) /\ moment out 0 1 = INR (nr r) * (rho * sqrt (1 - rho ^ 2)).
Proof.
  intros (L & E & K) S H. pose proof (corr_moment _ _ _ _ _ _ E K S H) as M. apply cholesky_2 in K. destruct K as (B & A0 & A1 & A2 & A3).
  rewrite !M, !total_2, A0, A1, A2, A3. assert (SS : sqrt (1 - rho ^ 2) * sqrt (1 - rho ^ 2) = 1 - rho ^ 2) by (apply sqrt_sqrt; nra).
  rewrite SS. repeat split; f_equal; lra.
Qed.
Lemma corr_slices (cholesky : factorisation) (C : mat R) (z : arr3 R) (out : arr3 R) : normal_corr3 cholesky C z = Ok out ->
  d0 out = d0 z /\ d2 out = d2 z
  /\ forall t : nat, exists o, normal_corr cholesky C (mk_mat (d2 z) (d1 z) (fun s u => el z t u s)) = Ok o /\ nc o = d1 out /\ forall v s : nat, el out t v s = me o s v.
Proof.
  unfold normal_corr3, normal_corr. destruct (cholesky C) as [L | e]; [ | discriminate]. cbn [bind nc nr me]. intros H.
  destruct (Nat.eqb (nr L) (d1 z)); [ | discriminate]. cbn [guard bind] in *. injection H as <-. cbn. split; [reflexivity | ]. split; [reflexivity | ].
  intros t. eexists. split; [reflexivity | ]. cbn. auto.
Qed.
Lemma corr_refused (cholesky : factorisation) (C r : mat R) (e : exn) : cholesky C = Err e -> normal_corr cholesky C r = Err e.
Proof. intros H. unfold normal_corr. rewrite H. reflexivity. Qed.
Lemma corr_shape (cholesky : factorisation) (n : nat) (C r : mat R) : factors cholesky n C -> nc r <> n -> normal_corr cholesky C r = Err ValueError.
Proof. intros (L & E & (A & _)) N. unfold normal_corr. rewrite E. cbn [bind]. rewrite A. apply not_eq_sym, Nat.eqb_neq in N. rewrite N. reflexivity. Qed.

(* ---- simulate_gbm_path ---- *)
Lemma gbm_closed (k : nat) (px drift vol : mat R) (dt : nat -> R) (z : arr3 R) (n v s : nat) :
  (forall i : nat, (i < n)%nat -> 0 <= dt i) -> let c := if Nat.eqb k 1 then O else s in
  forall t : nat, (t <= n)%nat ->
  gbm_at k px drift vol dt z t v s = Fin (me px 0 c * exp (gbm_log (fun i => me drift i c) (fun i => me vol i c) dt (fun i => el z i v s) t)).
Proof.
  intros P c. induction t; intros L; cbn [gbm_at].
  - fold c. unfold gbm_log. rewrite total_0, exp_0. f_equal. lra.
  - rewrite IHt by lia. fold c. unfold nsqrt. destruct (Rlt_dec (dt t) 0) as [N | _]; [pose proof (P t ltac:(lia)); lra | ]. cbn [mul add nexp]. f_equal.
    unfold gbm_log. rewrite total_S, Rmult_assoc, <- exp_plus. f_equal. f_equal. lra.
Qed.

Lemma gbm_one (px : R) (drift vol dt : nat -> R) (n : nat) (z : arr3 R) :
  d0 z = n -> d1 z = 1%nat -> (forall i : nat, (i < n)%nat -> 0 <= dt i) ->
  exists x, simulate_gbm_path (D0 px) (D1 n drift) (D1 n vol) (D1 n dt) z = Ok x /\ (d0 x, d1 x, d2 x) = (S n, 1%nat, d2 z)
    /\ forall t s : nat, (t <= n)%nat -> el x t 0 s = Fin (px * exp (gbm_log drift vol dt (fun i => el z i 0 s) t)).
Proof.
  intros A B P. unfold simulate_gbm_path. cbn [atleast_2d]. unfold column. cbn [nr nc me Nat.eqb]. rewrite A, B, !Nat.eqb_refl. cbn [andb orb guard bind].
  eexists. split; [reflexivity | ]. cbn [d0 d1 d2 el]. split; [reflexivity | ]. intros t s T. rewrite (gbm_closed _ _ _ _ _ _ n) by auto. reflexivity.
Qed.
Lemma gbm_many (px : nat -> R) (drift vol : mat R) (k n : nat) (dt : nat -> R) (z : arr3 R) :
  (2 <= k)%nat -> nr drift = n -> nc drift = k -> nr vol = n -> nc vol = k -> d0 z = n -> d1 z = k -> (forall i : nat, (i < n)%nat -> 0 <= dt i) ->
  let run := simulate_gbm_path (D1 k px) (D2 drift) (D2 vol) (D1 n dt) z in
  (n = 1%nat -> run = Err AssertionError)
  /\ (n <> 1%nat -> d2 z <> k -> run = Err ValueError)
  /\ (n <> 1%nat -> d2 z = k -> exists x, run = Ok x /\ (d0 x, d1 x, d2 x) = (S n, k, k)
        /\ forall t v s : nat, (t <= n)%nat -> el x t v s = Fin (px s * exp (gbm_log (fun i => me drift i s) (fun i => me vol i s) dt (fun i => el z i v s) t))).
Proof.
  intros K A B C D E F P run. unfold run, simulate_gbm_path. cbn [atleast_2d]. unfold column. rewrite A, C.
  destruct (Nat.eqb n 1) eqn:N.
  - apply Nat.eqb_eq in N. split; [ | split; intros H; contradiction]. intros _. cbn [nr]. rewrite B, N. assert (Q : Nat.eqb 1 k = false) by (apply Nat.eqb_neq; lia). rewrite Q. reflexivity.
  - apply Nat.eqb_neq in N. split; [intros H; contradiction | ]. cbn [nr nc]. rewrite A, B, C, D, E, F, !Nat.eqb_refl. cbn [andb guard bind].
    assert (Q : Nat.eqb k 1 = false) by (apply Nat.eqb_neq; lia). rewrite Q. cbn [orb]. split; intros _ G.
    + apply not_eq_sym, Nat.eqb_neq in G. rewrite G. reflexivity.
    + rewrite G, Nat.eqb_refl. cbn [guard bind]. eexists. split; [reflexivity | ]. cbn [d0 d1 d2 el]. split; [reflexivity | ].
      intros t v s T. rewrite (gbm_closed _ _ _ _ _ _ n) by auto. rewrite Q. reflexivity.
Qed.
Lemma gbm_steps_mismatch (px drift vol dt : nat -> R) (a b c n : nat) (z : arr3 R) :
  ~ (n = a /\ n = b /\ n = d0 z /\ c = 1%nat /\ d1 z = 1%nat) -> simulate_gbm_path (D1 c px) (D1 a drift) (D1 b vol) (D1 n dt) z = Err AssertionError.
Proof.
  intros H. unfold simulate_gbm_path. cbn [atleast_2d]. unfold column. cbn [nr nc Nat.eqb].
  destruct (Nat.eqb n a && Nat.eqb n b && Nat.eqb n (d0 z) && true) eqn:X; [ | reflexivity]. cbn [guard bind].
  destruct (Nat.eqb c 1 && Nat.eqb c 1 && Nat.eqb c (d1 z)) eqn:Y; [ | reflexivity]. exfalso. apply H. bools. repeat split; try (symmetry; tauto); try tauto; destruct Y as [[? ?] ?]; congruence.
Qed.
Lemma gbm_log_compose (drift vol dt z : nat -> R) (t u : nat) :
  gbm_log drift vol dt z (t + u) = gbm_log drift vol dt z t + gbm_log (fun i => drift (t + i)%nat) (fun i => vol (t + i)%nat) (fun i => dt (t + i)%nat) (fun i => z (t + i)%nat) u.
Proof.
  unfold gbm_log. induction u.
  - rewrite Nat.add_0_r, total_0. lra.
  - rewrite Nat.add_succ_r, !total_S, IHu. lra.
Qed.
Lemma gbm_log_opposite (drift vol dt z : nat -> R) (t : nat) :
  gbm_log drift vol dt z t + gbm_log drift vol dt (fun i => - z i) t = 2 * total t (fun i => (drift i - vol i ^ 2 / 2) * dt i).
Proof. unfold gbm_log. rewrite <- total_plus, <- total_scal. apply total_ext. intros i _. lra. Qed.
Lemma gbm_log_ext (drift vol dt z w : nat -> R) (t : nat) : (forall i : nat, (i < t)%nat -> z i = w i) -> gbm_log drift vol dt z t = gbm_log drift vol dt w t.
Proof. intros H. unfold gbm_log. apply total_ext. intros i I. rewrite H by exact I. reflexivity. Qed.

Lemma gbm_antithetic (normal : normals) (m n : nat) (seed : Z) (z : arr3 R) (x : arr3 num) (px : R) (drift vol dt : nat -> R) :
  generate_rand_nbs normal (Z.of_nat n) 1 (2 * Z.of_nat m) true seed = Ok z -> (forall i : nat, (i < n)%nat -> 0 <= dt i) ->
  simulate_gbm_path (D0 px) (D1 n drift) (D1 n vol) (D1 n dt) z = Ok x ->
  d2 x = (2 * m)%nat /\ forall t k : nat, (t <= n)%nat -> (k < m)%nat ->
    exists a b, el x t 0 (2 * k)%nat = Fin a /\ el x t 0 (2 * k + 1)%nat = Fin b /\ a * b = px ^ 2 * exp (2 * total t (fun i => (drift i - vol i ^ 2 / 2) * dt i)).
Proof.
  intros G P X. assert (D : drawable (Z.of_nat n) 1 (2 * Z.of_nat m) true seed) by (apply (generate_iff normal); eauto).
  destruct (generate_even normal _ _ m seed D) as (a & E & Sh & V & _). rewrite G in E. injection E as <-. injection Sh as S0 S1 S2. rewrite Nat2Z.id in S0. change (Z.to_nat 1) with 1%nat in S1.
  destruct (gbm_one px drift vol dt n z S0 S1 P) as (y & Y & Sy & W). rewrite X in Y. injection Y as <-. injection Sy as T0 T1 T2. split; [lia | ].
  intros t k T K. rewrite !W by exact T. eexists. eexists. split; [reflexivity | ]. split; [reflexivity | ].
  rewrite <- (gbm_log_opposite drift vol dt (fun i => el z i 0 (2 * k)%nat) t).
  rewrite (gbm_log_ext drift vol dt (fun i => el z i 0 (2 * k + 1)%nat) (fun i => - el z i 0 (2 * k)%nat) t).
  2: { intros i _. destruct (V i O k K) as [V0 V1]. rewrite V0, V1. reflexivity. }
  rewrite exp_plus. ring.
Qed.

(* ---- clewlow_strickland_1_factor_simulate ---- *)
Lemma cs_closed (seg : nat) (alpha sigma : R) (lnf : nat -> num) (l : nat -> R) (z : nat -> R) (n : nat) : (seg <> 0)%nat ->
  (forall i : nat, (i <= n)%nat -> lnf i = Fin (l i)) -> let dt := 1 / INR seg in
  forall i : nat, (i <= n)%nat -> cs_path dt alpha sigma lnf z i = Fin (l i + cs_deviation dt alpha sigma z i).
Proof.
  intros N H dt. assert (SP : 0 < INR seg) by (apply lt_0_INR; lia).
  assert (DT : 0 < dt) by (unfold dt; apply Rdiv_lt_0_compat; lra). induction i; intros I; cbn [cs_path].
  - rewrite H by lia. unfold cs_deviation. rewrite total_0. f_equal. lra.
  - rewrite IHi by lia. rewrite !H by lia. unfold nsqrt. destruct (Rlt_dec dt 0) as [Q | _]; [lra | ].
    cbn [sub neg add mul div]. destruct (Req_EM_T dt 0) as [Q | _]; [lra | ]. cbn [add mul]. f_equal.
    assert (Step : cs_deviation dt alpha sigma z (S i) = (1 - alpha * dt) * cs_deviation dt alpha sigma z i + (sigma * sqrt dt * z i - sigma ^ 2 / 4 * (1 + exp (-2 * alpha * (INR i * dt))) * dt)).
    { unfold cs_deviation. rewrite total_S. replace (S i - 1 - i)%nat with O by lia. rewrite pow_O, Rmult_1_l. f_equal.
      rewrite <- total_scal. apply total_ext. intros m M. replace (S i - 1 - m)%nat with (S (i - 1 - m)) by lia. rewrite <- tech_pow_Rmult. ring. }
    rewrite Step. field. lra.
Qed.

Lemma chunk_iff (sims steps : nat) : (0 < steps)%nat -> (0 < sims)%nat -> (Z.of_nat steps <= 100000000)%Z ->
  chunk sims steps (Z.to_nat (Z.min (Z.of_nat sims) (100000000 / Z.of_nat steps))).
Proof.
  intros S P B. pose proof (Z.div_mod 100000000 (Z.of_nat steps) ltac:(lia)) as D. pose proof (Z.mod_pos_bound 100000000 (Z.of_nat steps) ltac:(lia)) as Mo.
  set (q := (100000000 / Z.of_nat steps)%Z) in *. set (r := (100000000 mod Z.of_nat steps)%Z) in *.
  assert (Q : (1 <= q)%Z) by (unfold q; apply Z.div_le_lower_bound; lia).
  unfold chunk. set (per := Z.to_nat (Z.min (Z.of_nat sims) q)). assert (PZ : Z.of_nat per = Z.min (Z.of_nat sims) q) by (unfold per; rewrite Z2Nat.id; lia).
  split; [lia | ]. split.
  - rewrite Nat2Z.inj_mul, PZ. nia.
  - destruct (Z.le_ge_cases (Z.of_nat sims) q); [left; lia | right]. rewrite Nat2Z.inj_mul, Nat2Z.inj_add, PZ. replace (Z.min (Z.of_nat sims) q) with q by lia. nia.
Qed.
Lemma chunk_unique (sims steps a b : nat) : chunk sims steps a -> chunk sims steps b -> a = b.
Proof.
  intros (A1 & A2 & A3) (B1 & B2 & B3). destruct (Nat.lt_trichotomy a b) as [L | [L | L]]; [exfalso | exact L | exfalso].
  - destruct A3 as [A3 | A3]; [lia | ]. assert (((a + 1) * steps <= b * steps)%nat) by (apply Nat.mul_le_mono_r; lia). lia.
  - destruct B3 as [B3 | B3]; [lia | ]. assert (((b + 1) * steps <= a * steps)%nat) by (apply Nat.mul_le_mono_r; lia). lia.
Qed.

(* the loops fill every column once *)
Lemma loops_fill (sims per loops : nat) (value : nat -> nat -> nat -> num) (body : nat -> (nat -> nat -> num) -> result (nat -> nat -> num)) :
  (1 <= per)%nat -> loops = Nat.div (sims + per - 1) per ->
  (forall (j : nat) r, (j < loops)%nat -> body j r = cs_fill per sims loops j (value j) (fun t => t) r) ->
  exists r, cs_loops body loops 0 (fun _ _ => Fin 0) = Ok r /\ forall t n : nat, (n < sims)%nat -> r t n = value (Nat.div n per) t (Nat.modulo n per).
Proof.
  intros P -> B. set (loops := Nat.div (sims + per - 1) per) in *.
  assert (LB : (loops * per < sims + per)%nat /\ (sims <= loops * per)%nat).
  { pose proof (Nat.div_mod (sims + per - 1) per ltac:(lia)) as D. fold loops in D. pose proof (Nat.mod_upper_bound (sims + per - 1) per ltac:(lia)). rewrite (Nat.mul_comm per loops) in D. lia. }
  assert (G : forall (todo j : nat) r, (j + todo = loops)%nat -> (forall t n : nat, (n < sims)%nat -> (n < j * per)%nat -> r t n = value (Nat.div n per) t (Nat.modulo n per)) ->
    exists r', cs_loops body todo j r = Ok r' /\ forall t n : nat, (n < sims)%nat -> r' t n = value (Nat.div n per) t (Nat.modulo n per)).
  { induction todo; intros j r E H; cbn [cs_loops].
    - exists r. split; [reflexivity | ]. intros t n L. apply H; [exact L | ]. replace j with loops by lia. lia.
    - rewrite (B j r ltac:(lia)). unfold cs_fill.
      assert (Gd : Nat.leb loops (S j) || Nat.eqb (Nat.min ((j + 1) * per) sims - j * per) per = true).
      { apply orb_true_iff. destruct (le_lt_dec loops (S j)); [left; apply Nat.leb_le; lia | right]. apply Nat.eqb_eq. assert (((j + 1) * per <= (loops - 1) * per)%nat) by (apply Nat.mul_le_mono_r; lia).
        assert (((loops - 1) * per < sims)%nat) by nia. rewrite Nat.min_l by lia. nia. }
      rewrite Gd. cbn [guard bind]. apply IHtodo; [lia | ]. intros t n L M.
      destruct (Nat.leb (j * per) n && Nat.ltb n (Nat.min ((j + 1) * per) sims)) eqn:Q.
      + apply andb_true_iff in Q. destruct Q as [Q1 Q2]. apply Nat.leb_le in Q1. apply Nat.ltb_lt in Q2.
        replace (Nat.div n per) with j. 2: { apply (Nat.div_unique n per j (n - j * per)); nia. }
        replace (Nat.modulo n per) with (n - j * per)%nat. 2: { apply (Nat.mod_unique n per j (n - j * per)); nia. } reflexivity.
      + apply H; [exact L | ]. apply andb_false_iff in Q. destruct Q as [Q | Q]; [apply Nat.leb_gt in Q; lia | apply Nat.ltb_ge in Q]. nia. }
  apply (G loops O); [lia | ]. intros t n _ Q. lia.
Qed.
