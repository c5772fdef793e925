From Coq Require Import ZArith Reals List Bool Lia Lra Arith.
From Verif Require Import Base NormalModel MonteModel MonteSpec MonteProofs.
Import ListNotations.
Open Scope R_scope.

Lemma grid_point (i seg : nat) : (1 <= seg)%nat -> INR i * (1 / INR seg) = INR i / INR seg.
Proof. intros S. assert (0 < INR seg) by (apply lt_0_INR; lia). field. lra. Qed.
Lemma grid_values (curve : R -> result R) (seg steps : nat) : (1 <= seg)%nat ->
  (forall i : nat, (i <= steps)%nat -> exists F : R, curve (INR i / INR seg) = Ok F) ->
  exists fwd, sequence (map (fun i => curve (INR i * (1 / INR seg))) (seq 0 (S steps))) = Ok fwd
    /\ forall i : nat, (i <= steps)%nat -> exists F : R, nth_error fwd i = Some F /\ curve (INR i / INR seg) = Ok F.
Proof.
  intros S H.
  assert (G : forall (l : list nat), (forall i : nat, In i l -> (i <= steps)%nat) -> exists fwd, map (fun i => curve (INR i * (1 / INR seg))) l = map Ok fwd).
  { induction l as [ | a l IH]; intros Q; [exists []; reflexivity | ]. destruct IH as [f F]; [intros; apply Q; right; assumption | ].
    destruct (H a (Q a (or_introl eq_refl))) as [v V]. exists (v :: f). cbn [map]. rewrite F. f_equal. rewrite grid_point by exact S. exact V. }
  destruct (G (seq 0 (Datatypes.S steps))) as [fwd F]. { intros i I. apply in_seq in I. lia. }
  exists fwd. split; [apply sequence_ok; exact F | ]. intros i I.
  assert (N : nth_error (map Ok fwd) i = Some (curve (INR i * (1 / INR seg)))).
  { rewrite <- F. rewrite nth_error_map. rewrite (nth_error_nth' _ 0%nat) by (rewrite seq_length; lia). rewrite seq_nth by lia. reflexivity. }
  rewrite nth_error_map in N. destruct (nth_error fwd i) as [v | ]; [ | discriminate]. exists v. split; [reflexivity | ]. injection N as N. rewrite <- grid_point by exact S. symmetry. exact N.
Qed.
Lemma grid_values_rev (curve : R -> result R) (seg steps : nat) fwd : (1 <= seg)%nat ->
  sequence (map (fun i => curve (INR i * (1 / INR seg))) (seq 0 (S steps))) = Ok fwd ->
  forall i : nat, (i <= steps)%nat -> exists F : R, curve (INR i / INR seg) = Ok F.
Proof.
  intros S H i I. apply sequence_ok in H.
  assert (N : nth_error (map Ok fwd) i = Some (curve (INR i * (1 / INR seg)))).
  { rewrite <- H. rewrite nth_error_map. rewrite (nth_error_nth' _ 0%nat) by (rewrite seq_length; lia). rewrite seq_nth by lia. reflexivity. }
  rewrite nth_error_map in N. destruct (nth_error fwd i) as [v | ]; [ | discriminate]. exists v. injection N as N. rewrite <- grid_point by exact S. symmetry. exact N.
Qed.

Lemma loop_count (sims per : nat) : (1 <= per)%nat -> (1 <= sims)%nat -> forall b : Z, (Z.of_nat (Nat.div (sims + per - 1) per) <= b)%Z <-> (Z.of_nat sims <= b * Z.of_nat per)%Z.
Proof.
  intros P Q b. rewrite Nat2Z.inj_div. replace (Z.of_nat (sims + per - 1)) with (Z.of_nat sims + Z.of_nat per - 1)%Z by lia.
  set (s := Z.of_nat sims). set (p := Z.of_nat per). assert (1 <= p)%Z by lia.
  pose proof (Z.div_mod (s + p - 1) p ltac:(lia)) as D. pose proof (Z.mod_pos_bound (s + p - 1) p ltac:(lia)) as M. set (q := ((s + p - 1) / p)%Z) in *. set (r := ((s + p - 1) mod p)%Z) in *.
  split; intros L; nia.
Qed.
Lemma loops_ok (body : nat -> (nat -> nat -> num) -> result (nat -> nat -> num)) (todo j : nat) r r' : cs_loops body todo j r = Ok r' ->
  forall i : nat, (j <= i < j + todo)%nat -> exists a b, body i a = Ok b.
Proof.
  revert j r. induction todo; intros j r H i I; [lia | ]. cbn [cs_loops] in H. destruct (body j r) as [b | e] eqn:B; [ | discriminate]. cbn [bind] in H.
  destruct (Nat.eq_dec i j) as [-> | N]; [eauto | ]. apply (IHtodo (S j) b H). lia.
Qed.

Lemma cs_run (normal : normals) (curve : R -> result R) (sims seg T per : nat) (alpha sigma : R) (F : nat -> R) :
  simulable curve sims seg T -> chunk sims (T * seg) per -> curve_on curve F seg (T * seg) ->
  exists x, cs_simulate normal curve sims seg T alpha sigma = Ok x /\ nr x = S T /\ nc x = sims
    /\ forall t n : nat, (t <= T)%nat -> (n < sims)%nat ->
       let z := normal (Z.of_nat (Nat.div n per)) ((T * seg)%nat, 1%nat, per) in
       me x t n = Fin (F (t * seg)%nat * exp (cs_deviation (1 / INR seg) alpha sigma (fun m => z m 0%nat (Nat.modulo n per)) (t * seg))).
Proof.
  intros (A & B & C & D & E & G) Ch Cu. unfold cs_simulate.
  assert (S0 : Nat.eqb seg 0 = false) by (apply Nat.eqb_neq; lia). rewrite S0. cbn [negb guard bind].
  destruct (grid_values curve seg (T * seg) A E) as (fwd & Sq & Nf). rewrite Sq. cbn [bind].
  assert (ST : (1 <= T * seg)%nat) by nia.
  assert (S1 : Nat.eqb (T * seg) 0 = false) by (apply Nat.eqb_neq; lia). rewrite S1. cbn [negb guard bind].
  unfold max_simulations. pose proof (chunk_iff sims (T * seg) ltac:(lia) ltac:(lia) D) as Ch'. set (q := Z.to_nat (Z.min (Z.of_nat sims) (100000000 / Z.of_nat (T * seg)))) in *.
  rewrite (chunk_unique _ _ _ _ Ch' Ch). clear q Ch'. pose proof Ch as (P1 & P2 & P3).
  assert (S2 : Nat.eqb per 0 = false) by (apply Nat.eqb_neq; lia). rewrite S2. cbn [negb guard bind].
  set (lnf := fun i => match nth_error fwd i with Some x => nlog (Fin x) | None => NaN end).
  set (loops := Nat.div (sims + per - 1) per).
  pose (zs := fun j : nat => normal (Z.of_nat j) ((T * seg)%nat, 1%nat, per)).
  pose (value := fun j t c : nat => nexp (cs_path (1 / INR seg) alpha sigma lnf (fun i => zs j i 0%nat c) (t * seg))).
  match goal with |- context [cs_loops ?b loops 0 _] => set (body := b) end.
  destruct (loops_fill sims per loops value body) as (r & R & V); [lia | reflexivity | | ].
  - intros j r L. unfold body. assert (J : (Z.of_nat j < 4294967296)%Z).
    { specialize (G per Ch). apply loop_count in G; [ | lia | lia]. fold loops in G. lia. }
    rewrite generate_ok. 2: { unfold drawable. repeat split; try lia; intros Q; discriminate. }
    cbn [bind]. unfold draws. cbv iota. rewrite !Nat2Z.id. change (Z.to_nat 1) with 1%nat. reflexivity.
  - rewrite R. cbn [bind]. eexists. split; [reflexivity | ]. cbn [nr nc me]. split; [reflexivity | ]. split; [reflexivity | ].
    intros t n Lt Ln. cbv zeta. rewrite V by exact Ln. unfold value.
    assert (TS : (t * seg <= T * seg)%nat) by (apply Nat.mul_le_mono_r; lia).
    rewrite (cs_closed seg alpha sigma lnf (fun i => ln (F i)) _ (T * seg)); [ | lia | | exact TS].
    + cbn [nexp]. f_equal. rewrite exp_plus, exp_ln by (apply (Cu _ TS)). reflexivity.
    + intros i I. unfold lnf. destruct (Nf i I) as (v & N & K). rewrite N. destruct (Cu i I) as [K' Pos]. rewrite K in K'. injection K' as ->. unfold nlog. destruct (Rlt_dec 0 (F i)); [reflexivity | contradiction].
Qed.
Lemma cs_needs (normal : normals) (curve : R -> result R) (sims seg T : nat) (alpha sigma : R) x : cs_simulate normal curve sims seg T alpha sigma = Ok x -> simulable curve sims seg T.
Proof.
  unfold cs_simulate, max_simulations. intros H.
  destruct (Nat.eqb seg 0) eqn:S0; [discriminate | ]. apply Nat.eqb_neq in S0. cbn [negb guard bind] in H.
  destruct (sequence (map _ (seq 0 (S (T * seg))))) as [fwd | e] eqn:Sq; [ | discriminate]. cbn [bind] in H.
  destruct (Nat.eqb (T * seg) 0) eqn:S1; [discriminate | ]. apply Nat.eqb_neq in S1. cbn [negb guard bind] in H.
  set (per := Z.to_nat (Z.min (Z.of_nat sims) (100000000 / Z.of_nat (T * seg)))) in *.
  destruct (Nat.eqb per 0) eqn:S2; [discriminate | ]. apply Nat.eqb_neq in S2. cbn [negb guard bind] in H.
  set (loops := Nat.div (sims + per - 1) per) in *.
  match type of H with context [cs_loops ?b loops 0 ?z] => set (body := b) in *; destruct (cs_loops body loops 0 z) as [r | e] eqn:Lp; [ | discriminate] end.
  pose proof (loops_ok _ _ _ _ _ Lp) as Each.
  assert (PZ : (1 <= Z.min (Z.of_nat sims) (100000000 / Z.of_nat (T * seg)))%Z) by lia.
  assert (D : (Z.of_nat (T * seg) <= 100000000)%Z).
  { destruct (Z_le_gt_dec (Z.of_nat (T * seg)) 100000000) as [L | L]; [exact L | ]. rewrite Z.div_small in PZ by lia. lia. }
  assert (T1 : (1 <= T)%nat) by (destruct T; lia).
  unfold simulable. split; [lia | ]. split; [exact T1 | ]. split; [lia | ]. split; [exact D | ]. split; [apply (grid_values_rev curve seg (T * seg) fwd); [lia | exact Sq] | ].
  intros p Cp. rewrite (chunk_unique _ _ _ _ Cp (chunk_iff sims (T * seg) ltac:(lia) ltac:(lia) D)). fold per.
  apply (loop_count sims per ltac:(lia) ltac:(lia)). fold loops. destruct (Z_le_gt_dec (Z.of_nat loops) 4294967296) as [L | L]; [exact L | exfalso].
  destruct (Each (loops - 1)%nat) as (a & b & Q); [lia | ]. unfold body in Q.
  rewrite generate_rejects in Q. 2: { unfold drawable. intros (W & _). lia. } discriminate.
Qed.
Lemma cs_iff (normal : normals) (curve : R -> result R) (sims seg T : nat) (alpha sigma : R) :
  (exists x, cs_simulate normal curve sims seg T alpha sigma = Ok x) <-> simulable curve sims seg T.
Proof.
  split; [intros [x X]; apply (cs_needs _ _ _ _ _ _ _ _ X) | ].
  intros S. pose proof S as (A & B & C & D & E & G). unfold cs_simulate.
  assert (S0 : Nat.eqb seg 0 = false) by (apply Nat.eqb_neq; lia). rewrite S0. cbn [negb guard bind].
  destruct (grid_values curve seg (T * seg) A E) as (fwd & Sq & Nf). rewrite Sq. cbn [bind].
  assert (ST : (1 <= T * seg)%nat) by nia.
  assert (S1 : Nat.eqb (T * seg) 0 = false) by (apply Nat.eqb_neq; lia). rewrite S1. cbn [negb guard bind].
  unfold max_simulations. pose proof (chunk_iff sims (T * seg) ltac:(lia) ltac:(lia) D) as Ch. set (per := Z.to_nat (Z.min (Z.of_nat sims) (100000000 / Z.of_nat (T * seg)))) in *.
  pose proof Ch as (P1 & P2 & P3).
  assert (S2 : Nat.eqb per 0 = false) by (apply Nat.eqb_neq; lia). rewrite S2. cbn [negb guard bind].
  set (lnf := fun i => match nth_error fwd i with Some x => nlog (Fin x) | None => NaN end).
  set (loops := Nat.div (sims + per - 1) per).
  pose (zs := fun j : nat => normal (Z.of_nat j) ((T * seg)%nat, 1%nat, per)).
  pose (value := fun j t c : nat => nexp (cs_path (1 / INR seg) alpha sigma lnf (fun i => zs j i 0%nat c) (t * seg))).
  match goal with |- context [cs_loops ?b loops 0 _] => set (body := b) end.
  destruct (loops_fill sims per loops value body) as (r & R & V); [lia | reflexivity | | rewrite R; eexists; reflexivity].
  intros j r L. unfold body. assert (J : (Z.of_nat j < 4294967296)%Z).
  { specialize (G per Ch). apply loop_count in G; [ | lia | lia]. fold loops in G. lia. }
  rewrite generate_ok. 2: { unfold drawable. repeat split; try lia; intros Q; discriminate. }
  cbn [bind]. unfold draws. cbv iota. rewrite !Nat2Z.id. change (Z.to_nat 1) with 1%nat. reflexivity.
Qed.

Lemma deviation_zero (dt alpha : R) (z : nat -> R) (i : nat) : cs_deviation dt alpha 0 z i = 0.
Proof. unfold cs_deviation. apply total_zero. intros m _. lra. Qed.
