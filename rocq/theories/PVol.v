From Coq Require Import ZArith Reals List Bool Sorted Lra Lia.
From Verif Require Import Base Date DayCountModel CurveSpec BootSpec NormalModel BlackSpec VolModel VolSpec VolProofs VolDailyProofs.
Import ListNotations.
Open Scope R_scope.

(* C56 forward volatility *)
Theorem C56_total_variance (t1 v1 t2 v2 : arr) (n : nat) : shape t1 v1 t2 v2 n -> (0 < n)%nat ->
  (forall i x a y b, (i < n)%nat -> elem t1 v1 t2 v2 i x a y b -> x < y) ->
  ((exists i x a y b, (i < n)%nat /\ elem t1 v1 t2 v2 i x a y b /\ tv b y < tv a x) -> forward_volatility t1 v1 t2 v2 = Err ValueError)
  /\ ((forall i x a y b, (i < n)%nat -> elem t1 v1 t2 v2 i x a y b -> tv a x <= tv b y) ->
      exists vols, forward_volatility t1 v1 t2 v2 = Ok vols /\ length vols = n /\
      forall i x a y b, (i < n)%nat -> elem t1 v1 t2 v2 i x a y b -> exists f, nth_error vols i = Some (Fin f) /\ carries x a y b f).
Proof. exact (fv_ordered t1 v1 t2 v2 n). Qed.
Theorem C56_disordered_times (t1 v1 t2 v2 : arr) (n : nat) : shape t1 v1 t2 v2 n -> (0 < n)%nat ->
  (forall i x a y b, (i < n)%nat -> elem t1 v1 t2 v2 i x a y b -> x <> y) -> (exists i x a y b, (i < n)%nat /\ elem t1 v1 t2 v2 i x a y b /\ y < x) ->
  forward_volatility t1 v1 t2 v2 = Err ValueError.
Proof. exact (fv_disordered t1 v1 t2 v2 n). Qed.
(* equal times: scalars cannot be reported in the warning, arrays lose the check on the order of the other times and need not give NaN *)
Theorem C56_equal_times (t1 v1 t2 v2 : arr) (n : nat) : shape t1 v1 t2 v2 n -> (0 < n)%nat ->
  (exists i x a y b, (i < n)%nat /\ elem t1 v1 t2 v2 i x a y b /\ x = y) ->
  ((exists x : R, t1 = Sc x) -> forward_volatility t1 v1 t2 v2 = Err TypeError)
  /\ (forall l1 l2 : list R, t1 = Ar l1 -> t2 = Ar l2 -> length l1 <> length l2 -> forward_volatility t1 v1 t2 v2 = Err IndexError)
  /\ (forall l1 l2 : list R, t1 = Ar l1 -> t2 = Ar l2 -> length l1 = length l2 ->
       ((exists i x a y b, (i < n)%nat /\ elem t1 v1 t2 v2 i x a y b /\ inconsistent x a y b) -> forward_volatility t1 v1 t2 v2 = Err ValueError)
       /\ ((forall i x a y b, (i < n)%nat -> elem t1 v1 t2 v2 i x a y b -> ~ inconsistent x a y b) ->
         exists vols, forward_volatility t1 v1 t2 v2 = Ok vols /\ length vols = n /\
         forall i x a y b, (i < n)%nat -> elem t1 v1 t2 v2 i x a y b ->
           (x <> y -> exists f, nth_error vols i = Some (Fin f) /\ carries x a y b f)
           /\ (x = y -> tv a x < tv b y -> nth_error vols i = Some PInf) /\ (x = y -> tv a x = tv b y -> nth_error vols i = Some NaN))).
Proof. exact (fv_equal t1 v1 t2 v2 n). Qed.
Local Lemma broadcast_some (l : list nat) (m : nat) : broadcast l = Some m -> Forall (fun k => k = 1%nat \/ k = m) l /\ (m = 1%nat \/ In m l).
Proof.
  revert m. induction l as [|k l IH]; cbn; intros m; [intros H; injection H as <-; auto|]. destruct (broadcast l) as [j|]; [|discriminate]. destruct (IH j eq_refl) as [F I].
  destruct (Nat.eqb_spec k 1) as [->|K]; [intros H; injection H as <-; split; [constructor; auto|tauto]|].
  destruct (Nat.eqb_spec j 1) as [->|J]; [intros H; injection H as <-; split; [constructor; auto; eapply Forall_impl; [|exact F]; cbn; intros; lia|tauto]|].
  destruct (Nat.eqb_spec k j) as [->|]; [|discriminate]. intros H; injection H as <-. split; [constructor; auto|tauto].
Qed.
Local Lemma broadcast_ones (l : list nat) (k : nat) : broadcast (k :: l) = Some 1%nat -> In 1%nat (k :: l).
Proof. intros H. apply broadcast_some in H as [F _]. inversion F as [|? ? [E|E] _]; subst; left; reflexivity. Qed.
(* arrays of lengths that do not broadcast *)
Theorem C56_wrong_shapes (t1 v1 t2 v2 : arr) :
  (length (vals t1) <> 1%nat -> length (vals t2) <> 1%nat -> length (vals t1) <> length (vals t2) -> forward_volatility t1 v1 t2 v2 = Err ValueError)
  /\ (forall m : nat, fits [length (vals t1); length (vals t2)] m -> (forall i x y, used (vals t1) i x -> used (vals t2) i y -> x < y) -> (forall n : nat, ~ shape t1 v1 t2 v2 n) ->
      forward_volatility t1 v1 t2 v2 = Err ValueError).
Proof.
  split.
  - intros A B C. unfold forward_volatility. destruct (broadcast [length (vals t1); length (vals t2)]) as [m|] eqn:E; [|reflexivity]. exfalso.
    apply broadcast_some in E as [F _]. inversion F as [|? ? F1 F']; subst. inversion F' as [|? ? F2 _]; subst. lia.
  - intros m FT O NS. unfold forward_volatility. destruct (broadcast [length (vals t1); length (vals t2)]) as [k|] eqn:E; [|reflexivity].
    fold (taus t1 t2 k). assert (K : fits [length (vals t1); length (vals t2)] k).
    { pose proof E as E'. apply broadcast_some in E as [F [->|I]]; split; auto. apply broadcast_ones in E'. exact E'. }
    assert (P : forall d, In d (taus t1 t2 k) -> 0 < d). { intros d I. apply (taus_in t1 t2 k d K) in I as (i & x & y & _ & X & Y & ->). specialize (O i x y X Y). lra. }
    assert (Z : existsb (fun x => if Req_EM_T x 0 then true else false) (taus t1 t2 k) = false).
    { apply not_true_is_false. rewrite existsb_exists. intros (d & I & D). specialize (P d I). destruct (Req_EM_T d 0); [lra|discriminate]. }
    rewrite Z. destruct (guard _ _) as [u|e] eqn:G; cbn [bind]; [|unfold guard in G; destruct (negb _); congruence].
    destruct (broadcast [length (vals t1); length (vals v1); length (vals t2); length (vals v2)]) as [n|] eqn:N; [|reflexivity]. exfalso. apply (NS n).
    pose proof N as N'. apply broadcast_some in N as [F [->|I]]; split; auto. apply broadcast_ones in N'. exact N'.
Qed.
Theorem C56_composes (x a y b z c f g : R) : x < y -> y < z ->
  forward_volatility (Sc x) (Sc a) (Sc y) (Sc b) = Ok [Fin f] -> forward_volatility (Sc y) (Sc b) (Sc z) (Sc c) = Ok [Fin g] ->
  exists h, forward_volatility (Sc x) (Sc a) (Sc z) (Sc c) = Ok [Fin h] /\ 0 <= h /\ h ^ 2 * (z - x) = f ^ 2 * (y - x) + g ^ 2 * (z - y).
Proof. exact (fv_compose x a y b z c f g). Qed.

(* C57 flat forward interpolation *)
Theorem C57_linear_total_variance (rows : list ff_row) : (forall r : ff_row, In r rows -> usable r) ->
  exists vols, flat_forward_interp (FfRows rows) = Ok vols /\ length vols = length rows /\
  forall (i : nat) (r : ff_row), nth_error rows i = Some r -> exists l, nth_error vols i = Some l /\ length l = length (f_vols r) /\
  forall (j : nat) (a b w : R), nth_error (f_vols r) j = Some (a, b) -> line (f_t1 r) a (f_t2 r) b (f_t r) w -> exists v, nth_error l j = Some v /\ vol_of w (f_t r) v.
Proof.
  intros U. eexists. split; [exact (proj1 (ff_cases rows) U) | ]. split; [apply map_length | ]. intros i r N. eexists. split; [apply (map_nth_error _ i rows N) | ]. split; [apply map_length | ].
  intros j a b w NJ L. eexists. split; [apply (map_nth_error _ j _ NJ) | ]. apply ff_elem_spec; auto; [apply U; eapply nth_error_In; eauto | eapply nth_error_In; eauto].
Qed.
Theorem C57_hits_the_pillars (rows : list ff_row) (vols : list (list num)) : flat_forward_interp (FfRows rows) = Ok vols ->
  forall (i : nat) (r : ff_row) (l : list num), nth_error rows i = Some r -> nth_error vols i = Some l -> 0 < f_t r ->
  forall (j : nat) (a b : R), nth_error (f_vols r) j = Some (a, b) -> 0 <= a -> 0 <= b ->
  (f_t r = f_t1 r -> nth_error l j = Some (Fin a)) /\ (f_t1 r < f_t2 r -> f_t r = f_t2 r -> nth_error l j = Some (Fin b)).
Proof.
  intros E i r l N V T j a b NJ A B.
  assert (U : forall x : ff_row, In x rows -> usable x).
  { intros x I. apply Classical_Prop.NNPP. intros Q. rewrite (proj2 (ff_cases rows)) in E; [discriminate | exists x; auto]. }
  rewrite (proj1 (ff_cases rows) U) in E. injection E as <-. rewrite (map_nth_error _ i rows N) in V. injection V as <-. rewrite (map_nth_error _ j _ NJ).
  destruct (ff_at_pillars r (a, b) (U r (nth_error_In _ _ N)) (nth_error_In _ _ NJ) T A B) as [P Q]. split; intros; f_equal; auto.
Qed.
Theorem C57_refused (rows : list ff_row) (t1 v1 t2 v2 t : R) :
  ((exists r : ff_row, In r rows /\ ~ usable r) -> flat_forward_interp (FfRows rows) = Err ValueError) /\ flat_forward_interp (FfFloats t1 v1 t2 v2 t) = Err AttributeError.
Proof. split; [exact (proj2 (ff_cases rows)) | reflexivity]. Qed.

(* C95 the daily volatilities of an FX surface *)
Theorem C95_daily_surface (c : date) (b : basis) (w : nat) (p : vol_pillar) (r : list vol_pillar) : strict_basis b -> good_pillars w (p :: r) -> (c <= v_expiry p)%Z -> variance_rises c b (p :: r) ->
  exists rows, daily_vols c b (p :: r) = Ok rows /\ length rows = Z.to_nat (v_expiry (last r p) - v_expiry p + 1) /\
  forall (i : nat) (d : date) (t : R) (vols : list num), nth_error rows i = Some (d, t, vols) ->
    d = (v_expiry p + Z.of_nat i)%Z /\ year_fraction b c d t /\ length vols = w
    /\ (forall q : vol_pillar, In q (p :: r) -> v_expiry q = d -> (c < d)%Z -> vols = map Fin (v_vols q))
    /\ (forall (q s : vol_pillar) (j : nat) (x y tq ts : R), consecutive q s (p :: r) -> (v_expiry q < d < v_expiry s)%Z -> nth_error (v_vols q) j = Some x -> nth_error (v_vols s) j = Some y ->
        year_fraction b c (v_expiry q) tq -> year_fraction b c (v_expiry s) ts -> tq < ts /\
        exists v, nth_error vols j = Some (Fin v) /\ 0 <= v /\ line tq x ts y t (tv v t))
    /\ (d = c -> forall v : num, In v vols -> v = NaN).
Proof. exact (daily_surface c b w p r). Qed.
Theorem C95_refused (c : date) (b : basis) (w : nat) (p : vol_pillar) (r : list vol_pillar) : strict_basis b -> good_pillars w (p :: r) -> (c <= v_expiry p)%Z -> ~ variance_rises c b (p :: r) ->
  daily_vols c b (p :: r) = Err ValueError.
Proof. exact (daily_refused c b w p r). Qed.
Theorem C95_unsorted_refused (c : date) (b : basis) (l : list vol_pillar) (p q : vol_pillar) : strict_basis b -> (forall x : vol_pillar, In x l -> (c <= v_expiry x)%Z) ->
  consecutive p q l -> (v_expiry q < v_expiry p)%Z -> daily_vols c b l = Err ValueError.
Proof. exact (daily_unsorted c b l p q). Qed.

Definition all_theorems := (C56_total_variance, C56_disordered_times, C56_equal_times, C56_wrong_shapes, C56_composes, C57_linear_total_variance, C57_hits_the_pillars, C57_refused,
  C95_daily_surface, C95_refused, C95_unsorted_refused).
Print Assumptions all_theorems.

(* ---- cases meeting the hypotheses ---- *)
Lemma scalar_shape (x a y b : R) : shape (Sc x) (Sc a) (Sc y) (Sc b) 1.
Proof. split; [repeat constructor | left; reflexivity]. Qed.
Example C56_ex : exists f, forward_volatility (Sc 1) (Sc (1/5)) (Sc 2) (Sc (1/4)) = Ok [Fin f] /\ carries 1 (1/5) 2 (1/4) f.
Proof. apply fv_scalar; unfold tv; lra. Qed.
Example C56_ex_array : forward_volatility (Ar [1; 1]) (Sc (1/5)) (Ar [2; 3]) (Ar [1/4; 1/10]) = Err ValueError.
Proof.
  assert (S : shape (Ar [1; 1]) (Sc (1/5)) (Ar [2; 3]) (Ar [1/4; 1/10]) 2) by (split; [repeat constructor | left; reflexivity]).
  refine (proj1 (C56_total_variance _ _ _ _ 2 S _ _) _); [lia | | ].
  - intros i x a y b L (X & _ & Y & _). apply BlackVecProofs.used_at in X, Y. destruct i as [ | [ | i]]; cbn in *; lra || lia.
  - exists 1%nat, 1, (1/5), 3, (1/10). split; [lia | ]. split; [ | unfold tv; lra]. repeat split; try (left; reflexivity). right. reflexivity.
Qed.
Example C56_ex_equal : forward_volatility (Sc 1) (Sc (1/5)) (Sc 1) (Sc (1/5)) = Err TypeError.
Proof.
  apply (C56_equal_times (Sc 1) (Sc (1/5)) (Sc 1) (Sc (1/5)) 1); [apply scalar_shape | lia | | exists 1; auto].
  exists 0%nat, 1, (1/5), 1, (1/5). split; [lia | ]. split; auto. repeat split; right; reflexivity.
Qed.
(* with one pair of equal times, another pair in the wrong order is not refused: the result of the first is infinite, the second has a forward volatility *)
Example C56_ex_unchecked : exists vols f, forward_volatility (Ar [1; 2]) (Ar [1/5; 1/5]) (Ar [1; 1]) (Ar [1/4; 1/10]) = Ok vols /\ nth_error vols 0 = Some PInf /\ nth_error vols 1 = Some (Fin f).
Proof.
  assert (S : shape (Ar [1; 2]) (Ar [1/5; 1/5]) (Ar [1; 1]) (Ar [1/4; 1/10]) 2) by (split; [repeat constructor | left; reflexivity]).
  assert (E0 : elem (Ar [1; 2]) (Ar [1/5; 1/5]) (Ar [1; 1]) (Ar [1/4; 1/10]) 0 1 (1/5) 1 (1/4)) by (repeat split; left; reflexivity).
  assert (E1 : elem (Ar [1; 2]) (Ar [1/5; 1/5]) (Ar [1; 1]) (Ar [1/4; 1/10]) 1 2 (1/5) 1 (1/10)) by (repeat split; left; reflexivity).
  destruct (C56_equal_times _ _ _ _ 2 S ltac:(lia)) as (_ & _ & H). { exists 0%nat, 1, (1/5), 1, (1/4). split; [lia | auto]. }
  destruct (H [1; 2] [1; 1] eq_refl eq_refl eq_refl) as [_ G]. destruct G as (vols & E & _ & V).
  { intros i x a y b L (X & A & Y & B). apply BlackVecProofs.used_at in X, A, Y, B. cbn in *. unfold inconsistent, tv. destruct i as [ | [ | i]]; cbn in *; [subst; lra | subst; lra | lia]. }
  destruct (V 0%nat 1 (1/5) 1 (1/4) ltac:(lia) E0) as (_ & P & _). destruct (V 1%nat 2 (1/5) 1 (1/10) ltac:(lia) E1) as (Q & _).
  destruct Q as (f & F & _); [lra | ]. exists vols, f. split; auto. split; auto. apply P; auto. unfold tv. lra.
Qed.
Definition ex_row (t : R) : ff_row := mk_ff 1 2 t [(1/5, 1/4)].
Example C57_ex (t : R) : usable (ex_row t).
Proof. split; cbn; [lra | ]. intros _ p [<- | []]. unfold tv. cbn. lra. Qed.
Example C57_ex_mid : exists v, flat_forward_interp (FfRows [ex_row (3/2)]) = Ok [[Fin v]] /\ tv v (3/2) = (tv (1/5) 1 + tv (1/4) 2) / 2.
Proof.
  destruct (C57_linear_total_variance [ex_row (3/2)]) as (vols & E & L & H). { intros r [<- | []]. apply C57_ex. }
  destruct (H 0%nat (ex_row (3/2)) eq_refl) as (l & N & LL & V). destruct (V 0%nat (1/5) (1/4) ((tv (1/5) 1 + tv (1/4) 2) / 2) eq_refl) as (v & NV & W & _).
  { split; cbn; unfold tv; lra. }
  destruct W as (x & -> & _ & X). { cbn. unfold tv. lra. } exists x. split; [ | exact X]. rewrite E. destruct vols as [ | l' [ | ? ?]]; try discriminate. injection N as ->.
  cbn in LL. destruct l as [ | y [ | ? ?]]; try discriminate. injection NV as ->. reflexivity.
Qed.
Definition ex_pillars : list vol_pillar := [mk_pillar 110 [1/10; 1/5]; mk_pillar 120 [1/10; 1/4]; mk_pillar 121 [1/100; 1/4]].
Lemma ex_good : good_pillars 2 ex_pillars.
Proof. split; [repeat constructor; cbn; lia | ]. intros p [<- | [<- | [<- | []]]]; cbn; (split; [reflexivity | ]); intros x [<- | [<- | []]]; lra. Qed.
Lemma ex_rises : variance_rises 100 ACT_365 ex_pillars.
Proof.
  assert (Y : forall (d : date) (t : R), (100 <= d)%Z -> year_fraction ACT_365 100 d t -> t = IZR (d - 100) / 365).
  { intros d t L (q & E & ->). destruct (CurveProofs.act_days_per_year ACT_365 365 100 d ltac:(auto) eq_refl L) as [(q' & E' & ->) _]. rewrite E in E'. injection E' as <-. reflexivity. }
  intros p q tp tq x y (l1 & l2 & E) G F1 F2 I. unfold ex_pillars in E.
  destruct l1 as [ | a l1]; cbn in E; [ | destruct l1 as [ | a' l1]; cbn in E]; [ | | destruct l1; [discriminate | destruct l1; discriminate]].
  - injection E as <- <- <-. cbn in *. apply Y in F1; [ | lia]. apply Y in F2; [ | lia]. subst. destruct I as [I | [I | []]]; injection I as <- <-; unfold tv; cbn; lra.
  - injection E as <- <- <- <-. cbn in G. lia.
Qed.
(* the fall of total variance from day 120 to day 121 goes unnoticed, as no day lies between *)
Example C95_ex : exists rows, daily_vols 100 ACT_365 ex_pillars = Ok rows /\ length rows = 12%nat.
Proof. destruct (C95_daily_surface 100 ACT_365 2 _ _ ltac:(right; left; reflexivity) ex_good ltac:(cbn; lia) ex_rises) as (rows & E & L & _). exists rows. auto. Qed.
Example C56_ex_shapes : (forall v1 v2, forward_volatility (Ar [1; 2]) v1 (Ar [2; 3; 4]) v2 = Err ValueError) /\ forward_volatility (Ar [1; 2]) (Ar [1/5; 1/5; 1/5]) (Ar [3; 3]) (Sc (1/4)) = Err ValueError.
Proof.
  split; [intros v1 v2; apply C56_wrong_shapes; cbn; lia|]. refine (proj2 (C56_wrong_shapes (Ar [1; 2]) (Ar [1/5; 1/5; 1/5]) (Ar [3; 3]) (Sc (1/4))) 2%nat _ _ _).
  - split; cbn; [constructor; [auto|constructor; [auto|constructor]]|auto].
  - intros i x y [X|X] [Y|Y]; try discriminate; destruct i as [|[|i]]; try (destruct i; discriminate); injection X as <-; injection Y as <-; lra.
  - intros n [F _]. cbn in F. inversion F as [|? ? F1 F']; subst. inversion F' as [|? ? F2 _]; subst. lia.
Qed.
