From Coq Require Import ZArith Reals List Bool Lra Lia Sorted.
From Verif Require Import Base NormalModel NormalProofs BlackModel BlackSpec BlackProofs BlackVecProofs SabrModel SabrSpec SabrProofs OptionletModel OptionletSpec.
Import ListNotations.
Open Scope R_scope.

(* ---- construction ---- *)
Lemma init_fails {A} (date delay : option Z) (busday : Z -> result Z) (frames : Z -> result unit) :
  (exists e, @optionlet_init A date delay busday frames = Err e) /\
  (date = None -> delay = None -> @optionlet_init A date delay busday frames = Err ValueError) /\
  (forall s, (date = Some s \/ (date = None /\ exists n, delay = Some n /\ busday n = Ok s)) -> frames s = Ok tt -> @optionlet_init A date delay busday frames = Err AttributeError).
Proof.
  unfold optionlet_init. repeat split.
  - destruct date as [d|]; [|destruct delay as [n|]]; cbn [bind]; try (destruct (busday n)); cbn [bind]; try (eexists; reflexivity);
      destruct (frames _); cbn [bind]; eexists; reflexivity.
  - intros -> ->. reflexivity.
  - intros s [-> | [-> [n [-> E]]]] Fr; cbn [bind]; [|rewrite E; cbn [bind]]; rewrite Fr; reflexivity.
Qed.

(* ---- numbering ---- *)
Lemma first_index_some {A} (f : A -> bool) (l : list A) (i : nat) : first_index f l = Some i ->
  (exists x, nth_error l i = Some x /\ f x = true) /\ forall (j : nat) (y : A), (j < i)%nat -> nth_error l j = Some y -> f y = false.
Proof.
  revert i. induction l as [|x l IH]; intros i E; cbn in E; [discriminate|].
  destruct (f x) eqn:Fx.
  - injection E as <-. split; [exists x; auto|]. intros j y Hj. lia.
  - destruct (first_index f l) as [k|] eqn:Ek; [|discriminate]. cbn in E. injection E as <-.
    destruct (IH k eq_refl) as [H1 H2]. split; [exact H1|].
    intros [|j] y Hj Hy; cbn in Hy; [injection Hy as <-; exact Fx|]. apply (H2 j y); [lia|exact Hy].
Qed.
Lemma first_index_none {A} (f : A -> bool) (l : list A) : first_index f l = None -> forall (j : nat) (y : A), nth_error l j = Some y -> f y = false.
Proof.
  induction l as [|x l IH]; intros E j y Hy; [destruct j; discriminate|]. cbn in E.
  destruct (f x) eqn:Fx; [discriminate|]. destruct (first_index f l) eqn:Ek; [discriminate|].
  destruct j as [|j]; cbn in Hy; [injection Hy as <-; exact Fx|]. exact (IH eq_refl j y Hy).
Qed.

Lemma quote_nb_spec (terms : list Z) (e : Z) (q : nat) (T : Z) : ascending terms -> nth_error terms q = Some T -> (exists U, In U terms /\ (e <= U)%Z) ->
  ((quote_nb terms e <= q)%nat <-> (e <= T)%Z).
Proof.
  intros As HT [U [HU Le]]. unfold quote_nb. destruct (first_index _ terms) as [i|] eqn:E.
  - destruct (first_index_some _ _ _ E) as [[x [Hx Fx]] Hlt]. apply Z.leb_le in Fx. split; intros H.
    + specialize (As i q x T H Hx HT). lia.
    + destruct (Nat.le_gt_cases i q) as [L|L]; [exact L|]. specialize (Hlt q T L HT). apply Z.leb_gt in Hlt. lia.
  - apply In_nth_error in HU as [k Hk]. specialize (first_index_none _ _ E k U Hk). intros G. apply Z.leb_gt in G. lia.
Qed.
Lemma quote_nb_uncovered (terms : list Z) (e : Z) : (forall U, In U terms -> (U < e)%Z) -> quote_nb terms e = 0%nat.
Proof.
  intros H. unfold quote_nb. destruct (first_index _ terms) as [i|] eqn:E; [|reflexivity].
  destruct (first_index_some _ _ _ E) as [[x [Hx Fx]] _]. apply Z.leb_le in Fx. specialize (H x (nth_error_In _ _ Hx)). lia.
Qed.
Lemma quote_nb_lt (terms : list Z) (e : Z) : terms <> [] -> (quote_nb terms e < length terms)%nat.
Proof.
  intros N. unfold quote_nb. destruct (first_index _ terms) as [i|] eqn:E.
  - destruct (first_index_some _ _ _ E) as [[x [Hx _]] _]. apply nth_error_Some. rewrite Hx. discriminate.
  - destruct terms; [contradiction|cbn; lia].
Qed.

(* ---- sums ---- *)
Lemma sum_over_cons {A} (f : A -> R) (x : A) (l : list A) : sum_over f (x :: l) = f x + sum_over f l.
Proof. reflexivity. Qed.
Lemma rsum_over {A} (f : A -> R) (l : list A) : rsum (map f l) = sum_over f l.
Proof. induction l as [|x l IH]; cbn; [reflexivity|]. unfold rsum in IH. rewrite IH. reflexivity. Qed.
Lemma sum_over_ext {A} (f g : A -> R) (l : list A) : (forall x, In x l -> f x = g x) -> sum_over f l = sum_over g l.
Proof. induction l as [|x l IH]; intros H; [reflexivity|]. rewrite !sum_over_cons, (H x) by (left; reflexivity). f_equal. apply IH. intros y Hy. apply H. right. exact Hy. Qed.
Lemma sum_over_lin {A} (f g : A -> R) (k : R) (l : list A) : sum_over (fun x => f x - k * g x) l = sum_over f l - k * sum_over g l.
Proof. induction l as [|x l IH]; [cbn; ring|]. rewrite !sum_over_cons, IH. ring. Qed.
Lemma sum_over_pos {A} (f : A -> R) (l : list A) : l <> [] -> (forall x, In x l -> 0 < f x) -> 0 < sum_over f l.
Proof.
  intros N H. destruct l as [|x l]; [contradiction|]. clear N. revert x H. induction l as [|y l IH]; intros x H; cbn.
  - specialize (H x (or_introl eq_refl)). lra.
  - specialize (IH y (fun z Hz => H z (or_intror Hz))). cbn in IH. specialize (H x (or_introl eq_refl)). lra.
Qed.

(* ---- the forward of a quote ---- *)
Lemma forward_par (rows : list caplet) (T : Z) : annuity (covered rows T) <> 0 ->
  exists F, quote_forward rows T = Fin F /\ forall K, sum_over (fun c => c_ann c * (c_F c - K)) (covered rows T) = 0 <-> K = F.
Proof.
  intros A. unfold quote_forward. fold (covered rows T). rewrite !rsum_over. unfold annuity in A.
  rewrite (div_fin _ _ A). eexists. split; [reflexivity|]. intros K.
  rewrite (sum_over_ext _ (fun c => c_F c * c_ann c - K * c_ann c)) by (intros; ring).
  rewrite sum_over_lin. set (S := sum_over (fun c => c_F c * c_ann c) _) in *. set (W := sum_over c_ann _) in *.
  split; intros H; [apply Rmult_eq_reg_r with W; [|exact A]; unfold Rdiv; rewrite Rmult_assoc, Rinv_l by exact A; lra | subst K; field; exact A].
Qed.
Lemma forward_between (rows : list caplet) (T : Z) (lo hi F : R) : covered rows T <> [] -> (forall c, In c (covered rows T) -> 0 < c_ann c /\ lo <= c_F c <= hi) ->
  quote_forward rows T = Fin F -> lo <= F <= hi.
Proof.
  intros N H E.
  assert (P : 0 < annuity (covered rows T)) by (apply sum_over_pos; [exact N | intros c Hc; apply (H c Hc)]).
  destruct (forward_par rows T ltac:(lra)) as [F' [E' _]]. unfold quote_forward in E. fold (covered rows T) in E. rewrite !rsum_over in E.
  unfold annuity in P. rewrite div_fin in E by lra. injection E as <-.
  assert (L : forall l, (forall c, In c l -> 0 < c_ann c /\ lo <= c_F c <= hi) ->
     lo * sum_over c_ann l <= sum_over (fun c => c_F c * c_ann c) l <= hi * sum_over c_ann l).
  { induction l as [|c l IH]; intros Hl; [cbn; lra|]. rewrite !sum_over_cons. destruct (Hl c (or_introl eq_refl)) as [P1 [P2 P3]].
    destruct (IH (fun d Hd => Hl d (or_intror Hd))) as [I1 I2].
    assert (lo * c_ann c <= c_F c * c_ann c) by (apply Rmult_le_compat_r; lra).
    assert (c_F c * c_ann c <= hi * c_ann c) by (apply Rmult_le_compat_r; lra). split; nra. }
  destruct (L _ H) as [L1 L2]. set (W := sum_over c_ann (covered rows T)) in *.
  split; apply Rmult_le_reg_r with W; try exact P; unfold Rdiv; rewrite Rmult_assoc, Rinv_l by lra; lra.
Qed.
Lemma forward_empty (rows : list caplet) (T : Z) : covered rows T = [] -> quote_forward rows T = NaN.
Proof. intros E. unfold quote_forward. fold (covered rows T). rewrite E. cbn. unfold div. destruct (Req_EM_T 0 0) as [_|N]; [apply scale_0|contradiction]. Qed.

(* ---- strikes and types ---- *)
Lemma cp_of_offset (F o : R) : quote_cp (Fin F) (quote_strikes (Fin F) [o]) = [if Rlt_dec 0 o then 1 else -1].
Proof.
  unfold quote_cp, quote_strikes. cbn [map add sub neg is_pos]. destruct (Rlt_dec 0 (F + o + - F)), (Rlt_dec 0 o); try reflexivity; lra.
Qed.

(* ---- prices of caplets ---- *)
Lemma caplet_px_fin (shift : R) (c : caplet) (cp K vol p : R) : price76 (c_F c) (c_tau c) cp K vol shift (c_ann c) = Fin p -> 0 < c_F c + shift -> 0 < K + shift -> 0 <= c_tau c -> vol * sqrt (c_tau c) <> 0 ->
  caplet_px shift c cp (Fin K) (Fin vol) = Fin p.
Proof.
  intros E HF HK Ht Hv. rewrite price76_fin in E by assumption. injection E as <-.
  unfold caplet_px. cbn [add]. rewrite b76_elem_fin by assumption. cbn [mul]. f_equal. ring.
Qed.
Lemma nsum_forall2 {A} (f : A -> num) (l : list A) (ps : list R) : Forall2 (fun x p => f x = Fin p) l ps -> nsum (map f l) = Fin (sum_over (fun p => p) ps).
Proof. induction 1 as [|x p l ps E H IH]; cbn; [reflexivity|]. unfold nsum in IH. rewrite E, IH. reflexivity. Qed.

(* ---- selected rows ---- *)
Lemma labelled_snd {A} (l : list A) : map snd (labelled l) = l.
Proof. unfold labelled. generalize 0%nat. induction l as [|x l IH]; intros n; cbn; [reflexivity|]. now rewrite IH. Qed.
Lemma filter_map_comm {A B} (f : A -> B) (p : B -> bool) (l : list A) : map f (filter (fun x => p (f x)) l) = filter p (map f l).
Proof. induction l as [|x l IH]; cbn; [reflexivity|]. destruct (p (f x)); cbn; now rewrite IH. Qed.
Lemma select_snd (p : nat -> bool) (t : list entry) : map snd (select p t) = filter (fun e => p (e_nb e)) t.
Proof. unfold select. rewrite (filter_map_comm snd (fun e => p (e_nb e)) (labelled t)), labelled_snd. reflexivity. Qed.
Lemma select_rows (p : nat -> bool) (t : list entry) : map (fun e => e_row (snd e)) (select p t) = map e_row (filter (fun e => p (e_nb e)) t).
Proof. rewrite <- select_snd, map_map. reflexivity. Qed.
Lemma new_table_covered (terms : list Z) (rows : list caplet) (q : nat) (T : Z) : ascending terms -> nth_error terms q = Some T ->
  (forall c, In c rows -> exists U, In U terms /\ (c_end c <= U)%Z) ->
  map (fun e => e_row (snd e)) (select (fun n => Nat.leb n q) (new_table terms rows)) = covered rows T.
Proof.
  intros As HT Cv. rewrite select_rows. unfold new_table, covered. induction rows as [|c rows IH]; cbn; [reflexivity|].
  assert (E : Nat.leb (quote_nb terms (c_end c)) q = (c_end c <=? T)%Z).
  { apply eq_true_iff_eq. rewrite Nat.leb_le, Z.leb_le. apply quote_nb_spec; try assumption. apply Cv. left. reflexivity. }
  rewrite E. destruct (c_end c <=? T)%Z; cbn; rewrite IH by (intros d Hd; apply Cv; right; exact Hd); reflexivity.
Qed.

(* selected rows that are a prefix have labels below their number *)
Lemma select_nth (p : nat -> bool) (t : list entry) (i : nat) (e : entry) : In (i, e) (select p t) <-> nth_error t i = Some e /\ p (e_nb e) = true.
Proof.
  unfold select, labelled. rewrite filter_In. cbn [snd]. split; intros [H1 H2]; split; try exact H2.
  - assert (G : forall n l, In (i, e) (combine (seq n (length l)) l) -> (n <= i)%nat /\ nth_error l (i - n) = Some e).
    { intros n l. revert n. induction l as [|x l IH]; intros n Hn; cbn in Hn; [contradiction|]. destruct Hn as [Hn|Hn].
      - injection Hn as <- <-. rewrite Nat.sub_diag. cbn. split; [lia|reflexivity].
      - destruct (IH (S n) Hn) as [L N]. split; [lia|]. replace (i - n)%nat with (S (i - S n)) by lia. exact N. }
    destruct (G 0%nat t H1) as [_ N]. rewrite Nat.sub_0_r in N. exact N.
  - assert (G : forall n l, nth_error l i = Some e -> In ((n + i)%nat, e) (combine (seq n (length l)) l)).
    { clear. induction i as [|i IH]; intros n [|x l] Hn; cbn in Hn; try discriminate; cbn.
      - injection Hn as <-. rewrite Nat.add_0_r. left. reflexivity.
      - right. replace (n + S i)%nat with (S n + i)%nat by lia. apply IH. exact Hn. }
    exact (G 0%nat t H1).
Qed.
Definition prefix_closed (p : nat -> bool) (t : list entry) : Prop := forall (i j : nat) (a b : entry), (i <= j)%nat -> nth_error t i = Some a -> nth_error t j = Some b -> p (e_nb b) = true -> p (e_nb a) = true.
Lemma labels_prefix (p : nat -> bool) (t : list entry) : prefix_closed p t -> labels_fit (select p t) = Ok tt.
Proof.
  intros Pc. unfold labels_fit. apply guard_true. apply forallb_forall. intros [i e] Hi. cbn [fst]. apply Nat.ltb_lt.
  apply select_nth in Hi as [Hi Pe].
  (* all labels up to i are selected *)
  assert (NoDup (seq 0 (S i))) by apply seq_NoDup.
  assert (I : incl (seq 0 (S i)) (map fst (select p t))).
  { intros j Hj. apply in_seq in Hj. destruct (nth_error t j) as [a|] eqn:Ej.
    - apply in_map_iff. exists (j, a). split; [reflexivity|]. apply select_nth. split; [exact Ej|]. apply (Pc j i a e); try assumption. lia.
    - apply nth_error_None in Ej. assert (i < length t)%nat by (apply nth_error_Some; rewrite Hi; discriminate). lia. }
  pose proof (NoDup_incl_length H I) as L. rewrite seq_length, map_length in L. lia.
Qed.
Lemma labels_gap (p : nat -> bool) (t : list entry) (i : nat) (e : entry) : nth_error t i = Some e -> p (e_nb e) = true -> (length (select p t) <= i)%nat -> labels_fit (select p t) = Err IndexError.
Proof.
  intros Hi Pe L. unfold labels_fit. apply guard_false. apply not_true_is_false. intros H. rewrite forallb_forall in H.
  specialize (H (i, e) (proj2 (select_nth p t i e) (conj Hi Pe))). apply Nat.ltb_lt in H. cbn [fst] in H. lia.
Qed.
Lemma new_table_nth (terms : list Z) (rows : list caplet) (i : nat) (e : entry) : nth_error (new_table terms rows) i = Some e <->
  exists c, nth_error rows i = Some c /\ e = mk_entry c (quote_nb terms (c_end c)) None None.
Proof.
  unfold new_table. rewrite nth_error_map. destruct (nth_error rows i) as [c|]; cbn; split.
  - intros H. injection H as <-. exists c. auto.
  - intros [d [E ->]]. injection E as <-. reflexivity.
  - discriminate.
  - intros [d [E _]]. discriminate.
Qed.
Lemma new_table_prefix (terms : list Z) (rows : list caplet) (q : nat) (T : Z) : ascending terms -> nth_error terms q = Some T -> ascending (map c_end rows) ->
  (forall c, In c rows -> exists U, In U terms /\ (c_end c <= U)%Z) -> prefix_closed (fun n => Nat.leb n q) (new_table terms rows).
Proof.
  intros As HT Ar Cv i j a b Hij Ha Hb. apply new_table_nth in Ha as [c [Hc ->]]. apply new_table_nth in Hb as [d [Hd ->]]. cbn [e_nb]. rewrite !Nat.leb_le.
  rewrite !(quote_nb_spec terms _ q T As HT) by (apply Cv; eapply nth_error_In; eassumption).
  assert (c_end c <= c_end d)%Z by (apply (Ar i j _ _ Hij); rewrite nth_error_map; [rewrite Hc|rewrite Hd]; reflexivity). lia.
Qed.

(* ---- prices of quotes ---- *)
Section quoteprice.
  Variables (shift : R) (terms : list Z) (rows : list caplet) (q : nat) (T : Z).
  Hypothesis As : ascending terms.
  Hypothesis HT : nth_error terms q = Some T.
  Hypothesis Ar : ascending (map c_end rows).
  Hypothesis Cv : forall c, In c rows -> exists U, In U terms /\ (c_end c <= U)%Z.
  Hypothesis Al : alive shift rows.

  Lemma covered_alive (c : caplet) : In c (covered rows T) -> 0 < c_F c + shift /\ 0 < c_tau c.
  Proof. intros H. apply filter_In in H as [H _]. unfold alive in Al. rewrite Forall_forall in Al. exact (Al c H). Qed.

  Lemma price_exists (cp K vol : R) (l : list caplet) : (forall c, In c l -> 0 < c_F c + shift /\ 0 < c_tau c) -> 0 < K + shift -> 0 < vol ->
    exists ps, Forall2 (fun c p => price76 (c_F c) (c_tau c) cp K vol shift (c_ann c) = Fin p) l ps.
  Proof.
    intros H HK Hv. induction l as [|c l IH]; [exists []; constructor|].
    destruct IH as [ps Hp]; [intros d Hd; apply H; right; exact Hd|]. destruct (H c (or_introl eq_refl)) as [H1 H2].
    eexists (_ :: ps). constructor; [|exact Hp]. apply price76_fin; [exact H1|exact HK|lra|]. pose proof (total_pos vol (c_tau c) Hv H2). lra.
  Qed.
  Lemma quote_px_value (cp K vol : R) : 0 < K + shift -> 0 < vol ->
    exists x, quote_pxs shift q [cp] [Fin K] [vol] (new_table terms rows) = Ok [Fin x] /\ capfloor_value shift cp K (fun _ => vol) (covered rows T) x.
  Proof.
    intros HK Hv. unfold quote_pxs. rewrite (labels_prefix _ _ (new_table_prefix terms rows q T As HT Ar Cv)). cbn [bind combine map].
    destruct (price_exists cp K vol (covered rows T) covered_alive HK Hv) as [ps Hp].
    exists (sum_over (fun p => p) ps). split; [|exists ps; split; [exact Hp|reflexivity]].
    do 2 f_equal. rewrite <- (map_map (fun e : nat * entry => e_row (snd e)) (fun c => caplet_px shift c cp (Fin K) (Fin vol))).
    rewrite (new_table_covered terms rows q T As HT Cv). f_equal. apply nsum_forall2.
    assert (G : forall c, In c (covered rows T) -> 0 < c_F c + shift /\ 0 < c_tau c) by exact covered_alive. revert G. clear Al.
    induction Hp as [|c p l ps E H IH]; intros G; constructor; [|apply IH; intros d Hd; apply G; right; exact Hd].
    destruct (G c (or_introl eq_refl)) as [G1 G2]. apply caplet_px_fin; try assumption; [lra|]. pose proof (total_pos vol (c_tau c) Hv G2). lra.
  Qed.
End quoteprice.

Lemma capfloor_fun (shift cp K : R) (vol : caplet -> R) (rows : list caplet) (x y : R) : capfloor_value shift cp K vol rows x -> capfloor_value shift cp K vol rows y -> x = y.
Proof.
  intros [ps [H1 ->]] [ps' [H2 ->]]. f_equal. clear -H1 H2. revert ps' H2. induction H1 as [|c p l ps E H IH]; intros ps' H2; inversion H2; subst; [reflexivity|].
  f_equal; [congruence|]. apply IH. assumption.
Qed.
Lemma capfloor_parity (shift K : R) (vol : caplet -> R) (rows : list caplet) : alive shift rows -> 0 < K + shift -> (forall c, In c rows -> 0 < vol c) ->
  exists c p, capfloor_value shift 1 K vol rows c /\ capfloor_value shift (-1) K vol rows p /\ c - p = sum_over (fun c => c_ann c * (c_F c - K)) rows.
Proof.
  intros Al HK Hv. induction Al as [|r rows [H1 H2] Al IH].
  - exists 0, 0. repeat split; try (exists []; split; [constructor|reflexivity]). cbn. ring.
  - destruct IH as (c & p & (cs & C1 & ->) & (ps & P1 & ->) & E); [intros d Hd; apply Hv; right; exact Hd|].
    pose proof (total_pos (vol r) (c_tau r) (Hv r (or_introl eq_refl)) H2) as T0.
    destruct (b76_parity (c_F r) (c_tau r) K (vol r) shift (c_ann r) H1 HK ltac:(lra) (or_introl (Rgt_not_eq _ _ T0))) as (a & b & Ea & Eb & D).
    exists (a + sum_over (fun p => p) cs), (b + sum_over (fun p => p) ps). repeat split.
    + exists (a :: cs). split; [constructor; assumption|reflexivity].
    + exists (b :: ps). split; [constructor; assumption|reflexivity].
    + cbn [sum_over fold_right]. fold (sum_over (fun c => c_ann c * (c_F c - K)) rows). rewrite <- E. lra.
Qed.
