(* Lemmas on the theta grid, the grid search and the exposure date grid. *)
From Coq Require Import ZArith Reals String List Bool Lra Lia Sorted Permutation.
From Verif Require Import Base Date NormalModel HwModel FitModel FitSpec.
Import ListNotations.
Open Scope R_scope.

(* ---- one piece ---- *)
Lemma linspace_ok (a b : R) (n : Z) : (0 <= n)%Z -> linspace a b n = Ok (map (fun j => INR j * ((b - a) / IZR n) + a) (seq 0 (Z.to_nat n))).
Proof. intros H. unfold linspace. replace (0 <=? n)%Z with true by (symmetry; apply Z.leb_le; exact H). reflexivity. Qed.
Lemma piece_nth (a b : R) (n : Z) (j : nat) (x : R) : nth_error (map (fun j => INR j * ((b - a) / IZR n) + a) (seq 0 (Z.to_nat n))) j = Some x <-> (Z.of_nat j < n)%Z /\ x = a + (b - a) * INR j / IZR n.
Proof.
  rewrite nth_error_map. assert (S : nth_error (seq 0 (Z.to_nat n)) j = if (j <? Z.to_nat n)%nat then Some j else None).
  { destruct (j <? Z.to_nat n)%nat eqn:E; [apply Nat.ltb_lt in E; rewrite (nth_error_nth' _ O) by (rewrite seq_length; exact E); rewrite seq_nth by exact E; reflexivity|]. apply Nat.ltb_ge in E. apply nth_error_None. rewrite seq_length. exact E. }
  rewrite S. destruct (j <? Z.to_nat n)%nat eqn:E; cbn [option_map].
  - apply Nat.ltb_lt in E. assert (IZR n <> 0) by (apply not_0_IZR; lia). split; [intros Q; injection Q as <-; split; [lia|field; assumption]|]. intros [_ ->]. f_equal. field. assumption.
  - apply Nat.ltb_ge in E. split; [discriminate|]. intros [K _]. lia.
Qed.
Lemma pieces_ok (n : Z) (years : list R) : (0 <= n)%Z -> exists ps, pieces n years = Ok ps /\ List.length ps = pred (List.length years) /\
  forall i p, nth_error ps i = Some p <-> exists a b, nth_error years i = Some a /\ nth_error years (S i) = Some b /\ p = map (fun j => INR j * ((b - a) / IZR n) + a) (seq 0 (Z.to_nat n)).
Proof.
  intros H. induction years as [|a [|b r] IH].
  - exists []. split; [reflexivity|]. split; [reflexivity|]. intros i p. split; [destruct i; discriminate|]. intros (x & y & Hx & _). destruct i; discriminate.
  - exists []. split; [reflexivity|]. split; [reflexivity|]. intros i p. split; [destruct i; discriminate|]. intros (x & y & _ & Hy & _). destruct i; discriminate.
  - destruct IH as (ps & E & L & N). change (pieces n (a :: b :: r)) with (let* p := linspace a b n in let* q := pieces n (b :: r) in Ok (p :: q)). rewrite (linspace_ok a b n H), E. cbn [bind]. eexists. split; [reflexivity|]. split; [cbn in *; rewrite L; reflexivity|]. intros [|i] p.
    + cbn. split; [intros Q; injection Q as <-; exists a, b; auto|]. intros (x & y & Hx & Hy & ->). injection Hx as <-. injection Hy as <-. reflexivity.
    + cbn [nth_error]. apply N.
Qed.
Lemma pieces_neg (n : Z) (a b : R) (r : list R) : (n < 0)%Z -> pieces n (a :: b :: r) = Err ValueError.
Proof. intros H. change (pieces n (a :: b :: r)) with (let* p := linspace a b n in let* q := pieces n (b :: r) in Ok (p :: q)). unfold linspace. replace (0 <=? n)%Z with false by (symmetry; apply Z.leb_gt; exact H). reflexivity. Qed.
Lemma theta_grid_ok (n : Z) (years : list R) : (0 <= n)%Z -> (2 <= List.length years)%nat -> exists ps, pieces n years = Ok ps /\ theta_grid n years = Ok (List.concat ps).
Proof.
  intros H L. destruct (pieces_ok n years H) as (ps & E & K & _). exists ps. split; [exact E|]. unfold theta_grid. rewrite E. cbn [bind]. destruct ps; [cbn in K; lia|reflexivity].
Qed.
(* position i * num + j of the grid *)
Lemma concat_length (A : Type) (k : nat) (ps : list (list A)) : (forall p, In p ps -> List.length p = k) -> List.length (List.concat ps) = (List.length ps * k)%nat.
Proof. induction ps as [|p ps IH]; intros H; cbn; [reflexivity|]. rewrite app_length, IH by (intros q Hq; apply H; right; exact Hq). rewrite (H p) by (left; reflexivity). reflexivity. Qed.
Lemma concat_nth (A : Type) (k : nat) (ps : list (list A)) : (forall p, In p ps -> List.length p = k) -> forall i j, (j < k)%nat -> nth_error (List.concat ps) (i * k + j) = match nth_error ps i with Some p => nth_error p j | None => None end.
Proof.
  induction ps as [|p ps IH]; intros H i j J; cbn; [destruct (i * k + j)%nat, i; reflexivity|]. destruct i as [|i]; cbn [nth_error].
  - rewrite nth_error_app1; [reflexivity|]. rewrite (H p) by (left; reflexivity). exact J.
  - rewrite nth_error_app2 by (rewrite (H p) by (left; reflexivity); lia). rewrite (H p) by (left; reflexivity). replace (S i * k + j - k)%nat with (i * k + j)%nat by lia. apply IH; [intros q Hq; apply H; right; exact Hq|exact J].
Qed.
Lemma grid_point (n : Z) (years g : list R) : (0 < n)%Z -> theta_grid n years = Ok g ->
  List.length g = (pred (List.length years) * Z.to_nat n)%nat /\
  forall i j a b, (Z.of_nat j < n)%Z -> nth_error years i = Some a -> nth_error years (S i) = Some b -> nth_error g (i * Z.to_nat n + j) = Some (a + (b - a) * INR j / IZR n).
Proof.
  intros H E. destruct (pieces_ok n years ltac:(lia)) as (ps & P & L & N). unfold theta_grid in E. rewrite P in E. cbn [bind] in E. assert (G : g = List.concat ps) by (destruct ps; [discriminate|injection E as <-; reflexivity]). subst g.
  assert (K : forall p, In p ps -> List.length p = Z.to_nat n) by (intros p Hp; apply In_nth_error in Hp as [i Hi]; apply N in Hi as (a & b & _ & _ & ->); rewrite map_length, seq_length; reflexivity). split.
  - rewrite (concat_length _ (Z.to_nat n) ps K), L. reflexivity.
  - intros i j a b J A B. rewrite (concat_nth _ (Z.to_nat n) ps K) by lia. rewrite (proj2 (N i _) (ex_intro _ a (ex_intro _ b (conj A (conj B eq_refl))))). apply piece_nth. auto.
Qed.
Lemma grid_positions (n : Z) (years g : list R) (k : nat) (x : R) : (0 < n)%Z -> theta_grid n years = Ok g -> nth_error g k = Some x ->
  exists i j a b, k = (i * Z.to_nat n + j)%nat /\ (Z.of_nat j < n)%Z /\ nth_error years i = Some a /\ nth_error years (S i) = Some b /\ x = a + (b - a) * INR j / IZR n.
Proof.
  intros H E X. destruct (grid_point n years g H E) as [L P]. set (m := Z.to_nat n) in *. assert (M : (0 < m)%nat) by (unfold m; lia). pose proof (Nat.div_mod k m ltac:(lia)) as D. pose proof (Nat.mod_upper_bound k m ltac:(lia)) as U.
  assert (B : (k < pred (List.length years) * m)%nat) by (rewrite <- L; apply nth_error_Some; congruence). assert (I : (k / m < pred (List.length years))%nat) by (apply Nat.div_lt_upper_bound; lia).
  destruct (nth_error years (k / m)) as [a|] eqn:A; [|apply nth_error_None in A; lia]. destruct (nth_error years (S (k / m))) as [b|] eqn:B'; [|apply nth_error_None in B'; lia].
  exists (k / m)%nat, (k mod m)%nat, a, b. assert (J : (Z.of_nat (k mod m) < n)%Z) by (unfold m in *; lia). split; [lia|]. split; [exact J|]. split; [exact A|]. split; [exact B'|]. specialize (P (k / m)%nat (k mod m)%nat a b J A B'). replace (k / m * m + k mod m)%nat with k in P by lia. congruence.
Qed.
Lemma increasing_nth (l : list R) : increasing_list l -> forall i k x y, (i < k)%nat -> nth_error l i = Some x -> nth_error l k = Some y -> x < y.
Proof.
  assert (Hd : forall l a k y, increasing_list (a :: l) -> nth_error l k = Some y -> a < y).
  { induction l0 as [|b r IH]; intros a k y I K; [destruct k; discriminate|]. destruct I as [I1 I2]. destruct k as [|k]; [injection K as <-; exact I1|]. cbn in K. specialize (IH b k y I2 K). lra. }
  induction l as [|a r IH]; intros I i k x y L X Y; [destruct i; discriminate|]. destruct k as [|k]; [lia|]. destruct i as [|i]; cbn in X, Y.
  - injection X as <-. apply (Hd r a k y I Y).
  - apply (IH (match r return increasing_list (a :: r) -> increasing_list r with [] => fun _ => Logic.I | _ => fun h => proj2 h end I) i k x y); [lia|exact X|exact Y].
Qed.
Lemma frac_bounds (n : Z) (j : nat) : (0 < n)%Z -> (Z.of_nat j < n)%Z -> 0 <= INR j / IZR n < 1.
Proof.
  intros H J. assert (P : 0 < IZR n) by (apply IZR_lt; exact H). rewrite INR_IZR_INZ. split.
  - apply Rmult_le_reg_r with (IZR n); [exact P|]. unfold Rdiv. rewrite Rmult_assoc, Rinv_l by lra. rewrite Rmult_0_l, Rmult_1_r. apply IZR_le. lia.
  - apply Rmult_lt_reg_r with (IZR n); [exact P|]. unfold Rdiv. rewrite Rmult_assoc, Rinv_l by lra. rewrite Rmult_1_r, Rmult_1_l. apply IZR_lt. exact J.
Qed.
Lemma grid_increasing (n : Z) (years g : list R) : (0 < n)%Z -> increasing_list years -> theta_grid n years = Ok g -> forall k l x y, (k < l)%nat -> nth_error g k = Some x -> nth_error g l = Some y -> x < y.
Proof.
  intros H I E k l x y L X Y. apply (grid_positions n years g k x H E) in X as (i & j & a & b & Ek & J & A & B & ->). apply (grid_positions n years g l y H E) in Y as (i' & j' & a' & b' & El & J' & A' & B' & ->).
  pose proof (increasing_nth years I i (S i) a b ltac:(lia) A B) as AB. pose proof (increasing_nth years I i' (S i') a' b' ltac:(lia) A' B') as AB'. pose proof (frac_bounds n j H J) as F. pose proof (frac_bounds n j' H J') as F'. unfold Rdiv in *. rewrite !Rmult_assoc.
  destruct (Nat.lt_trichotomy i i') as [Q|[<-|Q]].
  - assert (b <= a') by (destruct (Nat.eq_dec (S i) i') as [<-|N]; [rewrite B in A'; injection A' as <-; lra|apply Rlt_le, (increasing_nth years I (S i) i'); [lia|exact B|exact A']]). nra.
  - rewrite A in A'. injection A' as <-. rewrite B in B'. injection B' as <-. assert (INR j < INR j') by (apply lt_INR; lia). assert (0 < / IZR n) by (apply Rinv_0_lt_compat, IZR_lt; exact H). apply Rplus_lt_compat_l, Rmult_lt_compat_l; [lra|]. apply Rmult_lt_compat_r; assumption.
  - exfalso. assert (i' * Z.to_nat n + Z.to_nat n <= i * Z.to_nat n)%nat by nia. lia.
Qed.

(* ---- sorting ---- *)
Lemma insert_perm (x : entry) (l : list entry) : Permutation (insert_sorted x l) (x :: l).
Proof. induction l as [|y l IH]; cbn; [reflexivity|]. destruct (less y x); [rewrite IH; apply perm_swap|reflexivity]. Qed.
Lemma sort_perm (l : list entry) : Permutation (sort_entries l) l.
Proof. induction l as [|x l IH]; cbn; [reflexivity|]. rewrite insert_perm. apply perm_skip, IH. Qed.
(* the head is the first of the least *)
Lemma insert_head (x : entry) (l : list entry) : exists t, insert_sorted x l = (match l with y :: _ => if less y x then y else x | [] => x end) :: t.
Proof. destruct l as [|y l]; cbn; [eexists; reflexivity|]. destruct (less y x); eexists; reflexivity. Qed.
Lemma sort_head (l : list entry) : l <> [] -> Forall (fun e => snd e <> None) l ->
  exists h t before after, sort_entries l = h :: t /\ l = (before ++ h :: after)%list /\ Forall (fun e => less h e = true) before /\ Forall (fun e => less e h = false) after.
Proof.
  induction l as [|x l IH]; [contradiction|]. intros _ N. inversion N as [|? ? Nx Nl]; subst. destruct l as [|y l].
  - exists x, [], [], []. repeat split; constructor.
  - destruct IH as (h & t & before & after & E & D & B & A); [discriminate|exact Nl|]. change (sort_entries (x :: y :: l)) with (insert_sorted x (sort_entries (y :: l))). rewrite E. destruct (insert_head x (h :: t)) as [t' E']. rewrite E'. destruct (less h x) eqn:Q.
    + exists h, t', (x :: before), after. split; [reflexivity|]. split; [cbn; rewrite <- D; reflexivity|]. split; [constructor; assumption|exact A].
    + exists x, t', [], (y :: l). split; [reflexivity|]. split; [reflexivity|]. split; [constructor|]. rewrite Forall_forall. intros e He. rewrite D in He. assert (Ne : snd e <> None) by (rewrite Forall_forall in Nl; apply Nl; rewrite D; exact He).
      assert (Nh : snd h <> None) by (rewrite Forall_forall in Nl; apply Nl; rewrite D; apply in_or_app; right; left; reflexivity).
      assert (He' : less e h = false) by (apply in_app_or in He as [He|[->|He]]; [rewrite Forall_forall in B; specialize (B e He)| |rewrite Forall_forall in A; apply A, He]; revert Ne Nh; unfold less in *; unfold ltb in *; [destruct (snd e) as [u|], (snd h) as [v|]; try contradiction; intros _ _; destruct (Rlt_dec v u), (Rlt_dec u v); try reflexivity; try discriminate; lra|destruct (snd e); [intros _ _; destruct (Rlt_dec r r); [lra|reflexivity]|contradiction]]).
      revert Ne Nh Nx He' Q. unfold less, ltb. destruct (snd e) as [u|], (snd h) as [v|], (snd x) as [w|]; try contradiction. intros _ _ _. destruct (Rlt_dec u v), (Rlt_dec v w), (Rlt_dec u w); try discriminate; try reflexivity. lra.
Qed.
Lemma sort_nan (l : list entry) : Forall (fun e => snd e = None) l -> sort_entries l = l.
Proof.
  induction l as [|x l IH]; intros N; [reflexivity|]. inversion N as [|? ? Nx Nl]; subst. change (sort_entries (x :: l)) with (insert_sorted x (sort_entries l)). rewrite (IH Nl). destruct l as [|y l]; [reflexivity|]. cbn. unfold less. inversion Nl as [|? ? Ny _]; subst. rewrite Ny. reflexivity.
Qed.

(* ---- dates ---- *)
Lemma insert_date_in (d x : date) (l : list date) : In x (insert_date d l) <-> x = d \/ In x l.
Proof.
  induction l as [|e l IH]; cbn; [split; [intros [->|[]]; auto|intros [->|[]]; auto]|]. destruct (d <? e)%Z; [cbn; intuition|]. destruct (d =? e)%Z eqn:E; [apply Z.eqb_eq in E as ->; cbn; intuition|]. cbn. rewrite IH. intuition.
Qed.
Lemma insert_date_sorted (d : date) (l : list date) : StronglySorted Z.lt l -> StronglySorted Z.lt (insert_date d l).
Proof.
  induction l as [|e l IH]; intros S; cbn; [repeat constructor|]. inversion S as [|? ? S' F]; subst. destruct (d <? e)%Z eqn:L; [apply Z.ltb_lt in L; constructor; [exact S|]; constructor; [exact L|]; rewrite Forall_forall in *; intros x Hx; specialize (F x Hx); lia|].
  destruct (d =? e)%Z eqn:E; [exact S|]. apply Z.ltb_ge in L. apply Z.eqb_neq in E. constructor; [apply IH, S'|]. rewrite Forall_forall in *. intros x Hx. apply insert_date_in in Hx as [->|Hx]; [lia|apply F, Hx].
Qed.
Lemma unique_sorted_spec (l : list date) : StronglySorted Z.lt (unique_sorted l) /\ forall x, In x (unique_sorted l) <-> In x l.
Proof.
  induction l as [|d l [S I]]; cbn; [split; [constructor|tauto]|]. split; [apply insert_date_sorted, S|]. intros x. rewrite insert_date_in. fold (unique_sorted l). rewrite I. intuition.
Qed.

(* ---- the search ---- *)
Section fit.
  Variables (quad : integrator) (splrep : list R -> list R -> result (R -> R)) (forwards : R -> list R -> result unit) (pillars : list (R * option R)) (r0 alpha sigma : R).
  Notation setup := (setup_theta splrep forwards pillars r0 alpha sigma).
  Notation error := (calc_error_for_theta_fit quad pillars r0 alpha sigma).
  Notation try_ := (trial quad splrep forwards pillars r0 alpha sigma).
  Lemma setup_fresh (dt : R) (num : Z) (th : option (R -> R)) (g : option (list R)) (n : option Z) : setup (mk_hw dt num th) g n = setup (mk_hw dt num None) g n.
  Proof. reflexivity. Qed.
  Lemma setup_fields (s s' : hw) (g : option (list R)) (n : option Z) : setup s g n = Ok s' -> w_dt s' = w_dt s /\ w_num s' = w_num s /\ exists th, w_theta s' = Some th.
  Proof.
    unfold setup_theta. destruct (match g with Some _ => _ | None => _ end); cbn [bind]; [|discriminate]. destruct (get_thetas _ _ _ _ _ _); cbn [bind]; [|discriminate]. destruct (splrep _ _); cbn [bind]; [|discriminate]. intros E. injection E as <-. cbn. eauto.
  Qed.
  Lemma search_ok (pairs : list (R * Z)) : forall s acc s' l, search quad splrep forwards pillars r0 alpha sigma pairs s acc = (s', Ok l) ->
    exists errs, l = (acc ++ errs)%list /\ Forall2 (fun p e => fst e = p /\ exists th, try_ p = Ok (th, snd e)) pairs errs /\
      (pairs <> [] -> exists p e, last (map Some pairs) None = Some p /\ try_ p = Ok (w_theta s', e)).
  Proof.
    induction pairs as [|[dt num] pairs IH]; intros s acc s' l; cbn [search].
    - intros E. injection E as <- <-. exists []. split; [symmetry; apply app_nil_r|]. split; [constructor|]. intros K. contradiction.
    - destruct (setup (mk_hw dt num (w_theta s)) None None) as [s2|e] eqn:S; [|discriminate]. destruct (error s2) as [err|e] eqn:R0; [|discriminate]. intros E. destruct (IH _ _ _ _ E) as (errs & -> & F & L). exists ((dt, num, err) :: errs). rewrite setup_fresh in S.
      assert (T : try_ (dt, num) = Ok (w_theta s2, err)) by (unfold trial; cbn [fst snd]; rewrite S; cbn [bind]; rewrite R0; reflexivity).
      split; [rewrite <- app_assoc; reflexivity|]. split; [constructor; [split; [reflexivity|exists (w_theta s2); exact T]|exact F]|]. intros _. destruct pairs as [|p pairs].
      + exists (dt, num), err. split; [reflexivity|]. cbn in E. injection E as <- _. exact T.
      + destruct L as (q & e & Lq & Tq); [discriminate|]. exists q, e. split; [exact Lq|exact Tq].
  Qed.
End fit.
