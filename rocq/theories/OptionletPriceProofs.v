From Coq Require Import ZArith Reals List Bool Lra Lia Sorted.
From Verif Require Import Base NumModel NormalModel NormalProofs CurveModel BsProofs BlackModel BlackSpec BlackProofs BlackVecProofs SabrModel SabrSpec SabrProofs SabrRootProofs SabrSmileProofs OptionletModel OptionletSpec OptionletProofs OptionletBootProofs OptionletSabrProofs OptionletCalibProofs.
Import ListNotations.
Open Scope R_scope.

(* ---- interpolation ---- *)
Lemma interp_reads (f : entry -> option R) (t : list entry) : forall (p : entry) (x : R), by_start (p :: t) -> Forall (fun e => f e <> None) (p :: t) -> start p <= x ->
  exists y, interp_from (start p, f p) (column_of f t) x = Some y /\ reads f (p :: t) x y.
Proof.
  induction t as [|q t IH]; intros p x B S Hx; inversion S as [|? ? Sp S']; subst; destruct (f p) as [yp|] eqn:Fp; try contradiction.
  - exists yp. split; [reflexivity|]. destruct (Req_dec (start p) x) as [E|E]; [left; exists p; cbn; auto|]. right. right. exists p. cbn. split; [reflexivity|]. split; [lra|exact Fp].
  - inversion B as [|? ? B' Bp]; subst. cbn [column_of map interp_from fst snd]. fold (start q). change (map (fun e => (IZR (c_start (e_row e)), f e)) t) with (column_of f t). inversion Bp as [|? ? Hpq _]; subst. destruct (Rle_dec (start q) x) as [L|L].
    + destruct (IH q x B' S' L) as (y & Y1 & Y2). exists y. split; [exact Y1|]. destruct Y2 as [(e & E1 & E2)|[(i & e & e' & y0 & y1 & E1 & E2 & E3)|(e & E1 & E2)]].
      * left. exists e. split; [right; exact E1|exact E2].
      * right. left. exists (Datatypes.S i), e, e', y0, y1. auto.
      * right. right. exists e. split; [|exact E2]. cbn [length] in *. replace (Datatypes.S (Datatypes.S (length t)) - 1)%nat with (Datatypes.S (Datatypes.S (length t) - 1)) by lia. exact E1.
    + inversion S' as [|? ? Sq _]; subst. destruct (f q) as [yq|] eqn:Fq; [|contradiction]. destruct (Req_EM_T x (start p)) as [E|E].
      * exists yp. split; [reflexivity|]. left. exists p. split; [left; reflexivity|]. split; [symmetry; exact E|exact Fp].
      * cbn [obind]. unfold np_div. destruct (Req_EM_T (start q - start p) 0) as [Z|_]; [lra|]. cbn [obind]. eexists. split; [reflexivity|].
        right. left. exists 0%nat, p, q, yp, yq. cbn [nth_error]. repeat (split; [reflexivity || assumption || lra|]). unfold on_line. field. lra.
Qed.
Lemma index_reads (f : entry -> option R) (t : list entry) (s : R) : by_start t -> Forall (fun e => f e <> None) t ->
  match interp_index (column_of f t) s with Some y => reads f t s y | None => forall e, In e t -> s < start e end.
Proof.
  intros B S. destruct t as [|p t]; [cbn; contradiction|]. unfold interp_index. cbn [column_of map fst]. fold (start p). change (map (fun e => (IZR (c_start (e_row e)), f e)) t) with (column_of f t).
  destruct (Rlt_dec s (start p)) as [L|L].
  - intros e [<-|He]; [exact L|]. inversion B as [|? ? _ Bp]; subst. rewrite Forall_forall in Bp. specialize (Bp e He). lra.
  - unfold np_interp. cbn [fst]. destruct (Rlt_dec s (start p)); [contradiction|]. destruct (interp_reads f t p s B S) as (y & -> & Y); [lra|exact Y].
Qed.
Lemma by_start_nth (t : list entry) (i j : nat) (a b : entry) : by_start t -> (i < j)%nat -> nth_error t i = Some a -> nth_error t j = Some b -> start a < start b.
Proof.
  intros B. revert i j. induction B as [|e t B IH F]; intros i j L Ha Hb; [destruct i; discriminate|]. destruct j as [|j]; [lia|]. destruct i as [|i]; cbn in *.
  - injection Ha as ->. rewrite Forall_forall in F. apply F. eapply nth_error_In; exact Hb.
  - apply (IH i j); [lia|assumption|assumption].
Qed.
Lemma by_start_fun (t : list entry) (a b : entry) : by_start t -> In a t -> In b t -> start a = start b -> a = b.
Proof.
  intros B Ia Ib E. apply In_nth_error in Ia as [i Hi]. apply In_nth_error in Ib as [j Hj]. destruct (Nat.lt_trichotomy i j) as [L|[L|L]].
  - pose proof (by_start_nth t i j a b B L Hi Hj). lra.
  - subst. congruence.
  - pose proof (by_start_nth t j i b a B L Hj Hi). lra.
Qed.
(* the value at a date is determined *)
Lemma reads_fun (f : entry -> option R) (t : list entry) (s y z : R) : by_start t -> reads f t s y -> reads f t s z -> y = z.
Proof.
  intros B Hy Hz.
  assert (Nb : forall i e e' x, nth_error t i = Some e -> nth_error t (S i) = Some e' -> start e < s < start e' -> In x t -> start x <> s).
  { intros i e e' x H1 H2 H3 Hx E. apply In_nth_error in Hx as [j Hj]. destruct (Nat.le_gt_cases j i) as [L|L].
    - destruct (Nat.eq_dec j i) as [->|N]; [rewrite H1 in Hj; injection Hj as <-; lra|]. pose proof (by_start_nth t j i x e B ltac:(lia) Hj H1). lra.
    - destruct (Nat.eq_dec j (S i)) as [->|N]; [rewrite H2 in Hj; injection Hj as <-; lra|]. pose proof (by_start_nth t (S i) j e' x B ltac:(lia) H2 Hj). lra. }
  assert (Nl : forall e x, nth_error t (length t - 1) = Some e -> start e < s -> In x t -> start x < s).
  { intros e x H1 H2 Hx. apply In_nth_error in Hx as [j Hj]. assert (Lj : (j < length t)%nat) by (apply nth_error_Some; rewrite Hj; discriminate).
    destruct (Nat.eq_dec j (length t - 1)) as [->|N]; [rewrite H1 in Hj; injection Hj as <-; exact H2|]. pose proof (by_start_nth t j (length t - 1) x e B ltac:(lia) Hj H1). lra. }
  destruct Hy as [(e & E1 & E2 & E3)|[(i & e & e' & y0 & y1 & E1 & E2 & E3 & E4 & E5 & E6)|(e & E1 & E2 & E3)]];
  destruct Hz as [(g & G1 & G2 & G3)|[(j & g & g' & z0 & z1 & G1 & G2 & G3 & G4 & G5 & G6)|(g & G1 & G2 & G3)]].
  - assert (e = g) as -> by (apply (by_start_fun t); [exact B|exact E1|exact G1|lra]). congruence.
  - exfalso. exact (Nb j g g' e G1 G2 G3 E1 E2).
  - specialize (Nl g e G1 G2 E1). lra.
  - exfalso. exact (Nb i e e' g E1 E2 E3 G1 G2).
  - assert (i = j).
    { destruct (Nat.lt_trichotomy i j) as [L|[L|L]]; [exfalso|exact L|exfalso].
      - destruct (Nat.eq_dec (S i) j) as [<-|N]; [rewrite E2 in G1; injection G1 as <-; lra|]. pose proof (by_start_nth t (S i) j e' g B ltac:(lia) E2 G1). lra.
      - destruct (Nat.eq_dec (S j) i) as [<-|N]; [rewrite G2 in E1; injection E1 as <-; lra|]. pose proof (by_start_nth t (S j) i g' e B ltac:(lia) G2 E1). lra. }
    subst j. assert (g = e) by congruence. assert (g' = e') by congruence. subst g g'. assert (z0 = y0) by congruence. assert (z1 = y1) by congruence. subst z0 z1.
    unfold on_line in *. apply Rmult_eq_reg_r with (start e' - start e); lra.
  - specialize (Nl g e' G1 G2 (nth_error_In _ _ E2)). lra.
  - specialize (Nl e g E1 E2 G1). lra.
  - specialize (Nl e g' E1 E2 (nth_error_In _ _ G2)). lra.
  - congruence.
Qed.
Lemma solved_columns (t : list entry) : Forall solved t -> Forall (fun e => col_beta e <> None) t /\ Forall (fun e => col_rho e <> None) t /\ Forall (fun e => col_volvol e <> None) t /\ Forall (fun e => col_vol_n e <> None) t.
Proof.
  intros S. rewrite !Forall_forall in *. repeat split; intros e He; destruct (S e He) as [[m M] [s E]]; unfold col_beta, col_rho, col_volvol, col_vol_n; rewrite ?M, ?E; discriminate.
Qed.
Lemma leg_point (shift : R) (roots : solver) (t : list entry) (l : leg) (p : point) : by_start t -> Forall solved t -> interpolate_leg shift roots t l = Ok p ->
  i_leg p = l /\ reads col_beta t (IZR (l_start l)) (i_beta p) /\ reads col_rho t (IZR (l_start l)) (i_rho p) /\ reads col_volvol t (IZR (l_start l)) (i_volvol p) /\ reads col_vol_n t (IZR (l_start l)) (i_vol_n p) /\
  normal_vol_atm_to_black76_sln_atm (l_F l) (l_tau l) (i_vol_n p) shift = Fin (i_vol_sln p) /\
  solve_alpha roots (l_tau l) (l_F l) (i_beta p) (i_rho p) (i_volvol p) (i_vol_sln p) shift = Ok (i_alpha p).
Proof.
  intros B S H. destruct (solved_columns t S) as (S1 & S2 & S3 & S4). unfold interpolate_leg in H.
  pose proof (index_reads col_beta t (IZR (l_start l)) B S1) as R1. pose proof (index_reads col_rho t (IZR (l_start l)) B S2) as R2. pose proof (index_reads col_volvol t (IZR (l_start l)) B S3) as R3. pose proof (index_reads col_vol_n t (IZR (l_start l)) B S4) as R4.
  destruct (interp_index (column_of col_beta t) _) as [b|]; [|discriminate]. destruct (interp_index (column_of col_rho t) _) as [r|]; [|discriminate].
  destruct (interp_index (column_of col_volvol t) _) as [v|]; [|discriminate]. destruct (interp_index (column_of col_vol_n t) _) as [n|]; [|discriminate].
  destruct (normal_vol_atm_to_black76_sln_atm _ _ _ _) as [s| | |] eqn:Es; try discriminate. apply bind_ok in H as [a [A H]]. injection H as <-. cbn. auto 10.
Qed.
Lemma leg_early (shift : R) (roots : solver) (t : list entry) (l : leg) : (forall e, In e t -> IZR (l_start l) < start e) -> interpolate_leg shift roots t l = Err ValueError.
Proof.
  intros H. unfold interpolate_leg. assert (E : forall f, interp_index (column_of f t) (IZR (l_start l)) = None).
  { intros f. destruct t as [|p t]; [reflexivity|]. unfold interp_index. cbn [column_of map fst]. fold (start p). destruct (Rlt_dec _ _) as [|N]; [reflexivity|]. specialize (H p (or_introl eq_refl)). contradiction. }
  rewrite E. reflexivity.
Qed.
Lemma pick_ok (g : R) (l : list R) (e : exn) : pick g l = Err e -> e = ValueError.
Proof. destruct l; cbn; [congruence|discriminate]. Qed.
Lemma leg_error (shift : R) (roots : solver) (t : list entry) (l : leg) (e : exn) : interpolate_leg shift roots t l = Err e -> e = ValueError.
Proof.
  unfold interpolate_leg. intros H. destruct (interp_index (column_of col_beta t) _); [|congruence]. destruct (interp_index (column_of col_rho t) _); [|congruence]. destruct (interp_index (column_of col_volvol t) _); [|congruence].
  destruct (interp_index (column_of col_vol_n t) _); [|congruence]. destruct (normal_vol_atm_to_black76_sln_atm _ _ _ _); try congruence. destruct (solve_alpha _ _ _ _ _ _ _ _) eqn:E; cbn in H; [discriminate|]. injection H as ->. unfold solve_alpha in E. eapply pick_ok; exact E.
Qed.
Lemma sequence_error {A} (l : list (result A)) (P : exn -> Prop) : (forall e, In (Err e) l -> P e) -> (exists e, In (Err e) l) -> exists e, sequence l = Err e /\ P e.
Proof.
  induction l as [|[x|e] l IH]; intros H [e0 H0]; [contradiction| |].
  - destruct H0 as [H0|H0]; [discriminate|]. destruct IH as (e & E & Pe); [intros e He; apply H; right; exact He|eauto|]. exists e. cbn [sequence bind]. rewrite E. auto.
  - exists e. split; [reflexivity|]. apply H. left. reflexivity.
Qed.
Lemma table_early (shift : R) (roots : solver) (t : list entry) (legs : list leg) (l : leg) : In l legs -> (forall e, In e t -> IZR (l_start l) < start e) -> interpolate_table shift roots t legs = Err ValueError.
Proof.
  intros Il H. unfold interpolate_table. destruct (negb _); [|reflexivity]. cbn [guard bind].
  destruct (sequence_error (map (interpolate_leg shift roots t) legs) (fun e => e = ValueError)) as (e & E & ->); [| |exact E].
  - intros e He. apply in_map_iff in He as (l' & E & _). eapply leg_error; exact E.
  - exists ValueError. apply in_map_iff. exists l. split; [apply leg_early; exact H|exact Il].
Qed.
Lemma repeated_spec (l : list Z) : repeated l = false <-> NoDup l.
Proof.
  induction l as [|x l IH]; cbn; [split; [constructor|reflexivity]|]. rewrite orb_false_iff, IH. split.
  - intros [E N]. constructor; [|exact N]. intros I. apply not_true_iff_false in E. apply E. apply existsb_exists. exists x. split; [exact I|apply Z.eqb_refl].
  - intros N. inversion N; subst. split; [|assumption]. apply not_true_iff_false. intros E. apply existsb_exists in E as (y & Y1 & Y2). apply Z.eqb_eq in Y2. subst. contradiction.
Qed.
Lemma table_points (shift : R) (roots : solver) (t : list entry) (legs : list leg) (pts : list point) : interpolate_table shift roots t legs = Ok pts <-> NoDup (map l_start legs) /\ Forall2 (fun l p => interpolate_leg shift roots t l = Ok p) legs pts.
Proof.
  unfold interpolate_table. rewrite <- repeated_spec. destruct (repeated (map l_start legs)); cbn [negb guard bind]; [split; [discriminate|intros [? _]; discriminate]|].
  rewrite sequence_ok. split; [intros H|intros [_ H]].
  - split; [reflexivity|]. revert pts H. induction legs as [|l legs IH]; intros [|p pts] H; try discriminate; constructor; injection H as H1 H2; auto.
  - induction H as [|l p legs pts Hl H IH]; [reflexivity|]. cbn. rewrite Hl, IH. reflexivity.
Qed.
Lemma leg_of_point (shift : R) (roots : solver) (t : list entry) (l : leg) (p : point) : interpolate_leg shift roots t l = Ok p -> i_leg p = l.
Proof.
  unfold interpolate_leg. intros H. destruct (interp_index (column_of col_beta t) _); [|discriminate]. destruct (interp_index (column_of col_rho t) _); [|discriminate]. destruct (interp_index (column_of col_volvol t) _); [|discriminate].
  destruct (interp_index (column_of col_vol_n t) _); [|discriminate]. destruct (normal_vol_atm_to_black76_sln_atm _ _ _ _); try discriminate. apply bind_ok in H as [a [_ H]]. injection H as <-. reflexivity.
Qed.

(* ---- strikes and types ---- *)
Lemma is_one_spec (c : R) : is_one c = true <-> call_or_put c.
Proof. unfold is_one, call_or_put. destruct (Req_EM_T c 1); [tauto|]. destruct (Req_EM_T c (-1)); [tauto|]. split; [discriminate|tauto]. Qed.
Lemma validate_spec (K : strike_arg) (cp : type_arg) (n : nat) : (accepted K cp n -> validate K cp n = Ok tt) /\ (~ accepted K cp n -> validate K cp n = Err AssertionError).
Proof.
  assert (D : validate K cp n = Ok tt \/ validate K cp n = Err AssertionError).
  { unfold validate. destruct K as [k| |ks]; cbn [bind]; [| right; reflexivity |destruct (Nat.eqb (length ks) n); cbn [guard bind]; [|right; reflexivity]];
      (destruct cp as [c| |cs]; cbn [bind]; [destruct (_ || _); cbn [guard bind]; auto|auto|destruct (_ && _); cbn [guard bind]; auto]). }
  assert (E : validate K cp n = Ok tt <-> accepted K cp n).
  { unfold validate, accepted. destruct K as [k| |ks]; cbn [bind].
    - destruct cp as [c| |cs]; cbn [bind].
      + destruct (Z.eqb c 1 || Z.eqb c (-1)) eqn:Ec; cbn [guard bind]; split; try discriminate; auto.
        * intros _. left. exists k, c. split; [reflexivity|]. split; [reflexivity|]. apply orb_true_iff in Ec as [Ec|Ec]; apply Z.eqb_eq in Ec; auto.
        * intros [(k' & c' & _ & Ec' & Hc)|(ks & cs & X & _)]; [|discriminate]. injection Ec' as <-. apply orb_false_iff in Ec as [E1 E2]. apply Z.eqb_neq in E1, E2. tauto.
      + split; [discriminate|]. intros [(k' & c' & _ & X & _)|(ks & cs & X & _)]; discriminate.
      + destruct (Nat.eqb (length cs) n && forallb is_one cs); cbn [guard bind]; split; try discriminate; intros [(k' & c' & _ & X & _)|(ks & cs' & X & _)]; discriminate.
    - split; [discriminate|]. intros [(k' & c' & X & _)|(ks & cs & X & _)]; discriminate.
    - destruct (Nat.eqb_spec (length ks) n) as [Lk|Lk]; cbn [guard bind].
      + destruct cp as [c| |cs]; cbn [bind].
        * destruct (_ || _); cbn [guard bind]; split; try discriminate; intros [(k' & c' & X & _)|(ks' & cs' & _ & X & _)]; discriminate.
        * split; [discriminate|]. intros [(k' & c' & X & _)|(ks' & cs & _ & X & _)]; discriminate.
        * destruct (Nat.eqb_spec (length cs) n) as [Lc|Lc]; cbn [andb]; [destruct (forallb is_one cs) eqn:Fb|]; cbn [guard bind]; split; try discriminate; auto.
          -- intros _. right. exists ks, cs. repeat (split; [reflexivity || assumption|]). apply Forall_forall. intros c Hc. apply is_one_spec. rewrite forallb_forall in Fb. auto.
          -- intros [(k' & c' & X & _)|(ks' & cs' & _ & X & _ & _ & F)]; [discriminate|]. injection X as <-. apply not_true_iff_false in Fb. exfalso. apply Fb. apply forallb_forall. intros c Hc. apply is_one_spec. rewrite Forall_forall in F. auto.
          -- intros [(k' & c' & X & _)|(ks' & cs' & _ & X & _ & L & _)]; [discriminate|]. injection X as <-. contradiction.
      + split; [discriminate|]. intros [(k' & c' & X & _)|(ks' & cs' & X & _ & L & _)]; [discriminate|]. injection X as <-. contradiction. }
  split; [apply E|]. intros N. destruct D as [D|D]; [|exact D]. exfalso. apply N. apply E. exact D.
Qed.
Lemma spread_ok (n : nat) (l m : list R) : spread n l = Ok m -> length m = n /\ forall (i : nat) (x : R), nth_error m i = Some x -> used l i x.
Proof.
  unfold spread. destruct l as [|x [|y l]]; intros H.
  - apply bind_ok in H as [u [G H]]. injection H as <-. destruct n; [|discriminate]. split; [reflexivity|]. intros [|i] z Hz; discriminate.
  - injection H as <-. split; [apply repeat_length|]. intros i z Hz. right. f_equal. apply nth_error_In in Hz. apply repeat_spec in Hz. symmetry. exact Hz.
  - apply bind_ok in H as [u [G H]]. injection H as <-. destruct (Nat.eqb_spec (length (x :: y :: l)) n) as [E|E]; [|discriminate]. split; [exact E|]. intros i z Hz. left. exact Hz.
Qed.

(* ---- prices ---- *)
Lemma row76_valued (shift : R) (p : point) (K cp v : R) : valued76 shift (i_leg p) K cp v (row76 shift p K cp (Fin v)).
Proof. unfold valued76, row76. cbn [g_K g_cp g_vol g_ann g_price g_delta g_vega g_intrinsic g_time g_forward_price]. do 7 (split; [reflexivity|]). split; reflexivity. Qed.
Lemma row_n_valued (p : point) (K cp v : R) : valued_n (i_leg p) K cp v (row_n p K cp (Fin v)).
Proof. unfold valued_n, row_n. cbn [g_K g_cp g_vol g_ann g_price g_delta g_vega g_intrinsic g_time g_forward_price]. do 7 (split; [reflexivity|]). split; reflexivity. Qed.
Lemma combine_nth_some {A B} (l : list A) (m : list B) (i : nat) (a : A) (b : B) : nth_error l i = Some a -> nth_error m i = Some b -> nth_error (combine l m) i = Some (a, b).
Proof. revert m i. induction l as [|x l IH]; intros [|y m] [|i] H1 H2; try discriminate; cbn in *; [congruence|auto]. Qed.
Lemma nth_some {A} (l : list A) (i : nat) : (i < length l)%nat -> exists x, nth_error l i = Some x.
Proof. intros H. destruct (nth_error l i) as [x|] eqn:E; [eauto|]. apply nth_error_None in E. lia. Qed.
Lemma nth_lt {A} (l : list A) (i : nat) (x : A) : nth_error l i = Some x -> (i < length l)%nat.
Proof. intros H. apply nth_error_Some. rewrite H. discriminate. Qed.
Lemma rows_nth {A} (f : point -> R -> R -> A -> detail) (pts : list point) (Ks cps : list R) (vs : list A) (n : nat) : length pts = n -> length Ks = n -> length cps = n -> length vs = n ->
  let rows := map (fun z : point * (R * (R * A)) => let '(p, (k, (c, s))) := z in f p k c s) (combine pts (combine Ks (combine cps vs))) in
  length rows = n /\ forall (i : nat), (i < n)%nat -> exists p k c v, nth_error pts i = Some p /\ nth_error Ks i = Some k /\ nth_error cps i = Some c /\ nth_error vs i = Some v /\ nth_error rows i = Some (f p k c v).
Proof.
  intros L1 L2 L3 L4 rows. split; [unfold rows; rewrite map_length, !combine_length; lia|]. intros i Hi.
  destruct (nth_some pts i) as [p Hp]; [lia|]. destruct (nth_some Ks i) as [k Hk]; [lia|]. destruct (nth_some cps i) as [c Hc]; [lia|]. destruct (nth_some vs i) as [v Hv]; [lia|].
  exists p, k, c, v. repeat (split; [assumption|]). unfold rows. rewrite nth_error_map, (combine_nth_some _ _ _ _ _ Hp (combine_nth_some _ _ _ _ _ Hk (combine_nth_some _ _ _ _ _ Hc Hv))). reflexivity.
Qed.
Lemma points_length (shift : R) (roots : solver) (t : list entry) (legs : list leg) (pts : list point) : interpolate_table shift roots t legs = Ok pts -> length pts = length legs /\
  forall (i : nat) (l : leg) (p : point), nth_error legs i = Some l -> nth_error pts i = Some p -> interpolate_leg shift roots t l = Ok p /\ i_leg p = l.
Proof.
  intros H. apply table_points in H as [_ H]. apply forall2_nth in H as [L H]. split; [exact L|]. intros i l p Hl Hp. destruct (H i l Hl) as (p' & E1 & E2). rewrite Hp in E1. injection E1 as <-.
  split; [exact E2|]. eapply leg_of_point; exact E2.
Qed.
Lemma flat_sln_rows (shift : R) (roots : solver) (t : list entry) (legs : list leg) (K : strike_arg) (cp : type_arg) (vol : list R) (y : flat_search) (rows : list detail) (fl : option (R * R)) :
  price_per_flat_vol_sln shift roots t legs K cp vol y = Ok (rows, fl) -> fl = None /\ accepted K cp (length legs) /\ length rows = length legs /\
  forall (i : nat) (l : leg), nth_error legs i = Some l -> exists d k c v, nth_error rows i = Some d /\ interpolate_leg shift roots t l = Ok (g_point d) /\
    used (strike_list K) i k /\ used (type_list cp) i c /\ used vol i v /\ valued76 shift l k c v d.
Proof.
  unfold price_per_flat_vol_sln, price_optionlets. intros H. apply bind_ok in H as [u [V H]]. apply bind_ok in H as [pts [P H]]. apply bind_ok in H as [cols [C H]]. apply bind_ok in C as [vs [Vs C]]. injection C as <-.
  apply bind_ok in H as [Ks [Hk H]]. apply bind_ok in H as [cps [Hc H]]. cbn [fst snd bind andb] in H. injection H as <- <-. split; [reflexivity|]. split.
  { destruct (validate_spec K cp (length legs)) as [_ N]. destruct (Classical_Prop.classic (accepted K cp (length legs))) as [A|A]; [exact A|]. rewrite (N A) in V. discriminate. }
  apply spread_ok in Vs as [L1 U1]. apply spread_ok in Hk as [L2 U2]. apply spread_ok in Hc as [L3 U3]. destruct (points_length _ _ _ _ _ P) as [L4 U4].
  destruct (rows_nth (row76 shift) pts Ks cps (map Fin vs) (length legs)) as [Lr Nr]; [exact L4|exact L2|exact L3|rewrite map_length; exact L1|]. cbv zeta in Lr, Nr. split; [exact Lr|].
  intros i l Hl. destruct (Nr i (nth_lt _ _ _ Hl)) as (p & k & c & v & N1 & N2 & N3 & N4 & N5). destruct (U4 i l p Hl N1) as [Ip Il]. rewrite nth_error_map in N4. destruct (nth_error vs i) as [v'|] eqn:Ev; [|discriminate]. cbn in N4. injection N4 as <-.
  exists (row76 shift p k c (Fin v')), k, c, v'. split; [exact N5|]. split; [exact Ip|]. split; [auto|]. split; [auto|]. split; [auto|]. rewrite <- Il. apply row76_valued.
Qed.
Lemma flat_n_rows (shift : R) (roots : solver) (t : list entry) (legs : list leg) (K : strike_arg) (cp : type_arg) (vol : list R) (y : flat_search) (rows : list detail) (fl : option (R * R)) :
  price_per_flat_vol_n shift roots t legs K cp vol y = Ok (rows, fl) -> fl = None /\ accepted K cp (length legs) /\ length rows = length legs /\
  forall (i : nat) (l : leg), nth_error legs i = Some l -> exists d k c v, nth_error rows i = Some d /\ interpolate_leg shift roots t l = Ok (g_point d) /\
    used (strike_list K) i k /\ used (type_list cp) i c /\ used vol i v /\ valued_n l k c v d.
Proof.
  unfold price_per_flat_vol_n, price_optionlets. intros H. apply bind_ok in H as [u [V H]]. apply bind_ok in H as [pts [P H]]. apply bind_ok in H as [cols [C H]]. apply bind_ok in C as [vs [Vs C]]. injection C as <-.
  apply bind_ok in H as [Ks [Hk H]]. apply bind_ok in H as [cps [Hc H]]. cbn [fst snd bind andb] in H. injection H as <- <-. split; [reflexivity|]. split.
  { destruct (validate_spec K cp (length legs)) as [_ N]. destruct (Classical_Prop.classic (accepted K cp (length legs))) as [A|A]; [exact A|]. rewrite (N A) in V. discriminate. }
  apply spread_ok in Vs as [L1 U1]. apply spread_ok in Hk as [L2 U2]. apply spread_ok in Hc as [L3 U3]. destruct (points_length _ _ _ _ _ P) as [L4 U4].
  destruct (rows_nth row_n pts Ks cps (map Fin vs) (length legs)) as [Lr Nr]; [exact L4|exact L2|exact L3|rewrite map_length; exact L1|]. cbv zeta in Lr, Nr. split; [exact Lr|].
  intros i l Hl. destruct (Nr i (nth_lt _ _ _ Hl)) as (p & k & c & v & N1 & N2 & N3 & N4 & N5). destruct (U4 i l p Hl N1) as [Ip Il]. rewrite nth_error_map in N4. destruct (nth_error vs i) as [v'|] eqn:Ev; [|discriminate]. cbn in N4. injection N4 as <-.
  exists (row_n p k c (Fin v')), k, c, v'. split; [exact N5|]. split; [exact Ip|]. split; [auto|]. split; [auto|]. split; [auto|]. rewrite <- Il. apply row_n_valued.
Qed.
(* volatilities of the smiles of the periods *)
Lemma strike_fits (K : strike_arg) (cp : type_arg) (n : nat) : accepted K cp n -> length (strike_list K) = 1%nat \/ length (strike_list K) = n.
Proof. intros [(k & c & -> & _)|(ks & cs & -> & _ & L & _)]; cbn; auto. Qed.
Lemma type_fits (K : strike_arg) (cp : type_arg) (n : nat) : accepted K cp n -> length (type_list cp) = 1%nat \/ length (type_list cp) = n.
Proof. intros [(k & c & _ & -> & _)|(ks & cs & _ & -> & _ & L & _)]; cbn; auto. Qed.
Lemma smile_vols (shift : R) (pts : list point) (Kl : list R) (v : list num) : pts <> [] -> length Kl = 1%nat \/ length Kl = length pts ->
  calc_sln_vol (mk_smile (map (fun p => l_tau (i_leg p)) pts) (map (fun p => l_F (i_leg p)) pts) (map i_alpha pts) (map i_beta pts) (map i_rho pts) (map i_volvol pts)) Kl [shift] = Ok v ->
  length v = length pts /\ forall (i : nat) (p : point) (k : R), nth_error pts i = Some p -> used Kl i k ->
    exists y, nth_error v i = Some y /\ calc_sln_vol (smile1 (l_tau (i_leg p)) (l_F (i_leg p)) (i_alpha p) (i_beta p) (i_rho p) (i_volvol p)) [k] [shift] = Ok [y].
Proof.
  intros Ne HK H. assert (Lp : (0 < length pts)%nat) by (destruct pts; [contradiction|cbn; lia]). set (s := mk_smile _ _ _ _ _ _) in H.
  destruct (calc_elementwise s (length pts) Kl shift) as (w & W1 & W2 & W3).
  - unfold smile_ok, s. cbn. rewrite !map_length. repeat split.
  - exact Lp.
  - intros ->. cbn in HK. lia.
  - tauto.
  - rewrite H in W1. injection W1 as <-. rewrite Nat.max_l in W2, W3 by (destruct HK; lia). split; [exact W2|]. intros i p k Hp Uk.
    apply (W3 i); try (left; unfold s; cbn; rewrite nth_error_map, Hp; reflexivity); [exact Uk|]. eapply nth_lt; exact Hp.
Qed.
Lemma term_rows (shift : R) (roots : solver) (t : list entry) (legs : list leg) (K : strike_arg) (cp : type_arg) (solve : bool) (y : flat_search) (rows : list detail) (fl : option (R * R)) :
  price_per_term_structure shift roots t legs K cp solve y = Ok (rows, fl) -> legs <> [] -> accepted K cp (length legs) /\ length rows = length legs /\ (solve = false -> fl = None) /\
  forall (i : nat) (l : leg), nth_error legs i = Some l -> exists d p k c, nth_error rows i = Some d /\ interpolate_leg shift roots t l = Ok p /\ g_point d = p /\
    used (strike_list K) i k /\ used (type_list cp) i c /\ g_K d = k /\ g_cp d = c /\ calc_sln_vol (smile1 (l_tau l) (l_F l) (i_alpha p) (i_beta p) (i_rho p) (i_volvol p)) [k] [shift] = Ok [g_vol d] /\
    forall v, g_vol d = Fin v -> valued76 shift l k c v d.
Proof.
  unfold price_per_term_structure, price_optionlets. intros H Ne. apply bind_ok in H as [u [V H]]. apply bind_ok in H as [pts [P H]]. apply bind_ok in H as [cols [C H]]. apply bind_ok in C as [vs [Vs C]]. injection C as <-.
  apply bind_ok in H as [Ks [Hk H]]. apply bind_ok in H as [cps [Hc H]]. cbn [fst snd bind andb] in H.
  assert (A : accepted K cp (length legs)).
  { destruct (validate_spec K cp (length legs)) as [_ N]. destruct (Classical_Prop.classic (accepted K cp (length legs))) as [A|A]; [exact A|]. rewrite (N A) in V. discriminate. }
  split; [exact A|]. apply spread_ok in Hk as [L2 U2]. apply spread_ok in Hc as [L3 U3]. destruct (points_length _ _ _ _ _ P) as [L4 U4].
  assert (Np : pts <> []) by (intros ->; destruct legs; [contradiction|discriminate]).
  destruct (smile_vols shift pts (strike_list K) vs Np) as [L1 U1]; [destruct (strike_fits _ _ _ A); [left; assumption|right; congruence]|exact Vs|].
  destruct (rows_nth (row76 shift) pts Ks cps vs (length legs)) as [Lr Nr]; [exact L4|exact L2|exact L3|congruence|]. cbv zeta in Lr, Nr.
  set (rs := map (fun z : point * (R * (R * num)) => let '(p, (k, (c, s))) := z in row76 shift p k c s) (combine pts (combine Ks (combine cps vs)))) in *.
  assert (E : rows = rs /\ (solve = false -> fl = None)).
  { destruct solve; [|injection H as <- <-; auto]. apply bind_ok in H as [s [_ H]]. apply bind_ok in H as [m [_ H]]. injection H as <- <-. split; [reflexivity|discriminate]. }
  destruct E as [-> Ef]. split; [exact Lr|]. split; [exact Ef|].
  intros i l Hl. destruct (Nr i (nth_lt _ _ _ Hl)) as (p & k & c & v & N1 & N2 & N3 & N4 & N5). destruct (U4 i l p Hl N1) as [Ip Il].
  destruct (U1 i p k N1 (U2 i k N2)) as (v' & V1 & V2). rewrite N4 in V1. injection V1 as <-.
  exists (row76 shift p k c v), p, k, c. split; [exact N5|]. split; [exact Ip|]. split; [reflexivity|]. split; [auto|]. split; [auto|]. split; [reflexivity|]. split; [reflexivity|]. split; [rewrite <- Il; exact V2|].
  intros v' Ev. cbn in Ev. subst v. rewrite <- Il. apply row76_valued.
Qed.

(* calls and puts: the same schedule, strikes and volatilities *)
Definition one_type (n : nat) (c : R) (cp : type_arg) : Prop := forall (i : nat) (x : R), (i < n)%nat -> used (type_list cp) i x -> x = c.
Lemma used_fun (l : list R) (n i : nat) (x y : R) : length l = 1%nat \/ length l = n -> (i < n)%nat -> used l i x -> used l i y -> x = y.
Proof.
  intros L Hi [Hx|Hx] [Hy|Hy]; try congruence; subst; destruct i as [|[|i]]; cbn in *; congruence.
Qed.

(* ---- acceptance and refusal ---- *)
Lemma spread_fits (n : nat) (l : list R) : length l = 1%nat \/ length l = n -> exists m, spread n l = Ok m.
Proof.
  intros H. unfold spread. destruct l as [|x [|z l]]; [|eauto|]; (destruct H as [H|H]; [discriminate|rewrite H, Nat.eqb_refl; cbn [guard bind]; eauto]).
Qed.
Lemma flat_accepts (shift : R) (roots : solver) (t : list entry) (legs : list leg) (pts : list point) (K : strike_arg) (cp : type_arg) (vol : list R) (y : flat_search) :
  accepted K cp (length legs) -> interpolate_table shift roots t legs = Ok pts -> length vol = 1%nat \/ length vol = length legs ->
  (exists rows, price_per_flat_vol_sln shift roots t legs K cp vol y = Ok (rows, None)) /\ exists rows, price_per_flat_vol_n shift roots t legs K cp vol y = Ok (rows, None).
Proof.
  intros A P L. destruct (validate_spec K cp (length legs)) as [V _]. destruct (spread_fits _ _ L) as [vs Hv]. destruct (spread_fits _ _ (strike_fits _ _ _ A)) as [Ks Hk]. destruct (spread_fits _ _ (type_fits _ _ _ A)) as [cs Hc].
  split; eexists; unfold price_per_flat_vol_sln, price_per_flat_vol_n, price_optionlets; rewrite (V A), P; cbn [bind]; rewrite Hv, Hk, Hc; cbn [bind fst snd andb]; reflexivity.
Qed.
Lemma spread_misfits (n : nat) (l : list R) : length l <> 1%nat -> length l <> n -> spread n l = Err ValueError.
Proof. intros A B. apply Nat.eqb_neq in B. unfold spread. destruct l as [|x [|z l]]; [|contradiction A; reflexivity|]; rewrite B; reflexivity. Qed.
Lemma flat_refuses (shift : R) (roots : solver) (t : list entry) (legs : list leg) (pts : list point) (K : strike_arg) (cp : type_arg) (vol : list R) (y : flat_search) :
  accepted K cp (length legs) -> interpolate_table shift roots t legs = Ok pts -> length vol <> 1%nat -> length vol <> length legs ->
  price_per_flat_vol_sln shift roots t legs K cp vol y = Err ValueError /\ price_per_flat_vol_n shift roots t legs K cp vol y = Err ValueError.
Proof.
  intros A P L1 L2. destruct (validate_spec K cp (length legs)) as [V _].
  split; unfold price_per_flat_vol_sln, price_per_flat_vol_n, price_optionlets; rewrite (V A), P; cbn [bind]; rewrite (spread_misfits _ _ L1 L2); reflexivity.
Qed.
Lemma price_refuses (shift : R) (roots : solver) (t : list entry) (legs : list leg) (K : strike_arg) (cp : type_arg) (vs vn : option (list R)) (ut sf : bool) (y : flat_search) :
  ~ accepted K cp (length legs) -> price_optionlets shift roots t legs K cp vs vn ut sf y = Err AssertionError.
Proof. intros A. unfold price_optionlets. destruct (validate_spec K cp (length legs)) as [_ N]. rewrite (N A). reflexivity. Qed.
Lemma no_vol (shift : R) (roots : solver) (t : list entry) (legs : list leg) (pts : list point) (K : strike_arg) (cp : type_arg) (sf : bool) (y : flat_search) :
  accepted K cp (length legs) -> interpolate_table shift roots t legs = Ok pts -> price_optionlets shift roots t legs K cp None None false sf y = Err KeyError.
Proof.
  intros A P. unfold price_optionlets. destruct (validate_spec K cp (length legs)) as [V _]. rewrite (V A), P. cbn [bind].
  destruct (spread_fits _ _ (strike_fits _ _ _ A)) as [Ks ->]. destruct (spread_fits _ _ (type_fits _ _ _ A)) as [cs ->]. reflexivity.
Qed.
Lemma both_vols (shift : R) (roots : solver) (t : list entry) (legs : list leg) (pts : list point) (K : strike_arg) (cp : type_arg) (vs vn : list R) (sf : bool) (y : flat_search) :
  accepted K cp (length legs) -> interpolate_table shift roots t legs = Ok pts -> length vs = 1%nat \/ length vs = length legs ->
  price_optionlets shift roots t legs K cp (Some vs) (Some vn) false sf y = Err KeyError.
Proof.
  intros A P L. unfold price_optionlets. destruct (validate_spec K cp (length legs)) as [V _]. rewrite (V A), P. cbn [bind]. destruct (spread_fits _ _ L) as [w ->]. cbn [bind].
  destruct (spread_fits _ _ (strike_fits _ _ _ A)) as [Ks ->]. destruct (spread_fits _ _ (type_fits _ _ _ A)) as [cs ->]. reflexivity.
Qed.

(* ---- equivalent flat volatilities ---- *)
Lemma flat_vols (shift : R) (roots : solver) (t : list entry) (legs : list leg) (K : strike_arg) (cp : type_arg) (y y' : flat_search) (rows : list detail) (s m : R) : legs <> [] ->
  price_per_term_structure shift roots t legs K cp true y = Ok (rows, Some (s, m)) ->
  exists rows76 rowsn, price_per_flat_vol_sln shift roots t legs K cp [s] y' = Ok (rows76, None) /\ price_per_flat_vol_n shift roots t legs K cp [m] y' = Ok (rowsn, None) /\
    ((exists f v, nsum (map g_price rows) = Fin v /\ v <> 0 /\ nsum (map g_price rows76) = Fin f /\ close_to v f) \/
     (exists err b val, run err (y_lbfgs y) = Ended (Minimum s b val) /\ (b = true \/ abs_below (/ 100000 * / 100000) val = true))) /\
    ((exists f v, nsum (map g_price rows) = Fin v /\ v <> 0 /\ nsum (map g_price rowsn) = Fin f /\ close_to v f) \/
     (exists err b val, run err (y_lbfgs_n y) = Ended (Minimum m b val) /\ (b = true \/ abs_below (/ 100000 * / 100000) val = true))).
Proof.
  intros Ne H. unfold price_per_term_structure, price_optionlets in H. apply bind_ok in H as [u [V H]]. apply bind_ok in H as [pts [P H]]. apply bind_ok in H as [cols [C H]]. apply bind_ok in C as [vs [Vs C]]. injection C as <-.
  apply bind_ok in H as [Ks [Hk H]]. apply bind_ok in H as [cps [Hc H]]. cbn [fst snd bind andb] in H. apply bind_ok in H as [s' [S1 H]]. apply bind_ok in H as [m' [S2 H]]. injection H as <- <- <-.
  assert (A : accepted K cp (length legs)).
  { destruct (validate_spec K cp (length legs)) as [_ N]. destruct (Classical_Prop.classic (accepted K cp (length legs))) as [A|A]; [exact A|]. rewrite (N A) in V. discriminate. }
  unfold price_per_flat_vol_sln, price_per_flat_vol_n, price_optionlets. rewrite V, P. cbn [bind]. rewrite Hk, Hc. cbn [bind spread fst snd andb].
  eexists. eexists. split; [reflexivity|]. split; [reflexivity|].
  apply spread_ok in Hk as [L2 _]. apply spread_ok in Hc as [L3 _]. destruct (points_length _ _ _ _ _ P) as [L4 _].
  set (rs := map (fun z : point * (R * (R * num)) => let '(p, (k, (c, s))) := z in row76 shift p k c s) (combine pts (combine Ks (combine cps vs)))) in *.
  assert (Lv : length vs = length legs).
  { destruct (smile_vols shift pts (strike_list K) vs) as [L1 _]; [intros ->; destruct legs; [contradiction|discriminate]|destruct (strike_fits _ _ _ A); [left; assumption|right; congruence]|exact Vs|congruence]. }
  assert (An : map g_ann rs = map (fun p => l_yf (i_leg p) * l_df (i_leg p)) pts).
  { apply nth_ext_error. intros i. rewrite !nth_error_map. destruct (rows_nth (row76 shift) pts Ks cps vs (length legs)) as [Lr Nr]; [assumption..|]. cbv zeta in Lr, Nr. fold rs in Lr, Nr. destruct (Nat.lt_ge_cases i (length legs)) as [Li|Li].
    - destruct (Nr i Li) as (p & k & c & v & N1 & N2 & N3 & N4 & N5). rewrite N1, N5. reflexivity.
    - replace (nth_error rs i) with (@None detail) by (symmetry; apply nth_error_None; lia). replace (nth_error pts i) with (@None point) by (symmetry; apply nth_error_None; lia). reflexivity. }
  split.
  - apply solver_ok in S1 as [(ps & Sm & x & E1 & E2 & E3 & E4 & E5)|(b & val & E1 & E2)]; [left|right; exists (error_function (b76_prices (mk_b76 (map (fun p => l_F (i_leg p)) pts) (map (fun p => l_tau (i_leg p)) pts) cps Ks [] [shift] (map g_ann rs))) (nsum (map g_price rs)) true), b, val; auto].
    exists Sm, x. split; [exact E3|]. split; [exact E4|]. split; [|exact E5]. rewrite <- E2. f_equal. rewrite An in E1.
    unfold b76_prices in E1. apply bind_ok in E1 as [r [Hr E1]]. injection E1 as <-. apply nth_ext_error. intros i.
    destruct (rows_nth (row76 shift) pts Ks cps (map Fin (repeat s' (length legs))) (length legs)) as [Lr Nr]; [assumption..|rewrite map_length, repeat_length; reflexivity|]. cbv zeta in Lr, Nr.
    assert (Lp : length (p_price r) = length legs).
    { destruct (proj1 (b76_accepts (b76_with_vol (mk_b76 (map (fun p => l_F (i_leg p)) pts) (map (fun p => l_tau (i_leg p)) pts) cps Ks [] [shift] (map (fun p => l_yf (i_leg p) * l_df (i_leg p)) pts)) s') (length (p_price r)))) as [_ [Fi In]]; [eauto|].
      unfold lens76, b76_with_vol in Fi, In. cbn [b_F b_tau b_cp b_K b_vol b_shift b_annuity length] in Fi, In. rewrite !map_length in Fi, In. rewrite L2, L3, L4 in Fi, In. assert (length legs = 1%nat \/ length legs = length (p_price r)) by (inversion Fi; assumption). destruct legs as [|l1 [|l2 ll]]; [contradiction| |].
      - cbn in In. cbn. intuition lia.
      - destruct H; [discriminate|]. congruence. }
    rewrite nth_error_map. destruct (Nat.lt_ge_cases i (length legs)) as [Li|Li].
    + destruct (Nr i Li) as (p & k & c & v & N1 & N2 & N3 & N4 & N5). rewrite N5. cbn [option_map]. rewrite nth_error_map in N4. destruct (nth_error (repeat s' (length legs)) i) as [v'|] eqn:Ev; [|discriminate]. cbn in N4. injection N4 as <-.
      apply nth_error_In in Ev. apply repeat_spec in Ev. subst v'.
      destruct (b76_elementwise _ _ _ _ _ Hr i (l_F (i_leg p)) (l_tau (i_leg p)) c k s' shift (l_yf (i_leg p) * l_df (i_leg p))) as [B _]; try (left; cbn; rewrite ?nth_error_map, ?N1; reflexivity || assumption); try (right; reflexivity); [lia|].
      rewrite B. reflexivity.
    + match goal with |- option_map _ ?o = _ => replace o with (@None detail) by (symmetry; apply nth_error_None; lia) end. symmetry. apply nth_error_None. lia.
  - apply solver_ok in S2 as [(ps & Sm & x & E1 & E2 & E3 & E4 & E5)|(b & val & E1 & E2)]; [left|right; exists (error_function (bach_prices (mk_bach (map (fun p => l_F (i_leg p)) pts) (map (fun p => l_tau (i_leg p)) pts) cps Ks [] (map g_ann rs))) (nsum (map g_price rs)) true), b, val; auto].
    exists Sm, x. split; [exact E3|]. split; [exact E4|]. split; [|exact E5]. rewrite <- E2. f_equal. rewrite An in E1.
    unfold bach_prices in E1. apply bind_ok in E1 as [r [Hr E1]]. injection E1 as <-. apply nth_ext_error. intros i.
    destruct (rows_nth row_n pts Ks cps (map Fin (repeat m' (length legs))) (length legs)) as [Lr Nr]; [assumption..|rewrite map_length, repeat_length; reflexivity|]. cbv zeta in Lr, Nr.
    assert (Lp : length (p_price r) = length legs).
    { destruct (proj1 (bach_accepts (bach_with_vol (mk_bach (map (fun p => l_F (i_leg p)) pts) (map (fun p => l_tau (i_leg p)) pts) cps Ks [] (map (fun p => l_yf (i_leg p) * l_df (i_leg p)) pts)) m') (length (p_price r)))) as [_ [Fi In]]; [eauto|].
      unfold lens_n, bach_with_vol in Fi, In. cbn [n_F n_tau n_cp n_K n_vol n_annuity length] in Fi, In. rewrite !map_length in Fi, In. rewrite L2, L3, L4 in Fi, In. assert (length legs = 1%nat \/ length legs = length (p_price r)) by (inversion Fi; assumption). destruct legs as [|l1 [|l2 ll]]; [contradiction| |].
      - cbn in In. cbn. intuition lia.
      - destruct H; [discriminate|]. congruence. }
    rewrite nth_error_map. destruct (Nat.lt_ge_cases i (length legs)) as [Li|Li].
    + destruct (Nr i Li) as (p & k & c & v & N1 & N2 & N3 & N4 & N5). rewrite N5. cbn [option_map]. rewrite nth_error_map in N4. destruct (nth_error (repeat m' (length legs)) i) as [v'|] eqn:Ev; [|discriminate]. cbn in N4. injection N4 as <-.
      apply nth_error_In in Ev. apply repeat_spec in Ev. subst v'.
      destruct (bach_elementwise _ _ _ _ _ Hr i (l_F (i_leg p)) (l_tau (i_leg p)) c k m' (l_yf (i_leg p) * l_df (i_leg p))) as [B _]; try (left; cbn; rewrite ?nth_error_map, ?N1; reflexivity || assumption); try (right; reflexivity); [lia|].
      rewrite B. reflexivity.
    + match goal with |- option_map _ ?o = _ => replace o with (@None detail) by (symmetry; apply nth_error_None; lia) end. symmetry. apply nth_error_None. lia.
Qed.
