From Coq Require Import ZArith Reals List Bool Lra Lia Sorted.
From Verif Require Import Base NumModel NormalModel NormalProofs BsProofs BlackModel BlackSpec BlackProofs BlackVecProofs SabrModel SabrSpec SabrProofs SabrSmileProofs OptionletModel OptionletSpec OptionletProofs.
Import ListNotations.
Open Scope R_scope.

(* ---- interpolation between two points ---- *)
Lemma lin2_line (X0 X1 Y0 Y1 x : R) : X0 < X1 -> X0 <= x <= X1 -> on_line X0 Y0 X1 Y1 x (lin2 X0 X1 Y0 Y1 x).
Proof.
  intros H [A B]. unfold on_line, lin2, place_of. destruct (Rlt_dec X1 x); [lra|]. destruct (Rlt_dec x X0); [lra|].
  destruct (Rle_dec X1 x); [assert (x = X1) as -> by lra; ring|]. destruct (Req_EM_T x X0) as [->|]; [ring|]. field. lra.
Qed.
Lemma lin2_right (X0 X1 Y0 Y1 : R) : X0 <= X1 -> lin2 X0 X1 Y0 Y1 X1 = Y1.
Proof.
  intros H. unfold lin2, place_of. destruct (Rlt_dec X1 X1); [reflexivity|]. destruct (Rlt_dec X1 X0); [lra|].
  destruct (Rle_dec X1 X1); [reflexivity|lra].
Qed.
Lemma lin2_flat (X0 X1 Y x : R) : lin2 X0 X1 Y Y x = Y.
Proof. unfold lin2. destruct (place_of X0 X1 x); try reflexivity. unfold Rdiv. ring. Qed.
Lemma lin2_between (X0 X1 Y0 Y1 x lo hi : R) : lo <= Y0 <= hi -> lo <= Y1 <= hi -> lo <= lin2 X0 X1 Y0 Y1 x <= hi.
Proof.
  intros H0 H1. unfold lin2. destruct (place_of X0 X1 x) eqn:E; try assumption.
  unfold place_of in E. destruct (Rlt_dec X1 x); [discriminate|]. destruct (Rlt_dec x X0); [discriminate|]. destruct (Rle_dec X1 x); [discriminate|].
  destruct (Req_EM_T x X0); [discriminate|].
  set (w := (x - X0) / (X1 - X0)).
  assert (W : 0 <= w <= 1).
  { unfold w. split; [apply Rmult_le_pos; [lra|apply Rlt_le, Rinv_0_lt_compat; lra]|].
    apply Rmult_le_reg_r with (X1 - X0); [lra|]. unfold Rdiv. rewrite Rmult_assoc, Rinv_l by lra. lra. }
  replace ((Y1 - Y0) / (X1 - X0) * (x - X0) + Y0) with (Y0 + w * (Y1 - Y0)) by (unfold w; field; lra). split; nra.
Qed.
Lemma lin2_num_fin (X0 X1 Y0 Y1 x : R) : lin2_num X0 X1 (Fin Y0) (Fin Y1) x = Fin (lin2 X0 X1 Y0 Y1 x).
Proof.
  unfold lin2_num, lin2. destruct (place_of X0 X1 x) eqn:E; try reflexivity.
  unfold place_of in E. destruct (Rlt_dec X1 x); [discriminate|]. destruct (Rlt_dec x X0); [discriminate|]. destruct (Rle_dec X1 x); [discriminate|].
  cbn [sub neg add]. rewrite div_fin by lra. reflexivity.
Qed.

(* ---- updates of the rows of one quote ---- *)
Lemma labelled_nth {A} (l : list A) (i : nat) : nth_error (labelled l) i = option_map (fun x => (i, x)) (nth_error l i).
Proof.
  unfold labelled. assert (G : forall n, nth_error (combine (seq n (length l)) l) i = option_map (fun x => ((n + i)%nat, x)) (nth_error l i)); [|exact (G 0%nat)].
  revert i. induction l as [|x l IH]; intros i n; cbn; [destruct i; reflexivity|]. destruct i as [|i]; cbn; [rewrite Nat.add_0_r; reflexivity|].
  rewrite IH. destruct (nth_error l i); cbn; [|reflexivity]. do 2 f_equal. lia.
Qed.
Lemma nth_ext_error {A} (l m : list A) : (forall i, nth_error l i = nth_error m i) -> l = m.
Proof.
  revert m. induction l as [|x l IH]; intros [|y m] H; [reflexivity|discriminate (H 0%nat)|discriminate (H 0%nat)|].
  pose proof (H 0%nat) as H0. injection H0 as ->. f_equal. apply IH. intros i. exact (H (S i)).
Qed.
Lemma forall2_mono {A B} (P Q : A -> B -> Prop) (l : list A) (m : list B) : (forall a b, P a b -> Q a b) -> Forall2 P l m -> Forall2 Q l m.
Proof. induction 2; constructor; auto. Qed.
Lemma update_ok (q : nat) (f : nat -> entry -> result entry) (t t' : list entry) : update q f t = Ok t' <->
  length t' = length t /\ forall (i : nat) (e : entry), nth_error t i = Some e ->
    exists e', nth_error t' i = Some e' /\ (if Nat.eqb (e_nb e) q then f i e else Ok e) = Ok e'.
Proof.
  unfold update. rewrite sequence_ok. split.
  - intros H. assert (L : length t' = length t).
    { apply (f_equal (@length _)) in H. rewrite !map_length in H. unfold labelled in H. rewrite combine_length, seq_length, Nat.min_id in H. symmetry. exact H. }
    split; [exact L|]. intros i e Hi. apply (f_equal (fun l => nth_error l i)) in H. rewrite !nth_error_map, labelled_nth, Hi in H. cbn in H.
    destruct (nth_error t' i) as [e'|]; [|discriminate]. cbn in H. injection H as H. exists e'. split; [reflexivity|exact H].
  - intros [L H]. apply nth_ext_error. intros i. rewrite !nth_error_map, labelled_nth.
    destruct (nth_error t i) as [e|] eqn:Hi.
    + destruct (H i e Hi) as [e' [E1 E2]]. rewrite E1. cbn. f_equal. exact E2.
    + cbn. apply nth_error_None in Hi. rewrite <- L in Hi. apply nth_error_None in Hi. rewrite Hi. reflexivity.
Qed.

(* ---- the pillar of a quote ---- *)
Lemma select_last (p : nat -> bool) (t : list entry) (i : nat) (e : entry) (l : list (nat * entry)) : rev (select p t) = (i, e) :: l ->
  nth_error t i = Some e /\ p (e_nb e) = true /\ forall (j : nat) (f : entry), (i < j)%nat -> nth_error t j = Some f -> p (e_nb f) = false.
Proof.
  intros H. assert (I : In (i, e) (select p t)) by (apply in_rev; rewrite H; left; reflexivity).
  apply select_nth in I as [I P]. split; [exact I|]. split; [exact P|]. intros j f Hj Hf.
  destruct (p (e_nb f)) eqn:Pf; [exfalso|reflexivity].
  (* labels ascend *)
  assert (G : forall (m : list entry) (n : nat), Sorted (fun a b => (fst a < fst b)%nat) (filter (fun e => p (e_nb (snd e))) (combine (seq n (length m)) m)) /\
      forall z, In z (filter (fun e => p (e_nb (snd e))) (combine (seq n (length m)) m)) -> (n <= fst z)%nat).
  { induction m as [|x m IH]; intros n; cbn; [split; [constructor|contradiction]|]. destruct (IH (S n)) as [S1 S2].
    destruct (p (e_nb x)).
    - split; [constructor; [exact S1|]|].
      + destruct (filter _ _) as [|z r] eqn:Ez; constructor. cbn. specialize (S2 z (or_introl eq_refl)). lia.
      + intros z [<-|Hz]; cbn; [lia|]. specialize (S2 z Hz). lia.
    - split; [exact S1|]. intros z Hz. specialize (S2 z Hz). lia. }
  destruct (G t 0%nat) as [S1 _]. fold (labelled t) in S1. fold (select p t) in S1.
  assert (St : StronglySorted (fun a b : nat * entry => (fst a < fst b)%nat) (select p t)) by (apply Sorted_StronglySorted; [intros a b c; lia|exact S1]).
  assert (Ij : In (j, f) (select p t)) by (apply select_nth; auto).
  assert (Es : select p t = rev l ++ [(i, e)]) by (rewrite <- (rev_involutive (select p t)), H; reflexivity).
  rewrite Es in St, Ij. apply in_app_or in Ij as [Ij|[Ij|[]]]; [|injection Ij as <- <-; lia].
  clear - St Ij Hj. induction (rev l) as [|z r IH]; [contradiction|]. cbn in St. inversion St; subst. destruct Ij as [->|Ij]; [|apply IH; assumption].
  rewrite Forall_forall in H2. specialize (H2 (i, e)). cbn in H2. assert (j < i)%nat by (apply H2; apply in_or_app; right; left; reflexivity). lia.
Qed.
Lemma pillar_spec (p : nat -> bool) (t : list entry) (i : nat) : pillar p t = Ok i -> (exists k f, nth_error t k = Some f /\ p (e_nb f) = true) ->
  exists e, nth_error t i = Some e /\ last_row p t e.
Proof.
  intros H [k [f [Hk Pf]]]. unfold pillar in H. destruct t as [|e0 t0]; [discriminate|]. set (t := e0 :: t0) in *.
  destruct (rev (select p t)) as [|[j e] l] eqn:E.
  - exfalso. assert (I : In (k, f) (select p t)) by (apply select_nth; auto). apply in_rev in I. rewrite E in I. contradiction.
  - injection H as <-. destruct (select_last p t j e l E) as (A & B & C). exists e. split; [exact A|]. exists j. auto.
Qed.
Lemma pillar_ok (p : nat -> bool) (t : list entry) : t <> [] -> exists i e, pillar p t = Ok i /\ nth_error t i = Some e.
Proof.
  intros N. unfold pillar. destruct t as [|e0 t0]; [contradiction|]. set (t := e0 :: t0) in *. destruct (rev (select p t)) as [|[j e] l] eqn:E.
  - exists (length t - 1)%nat. destruct (nth_error t (length t - 1)) as [e|] eqn:En; [eauto|]. apply nth_error_None in En. unfold t in En. cbn in En. lia.
  - exists j, e. destruct (select_last p t j e l E) as (A & _). auto.
Qed.
Lemma last_row_fun (p : nat -> bool) (t : list entry) (a b : entry) : last_row p t a -> last_row p t b -> a = b.
Proof.
  intros (i & A1 & A2 & A3) (j & B1 & B2 & B3). destruct (Nat.lt_trichotomy i j) as [L|[L|L]].
  - rewrite (A3 j b L B1) in B2. discriminate.
  - subst. congruence.
  - rewrite (B3 i a L A1) in A2. discriminate.
Qed.

(* ---- the volatilities at the money ---- *)
Lemma atm_rows (shift : R) (q : nat) (cp K : R) (px : num) (n : R) (x : searches) (t t' : list entry) : solve_vol_n_atm shift q cp K px n x t = Ok t' ->
  exists curve, atm_curve shift q cp K px n x t = Ok curve /\ length t' = length t /\ forall (i : nat) (e : entry), nth_error t i = Some e ->
    (e_nb e <> q -> nth_error t' i = Some e) /\
    (e_nb e = q -> exists s, nth_error t' i = Some (mk_entry (e_row e) q (Some (curve (c_tau (e_row e)), s)) (e_sabr e)) /\
       normal_vol_to_black76_sln (c_F (e_row e)) (c_tau (e_row e)) (c_F (e_row e)) (curve (c_tau (e_row e))) shift (x_sln x i) = Ok s).
Proof.
  unfold solve_vol_n_atm. intros H. apply bind_ok in H as [curve [C H]]. exists curve. split; [exact C|]. apply update_ok in H as [L H]. split; [exact L|].
  intros i e Hi. destruct (H i e Hi) as [e' [E1 E2]]. destruct (Nat.eqb_spec (e_nb e) q) as [Eq|Ne].
  - split; [contradiction|]. intros _. apply bind_ok in E2 as [s [S E2]]. injection E2 as <-. exists s. rewrite Eq in E1. split; assumption.
  - injection E2 as <-. split; [auto|contradiction].
Qed.
Lemma atm_first (shift : R) (cp K : R) (px : num) (n : R) (x : searches) (t t' : list entry) : solve_vol_n_atm shift 0 cp K px n x t = Ok t' ->
  forall (i : nat) (e : entry), nth_error t i = Some e -> e_nb e = 0%nat -> exists s, nth_error t' i = Some (mk_entry (e_row e) 0 (Some (n, s)) (e_sabr e)) /\
    normal_vol_to_black76_sln (c_F (e_row e)) (c_tau (e_row e)) (c_F (e_row e)) n shift (x_sln x i) = Ok s.
Proof.
  intros H i e Hi E0. destruct (atm_rows _ _ _ _ _ _ _ _ _ H) as (curve & C & _ & G). destruct (G i e Hi) as [_ G2]. destruct (G2 E0) as (s & S1 & S2).
  unfold atm_curve in C. cbn in C. apply bind_ok in C as [k [_ C]]. injection C as <-. exists s. auto.
Qed.

(* what the pillar is solved for *)
Lemma problem_ok (shift : R) (q : nat) (cp K : R) (px : num) (x : searches) (t : list entry) (y0 target : num) (price : R -> num) :
  pillar_problem shift q cp K px x t = Ok (y0, target, price) ->
  exists (pi ci : nat) (ep ec : entry) (ps : list (R * R * R * R)) (sln : list num) (r : caplet) (v : R),
    pillar (before q) t = Ok pi /\ pillar (within q) t = Ok ci /\ nth_error t pi = Some ep /\ nth_error t ci = Some ec /\
    sequence (map (fun e => sabr_of (snd e)) (select (before q) t)) = Ok ps /\
    calc_sln_vol (mk_smile (taus (select (before q) t)) (fwds (select (before q) t)) (map (fun p => fst (fst (fst p))) ps) (map (fun p => snd (fst (fst p))) ps)
                                     (map (fun p => snd (fst p)) ps) (map snd ps)) [K] [shift] = Ok sln /\
    (exists i e, In (i, e) (select (before q) t) /\ i = (length (select (before q) t) - 1)%nat /\ r = e_row e) /\
    last_vol sln = Ok (Fin v) /\ black76_sln_to_normal_vol (c_F r) (c_tau r) K v shift (x_brent x) (x_lbfgs x) = Ok y0 /\
    target = sub px (nsum (map (fun z : (nat * entry) * num => caplet_px shift (e_row (snd (fst z))) cp (Fin K) (snd z)) (combine (select (before q) t) sln))) /\
    forall p, price p = nsum (map (fun c => mul (bach_elem (Fin (c_F c)) (Fin (c_tau c)) (Fin cp) (Fin K)
         (lin2_num (c_tau (e_row ep)) (c_tau (e_row ec)) y0 (Fin p) (c_tau c)) (Fin 1)) (Fin (c_ann c))) (map e_row (rows_of (within q) t))).
Proof.
  unfold pillar_problem. intros H. apply bind_ok in H as [pi [P H]]. apply bind_ok in H as [ci [Q H]]. apply bind_ok in H as [ps [S H]]. apply bind_ok in H as [sln [V H]].
  apply bind_ok in H as [r [Rr H]]. apply bind_ok in H as [vl [L H]]. apply bind_ok in H as [y [Y H]]. apply bind_ok in H as [ep [E1 H]]. apply bind_ok in H as [ec [E2 H]].
  injection H as -> <- <-. destruct vl as [v | | |]; try discriminate.
  unfold row_at in E1, E2. destruct (nth_error t pi) eqn:N1; [|discriminate]. destruct (nth_error t ci) eqn:N2; [|discriminate]. injection E1 as ->. injection E2 as ->.
  exists pi, ci, ep, ec, ps, sln, r, v. repeat (split; [assumption || reflexivity |]). split; [|split; [exact L|split; [exact Y|split; [reflexivity|]]]].
  - change (fun n => Nat.ltb n q) with (before q) in *. destruct (select (before q) t) as [|z0 z] eqn:Es; [discriminate|].
    destruct (find _ (z0 :: z)) as [[i e]|] eqn:Fd; [|discriminate]. injection Rr as <-. apply find_some in Fd as [F1 F2]. apply Nat.eqb_eq in F2. cbn [fst] in F2. exists i, e. auto.
  - intros p. unfold rows_of. rewrite <- select_snd, !map_map. reflexivity.
Qed.

Lemma current_price (shift cp K X0 X1 y p : R) (rows : list caplet) : Forall (fun c => 0 < c_tau c) rows -> Forall (fun c => 0 < lin2 X0 X1 y p (c_tau c)) rows ->
  exists tot, nsum (map (fun c => mul (bach_elem (Fin (c_F c)) (Fin (c_tau c)) (Fin cp) (Fin K) (lin2_num X0 X1 (Fin y) (Fin p) (c_tau c)) (Fin 1)) (Fin (c_ann c))) rows) = Fin tot
    /\ capfloor_value_n cp K (fun c => lin2 X0 X1 y p (c_tau c)) rows tot.
Proof.
  intros T V. assert (E : exists ps, Forall2 (fun c q => mul (bach_elem (Fin (c_F c)) (Fin (c_tau c)) (Fin cp) (Fin K) (lin2_num X0 X1 (Fin y) (Fin p) (c_tau c)) (Fin 1)) (Fin (c_ann c)) = Fin q
       /\ price_n (c_F c) (c_tau c) cp K (lin2 X0 X1 y p (c_tau c)) (c_ann c) = Fin q) rows ps).
  { induction rows as [|c rows IH]; [exists []; constructor|]. inversion T; subst. inversion V; subst. destruct IH as [ps Hp]; try assumption.
    pose proof (total_pos _ _ H3 H1) as W. exists (c_ann c * nrm cp (c_F c) K (lin2 X0 X1 y p (c_tau c) * sqrt (c_tau c)) :: ps). constructor; [|exact Hp].
    rewrite lin2_num_fin, price_n_fin by lra. split; [|reflexivity]. rewrite bach_elem_fin by lra. cbn [mul]. f_equal. ring. }
  destruct E as [ps Hp]. exists (sum_over (fun p => p) ps). split.
  - apply (nsum_forall2 (fun c => mul (bach_elem (Fin (c_F c)) (Fin (c_tau c)) (Fin cp) (Fin K) (lin2_num X0 X1 (Fin y) (Fin p) (c_tau c)) (Fin 1)) (Fin (c_ann c))) rows ps).
    eapply forall2_mono; [|exact Hp]. intros a b [H _]. exact H.
  - exists ps. split; [|reflexivity]. eapply forall2_mono; [|exact Hp]. intros a b [_ H]. exact H.
Qed.

(* ---- the rows already solved ---- *)
Lemma prior_vols (prior : list (nat * entry)) (ps : list (R * R * R * R)) (sln : list num) (K shift : R) : prior <> [] ->
  sequence (map (fun e => sabr_of (snd e)) prior) = Ok ps ->
  calc_sln_vol (mk_smile (taus prior) (fwds prior) (map (fun p => fst (fst (fst p))) ps) (map (fun p => snd (fst (fst p))) ps)
                                     (map (fun p => snd (fst p)) ps) (map snd ps)) [K] [shift] = Ok sln ->
  length sln = length prior /\ forall (i : nat) (z : nat * entry), nth_error prior i = Some z ->
    exists a b r v y, e_sabr (snd z) = Some (a, b, r, v) /\ nth_error sln i = Some y /\ calc_sln_vol (smile1 (c_tau (e_row (snd z))) (c_F (e_row (snd z))) a b r v) [K] [shift] = Ok [y].
Proof.
  intros Ne Sq Cv. apply sequence_ok in Sq. assert (Lp : length ps = length prior) by (apply (f_equal (@length _)) in Sq; rewrite !map_length in Sq; auto).
  set (s := mk_smile _ _ _ _ _ _) in Cv.
  assert (So : smile_ok s (length prior)) by (unfold smile_ok, s, taus, fwds; cbn; rewrite !map_length; repeat split; assumption || reflexivity).
  assert (Pos : (0 < length prior)%nat) by (destruct prior; [contradiction|cbn; lia]).
  destruct (calc_elementwise s (length prior) [K] shift So Pos) as (vols & V1 & V2 & V3); [discriminate|right; left; reflexivity|].
  rewrite Cv in V1. injection V1 as <-. cbn [length] in V2, V3. rewrite Nat.max_l in V2, V3 by lia. split; [exact V2|].
  intros i z Hz. assert (Hs := f_equal (fun l => nth_error l i) Sq). cbv beta in Hs. rewrite !nth_error_map, Hz in Hs. cbn in Hs.
  destruct (nth_error ps i) as [[[[a b] r] v]|] eqn:Hp; [|discriminate]. cbn in Hs. injection Hs as Hs.
  unfold sabr_of in Hs. destruct (e_sabr (snd z)) as [w|] eqn:Ez; [|discriminate]. injection Hs as ->.
  destruct (V3 i (c_tau (e_row (snd z))) (c_F (e_row (snd z))) a b r v K) as (y & Y1 & Y2); try (left; unfold s, taus, fwds; cbn; rewrite nth_error_map, ?Hz, ?Hp; reflexivity).
  - right. reflexivity.
  - apply nth_error_Some. rewrite Hz. discriminate.
  - exists a, b, r, v, y. auto.
Qed.
Lemma prior_total (shift cp K : R) (prior : list (nat * entry)) (sln : list num) (x : R) : length sln = length prior ->
  (forall (i : nat) (z : nat * entry), nth_error prior i = Some z ->
    exists a b r v y, e_sabr (snd z) = Some (a, b, r, v) /\ nth_error sln i = Some y /\ calc_sln_vol (smile1 (c_tau (e_row (snd z))) (c_F (e_row (snd z))) a b r v) [K] [shift] = Ok [y]) ->
  alive shift (map (fun z => e_row (snd z)) prior) -> 0 < K + shift -> sabr_total shift cp K (map snd prior) x ->
  nsum (map (fun z : (nat * entry) * num => caplet_px shift (e_row (snd (fst z))) cp (Fin K) (snd z)) (combine prior sln)) = Fin x.
Proof.
  intros L H Al HK [xs [Hx ->]]. apply nsum_forall2. revert sln xs L H Al Hx. induction prior as [|z prior IH]; intros [|y sln] xs L H Al Hx; try discriminate; cbn in Hx.
  - inversion Hx; subst. constructor.
  - inversion Hx as [|? p ? xs' Hp Hr]; subst. cbn. inversion Al as [|? ? [A1 A2] Al']; subst. constructor.
    + destruct (H 0%nat z eq_refl) as (a & b & r & v & y' & E1 & E2 & E3). cbn in E2. injection E2 as <-.
      destruct Hp as (a' & b' & r' & v' & vol & G1 & G2 & G3 & G4). rewrite E1 in G1. injection G1 as <- <- <- <-. unfold sabr_vol_is in G3. rewrite E3 in G3. injection G3 as ->.
      cbn [fst snd]. pose proof (total_pos vol _ G2 A2). apply caplet_px_fin; lra || assumption.
    + apply IH; try assumption; [cbn in L; lia|]. intros i w Hw. exact (H (S i) w Hw).
Qed.
Lemma last_vol_nth (l : list num) (v : num) : last_vol l = Ok v -> nth_error l (length l - 1) = Some v /\ (2 <= length l)%nat.
Proof.
  unfold last_vol. intros H. assert (G : (exists r, rev l = v :: r) /\ length l <> 1%nat).
  { destruct l as [|a [|b l]]; [discriminate|discriminate|]. split; [|cbn; lia]. destruct (rev (a :: b :: l)) as [|w r]; [discriminate|]. injection H as ->. eauto. }
  destruct G as [[r Er] N]. assert (El : l = rev r ++ [v]) by (rewrite <- (rev_involutive l), Er; reflexivity).
  rewrite El in *. rewrite app_length in *. cbn in *. split; [|lia]. rewrite nth_error_app2 by lia. replace (length (rev r) + 1 - 1 - length (rev r))%nat with 0%nat by lia. reflexivity.
Qed.
Lemma ordered_before (q : nat) (t : list entry) : ordered t -> prefix_closed (before q) t.
Proof. intros O i j a b Hij Ha Hb H. apply Nat.ltb_lt in H. apply Nat.ltb_lt. pose proof (O i j a b Hij Ha Hb). lia. Qed.
Lemma last_of_select (p : nat -> bool) (t : list entry) (i : nat) (e : entry) : pillar p t = Ok i -> nth_error t i = Some e -> select p t <> [] ->
  nth_error (select p t) (length (select p t) - 1) = Some (i, e).
Proof.
  intros P N Ne. unfold pillar in P. destruct t as [|e0 t0]; [discriminate|]. set (t := e0 :: t0) in *. destruct (rev (select p t)) as [|[j f] l] eqn:E.
  - apply (f_equal (@rev _)) in E. rewrite rev_involutive in E. contradiction.
  - injection P as ->. destruct (select_last p t i f l E) as (A & _). rewrite N in A. injection A as <-.
    assert (Es : select p t = rev l ++ [(i, e)]) by (rewrite <- (rev_involutive (select p t)), E; reflexivity).
    rewrite Es, app_length. cbn. rewrite nth_error_app2 by lia. replace (length (rev l) + 1 - 1 - length (rev l))%nat with 0%nat by lia. reflexivity.
Qed.

(* the search for the pillar of a later quote *)
Lemma problem_spec (shift : R) (q : nat) (cp K : R) (px : num) (x : searches) (t : list entry) (y0 target : num) (price : R -> num) : ordered t ->
  pillar_problem shift q cp K px x t = Ok (y0, target, price) ->
  exists (ep ec : entry) (a b r v vol : R),
    last_row (before q) t ep /\ row_at t (match pillar (within q) t with Ok i => i | Err _ => 0%nat end) = Ok ec /\ ((exists i f, nth_error t i = Some f /\ e_nb f = q) -> last_row (within q) t ec) /\
    e_sabr ep = Some (a, b, r, v) /\ sabr_vol_is (c_tau (e_row ep)) (c_F (e_row ep)) a b r v K shift vol /\
    black76_sln_to_normal_vol (c_F (e_row ep)) (c_tau (e_row ep)) K vol shift (x_brent x) (x_lbfgs x) = Ok y0 /\
    (2 <= length (rows_of (before q) t))%nat /\
    (forall S, alive shift (map e_row (rows_of (before q) t)) -> 0 < K + shift -> sabr_total shift cp K (rows_of (before q) t) S -> target = sub px (Fin S)) /\
    (forall y p, y0 = Fin y -> Forall (fun c => 0 < c_tau c) (map e_row (rows_of (within q) t)) ->
       Forall (fun c => 0 < lin2 (c_tau (e_row ep)) (c_tau (e_row ec)) y p (c_tau c)) (map e_row (rows_of (within q) t)) ->
       exists tot, price p = Fin tot /\ capfloor_value_n cp K (fun c => lin2 (c_tau (e_row ep)) (c_tau (e_row ec)) y p (c_tau c)) (map e_row (rows_of (within q) t)) tot).
Proof.
  intros O H. destruct (problem_ok _ _ _ _ _ _ _ _ _ _ H) as (pi & ci & ep & ec & ps & sln & r & v & P1 & P2 & N1 & N2 & Sq & Cv & (i & e & Ie & Li & ->) & Lv & Y & Tg & Pr).
  assert (Ne : select (before q) t <> []) by (intros Es; rewrite Es in Ie; contradiction).
  assert (Ex : exists k f, nth_error t k = Some f /\ before q (e_nb f) = true) by (apply select_nth in Ie as [? ?]; eauto).
  destruct (pillar_spec _ _ _ P1 Ex) as [ep' [N1' Lr]]. rewrite N1 in N1'. injection N1' as <-.
  assert (e = ep) as ->.
  { pose proof (labels_prefix (before q) t (ordered_before q t O)) as Lf. unfold labels_fit in Lf.
    destruct (forallb (fun e => Nat.ltb (fst e) (length (select (before q) t))) (select (before q) t)) eqn:Fb; [|discriminate].
    rewrite forallb_forall in Fb. destruct Lr as (k & K1 & K2 & K3). apply select_nth in Ie as [I1 I2].
    pose proof (Fb (k, ep) (proj2 (select_nth _ _ _ _) (conj K1 K2))) as Fk. apply Nat.ltb_lt in Fk. cbn [fst] in Fk.
    destruct (Nat.lt_trichotomy k i) as [L|[L|L]]; [rewrite (K3 i e L I1) in I2; discriminate|subst k; congruence|lia]. }
  destruct (prior_vols _ _ _ _ _ Ne Sq Cv) as [Ls V]. apply last_vol_nth in Lv as [Lv L2].
  pose proof (last_of_select _ _ _ _ P1 N1 Ne) as Lz. rewrite <- Ls in Lz. destruct (V _ _ Lz) as (a & b & rr & vv & y & V1 & V2 & V3). rewrite Lv in V2. injection V2 as <-. cbn [snd] in V1, V3.
  exists ep, ec, a, b, rr, vv, v. split; [exact Lr|]. split; [rewrite P2; unfold row_at; rewrite N2; reflexivity|]. split.
  { intros [k [f [F1 F2]]]. destruct (pillar_spec _ _ _ P2) as [ec' [N2' Lc]]; [exists k, f; split; [exact F1|apply Nat.eqb_eq; exact F2]|]. rewrite N2 in N2'. injection N2' as <-. exact Lc. }
  split; [exact V1|]. split; [exact V3|]. split; [exact Y|]. split; [|split].
  - unfold rows_of. rewrite <- select_snd, map_length. lia.
  - intros S Al HK St. rewrite Tg. f_equal. apply prior_total; [exact Ls|exact V| |exact HK|].
    + unfold rows_of in Al. rewrite <- select_snd, map_map in Al. exact Al.
    + unfold rows_of in St. rewrite <- select_snd in St. exact St.
  - intros y p -> T1 T2. rewrite Pr. apply current_price; assumption.
Qed.

(* the volatilities of a later quote *)
Lemma atm_later (shift : R) (q : nat) (cp K : R) (px : num) (n : R) (x : searches) (t t' : list entry) : ordered t -> (0 < q)%nat -> (exists i f, nth_error t i = Some f /\ e_nb f = q) ->
  solve_vol_n_atm shift q cp K px n x t = Ok t' ->
  exists (e0 e1 : entry) (n0 s0 a b r v vol p : R) (y0 : num),
    last_row (before q) t e0 /\ last_row (within q) t e1 /\ e_atm e0 = Some (n0, s0) /\ e_sabr e0 = Some (a, b, r, v) /\
    sabr_vol_is (c_tau (e_row e0)) (c_F (e_row e0)) a b r v K shift vol /\
    black76_sln_to_normal_vol (c_F (e_row e0)) (c_tau (e_row e0)) K vol shift (x_brent x) (x_lbfgs x) = Ok y0 /\
    (forall (i : nat) (e : entry), nth_error t i = Some e -> e_nb e = q ->
       exists s, nth_error t' i = Some (mk_entry (e_row e) q (Some (lin2 (c_tau (e_row e0)) (c_tau (e_row e1)) n0 p (c_tau (e_row e)), s)) (e_sabr e)) /\
         normal_vol_to_black76_sln (c_F (e_row e)) (c_tau (e_row e)) (c_F (e_row e)) (lin2 (c_tau (e_row e0)) (c_tau (e_row e1)) n0 p (c_tau (e_row e))) shift (x_sln x i) = Ok s) /\
    (forall (y S X : R), y0 = Fin y -> px = Fin X -> honest [] (x_pillar x) -> 0 < K + shift -> alive shift (map e_row (rows_of (before q) t)) -> sabr_total shift cp K (rows_of (before q) t) S -> X - S <> 0 ->
       Forall (fun c => 0 < c_tau c) (map e_row (rows_of (within q) t)) ->
       Forall (fun c => 0 < lin2 (c_tau (e_row e0)) (c_tau (e_row e1)) y p (c_tau c)) (map e_row (rows_of (within q) t)) ->
       exists tot, capfloor_value_n cp K (fun c => lin2 (c_tau (e_row e0)) (c_tau (e_row e1)) y p (c_tau c)) (map e_row (rows_of (within q) t)) tot /\ close_to (X - S) tot).
Proof.
  intros O Hq Ex H. destruct (atm_rows _ _ _ _ _ _ _ _ _ H) as (curve & C & _ & G). unfold atm_curve in C.
  destruct (Nat.eqb_spec q 0) as [->|_]; [lia|]. apply bind_ok in C as [[[y0 target] price] [Pp C]]. apply bind_ok in C as [p [Mn C]]. apply bind_ok in C as [pi [P1 C]]. apply bind_ok in C as [ci [P2 C]].
  apply bind_ok in C as [ep [R1 C]]. apply bind_ok in C as [ec [R2 C]]. apply bind_ok in C as [[n0 s0] [At C]]. injection C as <-.
  destruct (problem_spec _ _ _ _ _ _ _ _ _ _ O Pp) as (e0 & e1 & a & b & r & v & vol & Q1 & Q2 & Q3 & Q4 & Q5 & Q6 & _ & Q7 & Q8).
  change (fun n => Nat.eqb n q) with (within q) in P2. change (fun n => Nat.ltb n q) with (before q) in P1. rewrite P2 in Q2.
  assert (ec = e1) as -> by congruence. assert (ep = e0) as ->.
  { destruct Q1 as (k & K1 & K2 & K3). destruct (pillar_spec _ _ _ P1) as [ep' [N Lr]]; [eauto|]. unfold row_at in R1. rewrite N in R1. injection R1 as ->.
    apply (last_row_fun (before q) t); [exact Lr|]. exists k. auto. }
  exists e0, e1, n0, s0, a, b, r, v, vol, p, y0. split; [exact Q1|]. split; [apply Q3; exact Ex|].
  split; [unfold atm_of in At; destruct (e_atm e0) as [w|]; [injection At as ->; reflexivity|discriminate]|].
  split; [exact Q4|]. split; [exact Q5|]. split; [exact Q6|]. split.
  - intros i e Hi He. destruct (G i e Hi) as [_ G2]. destruct (G2 He) as (s & S1 & S2). exists s. auto.
  - intros y S X -> -> Hn HK Al St Nz T1 T2. rewrite (Q7 S Al HK St) in Mn. cbn [sub neg add] in Mn. replace (X + - S) with (X - S) in Mn by ring.
    apply minimise_honest in Mn as (tot & M1 & M2); [|exact Nz|exact Hn]. destruct (Q8 y p eq_refl T1 T2) as (tot' & A1 & A2). rewrite M1 in A1. injection A1 as <-. eauto.
Qed.
