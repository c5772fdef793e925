From Coq Require Import ZArith Reals List Bool Lra Lia Sorted FunctionalExtensionality.
From Verif Require Import Base NumModel NormalModel NormalProofs BsProofs BlackModel BlackSpec BlackProofs BlackVecProofs SabrModel SabrSpec SabrProofs SabrRootProofs SabrSmileProofs OptionletModel OptionletSpec OptionletProofs OptionletBootProofs.
Import ListNotations.
Open Scope R_scope.

(* ---- failures of the search for a pillar ---- *)
Lemma no_prior (shift : R) (q : nat) (cp K : R) (px : num) (x : searches) (t : list entry) : t <> [] -> rows_of (before q) t = [] -> pillar_problem shift q cp K px x t = Err KeyError.
Proof.
  intros N E. assert (Es : select (before q) t = []) by (apply map_eq_nil with (f := snd); rewrite select_snd; exact E).
  unfold pillar_problem. change (fun n => Nat.ltb n q) with (before q). change (fun n => Nat.eqb n q) with (within q).
  destruct (pillar_ok (before q) t N) as (i & e & -> & _). destruct (pillar_ok (within q) t N) as (j & f & -> & _). rewrite Es. reflexivity.
Qed.
Lemma single_prior (shift : R) (q : nat) (cp K : R) (px : num) (x : searches) (t : list entry) (e : entry) : ordered t -> rows_of (before q) t = [e] -> e_sabr e <> None -> pillar_problem shift q cp K px x t = Err TypeError.
Proof.
  intros O E Se. unfold rows_of in E. rewrite <- select_snd in E. destruct (select (before q) t) as [|[i e'] [|]] eqn:Es; try discriminate. cbn in E. injection E as ->.
  assert (Ii : In (i, e) (select (before q) t)) by (rewrite Es; left; reflexivity). apply select_nth in Ii as [I1 I2].
  assert (N : t <> []) by (intros ->; destruct i; discriminate).
  pose proof (labels_prefix _ t (ordered_before q t O)) as Lf. unfold labels_fit in Lf. rewrite Es in Lf. destruct i as [|i]; [|discriminate].
  unfold pillar_problem. change (fun n => Nat.ltb n q) with (before q). change (fun n => Nat.eqb n q) with (within q).
  destruct (pillar_ok (before q) t N) as (k & g & -> & _). destruct (pillar_ok (within q) t N) as (j & f & -> & _). rewrite Es. cbn [map snd bind].
  unfold sabr_of. destruct (e_sabr e) as [[[[a b] r] v]|]; [|contradiction]. cbn [sequence bind map fst snd]. unfold taus, fwds. cbn [map snd]. change (mk_smile _ _ _ _ _ _) with (smile1 (c_tau (e_row e)) (c_F (e_row e)) a b r v).
  rewrite calc1. cbn [bind length Nat.sub find fst Nat.eqb last_vol]. reflexivity.
Qed.

(* ---- normal volatilities of the quotes ---- *)
Lemma normal_sum_is (q : nat) (cp K v : R) (t : list entry) : rows_of (upto q) t <> [] ->
  normal_sum q cp K t v = Ok (nsum (map (fun c => price_n (c_F c) (c_tau c) cp K v (c_ann c)) (map e_row (rows_of (upto q) t)))).
Proof.
  intros N. unfold normal_sum. change (fun n => Nat.leb n q) with (upto q). rewrite select_rows. fold (rows_of (upto q) t). set (m := map e_row (rows_of (upto q) t)).
  set (a := mk_bach _ _ _ _ _ _). assert (Fi : fits (lens_n a) (length m)).
  { unfold a, lens_n, fits. cbn. rewrite !map_length. split; [repeat (apply Forall_cons; [auto|]); apply Forall_nil|left; reflexivity]. }
  destruct (proj2 (bach_accepts a (length m))) as (r & H & L); [split; [unfold a; cbn; rewrite !map_length; reflexivity|exact Fi]|].
  rewrite H. cbn [bind]. do 2 f_equal. apply nth_ext_error. intros i. rewrite nth_error_map. destruct (nth_error m i) as [c|] eqn:Hc.
  - destruct (bach_elementwise _ _ _ _ _ H i (c_F c) (c_tau c) cp K v (c_ann c)) as [B _]; try (left; unfold a; cbn; rewrite nth_error_map, Hc; reflexivity); try (right; reflexivity); [|exact B].
    rewrite L. apply nth_error_Some. rewrite Hc. discriminate.
  - cbn. apply nth_error_None in Hc. apply nth_error_None. lia.
Qed.
Lemma normal_value (cp K v : R) (rows : list caplet) : Forall (fun c => 0 < c_tau c) rows -> 0 < v ->
  exists x, nsum (map (fun c => price_n (c_F c) (c_tau c) cp K v (c_ann c)) rows) = Fin x /\ capfloor_value_n cp K (fun _ => v) rows x.
Proof.
  intros T V. assert (E : exists ps, Forall2 (fun c p => price_n (c_F c) (c_tau c) cp K v (c_ann c) = Fin p) rows ps).
  { induction T as [|c rows Hc T IH]; [exists []; constructor|]. destruct IH as [ps Hp]. pose proof (total_pos _ _ V Hc).
    exists (c_ann c * nrm cp (c_F c) K (v * sqrt (c_tau c)) :: ps). constructor; [apply price_n_fin; lra|exact Hp]. }
  destruct E as [ps Hp]. exists (sum_over (fun p => p) ps). split; [apply nsum_forall2; exact Hp|]. exists ps. auto.
Qed.
Lemma quote_vol_n_reprices (q : nat) (cp K X v : R) (l : search min_outcome) (t : list entry) : rows_of (upto q) t <> [] -> Forall (fun c => 0 < c_tau c) (map e_row (rows_of (upto q) t)) -> X <> 0 -> honest [] l ->
  quote_vol_n q cp K (Fin X) l t = Ok v -> 0 < v -> exists x, capfloor_value_n cp K (fun _ => v) (map e_row (rows_of (upto q) t)) x /\ close_to X x.
Proof.
  intros N T X0 Hn H V. unfold quote_vol_n in H.
  replace (normal_sum q cp K t) with (fun w => Ok (nsum (map (fun c => price_n (c_F c) (c_tau c) cp K w (c_ann c)) (map e_row (rows_of (upto q) t))))) in H by (apply functional_extensionality; intros w; symmetry; apply normal_sum_is; exact N).
  apply minimise_honest in H as (y & Y1 & Y2); [|exact X0|exact Hn]. destruct (normal_value cp K v _ T V) as (x & X1 & X2). rewrite X1 in Y1. injection Y1 as <-. eauto.
Qed.
(* what the report of success means is not checked *)
Lemma quote_vol_n_unchecked (q : nat) (cp K : R) (px : num) (v : R) (t : list entry) : quote_vol_n q cp K px (Finish (Minimum v true NaN)) t = Ok v.
Proof. reflexivity. Qed.

(* ---- the rows of one quote ---- *)
Lemma forall2_nth {A B} (P : A -> B -> Prop) (l : list A) (m : list B) : Forall2 P l m <-> length m = length l /\ forall (i : nat) (a : A), nth_error l i = Some a -> exists b, nth_error m i = Some b /\ P a b.
Proof.
  split.
  - induction 1 as [|a b l m Hab H [L IH]]; [split; [reflexivity|intros [|i] ? X; discriminate]|]. split; [cbn; congruence|]. intros [|i] c Hc; cbn in *; [injection Hc as <-; eauto|auto].
  - revert m. induction l as [|a l IH]; intros [|b m] [L H]; try discriminate; [constructor|]. destruct (H 0%nat a eq_refl) as (b' & E & Pb). injection E as <-.
    constructor; [exact Pb|]. apply IH. split; [cbn in L; lia|]. intros i c Hc. exact (H (S i) c Hc).
Qed.
Definition sabr_step (shift : R) (roots : solver) (q : nat) (curves : (R -> R) * (R -> R) * (R -> R)) (e e' : entry) : Prop :=
  if Nat.eqb (e_nb e) q then exists s, row_params shift roots curves e = Ok s /\ e' = mk_entry (e_row e) q (e_atm e) (Some s) else e' = e.
Lemma sabr_rows (shift : R) (roots : solver) (q : nat) (cols : list (R * R * num)) (beta : option R) (x : searches) (t t' : list entry) : solve_sabr_params shift roots q cols beta x t = Ok t' ->
  exists target y b r v curves, sabr_target shift q cols t = Ok target /\ fit_run (sabr_objective shift roots q cols beta target t) (x_fit x) = Ok y /\ unpack beta y = Ok (b, r, v) /\
    sabr_curves q t b r v = Ok curves /\ Forall2 (sabr_step shift roots q curves) t t'.
Proof.
  unfold solve_sabr_params. intros H. apply bind_ok in H as [target [T H]]. apply bind_ok in H as [y [Y H]]. apply bind_ok in H as [[[b r] v] [U H]]. apply bind_ok in H as [curves [C H]].
  exists target, y, b, r, v, curves. split; [exact T|]. split; [exact Y|]. split; [exact U|]. split; [exact C|]. apply forall2_nth. apply update_ok in H as [L H]. split; [exact L|].
  intros i e Hi. destruct (H i e Hi) as [e' [E1 E2]]. exists e'. split; [exact E1|]. unfold sabr_step. destruct (Nat.eqb_spec (e_nb e) q) as [Eq|Ne].
  - apply bind_ok in E2 as [s [S E2]]. injection E2 as <-. exists s. rewrite Eq. auto.
  - injection E2 as <-. reflexivity.
Qed.
Lemma curves_spec (q : nat) (t : list entry) (b r v : R) (fb fr fv : R -> R) : sabr_curves q t b r v = Ok (fb, fr, fv) ->
  (q = 0%nat -> forall x, fb x = b /\ fr x = r /\ fv x = v) /\
  ((0 < q)%nat -> (exists i f, nth_error t i = Some f /\ (e_nb f < q)%nat) -> (exists i f, nth_error t i = Some f /\ e_nb f = q) ->
    exists e0 e1 a0 b0 r0 v0, last_row (before q) t e0 /\ last_row (within q) t e1 /\ e_sabr e0 = Some (a0, b0, r0, v0) /\ forall x,
      fb x = lin2 (c_tau (e_row e0)) (c_tau (e_row e1)) b0 b x /\ fr x = lin2 (c_tau (e_row e0)) (c_tau (e_row e1)) r0 r x /\ fv x = lin2 (c_tau (e_row e0)) (c_tau (e_row e1)) v0 v x).
Proof.
  unfold sabr_curves. intros H. apply bind_ok in H as [pi [P1 H]]. apply bind_ok in H as [ci [P2 H]]. destruct (Nat.eqb_spec q 0) as [->|Nq].
  - injection H as <- <- <-. split; [auto|lia].
  - apply bind_ok in H as [ep [R1 H]]. apply bind_ok in H as [ec [R2 H]]. apply bind_ok in H as [[[[a0 b0] r0] v0] [Sb H]]. injection H as <- <- <-. split; [contradiction|]. intros _ [i [f [F1 F2]]] [j [g [G1 G2]]].
    change (fun n => Nat.ltb n q) with (before q) in P1. change (fun n => Nat.eqb n q) with (within q) in P2.
    destruct (pillar_spec _ _ _ P1) as [ep' [N1 L1]]; [exists i, f; split; [exact F1|apply Nat.ltb_lt; exact F2]|].
    destruct (pillar_spec _ _ _ P2) as [ec' [N2 L2]]; [exists j, g; split; [exact G1|apply Nat.eqb_eq; exact G2]|].
    unfold row_at in R1, R2. rewrite N1 in R1. rewrite N2 in R2. injection R1 as ->. injection R2 as ->.
    exists ep, ec, a0, b0, r0, v0. split; [exact L1|]. split; [exact L2|]. split; [|auto]. unfold sabr_of in Sb. destruct (e_sabr ep); [injection Sb as ->; reflexivity|discriminate].
Qed.
Lemma row_params_spec (shift : R) (roots : solver) (fb fr fv : R -> R) (e : entry) (s : R * R * R * R) : row_params shift roots (fb, fr, fv) e = Ok s ->
  exists n sln a, e_atm e = Some (n, sln) /\ s = (a, fb (c_tau (e_row e)), fr (c_tau (e_row e)), fv (c_tau (e_row e))) /\
    solve_alpha roots (c_tau (e_row e)) (c_F (e_row e)) (fb (c_tau (e_row e))) (fr (c_tau (e_row e))) (fv (c_tau (e_row e))) sln shift = Ok a.
Proof.
  unfold row_params. intros H. apply bind_ok in H as [[n sln] [A H]]. apply bind_ok in H as [a [S H]]. injection H as <-. exists n, sln, a.
  split; [unfold atm_of in A; destruct (e_atm e); [injection A as ->; reflexivity|discriminate]|]. split; [reflexivity|exact S].
Qed.

(* ---- prices of the columns ---- *)
Lemma sabr_pxs_nth (shift : R) (cols : list (R * R * num)) (c : caplet) (a b r v : R) : cols <> [] -> exists l, sabr_pxs shift cols c (a, b, r, v) = Ok l /\ length l = length cols /\
  forall (j : nat) (cp K : R) (px : num), nth_error cols j = Some (cp, K, px) -> exists y, calc_sln_vol (smile1 (c_tau c) (c_F c) a b r v) [K] [shift] = Ok [y] /\ nth_error l j = Some (caplet_px shift c cp (Fin K) y).
Proof.
  intros N. unfold sabr_pxs. set (Ks := map (fun z => snd (fst z)) cols). assert (LK : length Ks = length cols) by (unfold Ks; apply map_length).
  assert (Lc : (0 < length cols)%nat) by (destruct cols; [contradiction|cbn; lia]).
  destruct (calc_elementwise (smile1 (c_tau c) (c_F c) a b r v) 1 Ks shift) as (vols & V1 & V2 & V3).
  - repeat split.
  - lia.
  - intros E. rewrite E in LK. cbn in LK. lia.
  - right. right. reflexivity.
  - rewrite V1. cbn [bind]. rewrite LK, Nat.max_r in V2 by lia. eexists. split; [reflexivity|]. split; [rewrite map_length, combine_length; lia|].
    intros j cp K px Hj. assert (Lj : (j < length cols)%nat) by (apply nth_error_Some; rewrite Hj; discriminate).
    destruct (V3 j (c_tau c) (c_F c) a b r v K) as (y & Y1 & Y2); try (right; reflexivity).
    + left. unfold Ks. rewrite nth_error_map, Hj. reflexivity.
    + rewrite LK. lia.
    + exists y. split; [exact Y2|]. rewrite nth_error_map.
      assert (G : nth_error (combine cols vols) j = Some ((cp, K, px), y)).
      { clear - Hj Y1. revert vols j Hj Y1. induction cols as [|z cols IH]; intros [|w vols] [|j] Hj Y1; try discriminate; cbn in *; [congruence|apply IH; assumption]. }
      rewrite G. reflexivity.
Qed.
Definition entry_pxs (shift : R) (cols : list (R * R * num)) (e : entry) : result (list num) := let* p := sabr_of e in sabr_pxs shift cols (e_row e) p.
Lemma entry_px_nth (shift : R) (cols : list (R * R * num)) (e : entry) (l : list num) (j : nat) (cp K : R) (px : num) (x : R) : entry_pxs shift cols e = Ok l -> nth_error cols j = Some (cp, K, px) ->
  0 < c_F (e_row e) + shift -> 0 < c_tau (e_row e) -> 0 < K + shift -> sabr_value shift cp K e x -> nth j l NaN = Fin x.
Proof.
  intros H Hj A1 A2 HK (a & b & r & v & vol & G1 & G2 & G3 & G4). unfold entry_pxs, sabr_of in H. rewrite G1 in H. cbn [bind] in H.
  assert (N : cols <> []) by (intros ->; destruct j; discriminate). destruct (sabr_pxs_nth shift cols (e_row e) a b r v N) as (l' & L1 & L2 & L3). rewrite H in L1. injection L1 as <-.
  destruct (L3 j cp K px Hj) as (y & Y1 & Y2). unfold sabr_vol_is in G3. rewrite G3 in Y1. injection Y1 as <-. rewrite (nth_error_nth l j NaN Y2).
  pose proof (total_pos vol _ G2 A2). apply caplet_px_fin; lra || assumption.
Qed.
Lemma columns_total (shift : R) (cols : list (R * R * num)) (es : list entry) (rows : list (list num)) (Ss : list R) : sequence (map (entry_pxs shift cols) es) = Ok rows ->
  alive shift (map e_row es) -> Forall2 (fun c S => 0 < snd (fst c) + shift /\ sabr_total shift (fst (fst c)) (snd (fst c)) es S) cols Ss -> colsum (length cols) rows = map Fin Ss.
Proof.
  intros H Al F. apply forall2_nth in F as [L F]. apply sequence_ok in H. unfold colsum. apply nth_ext_error. intros j. rewrite !nth_error_map.
  destruct (nth_error cols j) as [[[cp K] px]|] eqn:Hj.
  - assert (Lj : (j < length cols)%nat) by (apply nth_error_Some; rewrite Hj; discriminate). destruct (F j _ Hj) as (S & HS & HK & xs & Hx & ->). cbn [fst snd] in HK, Hx.
    rewrite HS. replace (nth_error (seq 0 (length cols)) j) with (Some j) by (symmetry; rewrite nth_error_nth' with (d := 0%nat) by (rewrite seq_length; lia); rewrite seq_nth by lia; reflexivity).
    cbn. f_equal. apply nsum_forall2. clear - H Al Hx Hj HK. revert rows xs H Hx. induction es as [|e es IH]; intros [|w rows] xs H Hx; try discriminate; inversion Hx; subst; constructor.
    + injection H as H _. inversion Al as [|? ? [A1 A2] ?]; subst. eapply entry_px_nth; eassumption.
    + injection H as _ H. inversion Al; subst. apply IH; assumption.
  - apply nth_error_None in Hj. replace (nth_error (seq 0 (length cols)) j) with (@None nat) by (symmetry; apply nth_error_None; rewrite seq_length; lia).
    replace (nth_error Ss j) with (@None R) by (symmetry; apply nth_error_None; lia). reflexivity.
Qed.
Lemma rows_of_before_0 (t : list entry) : rows_of (before 0) t = [].
Proof. unfold rows_of. induction t as [|e t IH]; [reflexivity|]. cbn. exact IH. Qed.
Lemma target_is (shift : R) (q : nat) (cols : list (R * R * num)) (t : list entry) (target : list num) (Xs Ss : list R) : sabr_target shift q cols t = Ok target ->
  Forall2 (fun c X => snd c = Fin X) cols Xs -> alive shift (map e_row (rows_of (before q) t)) ->
  Forall2 (fun c S => 0 < snd (fst c) + shift /\ sabr_total shift (fst (fst c)) (snd (fst c)) (rows_of (before q) t) S) cols Ss -> target = map Fin (map (fun z => fst z - snd z) (combine Xs Ss)).
Proof.
  intros H X Al F. assert (EX : map snd cols = map Fin Xs) by (clear - X; induction X as [|c x l m Hx X IH]; [reflexivity|cbn; rewrite Hx, IH; reflexivity]).
  assert (LX : length Xs = length cols) by (apply forall2_nth in X as [? _]; assumption). unfold sabr_target in H. destruct (Nat.eqb_spec q 0) as [->|Nq].
  - injection H as <-. rewrite EX. rewrite rows_of_before_0 in F. clear - F LX. revert Xs LX. induction F as [|c S l m [_ [ps [Hp ->]]] F IH]; intros [|x Xs] LX; try discriminate; [reflexivity|].
    inversion Hp; subst. cbn. rewrite <- IH by (cbn in LX; lia). unfold Rminus. rewrite Ropp_0, Rplus_0_r. reflexivity.
  - apply bind_ok in H as [u [_ H]]. apply bind_ok in H as [rows [Rw H]]. injection H as <-. change (fun n => Nat.ltb n q) with (before q) in Rw.
    assert (Rw' : sequence (map (entry_pxs shift cols) (rows_of (before q) t)) = Ok rows) by (unfold rows_of; rewrite <- select_snd, map_map; exact Rw).
    rewrite (columns_total _ _ _ _ _ Rw' Al F), EX. clear. revert Ss. induction Xs as [|x Xs IH]; intros [|s Ss]; cbn; try reflexivity. rewrite IH. reflexivity.
Qed.
Lemma step_pxs (shift : R) (roots : solver) (q : nat) (cols : list (R * R * num)) (curves : (R -> R) * (R -> R) * (R -> R)) (t t' : list entry) : Forall2 (sabr_step shift roots q curves) t t' ->
  map (fun e => let* p := row_params shift roots curves e in sabr_pxs shift cols (e_row e) p) (rows_of (within q) t) = map (entry_pxs shift cols) (rows_of (within q) t').
Proof.
  unfold rows_of. induction 1 as [|e e' t t' He H IH]; [reflexivity|]. unfold sabr_step in He. cbn [filter]. change (within q (e_nb e)) with (Nat.eqb (e_nb e) q) in *. destruct (Nat.eqb (e_nb e) q) eqn:Eq.
  - destruct He as (s & S & ->). cbn [e_nb]. unfold within at 2. rewrite Nat.eqb_refl. cbn [map]. rewrite IH. f_equal. rewrite S. reflexivity.
  - subst e'. unfold within at 2. rewrite Eq. exact IH.
Qed.
Lemma step_rows (shift : R) (roots : solver) (q : nat) (curves : (R -> R) * (R -> R) * (R -> R)) (t t' : list entry) (p : nat -> bool) : Forall2 (sabr_step shift roots q curves) t t' ->
  map e_row (rows_of p t') = map e_row (rows_of p t).
Proof.
  unfold rows_of. induction 1 as [|e e' t t' He H IH]; [reflexivity|]. unfold sabr_step in He. cbn [filter]. destruct (Nat.eqb_spec (e_nb e) q) as [Eq|Ne].
  - destruct He as (s & S & ->). cbn [e_nb]. rewrite Eq. destruct (p q); cbn [map e_row]; rewrite IH; reflexivity.
  - subst e'. destruct (p (e_nb e)); cbn [map]; rewrite IH; reflexivity.
Qed.
(* the objective at the parameters of the new rows *)
Lemma objective_is (shift : R) (roots : solver) (q : nat) (cols : list (R * R * num)) (beta : option R) (t t' : list entry) (target : list num) (y : list R) (b r v : R) (curves : (R -> R) * (R -> R) * (R -> R)) (Xs Ss Cs : list R) :
  cols <> [] -> sabr_target shift q cols t = Ok target -> unpack beta y = Ok (b, r, v) -> sabr_curves q t b r v = Ok curves -> Forall2 (sabr_step shift roots q curves) t t' ->
  Forall2 (fun c X => snd c = Fin X) cols Xs -> alive shift (map e_row t) ->
  Forall2 (fun c S => 0 < snd (fst c) + shift /\ sabr_total shift (fst (fst c)) (snd (fst c)) (rows_of (before q) t) S) cols Ss ->
  Forall2 (fun c C => 0 < snd (fst c) + shift /\ sabr_total shift (fst (fst c)) (snd (fst c)) (rows_of (within q) t') C) cols Cs ->
  Forall (fun z => fst z - snd z <> 0) (combine Xs Ss) ->
  sabr_objective shift roots q cols beta target t y = Ok (Fin (mean_square (map (fun z => fst z - snd z) (combine Xs Ss)) Cs)).
Proof.
  intros N T U C St X Al FS FC Nz.
  assert (Ap : forall p u, map e_row (rows_of p u) = map e_row (rows_of p t) -> alive shift (map e_row (rows_of p u))).
  { intros p u E. rewrite E. unfold alive in *. rewrite Forall_forall in *. intros c Hc. apply in_map_iff in Hc as (e & <- & He). apply filter_In in He as [He _]. apply Al. apply in_map. exact He. }
  assert (Lx : length Xs = length cols) by (apply forall2_nth in X as [? _]; assumption).
  assert (Ls : length Ss = length cols) by (apply forall2_nth in FS as [? _]; assumption).
  assert (Lc : length Cs = length cols) by (apply forall2_nth in FC as [? _]; assumption).
  pose proof (target_is _ _ _ _ _ _ _ T X (Ap _ t eq_refl) FS) as Tg. set (Ts := map (fun z => fst z - snd z) (combine Xs Ss)) in *.
  assert (Lt : length Ts = length cols) by (unfold Ts; rewrite map_length, combine_length; lia).
  assert (NzT : Forall (fun x => x <> 0) Ts) by (unfold Ts; rewrite Forall_forall in *; intros z Hz; apply in_map_iff in Hz as (w & <- & Hw); apply Nz; exact Hw).
  unfold sabr_objective. rewrite U. cbn [bind]. rewrite C. cbn [bind]. change (fun n => Nat.eqb n q) with (within q).
  replace (map (fun e => let* p := row_params shift roots curves (snd e) in sabr_pxs shift cols (e_row (snd e)) p) (select (within q) t))
    with (map (entry_pxs shift cols) (rows_of (within q) t')) by (rewrite <- (step_pxs _ _ _ _ _ _ _ St); unfold rows_of; rewrite <- select_snd, map_map; reflexivity).
  assert (Sq : exists rows, sequence (map (entry_pxs shift cols) (rows_of (within q) t')) = Ok rows).
  { assert (G : Forall (fun e => e_sabr e <> None) (rows_of (within q) t')).
    { destruct cols as [|c cols]; [contradiction|]. inversion FC as [|? ? ? ? [_ [ps [Hp _]]] ?]; subst. clear - Hp. induction Hp as [|e p l ps He Hp IH]; constructor; [|exact IH]. destruct He as (a & b & r & v & vol & E & _). rewrite E. discriminate. }
    clear - G N. induction G as [|e l He G [rows IH]]; [exists []; reflexivity|]. destruct (e_sabr e) as [[[[a b] r] v]|] eqn:Es; [|contradiction].
    destruct (sabr_pxs_nth shift cols (e_row e) a b r v N) as (w & W & _). exists (w :: rows). cbn [map sequence]. unfold entry_pxs at 1, sabr_of. rewrite Es. cbn [bind]. rewrite W. cbn [bind]. rewrite IH. reflexivity. }
  destruct Sq as [rows Sq]. rewrite Sq. cbn [bind]. rewrite (columns_total _ _ _ _ _ Sq (Ap _ t' (step_rows _ _ _ _ _ _ _ St)) FC), Tg. do 1 f_equal.
  assert (Le : length (map (fun z => div (sub (fst z) (snd z)) (fst z)) (combine (map Fin Ts) (map Fin Cs))) = length Ts) by (rewrite map_length, combine_length, !map_length; lia).
  rewrite Le. assert (Pn : INR (length Ts) <> 0) by (apply not_0_INR; destruct cols; [contradiction|cbn in Lt; lia]).
  assert (G : forall n (A B : list R), n <> 0 -> Forall (fun x => x <> 0) A -> nsum (map (fun e => div (npow2 e) (Fin n)) (map (fun z => div (sub (fst z) (snd z)) (fst z)) (combine (map Fin A) (map Fin B))))
      = Fin (sum_over (fun z => ((fst z - snd z) / fst z) ^ 2 / n) (combine A B))).
  { intros n A B Hn HA. revert B. induction HA as [|x A Hx HA IH]; intros [|y0 B]; try reflexivity. cbn [map combine fst snd sub neg add]. rewrite (div_fin _ x Hx). cbn [npow2]. rewrite sum_over_cons.
    unfold nsum in *. cbn [fold_right]. rewrite IH. unfold npow2. cbn [mul]. rewrite (div_fin _ n Hn). cbn [add fst snd]. do 2 f_equal. unfold Rminus, Rdiv. ring. }
  rewrite G by assumption. reflexivity.
Qed.
