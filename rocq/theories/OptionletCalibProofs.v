From Coq Require Import ZArith Reals List Bool Lra Lia Sorted.
From Verif Require Import Base NumModel NormalModel NormalProofs BsProofs BlackModel BlackSpec BlackProofs BlackVecProofs SabrModel SabrSpec SabrProofs SabrRootProofs SabrSmileProofs OptionletModel OptionletSpec OptionletProofs OptionletBootProofs OptionletSabrProofs.
Import ListNotations.
Open Scope R_scope.

Definition quote_step (q : nat) (e e' : entry) : Prop := same_rows e e' /\ (e_nb e <> q -> e' = e) /\ (e_nb e = q -> solved e').
Lemma atm_step (shift : R) (q : nat) (cp K : R) (px : num) (n : R) (x : searches) (t t' : list entry) : solve_vol_n_atm shift q cp K px n x t = Ok t' ->
  Forall2 (fun e e' => same_rows e e' /\ (e_nb e <> q -> e' = e) /\ e_sabr e' = e_sabr e /\ (e_nb e = q -> exists m, e_atm e' = Some m)) t t'.
Proof.
  intros H. destruct (atm_rows _ _ _ _ _ _ _ _ _ H) as (curve & _ & L & G). apply forall2_nth. split; [exact L|]. intros i e Hi. destruct (G i e Hi) as [G1 G2].
  destruct (Nat.eq_dec (e_nb e) q) as [Eq|Ne].
  - destruct (G2 Eq) as (s & S & _). eexists. split; [exact S|]. split; [split; [reflexivity|symmetry; exact Eq]|]. split; [contradiction|]. split; [reflexivity|]. intros _. eexists. reflexivity.
  - exists e. split; [exact (G1 Ne)|]. split; [split; reflexivity|]. split; [auto|]. split; [reflexivity|contradiction].
Qed.
Lemma forall2_trans {A B C} (P : A -> B -> Prop) (Q : B -> C -> Prop) (T : A -> C -> Prop) (l : list A) (m : list B) (n : list C) :
  (forall a b c, P a b -> Q b c -> T a c) -> Forall2 P l m -> Forall2 Q m n -> Forall2 T l n.
Proof. intros H F. revert n. induction F as [|a b l m Hab F IH]; intros n G; inversion G; subst; constructor; eauto. Qed.
Lemma quote_steps (shift : R) (roots : solver) (q : nat) (f : list (R * R * num) * R) (k : capquote) (t t' : list entry) : solve_quote shift roots q f k t = Ok t' -> Forall2 (quote_step q) t t'.
Proof.
  unfold solve_quote. destruct (fst f) as [|[[cp K] px] cols]; [discriminate|]. intros H. apply bind_ok in H as [t1 [A H]].
  pose proof (atm_step _ _ _ _ _ _ _ _ _ A) as S1. destruct (sabr_rows _ _ _ _ _ _ _ _ H) as (tg & y & b & r & v & curves & _ & _ & _ & _ & S2).
  eapply forall2_trans; [|exact S1|exact S2]. intros e e1 e2 ((E1 & E2) & E3 & E4 & E5) E6. unfold sabr_step in E6. rewrite E2 in E6. destruct (Nat.eqb_spec (e_nb e) q) as [Eq|Ne].
  - destruct E6 as (s & _ & ->). split; [split; [exact E1|symmetry; exact Eq]|]. split; [contradiction|]. intros _. destruct (E5 Eq) as [m M]. split; [exists m; exact M|eexists; reflexivity].
  - subst e2. split; [split; assumption|]. split; [exact E3|contradiction].
Qed.
Lemma same_refl (t : list entry) : Forall2 same_rows t t.
Proof. induction t; constructor; [split; reflexivity|assumption]. Qed.
Lemma quotes_steps (shift : R) (roots : solver) (fs : list ((list (R * R * num) * R) * capquote)) (q : nat) (t t' : list entry) : solve_quotes shift roots q fs t = Ok t' ->
  Forall2 (fun e e' => same_rows e e' /\ ((e_nb e < q)%nat -> e' = e) /\ ((q <= e_nb e < q + length fs)%nat -> solved e')) t t'.
Proof.
  revert q t. induction fs as [|[f k] fs IH]; intros q t H; cbn [solve_quotes] in H.
  - injection H as <-. clear. induction t as [|e t IH]; constructor; [|exact IH]. split; [split; reflexivity|]. split; [auto|cbn; lia].
  - apply bind_ok in H as [t1 [S H]]. pose proof (quote_steps _ _ _ _ _ _ _ S) as S1. pose proof (IH _ _ H) as S2. eapply forall2_trans; [|exact S1|exact S2].
    intros e e1 e2 ((E1 & E2) & E3 & E4) ((F1 & F2) & F3 & F4). split; [split; congruence|]. split.
    + intros L. assert (e1 = e) as -> by (apply E3; lia). apply F3. lia.
    + intros L. cbn [length] in L. destruct (Nat.eq_dec (e_nb e) q) as [Eq|Ne]; [|apply F4; lia]. assert (e2 = e1) as -> by (apply F3; lia). apply E4. exact Eq.
Qed.
(* the table before and after each quote *)
Lemma rows_kept (p : nat -> bool) (t t' : list entry) : Forall2 (fun e e' => e_nb e' = e_nb e /\ (p (e_nb e) = true -> e' = e)) t t' -> rows_of p t' = rows_of p t.
Proof.
  unfold rows_of. induction 1 as [|e e' t t' [E1 E2] H IH]; [reflexivity|]. cbn [filter]. rewrite E1. destruct (p (e_nb e)); [rewrite E2, IH; reflexivity|exact IH].
Qed.
Lemma quotes_trace (shift : R) (roots : solver) (fs : list ((list (R * R * num) * R) * capquote)) (q j : nat) (f : list (R * R * num) * R) (k : capquote) (t t' : list entry) : solve_quotes shift roots q fs t = Ok t' ->
  nth_error fs j = Some (f, k) -> exists ta tb, solve_quote shift roots (q + j) f k ta = Ok tb /\ Forall2 same_rows t ta /\ Forall2 same_rows tb t' /\
    rows_of (before (q + j)) t' = rows_of (before (q + j)) ta /\ rows_of (upto (q + j)) t' = rows_of (upto (q + j)) tb /\
    Forall2 (fun e e' => (e_nb e < q + j)%nat -> e' = e) ta t' /\ Forall2 (fun e e' => (e_nb e <= q + j)%nat -> e' = e) tb t'.
Proof.
  revert q j t. induction fs as [|[f0 k0] fs IH]; intros q j t H Hj; [destruct j; discriminate|]. cbn [solve_quotes] in H. apply bind_ok in H as [t1 [S H]]. destruct j as [|j]; cbn [nth_error] in Hj.
  - injection Hj as -> ->. rewrite Nat.add_0_r. exists t, t1. pose proof (quote_steps _ _ _ _ _ _ _ S) as S1. pose proof (quotes_steps _ _ _ _ _ _ H) as S2.
    split; [exact S|]. split; [apply same_refl|]. split; [eapply forall2_mono; [|exact S2]; intros a b [A _]; exact A|].
    assert (K2 : rows_of (upto q) t' = rows_of (upto q) t1) by (apply rows_kept; eapply forall2_mono; [|exact S2]; intros a b ((A1 & A2) & A3 & _); split; [exact A2|]; intros L; apply Nat.leb_le in L; apply A3; lia).
    assert (T : Forall2 (fun e e' => same_rows e e' /\ ((e_nb e < q)%nat -> e' = e)) t t').
    { eapply forall2_trans; [|exact S1|exact S2]. intros a b c ((A1 & A2) & A3 & _) ((B1 & B2) & B3 & _). split; [split; congruence|]. intros L. assert (b = a) as -> by (apply A3; lia). apply B3. lia. }
    split; [|split; [exact K2|split]].
    + apply rows_kept. eapply forall2_mono; [|exact T]. intros a b ((A1 & A2) & A3). split; [exact A2|]. intros L. apply Nat.ltb_lt in L. auto.
    + eapply forall2_mono; [|exact T]. intros a b (_ & A3). exact A3.
    + eapply forall2_mono; [|exact S2]. intros a b (_ & A3 & _) L. apply A3. lia.
  - destruct (IH (Datatypes.S q) j t1 H Hj) as (ta & tb & A1 & A2 & A3 & A4 & A5 & A6 & A7). replace (q + Datatypes.S j)%nat with (Datatypes.S q + j)%nat by lia. exists ta, tb.
    split; [exact A1|]. split; [|auto 6]. eapply forall2_trans; [|eapply forall2_mono; [|exact (quote_steps _ _ _ _ _ _ _ S)]|exact A2]; [|intros a b [X _]; exact X].
    intros a b c [X1 X2] [Y1 Y2]. split; congruence.
Qed.

(* ---- the whole calibration ---- *)
Lemma ordered_same (t t' : list entry) : Forall2 same_rows t t' -> ordered t -> ordered t'.
Proof.
  intros F O i j a b L Ha Hb. apply forall2_nth in F as [Ln F].
  assert (E : forall k e', nth_error t' k = Some e' -> exists e, nth_error t k = Some e /\ e_nb e' = e_nb e).
  { intros k e' Hk. destruct (nth_error t k) as [e|] eqn:E; [|apply nth_error_None in E; assert (k < length t')%nat by (apply nth_error_Some; rewrite Hk; discriminate); lia].
    destruct (F k e E) as (e2 & E2 & [_ E3]). rewrite Hk in E2. injection E2 as <-. eauto. }
  destruct (E i a Ha) as (a0 & A1 & ->). destruct (E j b Hb) as (b0 & B1 & ->). eapply O; eassumption.
Qed.
Lemma new_table_ordered (terms : list Z) (rows : list caplet) : terms <> [] -> ascending terms -> ascending (map c_end rows) -> (forall c, In c rows -> exists U, In U terms /\ (c_end c <= U)%Z) -> ordered (new_table terms rows).
Proof.
  intros Ne At Ar Cv i j a b L Ha Hb. pose proof (quote_nb_lt terms (c_end (e_row b)) Ne) as Lt.
  apply new_table_nth in Ha as (ca & Ha & ->). apply new_table_nth in Hb as (cb & Hb & ->). cbn [e_nb e_row] in *.
  destruct (nth_error terms (quote_nb terms (c_end cb))) as [T|] eqn:HT; [|apply nth_error_None in HT; lia].
  apply (quote_nb_spec terms (c_end ca) _ T At HT (Cv ca (nth_error_In _ _ Ha))).
  pose proof (proj1 (quote_nb_spec terms (c_end cb) _ T At HT (Cv cb (nth_error_In _ _ Hb))) (Nat.le_refl _)) as Le.
  specialize (Ar i j (c_end ca) (c_end cb) L). rewrite !nth_error_map, Ha, Hb in Ar. specialize (Ar eq_refl eq_refl). lia.
Qed.
Lemma sequence_nth {A} (l : list (result A)) (m : list A) (i : nat) : sequence l = Ok m -> nth_error l i = option_map Ok (nth_error m i).
Proof. intros H. apply sequence_ok in H. rewrite H. apply nth_error_map. Qed.
Lemma calibrate_rows (shift : R) (roots : solver) (rows : list caplet) (offsets : list R) (quotes : list capquote) (t : list entry) : quotes <> [] -> calibrate shift roots rows offsets quotes = Ok t ->
  map e_row t = rows /\ map e_nb t = map (fun c => quote_nb (map k_term quotes) (c_end c)) rows /\ Forall solved t.
Proof.
  intros Ne H. unfold calibrate in H. apply bind_ok in H as [fs [Fs H]]. apply quotes_steps in H.
  assert (Lf : length (combine fs quotes) = length quotes).
  { apply sequence_ok in Fs. apply (f_equal (@length _)) in Fs. rewrite !map_length in Fs. unfold labelled in Fs. rewrite combine_length, seq_length, Nat.min_id in Fs. rewrite combine_length. lia. }
  rewrite Lf in H. clear Fs. unfold new_table in H. set (terms := map k_term quotes) in *. assert (Nt : terms <> []) by (unfold terms; destruct quotes; [contradiction|discriminate]).
  assert (Lt : length terms = length quotes) by apply map_length. revert t H. induction rows as [|c rows IH]; intros t H; inversion H; subst; [auto|].
  destruct (IH _ H4) as (I1 & I2 & I3). destruct H2 as ((E1 & E2) & _ & E3). cbn [e_row e_nb] in *. cbn [map]. rewrite E1, E2, I1, I2. split; [reflexivity|]. split; [reflexivity|]. constructor; [|exact I3].
  apply E3. pose proof (quote_nb_lt terms (c_end c) Nt). lia.
Qed.
Lemma calibrate_trace (shift : R) (roots : solver) (rows : list caplet) (offsets : list R) (quotes : list capquote) (t : list entry) (q : nat) (k : capquote) :
  calibrate shift roots rows offsets quotes = Ok t -> nth_error quotes q = Some k ->
  exists f ta tb, quote_frame shift rows offsets (new_table (map k_term quotes) rows) q k = Ok f /\ solve_quote shift roots q f k ta = Ok tb /\ Forall2 same_rows (new_table (map k_term quotes) rows) ta /\ Forall2 same_rows tb t /\
    rows_of (before q) t = rows_of (before q) ta /\ rows_of (upto q) t = rows_of (upto q) tb /\
    Forall2 (fun e e' => (e_nb e < q)%nat -> e' = e) ta t /\ Forall2 (fun e e' => (e_nb e <= q)%nat -> e' = e) tb t.
Proof.
  intros H Hq. unfold calibrate in H. apply bind_ok in H as [fs [Fs H]]. pose proof (sequence_nth _ _ q Fs) as Nq. rewrite nth_error_map, labelled_nth, Hq in Nq. cbn in Nq.
  destruct (nth_error fs q) as [f|] eqn:Ef; [|discriminate]. cbn in Nq. injection Nq as Nq.
  assert (Ec : nth_error (combine fs quotes) q = Some (f, k)).
  { clear - Ef Hq. revert fs q Ef Hq. induction quotes as [|a quotes IH]; intros [|g fs] [|q] Ef Hq; try discriminate; cbn in *; [congruence|]. apply IH; assumption. }
  destruct (quotes_trace _ _ _ _ _ _ _ _ _ H Ec) as (ta & tb & A). exists f, ta, tb. split; [exact Nq|exact A].
Qed.

(* ---- limits of the parameters ---- *)
Lemma fit_answer (P : list R -> Prop) (f : list R -> result num) (s : fit_search) (y : list R) : answers P s -> fit_run f s = Ok y -> P y.
Proof.
  revert y. induction s as [b x|x k IH]; intros y A H; cbn in *; [destruct b; [injection H as <-; exact A|discriminate]|].
  apply bind_ok in H as [z [_ H]]. exact (IH z y (A z) H).
Qed.
Lemma unpack_in (beta : option R) (y : list R) (b r v : R) : in_bounds (sabr_bounds beta) y -> unpack beta y = Ok (b, r, v) -> (match beta with Some c => b = c | None => -1 <= b <= 1 end) /\ -1 <= r <= 1 /\ 1 / 10000 <= v.
Proof.
  unfold in_bounds, sabr_bounds, unpack. destruct beta as [c|]; intros F H.
  - destruct y as [|y1 [|y2 [|y3 y]]]; try discriminate. injection H as <- <- <-. inversion F as [|? ? ? ? F1 F']; subst. inversion F' as [|? ? ? ? F2 F'']; subst. cbn in *. tauto.
  - destruct y as [|y1 [|y2 [|y3 [|y4 y]]]]; try discriminate. injection H as <- <- <-. inversion F as [|? ? ? ? F1 F']; subst. inversion F' as [|? ? ? ? F2 F'']; subst. inversion F'' as [|? ? ? ? F3 F''']; subst. cbn in *. tauto.
Qed.
Lemma curves_in (q : nat) (t : list entry) (b r v blo bhi : R) (fb fr fv : R -> R) : sabr_curves q t b r v = Ok (fb, fr, fv) -> Forall (parameters_in blo bhi) t -> blo <= b <= bhi -> -1 <= r <= 1 -> 1 / 10000 <= v ->
  forall x, blo <= fb x <= bhi /\ -1 <= fr x <= 1 /\ 1 / 10000 <= fv x.
Proof.
  unfold sabr_curves. intros H P Hb Hr Hv x. apply bind_ok in H as [pi [_ H]]. apply bind_ok in H as [ci [_ H]]. destruct (Nat.eqb q 0).
  - injection H as <- <- <-. auto.
  - apply bind_ok in H as [ep [R1 H]]. apply bind_ok in H as [ec [_ H]]. apply bind_ok in H as [[[[a0 b0] r0] v0] [Sb H]]. injection H as <- <- <-.
    unfold row_at in R1. destruct (nth_error t pi) as [e|] eqn:N; [|discriminate]. injection R1 as ->. rewrite Forall_forall in P. specialize (P ep (nth_error_In _ _ N)).
    unfold sabr_of in Sb. destruct (e_sabr ep) as [w|] eqn:Es; [|discriminate]. injection Sb as ->. destruct (P a0 b0 r0 v0 Es) as (P1 & P2 & P3).
    split; [apply lin2_between; assumption|]. split; [apply lin2_between; assumption|]. apply (lin2_between _ _ v0 v x (1 / 10000) (Rmax v0 v)); split; try assumption; [apply Rmax_l|apply Rmax_r].
Qed.
Lemma quote_in (shift : R) (roots : solver) (q : nat) (f : list (R * R * num) * R) (k : capquote) (t t' : list entry) (blo bhi : R) : solve_quote shift roots q f k t = Ok t' ->
  answers (in_bounds (sabr_bounds (k_beta k))) (x_fit (k_searches k)) -> beta_in blo bhi (k_beta k) -> Forall (parameters_in blo bhi) t -> Forall (parameters_in blo bhi) t'.
Proof.
  unfold solve_quote. destruct (fst f) as [|[[cp K] px] cols]; [discriminate|]. intros H An Bi P. apply bind_ok in H as [t1 [A H]].
  pose proof (atm_step _ _ _ _ _ _ _ _ _ A) as S1. destruct (sabr_rows _ _ _ _ _ _ _ _ H) as (tg & y & b & r & v & [[fb fr] fv] & _ & Fy & U & Cv & S2).
  assert (P1 : Forall (parameters_in blo bhi) t1).
  { clear - S1 P. induction S1 as [|e e' t t1 (_ & _ & E & _) S1 IH]; [constructor|]. inversion P; subst. constructor; [|auto]. unfold parameters_in. rewrite E. assumption. }
  destruct (unpack_in _ _ _ _ _ (fit_answer _ _ _ _ An Fy) U) as (B1 & B2 & B3).
  assert (B0 : blo <= b <= bhi) by (destruct (k_beta k) as [c|]; cbn in Bi; [subst; exact Bi|lra]).
  pose proof (curves_in _ _ _ _ _ _ _ _ _ _ Cv P1 B0 B2 B3) as Ci. clear - S2 P1 Ci. induction S2 as [|e e' t t1 E S2 IH]; [constructor|]. inversion P1; subst. constructor; [|auto].
  unfold sabr_step in E. destruct (Nat.eqb (e_nb e) q); [|subst; assumption]. destruct E as (s & S & ->). apply row_params_spec in S as (n & sln & a & _ & -> & _).
  intros a' b' r' v' E. cbn in E. injection E as <- <- <- <-. apply Ci.
Qed.
Lemma calibrate_in (shift : R) (roots : solver) (rows : list caplet) (offsets : list R) (quotes : list capquote) (t : list entry) (blo bhi : R) : calibrate shift roots rows offsets quotes = Ok t ->
  Forall (fun k => answers (in_bounds (sabr_bounds (k_beta k))) (x_fit (k_searches k)) /\ beta_in blo bhi (k_beta k)) quotes -> Forall (parameters_in blo bhi) t.
Proof.
  intros H F. unfold calibrate in H. apply bind_ok in H as [fs [_ H]].
  assert (G : forall quotes fs q t0, Forall (fun k => answers (in_bounds (sabr_bounds (k_beta k))) (x_fit (k_searches k)) /\ beta_in blo bhi (k_beta k)) quotes ->
     solve_quotes shift roots q (combine fs quotes) t0 = Ok t -> Forall (parameters_in blo bhi) t0 -> Forall (parameters_in blo bhi) t).
  { clear. induction quotes as [|k quotes IH]; intros [|f fs] q t0 F H P; cbn in H; try (injection H as <-; exact P). apply bind_ok in H as [t1 [S H]]. inversion F as [|? ? [F1 F2] F3]; subst.
    eapply IH; [exact F3|exact H|]. eapply quote_in; eassumption. }
  eapply G; [exact F|exact H|]. unfold new_table. clear. induction rows as [|c rows IH]; constructor; [|exact IH]. intros a b r v E. discriminate.
Qed.
