From Coq Require Import ZArith Reals List Bool Lra Lia Sorted.
From Verif Require Import Base NumModel NormalModel NormalProofs BsProofs BlackModel BlackSpec BlackProofs BlackVecProofs SabrModel SabrSpec SabrProofs SabrRootProofs SabrSmileProofs OptionletModel OptionletSpec OptionletProofs OptionletBootProofs OptionletSabrProofs OptionletCalibProofs.
Import ListNotations.
Open Scope R_scope.

(* ---- the columns of a quote ---- *)
Lemma finite_map (l : list R) : sequence (map finite (map Fin l)) = Ok l.
Proof. induction l as [|x l IH]; [reflexivity|]. cbn [map sequence finite bind]. rewrite IH. reflexivity. Qed.
Lemma nth_combine {A B} (l : list A) (m : list B) (i : nat) : nth_error (combine l m) i = match nth_error l i, nth_error m i with Some a, Some b => Some (a, b) | _, _ => None end.
Proof. revert m i. induction l as [|x l IH]; intros [|y m] [|i]; cbn; try reflexivity; [destruct (nth_error l i); reflexivity|apply IH]. Qed.
Lemma frame_columns (shift : R) (terms : list Z) (rows : list caplet) (offsets : list R) (q : nat) (T : Z) (k : capquote) (F : R) (f : list (R * R * num) * R) :
  ascending terms -> nth_error terms q = Some T -> ascending (map c_end rows) -> (forall c, In c rows -> exists U, In U terms /\ (c_end c <= U)%Z) -> alive shift rows -> k_term k = T -> quote_forward rows T = Fin F ->
  quote_frame shift rows offsets (new_table terms rows) q k = Ok f -> length (fst f) = length offsets /\ length (k_vols k) = length offsets /\
  forall (j : nat) (o s : R), nth_error offsets j = Some o -> nth_error (k_vols k) j = Some s -> 0 < F + o + shift -> 0 < s ->
    exists x, nth_error (fst f) j = Some ((if Rlt_dec 0 o then 1 else -1), F + o, Fin x) /\ capfloor_value shift (if Rlt_dec 0 o then 1 else -1) (F + o) (fun _ => s) (covered rows T) x.
Proof.
  intros As HT Ar Cv Al Kt HF H. unfold quote_frame in H. rewrite Kt, HF in H.
  assert (Es : quote_strikes (Fin F) offsets = map Fin (map (fun o => F + o) offsets)) by (unfold quote_strikes; rewrite map_map; reflexivity).
  rewrite Es, finite_map in H. cbn [bind] in H. apply bind_ok in H as [u [Lv H]]. destruct (Nat.eqb_spec (length (k_vols k)) (length offsets)) as [Le|]; [|discriminate]. apply bind_ok in H as [pxs [Px H]]. apply bind_ok in H as [vols [_ H]].
  unfold quote_pxs in Px. apply bind_ok in Px as [w [Lw Px]]. injection Px as <-.
  destruct vols as [|v0 vols]; [discriminate|]. injection H as <-. cbn [fst].
  assert (Lc : length (quote_cp (Fin F) (map Fin (map (fun o => F + o) offsets))) = length offsets) by (unfold quote_cp; rewrite !map_length; reflexivity).
  split; [repeat rewrite ?combine_length, ?map_length; rewrite Lc; lia|]. split; [exact Le|].
  intros j o s Ho Hs HK Hv. destruct (quote_px_value shift terms rows q T As HT Ar Cv Al (if Rlt_dec 0 o then 1 else -1) (F + o) s HK Hv) as (x & X1 & X2).
  exists x. split; [|exact X2]. unfold quote_pxs in X1. apply bind_ok in X1 as [w' [_ X1]]. cbn [combine map] in X1. injection X1 as X1.
  assert (Ncp : nth_error (quote_cp (Fin F) (map Fin (map (fun o => F + o) offsets))) j = Some (if Rlt_dec 0 o then 1 else -1)).
  { unfold quote_cp. rewrite !nth_error_map, Ho. cbn. f_equal. destruct (Rlt_dec 0 (F + o + - F)), (Rlt_dec 0 o); try reflexivity; lra. }
  repeat rewrite ?nth_combine, ?nth_error_map. rewrite Ncp, Ho. cbn [option_map]. rewrite Hs. cbn [option_map]. rewrite X1. reflexivity.
Qed.
Lemma frame_atm (shift : R) (rows : list caplet) (offsets : list R) (t : list entry) (q : nat) (k : capquote) (cols : list (R * R * num)) (v : R) : quote_frame shift rows offsets t q k = Ok (cols, v) ->
  exists cp K px rest, cols = (cp, K, px) :: rest /\ quote_vol_n q cp K px (x_quote (k_searches k) 0) t = Ok v.
Proof.
  unfold quote_frame. intros H. apply bind_ok in H as [Ks [_ H]]. apply bind_ok in H as [u [_ H]]. apply bind_ok in H as [pxs [_ H]]. apply bind_ok in H as [vols [V H]].
  destruct vols as [|v0 vols]; [discriminate|]. injection H as <- <-. set (cols0 := combine (combine _ Ks) pxs) in *. destruct cols0 as [|[[cp K] px] rest]; [discriminate V|].
  exists cp, K, px, rest. split; [reflexivity|]. cbn in V. destruct (quote_vol_n q cp K px (x_quote (k_searches k) 0) t) as [w|]; [|discriminate]. cbn [bind] in V.
  destruct (sequence _) as [r|]; [|discriminate]. cbn [bind] in V. injection V as -> _. reflexivity.
Qed.

(* ---- the final table, row by row ---- *)
Lemma last_row_kept (p : nat -> bool) (t t' : list entry) (e : entry) : Forall2 (fun e e' => e_nb e' = e_nb e /\ (p (e_nb e) = true -> e' = e)) t t' -> last_row p t e -> last_row p t' e.
Proof.
  intros F (i & A1 & A2 & A3). apply forall2_nth in F as [L F]. exists i. destruct (F i e A1) as (e' & E1 & E2 & E3). rewrite (E3 A2) in E1. split; [exact E1|]. split; [exact A2|].
  intros j g Hj Hg. assert (Lj : (j < length t)%nat) by (rewrite <- L; apply nth_error_Some; rewrite Hg; discriminate). destruct (nth_error t j) as [g0|] eqn:Eg; [|apply nth_error_None in Eg; lia].
  destruct (F j g0 Eg) as (g1 & G1 & G2 & _). rewrite Hg in G1. injection G1 as <-. rewrite G2. exact (A3 j g0 Hj Eg).
Qed.
(* rows of a list before and after, at the same place *)
Lemma forall2_back {A B} (P : A -> B -> Prop) (l : list A) (m : list B) (i : nat) (b : B) : Forall2 P l m -> nth_error m i = Some b -> exists a, nth_error l i = Some a /\ P a b.
Proof.
  intros F. revert i. induction F as [|x y l m Hxy F IH]; intros [|i] Hb; try discriminate; cbn in *; [injection Hb as <-; eauto|auto].
Qed.
Lemma forall2_forth {A B} (P : A -> B -> Prop) (l : list A) (m : list B) (i : nat) (a : A) : Forall2 P l m -> nth_error l i = Some a -> exists b, nth_error m i = Some b /\ P a b.
Proof.
  intros F. revert i. induction F as [|x y l m Hxy F IH]; intros [|i] Hb; try discriminate; cbn in *; [injection Hb as <-; eauto|auto].
Qed.
(* what is stored in the rows of a quote *)
Lemma quote_rows (shift : R) (roots : solver) (q : nat) (f : list (R * R * num) * R) (k : capquote) (ta tb : list entry) : solve_quote shift roots q f k ta = Ok tb ->
  exists (cp K : R) (px : num) (rest : list (R * R * num)) (curve fb fr fv : R -> R) (y : list R) (b r v : R) (t1 : list entry), fst f = (cp, K, px) :: rest /\
    solve_vol_n_atm shift q cp K px (snd f) (k_searches k) ta = Ok t1 /\ solve_sabr_params shift roots q (fst f) (k_beta k) (k_searches k) t1 = Ok tb /\
    atm_curve shift q cp K px (snd f) (k_searches k) ta = Ok curve /\ unpack (k_beta k) y = Ok (b, r, v) /\ sabr_curves q t1 b r v = Ok (fb, fr, fv) /\
    forall (i : nat) (e : entry), nth_error tb i = Some e -> e_nb e = q -> let tau := c_tau (e_row e) in
      exists s a, e_atm e = Some (curve tau, s) /\ e_sabr e = Some (a, fb tau, fr tau, fv tau) /\ normal_vol_to_black76_sln (c_F (e_row e)) tau (c_F (e_row e)) (curve tau) shift (x_sln (k_searches k) i) = Ok s /\
        solve_alpha roots tau (c_F (e_row e)) (fb tau) (fr tau) (fv tau) s shift = Ok a.
Proof.
  unfold solve_quote. destruct (fst f) as [|[[cp K] px] rest] eqn:Ef; [discriminate|]. intros H. apply bind_ok in H as [t1 [A H]].
  destruct (atm_rows _ _ _ _ _ _ _ _ _ A) as (curve & C & _ & G). destruct (sabr_rows _ _ _ _ _ _ _ _ H) as (tg & y & b & r & v & [[fb fr] fv] & _ & _ & U & Cv & S2).
  exists cp, K, px, rest, curve, fb, fr, fv, y, b, r, v, t1. split; [reflexivity|]. split; [exact A|]. split; [exact H|]. split; [exact C|]. split; [exact U|]. split; [exact Cv|].
  intros i e Hi Eq. cbv zeta. destruct (forall2_back _ _ _ _ _ S2 Hi) as (e1 & H1 & St). unfold sabr_step in St. destruct (Nat.eqb_spec (e_nb e1) q) as [Q1|Q1]; [|subst e1; contradiction].
  destruct St as (s4 & P4 & ->). apply row_params_spec in P4 as (n & s & a & At & -> & Sa). cbn [e_row e_nb e_atm e_sabr] in *.
  destruct (forall2_back _ _ _ _ _ (atm_step _ _ _ _ _ _ _ _ _ A) H1) as (e0 & H0 & (E1 & E2) & _ & _ & _). destruct (G i e0 H0) as [_ G2]. rewrite <- E2 in G2. destruct (G2 Q1) as (s' & S' & S'').
  rewrite H1 in S'. injection S' as ->. cbn [e_row e_atm] in *. injection At as <- <-. exists s', a. auto.
Qed.
Lemma within_kept (q : nat) (t t' : list entry) : Forall2 same_rows t t' -> Forall2 (fun e e' => (e_nb e <= q)%nat -> e' = e) t t' -> Forall2 (fun e e' => e_nb e' = e_nb e /\ (within q (e_nb e) = true -> e' = e)) t t'.
Proof.
  intros F. induction F as [|a b l m [A1 A2] F IH]; intros G; inversion G; subst; constructor; [|auto]. split; [exact A2|]. intros W. apply Nat.eqb_eq in W. apply H2. lia.
Qed.
Lemma before_kept (q : nat) (t t' : list entry) : Forall2 same_rows t t' -> Forall2 (fun e e' => (e_nb e < q)%nat -> e' = e) t t' -> Forall2 (fun e e' => e_nb e' = e_nb e /\ (before q (e_nb e) = true -> e' = e)) t t'.
Proof.
  intros F. induction F as [|a b l m [A1 A2] F IH]; intros G; inversion G; subst; constructor; [|auto]. split; [exact A2|]. intros W. apply Nat.ltb_lt in W. auto.
Qed.
Lemma same_trans (t u w : list entry) : Forall2 same_rows t u -> Forall2 same_rows u w -> Forall2 same_rows t w.
Proof. intros A B. eapply forall2_trans; [|exact A|exact B]. intros a b c [X1 X2] [Y1 Y2]. split; congruence. Qed.

Lemma calibrate_consistent (shift : R) (roots : solver) (rows : list caplet) (offsets : list R) (quotes : list capquote) (t : list entry) (i : nat) (e : entry) (k : capquote) :
  calibrate shift roots rows offsets quotes = Ok t -> nth_error t i = Some e -> nth_error quotes (e_nb e) = Some k ->
  exists n s a b r v, e_atm e = Some (n, s) /\ e_sabr e = Some (a, b, r, v) /\
    normal_vol_to_black76_sln (c_F (e_row e)) (c_tau (e_row e)) (c_F (e_row e)) n shift (x_sln (k_searches k) i) = Ok s /\
    solve_alpha roots (c_tau (e_row e)) (c_F (e_row e)) b r v s shift = Ok a.
Proof.
  intros H Hi Hk. destruct (calibrate_trace _ _ _ _ _ _ _ _ H Hk) as (f & ta & tb & _ & S & _ & S2 & _ & _ & _ & K2).
  destruct (quote_rows _ _ _ _ _ _ _ S) as (cp & K & px & rest & curve & fb & fr & fv & y & b & r & v & t1 & _ & _ & _ & _ & _ & _ & G).
  destruct (forall2_back _ _ _ _ _ S2 Hi) as (e' & H' & _ & En). destruct (forall2_back _ _ _ _ _ K2 Hi) as (e2 & H2 & Ek). rewrite H' in H2. injection H2 as <-. assert (e = e') as <- by (apply Ek; lia).
  destruct (G i e H' eq_refl) as (s & a & G1 & G2 & G3 & G4). do 6 eexists. eauto.
Qed.
(* the first quote: one volatility at the money, and one set of parameters *)
Lemma calibrate_first (shift : R) (roots : solver) (rows : list caplet) (offsets : list R) (quotes : list capquote) (t : list entry) (k : capquote) :
  calibrate shift roots rows offsets quotes = Ok t -> nth_error quotes 0 = Some k ->
  exists cols n, quote_frame shift rows offsets (new_table (map k_term quotes) rows) 0 k = Ok (cols, n) /\ exists b r v, forall e, In e t -> e_nb e = 0%nat -> col_vol_n e = Some n /\ col_beta e = Some b /\ col_rho e = Some r /\ col_volvol e = Some v.
Proof.
  intros H Hk. destruct (calibrate_trace _ _ _ _ _ _ _ _ H Hk) as ([cols n] & ta & tb & Fr & S & _ & S2 & _ & _ & _ & K2).
  destruct (quote_rows _ _ _ _ _ _ _ S) as (cp & K & px & rest & curve & fb & fr & fv & y & b & r & v & t1 & _ & _ & _ & C & _ & Sc & G).
  exists cols, n. split; [exact Fr|]. exists b, r, v. intros e He E0. apply In_nth_error in He as [i Hi].
  destruct (forall2_back _ _ _ _ _ S2 Hi) as (e' & H' & _ & En). destruct (forall2_back _ _ _ _ _ K2 Hi) as (e2 & H2 & Ek). rewrite H' in H2. injection H2 as <-. assert (e = e') as <- by (apply Ek; lia).
  destruct (G i e H' E0) as (s & a & G1 & G2 & _). unfold col_vol_n, col_beta, col_rho, col_volvol. rewrite G1, G2. cbn.
  destruct (curves_spec _ _ _ _ _ _ _ _ Sc) as [C0 _]. destruct (C0 eq_refl (c_tau (e_row e))) as (-> & -> & ->).
  unfold atm_curve in C. cbn in C. apply bind_ok in C as [z [_ C]]. injection C as <-. auto.
Qed.
(* later quotes: straight lines from the last row of the quotes before to the last row of the quote *)
Lemma calibrate_later (shift : R) (roots : solver) (rows : list caplet) (offsets : list R) (quotes : list capquote) (t : list entry) (q : nat) (k : capquote) (e0 e1 : entry) :
  ordered (new_table (map k_term quotes) rows) -> calibrate shift roots rows offsets quotes = Ok t -> nth_error quotes q = Some k -> (0 < q)%nat -> last_row (before q) t e0 -> last_row (within q) t e1 -> c_tau (e_row e0) < c_tau (e_row e1) ->
  forall col, In col [col_vol_n; col_beta; col_rho; col_volvol] -> exists y0 y1, col e0 = Some y0 /\ col e1 = Some y1 /\
    forall e, In e t -> e_nb e = q -> c_tau (e_row e0) <= c_tau (e_row e) <= c_tau (e_row e1) -> exists y, col e = Some y /\ on_line (c_tau (e_row e0)) y0 (c_tau (e_row e1)) y1 (c_tau (e_row e)) y.
Proof.
  intros O H Hk Hq L0 L1 Lt. destruct (calibrate_trace _ _ _ _ _ _ _ _ H Hk) as (f & ta & tb & _ & S & S1 & S2 & _ & _ & K1 & K2).
  destruct (quote_rows _ _ _ _ _ _ _ S) as (cp & K & px & rest & curve & fb & fr & fv & yy & b & r & v & t1 & _ & A & Sb & C & _ & Sc & G).
  (* the same rows in the tables on the way *)
  assert (F1 : Forall2 same_rows ta t1) by (eapply forall2_mono; [|exact (atm_step _ _ _ _ _ _ _ _ _ A)]; intros x z [X _]; exact X).
  assert (F2 : Forall2 same_rows ta tb) by (eapply forall2_mono; [|exact (quote_steps _ _ _ _ _ _ _ S)]; intros x z [X _]; exact X).
  assert (Fat : Forall2 same_rows ta t) by (eapply same_trans; eassumption).
  assert (KB : Forall2 (fun e e' => e_nb e' = e_nb e /\ (before q (e_nb e) = true -> e' = e)) ta t) by (apply before_kept; assumption).
  assert (KW : Forall2 (fun e e' => e_nb e' = e_nb e /\ (within q (e_nb e) = true -> e' = e)) tb t) by (apply within_kept; assumption).
  assert (K01 : Forall2 (fun e e' => e_nb e' = e_nb e /\ (before q (e_nb e) = true -> e' = e)) ta t1).
  { eapply forall2_mono; [|exact (atm_step _ _ _ _ _ _ _ _ _ A)]. intros x z ((X1 & X2) & X3 & _). split; [exact X2|]. intros W. apply Nat.ltb_lt in W. apply X3. lia. }
  destruct L0 as (i0 & I0 & P0 & Q0). destruct L1 as (i1 & I1 & P1 & Q1).
  assert (L0 : last_row (before q) t e0) by (exists i0; auto). assert (L1 : last_row (within q) t e1) by (exists i1; auto).
  destruct (forall2_back _ _ _ _ _ KB I0) as (a0 & A0 & An & Ak). assert (e0 = a0) as <- by (apply Ak; rewrite <- An; exact P0).
  assert (N1 : e_nb e1 = q) by (apply Nat.eqb_eq; exact P1). assert (N0 : (e_nb e0 < q)%nat) by (apply Nat.ltb_lt; exact P0).
  destruct (forall2_back _ _ _ _ _ KW I1) as (b1 & B1 & Bn & Bk). assert (e1 = b1) as <- by (apply Bk; rewrite <- Bn; exact P1).
  destruct (forall2_back _ _ _ _ _ F2 B1) as (a1 & A1 & _ & An1).
  assert (X0 : exists i g, nth_error ta i = Some g /\ e_nb g = q) by (exists i1, a1; split; [exact A1|congruence]).
  assert (Oa : ordered ta) by (eapply ordered_same; eassumption).
  destruct (atm_later _ _ _ _ _ _ _ _ _ Oa Hq X0 A) as (u0 & u1 & n0 & s0 & _ & _ & _ & _ & _ & p & _ & U0 & U1 & Ua & _ & _ & _ & _ & _).
  assert (u0 = e0) as -> by (apply (last_row_fun (before q) t); [apply (last_row_kept _ ta); assumption|exact L0]).
  (* the curve of the normal volatilities *)
  assert (Cu : forall x, curve x = lin2 (c_tau (e_row e0)) (c_tau (e_row u1)) n0 (curve (c_tau (e_row u1))) x).
  { unfold atm_curve in C. destruct (Nat.eqb_spec q 0) as [|_]; [lia|]. apply bind_ok in C as [[[y0 tg] pr] [_ C]]. apply bind_ok in C as [w [_ C]]. apply bind_ok in C as [pi [Pi C]]. apply bind_ok in C as [ci [Ci C]].
    apply bind_ok in C as [ep [R1 C]]. apply bind_ok in C as [ec [R2 C]]. apply bind_ok in C as [[n0' s0'] [At C]]. injection C as <-.
    change (fun n => Nat.ltb n q) with (before q) in Pi. change (fun n => Nat.eqb n q) with (within q) in Ci.
    destruct (pillar_spec _ _ _ Pi) as [ep' [Np Lp]]; [exists i0, e0; split; [exact A0|exact P0]|]. destruct (pillar_spec _ _ _ Ci) as [ec' [Nc Lc]]; [destruct X0 as (i & g & Hg & Eg); exists i, g; split; [exact Hg|apply Nat.eqb_eq; exact Eg]|].
    unfold row_at in R1, R2. rewrite Np in R1. rewrite Nc in R2. injection R1 as <-. injection R2 as <-.
    assert (ep' = e0) as -> by (apply (last_row_fun (before q) ta); assumption). assert (ec' = u1) as -> by (apply (last_row_fun (within q) ta); assumption).
    unfold atm_of in At. rewrite Ua in At. injection At as <- <-. cbn [fst].
    assert (T1 : c_tau (e_row u1) = c_tau (e_row e1)).
    { assert (E : e_row u1 = e_row e1); [|rewrite E; reflexivity]. destruct U1 as (j & J1 & J2 & J3). assert (j = i1).
      { destruct (Nat.lt_trichotomy j i1) as [L|[L|L]]; [|exact L|].
        - exfalso. pose proof (J3 i1 a1 L A1) as J. unfold within in J. rewrite An1 in N1. rewrite N1, Nat.eqb_refl in J. discriminate.
        - exfalso. destruct (forall2_forth _ _ _ _ _ Fat J1) as (g & G1 & _ & G2). pose proof (Q1 j g L G1) as J. rewrite G2 in J. unfold within in J, J2. congruence. }
      subst j. destruct (forall2_forth _ _ _ _ _ Fat J1) as (g & G1 & G2 & _). rewrite I1 in G1. injection G1 as <-. symmetry. exact G2. }
    intros x. rewrite (lin2_right _ (c_tau (e_row u1))) by lra. reflexivity. }
  assert (T1 : e_row u1 = e_row e1).
  { destruct U1 as (j & J1 & J2 & J3). assert (j = i1).
    { destruct (Nat.lt_trichotomy j i1) as [L|[L|L]]; [|exact L|].
      - exfalso. pose proof (J3 i1 a1 L A1) as J. unfold within in J. rewrite An1 in N1. rewrite N1, Nat.eqb_refl in J. discriminate.
      - exfalso. destruct (forall2_forth _ _ _ _ _ Fat J1) as (g & G1 & _ & G2). pose proof (Q1 j g L G1) as J. rewrite G2 in J. unfold within in J, J2. congruence. }
    subst j. destruct (forall2_forth _ _ _ _ _ Fat J1) as (g & G1 & G2 & _). rewrite I1 in G1. injection G1 as <-. symmetry. exact G2. }
  rewrite T1 in Cu.
  (* the curves of the parameters *)
  destruct (forall2_forth _ _ _ _ _ K01 A0) as (c0 & C0 & Cn & Ck). assert (c0 = e0) as -> by (apply Ck; exact P0).
  destruct (forall2_forth _ _ _ _ _ F1 A1) as (c1 & C1 & Cr & Cn1).
  destruct (curves_spec _ _ _ _ _ _ _ _ Sc) as [_ Cl]. destruct (Cl Hq) as (w0 & w1 & a0 & b0 & r0 & v0 & W0 & W1 & Ws & Wf); [exists i0, e0; auto|exists i1, c1; split; [exact C1|congruence]|].
  assert (w0 = e0) as -> by (apply (last_row_fun (before q) t1); [exact W0|apply (last_row_kept _ ta); [exact K01|]; exact U0]).
  assert (T2 : e_row w1 = e_row e1).
  { assert (F1t : Forall2 same_rows t1 t).
    { clear - F1 Fat. revert t Fat. induction F1 as [|x z l m [X1 X2] F IH]; intros t Fat; inversion Fat as [|? ? ? ? [Y1 Y2] ?]; subst; constructor; [split; congruence|auto]. }
    destruct W1 as (j & J1 & J2 & J3). assert (j = i1).
    { destruct (Nat.lt_trichotomy j i1) as [L|[L|L]]; [|exact L|].
      - exfalso. pose proof (J3 i1 c1 L C1) as J. unfold within in J. rewrite Cn1, <- An1, N1, Nat.eqb_refl in J. discriminate.
      - exfalso. destruct (forall2_forth _ _ _ _ _ F1t J1) as (g & G1 & _ & G2). pose proof (Q1 j g L G1) as J. rewrite G2 in J. unfold within in J, J2. congruence. }
    subst j. destruct (forall2_forth _ _ _ _ _ F1t J1) as (g & G1 & G2 & _). rewrite I1 in G1. injection G1 as <-. symmetry. exact G2. }
  rewrite T2 in Wf.
  (* the rows *)
  assert (Row : forall e, In e t -> e_nb e = q -> col_vol_n e = Some (curve (c_tau (e_row e))) /\ col_beta e = Some (fb (c_tau (e_row e))) /\ col_rho e = Some (fr (c_tau (e_row e))) /\ col_volvol e = Some (fv (c_tau (e_row e)))).
  { intros e He Eq. apply In_nth_error in He as [i Hi]. destruct (forall2_back _ _ _ _ _ KW Hi) as (e' & H' & En & Ek). assert (e = e') as <- by (apply Ek; apply Nat.eqb_eq; congruence).
    destruct (G i e H' Eq) as (s & a & G1 & G2 & _). unfold col_vol_n, col_beta, col_rho, col_volvol. rewrite G1, G2. cbn. auto. }
  destruct (Row e1 (nth_error_In _ _ I1) N1) as (R1 & R2 & R3 & R4).
  assert (Fin : forall col g z0, (forall e, In e t -> e_nb e = q -> col e = Some (g (c_tau (e_row e)))) -> col e0 = Some z0 -> (forall x, g x = lin2 (c_tau (e_row e0)) (c_tau (e_row e1)) z0 (g (c_tau (e_row e1))) x) ->
     exists y0 y1, col e0 = Some y0 /\ col e1 = Some y1 /\ forall e, In e t -> e_nb e = q -> c_tau (e_row e0) <= c_tau (e_row e) <= c_tau (e_row e1) -> exists y, col e = Some y /\ on_line (c_tau (e_row e0)) y0 (c_tau (e_row e1)) y1 (c_tau (e_row e)) y).
  { intros col g z0 Hc H0 Hg. exists z0, (g (c_tau (e_row e1))). split; [exact H0|]. split; [apply Hc; [eapply nth_error_In; exact I1|exact N1]|].
    intros e He Eq Ht. exists (g (c_tau (e_row e))). split; [apply Hc; assumption|]. rewrite (Hg (c_tau (e_row e))). apply lin2_line; assumption. }
  assert (Rl : forall z0 z x, lin2 (c_tau (e_row e0)) (c_tau (e_row e1)) z0 z x = lin2 (c_tau (e_row e0)) (c_tau (e_row e1)) z0 (lin2 (c_tau (e_row e0)) (c_tau (e_row e1)) z0 z (c_tau (e_row e1))) x).
  { intros z0 z x. rewrite lin2_right by lra. reflexivity. }
  intros col [<-|[<-|[<-|[<-|[]]]]].
  - apply (Fin _ curve n0); [intros e He Eq; apply Row; assumption|unfold col_vol_n; rewrite Ua; reflexivity|exact Cu].
  - apply (Fin _ fb b0); [intros e He Eq; apply Row; assumption|unfold col_beta; rewrite Ws; reflexivity|]. intros x. destruct (Wf x) as (-> & _). destruct (Wf (c_tau (e_row e1))) as (-> & _). apply Rl.
  - apply (Fin _ fr r0); [intros e He Eq; apply Row; assumption|unfold col_rho; rewrite Ws; reflexivity|]. intros x. destruct (Wf x) as (_ & -> & _). destruct (Wf (c_tau (e_row e1))) as (_ & -> & _). apply Rl.
  - apply (Fin _ fv v0); [intros e He Eq; apply Row; assumption|unfold col_volvol; rewrite Ws; reflexivity|]. intros x. destruct (Wf x) as (_ & _ & ->). destruct (Wf (c_tau (e_row e1))) as (_ & _ & ->). apply Rl.
Qed.

(* ---- the prices of the final table ---- *)
Lemma calibrate_error (shift : R) (roots : solver) (rows : list caplet) (offsets : list R) (quotes : list capquote) (t : list entry) (q : nat) (k : capquote) : quotes <> [] -> alive shift rows ->
  calibrate shift roots rows offsets quotes = Ok t -> nth_error quotes q = Some k ->
  exists cols n tg t1 y, quote_frame shift rows offsets (new_table (map k_term quotes) rows) q k = Ok (cols, n) /\
    sabr_target shift q cols t1 = Ok tg /\ fit_run (sabr_objective shift roots q cols (k_beta k) tg t1) (x_fit (k_searches k)) = Ok y /\
    forall Xs Ss Cs, Forall2 (fun c X => snd c = Fin X) cols Xs ->
      Forall2 (fun c S => 0 < snd (fst c) + shift /\ sabr_total shift (fst (fst c)) (snd (fst c)) (rows_of (before q) t) S) cols Ss ->
      Forall2 (fun c C => 0 < snd (fst c) + shift /\ sabr_total shift (fst (fst c)) (snd (fst c)) (rows_of (within q) t) C) cols Cs ->
      Forall (fun z => fst z - snd z <> 0) (combine Xs Ss) ->
      sabr_objective shift roots q cols (k_beta k) tg t1 y = Ok (Fin (mean_square (map (fun z => fst z - snd z) (combine Xs Ss)) Cs)).
Proof.
  intros Nq Al H Hk. destruct (calibrate_trace _ _ _ _ _ _ _ _ H Hk) as ([cols n] & ta & tb & Fr & S & S1 & S2 & Kb & _ & _ & K2).
  destruct (calibrate_rows _ _ _ _ _ _ Nq H) as (Er & _ & _).
  unfold solve_quote in S. cbn [fst snd] in S. destruct cols as [|[[cp K] px] rest] eqn:Ec; [discriminate|]. rewrite <- Ec in *. apply bind_ok in S as [t1 [A S]].
  destruct (sabr_rows _ _ _ _ _ _ _ _ S) as (tg & y & b & r & v & curves & T & Fy & U & Cv & St).
  exists cols, n, tg, t1, y. split; [exact Fr|]. split; [exact T|]. split; [exact Fy|]. intros Xs Ss Cs HX HS HC Nz.
  assert (F1 : Forall2 same_rows ta t1) by (eapply forall2_mono; [|exact (atm_step _ _ _ _ _ _ _ _ _ A)]; intros x z [X _]; exact X).
  assert (Rt : map e_row t1 = rows).
  { assert (Fn : Forall2 same_rows (new_table (map k_term quotes) rows) t1) by (eapply same_trans; eassumption). transitivity (map e_row (new_table (map k_term quotes) rows)); [|unfold new_table; rewrite map_map; apply map_id].
    clear - Fn. induction Fn as [|x z l m [X _] F IH]; [reflexivity|]. cbn. rewrite X, IH. reflexivity. }
  eapply objective_is; try eassumption.
  - rewrite Ec. discriminate.
  - rewrite Rt. exact Al.
  - assert (E : rows_of (before q) t = rows_of (before q) t1); [|rewrite <- E; exact HS]. rewrite Kb. symmetry. apply rows_kept. eapply forall2_mono; [|exact (atm_step _ _ _ _ _ _ _ _ _ A)].
    intros x z ((X1 & X2) & X3 & _). split; [exact X2|]. intros W. apply Nat.ltb_lt in W. apply X3. lia.
  - assert (E : rows_of (within q) t = rows_of (within q) tb); [|rewrite <- E; exact HC]. apply rows_kept. apply within_kept; assumption.
Qed.
Lemma mean_square_pos (T C : list R) : 0 <= mean_square T C.
Proof.
  unfold mean_square. assert (P : 0 <= / INR (length T)) by (destruct (Nat.eq_dec (length T) 0) as [->|N]; [cbn; rewrite Rinv_0; lra|apply Rlt_le, Rinv_0_lt_compat, lt_0_INR; lia]).
  set (n := INR (length T)) in *. clearbody n. induction (combine T C) as [|z l IH]; [cbn; lra|]. rewrite sum_over_cons. unfold Rdiv in *. pose proof (pow2_ge_0 ((fst z - snd z) * / fst z)). nra.
Qed.
Lemma mean_square_zero (T C : list R) : length C = length T -> Forall (fun x => x <> 0) T -> (mean_square T C = 0 <-> C = T).
Proof.
  intros L Nz. split.
  - unfold mean_square. destruct T as [|t0 T0]; [destruct C; [reflexivity|discriminate]|]. set (T := t0 :: T0) in *.
    assert (P : 0 < / INR (length T)) by (apply Rinv_0_lt_compat, lt_0_INR; unfold T; cbn; lia). set (n := INR (length T)) in *. clearbody n. clearbody T. clear t0 T0.
    revert C L. induction T as [|x T IH]; intros [|c C] L E; try discriminate; [reflexivity|]. inversion Nz; subst. cbn [combine] in E. rewrite sum_over_cons in E. cbn [fst snd] in E.
    assert (G : 0 <= sum_over (fun z => ((fst z - snd z) / fst z) ^ 2 / n) (combine T C)).
    { clear - P. induction (combine T C) as [|z l IHl]; [cbn; lra|]. rewrite sum_over_cons. unfold Rdiv in *. pose proof (pow2_ge_0 ((fst z - snd z) * / fst z)). nra. }
    assert (Sq : ((x - c) / x) ^ 2 / n = 0 /\ sum_over (fun z => ((fst z - snd z) / fst z) ^ 2 / n) (combine T C) = 0).
    { assert (0 <= ((x - c) / x) ^ 2 / n) by (unfold Rdiv at 1; pose proof (pow2_ge_0 ((x - c) / x)); nra). lra. }
    destruct Sq as [Sx Sr]. f_equal; [|apply IH; [assumption|cbn in L; lia|exact Sr]].
    assert (Z : ((x - c) / x) ^ 2 = 0) by (unfold Rdiv at 1 in Sx; apply Rmult_integral in Sx as [Sx|Sx]; [exact Sx|lra]).
    assert (Z2 : (x - c) / x = 0) by (simpl in Z; rewrite Rmult_1_r in Z; apply Rmult_integral in Z; tauto).
    unfold Rdiv in Z2. apply Rmult_integral in Z2 as [Z2|Z2]; [lra|]. exfalso. apply (Rinv_neq_0_compat x); assumption.
  - intros ->. unfold mean_square. set (n := INR (length T)). clearbody n. clear L. induction Nz as [|x T Hx Nz IH]; [reflexivity|]. cbn [combine]. rewrite sum_over_cons. cbn [fst snd]. rewrite IH.
    replace (x - x) with 0 by ring. unfold Rdiv. ring.
Qed.
Lemma total_split (shift cp K : R) (q : nat) (t : list entry) (S C : R) : ordered t -> sabr_total shift cp K (rows_of (before q) t) S -> sabr_total shift cp K (rows_of (within q) t) C -> sabr_total shift cp K (rows_of (upto q) t) (S + C).
Proof.
  intros O (ps & P1 & ->) (cs & C1 & ->). exists (ps ++ cs). split.
  - assert (E : rows_of (upto q) t = rows_of (before q) t ++ rows_of (within q) t); [|rewrite E; apply Forall2_app; assumption].
    clear - O. unfold rows_of. induction t as [|e t IH]; [reflexivity|]. cbn [filter].
    assert (O' : ordered t) by (intros i j a b L Ha Hb; apply (O (Datatypes.S i) (Datatypes.S j) a b); [lia|exact Ha|exact Hb]).
    rewrite (IH O'). unfold upto, before, within. destruct (Nat.lt_trichotomy (e_nb e) q) as [L|[L|L]].
    + rewrite (proj2 (Nat.leb_le (e_nb e) q)), (proj2 (Nat.ltb_lt (e_nb e) q) L), (proj2 (Nat.eqb_neq (e_nb e) q)) by lia. reflexivity.
    + rewrite (proj2 (Nat.leb_le (e_nb e) q)), (proj2 (Nat.ltb_ge (e_nb e) q)), (proj2 (Nat.eqb_eq (e_nb e) q) L) by lia.
      assert (Z : filter (fun e => Nat.ltb (e_nb e) q) t = []).
      { clear IH. destruct (filter (fun e => Nat.ltb (e_nb e) q) t) as [|g l] eqn:Ef; [reflexivity|exfalso]. assert (Ig : In g (filter (fun e => Nat.ltb (e_nb e) q) t)) by (rewrite Ef; left; reflexivity). apply filter_In in Ig as [Ig Lg]. apply Nat.ltb_lt in Lg.
        apply In_nth_error in Ig as [j Hj]. specialize (O 0%nat (Datatypes.S j) e g ltac:(lia) eq_refl Hj). lia. }
      rewrite Z. reflexivity.
    + rewrite (proj2 (Nat.leb_gt (e_nb e) q) L), (proj2 (Nat.ltb_ge (e_nb e) q)), (proj2 (Nat.eqb_neq (e_nb e) q)) by lia. reflexivity.
  - clear. induction ps as [|p ps IH]; [cbn [app]; unfold sum_over at 1; cbn; lra|]. cbn [app]. rewrite !sum_over_cons, <- IH. ring.
Qed.
(* ---- the price of the rows of a later quote ---- *)
Lemma last_within (q : nat) (t t' : list entry) (e : entry) : Forall2 same_rows t t' -> last_row (within q) t' e -> exists a, last_row (within q) t a /\ e_row a = e_row e.
Proof.
  intros F (i & I1 & I2 & I3). destruct (forall2_back _ _ _ _ _ F I1) as (a & A & Er & En). exists a. split; [|congruence]. exists i. split; [exact A|]. split; [rewrite <- En; exact I2|].
  intros j g Hj Hg. destruct (forall2_forth _ _ _ _ _ F Hg) as (g' & G1 & _ & G2). rewrite <- G2. exact (I3 j g' Hj G1).
Qed.
Lemma last_back (p : nat -> bool) (t t' : list entry) (e : entry) : Forall2 (fun e e' => e_nb e' = e_nb e /\ (p (e_nb e) = true -> e' = e)) t t' -> last_row p t' e -> last_row p t e.
Proof.
  intros F (i & I1 & I2 & I3). destruct (forall2_back _ _ _ _ _ F I1) as (a & A & En & Ek). rewrite En in I2. rewrite (Ek I2) in *. exists i. split; [exact A|]. split; [exact I2|].
  intros j g Hj Hg. destruct (forall2_forth _ _ _ _ _ F Hg) as (g' & G1 & G2 & _). rewrite <- G2. exact (I3 j g' Hj G1).
Qed.
Lemma rows_within (q : nat) (t t' : list entry) : Forall2 same_rows t t' -> map e_row (rows_of (within q) t') = map e_row (rows_of (within q) t).
Proof.
  intros F. unfold rows_of. induction F as [|a b l m [E1 E2] F IH]; [reflexivity|]. cbn [filter]. rewrite E2. destruct (within q (e_nb a)); cbn [map]; rewrite ?E1, IH; reflexivity.
Qed.
Lemma on_line_lin2 (X0 X1 Y0 Y1 x y : R) : X0 < X1 -> X0 <= x <= X1 -> on_line X0 Y0 X1 Y1 x y -> y = lin2 X0 X1 Y0 Y1 x.
Proof.
  intros L B O. pose proof (lin2_line X0 X1 Y0 Y1 x L B) as O'. unfold on_line in *. apply Rmult_eq_reg_r with (X1 - X0); [|lra]. lra.
Qed.
Lemma pillar_reprices (shift : R) (roots : solver) (rows : list caplet) (offsets : list R) (quotes : list capquote) (t : list entry) (q : nat) (k : capquote) (e0 e1 : entry) :
  ordered (new_table (map k_term quotes) rows) -> calibrate shift roots rows offsets quotes = Ok t -> nth_error quotes q = Some k -> (0 < q)%nat -> last_row (before q) t e0 -> last_row (within q) t e1 -> c_tau (e_row e0) < c_tau (e_row e1) ->
  exists cp K px rest m p a b r v vol y0, quote_frame shift rows offsets (new_table (map k_term quotes) rows) q k = Ok ((cp, K, px) :: rest, m) /\ col_vol_n e1 = Some p /\
    e_sabr e0 = Some (a, b, r, v) /\ sabr_vol_is (c_tau (e_row e0)) (c_F (e_row e0)) a b r v K shift vol /\
    black76_sln_to_normal_vol (c_F (e_row e0)) (c_tau (e_row e0)) K vol shift (x_brent (k_searches k)) (x_lbfgs (k_searches k)) = Ok y0 /\
    forall (y S X : R) (g : caplet -> R), y0 = Fin y -> px = Fin X -> honest [] (x_pillar (k_searches k)) -> 0 < K + shift -> alive shift rows -> sabr_total shift cp K (rows_of (before q) t) S -> X - S <> 0 ->
      (forall c, In c (map e_row (rows_of (within q) t)) -> c_tau (e_row e0) <= c_tau c <= c_tau (e_row e1) /\ 0 < g c /\ on_line (c_tau (e_row e0)) y (c_tau (e_row e1)) p (c_tau c) (g c)) ->
      exists tot, capfloor_value_n cp K g (map e_row (rows_of (within q) t)) tot /\ close_to (X - S) tot.
Proof.
  intros O H Hk Hq L0 L1 Lt. destruct (calibrate_later _ _ _ _ _ _ _ _ _ _ O H Hk Hq L0 L1 Lt col_vol_n ltac:(left; reflexivity)) as (n0' & p' & N0 & N1 & _).
  destruct (calibrate_trace _ _ _ _ _ _ _ _ H Hk) as ([cols m] & ta & tb & Fr & S & S1 & S2 & Kb & _ & K1 & K2).
  unfold solve_quote in S. cbn [fst snd] in S. destruct cols as [|[[cp K] px] rest]; [discriminate|]. apply bind_ok in S as [t1 [A S]].
  assert (F1 : Forall2 same_rows ta t1) by (eapply forall2_mono; [|exact (atm_step _ _ _ _ _ _ _ _ _ A)]; intros x z [X _]; exact X).
  destruct (sabr_rows _ _ _ _ _ _ _ _ S) as (tg & yy & b' & r' & v' & curves & _ & _ & _ & _ & St).
  assert (F2 : Forall2 same_rows t1 tb).
  { eapply forall2_mono; [|exact St]. intros x z Z. unfold sabr_step in Z. destruct (Nat.eqb_spec (e_nb x) q) as [E|E]; [destruct Z as (s & _ & ->); split; [reflexivity|symmetry; exact E]|subst z; split; reflexivity]. }
  assert (Fat : Forall2 same_rows ta t) by (eapply same_trans; [exact F1|eapply same_trans; eassumption]).
  assert (La : last_row (before q) ta e0) by (apply (last_back _ _ t); [apply before_kept; assumption|exact L0]).
  destruct (last_within _ _ _ _ Fat L1) as (a1 & A1 & Ar).
  assert (X0 : exists i f, nth_error ta i = Some f /\ e_nb f = q) by (destruct A1 as (i & I1 & I2 & _); exists i, a1; split; [exact I1|apply Nat.eqb_eq; exact I2]).
  destruct (atm_later _ _ _ _ _ _ _ _ _ (ordered_same _ _ S1 O) Hq X0 A) as (u0 & u1 & n0 & s0 & a & b & r & v & vol & p & y0 & U0 & U1 & Ua & Us & Uv & Un & Ur & Uh).
  assert (u0 = e0) as -> by (apply (last_row_fun (before q) ta); assumption). assert (u1 = a1) as -> by (apply (last_row_fun (within q) ta); assumption). rewrite Ar in Ur, Uh.
  (* the volatility stored at the pillar *)
  assert (P : col_vol_n e1 = Some p).
  { destruct L1 as (i & I1 & I2 & I3). destruct (forall2_back _ _ _ _ _ (within_kept q tb t S2 K2) I1) as (b1 & B1 & Bn & Bk). assert (e1 = b1) as <- by (apply Bk; rewrite <- Bn; exact I2).
    destruct (forall2_back _ _ _ _ _ St B1) as (c1 & C1 & Cs). destruct (forall2_back _ _ _ _ _ F1 C1) as (d1 & D1 & Dr & Dn).
    assert (Eq : e_nb e1 = q) by (apply Nat.eqb_eq; exact I2). destruct (forall2_back _ _ _ _ _ F2 B1) as (c1' & C1' & Cr & Cn). rewrite C1 in C1'. injection C1' as <-.
    assert (Dq : e_nb d1 = q) by congruence. destruct (Ur i d1 D1 Dq) as (s & R1 & _). rewrite C1 in R1. injection R1 as ->. unfold sabr_step in Cs. cbn [e_nb e_row e_atm] in *. rewrite Nat.eqb_refl in Cs. destruct Cs as (s' & _ & ->).
    cbn [e_row e_nb e_atm] in *. unfold col_vol_n. cbn. rewrite <- Cr. rewrite lin2_right by lra. reflexivity. }
  exists cp, K, px, rest, m, p, a, b, r, v, vol, y0. split; [exact Fr|]. split; [exact P|]. split; [exact Us|]. split; [exact Uv|]. split; [exact Un|].
  intros y S0 X g Ey Ex Hh HK Al HS Nz Hg.
  assert (Ew : map e_row (rows_of (within q) t) = map e_row (rows_of (within q) ta)) by (apply rows_within; exact Fat). rewrite Ew in Hg |- *. rewrite Kb in HS.
  assert (Rt : map e_row ta = rows).
  { transitivity (map e_row (new_table (map k_term quotes) rows)); [|unfold new_table; rewrite map_map; apply map_id]. clear - S1. induction S1 as [|x z l l' [X _] F IH]; [reflexivity|]. cbn. rewrite X, IH. reflexivity. }
  assert (Sub : forall P c, In c (map e_row (rows_of P ta)) -> In c rows).
  { intros P' c Hc. rewrite <- Rt. apply in_map_iff in Hc as (e & <- & He). apply in_map. unfold rows_of in He. apply filter_In in He. tauto. }
  unfold alive in Al. rewrite Forall_forall in Al.
  destruct (Uh y S0 X Ey Ex Hh HK) as (tot & (ps & T1 & ->) & T2); try assumption.
  - unfold alive. apply Forall_forall. intros c Hc. apply Al, (Sub _ _ Hc).
  - apply Forall_forall. intros c Hc. apply Al, (Sub _ _ Hc).
  - apply Forall_forall. intros c Hc. destruct (Hg c Hc) as (G1 & G2 & G3). rewrite <- (on_line_lin2 _ _ _ _ _ _ Lt G1 G3). exact G2.
  - exists (sum_over (fun x => x) ps). split; [|exact T2]. exists ps. split; [|reflexivity]. clear - T1 Hg Lt. induction T1 as [|c x l ps E F IH]; constructor; [|apply IH; intros d Hd; apply Hg; right; exact Hd].
    destruct (Hg c (or_introl eq_refl)) as (G1 & _ & G3). rewrite (on_line_lin2 _ _ _ _ _ _ Lt G1 G3). exact E.
Qed.
(* later quotes need two rows before them *)
Lemma two_before (shift : R) (roots : solver) (rows : list caplet) (offsets : list R) (quotes : list capquote) (t : list entry) (q : nat) (k : capquote) :
  ordered (new_table (map k_term quotes) rows) -> calibrate shift roots rows offsets quotes = Ok t -> nth_error quotes q = Some k -> (0 < q)%nat -> (2 <= length (rows_of (before q) t))%nat.
Proof.
  intros O H Hk Hq. assert (Nq : quotes <> []) by (destruct quotes; [destruct q; discriminate|discriminate]). destruct (calibrate_rows _ _ _ _ _ _ Nq H) as (_ & _ & Sv). rewrite Forall_forall in Sv.
  destruct (calibrate_trace _ _ _ _ _ _ _ _ H Hk) as ([cols m] & ta & tb & Fr & S & S1 & S2 & Kb & _).
  unfold solve_quote in S. cbn [fst snd] in S. destruct cols as [|[[cp K] px] rest]; [discriminate|]. apply bind_ok in S as [t1 [A _]]. unfold solve_vol_n_atm in A. apply bind_ok in A as [curve [C _]]. unfold atm_curve in C.
  destruct (Nat.eqb_spec q 0) as [|_]; [lia|]. apply bind_ok in C as [pr [Pp _]].
  destruct (rows_of (before q) t) as [|e [|e' l]] eqn:E; cbn [length]; [| |lia]; exfalso.
  - destruct ta as [|x ta]; [discriminate Pp|]. rewrite no_prior in Pp; [discriminate|discriminate|]. symmetry. exact Kb.
  - assert (In e (rows_of (before q) t)) by (rewrite E; left; reflexivity). unfold rows_of in H0. apply filter_In in H0 as [He _].
    rewrite (single_prior _ _ _ _ _ _ _ e) in Pp; [discriminate|exact (ordered_same _ _ S1 O)|symmetry; exact Kb|]. destruct (Sv e He) as [_ [s ->]]. discriminate.
Qed.
