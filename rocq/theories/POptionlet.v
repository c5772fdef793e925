(* C122-C127: cap and floor quotes, the bootstrap of optionlet volatilities, the volatility term structure and the pricing of optionlets (frm/term_structures/optionlet.py). *)
From Coq Require Import ZArith Reals List Bool Lra Lia Sorted.
From Verif Require Import Base NumModel NormalModel NormalProofs BsProofs BlackModel BlackSpec BlackProofs BlackVecProofs SabrModel SabrSpec SabrProofs SabrRootProofs SabrSmileProofs OptionletModel OptionletSpec OptionletProofs OptionletBootProofs OptionletSabrProofs OptionletCalibProofs OptionletEndProofs OptionletPriceProofs.
Import ListNotations.
Open Scope R_scope.

(* ==== C122: construction, numbers of the quotes, forwards ==== *)
Theorem C122_construction_fails {A} (date delay : option Z) (busday : Z -> result Z) (frames : Z -> result unit) :
  (exists e, @optionlet_init A date delay busday frames = Err e) /\
  (date = None -> delay = None -> @optionlet_init A date delay busday frames = Err ValueError) /\
  (forall s, (date = Some s \/ (date = None /\ exists n, delay = Some n /\ busday n = Ok s)) -> frames s = Ok tt -> @optionlet_init A date delay busday frames = Err AttributeError).
Proof. exact (init_fails date delay busday frames). Qed.
Theorem C122_quote_numbers (terms : list Z) (rows : list caplet) (i : nat) (e : entry) : ascending terms -> nth_error (new_table terms rows) i = Some e ->
  nth_error rows i = Some (e_row e) /\ e_atm e = None /\ e_sabr e = None /\
  ((exists U, In U terms /\ (c_end (e_row e) <= U)%Z) -> forall (q : nat) (T : Z), nth_error terms q = Some T -> ((e_nb e <= q)%nat <-> (c_end (e_row e) <= T)%Z)) /\
  ((forall U, In U terms -> (U < c_end (e_row e))%Z) -> e_nb e = 0%nat).
Proof.
  intros As H. apply new_table_nth in H as (c & Hc & ->). cbn. split; [exact Hc|]. split; [reflexivity|]. split; [reflexivity|].
  split; [intros Cv q T HT; apply quote_nb_spec; assumption|]. apply quote_nb_uncovered.
Qed.
Theorem C122_par_forward (rows : list caplet) (T : Z) : annuity (covered rows T) <> 0 ->
  exists F, quote_forward rows T = Fin F /\ forall K, sum_over (fun c => c_ann c * (c_F c - K)) (covered rows T) = 0 <-> K = F.
Proof. exact (forward_par rows T). Qed.
Theorem C122_forward_between (rows : list caplet) (T : Z) (lo hi : R) : covered rows T <> [] -> (forall c, In c (covered rows T) -> 0 < c_ann c /\ lo <= c_F c <= hi) ->
  exists F, quote_forward rows T = Fin F /\ lo <= F <= hi.
Proof.
  intros N H. assert (P : annuity (covered rows T) <> 0) by (apply Rgt_not_eq, sum_over_pos; [exact N|intros c Hc; apply H, Hc]). destruct (forward_par rows T P) as (F & E & _). exists F. split; [exact E|]. exact (forward_between rows T lo hi F N H E).
Qed.
Theorem C122_forward_of_nothing (rows : list caplet) (T : Z) : covered rows T = [] -> quote_forward rows T = NaN.
Proof. exact (forward_empty rows T). Qed.

(* ==== C123: the columns of a quote ==== *)
Theorem C123_columns (shift : R) (terms : list Z) (rows : list caplet) (offsets : list R) (q : nat) (T : Z) (k : capquote) (F : R) (cols : list (R * R * num)) (n : R) :
  ascending terms -> nth_error terms q = Some T -> ascending (map c_end rows) -> (forall c, In c rows -> exists U, In U terms /\ (c_end c <= U)%Z) -> alive shift rows -> k_term k = T -> quote_forward rows T = Fin F ->
  quote_frame shift rows offsets (new_table terms rows) q k = Ok (cols, n) -> length cols = length offsets /\ length (k_vols k) = length offsets /\
  forall (j : nat) (o s : R), nth_error offsets j = Some o -> nth_error (k_vols k) j = Some s -> 0 < F + o + shift -> 0 < s ->
    exists cp x, nth_error cols j = Some (cp, F + o, Fin x) /\ (0 < o -> cp = 1) /\ (o <= 0 -> cp = -1) /\ capfloor_value shift cp (F + o) (fun _ => s) (covered rows T) x.
Proof.
  intros As HT Ar Cv Al Kt HF H. destruct (frame_columns shift terms rows offsets q T k F (cols, n) As HT Ar Cv Al Kt HF H) as (L1 & L2 & G). split; [exact L1|]. split; [exact L2|].
  intros j o s Ho Hs HK Hv. destruct (G j o s Ho Hs HK Hv) as (x & X1 & X2). exists (if Rlt_dec 0 o then 1 else -1), x. split; [exact X1|]. split; [intros P; destruct (Rlt_dec 0 o); [reflexivity|contradiction]|]. split; [intros P; destruct (Rlt_dec 0 o); [lra|reflexivity]|exact X2].
Qed.
(* a cap less a floor is a swap; at the forward of the quote they have the same price *)
Theorem C123_parity (shift K : R) (vol : caplet -> R) (rows : list caplet) (T : Z) : alive shift rows -> 0 < K + shift -> (forall c, In c rows -> 0 < vol c) -> annuity (covered rows T) <> 0 ->
  exists F c p, quote_forward rows T = Fin F /\ capfloor_value shift 1 K vol (covered rows T) c /\ capfloor_value shift (-1) K vol (covered rows T) p /\ c - p = sum_over (fun c => c_ann c * (c_F c - K)) (covered rows T) /\ (c = p <-> K = F).
Proof.
  intros Al HK Hv Na. destruct (forward_par rows T Na) as (F & E & P).
  assert (Al' : alive shift (covered rows T)) by (unfold alive in *; rewrite Forall_forall in *; intros c Hc; apply Al; unfold covered in Hc; apply filter_In in Hc; tauto).
  destruct (capfloor_parity shift K vol (covered rows T) Al' HK) as (c & p & C & D & G); [intros x Hx; apply Hv; unfold covered in Hx; apply filter_In in Hx; tauto|].
  exists F, c, p. split; [exact E|]. split; [exact C|]. split; [exact D|]. split; [exact G|]. rewrite <- P, <- G. split; intros; lra.
Qed.
(* the normal volatility of the first column gives its price, within the tolerance, when the search reports a value it has seen; a success it reports is not checked *)
Theorem C123_normal_vol (shift : R) (terms : list Z) (rows : list caplet) (offsets : list R) (q : nat) (T : Z) (k : capquote) (cols : list (R * R * num)) (n : R) :
  ascending terms -> nth_error terms q = Some T -> (forall c, In c rows -> exists U, In U terms /\ (c_end c <= U)%Z) -> (forall c, In c rows -> 0 < c_tau c) -> covered rows T <> [] -> honest [] (x_quote (k_searches k) 0) ->
  quote_frame shift rows offsets (new_table terms rows) q k = Ok (cols, n) -> 0 < n ->
  exists cp K px rest, cols = (cp, K, px) :: rest /\ forall X, px = Fin X -> X <> 0 -> exists x, capfloor_value_n cp K (fun _ => n) (covered rows T) x /\ close_to X x.
Proof.
  intros As HT Cv Tp Nc Hh H Hn. destruct (frame_atm _ _ _ _ _ _ _ _ H) as (cp & K & px & rest & E & V). exists cp, K, px, rest. split; [exact E|]. intros X -> Nz.
  assert (M : map e_row (rows_of (upto q) (new_table terms rows)) = covered rows T) by (rewrite <- (new_table_covered terms rows q T As HT Cv), select_rows; reflexivity).
  destruct (quote_vol_n_reprices q cp K X n (x_quote (k_searches k) 0) (new_table terms rows)) as (x & X1 & X2); try assumption.
  - intros Z. rewrite Z in M. cbn in M. symmetry in M. contradiction.
  - rewrite M. apply Forall_forall. intros c Hc. apply Tp. unfold covered in Hc. apply filter_In in Hc. tauto.
  - rewrite M in X1. eauto.
Qed.
Theorem C123_unchecked (q : nat) (cp K : R) (px : num) (v : R) (t : list entry) : quote_vol_n q cp K px (Finish (Minimum v true NaN)) t = Ok v.
Proof. exact (quote_vol_n_unchecked q cp K px v t). Qed.
(* rows after the last quote carry the number of the first quote, which leaves a gap *)
Theorem C123_rows_after_quotes (shift : R) (terms : list Z) (rows : list caplet) (q : nat) (cps : list R) (Ks : list num) (vols : list R) (i : nat) (c : caplet) :
  nth_error rows i = Some c -> (forall U, In U terms -> (U < c_end c)%Z) -> (exists j d, (j < i)%nat /\ nth_error rows j = Some d /\ (q < quote_nb terms (c_end d))%nat) -> (forall j, (i < j)%nat -> nth_error rows j = None) ->
  quote_pxs shift q cps Ks vols (new_table terms rows) = Err IndexError.
Proof.
  intros Hc Un (j & d & Lj & Hd & Nd) Last. unfold quote_pxs. rewrite (labels_gap _ _ i (mk_entry c (quote_nb terms (c_end c)) None None)); [reflexivity|apply new_table_nth; eauto|cbn; rewrite quote_nb_uncovered by assumption; reflexivity|].
  unfold select. assert (Ll : length rows = S i).
  { apply Nat.le_antisymm; [|apply nth_error_Some; rewrite Hc; discriminate]. apply Nat.nlt_ge. intros L. specialize (Last (S i) ltac:(lia)). apply nth_error_None in Last. lia. }
  assert (Ln : length (labelled (new_table terms rows)) = S i) by (unfold labelled, new_table; rewrite combine_length, seq_length, map_length; lia).
  assert (Lt : (length (filter (fun e : nat * entry => (e_nb (snd e) <=? q)%nat) (labelled (new_table terms rows))) < length (labelled (new_table terms rows)))%nat); [|lia].
  assert (I : In (j, mk_entry d (quote_nb terms (c_end d)) None None) (labelled (new_table terms rows))).
  { apply (nth_error_In _ j). rewrite labelled_nth. rewrite (proj2 (new_table_nth terms rows j (mk_entry d (quote_nb terms (c_end d)) None None))); [reflexivity|eauto]. }
  assert (F : Nat.leb (quote_nb terms (c_end d)) q = false) by (apply Nat.leb_gt; exact Nd). clear - I F.
  induction (labelled (new_table terms rows)) as [|z l IH]; [destruct I|]. cbn [filter]. destruct I as [->|I].
  - cbn [snd e_nb]. rewrite F. assert (G : forall l : list (nat * entry), (length (filter (fun e : nat * entry => (e_nb (snd e) <=? q)%nat) l) <= length l)%nat) by (clear; induction l as [|w l IHl]; [reflexivity|]; cbn [filter]; destruct (e_nb (snd w) <=? q)%nat; cbn [length]; lia). specialize (G l). cbn [length]. lia.
  - specialize (IH I). destruct (e_nb (snd z) <=? q)%nat; cbn [length]; lia.
Qed.

(* ==== C124: the volatilities at the money ==== *)
Theorem C124_first_quote (shift : R) (roots : solver) (rows : list caplet) (offsets : list R) (quotes : list capquote) (t : list entry) (k : capquote) :
  calibrate shift roots rows offsets quotes = Ok t -> nth_error quotes 0 = Some k ->
  exists cols n, quote_frame shift rows offsets (new_table (map k_term quotes) rows) 0 k = Ok (cols, n) /\ forall e, In e t -> e_nb e = 0%nat -> col_vol_n e = Some n.
Proof. intros H Hk. destruct (calibrate_first _ _ _ _ _ _ _ H Hk) as (cols & n & Fr & b & r & v & G). exists cols, n. split; [exact Fr|]. intros e He E0. apply G; assumption. Qed.
(* a later quote: the line to the volatility of its last row reprices what the earlier quotes leave, when the line starts at the volatility of the earlier smile at the strike *)
Theorem C124_later_quote (shift : R) (roots : solver) (rows : list caplet) (offsets : list R) (quotes : list capquote) (t : list entry) (q : nat) (k : capquote) (e0 e1 : entry) :
  ascending (map k_term quotes) -> ascending (map c_end rows) -> (forall c, In c rows -> exists U, In U (map k_term quotes) /\ (c_end c <= U)%Z) ->
  calibrate shift roots rows offsets quotes = Ok t -> nth_error quotes q = Some k -> (0 < q)%nat -> last_row (before q) t e0 -> last_row (within q) t e1 -> c_tau (e_row e0) < c_tau (e_row e1) ->
  exists cp K px rest m p a b r v vol y0, quote_frame shift rows offsets (new_table (map k_term quotes) rows) q k = Ok ((cp, K, px) :: rest, m) /\ col_vol_n e1 = Some p /\
    e_sabr e0 = Some (a, b, r, v) /\ sabr_vol_is (c_tau (e_row e0)) (c_F (e_row e0)) a b r v K shift vol /\
    black76_sln_to_normal_vol (c_F (e_row e0)) (c_tau (e_row e0)) K vol shift (x_brent (k_searches k)) (x_lbfgs (k_searches k)) = Ok y0 /\
    forall (y S X : R) (g : caplet -> R), y0 = Fin y -> px = Fin X -> honest [] (x_pillar (k_searches k)) -> 0 < K + shift -> alive shift rows -> sabr_total shift cp K (rows_of (before q) t) S -> X - S <> 0 ->
      (forall c, In c (map e_row (rows_of (within q) t)) -> c_tau (e_row e0) <= c_tau c <= c_tau (e_row e1) /\ 0 < g c /\ on_line (c_tau (e_row e0)) y (c_tau (e_row e1)) p (c_tau c) (g c)) ->
      exists tot, capfloor_value_n cp K g (map e_row (rows_of (within q) t)) tot /\ close_to (X - S) tot.
Proof.
  intros As Ar Cv H Hk. apply (pillar_reprices shift roots rows offsets quotes t q k e0 e1); try assumption. apply new_table_ordered; try assumption. destruct quotes; [destruct q; discriminate|discriminate].
Qed.
(* the stored line starts at the volatility at the money of the earlier row instead *)
Theorem C124_stored_line (shift : R) (roots : solver) (rows : list caplet) (offsets : list R) (quotes : list capquote) (t : list entry) (q : nat) (k : capquote) (e0 e1 : entry) :
  ascending (map k_term quotes) -> ascending (map c_end rows) -> (forall c, In c rows -> exists U, In U (map k_term quotes) /\ (c_end c <= U)%Z) ->
  calibrate shift roots rows offsets quotes = Ok t -> nth_error quotes q = Some k -> (0 < q)%nat -> last_row (before q) t e0 -> last_row (within q) t e1 -> c_tau (e_row e0) < c_tau (e_row e1) ->
  exists n0 p, col_vol_n e0 = Some n0 /\ col_vol_n e1 = Some p /\
    forall e, In e t -> e_nb e = q -> c_tau (e_row e0) <= c_tau (e_row e) <= c_tau (e_row e1) -> exists n, col_vol_n e = Some n /\ on_line (c_tau (e_row e0)) n0 (c_tau (e_row e1)) p (c_tau (e_row e)) n /\
      forall y g, on_line (c_tau (e_row e0)) y (c_tau (e_row e1)) p (c_tau (e_row e)) g -> (n = g <-> y = n0 \/ c_tau (e_row e) = c_tau (e_row e1)).
Proof.
  intros As Ar Cv H Hk Hq L0 L1 Lt.
  assert (O : ordered (new_table (map k_term quotes) rows)) by (apply new_table_ordered; try assumption; destruct quotes; [destruct q; discriminate|discriminate]).
  destruct (calibrate_later _ _ _ _ _ _ _ _ _ _ O H Hk Hq L0 L1 Lt col_vol_n ltac:(left; reflexivity)) as (n0 & p & N0 & N1 & G). exists n0, p. split; [exact N0|]. split; [exact N1|].
  intros e He Eq Ht. destruct (G e He Eq Ht) as (n & A & B). exists n. split; [exact A|]. split; [exact B|]. intros y g Hg. unfold on_line in *.
  set (x0 := c_tau (e_row e0)) in *. set (x1 := c_tau (e_row e1)) in *. set (x := c_tau (e_row e)) in *.
  assert (D : (n - g) * (x1 - x0) = (n0 - y) * (x1 - x)) by lra. split.
  - intros ->. assert (Z : (n0 - y) * (x1 - x) = 0) by (rewrite <- D; ring). apply Rmult_integral in Z as [Z|Z]; [left; lra|right; lra].
  - intros [->|E]; [replace (n0 - n0) with 0 in D by ring|rewrite E in D; replace (x1 - x1) with 0 in D by ring]; rewrite ?Rmult_0_l, ?Rmult_0_r in D; apply Rmult_integral in D as [D|D]; lra.
Qed.
Theorem C124_two_rows_before (shift : R) (roots : solver) (rows : list caplet) (offsets : list R) (quotes : list capquote) (t : list entry) (q : nat) (k : capquote) :
  ascending (map k_term quotes) -> ascending (map c_end rows) -> (forall c, In c rows -> exists U, In U (map k_term quotes) /\ (c_end c <= U)%Z) ->
  calibrate shift roots rows offsets quotes = Ok t -> nth_error quotes q = Some k -> (0 < q)%nat -> (2 <= length (rows_of (before q) t))%nat.
Proof. intros As Ar Cv H Hk. apply (two_before shift roots rows offsets quotes t q k); try assumption. apply new_table_ordered; try assumption. destruct quotes; [destruct q; discriminate|discriminate]. Qed.
Theorem C124_one_row_before (shift : R) (q : nat) (cp K : R) (px : num) (n : R) (x : searches) (t : list entry) : (0 < q)%nat -> ordered t ->
  (t <> [] -> rows_of (before q) t = [] -> solve_vol_n_atm shift q cp K px n x t = Err KeyError) /\
  (forall e, rows_of (before q) t = [e] -> solved e -> solve_vol_n_atm shift q cp K px n x t = Err TypeError).
Proof.
  intros Hq O. unfold solve_vol_n_atm, atm_curve. destruct (Nat.eqb_spec q 0) as [|_]; [lia|]. split.
  - intros Nt E. rewrite no_prior by assumption. reflexivity.
  - intros e E [_ [s Hs]]. rewrite (single_prior _ _ _ _ _ _ _ e); [reflexivity|assumption|assumption|rewrite Hs; discriminate].
Qed.
(* the shifted lognormal volatility of a row gives the price of its normal volatility *)
Theorem C124_lognormal (shift : R) (roots : solver) (rows : list caplet) (offsets : list R) (quotes : list capquote) (t : list entry) (i : nat) (e : entry) (k : capquote) :
  calibrate shift roots rows offsets quotes = Ok t -> nth_error t i = Some e -> nth_error quotes (e_nb e) = Some k -> alive shift rows -> honest [] (x_sln (k_searches k) i) ->
  let c := e_row e in exists n s, e_atm e = Some (n, s) /\ (0 < n -> exists x y, price_n (c_F c) (c_tau c) 1 (c_F c) n 1 = Fin x /\ price76 (c_F c) (c_tau c) 1 (c_F c) s shift 1 = Fin y /\ close_to x y).
Proof.
  intros H Hi Hk Al Hh c. destruct (calibrate_consistent _ _ _ _ _ _ _ _ _ H Hi Hk) as (n & s & a & b & r & v & A & _ & C & _). exists n, s. split; [exact A|]. intros Hn.
  assert (Nq : quotes <> []) by (destruct quotes; [destruct (e_nb e); discriminate|discriminate]). destruct (calibrate_rows _ _ _ _ _ _ Nq H) as (Er & _ & _).
  assert (Hc : In c rows) by (rewrite <- Er; apply in_map; eapply nth_error_In; exact Hi). unfold alive in Al. rewrite Forall_forall in Al. destruct (Al c Hc) as [A1 A2]. pose proof (total_pos n (c_tau c) Hn A2) as P.
  assert (E : price_n (c_F c) (c_tau c) 1 (c_F c) n 1 = Fin (n * sqrt (c_tau c) * pdf 0)).
  { rewrite price_n_fin by lra. f_equal. unfold nrm. replace ((c_F c - c_F c) / (n * sqrt (c_tau c))) with 0 by (unfold Rdiv; ring). ring. }
  assert (Pp : 0 < pdf 0) by apply pdf_pos. exists (n * sqrt (c_tau c) * pdf 0).
  destruct (normal_vol_reprices (c_F c) (c_tau c) (c_F c) n shift (n * sqrt (c_tau c) * pdf 0) s (x_sln (k_searches k) i)) as [N _]; [lra|exact E|apply Rgt_not_eq; apply Rmult_gt_0_compat; lra|].
  destruct (N Hh C) as (y & Y1 & Y2). exists y. auto.
Qed.

(* ==== C125: the SABR parameters ==== *)
Theorem C125_rows (shift : R) (roots : solver) (rows : list caplet) (offsets : list R) (quotes : list capquote) (t : list entry) : quotes <> [] -> calibrate shift roots rows offsets quotes = Ok t ->
  map e_row t = rows /\ Forall2 same_rows (new_table (map k_term quotes) rows) t /\ Forall solved t.
Proof.
  intros N H. destruct (calibrate_rows _ _ _ _ _ _ N H) as (A & B & C). split; [exact A|]. split; [|exact C].
  assert (B' : map e_nb t = map e_nb (new_table (map k_term quotes) rows)) by (rewrite B; unfold new_table; rewrite map_map; reflexivity).
  assert (A' : map e_row t = map e_row (new_table (map k_term quotes) rows)) by (rewrite A; unfold new_table; rewrite map_map; symmetry; apply map_id). clear - A' B'.
  revert A' B'. generalize (new_table (map k_term quotes) rows). induction t as [|e t IH]; intros [|d l] A B; try discriminate; constructor; cbn in *; [injection A as A1 A2; injection B as B1 B2; split; assumption|apply IH; [injection A as _ A; exact A|injection B as _ B; exact B]].
Qed.
Theorem C125_first_quote (shift : R) (roots : solver) (rows : list caplet) (offsets : list R) (quotes : list capquote) (t : list entry) (k : capquote) :
  calibrate shift roots rows offsets quotes = Ok t -> nth_error quotes 0 = Some k -> exists b r v, forall e, In e t -> e_nb e = 0%nat -> col_beta e = Some b /\ col_rho e = Some r /\ col_volvol e = Some v.
Proof. intros H Hk. destruct (calibrate_first _ _ _ _ _ _ _ H Hk) as (cols & n & Fr & b & r & v & G). exists b, r, v. intros e He E0. apply G; assumption. Qed.
Theorem C125_later_quote (shift : R) (roots : solver) (rows : list caplet) (offsets : list R) (quotes : list capquote) (t : list entry) (q : nat) (k : capquote) (e0 e1 : entry) :
  ascending (map k_term quotes) -> ascending (map c_end rows) -> (forall c, In c rows -> exists U, In U (map k_term quotes) /\ (c_end c <= U)%Z) ->
  calibrate shift roots rows offsets quotes = Ok t -> nth_error quotes q = Some k -> (0 < q)%nat -> last_row (before q) t e0 -> last_row (within q) t e1 -> c_tau (e_row e0) < c_tau (e_row e1) ->
  forall col, In col [col_beta; col_rho; col_volvol] -> exists y0 y1, col e0 = Some y0 /\ col e1 = Some y1 /\
    forall e, In e t -> e_nb e = q -> c_tau (e_row e0) <= c_tau (e_row e) <= c_tau (e_row e1) -> exists y, col e = Some y /\ on_line (c_tau (e_row e0)) y0 (c_tau (e_row e1)) y1 (c_tau (e_row e)) y.
Proof.
  intros As Ar Cv H Hk Hq L0 L1 Lt col Hc. apply (calibrate_later shift roots rows offsets quotes t q k e0 e1); try assumption; [|right; exact Hc]. apply new_table_ordered; try assumption. destruct quotes; [destruct q; discriminate|discriminate].
Qed.
(* the smile of every row passes through its volatility at the money *)
Theorem C125_at_the_money (shift : R) (roots : solver) (rows : list caplet) (offsets : list R) (quotes : list capquote) (t : list entry) (e : entry) :
  exact_solver roots -> quotes <> [] -> calibrate shift roots rows offsets quotes = Ok t -> In e t -> 0 < c_F (e_row e) + shift ->
  exists n s a b r v, e_atm e = Some (n, s) /\ e_sabr e = Some (a, b, r, v) /\ sabr_vol_is (c_tau (e_row e)) (c_F (e_row e)) a b r v (c_F (e_row e)) shift s.
Proof.
  intros X Nq H He Hp. destruct (calibrate_rows _ _ _ _ _ _ Nq H) as (_ & Er & _). apply In_nth_error in He as [i Hi].
  assert (L : (e_nb e < length quotes)%nat).
  { assert (In (e_nb e) (map e_nb t)) by (apply in_map; eapply nth_error_In; exact Hi). rewrite Er in H0. apply in_map_iff in H0 as (c & <- & _). rewrite <- (map_length k_term). apply quote_nb_lt. destruct quotes; [contradiction|discriminate]. }
  destruct (nth_error quotes (e_nb e)) as [k|] eqn:Ek; [|apply nth_error_None in Ek; lia].
  destruct (calibrate_consistent _ _ _ _ _ _ _ _ _ H Hi Ek) as (n & s & a & b & r & v & A & B & _ & D). exists n, s, a, b, r, v. split; [exact A|]. split; [exact B|]. eapply alpha_reprices; eassumption.
Qed.
(* bounds; a fitted beta may be negative *)
Theorem C125_bounds (shift : R) (roots : solver) (rows : list caplet) (offsets : list R) (quotes : list capquote) (t : list entry) (blo bhi : R) : calibrate shift roots rows offsets quotes = Ok t ->
  Forall (fun k => answers (in_bounds (sabr_bounds (k_beta k))) (x_fit (k_searches k)) /\ beta_in blo bhi (k_beta k)) quotes -> Forall (parameters_in blo bhi) t.
Proof. exact (calibrate_in shift roots rows offsets quotes t blo bhi). Qed.
(* what the search minimises: at any parameters, the error of the table they give *)
Theorem C125_objective (shift : R) (roots : solver) (q : nat) (cols : list (R * R * num)) (beta : option R) (x : searches) (t1 tb : list entry) (tg : list num) (y : list R) (Xs Ss Cs : list R) : alive shift (map e_row t1) -> cols <> [] ->
  sabr_target shift q cols t1 = Ok tg -> x_fit x = FitEnd true y -> solve_sabr_params shift roots q cols beta x t1 = Ok tb ->
  Forall2 (fun c X => snd c = Fin X) cols Xs ->
  Forall2 (fun c S => 0 < snd (fst c) + shift /\ sabr_total shift (fst (fst c)) (snd (fst c)) (rows_of (before q) tb) S) cols Ss ->
  Forall2 (fun c C => 0 < snd (fst c) + shift /\ sabr_total shift (fst (fst c)) (snd (fst c)) (rows_of (within q) tb) C) cols Cs ->
  Forall (fun z => fst z - snd z <> 0) (combine Xs Ss) ->
  sabr_objective shift roots q cols beta tg t1 y = Ok (Fin (mean_square (map (fun z => fst z - snd z) (combine Xs Ss)) Cs)).
Proof.
  intros Al Nc T Ef S HX HS HC Nz. destruct (sabr_rows _ _ _ _ _ _ _ _ S) as (tg' & y' & b & r & v & curves & T' & Fy & U & Cv & St). rewrite T in T'. injection T' as <-. rewrite Ef in Fy. injection Fy as <-.
  eapply objective_is; try eassumption. assert (E : rows_of (before q) tb = rows_of (before q) t1); [|rewrite <- E; exact HS]. apply rows_kept. eapply forall2_mono; [|exact St]. intros e e' Z. unfold sabr_step in Z.
  destruct (Nat.eqb_spec (e_nb e) q) as [Q|Q]; [destruct Z as (s & _ & ->); split; [symmetry; exact Q|]; intros W; apply Nat.ltb_lt in W; lia|subst e'; auto].
Qed.
(* at the answer, in terms of the finished table *)
Theorem C125_error (shift : R) (roots : solver) (rows : list caplet) (offsets : list R) (quotes : list capquote) (t : list entry) (q : nat) (k : capquote) : alive shift rows ->
  calibrate shift roots rows offsets quotes = Ok t -> nth_error quotes q = Some k ->
  exists cols n tg t1 y, quote_frame shift rows offsets (new_table (map k_term quotes) rows) q k = Ok (cols, n) /\
    sabr_target shift q cols t1 = Ok tg /\ fit_run (sabr_objective shift roots q cols (k_beta k) tg t1) (x_fit (k_searches k)) = Ok y /\
    forall Xs Ss Cs, Forall2 (fun c X => snd c = Fin X) cols Xs ->
      Forall2 (fun c S => 0 < snd (fst c) + shift /\ sabr_total shift (fst (fst c)) (snd (fst c)) (rows_of (before q) t) S) cols Ss ->
      Forall2 (fun c C => 0 < snd (fst c) + shift /\ sabr_total shift (fst (fst c)) (snd (fst c)) (rows_of (within q) t) C) cols Cs ->
      Forall (fun z => fst z - snd z <> 0) (combine Xs Ss) ->
      sabr_objective shift roots q cols (k_beta k) tg t1 y = Ok (Fin (mean_square (map (fun z => fst z - snd z) (combine Xs Ss)) Cs)).
Proof. intros Al H Hk. apply (calibrate_error shift roots rows offsets quotes t q k); try assumption. destruct quotes; [destruct q; discriminate|discriminate]. Qed.
(* an error of zero: every column is repriced by the smiles of the table *)
Theorem C125_repriced (shift : R) (roots : solver) (rows : list caplet) (offsets : list R) (quotes : list capquote) (t : list entry) (q : nat) (k : capquote) :
  ascending (map k_term quotes) -> ascending (map c_end rows) -> (forall c, In c rows -> exists U, In U (map k_term quotes) /\ (c_end c <= U)%Z) -> alive shift rows ->
  calibrate shift roots rows offsets quotes = Ok t -> nth_error quotes q = Some k ->
  exists cols n tg t1 y, quote_frame shift rows offsets (new_table (map k_term quotes) rows) q k = Ok (cols, n) /\
    sabr_target shift q cols t1 = Ok tg /\ fit_run (sabr_objective shift roots q cols (k_beta k) tg t1) (x_fit (k_searches k)) = Ok y /\
    forall Xs Ss Cs, Forall2 (fun c X => snd c = Fin X) cols Xs ->
      Forall2 (fun c S => 0 < snd (fst c) + shift /\ sabr_total shift (fst (fst c)) (snd (fst c)) (rows_of (before q) t) S) cols Ss ->
      Forall2 (fun c C => 0 < snd (fst c) + shift /\ sabr_total shift (fst (fst c)) (snd (fst c)) (rows_of (within q) t) C) cols Cs ->
      Forall (fun z => fst z - snd z <> 0) (combine Xs Ss) ->
      (sabr_objective shift roots q cols (k_beta k) tg t1 y = Ok (Fin 0) <-> Forall2 (fun c X => sabr_total shift (fst (fst c)) (snd (fst c)) (rows_of (upto q) t) X) cols Xs).
Proof.
  intros As Ar Cv Al H Hk. assert (Nq : quotes <> []) by (destruct quotes; [destruct q; discriminate|discriminate]).
  destruct (calibrate_error _ _ _ _ _ _ _ _ Nq Al H Hk) as (cols & n & tg & t1 & y & Fr & Ft & Fy & G). exists cols, n, tg, t1, y. split; [exact Fr|]. split; [exact Ft|]. split; [exact Fy|]. intros Xs Ss Cs HX HS HC Nz. rewrite (G Xs Ss Cs HX HS HC Nz).
  assert (Lx : length Xs = length cols) by exact (proj1 (proj1 (forall2_nth _ _ _) HX)). assert (Ls : length Ss = length cols) by exact (proj1 (proj1 (forall2_nth _ _ _) HS)). assert (Lc : length Cs = length cols) by exact (proj1 (proj1 (forall2_nth _ _ _) HC)).
  destruct (calibrate_rows _ _ _ _ _ _ Nq H) as (Er & En & _).
  assert (O : ordered t).
  { apply (ordered_same (new_table (map k_term quotes) rows)); [exact (proj1 (proj2 (C125_rows _ _ _ _ _ _ Nq H)))|apply new_table_ordered; try assumption]. destruct quotes; [contradiction|discriminate]. }
  assert (Mz : mean_square (map (fun z => fst z - snd z) (combine Xs Ss)) Cs = 0 <-> Cs = map (fun z => fst z - snd z) (combine Xs Ss)).
  { apply mean_square_zero; [rewrite map_length, combine_length; lia|]. apply Forall_map. exact Nz. }
  transitivity (mean_square (map (fun z => fst z - snd z) (combine Xs Ss)) Cs = 0); [split; [intros E; injection E; auto|intros ->; reflexivity]|]. rewrite Mz. clear Mz G Nz Fr Ft Fy.
  clear Lx Ls Lc. revert Ss Cs HS HC. induction HX as [|[[cp K] px] X cols Xs HX1 HX IH]; intros Ss Cs HS HC; inversion HS as [|? S0 ? Ss' [_ HS1] HS2]; inversion HC as [|? C0 ? Cs' [_ HC1] HC2]; subst; cbn [combine map fst snd]; [split; [constructor|reflexivity]|].
  cbn [fst snd] in *. pose proof (total_split _ _ _ _ _ _ _ O HS1 HC1) as Tt. specialize (IH _ _ HS2 HC2). split.
  - intros E. injection E as E1 E2. constructor; [cbn [fst snd]; replace X with (S0 + C0) by lra; exact Tt|apply IH; exact E2].
  - intros F. inversion F as [|? ? ? ? F1 F2]; subst. cbn [fst snd] in *. f_equal; [|apply IH; assumption].
    assert (S0 + C0 = X); [|lra]. destruct Tt as (ps & P1 & ->). destruct F1 as (qs & Q1 & ->). f_equal. clear - P1 Q1. revert qs Q1. induction P1 as [|e p l ps E P IHp]; intros qs Q1; inversion Q1 as [|? z ? zs E' Q2]; subst; [reflexivity|]. f_equal; [|apply IHp; assumption].
    destruct E as (a & b & r & v & vol & E1 & _ & E3 & E4). destruct E' as (a' & b' & r' & v' & vol' & F1 & _ & F3 & F4). rewrite E1 in F1. injection F1 as <- <- <- <-. unfold sabr_vol_is in *. rewrite E3 in F3. injection F3 as <-. rewrite E4 in F4. injection F4. auto.
Qed.

(* ==== C126: the term structure on a schedule ==== *)
Theorem C126_values (shift : R) (roots : solver) (t : list entry) (legs : list leg) (pts : list point) (i : nat) (l : leg) : by_start t -> Forall solved t -> interpolate_table shift roots t legs = Ok pts -> nth_error legs i = Some l ->
  exists p, nth_error pts i = Some p /\ i_leg p = l /\
    forall y, (reads col_beta t (IZR (l_start l)) y <-> y = i_beta p) /\ (reads col_rho t (IZR (l_start l)) y <-> y = i_rho p) /\ (reads col_volvol t (IZR (l_start l)) y <-> y = i_volvol p) /\ (reads col_vol_n t (IZR (l_start l)) y <-> y = i_vol_n p).
Proof.
  intros B S H Hi. apply table_points in H as [_ F]. destruct (forall2_forth _ _ _ _ _ F Hi) as (p & Hp & E). exists p. split; [exact Hp|]. destruct (leg_point _ _ _ _ _ B S E) as (A1 & A2 & A3 & A4 & A5 & _). split; [exact A1|].
  intros y. repeat split; intros Y; solve [eapply reads_fun; eassumption|subst y; assumption].
Qed.
Theorem C126_at_the_money (shift : R) (roots : solver) (t : list entry) (legs : list leg) (pts : list point) (i : nat) (l : leg) (p : point) : exact_solver roots -> interpolate_table shift roots t legs = Ok pts -> nth_error legs i = Some l -> nth_error pts i = Some p ->
  0 < l_F l + shift -> 0 < l_tau l -> 0 < i_vol_n p ->
  (forall cp A, call_or_put cp -> price76 (l_F l) (l_tau l) cp (l_F l) (i_vol_sln p) shift A = price_n (l_F l) (l_tau l) cp (l_F l) (i_vol_n p) A) /\
  sabr_vol_is (l_tau l) (l_F l) (i_alpha p) (i_beta p) (i_rho p) (i_volvol p) (l_F l) shift (i_vol_sln p).
Proof.
  intros X H Hl Hp HF Ht Hn. apply table_points in H as [_ F]. destruct (forall2_forth _ _ _ _ _ F Hl) as (p' & Hp' & E). rewrite Hp in Hp'. injection Hp' as <-.
  unfold interpolate_leg in E. repeat match type of E with context [match interp_index ?a ?b with _ => _ end] => destruct (interp_index a b) as [?|]; [|discriminate E] end.
  destruct (normal_vol_atm_to_black76_sln_atm (l_F l) (l_tau l) _ shift) as [s| | |] eqn:En; try discriminate E. apply bind_ok in E as [a [Ea E]]. injection E as <-. cbn [i_vol_n i_vol_sln i_alpha i_beta i_rho i_volvol] in *.
  split; [|eapply alpha_reprices; eassumption]. destruct (normal_to_sln_atm (l_F l) (l_tau l) _ shift HF Ht Hn) as (N1 & N2 & N3).
  destruct (Rtotal_order (r2 * sqrt (l_tau l) * pdf 0) (l_F l + shift)) as [L|[L|L]].
  - destruct (N1 L) as (vol & V1 & _ & V3 & _). rewrite En in V1. injection V1 as <-. exact V3.
  - rewrite (N3 (eq_sym L)) in En. discriminate.
  - rewrite (N2 L) in En. discriminate.
Qed.
(* a schedule that starts before the table, or repeats a start date, is refused; nothing else but the solution for alpha can fail *)
Theorem C126_refused (shift : R) (roots : solver) (t : list entry) (legs : list leg) :
  (forall l, In l legs -> (forall e, In e t -> IZR (l_start l) < start e) -> interpolate_table shift roots t legs = Err ValueError) /\
  (~ NoDup (map l_start legs) -> interpolate_table shift roots t legs = Err ValueError) /\
  (forall e, interpolate_table shift roots t legs = Err e -> e = ValueError).
Proof.
  assert (G : forall e, interpolate_table shift roots t legs = Err e -> e = ValueError).
  { intros e. unfold interpolate_table. destruct (negb (repeated (map l_start legs))); cbn [guard bind]; [|congruence]. clear. induction legs as [|l ls IH]; [discriminate|]. cbn [map sequence].
    destruct (interpolate_leg shift roots t l) eqn:El; cbn [bind]; [|intros H; injection H as <-; eapply leg_error; exact El]. destruct (sequence (map (interpolate_leg shift roots t) ls)) eqn:Es; cbn [bind]; [discriminate|]. intros H. injection H as <-. apply IH. reflexivity. }
  split; [intros l Hl He; eapply table_early; eassumption|]. split; [|exact G].
  intros N. destruct (interpolate_table shift roots t legs) as [pts|e] eqn:E; [|rewrite (G e eq_refl); reflexivity]. apply table_points in E as [E _]. contradiction.
Qed.

(* ==== C127: prices of optionlets ==== *)
Theorem C127_accepted (shift : R) (roots : solver) (t : list entry) (legs : list leg) (pts : list point) (K : strike_arg) (cp : type_arg) (vol : list R) (y : flat_search) :
  (~ accepted K cp (length legs) -> forall vs vn ut sf, price_optionlets shift roots t legs K cp vs vn ut sf y = Err AssertionError) /\
  (accepted K cp (length legs) -> interpolate_table shift roots t legs = Ok pts ->
     (forall sf, price_optionlets shift roots t legs K cp None None false sf y = Err KeyError) /\
     (length vol = 1%nat \/ length vol = length legs ->
        (exists rows, price_per_flat_vol_sln shift roots t legs K cp vol y = Ok (rows, None)) /\ (exists rows, price_per_flat_vol_n shift roots t legs K cp vol y = Ok (rows, None)) /\
        forall vn sf, price_optionlets shift roots t legs K cp (Some vol) (Some vn) false sf y = Err KeyError) /\
     (length vol <> 1%nat -> length vol <> length legs ->
        price_per_flat_vol_sln shift roots t legs K cp vol y = Err ValueError /\ price_per_flat_vol_n shift roots t legs K cp vol y = Err ValueError)).
Proof.
  split; [intros N vs vn ut sf; apply price_refuses; exact N|]. intros A E. split; [intros sf; eapply no_vol; eassumption|]. split; [|intros L1 L2; eapply flat_refuses; eassumption]. intros L.
  destruct (flat_accepts shift roots t legs pts K cp vol y A E L) as [F1 F2]. split; [exact F1|]. split; [exact F2|]. intros vn sf. eapply both_vols; eassumption.
Qed.
Theorem C127_flat_lognormal (shift : R) (roots : solver) (t : list entry) (legs : list leg) (K : strike_arg) (cp : type_arg) (vol : list R) (y : flat_search) (rows : list detail) (fl : option (R * R)) :
  price_per_flat_vol_sln shift roots t legs K cp vol y = Ok (rows, fl) -> fl = None /\ length rows = length legs /\
  forall (i : nat) (l : leg), nth_error legs i = Some l -> exists d k c v, nth_error rows i = Some d /\ i_leg (g_point d) = l /\
    used (strike_list K) i k /\ used (type_list cp) i c /\ used vol i v /\ valued76 shift l k c v d.
Proof.
  intros H. destruct (flat_sln_rows _ _ _ _ _ _ _ _ _ _ H) as (A & _ & B & C). split; [exact A|]. split; [exact B|]. intros i l Hl. destruct (C i l Hl) as (d & k & c & v & D1 & D2 & D3). exists d, k, c, v. split; [exact D1|]. split; [eapply leg_of_point; exact D2|exact D3].
Qed.
Theorem C127_flat_normal (shift : R) (roots : solver) (t : list entry) (legs : list leg) (K : strike_arg) (cp : type_arg) (vol : list R) (y : flat_search) (rows : list detail) (fl : option (R * R)) :
  price_per_flat_vol_n shift roots t legs K cp vol y = Ok (rows, fl) -> fl = None /\ length rows = length legs /\
  forall (i : nat) (l : leg), nth_error legs i = Some l -> exists d k c v, nth_error rows i = Some d /\ i_leg (g_point d) = l /\
    used (strike_list K) i k /\ used (type_list cp) i c /\ used vol i v /\ valued_n l k c v d.
Proof.
  intros H. destruct (flat_n_rows _ _ _ _ _ _ _ _ _ _ H) as (A & _ & B & C). split; [exact A|]. split; [exact B|]. intros i l Hl. destruct (C i l Hl) as (d & k & c & v & D1 & D2 & D3). exists d, k, c, v. split; [exact D1|]. split; [eapply leg_of_point; exact D2|exact D3].
Qed.
(* the term structure: the volatility is that of the smile of the row, whose parameters are those of the table at its start *)
Theorem C127_term_structure (shift : R) (roots : solver) (t : list entry) (legs : list leg) (K : strike_arg) (cp : type_arg) (solve : bool) (y : flat_search) (rows : list detail) (fl : option (R * R)) : by_start t -> Forall solved t ->
  price_per_term_structure shift roots t legs K cp solve y = Ok (rows, fl) -> legs <> [] -> length rows = length legs /\ (solve = false -> fl = None) /\
  forall (i : nat) (l : leg), nth_error legs i = Some l -> exists d a b r v k c, nth_error rows i = Some d /\ i_leg (g_point d) = l /\
    reads col_beta t (IZR (l_start l)) b /\ reads col_rho t (IZR (l_start l)) r /\ reads col_volvol t (IZR (l_start l)) v /\ i_alpha (g_point d) = a /\
    used (strike_list K) i k /\ used (type_list cp) i c /\ g_K d = k /\ g_cp d = c /\ calc_sln_vol (smile1 (l_tau l) (l_F l) a b r v) [k] [shift] = Ok [g_vol d] /\
    forall s, g_vol d = Fin s -> valued76 shift l k c s d.
Proof.
  intros B S H N. destruct (term_rows _ _ _ _ _ _ _ _ _ _ H N) as (_ & L & F & G). split; [exact L|]. split; [exact F|]. intros i l Hl. destruct (G i l Hl) as (d & p & k & c & D1 & D2 & D3 & D4 & D5 & D6 & D7 & D8 & D9).
  destruct (leg_point _ _ _ _ _ B S D2) as (A1 & A2 & A3 & A4 & _). exists d, (i_alpha p), (i_beta p), (i_rho p), (i_volvol p), k, c. rewrite D3. do 5 (split; [assumption|]). split; [reflexivity|]. do 5 (split; [assumption|]). exact D9.
Qed.
(* a caplet less a floorlet is a forward rate agreement *)
Theorem C127_parity (shift : R) (roots : solver) (t : list entry) (legs : list leg) (K : R) (vol : list R) (y : flat_search) (i : nat) (l : leg) : nth_error legs i = Some l -> 0 < l_tau l -> Forall (fun v => 0 < v) vol ->
  (forall rows rows' fl fl', price_per_flat_vol_n shift roots t legs (StrikeNumber K) (TypeInt 1) vol y = Ok (rows, fl) -> price_per_flat_vol_n shift roots t legs (StrikeNumber K) (TypeInt (-1)) vol y = Ok (rows', fl') ->
     exists d d' a b, nth_error rows i = Some d /\ nth_error rows' i = Some d' /\ g_price d = Fin a /\ g_price d' = Fin b /\ a - b = l_yf l * l_df l * (l_F l - K)) /\
  (0 < l_F l + shift -> 0 < K + shift ->
   (forall rows rows' fl fl', price_per_flat_vol_sln shift roots t legs (StrikeNumber K) (TypeInt 1) vol y = Ok (rows, fl) -> price_per_flat_vol_sln shift roots t legs (StrikeNumber K) (TypeInt (-1)) vol y = Ok (rows', fl') ->
      exists d d' a b, nth_error rows i = Some d /\ nth_error rows' i = Some d' /\ g_price d = Fin a /\ g_price d' = Fin b /\ a - b = l_yf l * l_df l * (l_F l - K)) /\
   (forall sf sf' y' rows rows' fl fl' d s, price_per_term_structure shift roots t legs (StrikeNumber K) (TypeInt 1) sf y = Ok (rows, fl) -> price_per_term_structure shift roots t legs (StrikeNumber K) (TypeInt (-1)) sf' y' = Ok (rows', fl') ->
      nth_error rows i = Some d -> g_vol d = Fin s -> 0 < s ->
      exists d' a b, nth_error rows' i = Some d' /\ g_price d = Fin a /\ g_price d' = Fin b /\ a - b = l_yf l * l_df l * (l_F l - K))).
Proof.
  intros Hl Ht Hv.
  assert (One : forall (x z : R), used [z] i x -> x = z) by (intros x z [U|U]; [destruct i as [|[|?]]; cbn in U; congruence|congruence]).
  assert (Same : forall l' (x z : R), l' = vol -> (exists n, length vol = 1%nat \/ length vol = n /\ (i < n)%nat) -> used l' i x -> used l' i z -> x = z).
  { intros l' x z -> _ [U1|U1] [U2|U2]; [congruence| | |congruence]; rewrite ?U1, ?U2 in *; destruct i as [|[|?]]; cbn in *; congruence. }
  assert (Pv : forall v, used vol i v -> 0 < v) by (intros v [U|U]; rewrite Forall_forall in Hv; apply Hv; [eapply nth_error_In; exact U|rewrite U; left; reflexivity]).
  assert (Used2 : forall x z, used vol i x -> used vol i z -> x = z).
  { intros x z [U1|U1] [U2|U2]; try congruence; rewrite ?U1, ?U2 in *; destruct i as [|[|?]]; cbn in *; congruence. }
  split; [|intros HF HK; split].
  - intros rows rows' fl fl' H H'. destruct (C127_flat_normal _ _ _ _ _ _ _ _ _ _ H) as (_ & _ & G). destruct (C127_flat_normal _ _ _ _ _ _ _ _ _ _ H') as (_ & _ & G').
    destruct (G i l Hl) as (d & k & c & v & D1 & _ & Uk & Uc & Uv & _ & _ & _ & _ & Dp & _). destruct (G' i l Hl) as (d' & k' & c' & v' & D1' & _ & Uk' & Uc' & Uv' & _ & _ & _ & _ & Dp' & _).
    cbn [strike_list type_list] in *. apply One in Uk. apply One in Uk'. apply One in Uc. apply One in Uc'. rewrite (Used2 v' v Uv' Uv) in *. subst k k' c c'.
    pose proof (total_pos v (l_tau l) (Pv v Uv) Ht). destruct (bach_parity (l_F l) (l_tau l) K v (l_yf l * l_df l)) as (a & b & E1 & E2 & E3); [lra|left; lra|]. exists d, d', a, b. rewrite Dp, Dp'. auto.
  - intros rows rows' fl fl' H H'. destruct (C127_flat_lognormal _ _ _ _ _ _ _ _ _ _ H) as (_ & _ & G). destruct (C127_flat_lognormal _ _ _ _ _ _ _ _ _ _ H') as (_ & _ & G').
    destruct (G i l Hl) as (d & k & c & v & D1 & _ & Uk & Uc & Uv & _ & _ & _ & _ & Dp & _). destruct (G' i l Hl) as (d' & k' & c' & v' & D1' & _ & Uk' & Uc' & Uv' & _ & _ & _ & _ & Dp' & _).
    cbn [strike_list type_list] in *. apply One in Uk. apply One in Uk'. apply One in Uc. apply One in Uc'. rewrite (Used2 v' v Uv' Uv) in *. subst k k' c c'.
    pose proof (total_pos v (l_tau l) (Pv v Uv) Ht). destruct (b76_parity (l_F l) (l_tau l) K v shift (l_yf l * l_df l)) as (a & b & E1 & E2 & E3); try lra. exists d, d', a, b. rewrite Dp, Dp'. auto.
  - intros sf sf' y' rows rows' fl fl' d s H H' Hd Hs Sp. assert (N : legs <> []) by (destruct legs; [destruct i; discriminate|discriminate]).
    destruct (term_rows _ _ _ _ _ _ _ _ _ _ H N) as (_ & _ & _ & G). destruct (term_rows _ _ _ _ _ _ _ _ _ _ H' N) as (_ & _ & _ & G').
    destruct (G i l Hl) as (d0 & p & k & c & D1 & D2 & D3 & Uk & Uc & D6 & D7 & D8 & D9). destruct (G' i l Hl) as (d' & p' & k' & c' & D1' & D2' & D3' & Uk' & Uc' & D6' & D7' & D8' & D9').
    rewrite Hd in D1. injection D1 as <-. cbn [strike_list type_list] in *. apply One in Uk. apply One in Uk'. apply One in Uc. apply One in Uc'. rewrite Uk, Uk', Uc, Uc' in *. rewrite D2 in D2'. injection D2' as <-. rewrite D8 in D8'. injection D8' as Ev.
    destruct (D9 s Hs) as (_ & _ & _ & _ & Dp & _). destruct (D9' s) as (_ & _ & _ & _ & Dp' & _); [congruence|]. pose proof (total_pos s (l_tau l) Sp Ht).
    destruct (b76_parity (l_F l) (l_tau l) K s shift (l_yf l * l_df l)) as (a & b & E1 & E2 & E3); try lra. exists d', a, b. rewrite Dp, Dp'. auto.
Qed.
(* the equivalent flat volatilities reprice the optionlets, or are a success the minimiser reported *)
Theorem C127_flat_vols (shift : R) (roots : solver) (t : list entry) (legs : list leg) (K : strike_arg) (cp : type_arg) (y y' : flat_search) (rows : list detail) (s m : R) : legs <> [] ->
  price_per_term_structure shift roots t legs K cp true y = Ok (rows, Some (s, m)) ->
  exists rows76 rowsn, price_per_flat_vol_sln shift roots t legs K cp [s] y' = Ok (rows76, None) /\ price_per_flat_vol_n shift roots t legs K cp [m] y' = Ok (rowsn, None) /\
    ((exists f v, nsum (map g_price rows) = Fin v /\ v <> 0 /\ nsum (map g_price rows76) = Fin f /\ close_to v f) \/
     (exists err b val, run err (y_lbfgs y) = Ended (Minimum s b val) /\ (b = true \/ abs_below (/ 100000 * / 100000) val = true))) /\
    ((exists f v, nsum (map g_price rows) = Fin v /\ v <> 0 /\ nsum (map g_price rowsn) = Fin f /\ close_to v f) \/
     (exists err b val, run err (y_lbfgs_n y) = Ended (Minimum m b val) /\ (b = true \/ abs_below (/ 100000 * / 100000) val = true))).
Proof. exact (flat_vols shift roots t legs K cp y y' rows s m). Qed.

Definition all_theorems := (@C122_construction_fails, @C122_quote_numbers, @C122_par_forward, @C122_forward_between, @C122_forward_of_nothing, @C123_columns, @C123_parity, @C123_normal_vol, @C123_unchecked, @C123_rows_after_quotes, @C124_first_quote, @C124_later_quote, @C124_stored_line, @C124_two_rows_before, @C124_one_row_before, @C124_lognormal, @C125_rows, @C125_first_quote, @C125_later_quote, @C125_at_the_money, @C125_bounds, @C125_objective, @C125_error, @C125_repriced, @C126_values, @C126_at_the_money, @C126_refused, @C127_accepted, @C127_flat_lognormal, @C127_flat_normal, @C127_term_structure, @C127_parity, @C127_flat_vols).
Print Assumptions all_theorems.

(* ---- cases meeting the hypotheses: two quotes at the money, three optionlets ---- *)
Definition ex_F : R := 1 / 20.
Definition r1 : caplet := mk_caplet 0 10 1 ex_F 1.
Definition r2 : caplet := mk_caplet 10 20 2 ex_F 1.
Definition r3 : caplet := mk_caplet 20 30 3 ex_F 1.
Definition ex_rows : list caplet := [r1; r2; r3].
(* a minimiser that ends where it has looked *)
Definition probe (v : R) : search min_outcome := Probe v (fun y => Finish (Minimum v false y)).
Lemma probe_honest (v : R) : honest [] (probe v).
Proof. intros y. cbn. auto. Qed.
Lemma probe_ok (g : R -> result num) (v X : R) : X <> 0 -> g v = Ok (Fin X) -> minimise (relative_objective g (Fin X)) (probe v) = Ok v.
Proof.
  intros N E. unfold minimise, probe, run, relative_objective. rewrite E. cbn [sub neg add]. rewrite div_fin by exact N. unfold npow2. cbn [mul abs_below orb]. destruct (Rlt_dec _ _) as [_|C]; [reflexivity|exfalso; apply C].
  replace ((X + - X) / X * ((X + - X) / X)) with 0 by (unfold Rdiv; ring). rewrite Rabs_R0. unfold solve_tol. lra.
Qed.
Definition px (tau w : R) : R := ex_F * (2 * cdf (w * sqrt tau / 2) - 1).
Lemma ex_76 (tau cp w : R) : call_or_put cp -> 0 < tau -> 0 < w -> price76 ex_F tau cp ex_F w 0 1 = Fin (px tau w).
Proof.
  intros C Ht Hw. pose proof (total_pos w tau Hw Ht). unfold ex_F. rewrite price76_fin by lra. rewrite blk_atm by (auto; lra). f_equal. unfold px, ex_F. lra.
Qed.
Lemma ex_n (tau cp n : R) : 0 < tau -> 0 < n -> price_n ex_F tau cp ex_F n 1 = Fin (n * sqrt tau * pdf 0).
Proof. intros Ht Hn. pose proof (total_pos n tau Hn Ht). rewrite price_n_fin by lra. rewrite nrm_atm by lra. f_equal. ring. Qed.
Lemma px_pos (tau w : R) : 0 < tau -> 0 < w -> 0 < px tau w.
Proof.
  intros Ht Hw. pose proof (total_pos w tau Hw Ht). assert (1 / 2 < cdf (w * sqrt tau / 2)) by (rewrite <- cdf_0; apply cdf_incr; lra). unfold px, ex_F. lra.
Qed.
(* a volatility for which the second optionlet costs a fifth of the forward *)
Lemma ex_vol : exists w, 0 < w /\ px 2 w = ex_F / 5 /\ px 1 w <= ex_F / 5.
Proof.
  destruct (cdf_onto (3 / 5) ltac:(lra)) as (x & Hx). assert (Px : 0 < x) by (destruct (Rlt_dec 0 x); [assumption|exfalso; pose proof (cdf_le x 0 ltac:(lra)); rewrite cdf_0 in *; lra]).
  pose proof (sqrt_lt_R0 2 ltac:(lra)) as P2. exists (2 * x / sqrt 2). assert (Pw : 0 < 2 * x / sqrt 2) by (apply Rdiv_lt_0_compat; lra). split; [exact Pw|].
  assert (E : px 2 (2 * x / sqrt 2) = ex_F / 5) by (unfold px; replace (2 * x / sqrt 2 * sqrt 2 / 2) with x by (field; lra); rewrite Hx; lra). split; [exact E|]. rewrite <- E. unfold px.
  assert (sqrt 1 <= sqrt 2) by (apply sqrt_le_1; lra). assert (cdf (2 * x / sqrt 2 * sqrt 1 / 2) <= cdf (2 * x / sqrt 2 * sqrt 2 / 2)) by (apply cdf_le; nra). unfold ex_F. lra.
Qed.
Definition no_root : search root_outcome := Finish NoConvergence.
Definition ex_quote0 (w n s1 s2 : R) : capquote :=
  mk_capquote 20 [w] (Some (1 / 2)) (mk_searches (fun _ => probe n) no_root (probe 0) (probe 0) (fun i => match i with O => probe s1 | _ => probe s2 end) (FitEnd true [0; 1 / 2])).
Definition ex_quote1 (w m p : R) : capquote :=
  mk_capquote 30 [w] (Some (1 / 3)) (mk_searches (fun _ => probe m) no_root (probe 0) (probe p) (fun _ => probe w) (FitEnd true [1 / 4; 1 / 3])).
Definition ex_quotes (w n s1 s2 m p : R) : list capquote := [ex_quote0 w n s1 s2; ex_quote1 w m p].
Lemma ex_terms (w n s1 s2 m p : R) : map k_term (ex_quotes w n s1 s2 m p) = [20; 30]%Z.
Proof. reflexivity. Qed.
Lemma ex_ascending : ascending [20; 30]%Z.
Proof. intros i j a b L Ha Hb. destruct i as [|[|[|i]]], j as [|[|[|j]]]; cbn in *; try discriminate; injection Ha as <-; injection Hb as <-; lia. Qed.
Lemma ex_ends : ascending (map c_end ex_rows).
Proof. intros i j a b L Ha Hb. destruct i as [|[|[|[|i]]]], j as [|[|[|[|j]]]]; cbn in *; try discriminate; injection Ha as <-; injection Hb as <-; lia. Qed.
Lemma ex_covered (c : caplet) : In c ex_rows -> exists U, In U [20; 30]%Z /\ (c_end c <= U)%Z.
Proof. intros [<-|[<-|[<-|[]]]]; exists 30%Z; cbn; split; auto; lia. Qed.
Lemma ex_alive : alive 0 ex_rows.
Proof. unfold alive, ex_rows, r1, r2, r3, ex_F. repeat (apply Forall_cons; [cbn; split; lra|]). apply Forall_nil. Qed.
Lemma ex_forward (T : Z) : T = 20%Z \/ T = 30%Z -> quote_forward ex_rows T = Fin ex_F.
Proof. intros [-> | ->]; unfold quote_forward; cbn -[div ex_F]; rewrite div_fin by lra; f_equal; field. Qed.
(* the columns *)
Lemma ex_frame (T : Z) (q : nat) (k : capquote) (w v : R) (rows : list caplet) : nth_error [20; 30]%Z q = Some T -> T = 20%Z \/ T = 30%Z -> k_term k = T -> k_vols k = [w] -> x_quote (k_searches k) 0 = probe v -> covered ex_rows T = rows -> 0 < w ->
  let X := sum_over (fun c => px (c_tau c) w) rows in X <> 0 -> 0 < v -> v * pdf 0 * sum_over (fun c => sqrt (c_tau c)) rows = X ->
  quote_frame 0 ex_rows [0] (new_table [20; 30]%Z ex_rows) q k = Ok ([(-1, ex_F, Fin X)], v).
Proof.
  intros HT T2 Kt Kv Kx Cr Hw X NX Hv EX. unfold quote_frame. rewrite Kt, (ex_forward T T2), Kv. cbn [quote_strikes map add finite sequence bind length Nat.eqb guard quote_cp].
  replace (ex_F + 0) with ex_F by ring. assert (Pc : is_pos (sub (Fin ex_F) (Fin ex_F)) = false) by (cbn; destruct (Rlt_dec _ _); [lra|reflexivity]). rewrite Pc.
  destruct (quote_px_value 0 [20; 30]%Z ex_rows q T ex_ascending HT ex_ends ex_covered ex_alive (-1) ex_F w ltac:(unfold ex_F; lra) Hw) as (x & X1 & X2). rewrite X1. cbn [bind combine].
  assert (Sub : forall c, In c rows -> c_F c = ex_F /\ c_ann c = 1 /\ 0 < c_tau c).
  { intros c Hc. rewrite <- Cr in Hc. unfold covered in Hc. apply filter_In in Hc as [[<-|[<-|[<-|[]]]] _]; cbn; repeat split; lra. }
  assert (Ex : x = X).
  { destruct X2 as (ps & P1 & ->). rewrite Cr in P1. unfold X. clear - P1 Sub Hw. induction P1 as [|c y l ps E P IH]; [reflexivity|]. destruct (Sub c (or_introl eq_refl)) as (S1 & S2 & S3). rewrite S1, S2, ex_76 in E by (auto; right; reflexivity).
    injection E as E. rewrite !sum_over_cons, IH, E; [reflexivity|]. intros d Hd. apply Sub. right. exact Hd. }
  rewrite Ex. cbn [labelled length seq combine map]. rewrite Kx. unfold quote_vol_n. rewrite probe_ok; [reflexivity|exact NX|].
  assert (Nr : rows_of (upto q) (new_table [20; 30]%Z ex_rows) <> []) by (destruct q as [|[|q]]; try discriminate; destruct q; discriminate).
  assert (M : map e_row (rows_of (upto q) (new_table [20; 30]%Z ex_rows)) = rows) by (rewrite <- Cr, <- (new_table_covered [20; 30]%Z ex_rows q T ex_ascending HT ex_covered), select_rows; reflexivity).
  rewrite (normal_sum_is q (-1) ex_F v _ Nr). f_equal. rewrite M. clear - Sub Hv EX.
  assert (G : nsum (map (fun c => price_n (c_F c) (c_tau c) (-1) ex_F v (c_ann c)) rows) = Fin (v * pdf 0 * sum_over (fun c => sqrt (c_tau c)) rows)); [|rewrite G, EX; reflexivity].
  clear EX. induction rows as [|c l IH]; [cbn; f_equal; ring|]. destruct (Sub c (or_introl eq_refl)) as (S1 & S2 & S3). cbn [map]. unfold nsum in *. cbn [fold_right]. rewrite S1, S2, ex_n, IH by (auto; intros d Hd; apply Sub; right; exact Hd). rewrite sum_over_cons. cbn [add]. f_equal. ring.
Qed.
Section ex.
  Variables (w n s1 s2 m p a1 a2 a3 : R).
  Definition ex_tB : list entry := [mk_entry r1 0 (Some (n, s1)) None; mk_entry r2 0 (Some (n, s2)) None; mk_entry r3 1 None None].
  Definition ex_tC : list entry := [mk_entry r1 0 (Some (n, s1)) (Some (a1, 1 / 2, 0, 1 / 2)); mk_entry r2 0 (Some (n, s2)) (Some (a2, 1 / 2, 0, 1 / 2)); mk_entry r3 1 None None].
  Definition ex_tD : list entry := [mk_entry r1 0 (Some (n, s1)) (Some (a1, 1 / 2, 0, 1 / 2)); mk_entry r2 0 (Some (n, s2)) (Some (a2, 1 / 2, 0, 1 / 2)); mk_entry r3 1 (Some (p, w)) None].
  Definition ex_tE : list entry := [mk_entry r1 0 (Some (n, s1)) (Some (a1, 1 / 2, 0, 1 / 2)); mk_entry r2 0 (Some (n, s2)) (Some (a2, 1 / 2, 0, 1 / 2)); mk_entry r3 1 (Some (p, w)) (Some (a3, 1 / 3, 1 / 4, 1 / 3))].
  Hypotheses (Hw : 0 < w) (Hn : 0 < n) (H1 : 0 < s1) (H2 : 0 < s2) (Hm : 0 < m) (Hp : 0 < p).
  Hypothesis E1 : px 1 s1 = n * sqrt 1 * pdf 0.
  Hypothesis E2 : px 2 s2 = n * sqrt 2 * pdf 0.
  Hypothesis E3 : px 3 w = p * sqrt 3 * pdf 0.
  Hypothesis EX : n * pdf 0 * (sqrt 1 + sqrt 2) = px 1 w + px 2 w.
  Hypothesis EM : m * pdf 0 * (sqrt 1 + (sqrt 2 + sqrt 3)) = px 1 w + (px 2 w + px 3 w).
  Hypothesis B2 : forall b l, black76_sln_to_normal_vol ex_F 2 ex_F s2 0 b l = Ok (Fin n).
  Hypothesis A1 : solve_alpha cubic_solver 1 ex_F (1 / 2) 0 (1 / 2) s1 0 = Ok a1.
  Hypothesis A2 : solve_alpha cubic_solver 2 ex_F (1 / 2) 0 (1 / 2) s2 0 = Ok a2.
  Hypothesis A3 : solve_alpha cubic_solver 3 ex_F (1 / 3) (1 / 4) (1 / 3) w 0 = Ok a3.

  Lemma ex_convert (tau v s : R) : 0 < tau -> 0 < v -> 0 < s -> px tau s = v * sqrt tau * pdf 0 -> normal_vol_to_black76_sln ex_F tau ex_F v 0 (probe s) = Ok s.
  Proof.
    intros Ht Hv Hs E. rewrite (normal_run ex_F tau ex_F v 0 (px tau s)); [|unfold ex_F; lra|rewrite E; apply ex_n; assumption]. apply probe_ok; [pose proof (px_pos tau s Ht Hs); lra|]. rewrite ex_76; auto. left. reflexivity.
  Qed.
  Lemma ex_step1 (X : num) : solve_vol_n_atm 0 0 (-1) ex_F X n (k_searches (ex_quote0 w n s1 s2)) (new_table [20; 30]%Z ex_rows) = Ok ex_tB.
  Proof.
    unfold solve_vol_n_atm, atm_curve, update. cbn -[normal_vol_to_black76_sln ex_F]. change (IZR 1) with 1.
    rewrite (ex_convert 1 n s1) by (auto; lra). cbn -[normal_vol_to_black76_sln ex_F]. rewrite (ex_convert 2 n s2) by (auto; lra). reflexivity.
  Qed.
  Lemma ex_step2 (X : num) : solve_sabr_params 0 cubic_solver 0 [(-1, ex_F, X)] (Some (1 / 2)) (k_searches (ex_quote0 w n s1 s2)) ex_tB = Ok ex_tC.
  Proof.
    unfold solve_sabr_params, update. cbn -[solve_alpha ex_F Rdiv]. rewrite A1. cbn -[solve_alpha ex_F Rdiv]. rewrite A2. reflexivity.
  Qed.
  Lemma ex_smile (tau a b r v s : R) : solve_alpha cubic_solver tau ex_F b r v s 0 = Ok a -> sabr_vol_is tau ex_F a b r v ex_F 0 s.
  Proof. intros A. eapply alpha_reprices; [exact cubic_solver_exact|unfold ex_F; lra|exact A]. Qed.
  Lemma ex_caplet (tau s : R) (b e : Z) : 0 < tau -> 0 < s -> caplet_px 0 (mk_caplet b e tau ex_F 1) (-1) (Fin ex_F) (Fin s) = Fin (px tau s).
  Proof.
    intros Ht Hs. pose proof (total_pos s tau Hs Ht). apply caplet_px_fin; cbn; try (unfold ex_F; lra). apply ex_76; auto. right. reflexivity.
  Qed.
  Lemma ex_step3 : solve_vol_n_atm 0 1 (-1) ex_F (Fin (px 1 w + (px 2 w + (px 3 w + 0)))) m (k_searches (ex_quote1 w m p)) ex_tC = Ok ex_tD.
  Proof.
    assert (Sm : calc_sln_vol (mk_smile [1; 2] [ex_F; ex_F] [a1; a2] [1 / 2; 1 / 2] [0; 0] [1 / 2; 1 / 2]) [ex_F] [0] = Ok [Fin s1; Fin s2]).
    { pose proof (proj1 (vol_is _ _ _ _ _ _ _ _ _) (ex_smile 1 a1 (1 / 2) 0 (1 / 2) s1 A1)) as V1. pose proof (proj1 (vol_is _ _ _ _ _ _ _ _ _) (ex_smile 2 a2 (1 / 2) 0 (1 / 2) s2 A2)) as V2.
      transitivity (Ok [sabr_elem 1 (ex_F + 0) a1 (1 / 2) 0 (1 / 2) (ex_F + 0); sabr_elem 2 (ex_F + 0) a2 (1 / 2) 0 (1 / 2) (ex_F + 0)]); [reflexivity|]. rewrite V1, V2. reflexivity. }
    unfold solve_vol_n_atm, atm_curve. cbn [Nat.eqb]. unfold pillar_problem.
    change (sequence (map (fun e : nat * entry => sabr_of (snd e)) (select (fun n : nat => (n <? 1)%nat) ex_tC))) with (Ok [(a1, 1 / 2, 0, 1 / 2); (a2, 1 / 2, 0, 1 / 2)]).
    change (pillar (fun n : nat => (n <? 1)%nat) ex_tC) with (Ok 1%nat). change (pillar (fun n : nat => (n =? 1)%nat) ex_tC) with (Ok 2%nat).
    change (select (fun n : nat => (n <? 1)%nat) ex_tC) with [(0%nat, mk_entry r1 0 (Some (n, s1)) (Some (a1, 1 / 2, 0, 1 / 2))); (1%nat, mk_entry r2 0 (Some (n, s2)) (Some (a2, 1 / 2, 0, 1 / 2)))].
    change (select (fun n : nat => (n =? 1)%nat) ex_tC) with [(2%nat, mk_entry r3 1 None None)].
    cbn [bind taus fwds map snd fst e_row r1 r2 r3 c_tau c_F]. rewrite Sm. cbn [bind combine map fst snd e_row]. unfold r1, r2. rewrite !ex_caplet by lra.
    cbn [length Nat.sub find fst Nat.eqb bind last_vol rev app snd e_row r2 c_F c_tau k_searches ex_quote1 x_brent x_lbfgs]. rewrite B2. cbn [bind].
    fold r1 r2. change (row_at ex_tC 1) with (Ok (mk_entry r2 0 (Some (n, s2)) (Some (a2, 1 / 2, 0, 1 / 2)))). change (row_at ex_tC 2) with (Ok (mk_entry r3 1 None None)). cbn [bind e_row c_tau r2 r3 c_F c_ann x_pillar].
    cbn [nsum fold_right add sub neg].
    replace (px 1 w + (px 2 w + (px 3 w + 0)) + - (px 1 s1 + (px 2 s2 + 0))) with (px 3 w) by (rewrite E1, E2; lra).
    rewrite probe_ok; [| pose proof (px_pos 3 w ltac:(lra) Hw); lra|].
    - cbn [bind]. unfold update. cbn -[normal_vol_to_black76_sln ex_F lin2 ex_tC]. unfold ex_tC. cbn -[normal_vol_to_black76_sln ex_F lin2]. rewrite lin2_right by lra. rewrite (ex_convert 3 p w) by (auto; lra). reflexivity.
    - rewrite lin2_num_fin, lin2_right by lra. pose proof (total_pos p 3 Hp ltac:(lra)). pose proof (ex_n 3 (-1) p ltac:(lra) Hp) as En. rewrite price_n_elem in En. rewrite En. cbn [mul add]. rewrite E3. do 2 f_equal. ring.
  Qed.
  Lemma ex_step4 (X : num) : solve_sabr_params 0 cubic_solver 1 [(-1, ex_F, X)] (Some (1 / 3)) (k_searches (ex_quote1 w m p)) ex_tD = Ok ex_tE.
  Proof.
    unfold solve_sabr_params. assert (T : exists tg, sabr_target 0 1 [(-1, ex_F, X)] ex_tD = Ok tg) by (eexists; reflexivity). destruct T as (tg & ->). cbn [bind fit_run x_fit k_searches ex_quote1 unpack].
    assert (C : sabr_curves 1 ex_tD (1 / 3) (1 / 4) (1 / 3) = Ok (lin2 2 3 (1 / 2) (1 / 3), lin2 2 3 0 (1 / 4), lin2 2 3 (1 / 2) (1 / 3))) by reflexivity. rewrite C. cbn [bind].
    unfold update. cbn -[solve_alpha ex_F lin2 Rdiv]. rewrite !lin2_right by lra. rewrite A3. reflexivity.
  Qed.
  Lemma ex_frame0 : quote_frame 0 ex_rows [0] (new_table [20; 30]%Z ex_rows) 0 (ex_quote0 w n s1 s2) = Ok ([(-1, ex_F, Fin (px 1 w + (px 2 w + 0)))], n).
  Proof.
    pose proof (px_pos 1 w ltac:(lra) Hw). pose proof (px_pos 2 w ltac:(lra) Hw).
    apply (ex_frame 20 0 (ex_quote0 w n s1 s2) w n [r1; r2]); try reflexivity; auto; unfold sum_over; cbn [fold_right r1 r2 c_tau]; lra.
  Qed.
  Lemma ex_frame1 : quote_frame 0 ex_rows [0] (new_table [20; 30]%Z ex_rows) 1 (ex_quote1 w m p) = Ok ([(-1, ex_F, Fin (px 1 w + (px 2 w + (px 3 w + 0))))], m).
  Proof.
    pose proof (px_pos 1 w ltac:(lra) Hw). pose proof (px_pos 2 w ltac:(lra) Hw). pose proof (px_pos 3 w ltac:(lra) Hw).
    apply (ex_frame 30 1 (ex_quote1 w m p) w m [r1; r2; r3]); try reflexivity; auto; unfold sum_over; cbn [fold_right r1 r2 r3 c_tau]; lra.
  Qed.
  Lemma ex_calibrate : calibrate 0 cubic_solver ex_rows [0] (ex_quotes w n s1 s2 m p) = Ok ex_tE.
  Proof.
    unfold calibrate. rewrite ex_terms. unfold ex_quotes. cbn [labelled length seq combine map fst snd sequence]. rewrite ex_frame0, ex_frame1. cbn [bind combine solve_quotes solve_quote fst snd].
    rewrite ex_step1. cbn [bind k_beta ex_quote0]. rewrite ex_step2. cbn [bind]. rewrite ex_step3. cbn [bind k_beta ex_quote1]. rewrite ex_step4. reflexivity.
  Qed.
End ex.
(* such numbers exist *)
Definition ex_good (w n s1 s2 m p a1 a2 a3 : R) : Prop :=
  calibrate 0 cubic_solver ex_rows [0] (ex_quotes w n s1 s2 m p) = Ok (ex_tE w n s1 s2 p a1 a2 a3) /\ 0 < w /\ 0 < n /\ 0 < s1 /\ 0 < s2 /\ 0 < m /\ 0 < p /\
  px 1 s1 = n * sqrt 1 * pdf 0 /\ px 2 s2 = n * sqrt 2 * pdf 0 /\ px 3 w = p * sqrt 3 * pdf 0 /\ n * pdf 0 * (sqrt 1 + sqrt 2) = px 1 w + px 2 w /\
  solve_alpha cubic_solver 1 ex_F (1 / 2) 0 (1 / 2) s1 0 = Ok a1 /\ solve_alpha cubic_solver 2 ex_F (1 / 2) 0 (1 / 2) s2 0 = Ok a2 /\ solve_alpha cubic_solver 3 ex_F (1 / 3) (1 / 4) (1 / 3) w 0 = Ok a3 /\
  quote_frame 0 ex_rows [0] (new_table [20; 30]%Z ex_rows) 0 (ex_quote0 w n s1 s2) = Ok ([(-1, ex_F, Fin (px 1 w + (px 2 w + 0)))], n) /\
  quote_frame 0 ex_rows [0] (new_table [20; 30]%Z ex_rows) 1 (ex_quote1 w m p) = Ok ([(-1, ex_F, Fin (px 1 w + (px 2 w + (px 3 w + 0))))], m).
Lemma ex_numbers : exists w n s1 s2 m p a1 a2 a3, ex_good w n s1 s2 m p a1 a2 a3.
Proof.
  destruct ex_vol as (w & Hw & W2 & W1). pose proof (px_pos 1 w ltac:(lra) Hw) as P1. pose proof (px_pos 2 w ltac:(lra) Hw) as P2. pose proof (px_pos 3 w ltac:(lra) Hw) as P3. pose proof (pdf_pos 0) as Pd.
  pose proof (sqrt_lt_R0 1 ltac:(lra)) as Q1. pose proof (sqrt_lt_R0 2 ltac:(lra)) as Q2. pose proof (sqrt_lt_R0 3 ltac:(lra)) as Q3.
  set (n := (px 1 w + px 2 w) / (pdf 0 * (sqrt 1 + sqrt 2))). set (m := (px 1 w + (px 2 w + px 3 w)) / (pdf 0 * (sqrt 1 + (sqrt 2 + sqrt 3)))). set (p := px 3 w / (sqrt 3 * pdf 0)).
  assert (Hn : 0 < n) by (apply Rdiv_lt_0_compat; [lra|apply Rmult_lt_0_compat; lra]). assert (Hm : 0 < m) by (apply Rdiv_lt_0_compat; [lra|apply Rmult_lt_0_compat; lra]). assert (Hp : 0 < p) by (apply Rdiv_lt_0_compat; [lra|apply Rmult_lt_0_compat; lra]).
  assert (EX : n * pdf 0 * (sqrt 1 + sqrt 2) = px 1 w + px 2 w) by (unfold n; field; lra). assert (EM : m * pdf 0 * (sqrt 1 + (sqrt 2 + sqrt 3)) = px 1 w + (px 2 w + px 3 w)) by (unfold m; field; lra). assert (E3 : px 3 w = p * sqrt 3 * pdf 0) by (unfold p; field; lra).
  assert (Pn : 0 < n * pdf 0) by (apply Rmult_lt_0_compat; lra). assert (PF : 0 < ex_F) by (unfold ex_F; lra).
  assert (G : forall tau, tau = 1 \/ tau = 2 -> exists s, 0 < s /\ px tau s = n * sqrt tau * pdf 0 /\ forall b l, black76_sln_to_normal_vol ex_F tau ex_F s 0 b l = Ok (Fin n)).
  { intros tau Ht. assert (Tp : 0 < tau) by lra. assert (Bd : n * sqrt tau * pdf 0 < ex_F + 0) by (destruct Ht as [-> | ->]; nra).
    destruct (normal_to_sln_atm ex_F tau n 0 ltac:(lra) Tp Hn) as (N & _). destruct (N Bd) as (s & _ & Hs & Pr & Rt). exists s. split; [exact Hs|]. split; [|exact Rt].
    specialize (Pr 1 1 (or_introl eq_refl)). rewrite ex_76, ex_n in Pr by (auto; left; reflexivity). injection Pr. auto. }
  destruct (G 1 ltac:(auto)) as (s1 & H1 & E1 & _). destruct (G 2 ltac:(auto)) as (s2 & H2 & E2 & B2).
  assert (Al : forall tau b r v s, 0 < tau -> b <> 1 -> 0 < s -> exists a, solve_alpha cubic_solver tau ex_F b r v s 0 = Ok a).
  { intros tau b r v s Ht Hb Hs. apply (alpha_iff cubic_solver tau ex_F b r v s 0 cubic_solver_exact ltac:(lra) ltac:(lra)). apply alpha_exists; lra. }
  destruct (Al 1 (1 / 2) 0 (1 / 2) s1 ltac:(lra) ltac:(lra) H1) as (a1 & A1). destruct (Al 2 (1 / 2) 0 (1 / 2) s2 ltac:(lra) ltac:(lra) H2) as (a2 & A2). destruct (Al 3 (1 / 3) (1 / 4) (1 / 3) w ltac:(lra) ltac:(lra) Hw) as (a3 & A3).
  exists w, n, s1, s2, m, p, a1, a2, a3. unfold ex_good. split; [apply ex_calibrate; auto|]. do 13 (split; [assumption|]). split; [apply ex_frame0; auto|apply ex_frame1; auto].
Qed.
(* C122 *)
Definition r4 : caplet := mk_caplet 30 40 4 ex_F 1.
Example C122_ex : map e_nb (new_table [20; 30]%Z [r1; r2; r3; r4]) = [0; 0; 1; 0]%nat /\ quote_forward ex_rows 20 = Fin ex_F /\ quote_forward ex_rows 5 = NaN /\
  @optionlet_init unit None (Some 2%Z) (fun n => Ok n) (fun _ => Ok tt) = Err AttributeError.
Proof.
  split; [reflexivity|]. split; [apply ex_forward; auto|]. split; [apply C122_forward_of_nothing; reflexivity|]. apply (C122_construction_fails None (Some 2%Z) (fun n => Ok n) (fun _ => Ok tt)) with (s := 2%Z); [right; eauto|reflexivity].
Qed.
(* C123 *)
Example C123_ex_gap (cps : list R) (Ks : list num) (vols : list R) : quote_pxs 0 0 cps Ks vols (new_table [20; 30]%Z [r1; r2; r3; r4]) = Err IndexError.
Proof.
  apply (C123_rows_after_quotes 0 _ _ 0 cps Ks vols 3 r4); [reflexivity|intros U [<-|[<-|[]]]; reflexivity|exists 2%nat, r3; repeat split; cbn; lia|]. intros [|[|[|[|j]]]] L; try lia. destruct j; reflexivity.
Qed.
Example C123_ex : exists w k cols n x, 0 < w /\ quote_frame 0 ex_rows [0] (new_table [20; 30]%Z ex_rows) 1 k = Ok (cols, n) /\ 0 < n /\ nth_error cols 0 = Some (-1, ex_F + 0, Fin x) /\ x <> 0 /\ honest [] (x_quote (k_searches k) 0) /\
  capfloor_value 0 (-1) (ex_F + 0) (fun _ => w) (covered ex_rows 30) x.
Proof.
  destruct ex_numbers as (w & n & s1 & s2 & m & p & a1 & a2 & a3 & _ & Hw & _ & _ & _ & Hm & _ & _ & _ & _ & _ & _ & _ & _ & _ & Fr). pose proof (px_pos 1 w ltac:(lra) Hw). pose proof (px_pos 2 w ltac:(lra) Hw). pose proof (px_pos 3 w ltac:(lra) Hw).
  exists w, (ex_quote1 w m p). eexists _, m. destruct (C123_columns 0 [20; 30]%Z ex_rows [0] 1 30%Z (ex_quote1 w m p) ex_F _ m ex_ascending eq_refl ex_ends ex_covered ex_alive eq_refl (ex_forward 30 ltac:(auto)) Fr) as (_ & _ & G).
  destruct (G 0%nat 0 w eq_refl eq_refl ltac:(unfold ex_F; lra) Hw) as (cp & x & G1 & _ & G3 & G4). rewrite (G3 ltac:(lra)) in *. exists x. split; [exact Hw|]. split; [exact Fr|]. split; [exact Hm|]. split; [exact G1|]. split; [injection G1 as _ <-; lra|]. split; [apply probe_honest|exact G4].
Qed.
(* C124 and C125: the hypotheses hold together, and the smiles of the table reprice both quotes *)
Lemma ex_value (w s a b r v : R) (e : entry) (c : caplet) : e_row e = c -> c_F c = ex_F -> c_ann c = 1 -> 0 < c_tau c -> 0 < s -> e_sabr e = Some (a, b, r, v) -> solve_alpha cubic_solver (c_tau c) ex_F b r v s 0 = Ok a -> sabr_value 0 (-1) ex_F e (px (c_tau c) s).
Proof.
  intros Er Ef Ea Ht Hs Es A. exists a, b, r, v, s. rewrite Er, Ef, Ea. split; [exact Es|]. split; [exact Hs|]. split; [apply ex_smile; exact A|]. apply ex_76; auto. right. reflexivity.
Qed.
Example C124_ex : exists (quotes : list capquote) (t : list entry) (e0 e1 : entry) (k : capquote) (n m X S C : R) (rest : list (R * R * num)),
  map k_term quotes = [20; 30]%Z /\ calibrate 0 cubic_solver ex_rows [0] quotes = Ok t /\ nth_error quotes 1 = Some k /\ last_row (before 1) t e0 /\ last_row (within 1) t e1 /\ c_tau (e_row e0) < c_tau (e_row e1) /\
  quote_frame 0 ex_rows [0] (new_table [20; 30]%Z ex_rows) 1 k = Ok ((-1, ex_F, Fin X) :: rest, m) /\ honest [] (x_pillar (k_searches k)) /\ (forall i, honest [] (x_sln (k_searches k) i)) /\
  sabr_total 0 (-1) ex_F (rows_of (before 1) t) S /\ sabr_total 0 (-1) ex_F (rows_of (within 1) t) C /\ X - S <> 0 /\ sabr_total 0 (-1) ex_F (rows_of (upto 1) t) X /\ col_vol_n e0 = Some n /\ 0 < n.
Proof.
  destruct ex_numbers as (w & n & s1 & s2 & m & p & a1 & a2 & a3 & Cb & Hw & Hn & H1 & H2 & Hm & Hp & E1 & E2 & E3 & EX & A1 & A2 & A3 & Fr0 & Fr). pose proof (px_pos 3 w ltac:(lra) Hw) as P3.
  set (t := ex_tE w n s1 s2 p a1 a2 a3) in *.
  assert (V1 : sabr_value 0 (-1) ex_F (mk_entry r1 0 (Some (n, s1)) (Some (a1, 1 / 2, 0, 1 / 2))) (px 1 s1)) by (apply (ex_value w s1 a1 (1 / 2) 0 (1 / 2) _ r1); cbn; auto; lra).
  assert (V2 : sabr_value 0 (-1) ex_F (mk_entry r2 0 (Some (n, s2)) (Some (a2, 1 / 2, 0, 1 / 2))) (px 2 s2)) by (apply (ex_value w s2 a2 (1 / 2) 0 (1 / 2) _ r2); cbn; auto; lra).
  assert (V3 : sabr_value 0 (-1) ex_F (mk_entry r3 1 (Some (p, w)) (Some (a3, 1 / 3, 1 / 4, 1 / 3))) (px 3 w)) by (apply (ex_value w w a3 (1 / 3) (1 / 4) (1 / 3) _ r3); cbn; auto; lra).
  exists (ex_quotes w n s1 s2 m p), t, (mk_entry r2 0 (Some (n, s2)) (Some (a2, 1 / 2, 0, 1 / 2))), (mk_entry r3 1 (Some (p, w)) (Some (a3, 1 / 3, 1 / 4, 1 / 3))), (ex_quote1 w m p), n, m, (px 1 w + (px 2 w + (px 3 w + 0))), (px 1 s1 + (px 2 s2 + 0)), (px 3 w + 0), [].
  split; [reflexivity|]. split; [exact Cb|]. split; [reflexivity|].
  split; [exists 1%nat; split; [reflexivity|]; split; [reflexivity|]; intros [|[|[|j]]] f L Hf; try lia; [injection Hf as <-; reflexivity|destruct j; discriminate]|].
  split; [exists 2%nat; split; [reflexivity|]; split; [reflexivity|]; intros [|[|[|j]]] f L Hf; try lia; destruct j; discriminate|].
  split; [cbn; lra|]. split; [exact Fr|]. split; [apply probe_honest|]. split; [intros i; apply probe_honest|].
  split; [exists [px 1 s1; px 2 s2]; split; [repeat (constructor; [assumption|]); constructor|reflexivity]|].
  split; [exists [px 3 w]; split; [repeat (constructor; [assumption|]); constructor|reflexivity]|]. split; [rewrite E1, E2; lra|].
  split; [|split; [reflexivity|exact Hn]]. exists [px 1 s1; px 2 s2; px 3 w]. split; [repeat (constructor; [assumption|]); constructor|]. unfold sum_over. cbn [fold_right]. rewrite E1, E2. lra.
Qed.
Example C125_ex : exists (quotes : list capquote) (t : list entry), calibrate 0 cubic_solver ex_rows [0] quotes = Ok t /\ Forall (fun k => answers (in_bounds (sabr_bounds (k_beta k))) (x_fit (k_searches k)) /\ beta_in 0 1 (k_beta k)) quotes /\
  exists e, In e t /\ 0 < c_F (e_row e) + 0 /\ e_nb e = 1%nat /\ col_beta e = Some (1 / 3).
Proof.
  destruct ex_numbers as (w & n & s1 & s2 & m & p & a1 & a2 & a3 & Cb & _). eexists _, _. split; [exact Cb|]. split.
  - repeat constructor; cbn; lra.
  - eexists. split; [right; right; left; reflexivity|]. cbn. unfold ex_F. repeat split; lra || reflexivity.
Qed.
(* C126 and C127: at the start of the second row *)
Definition ex_leg : leg := mk_leg 10 20 2 ex_F 1 1.
Lemma ex_by_start (w n s1 s2 p a1 a2 a3 : R) : by_start (ex_tE w n s1 s2 p a1 a2 a3).
Proof. unfold by_start, ex_tE. repeat constructor; unfold start; cbn; lra. Qed.
Lemma ex_solved (w n s1 s2 p a1 a2 a3 : R) : Forall solved (ex_tE w n s1 s2 p a1 a2 a3).
Proof. repeat constructor; cbn; eauto. Qed.
Example C126_ex : exists t pt, by_start t /\ Forall solved t /\ interpolate_table 0 cubic_solver t [ex_leg] = Ok [pt] /\ 0 < i_vol_n pt /\ i_beta pt = 1 / 2 /\ exists y, calc_sln_vol (smile1 2 ex_F (i_alpha pt) (1 / 2) 0 (1 / 2)) [ex_F] [0] = Ok [Fin y] /\ 0 < y.
Proof.
  destruct ex_numbers as (w & n & s1 & s2 & m & p & a1 & a2 & a3 & Cb & Hw & Hn & H1 & H2 & Hm & Hp & E1 & E2 & E3 & EX & A1 & A2 & A3 & Fr0 & Fr).
  exists (ex_tE w n s1 s2 p a1 a2 a3), (mk_point ex_leg n s2 a2 (1 / 2) 0 (1 / 2)). split; [apply ex_by_start|]. split; [apply ex_solved|].
  assert (Bd : n * sqrt 2 * pdf 0 < ex_F + 0).
  { rewrite <- E2. unfold px, ex_F. pose proof (cdf_lt_1 (s2 * sqrt 2 / 2)). lra. }
  destruct (normal_to_sln_atm ex_F 2 n 0 ltac:(unfold ex_F; lra) ltac:(lra) Hn) as (N & _). destruct (N Bd) as (s & Cv & Hs & Pr & _). specialize (Pr 1 1 (or_introl eq_refl)). rewrite ex_76, ex_n in Pr by (auto; try lra; left; reflexivity). injection Pr as Pr. rewrite <- E2 in Pr.
  assert (s = s2) as ->.
  { unfold px, ex_F in Pr. assert (Q : cdf (s * sqrt 2 / 2) = cdf (s2 * sqrt 2 / 2)) by lra. apply cdf_inj in Q. pose proof (sqrt_lt_R0 2 ltac:(lra)). nra. }
  split; [|cbn [i_vol_n i_beta i_alpha]; split; [exact Hn|]; split; [reflexivity|]; exists s2; split; [apply ex_smile; exact A2|exact H2]].
  unfold interpolate_table. cbn [map ex_leg l_start repeated existsb orb negb guard bind sequence].
  assert (I : forall f : entry -> option R, (forall e, In e (ex_tE w n s1 s2 p a1 a2 a3) -> f e <> None) -> interp_index (column_of f (ex_tE w n s1 s2 p a1 a2 a3)) 10 = f (mk_entry r2 0 (Some (n, s2)) (Some (a2, 1 / 2, 0, 1 / 2)))).
  { intros f Hf. pose proof (index_reads f (ex_tE w n s1 s2 p a1 a2 a3) 10 (ex_by_start _ _ _ _ _ _ _ _) ltac:(apply Forall_forall; exact Hf)) as R0.
    destruct (interp_index _ 10) as [y|]; [|exfalso; specialize (R0 _ (or_introl eq_refl)); unfold start in R0; cbn in R0; lra].
    destruct (f (mk_entry r2 0 (Some (n, s2)) (Some (a2, 1 / 2, 0, 1 / 2)))) as [z|] eqn:Ez; [|exfalso; apply (Hf _ ltac:(right; left; reflexivity) Ez)]. f_equal. apply (reads_fun f _ 10 y z (ex_by_start _ _ _ _ _ _ _ _) R0). left. eexists. split; [right; left; reflexivity|]. split; [reflexivity|exact Ez]. }
  unfold interpolate_leg. cbn [ex_leg l_start l_F l_tau]. rewrite !I by (intros e [<-|[<-|[<-|[]]]]; discriminate). cbn [col_beta col_rho col_volvol col_vol_n option_map e_sabr e_atm fst snd]. rewrite Cv, A2. reflexivity.
Qed.
Example C127_ex (y : flat_search) : exists t rows rows' d d' a b, price_per_flat_vol_sln 0 cubic_solver t [ex_leg] (StrikeNumber (1 / 10)) (TypeInt 1) [1 / 5] y = Ok (rows, None) /\ price_per_flat_vol_sln 0 cubic_solver t [ex_leg] (StrikeNumber (1 / 10)) (TypeInt (-1)) [1 / 5] y = Ok (rows', None) /\
  nth_error rows 0 = Some d /\ nth_error rows' 0 = Some d' /\ g_price d = Fin a /\ g_price d' = Fin b /\ a - b = - (1 / 20).
Proof.
  destruct C126_ex as (t & pt & _ & _ & It & _). assert (Ac : forall c, (c = 1 \/ c = -1)%Z -> accepted (StrikeNumber (1 / 10)) (TypeInt c) 1) by (intros c Hc; left; eauto).
  destruct (proj2 (C127_accepted 0 cubic_solver t [ex_leg] [pt] (StrikeNumber (1 / 10)) (TypeInt 1) [1 / 5] y) (Ac 1%Z ltac:(auto)) It) as (_ & G & _). destruct (G ltac:(auto)) as ((rows & R1) & _).
  destruct (proj2 (C127_accepted 0 cubic_solver t [ex_leg] [pt] (StrikeNumber (1 / 10)) (TypeInt (-1)) [1 / 5] y) (Ac (-1)%Z ltac:(auto)) It) as (_ & G' & _). destruct (G' ltac:(auto)) as ((rows' & R2) & _).
  destruct (C127_parity 0 cubic_solver t [ex_leg] (1 / 10) [1 / 5] y 0 ex_leg eq_refl ltac:(cbn; lra) ltac:(repeat constructor; lra)) as (_ & P). destruct P as (P & _); [cbn; unfold ex_F; lra|lra|].
  destruct (P rows rows' None None R1 R2) as (d & d' & a & b & P1 & P2 & P3 & P4 & P5). exists t, rows, rows', d, d', a, b. repeat (split; [assumption|]). rewrite P5. cbn. unfold ex_F. lra.
Qed.
(* the term structure, with equivalent flat volatilities *)
Example C127_ex_flat : exists t rows s m y, price_per_term_structure 0 cubic_solver t [ex_leg] (StrikeNumber ex_F) (TypeInt 1) true y = Ok (rows, Some (s, m)).
Proof.
  destruct C126_ex as (t & pt & Bs & So & It & _ & _ & v & Sm & Hv). pose proof It as It'. apply table_points in It' as [_ Fp]. inversion Fp as [|? ? ? ? Ip _]; subst. destruct (leg_point _ _ _ _ _ Bs So Ip) as (Lp & _).
  destruct (C126_values 0 cubic_solver t [ex_leg] [pt] 0 ex_leg Bs So It eq_refl) as (pt' & E & _). injection E as <-.
  exists t. unfold price_per_term_structure, price_optionlets. cbn [length validate bind Z.eqb orb guard Pos.eqb]. rewrite It. cbn [bind map strike_list type_list spread length repeat]. rewrite Lp.
  match goal with |- context [calc_sln_vol ?sm ?k ?h] => assert (Cv : exists vs, calc_sln_vol sm k h = Ok vs) by (eexists; reflexivity) end. destruct Cv as (vs & Cv). rewrite Cv. cbn [bind fst snd].
  do 3 eexists. exists (mk_flat_search (Finish NoConvergence) (Finish (Minimum 0 true NaN)) (Finish NoConvergence) (Finish (Minimum 0 true NaN))). cbn [andb]. unfold black76_solve_implied_vol, bachelier_solve_implied_vol. cbn. reflexivity.
Qed.
