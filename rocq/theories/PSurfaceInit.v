(* C161: setting up an FX volatility surface. *)
From Coq Require Import String Ascii ZArith Reals Lia List Bool Permutation.
From Verif Require Import Base Date BusDayModel BusDaySpec BusDayProofs DateProofs TenorModel TenorSpec TenorProofs CurveModel BootModel BootProofs FxModel FxSpec FxTermProofs SurfaceInitModel SurfaceInitSpec.
Import ListNotations.
Open Scope string_scope.

Lemma pair_len (a b : string) : currency a -> currency b -> String.length (lower a ++ lower b) = 6%nat.
Proof.
  intros [_ A] [_ B]. assert (L : forall s, String.length (lower s) = String.length s) by (intros s; induction s as [|x s IH]; [reflexivity|]; cbn; rewrite IH; reflexivity).
  assert (P : forall s t, String.length (s ++ t) = (String.length s + String.length t)%nat) by (intros s t; induction s as [|x s IH]; [reflexivity|]; cbn; rewrite IH; reflexivity).
  rewrite P, !L, A, B. reflexivity.
Qed.
Lemma find_unique {A} (p : A -> bool) (l m : list A) (x : A) : Permutation l m -> In x l -> p x = true -> (forall y, In y l -> p y = true -> y = x) -> find p m = Some x.
Proof.
  intros P I T U. destruct (find p m) as [y|] eqn:E.
  - apply find_some in E as [I' T']. f_equal. apply U; [apply (Permutation_in _ (Permutation_sym P)), I'|exact T'].
  - rewrite (find_none _ _ E x (Permutation_in _ P I)) in T. discriminate.
Qed.
Lemma helper_rows (f : forward_frame) (ts : list string) (rates : list (option R)) (c : date) (spot : Z) (cal : calendar) : complete f ts rates -> wf_calendar cal -> (0 <= spot)%Z ->
  exists made, Forall2 (fun x r => fx_row_dates {| x_tenor := clean_tenor (fst x); x_rate_set := fst (snd x); x_delivery := snd (snd x) |} c spot cal = Ok r) (combine ts (ff_dates f)) made /\
    Forall2 (dated_row c spot cal) (combine ts (ff_dates f)) made /\
    fx_forward_curve_helper f c spot cal = Ok (sort_by (fun x => delivery_key (fst x)) (combine made rates)).
Proof.
  intros (T & Rr & _ & _ & D) W P. destruct (rows_ok c spot cal _ W P D) as (made & F & E). exists made. split; [|split; [exact F|]].
  - rewrite map_map in E. cbn [fst snd] in E. apply sequence_ok in E. clear -E. revert made E. induction (combine ts (ff_dates f)) as [|x l IH]; intros [|r made] E; try discriminate; [constructor|]. cbn [map] in E. injection E as E1 E2. constructor; [exact E1|apply IH; exact E2].
  - unfold fx_forward_curve_helper. rewrite Rr, T. cbn [bind]. rewrite map_map. assert (Es : sequence (map (fun x => Ok (clean_tenor x)) ts) = Ok (map clean_tenor ts)) by (apply sequence_ok; rewrite map_map; reflexivity).
    rewrite Es. cbn [bind]. rewrite combine_map_l, E. reflexivity.
Qed.
Lemma F2_nth {A B} (P : A -> B -> Prop) (l : list A) (m : list B) : Forall2 P l m -> forall i x, nth_error l i = Some x -> exists y, nth_error m i = Some y /\ P x y.
Proof. induction 1 as [|a b l m H F IH]; intros [|i] x E; try discriminate; cbn in *; [injection E as <-; eauto|apply IH, E]. Qed.
Lemma F2_nth' {A B} (P : A -> B -> Prop) (l : list A) (m : list B) : Forall2 P l m -> forall i y, nth_error m i = Some y -> exists x, nth_error l i = Some x /\ P x y.
Proof. induction 1 as [|a b l m H F IH]; intros [|i] x E; try discriminate; cbn in *; [injection E as <-; eauto|apply IH, E]. Qed.
Lemma F2_length {A B} (P : A -> B -> Prop) (l : list A) (m : list B) : Forall2 P l m -> List.length l = List.length m.
Proof. induction 1; cbn; congruence. Qed.
Lemma nth_combine {A B} (l : list A) (m : list B) : forall i x y, nth_error (combine l m) i = Some (x, y) <-> nth_error l i = Some x /\ nth_error m i = Some y.
Proof.
  revert m. induction l as [|a l IH]; intros [|b m] [|i] x y; cbn; try (split; [discriminate|intros [E1 E2]; discriminate]); [split; [intros E; injection E as <- <-; auto|intros [E1 E2]; injection E1 as <-; injection E2 as <-; reflexivity]|apply IH].
Qed.
Lemma nth_lt {A B} (l : list A) (m : list B) (i : nat) (x : A) : length l = length m -> nth_error l i = Some x -> exists y, nth_error m i = Some y.
Proof. intros L E. destruct (nth_error m i) as [y|] eqn:E'; [eauto|]. apply nth_error_None in E'. assert (i < length l)%nat by (apply nth_error_Some; congruence). lia. Qed.

(* the spot quote is found wherever it stands *)
Lemma spot_found (f : forward_frame) (ts : list string) (rates : list (option R)) (c : date) (spot : Z) (cal : calendar) (i : nat) : complete f ts rates -> spot_quote_at ts i -> wf_calendar cal -> (0 <= spot)%Z ->
  exists rows r q, fx_forward_curve_helper f c spot cal = Ok rows /\ nth_error rates i = Some q /\ In (r, q) rows /\ find (fun x => String.eqb (x_tenor (fst x)) "sp") rows = Some (r, q) /\
    (nth_error (ff_dates f) i = Some (None, None) -> busday_offset cal c spot Following = match x_delivery r with Some d => Ok d | None => Err ValueError end).
Proof.
  intros C ((t & Et & Ct) & U) W P. destruct (helper_rows f ts rates c spot cal C W P) as (made & F & G & E). destruct C as (_ & _ & L1 & L2 & _).
  destruct (nth_lt _ (ff_dates f) _ _ L1 Et) as (d & Ed). destruct (nth_lt _ rates _ _ (eq_sym L2) Ed) as (q & Eq).
  assert (Ec : nth_error (combine ts (ff_dates f)) i = Some (t, d)) by (apply nth_combine; auto). destruct (F2_nth _ _ _ F _ _ Ec) as (r & Er & Hr).
  assert (Gr : x_tenor r = "sp") by (destruct (F2_nth _ _ _ G _ _ Ec) as (r' & Er' & T & _); rewrite Er in Er'; injection Er' as <-; cbn [fst] in T; congruence).
  assert (Ip : In (r, q) (combine made rates)) by (apply nth_error_In with i, nth_combine; auto).
  pose proof (sort_by_perm (fun x : fx_row * option R => delivery_key (fst x)) (combine made rates)) as Pm. exists (sort_by (fun x => delivery_key (fst x)) (combine made rates)), r, q. repeat split; [exact E|exact Eq|apply (Permutation_in _ (Permutation_sym Pm)), Ip| |].
  - apply find_unique with (l := combine made rates); [apply Permutation_sym, Pm|exact Ip|cbn [fst]; rewrite Gr; reflexivity|]. intros (r', q') I T. cbn [fst] in T. apply String.eqb_eq in T.
    apply In_nth_error in I as (j & Ej). apply nth_combine in Ej as [Ej1 Ej2]. destruct (F2_nth' _ _ _ G _ _ Ej1) as ((t', d') & Ec' & T' & _). cbn [fst] in T'. apply nth_combine in Ec' as [Et' _].
    assert (j = i) by (apply (U j t' Et'); congruence). subst j. congruence.
  - intros N. rewrite N in Ed. injection Ed as <-. unfold fx_row_dates in Hr. cbn [fst snd x_delivery x_rate_set x_tenor] in Hr. rewrite Ct in Hr. change (tenor_to_date_offset "sp") with (@Ok date_offset (days_offset 0)) in Hr. cbn [bind] in Hr.
    assert (A : add_offset c (days_offset 0) = c) by (unfold add_offset, days_offset; cbn [off_months off_days]; rewrite add_months_0; lia). rewrite A in Hr.
    apply bind_ok in Hr as (rs & _ & Hr). apply bind_ok in Hr as (dl & Hd & Hr). injection Hr as <-. cbn [x_delivery]. exact Hd.
Qed.

(* a surface has one date: that of both zero curves; dates given are kept *)
Theorem C161_one_curve_date (foreign domestic : string) (cal : calendar) (cd : option date) (off : option Z) (sd : option date) (dom_date for_date : date) (f : forward_frame) (s : opened) :
  open_surface foreign domestic cal cd off sd dom_date for_date f = Ok s ->
  o_curve_date s = dom_date /\ o_curve_date s = for_date /\ (forall c, cd = Some c -> o_curve_date s = c) /\ (forall d, sd = Some d -> o_spot_date s = d).
Proof.
  unfold open_surface. intros E. apply bind_ok in E as (((ccys & dom) & fgn) & _ & E). apply bind_ok in E as (((c & k) & sp) & R & E).
  destruct (Z.eqb_spec c dom_date) as [->|]; cbn [guard bind] in E; [|discriminate]. destruct (Z.eqb_spec dom_date for_date) as [->|]; cbn [guard bind] in E; [|discriminate].
  apply bind_ok in E as (n & _ & E). apply bind_ok in E as (rows & _ & E). destruct (find _ rows); [|discriminate]. injection E as <-. cbn [o_curve_date o_spot_date].
  split; [reflexivity|]. split; [reflexivity|]. unfold resolve_fx_curve_dates in R. destruct cd as [cd|], sd as [sd|], off as [o|]; try discriminate;
    apply bind_ok in R as (x & _ & R); injection R as R1 R2 R3; subst; split; intros z Z; try discriminate; injection Z as <-; congruence.
Qed.
(* from the curve date: one or two business days to spot, currencies as they were named, the rate of the spot quote, which delivers on the spot date *)
Theorem C161_from_curve_date (foreign domestic : string) (cal : calendar) (c : date) (off : option Z) (f : forward_frame) (ts : list string) (rates : list (option R)) (i : nat) :
  currency foreign -> currency domestic -> wf_calendar cal -> complete f ts rates -> spot_quote_at ts i ->
  exists s r first, open_surface foreign domestic cal (Some c) off None c c f = Ok s /\ o_foreign s = lower foreign /\ o_domestic s = lower domestic /\ o_curve_date s = c /\
    (o_spot_offset s = 1 \/ o_spot_offset s = 2)%Z /\ first_on_or_after cal c first /\ business_day cal (o_spot_date s) /\ Z.of_nat (business_days_between cal first (o_spot_date s)) = o_spot_offset s /\
    nth_error rates i = Some (o_spot_rate s) /\ In (r, o_spot_rate s) (o_forwards s) /\ x_tenor r = "sp" /\ (nth_error (ff_dates f) i = Some (None, None) -> x_delivery r = Some (o_spot_date s)).
Proof.
  intros Cf Cd W C S. destruct (pair_ok foreign domestic Cf Cd) as [Pr _]. destruct (resolve_curve_only (lower foreign ++ lower domestic) cal c off W (pair_len _ _ Cf Cd)) as (lag & sd & st & G & Hl & E & Fi & B & Lt & N).
  destruct (spot_found f ts rates c lag cal i C S W ltac:(lia)) as (rows & r & q & Eh & Eq & Ir & Fd & Dl). eexists. exists r, st. unfold open_surface. rewrite Pr. cbn [bind]. rewrite E. cbn [bind]. rewrite Z.eqb_refl. cbn [guard bind]. rewrite Eh. cbn [bind]. rewrite Fd. split; [reflexivity|].
  cbn [o_foreign o_domestic o_curve_date o_spot_offset o_spot_date o_spot_rate o_forwards snd]. repeat (split; [first [reflexivity|assumption]|]).
  split; [apply find_some in Fd as [_ T]; apply String.eqb_eq in T; exact T|]. intros D. specialize (Dl D). unfold resolve_fx_curve_dates in E. rewrite G in E. cbn [busday_offset_opt] in E. destruct off; rewrite Dl in E; destruct (x_delivery r); cbn [bind] in E; congruence.
Qed.
(* from the spot date: the spot quote delivers on the last business day at or before it *)
Theorem C161_from_spot_date (foreign domestic : string) (cal : calendar) (sd : date) (off : option Z) (f : forward_frame) (ts : list string) (rates : list (option R)) (i : nat) :
  currency foreign -> currency domestic -> wf_calendar cal -> complete f ts rates -> spot_quote_at ts i ->
  exists c s r last, business_day cal c /\ open_surface foreign domestic cal None off (Some sd) c c f = Ok s /\ o_curve_date s = c /\ o_spot_date s = sd /\ last_on_or_before cal sd last /\
    nth_error rates i = Some (o_spot_rate s) /\ In (r, o_spot_rate s) (o_forwards s) /\ x_tenor r = "sp" /\ (nth_error (ff_dates f) i = Some (None, None) -> x_delivery r = Some last).
Proof.
  intros Cf Cd W C S. destruct (pair_ok foreign domestic Cf Cd) as [Pr _]. destruct (resolve_spot_only (lower foreign ++ lower domestic) cal sd off W (pair_len _ _ Cf Cd)) as (lag & c & la & G & E & La & B & Bo).
  assert (Hl : (0 <= lag)%Z) by (destruct (spot_offset_six _ (pair_len _ _ Cf Cd)) as [Q|Q]; rewrite Q in G; injection G as <-; lia).
  destruct (spot_found f ts rates c lag cal i C S W Hl) as (rows & r & q & Eh & Eq & Ir & Fd & Dl). exists c. eexists. exists r, la. split; [exact B|]. unfold open_surface. rewrite Pr. cbn [bind]. rewrite E. cbn [bind]. rewrite Z.eqb_refl. cbn [guard bind]. rewrite Eh. cbn [bind]. rewrite Fd. split; [reflexivity|].
  cbn [o_curve_date o_spot_date o_spot_rate o_forwards snd]. repeat (split; [first [reflexivity|assumption]|]).
  split; [apply find_some in Fd as [_ T]; apply String.eqb_eq in T; exact T|]. intros D. specialize (Dl D). rewrite Bo in Dl. destruct (x_delivery r); congruence.
Qed.
(* zero curves of another date are refused *)
Theorem C161_other_dates_refused (foreign domestic : string) (cal : calendar) (cd : option date) (off : option Z) (sd : option date) (dom_date for_date : date) (f : forward_frame) :
  currency foreign -> currency domestic -> wf_calendar cal -> (exists c, cd = Some c /\ sd = None /\ (dom_date <> c \/ for_date <> c)) \/ (cd = None /\ sd <> None /\ dom_date <> for_date) ->
  open_surface foreign domestic cal cd off sd dom_date for_date f = Err AssertionError.
Proof.
  intros Cf Cd W H. destruct (pair_ok foreign domestic Cf Cd) as [Pr _]. unfold open_surface. rewrite Pr. cbn [bind]. destruct H as [(c & -> & -> & H)|(-> & Ns & H)].
  - destruct (resolve_curve_only (lower foreign ++ lower domestic) cal c off W (pair_len _ _ Cf Cd)) as (lag & s & st & _ & _ & E & _). rewrite E. cbn [bind].
    destruct (Z.eqb_spec c dom_date) as [<-|]; cbn [guard bind]; [|reflexivity]. destruct (Z.eqb_spec c for_date) as [<-|]; cbn [guard bind]; [destruct H; contradiction|reflexivity].
  - destruct sd as [sd|]; [|contradiction]. destruct (resolve_spot_only (lower foreign ++ lower domestic) cal sd off W (pair_len _ _ Cf Cd)) as (lag & c & la & _ & E & _). rewrite E. cbn [bind].
    destruct (Z.eqb_spec c dom_date) as [<-|]; cbn [guard bind]; [|reflexivity]. destruct (Z.eqb_spec c for_date) as [<-|]; cbn [guard bind]; [contradiction|reflexivity].
Qed.
(* a curve date together with a later spot date cannot be used; nor can all three or neither date *)
Theorem C161_dates_refused (foreign domestic : string) (cal : calendar) (c sd dom_date for_date : date) (o : Z) (off : option Z) (f : forward_frame) : currency foreign -> currency domestic ->
  ((c < sd)%Z -> open_surface foreign domestic cal (Some c) None (Some sd) dom_date for_date f = Err AssertionError) /\
  open_surface foreign domestic cal (Some c) (Some o) (Some sd) dom_date for_date f = Err TypeError /\ open_surface foreign domestic cal None off None dom_date for_date f = Err AttributeError.
Proof.
  intros Cf Cd. destruct (pair_ok foreign domestic Cf Cd) as [Pr _]. unfold open_surface. rewrite Pr. cbn [bind]. split; [|split].
  - intros H. rewrite resolve_both_dates. destruct (Z.leb_spec sd c); [lia|reflexivity].
  - rewrite resolve_all_three. reflexivity.
  - rewrite resolve_no_dates. reflexivity.
Qed.
(* without a spot quote, a tenor column or a rate column *)
Theorem C161_frames_refused (foreign domestic : string) (cal : calendar) (c : date) (off : option Z) (f : forward_frame) (ts : list string) (rates : list (option R)) :
  currency foreign -> currency domestic -> wf_calendar cal ->
  (complete f ts rates -> (forall t, In t ts -> clean_tenor t <> "sp") -> open_surface foreign domestic cal (Some c) off None c c f = Err IndexError) /\
  (ff_rates f = None -> open_surface foreign domestic cal (Some c) off None c c f = Err AssertionError) /\
  (ff_rates f <> None -> ff_tenors f = None -> open_surface foreign domestic cal (Some c) off None c c f = Err KeyError).
Proof.
  intros Cf Cd W. destruct (pair_ok foreign domestic Cf Cd) as [Pr _]. destruct (resolve_curve_only (lower foreign ++ lower domestic) cal c off W (pair_len _ _ Cf Cd)) as (lag & sd & st & _ & Hl & E & _).
  unfold open_surface. rewrite Pr. cbn [bind]. rewrite E. cbn [bind]. rewrite Z.eqb_refl. cbn [guard bind]. split; [|split].
  - intros C N. destruct (helper_rows f ts rates c lag cal C W ltac:(lia)) as (made & _ & G & ->). cbn [bind]. destruct (find _ _) as [(r, q)|] eqn:Fd; [|reflexivity]. exfalso. apply find_some in Fd as [I T]. cbn [fst] in T. apply String.eqb_eq in T.
    apply (Permutation_in _ (sort_by_perm _ _)) in I. apply In_nth_error in I as (j & Ej). apply nth_combine in Ej as [Ej _]. destruct (F2_nth' _ _ _ G _ _ Ej) as ((t, d) & Ec & Tt & _). cbn [fst] in Tt. apply nth_combine in Ec as [Et _]. apply (N t); [apply nth_error_In with j, Et|congruence].
  - intros H. unfold fx_forward_curve_helper. rewrite H. reflexivity.
  - intros H1 H2. unfold fx_forward_curve_helper. destruct (ff_rates f); [|contradiction]. rewrite H2. reflexivity.
Qed.
(* the forwards kept are the rows of the term structure, each with its own rate *)
Theorem C161_forwards (f : forward_frame) (ts : list string) (rates : list (option R)) (c : date) (spot : Z) (cal : calendar) : complete f ts rates -> wf_calendar cal -> (0 <= spot)%Z ->
  exists rows, fx_forward_curve_helper f c spot cal = Ok rows /\ length rows = length ts /\ by_delivery (map fst rows) /\
    forall i t d q, nth_error ts i = Some t -> nth_error (ff_dates f) i = Some d -> nth_error rates i = Some q -> exists r, dated_row c spot cal (t, d) r /\ In (r, q) rows.
Proof.
  intros C W P. destruct (helper_rows f ts rates c spot cal C W P) as (made & _ & G & E). destruct C as (_ & _ & L1 & L2 & _). exists (sort_by (fun x => delivery_key (fst x)) (combine made rates)). split; [exact E|].
  pose proof (sort_by_perm (fun x : fx_row * option R => delivery_key (fst x)) (combine made rates)) as Pm. assert (Lm : length made = length ts) by (rewrite <- (F2_length _ _ _ G), combine_length, <- L1; apply Nat.min_id).
  split; [rewrite (Permutation_length Pm), combine_length, Lm, L2, <- L1; apply Nat.min_id|]. split.
  - assert (HD : forall x, In x (sort_by (fun x => delivery_key (fst x)) (combine made rates)) -> exists d, x_delivery (fst x) = Some d).
    { intros (r, q) I. apply (Permutation_in _ Pm) in I. apply In_nth_error in I as (j & Ej). apply nth_combine in Ej as [Ej _]. destruct (F2_nth' _ _ _ G _ _ Ej) as (x & _ & _ & R). cbn [fst]. destruct (snd (snd x)); [destruct R; eauto|]. destruct R as (_ & a & b & rs & dl & _ & _ & Q & _). eauto. }
    assert (S := sort_by_sorted (fun x : fx_row * option R => delivery_key (fst x)) (combine made rates)). revert HD S. generalize (sort_by (fun x : fx_row * option R => delivery_key (fst x)) (combine made rates)). clear. unfold by_delivery. intros l HD S.
    induction S as [|r l S IH O]; [constructor|]. cbn [map]. constructor; [|apply IH; intros s I; apply HD; right; exact I].
    apply Forall_forall. intros s I. apply in_map_iff in I as (y & <- & I). rewrite Forall_forall in O. specialize (O y I). destruct (HD r (or_introl eq_refl)) as (d & Q). destruct (HD y (or_intror I)) as (e & Q'). unfold delivery_key in O. rewrite Q, Q' in O. eauto.
  - intros i t d q Et Ed Eq. destruct (F2_nth _ _ _ G i (t, d)) as (r & Er & D); [apply nth_combine; auto|]. exists r. split; [exact D|]. apply (Permutation_in _ (Permutation_sym Pm)), nth_error_In with i, nth_combine. auto.
Qed.

Definition all_theorems := (C161_one_curve_date, C161_from_curve_date, C161_from_spot_date, C161_other_dates_refused, C161_dates_refused, C161_frames_refused, C161_forwards).
Print Assumptions all_theorems.

(* ---- cases meeting the hypotheses ---- *)
Definition ex_frame : forward_frame := {| ff_tenors := Some [Some "1 month"; Some "Spot"]; ff_dates := [(None, None); (None, None)]; ff_rates := Some [Some (68/100)%R; Some (67/100)%R] |}.
Example ex_complete : complete ex_frame ["1 month"; "Spot"] [Some (68/100)%R; Some (67/100)%R] /\ spot_quote_at ["1 month"; "Spot"] 1.
Proof.
  split.
  - repeat split. intros x [<-|[<-|[]]]; right; (split; [reflexivity|]).
    + exists 0%Z, 1%Z. apply tenor_accepts_iff. vm_compute. reflexivity.
    + exists 0%Z, 0%Z. apply tenor_accepts_iff. vm_compute. reflexivity.
  - split; [exists "Spot"; split; [reflexivity|vm_compute; reflexivity]|]. intros [|[|[|j]]] t E; cbn in E; try discriminate; injection E as <-; [vm_compute; discriminate|reflexivity].
Qed.
Example ex_currencies : currency "AUD" /\ currency "usd".
Proof. assert (L : forall k, (k < 26)%nat -> letter (ascii_of_nat (65 + k)) /\ letter (ascii_of_nat (97 + k))) by (intros k H; split; exists k; auto). split; (split; [|reflexivity]); cbn [letters]; repeat split; [apply (L 0%nat)|apply (L 20%nat)|apply (L 3%nat)|apply (L 20%nat)|apply (L 18%nat)|apply (L 3%nat)]; lia. Qed.
(* Friday 31 May 2024: spot is Tuesday 4 June, the delivery date of the spot quote *)
Example ex_opened : exists s r, open_surface "AUD" "usd" default_calendar (Some (mk 2024 5 31)) None None (mk 2024 5 31) (mk 2024 5 31) ex_frame = Ok s /\
  o_spot_date s = mk 2024 6 4 /\ o_spot_rate s = Some (67/100)%R /\ In (r, o_spot_rate s) (o_forwards s) /\ x_delivery r = Some (mk 2024 6 4).
Proof. eexists. eexists. split; [vm_compute; reflexivity|]. cbn [o_spot_date o_spot_rate o_forwards]. split; [vm_compute; reflexivity|]. split; [reflexivity|]. split; [left; reflexivity|]. vm_compute. reflexivity. Qed.
