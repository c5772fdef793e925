From Coq Require Import String Ascii ZArith QArith Qreals Reals Lra Lia List Bool Permutation Sorted.
From Verif Require Import Base Date DateProofs BusDayModel BusDaySpec BusDayProofs DayCountModel DayCountSpec DayCountProofs TenorModel ScheduleModel NumModel CurveModel CurveSpec CurveProofs BootModel BootSpec BootProofs FuturesProofs.
Import ListNotations.
Open Scope Z_scope.

(* ---- the second Friday ---- *)
Lemma seq_sorted_from a n k : StronglySorted Z.lt (map (fun i => a + Z.of_nat i) (seq k n)).
Proof.
  revert k. induction n as [|n IH]; intros k; cbn; constructor; [apply IH|]. rewrite Forall_forall. intros x I.
  apply in_map_iff in I as (i & <- & I). apply in_seq in I. lia.
Qed.
Lemma filter_sorted {A} (P : A -> A -> Prop) f (l : list A) : StronglySorted P l -> StronglySorted P (filter f l).
Proof.
  induction 1 as [|x t S1 IH F]; cbn; [constructor|]. destruct (f x); [|exact IH]. constructor; [exact IH|].
  rewrite Forall_forall in *. intros y I. apply filter_In in I as (I & _). exact (F y I).
Qed.
Lemma date_range_sorted a c : StronglySorted Z.lt (date_range a c).
Proof. apply seq_sorted_from. Qed.

Lemma month_start_mk y m : 1 <= m <= 12 -> let s := mk y m 1 in year s = y /\ month s = m /\ day s = 1.
Proof.
  intros M. cbn zeta. assert (V : valid y m 1) by (split; [exact M|]; pose proof (days_in_month_bounds y m); lia).
  rewrite year_mk, month_mk, day_mk by exact V. auto.
Qed.
Lemma in_month_range y m (d : date) : 1 <= m <= 12 -> (in_month y m d <-> mk y m 1 <= d <= month_end (mk y m 1)).
Proof.
  intros M. destruct (month_start_mk y m M) as (Y & MM & D). cbn zeta in *.
  assert (S1 : month_start (mk y m 1) = mk y m 1) by (unfold month_start; rewrite Y, MM; reflexivity).
  rewrite <- S1 at 1. rewrite <- in_month_iff, same_month_iff, Y, MM. reflexivity.
Qed.
Lemma in_fridays a c (d : date) : In d (fridays a c) <-> a <= d <= c /\ friday d.
Proof. unfold fridays, friday. rewrite filter_In, in_date_range, Z.eqb_eq. reflexivity. Qed.

Lemma second_friday_found y m : 1 <= m <= 12 -> exists s, nth_error (fridays (mk y m 1) (month_end (mk y m 1))) 1 = Some s /\ second_friday y m s.
Proof.
  intros M. set (a := mk y m 1). set (c := month_end a). pose proof (in_month_range y m) as IM. fold a c in IM.
  assert (LEN : a + 27 <= c).
  { unfold c. rewrite month_end_spec. destruct (month_start_mk y m M) as (Y & MM & D). fold a in Y, MM, D. rewrite month_start_spec, D, Y, MM. pose proof (days_in_month_bounds y m). lia. }
  set (f1 := a + (4 - weekday a) mod 7).
  assert (F1 : friday f1 /\ a <= f1 <= a + 6). { unfold f1, friday, weekday. lia. }
  assert (F2 : friday (f1 + 7)). { destruct F1 as (F1 & _). unfold friday, weekday in *. lia. }
  assert (I1 : In f1 (fridays a c)) by (apply in_fridays; split; [lia|apply F1]).
  assert (I2 : In (f1 + 7) (fridays a c)) by (apply in_fridays; split; [lia|exact F2]).
  assert (SS : StronglySorted Z.lt (fridays a c)) by (apply filter_sorted, date_range_sorted).
  destruct (fridays a c) as [|x [|s t]] eqn:E; [destruct I1| |].
  - destruct I1 as [X1|[]], I2 as [X2|[]]. lia.
  - exists s. split; [reflexivity|]. assert (Ix : In x (fridays a c)) by (rewrite E; left; reflexivity). assert (Is : In s (fridays a c)) by (rewrite E; right; left; reflexivity).
    apply in_fridays in Ix as (Rx & Fx). apply in_fridays in Is as (Rs & Fs). inversion SS as [|u v S1 G1]; subst. inversion S1 as [|u v S2 G2]; subst. rewrite Forall_forall in G1, G2.
    split; [apply IM; assumption|]. split; [exact Fs|]. exists x. split; [apply G1; left; reflexivity|]. split; [apply IM; assumption|]. split; [exact Fx|].
    intros z Z1 Z2 Z3. apply IM in Z1; [|exact M]. assert (Iz : In z (x :: s :: t)) by (rewrite <- E; apply in_fridays; split; assumption).
    destruct Iz as [<-|[<-|Iz]]; [reflexivity|lia|]. specialize (G2 z Iz). lia.
Qed.
Lemma second_friday_unique y m (s s' : date) : second_friday y m s -> second_friday y m s' -> s = s'.
Proof.
  intros (M & F & d1 & L & M1 & F1 & U) (M' & F' & d1' & L' & M1' & F1' & U').
  destruct (Z.lt_trichotomy s s') as [H|[H|H]]; [|exact H|].
  - pose proof (U' s M F H). pose proof (U' d1 M1 F1 ltac:(lia)). lia.
  - pose proof (U s' M' F' H). pose proof (U d1' M1' F1' ltac:(lia)). lia.
Qed.
Lemma second_friday_day y m (s : date) : second_friday y m s -> 8 <= day s <= 14 /\ weekday (s - 1) = 3.
Proof.
  intros (M & F & d1 & L & M1 & F1 & U).
  assert (W : d1 = s - 7).
  { assert (E : in_month y m (s - 7) \/ ~ in_month y m (s - 7)) by (unfold in_month; lia). destruct E as [E|E].
    - symmetry. apply U; [exact E|unfold friday, weekday in *; lia|lia].
    - exfalso. apply E. destruct M as (Y & MM). destruct M1 as (Y1 & MM1).
      assert (d1 <= s - 7) by (unfold friday, weekday in *; lia). unfold in_month.
      assert (YL : y <= year (s - 7) <= y) by (rewrite <- Y1 at 1; rewrite <- Y; split; apply year_mono; lia).
      assert (YE : year (s - 7) = y) by lia. split; [exact YE|].
      assert (m <= month (s - 7)) by (rewrite <- MM1; apply month_mono; lia). assert (month (s - 7) <= m) by (rewrite <- MM; apply month_mono; lia). lia. }
  subst d1. split; [|unfold friday, weekday in *; lia].
  assert (D : day s = day (s - 7) + 7).
  { destruct M as (Y & MM), M1 as (Y1 & MM1). pose proof (mk_ymd s) as E1. pose proof (mk_ymd (s - 7)) as E2. rewrite Y, MM in E1. rewrite Y1, MM1 in E2. unfold mk in *. lia. }
  pose proof (day_range (s - 7)) as DR. destruct (Z_le_gt_dec (day (s - 7)) 7) as [L7|G7]; [lia|]. exfalso.
  (* otherwise s - 14 would also be a Friday of the month *)
  assert (X : in_month y m (s - 14)).
  { destruct M1 as (Y1 & MM1). pose proof (mk_ymd (s - 7)) as E2. assert (V : valid y m (day (s - 7) - 7)).
    { split; [rewrite <- MM1; apply month_range|]. rewrite Y1, MM1 in DR. lia. }
    assert (E : s - 14 = mk y m (day (s - 7) - 7)) by (rewrite Y1, MM1 in E2; unfold mk in *; lia). rewrite E. split; [apply year_mk, V|apply month_mk, V]. }
  assert (s - 14 = s - 7); [|lia]. apply U; [exact X|unfold friday, weekday in *; lia|lia].
Qed.

(* ---- the grid of contracts ---- *)
Definition quarters : list Z := [3; 6; 9; 12].
Definition grid (lo hi : Z) : list (Z * Z) := flat_map (fun y => map (fun m => (y, m)) quarters) (years_from lo hi).
Lemma in_years_from a c y : In y (years_from a c) <-> a <= y <= c.
Proof.
  unfold years_from. rewrite in_map_iff. split.
  - intros (i & <- & I). apply in_seq in I. lia.
  - intros H. exists (Z.to_nat (y - a)). split; [lia|]. apply in_seq. lia.
Qed.
Lemma in_grid lo hi c : In c (grid lo hi) <-> lo <= fst c <= hi /\ quarter_month (snd c).
Proof.
  unfold grid. rewrite in_flat_map. destruct c as (y & m). split.
  - intros (y' & Y & I). apply in_years_from in Y. apply in_map_iff in I as (m' & E & I). injection E as -> ->. cbn. split; [exact Y|].
    unfold quarter_month. cbn in I. intuition lia.
  - intros (Y & Q). exists y. split; [apply in_years_from, Y|]. apply in_map. unfold quarter_month in Q. cbn in *. intuition lia.
Qed.
Lemma chronological_sorted cs : chronological cs <-> StronglySorted contract_before cs.
Proof.
  induction cs as [|c t IH]; cbn; split; intros H; [constructor|exact I|constructor; tauto|]. inversion H; subst. tauto.
Qed.
Lemma sorted_app {A} (P : A -> A -> Prop) l m : StronglySorted P l -> StronglySorted P m -> (forall x y, In x l -> In y m -> P x y) -> StronglySorted P (l ++ m).
Proof.
  induction 1 as [|x t S1 IH F]; intros S2 H; [exact S2|]. cbn. constructor.
  - apply IH; [exact S2|]. intros a c I J. apply H; [right; exact I|exact J].
  - rewrite Forall_forall in *. intros y I. apply in_app_or in I as [I|I]; [exact (F y I)|apply H; [left; reflexivity|exact I]].
Qed.
Lemma grid_sorted lo hi : StronglySorted contract_before (grid lo hi).
Proof.
  unfold grid, years_from. generalize (Z.to_nat (hi - lo + 1)) as n. generalize 0%nat as k. intros k n. revert k. induction n as [|n IH]; intros k; [constructor|].
  cbn [seq map flat_map]. apply sorted_app; [| apply IH |].
  - cbn. repeat constructor; cbn; lia.
  - intros x y I J. apply in_flat_map in J as (y' & Y & J). apply in_map_iff in I as (m & <- & _). apply in_map_iff in J as (m' & <- & _).
    apply in_map_iff in Y as (i & <- & Y). apply in_seq in Y. left. cbn. lia.
Qed.
Lemma contract_before_irrefl c : ~ contract_before c c.
Proof. unfold contract_before. lia. Qed.
Lemma contract_before_trans a c d : contract_before a c -> contract_before c d -> contract_before a d.
Proof. unfold contract_before. lia. Qed.
Lemma sorted_NoDup l : StronglySorted contract_before l -> NoDup l.
Proof.
  induction 1 as [|x t S1 IH F]; constructor; [|exact IH]. intros I. rewrite Forall_forall in F. exact (contract_before_irrefl x (F x I)).
Qed.
Lemma sorted_same l : forall m, StronglySorted contract_before l -> StronglySorted contract_before m -> (forall x, In x l <-> In x m) -> l = m.
Proof.
  induction l as [|x t IH]; intros [|y u] S1 S2 H; [reflexivity| | |].
  - destruct (proj2 (H y) (or_introl eq_refl)).
  - destruct (proj1 (H x) (or_introl eq_refl)).
  - inversion S1 as [|a b S1' F1]; inversion S2 as [|a' b' S2' F2]; subst. rewrite Forall_forall in F1, F2.
    assert (x = y) as ->.
    { destruct (proj1 (H x) (or_introl eq_refl)) as [->|I]; [reflexivity|]. destruct (proj2 (H y) (or_introl eq_refl)) as [->|J]; [reflexivity|].
      destruct (contract_before_irrefl x (contract_before_trans x y x (F1 y J) (F2 x I))). }
    f_equal. apply IH; [assumption..|]. intros z. split; intros I.
    + destruct (proj1 (H z) (or_intror I)) as [<-|J]; [|exact J]. destruct (contract_before_irrefl y (F1 y I)).
    + destruct (proj2 (H z) (or_intror I)) as [<-|J]; [|exact J]. destruct (contract_before_irrefl y (F2 y I)).
Qed.

Definition listed (cs : list (Z * Z)) (ym : Z * Z) : bool := existsb (fun c => (fst c =? fst ym) && (snd c =? snd ym)) cs.
Lemma listed_in cs ym : listed cs ym = true <-> In ym cs.
Proof.
  unfold listed. rewrite existsb_exists. split.
  - intros (c & I & E). apply andb_prop in E as (E1 & E2). apply Z.eqb_eq in E1, E2. destruct c, ym. cbn in *. subst. exact I.
  - intros I. exists ym. rewrite !Z.eqb_refl. split; [exact I|reflexivity].
Qed.
(* the contracts found, oldest first *)
Definition found (cs : list (Z * Z)) : list (Z * Z) :=
  match cs with
  | [] => []
  | c0 :: ct => filter (listed cs) (grid (fold_left Z.min (map fst ct) (fst c0)) (fold_left Z.max (map fst ct) (fst c0)))
  end.
Lemma fold_min_le (x : Z) l : fold_left Z.min l x <= x /\ forall y, In y l -> fold_left Z.min l x <= y.
Proof.
  revert x. induction l as [|z t IH]; intros x; cbn; [split; [lia|intros y []]|]. destruct (IH (Z.min x z)) as (A & B). split; [lia|].
  intros y [<-|I]; [lia|exact (B y I)].
Qed.
Lemma in_found cs c : In c (found cs) <-> In c cs /\ quarter_month (snd c).
Proof.
  destruct cs as [|c0 ct]; [cbn; tauto|]. unfold found. rewrite filter_In, listed_in, in_grid. split; [tauto|]. intros (I & Q). repeat split; try assumption.
  - destruct (fold_min_le (fst c0) (map fst ct)) as (A & B). destruct I as [<-|I]; [exact A|apply B, in_map, I].
  - destruct (fold_max_ge (fst c0) (map fst ct)) as (A & B & _). destruct I as [<-|I]; [exact A|apply B, in_map, I].
Qed.
Lemma found_sorted cs : StronglySorted contract_before (found cs).
Proof. destruct cs as [|c0 ct]; [constructor|]. apply filter_sorted, grid_sorted. Qed.

Lemma friday_previous d : friday d -> previous_weekday d = d - 1.
Proof. unfold friday, previous_weekday. intros ->. reflexivity. Qed.

Definition dates_ok (c : Z * Z) (p : date * date) : Prop := second_friday (fst c) (snd c) (snd p) /\ fst p = snd p - 1.
Lemma contract_dates_ok cs ym : quarter_month (snd ym) -> exists l, contract_dates cs ym = Ok l /\
  if listed cs ym then exists p, l = [p] /\ dates_ok ym p else l = [].
Proof.
  intros Q. unfold contract_dates. change (existsb _ cs) with (listed cs ym). destruct (listed cs ym); [|eexists; split; reflexivity].
  destruct (second_friday_found (fst ym) (snd ym)) as (s & E & F); [unfold quarter_month in Q; lia|]. rewrite E. eexists. split; [reflexivity|].
  eexists. split; [reflexivity|]. split; [exact F|]. apply friday_previous. apply F.
Qed.
Lemma grid_dates cs g : (forall c, In c g -> quarter_month (snd c)) ->
  exists ds, sequence (map (contract_dates cs) g) = Ok ds /\ Forall2 dates_ok (filter (listed cs) g) (concat ds).
Proof.
  induction g as [|c t IH]; intros Q; [exists []; split; [reflexivity|constructor]|].
  destruct (IH (fun x I => Q x (or_intror I))) as (ds & E & F). destruct (contract_dates_ok cs c (Q c (or_introl eq_refl))) as (l & E1 & L).
  exists (l :: ds). cbn [map sequence]. rewrite E1. cbn [bind]. rewrite E. split; [reflexivity|]. cbn [filter concat].
  destruct (listed cs c); [destruct L as (p & -> & D); cbn; constructor; assumption|subst l; exact F].
Qed.

Lemma rows_ok cal l : wf_calendar cal -> forall cs, Forall2 dates_ok cs l ->
  exists rows, sequence (map (fun p : date * date => let* m := workday (add_months (snd p) 3) 0 cal in
        Ok {| a_expiry := fst p; a_settlement := snd p; a_effective := snd p; a_maturity := m |}) l) = Ok rows /\ Forall2 (row_for cal) cs rows.
Proof.
  intros W. induction l as [|p t IH]; intros cs F; inversion F as [|c x cs' l' D F']; subst; [exists []; split; [reflexivity|constructor]|].
  destruct (IH cs' F') as (rows & E & R). destruct (workday_0 cal (add_months (snd p) 3) W) as (m & M & FA). cbn [map sequence]. rewrite M. cbn [bind]. rewrite E. cbn [bind].
  eexists. split; [reflexivity|]. constructor; [|exact R]. destruct D as (D1 & D2). repeat split; assumption || apply D1 || apply FA.
Qed.

Lemma asx_value cs cal : wf_calendar cal -> cs <> [] ->
  (length (found cs) = length cs -> exists rows, asx_dates cs cal = Ok rows /\ Forall2 (row_for cal) (found cs) rows) /\
  (length (found cs) <> length cs -> asx_dates cs cal = Err ValueError).
Proof.
  intros W NE. destruct cs as [|c0 ct]; [contradiction|]. unfold asx_dates.
  set (lo := fold_left Z.min (map fst ct) (fst c0)). set (hi := fold_left Z.max (map fst ct) (fst c0)). set (cs := c0 :: ct).
  assert (FE : found cs = filter (listed cs) (grid lo hi)) by reflexivity.
  destruct (grid_dates cs (grid lo hi)) as (ds & E & F). { intros c I. apply in_grid in I. apply I. }
  change (flat_map (fun y : Z => map (fun m : Z => (y, m)) [3; 6; 9; 12]) (years_from lo hi)) with (grid lo hi). rewrite E. cbn [bind]. rewrite <- FE in F.
  assert (L : length (concat ds) = length (found cs)) by (clear -F; induction F; cbn; congruence).
  split; intros H.
  - rewrite L, H, Nat.eqb_refl. cbn [guard bind]. exact (rows_ok cal (concat ds) W (found cs) F).
  - rewrite L, (proj2 (Nat.eqb_neq _ _) H). reflexivity.
Qed.

Lemma NoDup_incl_length_eq {A} (l m : list A) : NoDup l -> incl l m -> length l = length m -> NoDup m /\ incl m l.
Proof.
  intros ND I L. split; [|apply NoDup_length_incl; [exact ND|lia|exact I]].
  apply NoDup_incl_NoDup with (l := l); [exact ND|lia|exact I].
Qed.
Lemma found_length cs : length (found cs) = length cs <-> distinct_quarters cs.
Proof.
  pose proof (sorted_NoDup _ (found_sorted cs)) as ND. assert (I : incl (found cs) cs) by (intros c J; apply in_found in J; apply J).
  split.
  - intros L. destruct (NoDup_incl_length_eq _ _ ND I L) as (N & J). split; [exact N|]. intros c K. apply J in K. apply in_found in K. apply K.
  - intros (N & Q). apply Nat.le_antisymm; apply NoDup_incl_length; try assumption. intros c J. apply in_found. split; [exact J|exact (Q c J)].
Qed.
Lemma found_chronological cs : chronological cs -> (forall c, In c cs -> quarter_month (snd c)) -> found cs = cs.
Proof.
  intros C Q. apply sorted_same; [apply found_sorted|apply chronological_sorted, C|]. intros c. rewrite in_found. split; [tauto|]. intros I. split; [exact I|exact (Q c I)].
Qed.

Lemma asx_in_order cs cal : wf_calendar cal -> cs <> [] -> chronological cs -> (forall c, In c cs -> quarter_month (snd c)) ->
  exists rows, asx_dates cs cal = Ok rows /\ Forall2 (row_for cal) cs rows.
Proof.
  intros W NE C Q. pose proof (found_chronological cs C Q) as E. destruct (asx_value cs cal W NE) as (A & _). rewrite E in A. exact (A eq_refl).
Qed.
Lemma asx_accepted_iff cs cal : wf_calendar cal -> cs <> [] ->
  ((exists rows, asx_dates cs cal = Ok rows) <-> distinct_quarters cs) /\ (~ distinct_quarters cs -> asx_dates cs cal = Err ValueError).
Proof.
  intros W NE. destruct (asx_value cs cal W NE) as (A & B). rewrite found_length in A, B. split; [split|exact B].
  - intros (rows & E). destruct (Nat.eq_dec (length (found cs)) (length cs)) as [L|L]; [apply found_length, L|]. rewrite found_length in L. rewrite (B L) in E. discriminate.
  - intros D. destruct (A D) as (rows & E & _). exists rows. exact E.
Qed.
Lemma asx_positional cs cal rows : wf_calendar cal -> asx_dates cs cal = Ok rows ->
  exists sorted, Permutation sorted cs /\ chronological sorted /\ Forall2 (row_for cal) sorted rows.
Proof.
  intros W E. assert (NE : cs <> []) by (intros ->; discriminate). destruct (asx_value cs cal W NE) as (A & B).
  destruct (Nat.eq_dec (length (found cs)) (length cs)) as [L|L]; [|rewrite (B L) in E; discriminate]. destruct (A L) as (r & E' & F). rewrite E in E'. injection E' as <-.
  exists (found cs). split; [|split; [apply chronological_sorted, found_sorted|exact F]]. apply found_length in L as (N & Q).
  apply NoDup_Permutation; [apply sorted_NoDup, found_sorted|exact N|]. intros c. rewrite in_found. split; [tauto|]. intros I. split; [exact I|exact (Q c I)].
Qed.

Lemma Forall2_nth {A B} (P : A -> B -> Prop) l m i x y : Forall2 P l m -> nth_error l i = Some x -> nth_error m i = Some y -> P x y.
Proof. intros F. revert i. induction F as [|a c t u H F IH]; intros [|i] X Y; try discriminate; cbn in X, Y; [congruence|exact (IH i X Y)]. Qed.
Lemma Forall2_len {A B} (P : A -> B -> Prop) l m : Forall2 P l m -> length l = length m.
Proof. induction 1; cbn; congruence. Qed.

Lemma second_friday_contract c c' (s : date) : second_friday (fst c) (snd c) s -> second_friday (fst c') (snd c') s -> c = c'.
Proof. intros ((Y & M) & _) ((Y' & M') & _). destruct c, c'. cbn in *. congruence. Qed.

(* the dates belong to the rows exactly when the rows are in chronological order *)
Lemma asx_right_iff cs cal rows : wf_calendar cal -> asx_dates cs cal = Ok rows ->
  ((forall i c r, nth_error cs i = Some c -> nth_error rows i = Some r -> second_friday (fst c) (snd c) (a_settlement r)) <-> chronological cs).
Proof.
  intros W E. destruct (asx_positional cs cal rows W E) as (l & P & C & F). pose proof (Forall2_len _ _ _ F) as L1. pose proof (Permutation_length P) as L2. split.
  - intros H. assert (l = cs) as <-; [|exact C]. apply (nth_error_ext_map (fun x => x)) in L2 as L3; [rewrite map_id in L3; exact L3|].
    intros i c K. assert (LI : (i < length rows)%nat) by (rewrite <- L1, L2; apply nth_error_Some; congruence).
    destruct (nth_error rows i) as [r|] eqn:KR; [|apply nth_error_None in KR; lia]. destruct (nth_error l i) as [c'|] eqn:KL; [|apply nth_error_None in KL; lia].
    pose proof (H i c r K KR) as S1. destruct (Forall2_nth _ _ _ i c' r F KL KR) as (S2 & _). f_equal. exact (second_friday_contract _ _ _ S2 S1).
  - intros CC. assert (l = cs) as ->.
    { apply sorted_same; [apply chronological_sorted, C|apply chronological_sorted, CC|]. intros c. split; apply Permutation_in; [exact P|apply Permutation_sym, P]. }
    intros i c r K KR. exact (proj1 (Forall2_nth _ _ _ i c r F K KR)).
Qed.

(* ---- tickers ---- *)
Lemma month_of_code_iff a m : month_of_code a = Some m <-> month_code a m.
Proof.
  unfold month_code. split.
  - destruct a as [[] [] [] [] [] [] [] []]; cbn; intros H; try discriminate; injection H as <-; auto 6.
  - intros [(-> & ->)|[(-> & ->)|[(-> & ->)|(-> & ->)]]]; reflexivity.
Qed.
Lemma digit_iff d n : (0 <= n <= 9) -> (is_digit d = true /\ digit_value d = n <-> d = ascii_of_nat (48 + Z.to_nat n)).
Proof.
  intros H. unfold is_digit, digit_value. split.
  - intros (E & V). apply andb_prop in E as (E1 & E2). apply Nat.leb_le in E1, E2. rewrite <- (ascii_nat_embedding d). f_equal. lia.
  - intros ->. rewrite nat_ascii_embedding by lia. split; [apply andb_true_intro; split; apply Nat.leb_le; lia|lia].
Qed.

Definition decode_one (u : string) : option (Z * Z) :=
  match u with
  | String "I" (String "R" (String a (String d ""))) =>
      match month_of_code a with Some m => if is_digit d then Some (2020 + digit_value d, m) else None | None => None end
  | _ => None
  end.

Definition code_of (t : string) : option Z := match get 2 t with Some a => month_of_code a | None => None end.
Definition b_ir (t : string) : bool := (substring 0 2 t =? "IR")%string.
Definition b_month (m : option Z) : bool := match m with Some _ => true | None => false end.
Definition b_len (t : string) : bool := existsb (Nat.eqb (String.length t)) [1; 2; 4]%nat.
Definition year_code (t : string) : result Z := py_int (substring 3 (String.length t - 3) t).

Lemma ticker_shape u a m : b_ir u = true -> get 2 u = Some a -> month_of_code a = Some m -> b_len u = true ->
  exists d, u = String "I" (String "R" (String a (String d ""))).
Proof.
  intros H1 H2 H3 H4. unfold b_ir in H1. apply String.eqb_eq in H1.
  destruct u as [|c0 [|c1 [|c2 [|c3 [|c4 u]]]]]; cbn in H1, H2, H4; try discriminate. injection H1 as -> ->. injection H2 as ->. exists c3. reflexivity.
Qed.

Lemma one_ticker u c : (b_ir u = true /\ exists m, code_of u = Some m /\ b_len u = true /\ exists n y, year_code u = Ok n /\ resolve_year n = Ok y /\ c = (y, m)) <-> decode_one u = Some c.
Proof.
  split.
  - intros (H1 & m & H2 & H3 & n & y & H4 & H5 & ->). unfold code_of in H2. destruct (get 2 u) as [a|] eqn:E; [|discriminate].
    destruct (ticker_shape u a m H1 E H2 H3) as (d & ->). unfold year_code in H4. cbn in H4. cbn [decode_one]. rewrite H2.
    destruct (is_digit d) eqn:D; [|discriminate]. injection H4 as <-. unfold resolve_year in H5.
    assert (R9 : 0 <= digit_value d <= 9) by (unfold is_digit in D; apply andb_prop in D as (D1 & D2); apply Nat.leb_le in D1, D2; unfold digit_value; lia).
    change (match digit_value d with 0 => 0 | Z.pos y' => Z.pos y' | Z.neg y' => Z.neg y' end) with (0 + digit_value d) in H5.
    rewrite (proj2 (Z.ltb_lt _ 10)) in H5 by (destruct (digit_value d); lia). injection H5 as <-. reflexivity.
  - intros H. destruct u as [|c0 [|c1 [|a [|d [|c4 u]]]]]; cbn in H; try discriminate;
      try (destruct c0 as [[] [] [] [] [] [] [] []]; cbn in H; discriminate);
      try (destruct c0 as [[] [] [] [] [] [] [] []]; cbn in H; try discriminate; destruct c1 as [[] [] [] [] [] [] [] []]; cbn in H; discriminate).
    assert (C0 : c0 = "I"%char) by (destruct c0 as [[] [] [] [] [] [] [] []]; cbn in H; try discriminate; reflexivity). subst c0.
    assert (C1 : c1 = "R"%char) by (destruct c1 as [[] [] [] [] [] [] [] []]; cbn in H; try discriminate; reflexivity). subst c1. cbn in H.
    destruct (month_of_code a) as [m|] eqn:M; [|discriminate]. destruct (is_digit d) eqn:D; [|discriminate]. injection H as <-.
    assert (R9 : 0 <= digit_value d <= 9) by (unfold is_digit in D; apply andb_prop in D as (D1 & D2); apply Nat.leb_le in D1, D2; unfold digit_value; lia).
    split; [reflexivity|]. exists m. split; [exact M|]. split; [reflexivity|]. exists (digit_value d), (2020 + digit_value d). split.
    + unfold year_code. cbn. rewrite D. reflexivity.
    + split; [|reflexivity]. unfold resolve_year. rewrite (proj2 (Z.ltb_lt _ 10)) by lia. reflexivity.
Qed.

Lemma decode_forward us : forall codes years, forallb b_ir us = true -> forallb b_month (map code_of us) = true -> forallb b_len us = true ->
  sequence (map year_code us) = Ok codes -> sequence (map resolve_year codes) = Ok years ->
  Forall2 (fun u c => decode_one u = Some c) us (combine years (valid_dates (map code_of us))).
Proof.
  induction us as [|u t IH]; intros codes years H1 H2 H3 H4 H5.
  - cbn in H4. injection H4 as <-. cbn in H5. injection H5 as <-. constructor.
  - cbn in H1, H2, H3. apply andb_prop in H1 as (A1 & B1). apply andb_prop in H2 as (A2 & B2). apply andb_prop in H3 as (A3 & B3).
    apply sequence_ok in H4. destruct codes as [|n ns]; [discriminate|]. cbn in H4. injection H4 as A4 B4.
    apply sequence_ok in H5. destruct years as [|y ys]; [discriminate|]. cbn in H5. injection H5 as A5 B5.
    cbn [map]. destruct (code_of u) as [m|] eqn:C; [|discriminate]. cbn [valid_dates flat_map app combine].
    constructor.
    + apply one_ticker. split; [exact A1|]. exists m. split; [exact C|]. split; [exact A3|]. exists n, y. auto.
    + apply (IH ns ys); try assumption; apply sequence_ok; assumption.
Qed.
Lemma decode_backward us cs : Forall2 (fun u c => decode_one u = Some c) us cs ->
  forallb b_ir us = true /\ forallb b_month (map code_of us) = true /\ forallb b_len us = true /\
  exists codes years, sequence (map year_code us) = Ok codes /\ sequence (map resolve_year codes) = Ok years /\ combine years (valid_dates (map code_of us)) = cs.
Proof.
  induction 1 as [|u c t cs D F (H1 & H2 & H3 & ns & ys & H4 & H5 & H6)]; [repeat split; exists [], []; auto|].
  apply one_ticker in D as (A1 & m & A2 & A3 & n & y & A4 & A5 & ->). cbn [forallb map]. rewrite A1, H1, A2, H2, A3, H3. repeat split.
  exists (n :: ns), (y :: ys). cbn [map sequence]. rewrite A4. cbn [bind]. rewrite H4. cbn [bind]. split; [reflexivity|]. cbn [map sequence]. rewrite A5. cbn [bind]. rewrite H5. cbn [bind]. split; [reflexivity|]. cbn [valid_dates flat_map app combine]. f_equal. exact H6.
Qed.
Lemma ticker_decode t y m : ticker_of t y m <-> decode_one (strip (upper t)) = Some (y, m).
Proof.
  unfold ticker_of. split.
  - intros (a & d & n & -> & C & N & D & ->). cbn. apply month_of_code_iff in C. rewrite C. apply (digit_iff d n N) in D as (D & V). rewrite D, V. reflexivity.
  - intros H. apply one_ticker in H as (H1 & m' & H2 & H3 & n & y' & H4 & H5 & E). injection E as -> ->. unfold code_of in H2. destruct (get 2 (strip (upper t))) as [a|] eqn:G; [|discriminate].
    destruct (ticker_shape _ a m' H1 G H2 H3) as (d & U). rewrite U in *. unfold year_code in H4. cbn in H4. destruct (is_digit d) eqn:D; [|discriminate].
    assert (R9 : 0 <= digit_value d <= 9) by (pose proof D as D'; unfold is_digit in D'; apply andb_prop in D' as (D1 & D2); apply Nat.leb_le in D1, D2; unfold digit_value; lia).
    assert (N : n = digit_value d) by (injection H4 as <-; destruct (digit_value d); lia). subst n.
    exists a, d, (digit_value d). split; [reflexivity|]. split; [apply month_of_code_iff, H2|]. split; [exact R9|]. split; [apply (digit_iff d _ R9); auto|].
    unfold resolve_year in H5. rewrite (proj2 (Z.ltb_lt _ 10)) in H5 by lia. injection H5 as <-. reflexivity.
Qed.
Lemma decode_iff ts cs : decode_tickers ts = Ok cs <-> Forall2 (fun t c => ticker_of t (fst c) (snd c)) ts cs.
Proof.
  unfold decode_tickers. set (us := map (fun t => strip (upper t)) ts).
  assert (E : Forall2 (fun t c => ticker_of t (fst c) (snd c)) ts cs <-> Forall2 (fun u c => decode_one u = Some c) us cs).
  { unfold us. clear. revert cs. induction ts as [|t r IH]; intros cs; split; intros H; inversion H as [|a c l m H1 H2]; subst; constructor; try (apply IH; assumption);
      destruct c; apply ticker_decode; assumption. }
  rewrite E. clear E. change (map (fun t => match get 2 t with Some a => month_of_code a | None => None end) us) with (map code_of us).
  change (forallb (fun t => (substring 0 2 t =? "IR")%string) us) with (forallb b_ir us).
  change (forallb (fun m => match m with Some _ => true | None => false end) (map code_of us)) with (forallb b_month (map code_of us)).
  change (forallb (fun t => existsb (Nat.eqb (String.length t)) [1; 2; 4]%nat) us) with (forallb b_len us).
  change (map (fun t => py_int (substring 3 (String.length t - 3) t)) us) with (map year_code us).
  split.
  - intros H. destruct (forallb b_ir us) eqn:H1; [|discriminate]. cbn [guard bind] in H. destruct (forallb b_month (map code_of us)) eqn:H2; [|discriminate]. cbn [guard bind] in H.
    destruct (forallb b_len us) eqn:H3; [|discriminate]. cbn [guard bind] in H. destruct (sequence (map year_code us)) as [codes|] eqn:H4; [|discriminate]. cbn [bind] in H.
    destruct (sequence (map resolve_year codes)) as [years|] eqn:H5; [|discriminate]. cbn [bind] in H. injection H as <-. exact (decode_forward us codes years H1 H2 H3 H4 H5).
  - intros F. destruct (decode_backward us cs F) as (H1 & H2 & H3 & codes & years & H4 & H5 & H6). rewrite H1, H2, H3. cbn [guard bind]. rewrite H4. cbn [bind]. rewrite H5. cbn [bind]. rewrite H6. reflexivity.
Qed.


Lemma asx_by_ticker ts cs cal : decode_tickers ts = Ok cs -> futures_helper_asx_90day None (Some ts) cal = asx_dates cs cal.
Proof. intros H. unfold futures_helper_asx_90day. rewrite H. reflexivity. Qed.
Lemma asx_rate p : (asx_futures_rate p = 1 - p / 100)%R.
Proof. unfold asx_futures_rate. field. Qed.
