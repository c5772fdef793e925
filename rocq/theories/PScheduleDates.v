(* C151: what make_schedule does with first_period_end and last_period_start *)
From Coq Require Import ZArith List Bool Lia.
From Verif Require Import Base Date BusDayModel BusDaySpec BusDayProofs ScheduleModel ScheduleSpec ScheduleProofs ScheduleDatesSpec.
Import ListNotations.
Open Scope Z_scope.

Lemma frame_first p n : length (fst p) = S n -> length (snd p) = S n -> bind (merge_first p) to_frame = merge_first_spec p.
Proof.
  destruct p as [a b]. cbn [fst snd]. intros A B. destruct a as [|x [|x1 a]], b as [|y b]; try discriminate; cbn in A, B.
  - injection A as <-. destruct b; [|discriminate]. reflexivity.
  - cbn [merge_first fst snd tl bind merge_first_spec]. unfold to_frame. cbn [fst snd length]. replace (S (length a) =? length b)%nat with true; [reflexivity|]. symmetry. apply Nat.eqb_eq. lia.
Qed.
Lemma frame_last p n : length (fst p) = S n -> length (snd p) = S n -> bind (merge_last p) to_frame = merge_last_spec p.
Proof.
  destruct p as [a b]. cbn [fst snd]. intros A B. destruct a as [|x a _] using rev_ind; [discriminate|]. destruct b as [|y b _] using rev_ind; [discriminate|]. rewrite app_length in A, B. cbn in A, B.
  unfold merge_last, py_last, merge_last_spec. cbn [fst snd]. rewrite !rev_app_distr. cbn [rev app bind]. rewrite !removelast_last. unfold to_frame. cbn [fst snd].
  destruct b as [|z b _] using rev_ind.
  - cbn in *. assert (a = []) as -> by (destruct a; [reflexivity|cbn in A; lia]). reflexivity.
  - rewrite removelast_last, rev_app_distr. cbn [rev app]. rewrite app_length in *. cbn in *. replace (length a =? length b + 1)%nat with true by (symmetry; apply Nat.eqb_eq; lia). rewrite !rev_involutive. reflexivity.
Qed.
Lemma frame_id p n : length (fst p) = n -> length (snd p) = n -> to_frame p = Ok p.
Proof. unfold to_frame. intros -> ->. rewrite Nat.eqb_refl. reflexivity. Qed.
Lemma gen_length c rc dr s e f d ru p : generate_date_schedule c rc dr s e f d ru = Ok p -> exists n, length (fst p) = S n /\ length (snd p) = S n.
Proof. intros E. destruct (generate_frame _ _ _ _ _ _ _ _ _ E) as (a & b & mid & R). unfold runs_through in R. rewrite R. exists (length mid). cbn [fst snd]. rewrite app_length. split; cbn [length]; lia. Qed.

Definition first_case (x : date) (pf pb : schedule) : result (stub * list direction) :=
  match place_first x pf pb with OnGrid => Ok (StubNone, [Forward]) | AtShort => Ok (StubShort, [Backward]) | AtLong => Ok (StubLong, [Backward]) | Elsewhere => Ok (StubDefinedFirst, []) | NoSecond => Err IndexError end.
Definition last_case (y : date) (pf pb : schedule) : result (stub * list direction) :=
  match place_last y pf pb with OnGrid => Ok (StubNone, [Backward]) | AtShort => Ok (StubShort, [Forward]) | AtLong => Ok (StubLong, [Forward]) | Elsewhere => Ok (StubDefinedLast, []) | NoSecond => Err IndexError end.
Lemma match_first_case x pf pb fs n m : length (snd pf) = S n -> length (snd pb) = S m -> match_first (Some x) pb pf fs = first_case x pf pb.
Proof.
  intros A B. unfold match_first, first_case, place_first, place_of, py_nth. destruct (snd pf) as [|a r]; [discriminate|]. destruct (snd pb) as [|b t]; [discriminate|]. cbn [nth_error bind].
  destruct (x =? a); [reflexivity|]. destruct (x =? b); [reflexivity|]. destruct t as [|b1 t]; cbn [nth_error bind]; [reflexivity|]. destruct (x =? b1); reflexivity.
Qed.
Lemma match_last_case x pf pb ls n m : length (fst pf) = S n -> length (fst pb) = S m -> match_last (Some x) pb pf ls = last_case x pf pb.
Proof.
  intros A B. unfold match_last, last_case, place_last, place_of, py_nth_last, py_nth. rewrite <- rev_length in A, B. destruct (rev (fst pf)) as [|a r]; [discriminate|]. destruct (rev (fst pb)) as [|b t]; [discriminate|]. cbn [nth_error bind].
  destruct (x =? b); [reflexivity|]. destruct (x =? a); [reflexivity|]. destruct r as [|b1 r]; cbn [nth_error bind]; [reflexivity|]. destruct (x =? b1); reflexivity.
Qed.

Section Plan.
  Variables (c : calendar) (rc : roll_conv) (dr : day_roll) (f : freq) (ru : bool).
  Notation gen := (fun a b d => generate_date_schedule c rc dr a b f d ru).
  Lemma by_dates s e fpe lps fs ls pf pb : gen s e Forward = Ok pf -> gen s e Backward = Ok pb -> fpe <> None \/ lps <> None ->
    bind (schedule_by_dates c rc dr s e f fpe lps fs ls ru) to_frame = carry_out gen s e (given fpe) (given lps) pf pb (plan_of fpe lps fs ls pf pb).
  Proof.
    intros Ef Eb Some_. destruct (gen_length _ _ _ _ _ _ _ _ _ Ef) as (n & F1 & F2). destruct (gen_length _ _ _ _ _ _ _ _ _ Eb) as (m & B1 & B2).
    assert (LF : bind (merge_last pf) to_frame = merge_last_spec pf) by (apply (frame_last _ n); assumption). assert (LB : bind (merge_first pb) to_frame = merge_first_spec pb) by (apply (frame_first _ m); assumption).
    assert (IF : to_frame pf = Ok pf) by (apply (frame_id _ (S n)); assumption). assert (IB : to_frame pb = Ok pb) by (apply (frame_id _ (S m)); assumption).
    assert (FF : forall x (mg : bool), bind (let* p := gen x e Forward in let q := (s :: fst p, x :: snd p) in if mg then merge_last q else Ok q) to_frame = let* p := gen x e Forward in let q := (s :: fst p, x :: snd p) in if mg then merge_last_spec q else Ok q).
    { intros x mg. destruct (gen x e Forward) as [p|] eqn:E; [|reflexivity]. cbn [bind]. destruct (gen_length _ _ _ _ _ _ _ _ _ E) as (k & K1 & K2). cbv zeta. destruct mg; [apply (frame_last _ (S k)); cbn; congruence|]. cbn [bind]. apply (frame_id _ (S (S k))); cbn; congruence. }
    assert (TL : forall y (mg : bool), bind (let* p := gen s y Backward in let q := (fst p ++ [y], snd p ++ [e]) in if mg then merge_first q else Ok q) to_frame = let* p := gen s y Backward in let q := (fst p ++ [y], snd p ++ [e]) in if mg then merge_first_spec q else Ok q).
    { intros y mg. destruct (gen s y Backward) as [p|] eqn:E; [|reflexivity]. cbn [bind]. destruct (gen_length _ _ _ _ _ _ _ _ _ E) as (k & K1 & K2). cbv zeta. destruct mg; [apply (frame_first _ (S k)); cbn; rewrite app_length; cbn; lia|]. cbn [bind]. apply (frame_id _ (S (S k))); cbn; rewrite app_length; cbn; lia. }
    assert (BT : forall x y, bind (let* p := gen x y Backward in Ok (s :: fst p ++ [y], x :: snd p ++ [e])) to_frame = let* p := gen x y Backward in Ok (s :: fst p ++ [y], x :: snd p ++ [e])).
    { intros x y. destruct (gen x y Backward) as [p|] eqn:E; [|reflexivity]. cbn [bind]. destruct (gen_length _ _ _ _ _ _ _ _ _ E) as (k & K1 & K2). apply (frame_id _ (S (S (S k)))); cbn; rewrite app_length; cbn; lia. }
    unfold schedule_by_dates. cbn beta in Ef, Eb. rewrite Ef, Eb. cbn [bind].
    destruct fpe as [x|], lps as [y|]; [| | |destruct Some_; congruence].
    - rewrite (match_first_case x pf pb fs n m F2 B2), (match_last_case y pf pb ls n m F1 B1). unfold first_case, last_case, plan_of, given.
      destruct (place_first x pf pb); cbn [bind]; [| | | |destruct (place_last y pf pb); reflexivity]; destruct (place_last y pf pb); cbn [bind]; try reflexivity;
        cbn [fst snd default_first default_last stub_eqb andb negb bind the_date guard app one_direction forallb direction_eqb plan_both carry_out merged_schedule];
        first [exact LF | exact LB | exact IF | exact IB | exact (FF x true) | exact (FF x false) | exact (TL y true) | exact (TL y false) | exact (BT x y)].
    - rewrite (match_first_case x pf pb fs n m F2 B2). unfold first_case, plan_of, given. cbn [match_last].
      destruct (place_first x pf pb); cbn [bind]; [| | | |reflexivity]; destruct ls;
        cbn [fst snd default_first default_last stub_eqb andb negb bind the_date guard app one_direction forallb direction_eqb plan_first carry_out merged_schedule is_long none_or_default market_convention];
        first [reflexivity | exact LF | exact LB | exact IF | exact IB | exact (FF x true) | exact (FF x false)].
    - rewrite (match_last_case y pf pb ls n m F1 B1). unfold last_case, plan_of, given. cbn [match_first].
      cbn [bind]. destruct (place_last y pf pb); cbn [bind]; [| | | |reflexivity]; destruct fs;
        cbn [fst snd default_first default_last stub_eqb andb negb bind the_date guard app one_direction forallb direction_eqb plan_last carry_out merged_schedule is_long none_or_default market_convention];
        first [reflexivity | exact LF | exact LB | exact IF | exact IB | exact (TL y true) | exact (TL y false)].
  Qed.
End Plan.

(* Dates outside the schedule are refused. The first period may end with the schedule and the last may start with it: one period. Equal dates: two. *)
Theorem C151_bounds : forall c rc dr s e f fpe lps fs ls ru,
  (e <= s -> make_schedule c rc dr s e f fpe lps fs ls ru = Err ValueError) /\
  (s < e -> (exists x, fpe = Some x /\ ~ (s < x <= e)) \/ (exists y, lps = Some y /\ ~ (s <= y < e)) -> make_schedule c rc dr s e f fpe lps fs ls ru = Err AssertionError) /\
  (s < e -> (forall x, fpe = Some x -> s < x <= e) -> (forall y, lps = Some y -> s <= y < e) -> f = ZeroCoupon \/ fpe = Some e \/ lps = Some s -> make_schedule c rc dr s e f fpe lps fs ls ru = Ok ([s], [e])) /\
  (forall x, s < x < e -> f <> ZeroCoupon -> fpe = Some x -> lps = Some x -> make_schedule c rc dr s e f fpe lps fs ls ru = Ok ([s; x], [x; e])).
Proof.
  intros. unfold make_schedule. split; [intros L; rewrite (proj2 (Z.leb_le e s) L); reflexivity|]. split; [|split].
  - intros L. rewrite (proj2 (Z.leb_gt e s) L). assert (G : forall y, ~ (s <= y < e) -> (s <=? y) && (y <? e) = false) by (intros; destruct (Z.leb_spec s y), (Z.ltb_spec y e); cbn; auto; lia).
    intros [(x & -> & N)|(y & -> & N)].
    + replace ((s <? x) && (x <=? e)) with false by (destruct (Z.leb_spec x e), (Z.ltb_spec s x); cbn; auto; lia). reflexivity.
    + rewrite (G y N). destruct fpe as [x|]; [|reflexivity]. destruct ((s <? x) && (x <=? e)); reflexivity.
  - intros L F1 L1 C. rewrite (proj2 (Z.leb_gt e s) L).
    assert (G1 : forall x, fpe = Some x -> (s <? x) && (x <=? e) = true) by (intros x H; specialize (F1 x H); destruct (Z.leb_spec x e), (Z.ltb_spec s x); cbn; auto; lia).
    assert (G2 : forall x, lps = Some x -> (s <=? x) && (x <? e) = true) by (intros x H; specialize (L1 x H); destruct (Z.leb_spec s x), (Z.ltb_spec x e); cbn; auto; lia).
    assert (NF : forall b : bool, b = match f with ZeroCoupon => true | _ => false end || opt_eqb fpe (Some e) || opt_eqb lps (Some s) -> b = true) by (intros b ->; destruct C as [-> |[-> | ->]]; cbn [opt_eqb]; [reflexivity| |]; rewrite Z.eqb_refl, ?orb_true_r; reflexivity).
    destruct fpe as [x|], lps as [y|]; rewrite ?(G1 _ eq_refl), ?(G2 _ eq_refl); cbn [guard bind]; match goal with |- context [if ?b then Ok ([s], [e]) else _] => rewrite (NF b eq_refl) end; reflexivity.
  - intros x X NZ -> ->. rewrite (proj2 (Z.leb_gt e s)) by lia. replace ((s <? x) && (x <=? e)) with true by (destruct (Z.leb_spec x e), (Z.ltb_spec s x); cbn; auto; lia). replace ((s <=? x) && (x <? e)) with true by (destruct (Z.leb_spec s x), (Z.ltb_spec x e); cbn; auto; lia).
    cbn [guard bind opt_eqb]. replace (x =? e) with false by (symmetry; apply Z.eqb_neq; lia). replace (x =? s) with false by (symmetry; apply Z.eqb_neq; lia). rewrite Z.eqb_refl. destruct f; try congruence; reflexivity.
Qed.
(* Otherwise the two generated schedules and the places of the dates on them decide. *)
Theorem C151_plan : forall c rc dr s e f fpe lps fs ls ru forward backward, s < e -> f <> ZeroCoupon -> fpe <> None \/ lps <> None -> fpe <> lps ->
  (forall x, fpe = Some x -> s < x < e) -> (forall y, lps = Some y -> s < y < e) ->
  generate_date_schedule c rc dr s e f Forward ru = Ok forward -> generate_date_schedule c rc dr s e f Backward ru = Ok backward ->
  make_schedule c rc dr s e f fpe lps fs ls ru =
  carry_out (fun a b d => generate_date_schedule c rc dr a b f d ru) s e (given fpe) (given lps) forward backward (plan_of fpe lps fs ls forward backward).
Proof.
  intros c rc dr s e f fpe lps fs ls ru pf pb L NZ Some_ Ne F1 L1 Ef Eb. rewrite <- (by_dates c rc dr f ru s e fpe lps fs ls pf pb Ef Eb Some_).
  unfold make_schedule. rewrite (proj2 (Z.leb_gt e s) L).
  assert (G1 : forall x, fpe = Some x -> (s <? x) && (x <=? e) = true /\ (x =? e) = false) by (intros x H; specialize (F1 x H); destruct (Z.leb_spec x e), (Z.ltb_spec s x), (Z.eqb_spec x e); cbn; auto; lia).
  assert (G2 : forall x, lps = Some x -> (s <=? x) && (x <? e) = true /\ (x =? s) = false) by (intros x H; specialize (L1 x H); destruct (Z.leb_spec s x), (Z.ltb_spec x e), (Z.eqb_spec x s); cbn; auto; lia).
  assert (NF : match f with ZeroCoupon => true | _ => false end = false) by (destruct f; congruence).
  destruct fpe as [x|], lps as [y|].
  - destruct (G1 x eq_refl) as [-> H1], (G2 y eq_refl) as [-> H2]. cbn [guard bind opt_eqb]. rewrite NF, H1, H2. cbn [orb]. replace (x =? y) with false; [reflexivity|]. symmetry. apply Z.eqb_neq. intros ->. apply Ne. reflexivity.
  - destruct (G1 x eq_refl) as [-> H1]. cbn [guard bind opt_eqb]. rewrite NF, H1. reflexivity.
  - destruct (G2 y eq_refl) as [-> H2]. cbn [guard bind opt_eqb]. rewrite NF, H2. reflexivity.
  - exfalso. apply Ne. reflexivity.
Qed.

(* With both dates given: when each is kept. *)
Theorem C151_both_kept : forall c rc dr s e f x y fs ls forward backward p, s < x < e -> s < y < e -> x <> y -> f <> ZeroCoupon ->
  generate_date_schedule c rc dr s e f Forward false = Ok forward -> generate_date_schedule c rc dr s e f Backward false = Ok backward ->
  make_schedule c rc dr s e f (Some x) (Some y) fs ls false = Ok p ->
  let first := place_first x forward backward in let last := place_last y forward backward in
  ((first = Elsewhere /\ last <> AtLong) \/ (first <> Elsewhere /\ last <> Elsewhere) -> hd_error (snd p) = Some x) /\
  ((last = Elsewhere /\ first <> AtLong) \/ (first <> Elsewhere /\ last <> Elsewhere) -> hd_error (rev (fst p)) = Some y).
Proof.
  intros c rc dr s e f x y fs ls pf pb p X Y Ne NZ Ef Eb E. cbv zeta.
  rewrite (C151_plan c rc dr s e f (Some x) (Some y) fs ls false pf pb) in E; try assumption; try lia; [|left; discriminate|congruence|intros z H; injection H as <-; assumption|intros z H; injection H as <-; assumption].
  cbn [plan_of given] in E. destruct (generate_spans _ _ _ _ _ _ _ _ Ef) as (mf & Hf). destruct (generate_spans _ _ _ _ _ _ _ _ Eb) as (mb & Hb). unfold runs_through in Hf, Hb.
  assert (P1 : match place_first x pf pb with OnGrid => hd_error (snd pf) = Some x | AtShort => hd_error (snd pb) = Some x | AtLong => exists b m, mb = b :: x :: m | _ => True end).
  { rewrite Hf, Hb. unfold place_first, place_of. cbn [fst snd]. destruct mf as [|a mf'], mb as [|b mb']; cbn [app];
      repeat match goal with |- context [if ?u =? ?v then _ else _] => destruct (Z.eqb_spec u v) as [->|]; cbn; try reflexivity; try exact I end; try (exfalso; lia);
      (destruct mb' as [|b2 mb']; cbn [app]; match goal with |- context [x =? ?v] => destruct (Z.eqb_spec x v) end; try exact I; [exfalso; lia|subst; eauto]). }
  assert (P2 : match place_last y pf pb with OnGrid => hd_error (rev (fst pb)) = Some y | AtShort => hd_error (rev (fst pf)) = Some y | AtLong => exists b m, mf = m ++ [y; b] | _ => True end).
  { rewrite Hf, Hb. unfold place_last, place_of. cbn [fst snd]. clear P1 Hf Hb E. destruct mf as [|a mf' _] using rev_ind; destruct mb as [|b mb' _] using rev_ind; change (s :: mf' ++ [a]) with ((s :: mf') ++ [a]) || idtac; try (change (s :: mb' ++ [b]) with ((s :: mb') ++ [b])); rewrite ?rev_app_distr; cbn [rev app];
      repeat match goal with |- context [if ?u =? ?v then _ else _] => destruct (Z.eqb_spec u v) as [->|]; cbn; try reflexivity; try exact I end; try (exfalso; lia);
      (destruct mf' as [|a2 mf' _] using rev_ind; [cbn; destruct (Z.eqb_spec y s) as [->|]; [exfalso; lia|exact I]|]; rewrite rev_app_distr; cbn [rev app]; destruct (Z.eqb_spec y a2) as [->|]; [exists a, mf'; rewrite <- app_assoc; reflexivity|exact I]). }
  assert (H1 : forall q, bind (generate_date_schedule c rc dr x e f Forward false) (fun p0 => Ok (s :: fst p0, x :: snd p0)) = Ok q -> hd_error (snd q) = Some x).
  { intros q H. apply bind_ok in H as (p0 & _ & H). injection H as <-. reflexivity. }
  assert (H2 : forall q, bind (generate_date_schedule c rc dr s y f Backward false) (fun p0 => Ok (fst p0 ++ [y], snd p0 ++ [e])) = Ok q -> hd_error (rev (fst q)) = Some y).
  { intros q H. apply bind_ok in H as (p0 & _ & H). injection H as <-. cbn [fst]. rewrite rev_app_distr. reflexivity. }
  destruct (place_first x pf pb), (place_last y pf pb); cbn [plan_both carry_out merged_schedule] in E; try discriminate E;
    try (split; (intros [[? ?]|[? ?]]; try congruence; first [apply H1; exact E | apply H2; exact E])).
  - destruct P2 as (b & m & ->). rewrite Hf in E, P1. cbn [snd] in P1.
    destruct (merged_last _ s (m ++ [y]) b e (eq_refl : runs_through (s :: (m ++ [y]) ++ [b], ((m ++ [y]) ++ [b]) ++ [e]) s ((m ++ [y]) ++ [b]) e)) as (q & Q & R). rewrite <- app_assoc in Q. cbn [app] in Q. assert (E' : Ok q = Ok p) by (etransitivity; [symmetry; exact Q|exact E]). injection E' as <-.
    rewrite R. cbn [fst snd]. split; intros _; [destruct m; cbn in *; exact P1|]. change (s :: m ++ [y]) with ((s :: m) ++ [y]). rewrite rev_app_distr. reflexivity.
  - destruct P1 as (b & m & ->). rewrite Hb in E, P2. cbn [fst] in P2. cbn [merge_first_spec] in E. injection E as <-. cbn [fst snd app hd_error]. split; intros _; [reflexivity|]. rewrite <- P2. cbn [rev app]. rewrite <- !app_assoc. cbn [app]. assert (G : forall (l : list Z) u v w, hd_error (l ++ [u; w]) = hd_error (l ++ [u; v; w])) by (intros [|? ?]; reflexivity). exact (G (rev m) x b s).
  - apply bind_ok in E as (p0 & _ & E). injection E as <-. cbn [fst snd]. split; intros _; [reflexivity|]. cbn [rev]. rewrite rev_app_distr. reflexivity.
Qed.

(* quarterly from 15 January to 20 December 2024: forwards the first period ends on 15 April, backwards the last one starts on 20 September *)
Example conflict_case : place_first (mk 2024 4 15) ([mk 2024 1 15; mk 2024 4 15; mk 2024 7 15; mk 2024 10 15], [mk 2024 4 15; mk 2024 7 15; mk 2024 10 15; mk 2024 12 20]) ([mk 2024 1 15; mk 2024 3 20; mk 2024 6 20; mk 2024 9 20], [mk 2024 3 20; mk 2024 6 20; mk 2024 9 20; mk 2024 12 20]) = OnGrid /\
  make_schedule default_calendar ModFollowing DayUnadjusted (mk 2024 1 15) (mk 2024 12 20) Quarterly (Some (mk 2024 4 15)) (Some (mk 2024 9 20)) StubDefault StubDefault false = Err AssertionError.
Proof. vm_compute. auto. Qed.
(* two dates off both schedules are both kept; a date inside a single period is an error *)
Example between_case : make_schedule default_calendar ModFollowing DayUnadjusted (mk 2024 1 15) (mk 2024 12 20) Quarterly (Some (mk 2024 2 9)) (Some (mk 2024 11 5)) StubDefault StubDefault false =
  Ok ([mk 2024 1 15; mk 2024 2 9; mk 2024 5 6; mk 2024 8 5; mk 2024 11 5], [mk 2024 2 9; mk 2024 5 6; mk 2024 8 5; mk 2024 11 5; mk 2024 12 20]).
Proof. vm_compute. auto. Qed.
Example single_case : make_schedule default_calendar ModFollowing DayUnadjusted (mk 2024 1 15) (mk 2024 3 1) Quarterly (Some (mk 2024 2 1)) None StubDefault StubDefault false = Err IndexError.
Proof. vm_compute. auto. Qed.

Definition all_theorems := (C151_bounds, C151_plan, C151_both_kept).
Print Assumptions all_theorems.
