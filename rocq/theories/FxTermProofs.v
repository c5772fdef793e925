(* Proofs for FX term structure dates, forward curve interpolation and currency pairs. *)
From Coq Require Import String Ascii ZArith QArith Qreals Reals Lra Lia List Bool Permutation Sorted.
From Verif Require Import Base Date BusDayModel BusDaySpec BusDayProofs TenorModel TenorSpec TenorProofs CurveModel CurveProofs BootModel BootProofs FxModel FxSpec FxNameProofs FxProofs SmileProofs.
Import ListNotations.
Open Scope string_scope.

(* ---- dates ---- *)
Lemma row_spec c spot cal x : wf_calendar cal -> (0 <= spot)%Z ->
  let r := fx_row_dates {| x_tenor := clean_tenor (fst x); x_rate_set := fst (snd x); x_delivery := snd (snd x) |} c spot cal in
  (datable x -> exists row, r = Ok row /\ dated_row c spot cal x row) /\ (~ datable x -> exists e, r = Err e).
Proof.
  intros W P r. subst r. destruct x as (t & rs & dl). unfold fx_row_dates, datable, dated_row. cbn [fst snd x_delivery x_rate_set x_tenor]. destruct dl as [dl|].
  - split; [|intros H; exfalso; apply H; left; discriminate]. intros _. eexists. split; [reflexivity|]. cbn. auto.
  - destruct rs as [rs|].
    + split; [intros [H|(H & _)]; [contradiction|discriminate]|]. intros _. eexists. reflexivity.
    + split.
      * intros [H|(_ & a & b & M)]; [contradiction|]. apply tenor_accepts_iff in M as T. rewrite T. cbn [bind].
        destruct (workday_count cal (add_offset c {| off_days := a; off_months := b |}) spot W P) as (s & e & F & E & B & L & N).
        rewrite busday_offset_0. cbn [roll]. rewrite F. cbn [bind]. unfold workday in E. rewrite E. cbn [bind]. eexists. split; [reflexivity|]. cbn. split; [reflexivity|]. split; [reflexivity|].
        exists a, b, s, e. split; [exact M|]. split; [reflexivity|]. split; [reflexivity|]. split; [apply following_iff; assumption|]. split; [exact B|]. split; [exact L|]. lia.
      * intros H. destruct (tenor_dichotomy (clean_tenor t)) as [M|E]; [exfalso; apply H; right; auto|]. rewrite E. eexists. reflexivity.
Qed.
Lemma datable_dec x : datable x \/ ~ datable x.
Proof.
  destruct x as (t & rs & [dl|]); [left; left; discriminate|]. destruct rs as [rs|]; [right; intros [H|(H & _)]; [apply H; reflexivity|discriminate]|].
  destruct (tenor_dichotomy (clean_tenor t)) as [M|E]; [left; right; auto|]. right. intros [H|(_ & a & b & M)]; [apply H; reflexivity|]. apply tenor_accepts_iff in M. cbn [fst] in M. rewrite E in M. discriminate.
Qed.
Lemma rows_ok c spot cal l : wf_calendar cal -> (0 <= spot)%Z -> (forall x, In x l -> datable x) ->
  exists rows, Forall2 (dated_row c spot cal) l rows /\
    sequence (map (fun x => fx_row_dates {| x_tenor := fst x; x_rate_set := fst (snd x); x_delivery := snd (snd x) |} c spot cal) (map (fun x => (clean_tenor (fst x), snd x)) l)) = Ok rows.
Proof.
  intros W P. induction l as [|x l IH]; intros D; [exists []; split; [constructor|reflexivity]|].
  destruct (IH (fun y I => D y (or_intror I))) as (rows & F & E). destruct (proj1 (row_spec c spot cal x W P) (D x (or_introl eq_refl))) as (r & E1 & R1).
  exists (r :: rows). split; [constructor; assumption|]. cbn [map sequence fst snd]. rewrite E1. cbn [bind]. rewrite E. reflexivity.
Qed.
Lemma rows_bad c spot cal l : wf_calendar cal -> (0 <= spot)%Z -> (exists x, In x l /\ ~ datable x) ->
  exists e, sequence (map (fun x => fx_row_dates {| x_tenor := fst x; x_rate_set := fst (snd x); x_delivery := snd (snd x) |} c spot cal) (map (fun x => (clean_tenor (fst x), snd x)) l)) = Err e.
Proof.
  intros W P. induction l as [|x l IH]; intros (y & I & N); [contradiction|]. cbn [map sequence fst snd]. destruct (datable_dec x) as [D|D].
  - destruct (proj1 (row_spec c spot cal x W P) D) as (r & E1 & _). rewrite E1. cbn [bind]. destruct I as [->|I]; [contradiction|]. destruct IH as (e & ->); [eauto|]. eexists. reflexivity.
  - destruct (proj2 (row_spec c spot cal x W P) D) as (e & E1). rewrite E1. eexists. reflexivity.
Qed.
Lemma combine_map_l {A B C} (f : A -> B) (l : list A) (m : list C) : combine (map f l) m = map (fun x => (f (fst x), snd x)) (combine l m).
Proof. revert m. induction l as [|a l IH]; intros [|b m]; try reflexivity. cbn. rewrite IH. reflexivity. Qed.
Lemma helper_unfold ts dates c spot cal : fx_term_structure_helper (Some (map Some ts)) dates c spot cal =
  bind (sequence (map (fun x => fx_row_dates {| x_tenor := fst x; x_rate_set := fst (snd x); x_delivery := snd (snd x) |} c spot cal) (map (fun x => (clean_tenor (fst x), snd x)) (combine ts dates))))
    (fun rows => Ok (sort_by delivery_key rows)).
Proof.
  unfold fx_term_structure_helper. cbn [bind]. rewrite map_map. assert (E : sequence (map (fun x => Ok (clean_tenor x)) ts) = Ok (map clean_tenor ts)) by (apply sequence_ok; rewrite map_map; reflexivity).
  rewrite E. cbn [bind]. rewrite combine_map_l. reflexivity.
Qed.
Theorem helper_ok ts dates c spot cal : wf_calendar cal -> (0 <= spot)%Z -> (forall x, In x (combine ts dates) -> datable x) ->
  exists made rows, fx_term_structure_helper (Some (map Some ts)) dates c spot cal = Ok rows /\ Forall2 (dated_row c spot cal) (combine ts dates) made /\ Permutation made rows /\ by_delivery rows.
Proof.
  intros W P D. rewrite helper_unfold. destruct (rows_ok c spot cal (combine ts dates) W P D) as (made & F & ->). cbn [bind].
  exists made. eexists. split; [reflexivity|]. split; [exact F|]. assert (PM : Permutation (sort_by delivery_key made) made) by apply sort_by_perm. split; [symmetry; exact PM|].
  assert (HD : forall r, In r (sort_by delivery_key made) -> exists d, x_delivery r = Some d).
  { intros r I. apply (Permutation_in _ PM) in I. clear -F I. induction F as [|x r' l m R F IH]; [contradiction|]. destruct I as [->|I]; [|exact (IH I)].
    destruct R as (_ & R). destruct (snd (snd x)); [destruct R; eauto|]. destruct R as (_ & a & b & rs & dl & _ & _ & E & _). eauto. }
  assert (S := sort_by_sorted delivery_key made). revert HD S. generalize (sort_by delivery_key made) as l. clear. unfold by_delivery. intros l HD S.
  induction S as [|r l S IH O]; [constructor|]. constructor; [|apply IH; intros s I; apply HD; right; exact I].
  apply Forall_forall. intros s I. rewrite Forall_forall in O. specialize (O s I). destruct (HD r (or_introl eq_refl)) as (d & E). destruct (HD s (or_intror I)) as (e & E').
  unfold delivery_key in O. rewrite E, E' in O. eauto.
Qed.
Theorem helper_fails ts dates c spot cal : wf_calendar cal -> (0 <= spot)%Z -> (exists x, In x (combine ts dates) /\ ~ datable x) ->
  exists e, fx_term_structure_helper (Some (map Some ts)) dates c spot cal = Err e.
Proof. intros W P B. rewrite helper_unfold. destruct (rows_bad c spot cal _ W P B) as (e & ->). eexists. reflexivity. Qed.
Theorem helper_needs_tenors dates c spot cal : fx_term_structure_helper None dates c spot cal = Err KeyError.
Proof. reflexivity. Qed.
(* a missing tenor *)
Theorem helper_needs_every_tenor ts dates c spot cal : In None ts -> fx_term_structure_helper (Some ts) dates c spot cal = Err TypeError.
Proof.
  intros I. unfold fx_term_structure_helper. cbn [bind].
  assert (E : sequence (map (fun t => match t with Some s => Ok (clean_tenor s) | None => Err TypeError end) ts) = Err TypeError).
  { induction ts as [|[t|] ts IH]; [contradiction| |reflexivity]. destruct I as [I|I]; [discriminate|]. cbn [map sequence bind]. rewrite (IH I). reflexivity. }
  rewrite E. reflexivity.
Qed.

(* ---- interpolation ---- *)
Lemma value_at_iff curve d y : NoDup (map fst curve) -> value_at curve d = Some y <-> quoted curve d y.
Proof.
  unfold value_at, quoted. induction curve as [|(x, v) l IH]; intros N; [split; [discriminate|contradiction]|]. inversion N as [|? ? N1 N2]; subst. cbn [find fst].
  destruct (Z.eqb_spec x d) as [->|E].
  - cbn [snd]. split; [intros ->; left; reflexivity|]. intros [H|I]; [congruence|]. exfalso. apply N1. apply in_map_iff. exists (d, Some y). auto.
  - rewrite (IH N2). split; [right; assumption|]. intros [H|I]; [congruence|exact I].
Qed.
Definition valued (s : list (date * option R)) (x : date) (y : R) : Prop := In (x, Some y) s.
Lemma last_valid_spec (s : list (date * option R)) (d : date) : StronglySorted (fun p q => (fst p < fst q)%Z) s -> forall acc,
  match last_valid acc s d with
  | Some (a, ya) => (valued s a ya /\ (a <= d)%Z /\ forall x y, valued s x y -> (x <= d)%Z -> (x <= a)%Z) \/ (acc = Some (a, ya) /\ forall x y, valued s x y -> (d < x)%Z)
  | None => acc = None /\ forall x y, valued s x y -> (d < x)%Z
  end.
Proof.
  induction 1 as [|(x, v) s S IH O]; intros acc.
  - cbn. destruct acc as [(a, ya)|]; [right|]; (split; [reflexivity|]; intros ? ? []).
  - rewrite Forall_forall in O. cbn [last_valid]. destruct (Z.leb_spec x d) as [L|L].
    + specialize (IH (match v with Some y => Some (x, y) | None => acc end)). destruct (last_valid _ s d) as [(a, ya)|].
      * destruct IH as [(V & A & M)|(E & M)].
        -- left. split; [right; exact V|]. split; [exact A|]. intros z y [Z|I] Lz; [injection Z as <- ->; specialize (O _ V); cbn in O; lia|exact (M z y I Lz)].
        -- destruct v as [y|].
           ++ injection E as <- <-. left. split; [left; reflexivity|]. split; [exact L|]. intros z y' [Z|I] Lz; [injection Z as <- _; lia|]. specialize (M z y' I). lia.
           ++ right. split; [exact E|]. intros z y [Z|I]; [discriminate|exact (M z y I)].
      * destruct IH as (E & M). destruct v as [y|]; [discriminate|]. split; [exact E|]. intros z y [Z|I]; [discriminate|exact (M z y I)].
    + assert (M : forall z y, valued ((x, v) :: s) z y -> (d < z)%Z) by (intros z y [Z|I]; [injection Z as <- _; exact L|specialize (O _ I); cbn in O; lia]).
      destruct acc as [(a, ya)|]; [right|]; auto.
Qed.
Lemma first_valid_spec (s : list (date * option R)) (d : date) : StronglySorted (fun p q => (fst p < fst q)%Z) s ->
  match first_valid s d with
  | Some (b, yb) => valued s b yb /\ (d <= b)%Z /\ forall x y, valued s x y -> (d <= x)%Z -> (b <= x)%Z
  | None => forall x y, valued s x y -> (x < d)%Z
  end.
Proof.
  induction 1 as [|(x, v) s S IH O]; [intros ? ? []|]. rewrite Forall_forall in O. cbn [first_valid]. destruct (Z.leb_spec d x) as [L|L].
  - destruct v as [y|].
    + split; [left; reflexivity|]. split; [exact L|]. intros z y' [Z|I] _; [injection Z as <- _; lia|]. specialize (O _ I). cbn in O. lia.
    + destruct (first_valid s d) as [(b, yb)|].
      * destruct IH as (V & B & M). split; [right; exact V|]. split; [exact B|]. intros z y [Z|I] Lz; [discriminate|exact (M z y I Lz)].
      * intros z y [Z|I]; [discriminate|exact (IH z y I)].
  - destruct (first_valid s d) as [(b, yb)|].
    + destruct IH as (V & B & M). split; [right; exact V|]. split; [exact B|]. intros z y [Z|I] Lz; [injection Z as <- _; lia|exact (M z y I Lz)].
    + intros z y [Z|I]; [injection Z as <- _; exact L|exact (IH z y I)].
Qed.
Lemma insert_date_in d l x : In x (insert_date d l) <-> x = d \/ In x l.
Proof.
  induction l as [|y l IH]; cbn; [intuition|]. destruct (Z.ltb_spec d y); [cbn; intuition|]. destruct (Z.eqb_spec d y) as [->|]; [cbn; intuition|]. cbn. rewrite IH. intuition.
Qed.
Lemma insert_date_sorted d l : StronglySorted Z.lt l -> StronglySorted Z.lt (insert_date d l).
Proof.
  induction 1 as [|y l S IH O]; cbn; [repeat constructor|]. destruct (Z.ltb_spec d y) as [L|L].
  - constructor; [constructor; assumption|]. constructor; [exact L|]. eapply Forall_impl; [|exact O]. intros; lia.
  - destruct (Z.eqb_spec d y) as [->|N]; [constructor; assumption|]. constructor; [exact IH|]. apply Forall_forall. intros z I. apply insert_date_in in I as [->|I]; [lia|]. rewrite Forall_forall in O. exact (O z I).
Qed.
Lemma union_spec l m : StronglySorted Z.lt (union_dates l m) /\ forall x, In x (union_dates l m) <-> In x l \/ In x m.
Proof.
  unfold union_dates. split.
  - generalize (l ++ m)%list as k. induction k as [|x k IH]; [constructor|]. cbn. apply insert_date_sorted, IH.
  - intros x. rewrite <- in_app_iff. generalize (l ++ m)%list as k. induction k as [|y k IH]; [reflexivity|]. cbn [fold_right]. rewrite insert_date_in, IH. cbn. intuition.
Qed.
Lemma has_duplicates_iff l : has_duplicates l = true <-> ~ NoDup l.
Proof.
  induction l as [|x l IH]; [split; [discriminate|intros H; exfalso; apply H; constructor]|]. cbn. rewrite orb_true_iff, IH, existsb_exists. split.
  - intros [(y & I & E)|N] D; inversion D as [|? ? D1 D2]; subst; [apply Z.eqb_eq in E; subst; contradiction|contradiction].
  - intros N. destruct (in_dec Z.eq_dec x l) as [I|I]; [left; exists x; split; [exact I|apply Z.eqb_refl]|]. right. intros D. apply N. constructor; assumption.
Qed.
Lemma find_mapped (g : date -> option R) l d : In d l -> find (fun k => (fst k =? d)%Z) (map (fun x => (x, g x)) l) = Some (d, g d).
Proof. induction l as [|x l IH]; [contradiction|]. intros I. cbn. destruct (Z.eqb_spec x d) as [->|N]; [reflexivity|]. destruct I as [I|I]; [contradiction|exact (IH I)]. Qed.
Lemma Forall2_self {A B} (P : A -> B -> Prop) (f : A -> B) l : (forall x, In x l -> P x (f x)) -> Forall2 P l (map f l).
Proof. induction l as [|x l IH]; intros H; [constructor|]. cbn. constructor; [apply H; left; reflexivity|]. apply IH. intros y I. apply H. right. exact I. Qed.
Theorem interp_ok curve dates flat : NoDup (map fst curve) ->
  exists values, interp_fx_forward_curve curve dates flat = Ok values /\ Forall2 (interpolated curve flat) dates values.
Proof.
  intros N. unfold interp_fx_forward_curve. assert (D : has_duplicates (map fst curve) = false) by (destruct (has_duplicates _) eqn:E; [apply has_duplicates_iff in E; contradiction|reflexivity]).
  rewrite D. cbn [negb guard bind]. eexists. split; [reflexivity|]. destruct (union_spec dates (map fst curve)) as (S & U). set (all := union_dates dates (map fst curve)) in *.
  set (s := map (fun d => (d, value_at curve d)) all).
  assert (SS : StronglySorted (fun p q : date * option R => (fst p < fst q)%Z) s).
  { unfold s. clearbody all. clear -S. induction S as [|x l S IH O]; [constructor|]. cbn. constructor; [exact IH|]. apply Forall_forall. intros p I. apply in_map_iff in I as (y & <- & I). rewrite Forall_forall in O. exact (O y I). }
  assert (V : forall x y, valued s x y <-> quoted curve x y).
  { intros x y. unfold valued, s. rewrite in_map_iff. split.
    - intros (z & E & I). injection E as -> E. apply value_at_iff; assumption.
    - intros Q. exists x. split; [f_equal; apply value_at_iff; assumption|]. apply U. right. apply in_map_iff. exists (x, Some y). split; [reflexivity|exact Q]. }
  assert (A : forall d, In d dates -> In d all) by (intros d I; apply U; auto). clearbody all.
  apply Forall2_self. intros d I. unfold s at 1. rewrite (find_mapped (value_at curve) all d (A d I)). cbn [snd]. destruct (value_at curve d) as [y|] eqn:E.
    - cbn. constructor. apply value_at_iff; assumption.
    - cbn [interpolate_cell]. assert (NQ : forall y, ~ quoted curve d y) by (intros y Q; apply value_at_iff in Q; [congruence|exact N]).
      assert (LV := last_valid_spec s d SS None). assert (FV := first_valid_spec s d SS).
      destruct (last_valid None s d) as [(a, ya)|].
      * destruct LV as [(QA & LA & MA)|(X & _)]; [|discriminate]. apply V in QA. assert (LA' : (a < d)%Z) by (destruct (Z.eq_dec a d) as [->|]; [exfalso; exact (NQ _ QA)|lia]).
        destruct (first_valid s d) as [(b, yb)|].
        -- destruct FV as (QB & LB & MB). apply V in QB. assert (LB' : (d < b)%Z) by (destruct (Z.eq_dec b d) as [->|]; [exfalso; exact (NQ _ QB)|lia]).
           apply ip_between; [assumption|assumption|lia|]. intros x y Q. apply V in Q. destruct (Z.le_gt_cases x d) as [L|L]; [left; exact (MA x y Q L)|right; apply (MB x y Q); lia].
        -- apply ip_after with (a := a); [assumption|assumption|]. intros x y Q. apply V in Q. apply (MA x y Q). specialize (FV x y Q). lia.
      * destruct LV as (_ & ML). destruct (first_valid s d) as [(b, yb)|].
        -- destruct FV as (QB & LB & MB). apply V in QB. apply ip_before with (b := b); [assumption| |].
           ++ apply V in QB. exact (ML _ _ QB).
           ++ intros x y Q. apply V in Q. apply (MB x y Q). specialize (ML x y Q). lia.
        -- apply ip_empty. intros x y Q. apply V in Q. specialize (ML x y Q). specialize (FV x y Q). lia.
Qed.
Theorem interp_duplicates curve dates flat : ~ NoDup (map fst curve) -> interp_fx_forward_curve curve dates flat = Err ValueError.
Proof. intros N. unfold interp_fx_forward_curve. apply has_duplicates_iff in N. rewrite N. reflexivity. Qed.
Ltac spec_all := repeat match goal with
  | H : forall x y, quoted ?c x y -> _, Q : quoted ?c ?x ?y |- _ => let T := type of (H x y Q) in lazymatch goal with _ : T |- _ => fail | _ => pose proof (H x y Q) end
  end.
(* the description determines the value *)
Theorem interpolated_unique curve flat d v w : NoDup (map fst curve) -> interpolated curve flat d v -> interpolated curve flat d w -> v = w.
Proof.
  intros N. assert (U : forall x y y', quoted curve x y -> quoted curve x y' -> y = y') by (intros x y y' A B; apply (value_at_iff _ _ _ N) in A, B; congruence).
  intros V W. destruct V as [y Q|a ya b yb QA QB L M|a ya QA L M|b yb QB L M|M]; destruct W as [y' Q'|a' ya' b' yb' QA' QB' L' M'|a' ya' QA' L' M'|b' yb' QB' L' M'|M'];
    try reflexivity; try (exfalso; eapply M; eassumption); try (exfalso; eapply M'; eassumption);
    spec_all; try (exfalso; lia).
  - f_equal. eapply U; eassumption.
  - assert (a' = a) by lia. assert (b' = b) by lia. subst. rewrite (U _ _ _ QA QA'), (U _ _ _ QB QB'). reflexivity.
  - assert (a' = a) by lia. subst. rewrite (U _ _ _ QA QA'). reflexivity.
  - assert (b' = b) by lia. subst. rewrite (U _ _ _ QB QB'). reflexivity.
Qed.

(* ---- currency pairs ---- *)
Lemma letter_lower a : letter a -> lower_char a <> "/"%char /\ is_blank (lower_char a) = false.
Proof. intros (k & L & [->| ->]); do 26 (destruct k as [|k]; [split; [vm_compute; discriminate|reflexivity]|]); lia. Qed.
Lemma letters_app s t : letters (s ++ t) <-> letters s /\ letters t.
Proof. induction s as [|a s IH]; cbn; [tauto|]. rewrite IH. tauto. Qed.
Lemma lower_app s t : lower (s ++ t) = lower s ++ lower t.
Proof. induction s as [|a s IH]; [reflexivity|]. cbn. rewrite IH. reflexivity. Qed.
Lemma remove_char_app c s t : remove_char c (s ++ t) = remove_char c s ++ remove_char c t.
Proof. induction s as [|a s IH]; [reflexivity|]. cbn. destruct (Ascii.eqb a c); [exact IH|]. cbn. rewrite IH. reflexivity. Qed.
Lemma letters_no_slash s : letters s -> remove_char "/" (lower s) = lower s.
Proof. induction s as [|a s IH]; [reflexivity|]. intros (A & S). cbn. destruct (letter_lower a A) as (N & _). rewrite (proj2 (Ascii.eqb_neq _ _) N). rewrite (IH S). reflexivity. Qed.
Lemma letters_rstrip s : letters s -> rstrip (lower s) = lower s.
Proof. induction s as [|a s IH]; [reflexivity|]. intros (A & S). cbn. rewrite (IH S). destruct (lower s); [|reflexivity]. rewrite (proj2 (letter_lower a A)). reflexivity. Qed.
Lemma letters_strip s : letters s -> strip (lower s) = lower s.
Proof.
  intros L. unfold strip. assert (E : lstrip (lower s) = lower s) by (destruct s as [|a s]; [reflexivity|]; cbn; rewrite (proj2 (letter_lower a (proj1 L))); reflexivity).
  rewrite E. apply letters_rstrip, L.
Qed.
Lemma lower_length s : String.length (lower s) = String.length s.
Proof. induction s as [|a s IH]; [reflexivity|]. cbn. rewrite IH. reflexivity. Qed.
Lemma substring_0 s t : substring 0 (String.length s) (s ++ t) = s.
Proof. induction s as [|a s IH]; [destruct t; reflexivity|]. cbn. rewrite IH. reflexivity. Qed.
Lemma substring_rest s t : substring (String.length s) (String.length t) (s ++ t) = t.
Proof. induction s as [|a s IH]; [|exact IH]. cbn [append String.length]. rewrite <- (TenorProofs.app_nil_r t) at 2. apply substring_0. Qed.
Theorem pair_ok base quote : currency base -> currency quote ->
  validate_ccy_pair (base ++ quote) = Ok (lower base ++ lower quote, lower quote, lower base) /\ validate_ccy_pair (base ++ "/" ++ quote) = Ok (lower base ++ lower quote, lower quote, lower base).
Proof.
  intros (LB & NB) (LQ & NQ).
  assert (E1 : strip (remove_char "/" (lower (base ++ quote))) = lower base ++ lower quote).
  { assert (L : letters (base ++ quote)) by (apply letters_app; auto). rewrite letters_no_slash, letters_strip by exact L. apply lower_app. }
  assert (E2 : strip (remove_char "/" (lower (base ++ "/" ++ quote))) = lower base ++ lower quote).
  { rewrite <- E1. rewrite !lower_app, !remove_char_app. reflexivity. }
  unfold validate_ccy_pair. rewrite E1, E2. rewrite length_app_s, !lower_length, NB, NQ. cbn [Nat.add Nat.eqb Nat.sub].
  assert (F : substring 0 3 (lower base ++ lower quote) = lower base) by (rewrite <- NB, <- lower_length; apply substring_0).
  assert (G : substring 3 3 (lower base ++ lower quote) = lower quote).
  { transitivity (substring (String.length (lower base)) (String.length (lower quote)) (lower base ++ lower quote)); [rewrite !lower_length, NB, NQ; reflexivity|apply substring_rest]. }
  rewrite F, G. auto.
Qed.
Theorem pair_bad s : letters s -> String.length s <> 6%nat -> validate_ccy_pair s = Err AssertionError.
Proof.
  intros L N. unfold validate_ccy_pair. rewrite letters_no_slash, letters_strip by exact L. rewrite lower_length. destruct (Nat.eqb_spec (String.length s) 6); [contradiction|reflexivity].
Qed.

(* ---- conventions ---- *)
Lemma member_iff s l : member s l = true <-> In s l.
Proof. unfold member. rewrite existsb_exists. split; [intros (x & I & E); apply String.eqb_eq in E; subst; exact I|intros I; exists s; split; [exact I|apply String.eqb_refl]]. Qed.

(* ---- the whole pipeline ---- *)
Definition ends (suffix s : string) : bool := substring (String.length s - String.length suffix) (String.length suffix) s =? suffix.
Lemma ends_app d s : ends s (d ++ s) = true.
Proof.
  unfold ends. rewrite length_app_s. replace (String.length d + String.length s - String.length s)%nat with (String.length d) by lia. rewrite substring_rest. apply String.eqb_refl.
Qed.
Lemma side_words_check : forallb (fun w => let '(w, (n, l)) := w in (implb (ends "_delta_put" w) ((l =? "put") && (w =? n ++ "_delta_put"))) && (implb (ends "_delta_call" w) ((l =? "call") && (w =? n ++ "_delta_call")))) call_put_words = true.
Proof. vm_compute. reflexivity. Qed.
Lemma other_words_check : forallb (fun w => negb (ends "_delta_put" w) && negb (ends "_delta_call" w)) (map fst strategy_words ++ atm_neutral_words ++ atm_forward_words) = true.
Proof. vm_compute. reflexivity. Qed.
Lemma snoc_inj a b x y : a ++ String x "" = b ++ String y "" -> x = y.
Proof.
  revert b. induction a as [|u a IH]; intros [|v b]; cbn; intros H; [injection H; auto| | |injection H as _ H; exact (IH b H)].
  - destruct b; discriminate.
  - destruct a; discriminate.
Qed.
Lemma word_no_newline d w : (is_word (d ++ "_delta_put") w = true -> d ++ "_delta_put" = w) /\ (is_word (d ++ "_delta_call") w = true -> d ++ "_delta_call" = w).
Proof.
  split; intros H; apply is_word_iff in H as [H|H]; try exact H; exfalso.
  - change "_delta_put" with ("_delta_pu" ++ String "t" "") in H. rewrite <- app_assoc_s in H. apply snoc_inj in H. discriminate.
  - change "_delta_call" with ("_delta_cal" ++ String "l" "") in H. rewrite <- app_assoc_s in H. apply snoc_inj in H. discriminate.
Qed.
Lemma clean_side d : clean_name (d ++ "_delta_put") = d ++ "_delta_put" /\ clean_name (d ++ "_delta_call") = d ++ "_delta_call".
Proof.
  pose proof side_words_check as C. rewrite forallb_forall in C. pose proof other_words_check as O. rewrite forallb_forall in O.
  assert (G : forall s suffix, suffix = "_delta_put" \/ suffix = "_delta_call" -> s = d ++ suffix -> clean_name s = s).
  { intros s suffix S E.
    assert (W : forall w, is_word s w = true -> s = w) by (intros w H; subst s; destruct (word_no_newline d w) as (P & Q); destruct S as [->| ->]; auto).
    assert (EN : ends suffix s = true) by (subst s; apply ends_app).
    assert (OT : forall w, In w (map fst strategy_words ++ atm_neutral_words ++ atm_forward_words) -> is_word s w = true -> False).
    { intros w I H. specialize (O w I). rewrite <- (W w H) in O. destruct S as [->| ->]; rewrite EN in O; cbn in O; [discriminate|]. rewrite andb_false_r in O. discriminate. }
    unfold clean_name. destruct (match_groups call_put_words s) as [(n, l)|] eqn:M.
    - unfold call_put_words in M. apply (match_some re_call_put) in M as (w & I & H). fold call_put_words in I. specialize (C _ I). cbn in C. rewrite <- (W w H) in C.
      apply andb_true_iff in C as (C1 & C2). destruct S as [->| ->]; rewrite EN in *; cbn [implb] in *.
      + apply andb_true_iff in C1 as (C1 & C3). apply String.eqb_eq in C1, C3. subst l. rewrite C3. reflexivity.
      + apply andb_true_iff in C2 as (C2 & C3). apply String.eqb_eq in C2, C3. subst l. rewrite C3. reflexivity.
    - clear M. destruct (match_groups strategy_words s) as [(n, l)|] eqn:M.
      + unfold strategy_words in M. apply (match_some re_strategy) in M as (w & I & H). fold strategy_words in I. exfalso. apply (OT w); [|exact H]. apply in_app_iff. left. apply in_map_iff. exists (w, (n, l)). auto.
      + destruct (matches atm_neutral_words s) eqn:M1.
        * exfalso. unfold matches in M1. apply existsb_exists in M1 as (w & I & H). apply (OT w); [|exact H]. rewrite !in_app_iff. auto.
        * destruct (matches atm_forward_words s) eqn:M2; [|reflexivity]. exfalso. unfold matches in M2. apply existsb_exists in M2 as (w & I & H). apply (OT w); [|exact H]. rewrite !in_app_iff. auto. }
  split; [exact (G _ "_delta_put" (or_introl eq_refl) eq_refl)|exact (G _ "_delta_call" (or_intror eq_refl) eq_refl)].
Qed.
Lemma clean_columns f : names (clean_vol_quotes_column_names f) = map FxModel.clean_name (names f).
Proof.
  unfold clean_vol_quotes_column_names. rewrite clean_all. unfold names. rewrite map_map. induction f as [|(n, v) f IH]; [reflexivity|]. cbn. f_equal. exact IH.
Qed.
Lemma clean_columns_values f n v : In (n, v) (clean_vol_quotes_column_names f) <-> exists m, In (m, v) f /\ n = FxModel.clean_name m.
Proof.
  unfold clean_vol_quotes_column_names. rewrite clean_all. unfold names. rewrite map_map. induction f as [|(m, u) f IH]; cbn; [split; [contradiction|intros (m & [] & _)]|].
  rewrite IH. split.
  - intros [E|(k & I & E)]; [injection E as <- <-; exists m; auto|exists k; auto].
  - intros (k & [E|I] & ->); [injection E as -> ->; auto|right; eauto].
Qed.
Theorem pipeline f rows ds atm : let g := clean_vol_quotes_column_names f in
  well_formed g rows -> strategies g ds -> In ("atm_delta_neutral", atm) g ->
  exists h details, solve_call_put_quotes g = Ok h /\ get_delta_smile_quote_details (names h) = Ok details /\
    NoDup (map q_name details) /\ (forall c, In c (map q_name details) <-> In c (names h) /\ exists x, smile_quote c x) /\ (forall r, In r details -> detail_of r) /\ in_smile_order details.
Proof.
  intros g W S A. destruct (solve_ok g rows ds atm W S A) as (h & E & N & I).
  assert (C : forall c, In c (names h) -> FxModel.clean_name c = c).
  { intros c J. apply in_names in J as (v & J). apply I in J as [(J & _)|(_ & d & b & r & _ & _ & _ & [(-> & _)|(-> & _)])]; [|apply clean_side..].
    assert (K : In c (names g)) by (apply in_names; eauto). unfold g in K. rewrite clean_columns in K. apply in_map_iff in K as (m & <- & _). apply clean_idempotent. }
  destruct (details_ok (names h) C) as (details & E' & P & D1 & D2 & D3). exists h, details. split; [exact E|]. split; [exact E'|]. split; [|auto].
  apply (Permutation_NoDup (Permutation_sym P)), NoDup_filter, N.
Qed.
Theorem convention_warnings pair : let premium := ["premium_adjusted_spot"; "premium_adjusted_forward"] in let regular := ["regular_spot"; "regular_forward"] in
  (forall k, In k premium -> warns_regular pair k = true <-> In pair ["audusd"; "nzdeur"; "gbpusd"; "nzdusd"]) /\ (forall k, In k regular -> warns_regular pair k = false) /\
  (forall k, In k regular -> warns_premium_adjusted pair k = true <-> contains "usd" pair = true /\ ~ In pair ["audusd"; "gbpusd"; "nzdusd"; "usdaud"; "usdeur"; "usdgbp"; "usdnzd"]) /\
  (forall k, In k premium -> warns_premium_adjusted pair k = false).
Proof.
  intros premium regular. unfold warns_regular, warns_premium_adjusted. split; [|split; [|split]]; intros k I.
  - assert (E : contains "premium_adjusted" k = true) by (destruct I as [<-|[<-|[]]]; reflexivity). rewrite E, andb_true_r. apply member_iff.
  - assert (E : contains "premium_adjusted" k = false) by (destruct I as [<-|[<-|[]]]; reflexivity). rewrite E. apply andb_false_r.
  - assert (E : contains "regular" k = true) by (destruct I as [<-|[<-|[]]]; reflexivity). rewrite E, andb_true_r, andb_true_iff, negb_true_iff.
    assert (M : member pair exempt_pairs = false <-> ~ In pair exempt_pairs) by (rewrite <- member_iff; destruct (member pair exempt_pairs); split; congruence).
    rewrite M. split; intros (A & B).
    + split; [exact B|]. intros J. apply A. cbn in *. tauto.
    + split; [|exact A]. intros J. destruct (String.string_dec pair "nzdeur") as [->|N]; [discriminate A|]. apply B. cbn in *. assert ("nzdeur" <> pair) by congruence. tauto.
  - assert (E : contains "regular" k = false) by (destruct I as [<-|[<-|[]]]; reflexivity). rewrite E. apply andb_false_r.
Qed.
