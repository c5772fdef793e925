From Coq Require Import ZArith String Ascii List Bool Lia.
From Verif Require Import Base BusDayModel TenorModel TenorSpec TenorProofs BootModel EnumModel EnumSpec.
Import ListNotations.
Open Scope string_scope.
Open Scope Z_scope.

(* ---- characters ---- *)
Lemma all_ascii (P : ascii -> bool) : forallb P (map ascii_of_nat (seq 0 256)) = true -> forall a, P a = true.
Proof.
  intros H a. rewrite forallb_forall in H. apply H. rewrite in_map_iff. exists (nat_of_ascii a). split; [apply ascii_nat_embedding|]. apply in_seq. pose proof (nat_ascii_bounded a). lia.
Qed.
Lemma is_blank_iff a : is_blank a = true <-> blank a.
Proof.
  unfold is_blank, blank. split.
  - intros H. exists (nat_of_ascii a). split; [|symmetry; apply ascii_nat_embedding]. apply orb_true_iff in H. rewrite !andb_true_iff, !Nat.leb_le in H. lia.
  - intros (n & B & ->). rewrite nat_ascii_embedding by lia. apply orb_true_iff. rewrite !andb_true_iff, !Nat.leb_le. lia.
Qed.
Lemma is_blank_not a : is_blank a = false <-> ~ blank a.
Proof. rewrite <- is_blank_iff. destruct (is_blank a); split; congruence. Qed.
Lemma blank_lower a : is_blank (lower_char a) = is_blank a.
Proof. apply eqb_true_iff. revert a. apply all_ascii. vm_compute. reflexivity. Qed.
Definition upper_case (a : ascii) : bool := let n := nat_of_ascii a in (65 <=? n)%nat && (n <=? 90)%nat.
Lemma case_pair_iff a b : case_pair a b <-> upper_case a = true /\ lower_char a = b.
Proof.
  unfold case_pair, upper_case, lower_char. split.
  - intros (k & K & -> & ->). rewrite !nat_ascii_embedding by lia. replace ((65 <=? 65 + k)%nat && (65 + k <=? 90)%nat) with true by (symmetry; rewrite andb_true_iff, !Nat.leb_le; lia). split; [reflexivity|]. f_equal. lia.
  - intros [U L]. rewrite U in L. rewrite andb_true_iff, !Nat.leb_le in U. exists (nat_of_ascii a - 65)%nat. split; [lia|]. split; [|rewrite <- L; f_equal; lia]. rewrite <- (ascii_nat_embedding a) at 1. f_equal. lia.
Qed.
Definition norm_char (a : ascii) : ascii := let b := lower_char a in if Ascii.eqb b " " then "_"%char else b.
Lemma same_char_iff a b : same_char a b <-> norm_char a = b.
Proof.
  unfold same_char. setoid_rewrite case_pair_iff. unfold norm_char. destruct (upper_case a) eqn:U.
  - assert (N : Ascii.eqb (lower_char a) " " = false /\ a <> " "%char).
    { assert (H : forall a, implb (upper_case a) (negb (Ascii.eqb (lower_char a) " ") && negb (Ascii.eqb a " ")) = true) by (apply all_ascii; vm_compute; reflexivity).
      specialize (H a). rewrite U in H. apply andb_true_iff in H. rewrite !negb_true_iff in H. destruct H as [H1 H2]. split; [exact H1|]. intros ->. discriminate H2. }
    destruct N as [N1 N2]. rewrite N1. split.
    + intros [[-> _]|[[_ H]|(-> & _ & H)]]; [congruence|exact H|]. exfalso. exact (H _ (conj eq_refl eq_refl)).
    + intros H. right. left. split; [reflexivity|exact H].
  - assert (L : lower_char a = a) by (unfold lower_char; change ((65 <=? nat_of_ascii a)%nat && (nat_of_ascii a <=? 90)%nat) with (upper_case a); rewrite U; reflexivity). rewrite L.
    destruct (Ascii.eqb_spec a " "%char) as [->|N].
    + split; [intros [[_ H]|[[H _]|(_ & H & _)]]; congruence|]. intros <-. left. split; reflexivity.
    + split; [intros [[H _]|[[H _]|(H & _)]]; congruence|]. intros ->. right. right. split; [reflexivity|]. split; [exact N|]. intros c [H _]. congruence.
Qed.

(* ---- trimming ---- *)
Lemma blanks_app a b : blanks (a ++ b) <-> blanks a /\ blanks b.
Proof.
  induction a as [|c a IH]; cbn [append].
  - split; [intros H; split; [constructor|exact H]|tauto].
  - split; [intros H; inversion H; subst; rewrite IH in *; split; [constructor; tauto|tauto]|intros [H1 H2]; inversion H1; subst; constructor; [assumption|]; rewrite IH; tauto].
Qed.
Lemma lstrip_blanks a s : blanks a -> lstrip (a ++ s) = lstrip s.
Proof. intros H. induction H as [|c a C _ IH]; [reflexivity|]. cbn [append lstrip]. rewrite (proj2 (is_blank_iff c) C). exact IH. Qed.
Lemma lstrip_split s : exists a, s = a ++ lstrip s /\ blanks a.
Proof.
  induction s as [|c s (a & E & B)]; [exists ""; split; [reflexivity|constructor]|]. cbn [lstrip]. destruct (is_blank c) eqn:C; [|exists ""; split; [reflexivity|constructor]].
  exists (String c a). split; [cbn; f_equal; exact E|constructor; [apply is_blank_iff; exact C|exact B]].
Qed.
Lemma lstrip_edge s a r : lstrip s = String a r -> ~ blank a.
Proof.
  induction s as [|c s IH]; cbn [lstrip]; [discriminate|]. destruct (is_blank c) eqn:C; [exact IH|]. intros H. injection H as -> _. apply is_blank_not. exact C.
Qed.
Lemma rstrip_blanks b : blanks b -> rstrip b = "".
Proof. intros H. induction H as [|c b C _ IH]; [reflexivity|]. cbn [rstrip]. rewrite IH, (proj2 (is_blank_iff c) C). reflexivity. Qed.
Lemma rstrip_app_blanks s b : blanks b -> rstrip (s ++ b) = rstrip s.
Proof.
  intros H. induction s as [|c s IH]; cbn [append rstrip]; [apply rstrip_blanks; exact H|]. rewrite IH. reflexivity.
Qed.
Lemma rstrip_id s : (forall a r, s = r ++ String a "" -> ~ blank a) -> rstrip s = s.
Proof.
  induction s as [|c s IH]; [reflexivity|]. intros H. cbn [rstrip]. rewrite IH; [|intros a r E; apply (H a (String c r)); cbn; f_equal; exact E]. destruct s as [|d s]; [|reflexivity].
  specialize (H c "" eq_refl). rewrite (proj2 (is_blank_not c) H). reflexivity.
Qed.
Lemma rstrip_split s : exists b, s = rstrip s ++ b /\ blanks b.
Proof.
  induction s as [|c s (b & E & B)]; [exists ""; split; [reflexivity|constructor]|]. cbn [rstrip]. destruct (rstrip s) as [|d r] eqn:R.
  - destruct (is_blank c) eqn:C; [exists (String c s); split; [reflexivity|constructor; [apply is_blank_iff; exact C|rewrite E; exact B]]|exists b; split; [cbn; f_equal; exact E|exact B]].
  - exists b. split; [cbn in *; f_equal; exact E|exact B].
Qed.
Lemma rstrip_edge s a r : rstrip s = r ++ String a "" -> ~ blank a.
Proof.
  revert r. induction s as [|c s IH]; intros r; cbn [rstrip]; [destruct r; discriminate|]. destruct (rstrip s) as [|d t] eqn:R.
  - destruct (is_blank c) eqn:C; [destruct r; discriminate|]. destruct r as [|e r]; cbn; intros H; [injection H as <-; apply is_blank_not; exact C|]. injection H as _ H. destruct r; discriminate.
  - destruct r as [|e r]; cbn; intros H; [discriminate|]. injection H as _ H. exact (IH r H).
Qed.
Lemma rstrip_first s a r : rstrip s = String a r -> exists r', s = String a r'.
Proof. destruct (rstrip_split s) as (b & E & _). intros H. rewrite H in E. exists (r ++ b). exact E. Qed.
Lemma trimmed_iff s t : trimmed s t <-> strip s = t.
Proof.
  unfold trimmed, strip. split.
  - intros ((a & b & -> & A & B) & F & L). rewrite lstrip_blanks by exact A. destruct t as [|c t].
    + cbn [append]. rewrite <- (app_nil_r b), (lstrip_blanks b "" B). reflexivity.
    + cbn [append lstrip]. rewrite (proj2 (is_blank_not c) (F c t eq_refl)). change (String c (t ++ b)) with (String c t ++ b). rewrite rstrip_app_blanks by exact B. apply rstrip_id. exact L.
  - intros <-. destruct (lstrip_split s) as (a & E & A). destruct (rstrip_split (lstrip s)) as (b & E' & B). split; [|split].
    + exists a, b. split; [rewrite <- E'; exact E|split; assumption].
    + intros c r H. destruct (rstrip_first _ _ _ H) as (r' & H'). exact (lstrip_edge _ _ _ H').
    + intros c r H. exact (rstrip_edge _ _ _ H).
Qed.

Lemma strip_idem s : strip (strip s) = strip s.
Proof.
  apply trimmed_iff. destruct (proj2 (trimmed_iff s (strip s)) eq_refl) as (_ & F & L). split; [|split; assumption]. exists "", "". split; [cbn; symmetry; apply app_nil_r|]. split; constructor.
Qed.
Lemma lower_idem s : lower (lower s) = lower s.
Proof.
  induction s as [|a s IH]; [reflexivity|]. cbn [lower]. rewrite IH. f_equal. apply Ascii.eqb_eq. revert a. apply all_ascii. vm_compute. reflexivity.
Qed.
Lemma lstrip_lower s : lstrip (lower s) = lower (lstrip s).
Proof. induction s as [|a s IH]; [reflexivity|]. cbn [lower lstrip]. rewrite blank_lower. destruct (is_blank a); [exact IH|reflexivity]. Qed.
Lemma rstrip_lower s : rstrip (lower s) = lower (rstrip s).
Proof. induction s as [|a s IH]; [reflexivity|]. cbn [lower rstrip]. rewrite IH. destruct (rstrip s); cbn [lower]; [rewrite blank_lower; destruct (is_blank a); reflexivity|reflexivity]. Qed.
Lemma strip_lower s : strip (lower s) = lower (strip s).
Proof. unfold strip. rewrite lstrip_lower, rstrip_lower. reflexivity. Qed.

(* ---- spellings ---- *)
Lemma same_text_iff s v : same_text s v <-> replace_char " " "_" (lower s) = v.
Proof.
  revert v. induction s as [|a s IH]; intros v; cbn [lower replace_char].
  - split; [intros H; inversion H; reflexivity|intros <-; constructor].
  - split.
    + intros H. inversion H; subst. f_equal; [apply same_char_iff; assumption|apply IH; assumption].
    + intros <-. constructor; [apply same_char_iff; reflexivity|apply IH; reflexivity].
Qed.
Definition norm (s : string) : string := replace_char " " "_" (strip (lower s)).
Lemma spelling_iff s v : spelling s v <-> norm s = v.
Proof.
  unfold spelling, norm. rewrite strip_lower. split.
  - intros (t & T & S). apply trimmed_iff in T. apply same_text_iff in S. congruence.
  - intros H. exists (strip s). split; [apply trimmed_iff; reflexivity|apply same_text_iff; exact H].
Qed.
Lemma deleted_iff c s t : deleted c s t <-> remove_char c s = t.
Proof.
  split.
  - intros H. induction H as [|s t _ IH|a s t N _ IH]; cbn [remove_char]; [reflexivity|rewrite Ascii.eqb_refl; exact IH|]. rewrite (proj2 (Ascii.eqb_neq a c) N). congruence.
  - intros <-. induction s as [|a s IH]; cbn [remove_char]; [constructor|]. destruct (Ascii.eqb_spec a c) as [->|N]; constructor; assumption.
Qed.
Lemma starts_iff p s : starts_with p s = true <-> exists r, s = p ++ r.
Proof.
  revert s. induction p as [|a p IH]; intros s; cbn [starts_with append]; [split; [intros _; exists s; reflexivity|reflexivity]|]. destruct s as [|b s]; [split; [discriminate|intros (r & H); discriminate]|].
  rewrite andb_true_iff, Ascii.eqb_eq, IH. split; [intros (-> & r & ->); exists r; reflexivity|intros (r & H); injection H as -> ->; split; [reflexivity|exists r; reflexivity]].
Qed.
Lemma replace_skip old new p s : replace_from old new (String.length p) (p ++ s) = replace_from old new O s.
Proof. induction p as [|a p IH]; [reflexivity|]. cbn [append String.length replace_from]. exact IH. Qed.
Lemma app_inv_head_s (p s t : string) : p ++ s = p ++ t -> s = t.
Proof. induction p as [|a p IH]; cbn [append]; [trivial|]. intros H. injection H as H. exact (IH H). Qed.
Lemma replaced_iff old new s t : old <> "" -> (replaced old new s t <-> replace_all old new s = t).
Proof.
  intros N. destruct old as [|o os]; [contradiction|]. clear N. unfold replace_all. split.
  - intros H. induction H as [|s t _ IH|a s t M _ IH]; [reflexivity| |].
    + cbn [append replace_from]. rewrite (proj2 (starts_iff (String o os) (String o (os ++ s)))) by (exists s; reflexivity). cbn [String.length]. rewrite Nat.sub_succ, Nat.sub_0_r, replace_skip, IH. reflexivity.
    + cbn [replace_from]. destruct (starts_with (String o os) (String a s)) eqn:W; [apply starts_iff in W; destruct W as (r & W); exfalso; exact (M r W)|]. rewrite IH. reflexivity.
  - intros <-. remember (String.length s) as n eqn:E. assert (L : (String.length s <= n)%nat) by lia. clear E. revert s L. induction n as [|n IH]; intros s L.
    + destruct s; [constructor|cbn in L; lia].
    + destruct s as [|a s]; [constructor|]. cbn [replace_from]. destruct (starts_with (String o os) (String a s)) eqn:W.
      * apply starts_iff in W. destruct W as (r & W). pose proof W as W'. injection W as Ea Es. subst a s. cbn [String.length]. rewrite Nat.sub_succ, Nat.sub_0_r, replace_skip. change (String o (os ++ r)) with (String o os ++ r). constructor. apply IH.
        cbn [String.length] in L. rewrite length_app_s in L. lia.
      * constructor; [|apply IH; cbn in L; lia]. intros r H. assert (starts_with (String o os) (String a s) = true) by (apply starts_iff; exists r; exact H). congruence.
Qed.

(* ---- digits ---- *)
Lemma only_digits_all s : only_digits s = all_digits s.
Proof. induction s as [|a s IH]; [reflexivity|]. cbn. rewrite IH. reflexivity. Qed.
Lemma numeral_isdigit s k : numeral s k -> isdigit s = true.
Proof. intros H. destruct (numeral_int _ _ H) as (_ & A & N). unfold isdigit. rewrite only_digits_all, A. destruct s; [contradiction|reflexivity]. Qed.
Lemma isdigit_numeral s : isdigit s = true -> exists k, numeral s k.
Proof. unfold isdigit. intros H. apply andb_true_iff in H. destruct H as [N A]. rewrite only_digits_all in A. apply all_digits_numeral; [exact A|]. intros ->. discriminate N. Qed.
Lemma numeral_det s j k : numeral s j -> numeral s k -> j = k.
Proof. intros A B. apply numeral_py_int in A, B. congruence. Qed.
Lemma clean_text s : clean_enum_value None (VStr s) = (if isdigit (norm s) then let* k := py_int (norm s) in Ok (VInt k) else Ok (VStr (norm s))).
Proof. reflexivity. Qed.
Lemma clean_digits s k : numeral (norm s) k -> clean_enum_value None (VStr s) = Ok (VInt k).
Proof. intros H. rewrite clean_text, (numeral_isdigit _ _ H), (numeral_py_int _ _ H). reflexivity. Qed.
Lemma clean_other s : isdigit (norm s) = false -> clean_enum_value None (VStr s) = Ok (VStr (norm s)).
Proof. intros H. rewrite clean_text, H. reflexivity. Qed.

(* ---- members ---- *)
Ltac locate := repeat (first [left; reflexivity|right]).
Ltac cases H := cbn in H; repeat (destruct H as [H|H]); try contradiction.
Definition texts_of (e : enum) : list (enum * string * string) := flat_map (fun m => match snd m with EStr v => [(e, fst m, v)] | EInt _ => [] end) (members (class_of e)).
Lemma texts_split : texts = flat_map texts_of [ZeroCurveInterp; ZeroCurveExtrap; PayRcv; BuySell; DayCount; Compounding; Period; DayRolls; RollConvs; Timing; Stubs; Exchange].
Proof. reflexivity. Qed.
Lemma members_text e m v : In (m, EStr v) (members (class_of e)) <-> In (e, m, v) texts.
Proof.
  assert (T : forall e', In (e, m, v) (texts_of e') <-> e' = e /\ In (m, EStr v) (members (class_of e))).
  { intros e'. unfold texts_of. rewrite in_flat_map. split.
    - intros ([n [w|k]] & I & H); cbn in H; [|contradiction]. destruct H as [H|[]]. injection H as -> -> ->. split; [reflexivity|exact I].
    - intros (-> & I). exists (m, EStr v). split; [exact I|left; reflexivity]. }
  rewrite texts_split, in_flat_map. split.
  - intros I. exists e. split; [destruct e; cbn; tauto|]. apply T. split; [reflexivity|exact I].
  - intros (e' & _ & H). apply T in H. exact (proj2 H).
Qed.
Lemma find_text e m v : In (e, m, v) texts -> find (fun x => py_eq (snd x) (VStr v)) (members (class_of e)) = Some (m, EStr v).
Proof. intros H. unfold texts in H. repeat (destruct H as [H|H]; [injection H as <- <- <-; reflexivity|]). contradiction. Qed.
Lemma find_text_inv e t m x : find (fun x => py_eq (snd x) (VStr t)) (members (class_of e)) = Some (m, x) -> In (e, m, t) texts.
Proof.
  intros H. apply find_some in H. destruct H as [I H]. cbn [snd] in H. destruct x as [s|k]; [|discriminate]. cbn in H. apply String.eqb_eq in H. subst s. apply members_text. exact I.
Qed.
Lemma find_text_none e t : (forall m, ~ In (e, m, t) texts) -> find (fun x => py_eq (snd x) (VStr t)) (members (class_of e)) = None.
Proof. intros H. destruct (find _ _) as [[m x]|] eqn:F; [|reflexivity]. exfalso. exact (H m (find_text_inv _ _ _ _ F)). Qed.
Lemma member_text e t : is_member (class_of e) (VStr t) = true <-> exists m, In (e, m, t) texts.
Proof.
  unfold is_member. rewrite existsb_exists. split.
  - intros ([m x] & I & H). destruct x as [s|k]; [|discriminate]. cbn in H. apply String.eqb_eq in H. subst s. exists m. apply members_text. exact I.
  - intros (m & I). exists (m, EStr t). split; [apply members_text; exact I|cbn; apply String.eqb_refl].
Qed.
Lemma members_day m k : In (m, EInt k) (members (class_of DayRolls)) <-> day_member k m.
Proof.
  unfold day_member. split.
  - intros H. cases H; (discriminate H || (injection H as <- <-; split; [lia|reflexivity])).
  - intros [L H]. assert (k <= 31). { assert (Z.to_nat (k - 1) < 31)%nat; [|lia]. change 31%nat with (List.length day_names). apply nth_error_Some. congruence. }
    assert (D : exists j, (j < 31)%nat /\ k = Z.of_nat j + 1) by (exists (Z.to_nat (k - 1)); lia). destruct D as (j & J & ->). replace (Z.to_nat (Z.of_nat j + 1 - 1)) with j in H by lia.
    do 31 (destruct j as [|j]; [cbn in H; injection H as <-; cbn; locate|]). lia.
Qed.
Lemma members_int e m k : In (m, EInt k) (members (class_of e)) -> e = DayRolls.
Proof. intros H. destruct e; [| | | | | | |reflexivity| | | |]; cases H; discriminate H. Qed.
Lemma find_int e k m x : find (fun x => py_eq (snd x) (VInt k)) (members (class_of e)) = Some (m, x) -> e = DayRolls /\ day_member k m.
Proof.
  intros H. apply find_some in H. destruct H as [I H]. cbn [snd] in H. destruct x as [s|j]; [discriminate|]. cbn in H. apply Z.eqb_eq in H. subst j. pose proof (members_int _ _ _ I) as ->. split; [reflexivity|]. apply members_day. exact I.
Qed.
Lemma find_day k m : day_member k m -> find (fun x => py_eq (snd x) (VInt k)) (members (class_of DayRolls)) = Some (m, EInt k).
Proof. intros H. apply members_day in H. cases H; (discriminate H || (injection H as <- <-; reflexivity)). Qed.
Lemma member_int e k : is_member (class_of e) (VInt k) = true <-> e = DayRolls /\ exists m, day_member k m.
Proof.
  unfold is_member. rewrite existsb_exists. split.
  - intros ([m x] & I & H). destruct x as [s|j]; [discriminate|]. cbn in H. apply Z.eqb_eq in H. subst j. pose proof (members_int _ _ _ I) as ->. split; [reflexivity|]. exists m. apply members_day. exact I.
  - intros (-> & m & D). exists (m, EInt k). split; [apply members_day; exact D|cbn; apply Z.eqb_refl].
Qed.

(* ---- the classes without a cleaning of their own ---- *)
Definition plain (e : enum) : Prop := e <> DayCount /\ e <> Period.
Definition pick (e : enum) (v : value) : result string :=
  match v with
  | VMissing => call_default (class_of e)
  | _ => match find (fun m => py_eq (snd m) v) (members (class_of e)) with Some (n, _) => Ok n | None => Err ValueError end
  end.
Lemma find_ext {A} (f g : A -> bool) l : (forall x, In x l -> f x = g x) -> find f l = find g l.
Proof. induction l as [|x l IH]; [reflexivity|]. intros H. cbn [find]. rewrite (H x) by (left; reflexivity). rewrite IH by (intros y I; apply H; right; exact I). reflexivity. Qed.
Lemma plain_from e v : plain e -> from_value e v = (let* w := clean_enum_value None v in pick e w).
Proof.
  intros [D P]. destruct e; try contradiction; try reflexivity; unfold from_value, from_value_1; destruct (clean_enum_value None v) as [w|]; cbn [bind]; try reflexivity; destruct w; try reflexivity; unfold pick;
    (erewrite find_ext; [reflexivity|]; intros x I; cases I; subst x; cbn; apply orb_diag).
Qed.
Lemma plain_valid e v : e <> Period -> is_valid e v = (let* w := clean_enum_value None v in Ok (is_member (class_of e) w)).
Proof. intros P. destruct e; try contradiction; reflexivity. Qed.
Lemma plain_text e s : plain e -> (forall m, from_value e (VStr s) = Ok m <-> (exists v, In (e, m, v) texts /\ spelling s v) \/ (e = DayRolls /\ exists d k, spelling s d /\ numeral d k /\ day_member k m))
  /\ ((forall m, from_value e (VStr s) <> Ok m) -> from_value e (VStr s) = Err ValueError).
Proof.
  intros P. rewrite (plain_from e _ P). destruct (isdigit (norm s)) eqn:D.
  - destruct (isdigit_numeral _ D) as (k & K). rewrite (clean_digits _ _ K). cbn [bind pick]. split.
    + intros m. split.
      * destruct (find _ _) as [[n x]|] eqn:F; [|discriminate]. intros H. injection H as <-. destruct (find_int _ _ _ _ F) as [-> Dm]. right. split; [reflexivity|]. exists (norm s), k. split; [apply spelling_iff; reflexivity|]. split; assumption.
      * intros [(v & I & S)|(-> & d & j & S & N & M)]; apply spelling_iff in S.
        -- exfalso. rewrite S in D. unfold texts in I. repeat (destruct I as [I|I]; [injection I as _ _ <-; discriminate D|]). contradiction.
        -- subst d. rewrite (numeral_det _ _ _ K N), (find_day _ _ M). reflexivity.
    + destruct (find _ _) as [[n x]|]; [|reflexivity]. intros H. exfalso. exact (H n eq_refl).
  - rewrite (clean_other _ D). cbn [bind pick]. split.
    + intros m. split.
      * destruct (find _ _) as [[n x]|] eqn:F; [|discriminate]. intros H. injection H as <-. left. exists (norm s). split; [exact (find_text_inv _ _ _ _ F)|apply spelling_iff; reflexivity].
      * intros [(v & I & S)|(-> & d & j & S & N & M)]; apply spelling_iff in S; subst; [rewrite (find_text _ _ _ I); reflexivity|]. apply numeral_isdigit in N. congruence.
    + destruct (find _ _) as [[n x]|]; [|reflexivity]. intros H. exfalso. exact (H n eq_refl).
Qed.
Lemma valid_text e s : e <> Period -> exists b, is_valid e (VStr s) = Ok b /\
  (b = true <-> (exists m v, In (e, m, v) texts /\ spelling s v) \/ (e = DayRolls /\ exists d k m, spelling s d /\ numeral d k /\ day_member k m)).
Proof.
  intros P. rewrite (plain_valid e _ P). destruct (isdigit (norm s)) eqn:D.
  - destruct (isdigit_numeral _ D) as (k & K). rewrite (clean_digits _ _ K). cbn [bind]. eexists. split; [reflexivity|]. rewrite member_int. split.
    + intros (-> & m & M). right. split; [reflexivity|]. exists (norm s), k, m. split; [apply spelling_iff; reflexivity|]. split; assumption.
    + intros [(m & v & I & S)|(-> & d & j & m & S & N & M)]; apply spelling_iff in S.
      * exfalso. rewrite S in D. unfold texts in I. repeat (destruct I as [I|I]; [injection I as _ _ <-; discriminate D|]). contradiction.
      * subst d. split; [reflexivity|]. exists m. rewrite (numeral_det _ _ _ K N). exact M.
  - rewrite (clean_other _ D). cbn [bind]. eexists. split; [reflexivity|]. rewrite member_text. split.
    + intros (m & I). left. exists m, (norm s). split; [exact I|apply spelling_iff; reflexivity].
    + intros [(m & v & I & S)|(-> & d & j & m & S & N & M)]; apply spelling_iff in S; subst; [exists m; exact I|]. apply numeral_isdigit in N. congruence.
Qed.

(* ---- DayCountBasis ---- *)
Lemma actual_digits t u : replaced "actual" "act" t u -> (isdigit u = true <-> isdigit t = true) /\ (isdigit t = true -> u = t).
Proof.
  intros H. unfold isdigit. assert (G : only_digits u = only_digits t /\ (only_digits t = true -> u = t) /\ (u = "" <-> t = "")).
  { induction H as [|s t _ IH|a s t N _ (I1 & I2 & I3)]; [repeat split| |].
    - cbn. repeat split; discriminate.
    - cbn [only_digits]. rewrite I1. split; [reflexivity|]. split; [intros H; apply andb_true_iff in H; f_equal; apply I2; tauto|split; discriminate]. }
  destruct G as (G1 & G2 & G3). rewrite G1, !andb_true_iff, !negb_true_iff, !String.eqb_neq, G3. split; [tauto|]. intros [_ Y]. exact (G2 Y).
Qed.
Lemma basis_find w n x : find (fun m => py_eq (snd m) (VStr w) || py_eq (without_slash (snd m)) (VStr w)) (members (class_of DayCount)) = Some (n, x) -> exists v, In (DayCount, n, v) texts /\ (w = v \/ remove_char "/" v = w).
Proof.
  intros H. apply find_some in H. destruct H as [I H]. destruct x as [v|k]; [|discriminate]. exists v. split; [apply members_text; exact I|]. cbn in H. rewrite orb_true_iff, !String.eqb_eq in H. destruct H; [left|right]; congruence.
Qed.
Lemma basis_found w n v : In (DayCount, n, v) texts -> (w = v \/ remove_char "/" v = w) -> find (fun m => py_eq (snd m) (VStr w) || py_eq (without_slash (snd m)) (VStr w)) (members (class_of DayCount)) = Some (n, EStr v).
Proof. intros I H. apply members_text in I. cases I; injection I as <- <-; (destruct H as [-> | <-]; reflexivity). Qed.
Lemma day_count_digits s k : numeral (norm s) k -> from_value DayCount (VStr s) = Err AttributeError.
Proof. intros K. unfold from_value, from_value_1. rewrite (clean_digits _ _ K). reflexivity. Qed.
Lemma day_count_text s : (forall m, from_value DayCount (VStr s) = Ok m <-> exists t v, spelling s t /\ In (DayCount, m, v) texts /\ basis_word t v)
  /\ ((forall m, from_value DayCount (VStr s) <> Ok m) -> from_value DayCount (VStr s) = Err (if isdigit (norm s) then AttributeError else ValueError)).
Proof.
  assert (NE : "actual" <> "") by discriminate. destruct (isdigit (norm s)) eqn:D.
  - destruct (isdigit_numeral _ D) as (k & K). rewrite (day_count_digits _ _ K). split; [|reflexivity]. intros m. split; [discriminate|]. intros (t & v & S & I & u & R & H). exfalso. apply spelling_iff in S. subst t.
    destruct (actual_digits _ _ R) as [_ E]. specialize (E D). subst u. apply members_text in I. cases I; injection I as _ <-;
      (destruct H as [H|[[H _]|[H N]]]; [rewrite H in D; discriminate D|rewrite H in D; discriminate D|apply deleted_iff in H; cbn in H; rewrite <- H in D; (discriminate D || congruence)]).
  - unfold from_value, from_value_1. rewrite (clean_other _ D). cbn [bind day_count_cleaning]. set (u := replace_all "actual" "act" (norm s)). assert (R : replaced "actual" "act" (norm s) u) by (apply replaced_iff; [exact NE|reflexivity]).
    assert (U : u <> "30360"). { intros H. destruct (actual_digits _ _ R) as [[E _] _]. rewrite H in E. specialize (E eq_refl). congruence. }
    split.
    + intros m. split.
      * destruct (find _ _) as [[n x]|] eqn:F; [|discriminate]. intros H. injection H as <-. destruct (basis_find _ _ _ F) as (v & I & H). exists (norm s), v. split; [apply spelling_iff; reflexivity|]. split; [exact I|]. exists u. split; [exact R|].
        destruct (String.eqb_spec u "act/365fixed") as [E|N].
        -- right. left. split; [exact E|]. destruct H as [H|H]; [congruence|]. exfalso. apply members_text in I. cases I; injection I as _ <-; discriminate H.
        -- destruct H as [H|H]; [left; exact H|]. right. right. split; [apply deleted_iff; exact H|exact U].
      * intros (t & v & S & I & u' & R' & H). apply spelling_iff in S. subst t. assert (u' = u) by (apply replaced_iff in R'; [symmetry; exact R'|exact NE]). subst u'.
        assert (W : (if String.eqb u "act/365fixed" then "act/365" else u) = v \/ remove_char "/" v = (if String.eqb u "act/365fixed" then "act/365" else u)).
        { destruct (String.eqb_spec u "act/365fixed") as [E|N].
          - destruct H as [H|[[_ H]|[H _]]]; [|left; congruence|]; exfalso; rewrite E in H; apply members_text in I; cases I; injection I as _ <-; (discriminate H || (apply deleted_iff in H; discriminate H)).
          - destruct H as [H|[[H _]|[H _]]]; [left; exact H|contradiction|right; apply deleted_iff; exact H]. }
        erewrite basis_found; [reflexivity|exact I|]. destruct W as [W|W]; [left; exact W|right; exact W].
    + destruct (find _ _) as [[n x]|]; [|reflexivity]. intros H. exfalso. exact (H n eq_refl).
Qed.

(* ---- PeriodFreq ---- *)
Lemma lower_norm s : lower (norm s) = norm s.
Proof.
  unfold norm. rewrite strip_lower. induction (strip s) as [|a t IH]; [reflexivity|]. cbn [lower replace_char]. rewrite IH. f_equal. apply Ascii.eqb_eq. revert a. apply all_ascii. vm_compute. reflexivity.
Qed.
Lemma lower_remove c s : lower s = s -> lower (remove_char c s) = remove_char c s.
Proof. induction s as [|a s IH]; [reflexivity|]. cbn [lower remove_char]. intros H. injection H as Ha Hs. destruct (Ascii.eqb a c); cbn [lower]; rewrite (IH Hs); [reflexivity|]. congruence. Qed.
Lemma lower_replaced old s t : replaced old "" s t -> lower s = s -> lower t = t.
Proof.
  intros H. induction H as [|s t _ IH|a s t N _ IH]; intros L; [reflexivity| |].
  - cbn [append]. apply IH. rewrite lower_app in L. clear -L. revert L. induction old as [|o os IH]; [trivial|]. cbn. intros H. injection H as _ H. exact (IH H).
  - cbn [lower] in *. injection L as La Ls. rewrite (IH Ls). congruence.
Qed.
Definition period_word (s : string) : string := strip (replace_all "per" "" (remove_char "_" (remove_char "/" (norm s)))).
Lemma frequency_spelling_iff s w : frequency_spelling s w <-> period_word s = w.
Proof.
  unfold frequency_spelling, period_word. assert (NE : "per" <> "") by discriminate. split.
  - intros (t & u & v & x & A & B & C & D & E). apply spelling_iff in A. apply deleted_iff in B, C. apply replaced_iff in D; [|exact NE]. apply trimmed_iff in E. congruence.
  - intros H. do 4 eexists. split; [apply spelling_iff; reflexivity|]. split; [apply deleted_iff; reflexivity|]. split; [apply deleted_iff; reflexivity|]. split; [apply replaced_iff; [exact NE|reflexivity]|]. apply trimmed_iff. exact H.
Qed.
Definition period_key (w : string) : string := match find (fun ka => String.eqb w (fst ka) || existsb (String.eqb w) (snd ka)) period_aliases with Some (k, _) => k | None => w end.
Lemma transform_norm s : transform_period (norm s) = period_key (period_word s).
Proof.
  unfold transform_period, period_word. set (v := remove_char "_" (remove_char "/" (norm s))). assert (L : lower v = v) by (apply lower_remove, lower_remove, lower_norm).
  rewrite (lower_replaced "per" v (replace_all "per" "" v)); [reflexivity|apply replaced_iff; [discriminate|reflexivity]|exact L].
Qed.
Definition pick_period (w : string) : result string := match find (fun x => py_eq (snd x) (VStr (period_key w))) (members (class_of Period)) with Some (n, _) => Ok n | None => Err ValueError end.
Lemma period_from s : from_value Period (VStr s) = pick_period (period_word s).
Proof.
  unfold from_value, get_enum_member, clean_enum_value. fold (norm s). rewrite transform_norm. unfold pick_period. destruct (isdigit (period_key (period_word s))) eqn:D; [|reflexivity].
  destruct (isdigit_numeral _ D) as (k & K). rewrite (numeral_py_int _ _ K). cbn [bind]. rewrite find_text_none; [|intros m I; apply members_text in I; cases I; injection I as _ I; rewrite <- I in D; discriminate D].
  destruct (find _ _) as [[n x]|] eqn:F; [|reflexivity]. destruct (find_int _ _ _ _ F). discriminate.
Qed.
Lemma pick_period_iff w m : pick_period w = Ok m <-> frequency_word w m.
Proof.
  split.
  - unfold pick_period. destruct (find _ (members _)) as [[n x]|] eqn:F; [|discriminate]. intros H. injection H as <-. apply find_text_inv, members_text in F. unfold period_key in F. destruct (find _ period_aliases) as [[k al]|] eqn:P.
    + apply find_some in P. destruct P as [I E]. cbn [fst snd] in E. rewrite orb_true_iff, existsb_exists, String.eqb_eq in E.
      cases I; injection I as <- <-; (cases F; (discriminate F || (injection F as <-)); eexists; (split; [cbn; locate|]); (destruct E as [-> | (y & E & Q)]; [cbn; tauto|apply String.eqb_eq in Q; subst y; cbn in *; tauto])).
    + exfalso. cases F; injection F as _ F; rewrite <- F in P; discriminate P.
  - intros (l & I & W). cases I; injection I as <- <-; (cases W; subst w; reflexivity).
Qed.
Lemma pick_period_err w : (forall m, ~ frequency_word w m) -> pick_period w = Err ValueError.
Proof. intros H. destruct (pick_period w) as [m|e] eqn:E; [exfalso; exact (H m (proj1 (pick_period_iff w m) E))|]. unfold pick_period in E. destruct (find _ _) as [[n x]|]; congruence. Qed.
Lemma period_valid s : exists b, is_valid Period (VStr s) = Ok b /\ (b = true <-> exists m, from_value Period (VStr s) = Ok m).
Proof.
  rewrite period_from. unfold is_valid, clean_enum_value. fold (norm s). rewrite transform_norm. destruct (isdigit (period_key (period_word s))) eqn:D.
  - destruct (isdigit_numeral _ D) as (k & K). rewrite (numeral_py_int _ _ K). cbn [bind]. eexists. split; [reflexivity|]. rewrite member_int. split; [intros [H _]; discriminate|].
    unfold pick_period. rewrite find_text_none; [intros (m & H); discriminate|]. intros m I. apply members_text in I. cases I; injection I as _ I; rewrite <- I in D; discriminate D.
  - cbn [bind]. eexists. split; [reflexivity|]. rewrite member_text. unfold pick_period. split.
    + intros (m & I). rewrite (find_text _ _ _ I). exists m. reflexivity.
    + intros (m & H). destruct (find _ _) as [[n x]|] eqn:F; [|discriminate]. injection H as <-. exists n. exact (find_text_inv _ _ _ _ F).
Qed.
