(* C65: reading enum members from text *)
From Coq Require Import ZArith String Ascii List Bool Lia.
From Verif Require Import Base BusDayModel TenorModel TenorSpec TenorProofs BootModel EnumModel EnumSpec EnumProofs.
Import ListNotations.
Open Scope string_scope.
Open Scope Z_scope.

(* every spelling of the text of a member is read as that member, nothing else is; days of the month may be written as numerals *)
Theorem C65_texts (e : enum) (s : string) : e <> DayCount -> e <> Period ->
  (forall m, from_value e (VStr s) = Ok m <-> (exists v, In (e, m, v) texts /\ spelling s v) \/ (e = DayRolls /\ exists d k, spelling s d /\ numeral d k /\ day_member k m))
  /\ ((forall m, from_value e (VStr s) <> Ok m) -> from_value e (VStr s) = Err ValueError).
Proof. intros A B. exact (plain_text e s (conj A B)). Qed.
Theorem C65_day_count (s : string) :
  (forall m, from_value DayCount (VStr s) = Ok m <-> exists t v, spelling s t /\ In (DayCount, m, v) texts /\ basis_word t v)
  /\ (forall d k, spelling s d -> numeral d k -> from_value DayCount (VStr s) = Err AttributeError)
  /\ ((forall m, from_value DayCount (VStr s) <> Ok m) -> (forall d k, spelling s d -> ~ numeral d k) -> from_value DayCount (VStr s) = Err ValueError).
Proof.
  destruct (day_count_text s) as [A B]. split; [exact A|]. split.
  - intros d k S N. apply spelling_iff in S. subst d. exact (day_count_digits _ _ N).
  - intros N D. rewrite (B N). destruct (isdigit (norm s)) eqn:E; [|reflexivity]. destruct (isdigit_numeral _ E) as (k & K). exfalso. apply (D (norm s) k); [apply spelling_iff; reflexivity|exact K].
Qed.
Theorem C65_period (s w : string) : frequency_spelling s w ->
  (forall m, from_value Period (VStr s) = Ok m <-> frequency_word w m) /\ ((forall m, ~ frequency_word w m) -> from_value Period (VStr s) = Err ValueError).
Proof. intros H. apply frequency_spelling_iff in H. subst w. rewrite period_from. split; [intros m; apply pick_period_iff|apply pick_period_err]. Qed.
(* every text is the spelling of exactly one word *)
Theorem C65_one_word (s : string) : (exists! v, spelling s v) /\ (exists! w, frequency_spelling s w).
Proof.
  split.
  - exists (norm s). split; [apply spelling_iff; reflexivity|]. intros v H. apply spelling_iff. exact H.
  - exists (period_word s). split; [apply frequency_spelling_iff; reflexivity|]. intros v H. apply frequency_spelling_iff. exact H.
Qed.
(* one letter is enough for every frequency but the year: "y" is not a frequency, "s" is *)
Theorem C65_period_letters (a : ascii) (m : string) : from_value Period (VStr (String a "")) = Ok m <->
  In (lower_char a, m) [("d"%char, "DAILY"); ("w"%char, "WEEKLY"); ("m"%char, "MONTHLY"); ("q"%char, "QUARTERLY"); ("s"%char, "SEMIANNUAL"); ("a"%char, "ANNUAL"); ("z"%char, "ZERO_COUPON")].
Proof.
  set (table := [("d"%char, "DAILY"); ("w"%char, "WEEKLY"); ("m"%char, "MONTHLY"); ("q"%char, "QUARTERLY"); ("s"%char, "SEMIANNUAL"); ("a"%char, "ANNUAL"); ("z"%char, "ZERO_COUPON")]).
  assert (T : forall b, match from_value Period (VStr (String b "")), find (fun x => Ascii.eqb (lower_char b) (fst x)) table with Ok n, Some (_, k) => String.eqb n k | Err _, None => true | _, _ => false end = true) by (apply all_ascii; vm_compute; reflexivity).
  specialize (T a). destruct (find _ table) as [[b k]|] eqn:F.
  - apply find_some in F. destruct F as [I F]. cbn [fst] in F. apply Ascii.eqb_eq in F. subst b. destruct (from_value Period (VStr (String a ""))) as [n|]; [|discriminate]. apply String.eqb_eq in T. subst n. split.
    + intros H. injection H as <-. exact I.
    + intros J. f_equal. unfold table in I, J. cbn in I, J. repeat (destruct I as [I|I]; [injection I as I1 I2; repeat (destruct J as [J|J]; [injection J as J1 J2; (congruence || (exfalso; rewrite <- I1 in J1; discriminate J1))|]); contradiction|]). contradiction.
  - destruct (from_value Period (VStr (String a ""))) as [n|]; [discriminate|]. split; [discriminate|]. intros I. pose proof (find_none _ _ F _ I) as H. cbn [fst] in H. rewrite Ascii.eqb_refl in H. discriminate.
Qed.
(* no argument: the default, where there is one; DayCountBasis has one that is never reached *)
Theorem C65_missing (e : enum) : from_value e VMissing = match default_member e with Some m => Ok m | None => Err AttributeError end /\ is_valid e VMissing = Ok false.
Proof. split; [destruct e; reflexivity|destruct e; reflexivity]. Qed.
(* numbers are days of the month; members themselves are not read *)
Theorem C65_numbers (e : enum) (k : Z) :
  (forall m, from_value e (VInt k) = Ok m <-> e = DayRolls /\ day_member k m)
  /\ ((forall m, from_value e (VInt k) <> Ok m) -> from_value e (VInt k) = Err (match e with DayCount => AttributeError | _ => ValueError end))
  /\ (is_valid e (VInt k) = Ok true <-> e = DayRolls /\ 1 <= k <= 31)
  /\ from_value e VOther = Err (match e with DayCount => AttributeError | _ => ValueError end) /\ is_valid e VOther = Ok false.
Proof.
  assert (D : forall e, e <> DayCount -> from_value e (VInt k) = match find (fun x => py_eq (snd x) (VInt k)) (members (class_of e)) with Some (n, _) => Ok n | None => Err ValueError end).
  { intros e' N. destruct e'; try contradiction; try reflexivity; unfold from_value, from_value_1; cbn [clean_enum_value bind]; (erewrite find_ext; [reflexivity|]; intros x I; cases I; subst x; reflexivity). }
  assert (V : is_valid e (VInt k) = Ok (is_member (class_of e) (VInt k))) by (destruct e; reflexivity).
  split; [|split; [|split; [|split]]].
  - intros m. destruct (match e with DayCount => true | _ => false end) eqn:Q; [destruct e; try discriminate Q; split; [discriminate|intros [H _]; discriminate]|]. rewrite D by (intros ->; discriminate). split.
    + destruct (find _ _) as [[n x]|] eqn:F; [|discriminate]. intros H. injection H as <-. exact (find_int _ _ _ _ F).
    + intros [-> M]. rewrite (find_day _ _ M). reflexivity.
  - intros N. destruct (match e with DayCount => true | _ => false end) eqn:Q; [destruct e; try discriminate Q; reflexivity|]. rewrite D in N |- * by (intros ->; discriminate). destruct (find _ _) as [[n x]|]; [exfalso; exact (N n eq_refl)|]. destruct e; (discriminate Q || reflexivity).
  - rewrite V. assert (O : Ok (is_member (class_of e) (VInt k)) = Ok true <-> is_member (class_of e) (VInt k) = true) by (split; congruence). rewrite O, member_int. unfold day_member. split.
    + intros (-> & m & L & H). split; [reflexivity|]. assert (Z.to_nat (k - 1) < 31)%nat; [|lia]. change 31%nat with (List.length day_names). apply nth_error_Some. congruence.
    + intros (-> & L). split; [reflexivity|]. destruct (nth_error day_names (Z.to_nat (k - 1))) as [m|] eqn:E; [exists m; split; [lia|reflexivity]|]. apply nth_error_None in E. change (List.length day_names) with 31%nat in E. lia.
  - destruct e; reflexivity.
  - destruct e; reflexivity.
Qed.
(* validity: the texts that are read, except that a day count basis must be written out *)
Theorem C65_validity (e : enum) (s : string) : exists b, is_valid e (VStr s) = Ok b /\
  (e <> DayCount -> (b = true <-> exists m, from_value e (VStr s) = Ok m))
  /\ (e = DayCount -> (b = true <-> exists m v, In (e, m, v) texts /\ spelling s v)).
Proof.
  destruct (match e with Period => true | _ => false end) eqn:Q.
  - destruct e; try discriminate Q. destruct (period_valid s) as (b & B1 & B2). exists b. split; [exact B1|]. split; [intros _; exact B2|discriminate].
  - assert (N : e <> Period) by (intros ->; discriminate). destruct (valid_text e s N) as (b & B1 & B2). exists b. split; [exact B1|]. split.
    + intros D. rewrite B2. destruct (plain_text e s (conj D N)) as [P _]. split.
      * intros [(m & v & I & S)|(-> & d & k & m & S & K & M)]; exists m; apply P; [left; exists v; split; assumption|right; split; [reflexivity|exists d, k; repeat split; assumption || apply M]].
      * intros (m & H). apply P in H. destruct H as [(v & I & S)|(-> & d & k & S & K & M)]; [left; exists m, v; split; assumption|right; split; [reflexivity|exists d, k, m; repeat split; assumption || apply M]].
    + intros ->. rewrite B2. split; [intros [H|[H _]]; [exact H|discriminate]|intros H; left; exact H].
Qed.
Theorem C65_day_count_stricter (s : string) :
  (is_valid DayCount (VStr s) = Ok true -> exists m, from_value DayCount (VStr s) = Ok m)
  /\ (is_valid DayCount (VStr s) = Ok false -> forall m, from_value DayCount (VStr s) = Ok m -> exists t v u, spelling s t /\ In (DayCount, m, v) texts /\ replaced "actual" "act" t u /\ t <> v
      /\ (u <> t \/ u = "act/365fixed" \/ deleted "/" v u)).
Proof.
  destruct (C65_validity DayCount s) as (b & B & _ & H). specialize (H eq_refl). destruct (day_count_text s) as [P _]. split.
  - intros V. assert (b = true) by congruence. apply H in H0. destruct H0 as (m & v & I & S). exists m. apply P. exists v, v. split; [exact S|]. split; [exact I|]. apply members_text in I. cases I; injection I as _ <-; (eexists; split; [apply replaced_iff; [discriminate|reflexivity]|left; reflexivity]).
  - intros V m F. apply P in F. destruct F as (t & v & S & I & u & R & W). exists t, v, u. split; [exact S|]. split; [exact I|]. split; [exact R|].
    assert (T : t <> v). { intros ->. assert (b = true) by (apply H; exists m, v; split; assumption). congruence. }
    split; [exact T|]. destruct W as [W|[[W _]|[W _]]]; [left; congruence|right; left; exact W|right; right; exact W].
Qed.
(* the name shown for a member is read as that member, except for the interpolation methods and the modified roll conventions *)
Theorem C65_display (e : enum) (m : string) (v : evalue) : In (m, v) (members (class_of e)) -> exists d, display_name e m v = Ok d /\
  (from_value e (VStr d) = Ok m <-> e <> ZeroCurveInterp /\ (e = RollConvs -> m <> "MODIFIED_FOLLOWING" /\ m <> "MODIFIED_PRECEDING")).
Proof.
  intros I. destruct e; cases I; injection I as <- <-; (eexists; split; [reflexivity|]); (split; [intros H; vm_compute in H; (discriminate H || (split; [discriminate|intros Q; (discriminate Q || (split; discriminate))]))|intros [A B]; (first [exfalso; apply A; reflexivity|vm_compute; reflexivity|exfalso; destruct (B eq_refl) as [B1 B2]; (apply B1; reflexivity) || (apply B2; reflexivity)])]).
Qed.
(* names shown are in title case *)
Local Lemma upper_pair a b : case_pair a b -> upper_char b = a /\ upper_char a = a /\ lower_char b = b /\ is_letter a = true /\ is_letter b = true.
Proof. intros H. apply case_pair_iff in H as [U <-]. destruct a as [[] [] [] [] [] [] [] []]; vm_compute in U; try discriminate U; vm_compute; repeat split. Qed.
Local Lemma letter_iff a : is_letter a = true <-> letter a.
Proof.
  split.
  - intros H. assert (Q : upper_case a = true \/ upper_case (upper_char a) = true /\ lower_char (upper_char a) = a) by (destruct a as [[] [] [] [] [] [] [] []]; vm_compute in H; try discriminate H; vm_compute; tauto).
    destruct Q as [Q|Q]; [exists (lower_char a); left; apply case_pair_iff; auto|exists (upper_char a); right; apply case_pair_iff; exact Q].
  - intros (b & [H|H]); apply upper_pair in H; tauto.
Qed.
Local Lemma cased_iff up a : letter a -> cased up a (if up then upper_char a else lower_char a).
Proof.
  intros (b & [H|H]); pose proof (upper_pair _ _ H) as (A & B & C & _); destruct up; cbn [cased].
  - right. split; [congruence|]. intros c Q. apply upper_pair in Q as (_ & _ & Q3 & _). apply case_pair_iff in H as [U _]. clear - U Q3. destruct a as [[] [] [] [] [] [] [] []]; vm_compute in U, Q3; congruence.
  - left. replace (lower_char a) with b; [exact H|]. apply case_pair_iff in H as [_ H]. congruence.
  - left. rewrite A. exact H.
  - right. split; [congruence|]. intros c Q. apply case_pair_iff in Q as [U _]. clear - U C. destruct a as [[] [] [] [] [] [] [] []]; vm_compute in U, C; congruence.
Qed.
Local Lemma upper_other a : is_letter a = false -> upper_char a = a /\ lower_char a = a.
Proof. destruct a as [[] [] [] [] [] [] [] []]; intros H; vm_compute in H; try discriminate H; split; reflexivity. Qed.
Theorem C65_title (s : string) : titled false s (title s).
Proof.
  unfold title. generalize false. induction s as [|a s IH]; intros after; [apply ti_nil|]. cbn [title_from]. destruct (is_letter a) eqn:L.
  - apply ti_letter; [apply letter_iff; exact L| |apply IH]. apply letter_iff in L. pose proof (cased_iff (negb after) a L) as H. destruct after; exact H.
  - destruct (upper_other a L) as [-> ->]. replace (if after then a else a) with a by (destruct after; reflexivity). apply ti_other; [|apply IH]. intros Q. apply letter_iff in Q. congruence.
Qed.
Theorem C65_signs : pay_rcv_multiplier "PAY" = -1 /\ pay_rcv_multiplier "RCV" = 1 /\ buy_sell_multiplier "BUY" = 1 /\ buy_sell_multiplier "SELL" = -1.
Proof. repeat split. Qed.

Definition all_theorems := (C65_texts, C65_day_count, C65_period, C65_one_word, C65_period_letters, C65_missing, C65_numbers, C65_validity, C65_day_count_stricter, C65_display, C65_title, C65_signs).
Print Assumptions all_theorems.

(* spellings *)
Example C65_ex_text : from_value Compounding (VStr "  Semiannual ") = Ok "SEMIANNUAL" /\ from_value Timing (VStr "In Arrears") = Ok "IN_ARREARS" /\ from_value DayRolls (VStr " 031 ") = Ok "_31" /\ from_value RollConvs (VStr "Modified Following") = Err ValueError.
Proof. vm_compute. repeat split. Qed.
Example C65_ex_basis : from_value DayCount (VStr "Actual/360") = Ok "ACT_360" /\ is_valid DayCount (VStr "Actual/360") = Ok false /\ from_value DayCount (VStr "30e360") = Ok "_30E_360" /\ from_value DayCount (VStr "30360") = Err AttributeError
  /\ from_value DayCount (VStr "ACT/365Fixed") = Ok "ACT_365" /\ from_value DayCount (VStr "ACT/365 Fixed") = Err ValueError.
Proof. vm_compute. repeat split. Qed.
Example C65_ex_period : frequency_spelling "per 3 Months" "3months" /\ from_value Period (VStr "per 3 Months") = Ok "QUARTERLY" /\ from_value Period (VStr "12m") = Err ValueError.
Proof. split; [apply frequency_spelling_iff; reflexivity|]. vm_compute. repeat split. Qed.
Example C65_ex_display : display_name Period "_28_DAYS" (EStr "28days") = Ok "28 Days" /\ from_value Period (VStr "28 Days") = Ok "_28_DAYS".
Proof. vm_compute. repeat split. Qed.
