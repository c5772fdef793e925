From Coq Require Import ZArith String Ascii List Bool Lia.
From Coq Require Import ZifyBool.
From Verif Require Import Base Date DateProofs BusDayModel BusDaySpec BusDayProofs TenorModel TenorSpec.
Import ListNotations.
Open Scope string_scope.
Open Scope Z_scope.

(* ---- cleaning ---- *)

Lemma lower_app s t : lower (s ++ t) = lower s ++ lower t.
Proof. induction s as [|a s IH]; cbn [lower append]; [reflexivity|]. rewrite IH. reflexivity. Qed.

Lemma remove_char_app c s t : remove_char c (s ++ t) = remove_char c s ++ remove_char c t.
Proof.
  induction s as [|a s IH]; cbn [remove_char append]; [reflexivity|].
  destruct (Ascii.eqb a c); [assumption|]. rewrite IH. reflexivity.
Qed.

Lemma strip_app s t : strip_tenor (s ++ t) = strip_tenor s ++ strip_tenor t.
Proof. unfold strip_tenor. rewrite lower_app, !remove_char_app. reflexivity. Qed.

Lemma strip_cons a t : strip_tenor (String a t) = strip_tenor (String a "") ++ strip_tenor t.
Proof. change (String a t) with (String a "" ++ t). apply strip_app. Qed.

Lemma strip_ignored a : ignored a -> strip_tenor (String a "") = "".
Proof. intros [->|[->|[->| ->]]]; reflexivity. Qed.

Lemma lower_case_pair a b : case_pair a b -> lower_char a = lower_char b.
Proof.
  intros (k & Hk & -> & ->).
  assert (A : forallb (fun k => Ascii.eqb (lower_char (ascii_of_nat (65 + k))) (lower_char (ascii_of_nat (97 + k)))) (seq 0 26) = true)
    by (vm_compute; reflexivity).
  rewrite forallb_forall in A. apply Ascii.eqb_eq. apply A. apply in_seq. lia.
Qed.

Lemma strip_case a b : case_pair a b -> strip_tenor (String a "") = strip_tenor (String b "").
Proof. intros H. unfold strip_tenor. cbn [lower]. rewrite (lower_case_pair a b H). reflexivity. Qed.

Lemma strip_equiv s t : tenor_equiv s t -> strip_tenor s = strip_tenor t.
Proof.
  induction 1 as [s|s t H IH|s t u H1 IH1 H2 IH2|s1 s2 a H|s1 s2 a b H]; try congruence.
  - rewrite !strip_app, (strip_cons a s2), strip_ignored by assumption. reflexivity.
  - rewrite !strip_app, (strip_cons a s2), (strip_cons b s2), (strip_case a b) by assumption. reflexivity.
Qed.

Lemma clean_equiv s t : tenor_equiv s t -> clean_tenor s = clean_tenor t.
Proof. intros H. unfold clean_tenor. rewrite (strip_equiv s t H). reflexivity. Qed.

(* Conversely the stripped form is itself equivalent to the string. *)
Lemma app_nil_r s : s ++ "" = s.
Proof. induction s as [|a s IH]; cbn; [reflexivity|]. rewrite IH. reflexivity. Qed.

Lemma app_assoc_s (s t u : string) : (s ++ t) ++ u = s ++ (t ++ u).
Proof. induction s as [|a s IH]; cbn; [reflexivity|]. rewrite IH. reflexivity. Qed.

(* ---- grammar ---- *)

Lemma digit_iff a : is_digit a = true <-> exists v, digit a v.
Proof.
  unfold is_digit, digit. split.
  - intros H. exists (Z.of_nat (nat_of_ascii a - 48)), (nat_of_ascii a - 48)%nat.
    cbv zeta in H. split; [lia|]. split; [|reflexivity].
    replace (48 + (nat_of_ascii a - 48))%nat with (nat_of_ascii a) by lia. symmetry. apply ascii_nat_embedding.
  - intros (v & k & Hk & -> & _). rewrite nat_ascii_embedding by lia. lia.
Qed.

Lemma digit_value_spec a v : digit a v -> is_digit a = true /\ digit_value a = v.
Proof.
  intros H. split; [apply digit_iff; eauto|]. destruct H as (k & Hk & -> & ->).
  unfold digit_value. rewrite nat_ascii_embedding by lia. lia.
Qed.

Lemma is_digit_spec a : is_digit a = true -> digit a (digit_value a).
Proof.
  intros H. apply digit_iff in H as (v & H). pose proof (digit_value_spec a v H) as [_ E]. subst. assumption.
Qed.

Fixpoint all_digits (s : string) : bool :=
  match s with EmptyString => true | String a t => is_digit a && all_digits t end.

Lemma all_digits_app s t : all_digits (s ++ t) = all_digits s && all_digits t.
Proof. induction s as [|a s IH]; cbn; [reflexivity|]. rewrite IH. apply andb_assoc. Qed.

Lemma int_digits_app acc s t :
  int_digits acc (s ++ t) = let* n := int_digits acc s in int_digits n t.
Proof.
  revert acc. induction s as [|a s IH]; intros acc; cbn [int_digits append bind]; [reflexivity|].
  destruct (is_digit a); [apply IH|reflexivity].
Qed.

Lemma numeral_int s n : numeral s n -> int_digits 0 s = Ok n /\ all_digits s = true /\ s <> "".
Proof.
  induction 1 as [a v H|s n a v H [IH1 [IH2 IH3]] Hd].
  - destruct (digit_value_spec a v H) as [E1 E2]. cbn [int_digits all_digits]. rewrite E1, E2.
    split; [f_equal; lia|]. split; [reflexivity|discriminate].
  - destruct (digit_value_spec a v Hd) as [E1 E2].
    rewrite int_digits_app, IH1. cbn [bind int_digits]. rewrite E1, E2.
    split; [reflexivity|]. split; [rewrite all_digits_app, IH2; cbn; rewrite E1; reflexivity|].
    destruct s; discriminate.
Qed.

Lemma numeral_py_int s n : numeral s n -> py_int s = Ok n.
Proof.
  intros H. destruct (numeral_int s n H) as (E & _ & N). unfold py_int. destruct s; [contradiction|assumption].
Qed.

(* strings as snoc lists *)
Lemma string_snoc s : s = "" \/ exists t a, s = t ++ String a "".
Proof.
  induction s as [|a s IH]; [left; reflexivity|right].
  destruct IH as [->|(t & b & ->)]; [exists "", a; reflexivity|]. exists (String a t), b. reflexivity.
Qed.

Lemma length_app_s s t : String.length (s ++ t) = (String.length s + String.length t)%nat.
Proof. induction s as [|a s IH]; cbn; [reflexivity|]. rewrite IH. reflexivity. Qed.

Lemma all_digits_numeral s : all_digits s = true -> s <> "" -> exists n, numeral s n.
Proof.
  remember (String.length s) as k eqn:L. revert s L. induction k as [|k IH]; intros s L H N.
  - destruct s; [contradiction|discriminate].
  - destruct (string_snoc s) as [->|(t & a & ->)]; [contradiction|].
    rewrite all_digits_app in H. apply andb_true_iff in H as [Ht Ha]. cbn in Ha. rewrite andb_true_r in Ha.
    apply is_digit_spec in Ha. destruct t as [|b t].
    + exists (digit_value a). apply num_one. assumption.
    + destruct (IH (String b t)) as (n & Hn); [rewrite length_app_s in L; cbn in *; lia | assumption | discriminate |].
      exists (10 * n + digit_value a). apply num_more; assumption.
Qed.

Lemma span_digits_spec s d r : span_digits s = (d, r) ->
  s = d ++ r /\ all_digits d = true /\ match r with String a _ => is_digit a = false | EmptyString => True end.
Proof.
  revert d r. induction s as [|a s IH]; intros d r H; cbn in H.
  - injection H as <- <-. auto.
  - destruct (is_digit a) eqn:E.
    + destruct (span_digits s) as [d' r'] eqn:Es. injection H as <- <-.
      destruct (IH d' r' eq_refl) as (-> & A & B). cbn. rewrite E, A. auto.
    + injection H as <- <-. cbn. auto.
Qed.

Lemma span_digits_app d r : all_digits d = true -> match r with String a _ => is_digit a = false | EmptyString => True end ->
  span_digits (d ++ r) = (d, r).
Proof.
  intros H R. induction d as [|a d IH]; cbn.
  - destruct r as [|b r]; cbn; [reflexivity|]. rewrite R. reflexivity.
  - cbn in H. apply andb_true_iff in H as [Ha Hd]. rewrite Ha, (IH Hd). reflexivity.
Qed.

Lemma drop_last_snoc s a : drop_last (s ++ String a "") = s.
Proof.
  induction s as [|b s IH]; cbn [append drop_last]; [reflexivity|].
  rewrite IH. destruct s; reflexivity.
Qed.

Lemma at_end_spec t : at_end t = true -> t = "" \/ t = String newline "".
Proof.
  unfold at_end. intros H. apply orb_true_iff in H as [H|H]; apply String.eqb_eq in H; auto.
Qed.

Lemma matches_number_unit_spec x s : is_digit x = false -> matches_number_unit x s = true ->
  exists d, all_digits d = true /\ d <> "" /\ (s = d ++ String x "" \/ s = d ++ String x (String newline "")).
Proof.
  intros X. unfold matches_number_unit. destruct (span_digits s) as [d r] eqn:E.
  destruct (span_digits_spec _ _ _ E) as (-> & A & _). intros H. apply andb_true_iff in H as [N H].
  destruct r as [|a t]; [discriminate|]. apply andb_true_iff in H as [Ea Et]. apply Ascii.eqb_eq in Ea. subst a.
  exists d. split; [assumption|]. split; [intros ->; discriminate|].
  apply at_end_spec in Et as [->| ->]; auto.
Qed.

Lemma matches_number_unit_true x d : is_digit x = false -> all_digits d = true -> d <> "" ->
  matches_number_unit x (d ++ String x "") = true.
Proof.
  intros X A N. unfold matches_number_unit. rewrite span_digits_app by (assumption || exact X).
  rewrite Ascii.eqb_refl. destruct d; [contradiction|reflexivity].
Qed.

Lemma matches_number_unit_other x d y t : is_digit y = false -> all_digits d = true -> x <> y ->
  matches_number_unit x (d ++ String y t) = false.
Proof.
  intros Y A N. unfold matches_number_unit. rewrite span_digits_app by (assumption || exact Y).
  destruct (Ascii.eqb_spec y x); [congruence|]. cbn. apply andb_false_r.
Qed.

Lemma int_digits_bad acc s a t : is_digit a = false -> int_digits acc (s ++ String a t) = Err ValueError.
Proof.
  intros H. revert acc. induction s as [|b s IH]; intros acc; cbn [append int_digits].
  - rewrite H. reflexivity.
  - destruct (is_digit b); [apply IH|reflexivity].
Qed.

Lemma py_int_bad s a t : is_digit a = false -> py_int (s ++ String a t) = Err ValueError.
Proof.
  intros H. unfold py_int. destruct (s ++ String a t) eqn:E; [destruct s; discriminate|].
  rewrite <- E. apply int_digits_bad. assumption.
Qed.

Lemma split_y_digits d t : all_digits d = true -> split_y (d ++ String "y"%char t) = d :: split_y t.
Proof.
  intros H. induction d as [|a d IH]; cbn [append split_y].
  - reflexivity.
  - cbn in H. apply andb_true_iff in H as [Ha Hd].
    destruct (Ascii.eqb_spec a "y"%char) as [->|_]; [discriminate|]. rewrite (IH Hd). reflexivity.
Qed.

Lemma split_y_nosep d : all_digits d = true -> split_y d = [d].
Proof.
  intros H. induction d as [|a d IH]; cbn [split_y]; [reflexivity|].
  cbn in H. apply andb_true_iff in H as [Ha Hd].
  destruct (Ascii.eqb_spec a "y"%char) as [->|_]; [discriminate|]. rewrite (IH Hd). reflexivity.
Qed.

Lemma split_y_nosep_m d : all_digits d = true -> split_y (d ++ "m") = [d ++ "m"].
Proof.
  intros H. induction d as [|a d IH]; cbn [split_y append]; [reflexivity|].
  cbn in H. apply andb_true_iff in H as [Ha Hd].
  destruct (Ascii.eqb_spec a "y"%char) as [->|_]; [discriminate|]. rewrite (IH Hd). reflexivity.
Qed.

Lemma misc_none d t : d <> "" -> all_digits d = true ->
  find (fun kv => String.eqb (d ++ t) (fst kv)) misc_tenors = None.
Proof.
  intros N A. destruct d as [|a d]; [contradiction|]. cbn in A. apply andb_true_iff in A as [Ha _].
  destruct (find _ misc_tenors) eqn:E; [|reflexivity]. apply find_some in E as [Hin Heq].
  apply String.eqb_eq in Heq. cbn in Hin. cbn in Heq.
  exfalso. repeat (destruct Hin as [<-|Hin]; [cbn in Heq; injection Heq as -> _; discriminate|]). contradiction.
Qed.

Lemma unit_ok x d n : In x ["d"%char; "w"%char; "m"%char; "y"%char] -> numeral d n ->
  find (fun kv => String.eqb (d ++ String x "") (fst kv)) misc_tenors = None /\
  py_int (drop_last (d ++ String x "")) = Ok n /\
  forall y, In y ["d"%char; "w"%char; "m"%char; "y"%char] ->
    matches_number_unit y (d ++ String x "") = Ascii.eqb y x.
Proof.
  intros Hx Hn. destruct (numeral_int d n Hn) as (_ & A & N).
  assert (X : is_digit x = false) by (repeat (destruct Hx as [<-|Hx]; [reflexivity|]); contradiction).
  split; [apply misc_none; assumption|]. split; [rewrite drop_last_snoc; apply numeral_py_int; assumption|].
  intros y Hy. destruct (Ascii.eqb_spec y x) as [->|E].
  - apply matches_number_unit_true; assumption.
  - apply matches_number_unit_other; assumption.
Qed.

Lemma years_months_ok s n t m : numeral s n -> numeral t m ->
  tenor_to_date_offset (s ++ "y" ++ t ++ "m") = Ok (months_offset (12 * n + m)).
Proof.
  intros Hs Ht. destruct (numeral_int s n Hs) as (_ & As & Ns). destruct (numeral_int t m Ht) as (_ & At & Nt).
  unfold tenor_to_date_offset. rewrite misc_none by assumption. cbn [append].
  rewrite !matches_number_unit_other by (assumption || reflexivity || discriminate).
  assert (Ey : matches_number_unit "y"%char (s ++ String "y"%char (t ++ "m")) = false).
  { unfold matches_number_unit. rewrite span_digits_app by (assumption || reflexivity). rewrite Ascii.eqb_refl.
    destruct t as [|a t]; [contradiction|]. cbn in At. apply andb_true_iff in At as [Ha _].
    unfold at_end. cbn. destruct (Ascii.eqb_spec a "010"%char) as [->|]; [discriminate|]. apply andb_false_r. }
  rewrite Ey.
  assert (Em : matches_years_months (s ++ String "y"%char (t ++ "m")) = true).
  { unfold matches_years_months. rewrite span_digits_app by (assumption || reflexivity). rewrite Ascii.eqb_refl.
    rewrite (matches_number_unit_true "m"%char t) by (assumption || reflexivity). destruct s; [contradiction|reflexivity]. }
  rewrite Em.
  replace (s ++ String "y"%char (t ++ "m")) with ((s ++ String "y"%char t) ++ String "m"%char "")
    by (rewrite app_assoc_s; reflexivity).
  rewrite drop_last_snoc, split_y_digits, split_y_nosep by assumption.
  rewrite (numeral_py_int s n Hs), (numeral_py_int t m Ht). cbn [bind]. do 2 f_equal. lia.
Qed.

Lemma tenor_accepts s a b : tenor_means s a b -> tenor_to_date_offset s = Ok {| off_days := a; off_months := b |}.
Proof.
  intros H. destruct H as [| | | | |s n H|s n H|s n H|s n H|s n t m H H']; try reflexivity.
  - destruct (unit_ok "d"%char s n) as (E1 & E2 & E3); [cbn; auto|assumption|].
    unfold tenor_to_date_offset. rewrite E1, !E3, E2 by (cbn; auto). reflexivity.
  - destruct (unit_ok "w"%char s n) as (E1 & E2 & E3); [cbn; auto|assumption|].
    unfold tenor_to_date_offset. rewrite E1, !E3, E2 by (cbn; auto). reflexivity.
  - destruct (unit_ok "m"%char s n) as (E1 & E2 & E3); [cbn; auto|assumption|].
    unfold tenor_to_date_offset. rewrite E1, !E3, E2 by (cbn; auto). reflexivity.
  - destruct (unit_ok "y"%char s n) as (E1 & E2 & E3); [cbn; auto|assumption|].
    unfold tenor_to_date_offset. rewrite E1, !E3, E2 by (cbn; auto 6). reflexivity.
  - apply years_months_ok; assumption.
Qed.

Lemma number_unit_cases x s : In x ["d"%char; "w"%char; "m"%char; "y"%char] -> matches_number_unit x s = true ->
  (exists d n, s = d ++ String x "" /\ numeral d n /\ py_int (drop_last s) = Ok n) \/ py_int (drop_last s) = Err ValueError.
Proof.
  intros Hx H.
  assert (X : is_digit x = false) by (repeat (destruct Hx as [<-|Hx]; [reflexivity|]); contradiction).
  apply matches_number_unit_spec in H as (d & A & N & [->| ->]); [| |assumption].
  - left. destruct (all_digits_numeral d A N) as (n & Hn). exists d, n. split; [reflexivity|]. split; [assumption|].
    rewrite drop_last_snoc. apply numeral_py_int. assumption.
  - right. replace (d ++ String x (String newline "")) with ((d ++ String x "") ++ String newline "")
      by (rewrite app_assoc_s; reflexivity).
    rewrite drop_last_snoc. apply py_int_bad. assumption.
Qed.

Lemma years_months_cases s : matches_years_months s = true ->
  (exists d n t m, s = d ++ "y" ++ t ++ "m" /\ numeral d n /\ numeral t m) \/
  (match split_y (drop_last s) with
        | [ys; ms] => let* y := py_int ys in let* m := py_int ms in Ok (months_offset (y * 12 + m))
        | _ => Err ValueError
        end = Err ValueError).
Proof.
  unfold matches_years_months. destruct (span_digits s) as [d r] eqn:E.
  destruct (span_digits_spec _ _ _ E) as (-> & A & _). intros H. apply andb_true_iff in H as [N H].
  destruct r as [|a t]; [discriminate|]. apply andb_true_iff in H as [Ea Et]. apply Ascii.eqb_eq in Ea. subst a.
  assert (Nd : d <> "") by (intros ->; discriminate).
  destruct (all_digits_numeral d A Nd) as (n & Hn).
  apply matches_number_unit_spec in Et as (t' & At & Nt & [->| ->]); [| |reflexivity].
  - left. destruct (all_digits_numeral t' At Nt) as (m & Hm). exists d, n, t', m. auto.
  - right. replace (d ++ String "y"%char (t' ++ String "m"%char (String newline "")))
      with ((d ++ String "y"%char (t' ++ "m")) ++ String newline "").
    2:{ rewrite app_assoc_s. cbn [append]. rewrite app_assoc_s. reflexivity. }
    rewrite drop_last_snoc, split_y_digits by assumption. rewrite split_y_nosep_m by assumption.
    rewrite (numeral_py_int d n Hn). cbn [bind]. rewrite py_int_bad by reflexivity. reflexivity.
Qed.

Lemma tenor_dichotomy s :
  (exists a b, tenor_means s a b) \/ tenor_to_date_offset s = Err ValueError.
Proof.
  destruct (find (fun kv => String.eqb s (fst kv)) misc_tenors) as [[k o]|] eqn:Hm.
  - left. pose proof Hm as Hm'. apply find_some in Hm' as [Hin Heq]. apply String.eqb_eq in Heq. cbn in Heq. subst k.
    cbn in Hin. destruct Hin as [[= <- <-]|[[= <- <-]|[[= <- <-]|[[= <- <-]|[[= <- <-]|[]]]]]];
    do 2 eexists; constructor.
  - assert (G : forall x, In x ["d"%char; "w"%char; "m"%char; "y"%char] -> matches_number_unit x s = true ->
       (exists d n, s = d ++ String x "" /\ numeral d n) \/ py_int (drop_last s) = Err ValueError).
    { intros x Hx H. destruct (number_unit_cases x s Hx H) as [(d & n & E & Hn & _)|H']; eauto. }
    unfold tenor_to_date_offset. rewrite Hm.
    destruct (matches_number_unit "d"%char s) eqn:Ed.
    { destruct (G "d"%char) as [(d & n & -> & Hn)|E]; [cbn; auto|assumption| |].
      - left. do 2 eexists. apply tm_days. eassumption.
      - right. rewrite E. reflexivity. }
    destruct (matches_number_unit "w"%char s) eqn:Ew.
    { destruct (G "w"%char) as [(d & n & -> & Hn)|E]; [cbn; auto|assumption| |].
      - left. do 2 eexists. apply tm_weeks. eassumption.
      - right. rewrite E. reflexivity. }
    destruct (matches_number_unit "m"%char s) eqn:Em.
    { destruct (G "m"%char) as [(d & n & -> & Hn)|E]; [cbn; auto|assumption| |].
      - left. do 2 eexists. apply tm_months. eassumption.
      - right. rewrite E. reflexivity. }
    destruct (matches_number_unit "y"%char s) eqn:Ey.
    { destruct (G "y"%char) as [(d & n & -> & Hn)|E]; [cbn; auto 6|assumption| |].
      - left. do 2 eexists. apply tm_years. eassumption.
      - right. rewrite E. reflexivity. }
    destruct (matches_years_months s) eqn:Eym; [|right; reflexivity].
    destruct (years_months_cases s Eym) as [(d & n & t & m & -> & Hn & Hm')|E].
    + left. do 2 eexists. apply tm_years_months; eassumption.
    + right. assumption.
Qed.

Lemma tenor_accepts_iff s a b :
  tenor_to_date_offset s = Ok {| off_days := a; off_months := b |} <-> tenor_means s a b.
Proof.
  split; [|apply tenor_accepts]. intros H. destruct (tenor_dichotomy s) as [(a' & b' & M)|E]; [|congruence].
  pose proof (tenor_accepts s a' b' M) as H'. rewrite H in H'. injection H' as -> ->. assumption.
Qed.

(* ---- stability of cleaning ---- *)

(* first characters of all alternatives are lower case letters *)
Lemma match_here_digit a t : is_digit a = true -> match_here (String a t) = None.
Proof.
  intros H. unfold match_here. destruct (find _ alternatives) as [p|] eqn:E; [|reflexivity].
  apply find_some in E as [Hin Hs]. exfalso. cbn in Hin.
  repeat (destruct Hin as [<-|Hin];
    [cbn [starts_with] in Hs; apply andb_true_iff in Hs as [Hs _]; apply Ascii.eqb_eq in Hs; subst a; discriminate|]).
  contradiction.
Qed.

Lemma subst_digits d t : all_digits d = true -> subst_units 0 (d ++ t) = d ++ subst_units 0 t.
Proof.
  intros H. induction d as [|a d IH]; cbn [append]; [reflexivity|].
  cbn in H. apply andb_true_iff in H as [Ha Hd]. cbn [subst_units].
  rewrite match_here_digit by assumption. rewrite (IH Hd). reflexivity.
Qed.

Lemma strip_digits d : all_digits d = true -> strip_tenor d = d.
Proof.
  intros H. induction d as [|a d IH]; [reflexivity|]. cbn in H. apply andb_true_iff in H as [Ha Hd].
  rewrite strip_cons, (IH Hd).
  assert (E : strip_tenor (String a "") = String a "").
  { apply digit_iff in Ha as (v & k & Hk & -> & _).
    assert (A : forallb (fun k => String.eqb (strip_tenor (String (ascii_of_nat (48 + k)) "")) (String (ascii_of_nat (48 + k)) "")) (seq 0 10) = true)
      by (vm_compute; reflexivity).
    rewrite forallb_forall in A. apply String.eqb_eq. apply A. apply in_seq. lia. }
  rewrite E. reflexivity.
Qed.

Lemma match_here_y_digit a t : is_digit a = true -> match_here (String "y"%char (String a t)) = None.
Proof.
  intros H. unfold match_here. destruct (find _ alternatives) as [p|] eqn:E; [|reflexivity].
  apply find_some in E as [Hin Hs]. exfalso. cbn in Hin.
  repeat (destruct Hin as [<-|Hin];
    [cbn [starts_with] in Hs; try discriminate Hs; apply andb_true_iff in Hs as [Hs1 Hs]; try discriminate Hs1; apply andb_true_iff in Hs as [Hs _]; apply Ascii.eqb_eq in Hs; subst a; discriminate|]).
  contradiction.
Qed.

Lemma clean_recognised s a b : tenor_means s a b -> clean_tenor s = s.
Proof.
  intros H. destruct H as [| | | | |s n H|s n H|s n H|s n H|s n t m H H']; try reflexivity.
  1-4: destruct (numeral_int s n H) as (_ & A & _); unfold clean_tenor; rewrite strip_app, strip_digits by assumption;
       change (strip_tenor _) with (strip_tenor "d") || idtac; rewrite subst_digits by assumption; reflexivity.
  destruct (numeral_int s n H) as (_ & A & _). destruct (numeral_int t m H') as (_ & A' & N').
  unfold clean_tenor. rewrite !strip_app, (strip_digits s), (strip_digits t) by assumption.
  change (strip_tenor "y") with "y". change (strip_tenor "m") with "m".
  rewrite subst_digits by assumption. f_equal.
  destruct t as [|c t]; [contradiction|]. pose proof A' as A''. cbn in A''. apply andb_true_iff in A'' as [Hc Ht].
  cbn [append]. cbn [subst_units]. rewrite match_here_y_digit by assumption. f_equal.
  change (subst_units 0 (String c t ++ "m") = String c t ++ "m").
  rewrite subst_digits by assumption. reflexivity.
Qed.

Lemma is_digit_char a : is_digit a = true -> exists j, (j <= 9)%nat /\ a = ascii_of_nat (48 + j).
Proof. intros H. destruct (is_digit_spec a H) as (k & L & E & _). eauto. Qed.
Lemma subst_word_digits w k t : In (w, k) unit_words -> match t with String a _ => is_digit a = true | EmptyString => True end ->
  subst_units 0 (w ++ t) = k ++ subst_units 0 t.
Proof.
  intros W T. cbn in W. repeat (destruct W as [W|W]; [injection W as <- <-|]); try contradiction;
    (destruct t as [|a t]; [reflexivity|]); destruct (is_digit_char a T) as (j & J & ->);
    do 10 (destruct j as [|j]; [reflexivity|]); lia.
Qed.

Lemma clean_word s n w k : numeral s n -> In (w, k) unit_words -> clean_tenor (s ++ w) = s ++ k.
Proof.
  intros H W. destruct (numeral_int s n H) as (_ & A & _). unfold clean_tenor. rewrite strip_app, strip_digits by assumption.
  rewrite subst_digits by assumption. f_equal. cbn in W. repeat (destruct W as [W|W]; [injection W as <- <-; reflexivity|]). destruct W.
Qed.

Lemma clean_years_months_words s n t m wy wm : numeral s n -> numeral t m -> In (wy, "y") unit_words -> In (wm, "m") unit_words ->
  clean_tenor (s ++ wy ++ t ++ wm) = s ++ "y" ++ t ++ "m".
Proof.
  intros H H' Y M. destruct (numeral_int s n H) as (_ & A & _). destruct (numeral_int t m H') as (_ & A' & N').
  unfold clean_tenor. rewrite !strip_app, (strip_digits s), (strip_digits t) by assumption.
  assert (SW : forall w k, In (w, k) unit_words -> strip_tenor w = w).
  { intros w k W. cbn in W. repeat (destruct W as [W|W]; [injection W as <- <-; reflexivity|]). destruct W. }
  rewrite (SW _ _ Y), (SW _ _ M). rewrite subst_digits by assumption. f_equal.
  destruct t as [|c t]; [contradiction|]. pose proof A' as A''. cbn in A''. apply andb_true_iff in A'' as [Hc Ht].
  rewrite (subst_word_digits wy "y") by assumption. f_equal. rewrite subst_digits by assumption. f_equal.
  rewrite <- (app_nil_r wm), (subst_word_digits wm "m" ""); [reflexivity|exact M|exact I].
Qed.

Lemma clean_name w k : In (w, k) tenor_names -> clean_tenor w = k.
Proof. intros W. cbn in W. repeat (destruct W as [W|W]; [injection W as <- <-; reflexivity|]). destruct W. Qed.

(* ---- FX dates ---- *)

Lemma implied_spec d o c :
  calc_implied_business_day_offset d o c = if o <=? d then Ok 0 else Err AssertionError.
Proof.
  unfold calc_implied_business_day_offset. destruct (Z.leb_spec o d) as [H|H]; cbn [guard bind]; [|reflexivity].
  destruct (Z.to_nat (o - d)); cbn [implied_loop]; destruct (Z.ltb_spec d o); try lia; reflexivity.
Qed.

Lemma spot_offset_cases pair : get_fx_spot_day_offset pair = None \/ get_fx_spot_day_offset pair = Some 1 \/ get_fx_spot_day_offset pair = Some 2.
Proof.
  unfold get_fx_spot_day_offset. destruct (_ =? 6)%nat; [|auto]. destruct (existsb _ _); auto.
Qed.

Lemma spot_offset_six pair : String.length pair = 6%nat ->
  get_fx_spot_day_offset pair = Some 1 \/ get_fx_spot_day_offset pair = Some 2.
Proof.
  intros H. unfold get_fx_spot_day_offset. rewrite H. cbn [Nat.eqb]. destruct (existsb (String.eqb pair) one_day_pairs); auto.
Qed.

Lemma one_day_swap a b : String.length a = 3%nat -> String.length b = 3%nat ->
  existsb (String.eqb (a ++ b)) one_day_pairs = true -> existsb (String.eqb (b ++ a)) one_day_pairs = true.
Proof.
  intros La Lb H. apply existsb_exists in H as (p & Hin & E). apply String.eqb_eq in E.
  destruct a as [|a1 [|a2 [|a3 [|]]]]; try discriminate. destruct b as [|b1 [|b2 [|b3 [|]]]]; try discriminate.
  cbn in E. cbn in Hin.
  repeat (destruct Hin as [<-|Hin]; [injection E as -> -> -> -> -> ->; reflexivity|]). contradiction.
Qed.

Lemma spot_offset_swap a b : String.length a = 3%nat -> String.length b = 3%nat ->
  get_fx_spot_day_offset (a ++ b) = get_fx_spot_day_offset (b ++ a).
Proof.
  intros La Lb. unfold get_fx_spot_day_offset. rewrite !length_app_s, La, Lb. cbn [Nat.add Nat.eqb].
  pose proof (one_day_swap a b La Lb). pose proof (one_day_swap b a Lb La).
  destruct (existsb (String.eqb (a ++ b)) one_day_pairs), (existsb (String.eqb (b ++ a)) one_day_pairs); try reflexivity.
  - specialize (H eq_refl). discriminate.
  - specialize (H0 eq_refl). discriminate.
Qed.

Lemma resolve_curve_only pair c cd o : wf_calendar c -> String.length pair = 6%nat ->
  exists lag sd s, get_fx_spot_day_offset pair = Some lag /\ (lag = 1 \/ lag = 2) /\
    resolve_fx_curve_dates pair c (Some cd) o None = Ok (cd, Some lag, sd) /\
    first_on_or_after c cd s /\ business_day c sd /\ s < sd /\ Z.of_nat (business_days_between c s sd) = lag.
Proof.
  intros W L.
  assert (E : exists lag, get_fx_spot_day_offset pair = Some lag /\ (lag = 1 \/ lag = 2)).
  { destruct (spot_offset_six pair L) as [E|E]; rewrite E; eauto. }
  destruct E as (lag & E & Hl). destruct (workday_count c cd lag W ltac:(lia)) as (s & sd & F & Wd & B & Le & Cn).
  exists lag, sd, s. split; [assumption|]. split; [assumption|].
  assert (R : resolve_fx_curve_dates pair c (Some cd) o None = Ok (cd, Some lag, sd)).
  { unfold resolve_fx_curve_dates. rewrite E. unfold busday_offset_opt. fold (workday cd lag c). rewrite Wd. destruct o; reflexivity. }
  split; [assumption|]. split; [apply following_iff; assumption|]. split; [assumption|]. split; [|lia].
  destruct (Z.eq_dec s sd) as [->|]; [|lia]. unfold business_days_between, days_after in Cn. rewrite Z.sub_diag in Cn. cbn in Cn. lia.
Qed.

Lemma resolve_spot_only pair c sd o : wf_calendar c -> String.length pair = 6%nat ->
  exists lag cd s, get_fx_spot_day_offset pair = Some lag /\
    resolve_fx_curve_dates pair c None o (Some sd) = Ok (cd, Some lag, sd) /\
    last_on_or_before c sd s /\ business_day c cd /\ busday_offset c cd lag Following = Ok s.
Proof.
  intros W L.
  assert (E : exists lag, get_fx_spot_day_offset pair = Some lag).
  { destruct (spot_offset_six pair L) as [E|E]; rewrite E; eauto. }
  destruct E as (lag & E).
  destruct (busday_offset_inverse c sd (- lag) Preceding Following W) as (s & cd & Hs & Hcd & Hinv); try discriminate.
  rewrite Z.opp_involutive in Hinv.
  exists lag, cd, s. split; [assumption|].
  assert (R : resolve_fx_curve_dates pair c None o (Some sd) = Ok (cd, Some lag, sd)).
  { unfold resolve_fx_curve_dates. rewrite E. cbn [option_map busday_offset_opt]. rewrite Hcd. reflexivity. }
  split; [assumption|]. split; [apply preceding_iff; assumption|]. split; [|assumption].
  destruct (busday_offset_ok c sd (- lag) Preceding W) as (x & Ex & Bx); [discriminate|]. congruence.
Qed.

Lemma resolve_roundtrip pair c cd o o' lag sd : wf_calendar c -> business_day c cd ->
  resolve_fx_curve_dates pair c (Some cd) o None = Ok (cd, Some lag, sd) ->
  resolve_fx_curve_dates pair c None o' (Some sd) = Ok (cd, Some lag, sd).
Proof.
  intros W B H. unfold resolve_fx_curve_dates in *.
  assert (H' : bind (busday_offset_opt c cd (get_fx_spot_day_offset pair) Following)
     (fun sd => Ok (cd, get_fx_spot_day_offset pair, sd)) = Ok (cd, Some lag, sd)) by (destruct o; exact H).
  clear H. apply bind_ok in H' as (x & Hx & E). injection E as E <-. rewrite E in *. cbn [busday_offset_opt option_map] in *.
  destruct (busday_offset_inverse c cd lag Following Preceding W) as (s & e & Hs & He & Hinv); try discriminate.
  rewrite Hx in He. injection He as <-. rewrite roll_id in Hs by (assumption || discriminate). injection Hs as <-.
  rewrite Hinv. reflexivity.
Qed.

Lemma resolve_all_three pair c cd o sd : resolve_fx_curve_dates pair c (Some cd) (Some o) (Some sd) = Err TypeError.
Proof. reflexivity. Qed.

Lemma resolve_both_dates pair c cd sd :
  resolve_fx_curve_dates pair c (Some cd) None (Some sd) = if sd <=? cd then Ok (cd, Some 0, sd) else Err AssertionError.
Proof. unfold resolve_fx_curve_dates. rewrite implied_spec. destruct (sd <=? cd); reflexivity. Qed.

Lemma resolve_offset_ignored pair c cd sd o o' :
  resolve_fx_curve_dates pair c (Some cd) o None = resolve_fx_curve_dates pair c (Some cd) o' None /\
  resolve_fx_curve_dates pair c None o (Some sd) = resolve_fx_curve_dates pair c None o' (Some sd).
Proof. unfold resolve_fx_curve_dates. destruct o, o'; auto. Qed.

Lemma resolve_no_dates pair c o : resolve_fx_curve_dates pair c None o None = Err AttributeError.
Proof. reflexivity. Qed.

Lemma clean_recognised_twice s o :
  tenor_to_date_offset (clean_tenor s) = Ok o -> clean_tenor (clean_tenor s) = clean_tenor s.
Proof.
  intros H. destruct o as [a b]. apply tenor_accepts_iff in H. eapply clean_recognised. eassumption.
Qed.
