(* Lemmas on the numbers in column names. *)
From Coq Require Import ZArith Reals String Ascii List Bool Lra Lia.
From Verif Require Import Base TenorModel BootModel EnumModel CurveModel ColumnModel ColumnSpec ColumnProofs ColumnFloatProofs.
Import ListNotations.
Open Scope string_scope.

Definition all_chars (p : ascii -> bool) (s : string) : Prop := forall a, has_char a s -> p a = true.
Lemma all_chars_app (p : ascii -> bool) (a b : string) : all_chars p (a ++ b) <-> all_chars p a /\ all_chars p b.
Proof. unfold all_chars. split; [intros H; split; intros c Hc; apply H, has_char_app; auto|]. intros [H1 H2] c Hc. apply has_char_app in Hc as [Hc|Hc]; auto. Qed.
Lemma all_chars_cons (p : ascii -> bool) (a : ascii) (s : string) : all_chars p (String a s) <-> p a = true /\ all_chars p s.
Proof. unfold all_chars. split; [intros H; split; [apply H, has_char_cons; auto|intros c Hc; apply H, has_char_cons; auto]|]. intros [H1 H2] c Hc. apply has_char_cons in Hc as [<-|Hc]; auto. Qed.
Lemma all_chars_mono (p q : ascii -> bool) (s : string) : (forall a, p a = true -> q a = true) -> all_chars p s -> all_chars q s.
Proof. intros H K a Ha. apply H, K, Ha. Qed.
Lemma only_digits_chars (s : string) : only_digits s = true <-> all_chars is_digit s.
Proof. induction s as [|a s IH]; [split; [intros _ b []|reflexivity]|]. cbn [only_digits]. rewrite andb_true_iff, IH, all_chars_cons. tauto. Qed.

(* ---- float() ---- *)
Definition ends_number (s : string) : Prop := match s with EmptyString => True | String a _ => is_digit a = false /\ Ascii.eqb a "_" = false end.
Lemma more_digits_app (s r : string) : only_digits s = true -> ends_number r -> forall acc n, more_digits acc n (s ++ r) = (number_from acc s, (n + String.length s)%nat, r).
Proof.
  intros Hs Hr. induction s as [|a s IH]; intros acc n.
  - cbn [append number_from String.length]. rewrite Nat.add_0_r. destruct r as [|a r]; [reflexivity|]. destruct Hr as [H1 H2]. cbn [more_digits]. rewrite H1, H2. reflexivity.
  - cbn [only_digits] in Hs. apply andb_true_iff in Hs as [Ha Hs]. cbn [append more_digits number_from String.length]. rewrite Ha, (IH Hs). f_equal. f_equal. lia.
Qed.
Lemma digits_app (s r : string) : only_digits s = true -> s <> "" -> ends_number r -> digits (s ++ r) = Some (number s, String.length s, r).
Proof.
  intros Hs N Hr. destruct s as [|a s]; [contradiction|]. cbn [only_digits] in Hs. apply andb_true_iff in Hs as [Ha Hs]. cbn [append digits]. rewrite Ha, (more_digits_app s r Hs Hr). reflexivity.
Qed.
Lemma number_from_app (a b : string) : forall acc, number_from acc (a ++ b) = number_from (number_from acc a) b.
Proof. induction a as [|x a IH]; intros acc; [reflexivity|]. cbn. apply IH. Qed.

Lemma lstrip_none (s : string) : all_chars (fun a => negb (is_blank a)) s -> lstrip s = s.
Proof. destruct s as [|a s]; [reflexivity|]. rewrite all_chars_cons. intros [H _]. cbn [lstrip]. apply negb_true_iff in H. rewrite H. reflexivity. Qed.
Lemma rstrip_none (s : string) : all_chars (fun a => negb (is_blank a)) s -> rstrip s = s.
Proof.
  induction s as [|a s IH]; [reflexivity|]. rewrite all_chars_cons. intros [H K]. cbn [rstrip]. rewrite (IH K). destruct s; [|reflexivity]. apply negb_true_iff in H. rewrite H. reflexivity.
Qed.
Lemma strip_none (s : string) : all_chars (fun a => negb (is_blank a)) s -> strip s = s.
Proof. intros H. unfold strip. rewrite lstrip_none by exact H. apply rstrip_none, H. Qed.
Lemma digit_cases (p : ascii -> bool) : (forall n, (48 <= n <= 57)%nat -> p (ascii_of_nat n) = true) -> forall a, is_digit a = true -> p a = true.
Proof.
  intros H a Ha. unfold is_digit in Ha. apply andb_true_iff in Ha as [H1 H2]. apply Nat.leb_le in H1. apply Nat.leb_le in H2. rewrite <- (ascii_nat_embedding a). apply H. lia.
Qed.
Lemma digit_not_blank (a : ascii) : is_digit a = true -> negb (is_blank a) = true.
Proof. apply (digit_cases (fun a => negb (is_blank a))). intros n Hn. do 10 (destruct n as [|n]; [lia|]). do 38 (destruct n as [|n]; [lia|]). do 10 (destruct n as [|n]; [reflexivity|]). lia. Qed.
Definition number_char (a : ascii) : bool := is_digit a || existsb (Ascii.eqb a) ["+"; "-"; "."; "_"; "e"; "E"]%char || is_blank a.
(* digits, sign and point *)
Definition plain_char (a : ascii) : bool := is_digit a || existsb (Ascii.eqb a) ["+"; "-"; "."]%char.
Lemma plain_not_blank (a : ascii) : plain_char a = true -> negb (is_blank a) = true.
Proof.
  unfold plain_char. rewrite orb_true_iff. intros [H|H]; [apply digit_not_blank, H|]. cbn [existsb] in H. rewrite !orb_true_iff in H. destruct H as [H|[H|[H|H]]]; try discriminate H; apply Ascii.eqb_eq in H as ->; reflexivity.
Qed.
Lemma sign_plain (b : bool) (g : string) : sign_text b g -> all_chars plain_char g.
Proof. destruct b; cbn; [intros ->|intros [->| ->]]; intros a Ha; cbn in Ha; intuition (subst; reflexivity). Qed.
Lemma digits_plain (s : string) : only_digits s = true -> all_chars plain_char s.
Proof. rewrite only_digits_chars. apply all_chars_mono. intros a H. unfold plain_char. rewrite H. reflexivity. Qed.
Lemma decimal_plain (b : bool) (m : Z) (k : nat) (t : string) : decimal b m k t -> all_chars plain_char t.
Proof.
  intros (g & i & f & Hg & Hi & _ & Hf & _ & _ & [->|[_ ->]]); rewrite ?all_chars_app; repeat split; try (apply digits_plain; assumption); try (eapply sign_plain; eassumption). intros a Ha. cbn in Ha. destruct Ha as [<-|[]]. reflexivity.
Qed.
Lemma digit_sign (a : ascii) : is_digit a = true -> Ascii.eqb a "-" = false /\ Ascii.eqb a "+" = false.
Proof. intros H. split; apply Ascii.eqb_neq; intros ->; discriminate H. Qed.
Lemma signed_app (b : bool) (g i r : string) : sign_text b g -> only_digits i = true -> i <> "" -> signed (g ++ i ++ r) = (b, i ++ r).
Proof.
  intros Hg Hi N. destruct i as [|a i]; [contradiction|]. cbn [only_digits] in Hi. apply andb_true_iff in Hi as [Ha _]. destruct (digit_sign a Ha) as [S1 S2].
  destruct b; cbn in Hg; [subst g; reflexivity|]. destruct Hg as [->| ->]; [|reflexivity]. cbn [append signed]. rewrite S1, S2. reflexivity.
Qed.
Lemma parse_decimal (b : bool) (m : Z) (k : nat) (t : string) : decimal b m k t -> parse_float t = Some (neg_if b m, (- Z.of_nat k)%Z).
Proof.
  intros D. pose proof (decimal_plain _ _ _ _ D) as P. unfold parse_float. rewrite strip_none by (revert P; apply all_chars_mono, plain_not_blank). clear P.
  destruct D as (g & i & f & Hg & Hi & Ni & Hf & -> & -> & [->|[-> ->]]).
  - destruct i as [|c0 i0].
    { cbn [append] in Ni |- *. replace (signed (g ++ String "." f)) with (b, String "." f) by (destruct b; cbn in Hg; [subst g; reflexivity|]; destruct Hg as [->| ->]; reflexivity).
      unfold digits at 1. cbn [is_digit]. change (is_digit ".") with false. cbv iota. cbn [Ascii.eqb Bool.eqb]. unfold fraction.
      pose proof (digits_app f "" Hf Ni I) as E. rewrite app_nil_s in E. rewrite E. pose proof (more_digits_app f "" Hf I 0%Z 0) as M. rewrite app_nil_s in M. rewrite M. cbn [exponent option_map fst snd Nat.add]. unfold number. reflexivity. }
    set (i := String c0 i0) in *. assert (Ni' : i <> "") by discriminate. clear Ni. rename Ni' into Ni. clearbody i.
    rewrite (signed_app b g i ("." ++ f) Hg Hi Ni). rewrite (digits_app i ("." ++ f) Hi Ni) by (split; reflexivity). cbn [append]. unfold number. rewrite number_from_app. unfold after_digits, fraction. cbn [Ascii.eqb Bool.eqb]. destruct f as [|c f].
    + reflexivity.
    + pose proof (digits_app (String c f) "" Hf ltac:(discriminate) I) as E. rewrite app_nil_s in E. rewrite E. pose proof (more_digits_app (String c f) "" Hf I (number_from 0 i) 0) as M. rewrite app_nil_s in M. rewrite M. cbn [exponent option_map fst snd Nat.add]. unfold number. reflexivity.
  - rewrite app_nil_s in Ni. pose proof (signed_app b g i "" Hg Hi Ni) as S. rewrite !app_nil_s in S. rewrite S. pose proof (digits_app i "" Hi Ni I) as E. rewrite app_nil_s in E. rewrite E. cbn. rewrite app_nil_s. reflexivity.
Qed.
Lemma py_float_decimal (b : bool) (m : Z) (k : nat) (t : string) : decimal b m k t -> py_float t = Ok (rn (decimal_value b m k)).
Proof.
  intros D. unfold py_float. rewrite (parse_decimal b m k t D). f_equal. f_equal. unfold decimal_value, Rdiv, ten_to. f_equal. destruct k as [|k]; [cbn; field|]. cbn [Z.of_nat Z.opp powerRZ]. rewrite SuccNat2Pos.id_succ. reflexivity.
Qed.

(* the texts float() refuses *)
Lemma more_digits_split (s : string) : forall acc n v k r, more_digits acc n s = (v, k, r) -> exists p, s = p ++ r /\ all_chars number_char p.
Proof.
  assert (D : forall a, is_digit a = true -> number_char a = true) by (intros a H; unfold number_char; rewrite H; reflexivity).
  assert (Z0 : all_chars number_char "") by (intros a []).
  enough (G : forall n s, (String.length s <= n)%nat -> forall acc m v k r, more_digits acc m s = (v, k, r) -> exists p, s = p ++ r /\ all_chars number_char p) by (intros acc m v k r; apply (G (String.length s) s (le_n _))).
  clear s. induction n as [|n IH]; intros s L acc m v k r; (destruct s as [|a s]; [intros H; injection H as _ _ <-; exists ""; auto|]); [cbn in L; lia|]. cbn [String.length] in L. cbn [more_digits]. destruct (is_digit a) eqn:Da.
  - intros H. apply IH in H as (p & -> & P); [|lia]. exists (String a p). split; [reflexivity|]. apply all_chars_cons. auto.
  - destruct (Ascii.eqb a "_") eqn:Ea; [|intros H; injection H as _ _ <-; exists ""; auto]. destruct s as [|b s]; [intros H; injection H as _ _ <-; exists ""; auto|]. destruct (is_digit b) eqn:Db; [|intros H; injection H as _ _ <-; exists ""; auto].
    intros H. apply IH in H as (p & -> & P); [|cbn in L; lia]. exists (String a (String b p)). split; [reflexivity|]. apply all_chars_cons. split; [apply Ascii.eqb_eq in Ea as ->; reflexivity|]. apply all_chars_cons. auto.
Qed.
Lemma digits_split (s : string) (v : Z) (k : nat) (r : string) : digits s = Some (v, k, r) -> exists p, s = p ++ r /\ all_chars number_char p.
Proof.
  destruct s as [|a s]; [discriminate|]. cbn [digits]. destruct (is_digit a) eqn:Da; [|discriminate]. intros H. injection H as H. apply more_digits_split in H as (p & -> & P). exists (String a p). split; [reflexivity|]. apply all_chars_cons. split; [unfold number_char; rewrite Da; reflexivity|exact P].
Qed.
Lemma signed_split (s : string) (b : bool) (r : string) : signed s = (b, r) -> exists p, s = p ++ r /\ all_chars number_char p.
Proof.
  destruct s as [|a s]; cbn [signed]; [intros H; injection H as <- <-; exists ""; split; [reflexivity|intros a []]|].
  assert (One : forall c, number_char c = true -> all_chars number_char (String c "")) by (intros c Hc x Hx; cbn in Hx; destruct Hx as [<-|[]]; exact Hc).
  destruct (Ascii.eqb a "-") eqn:E1; [apply Ascii.eqb_eq in E1 as ->; intros H; injection H as <- <-; exists "-"; split; [reflexivity|apply One; reflexivity]|].
  destruct (Ascii.eqb a "+") eqn:E2; [apply Ascii.eqb_eq in E2 as ->; intros H; injection H as <- <-; exists "+"; split; [reflexivity|apply One; reflexivity]|]. intros H. injection H as <- <-. exists "". split; [reflexivity|intros x []].
Qed.
Lemma exponent_chars (s : string) (e : Z) : exponent s = Some e -> all_chars number_char s.
Proof.
  destruct s as [|a s]; [intros _ b []|]. cbn [exponent]. destruct (Ascii.eqb a "e" || Ascii.eqb a "E")%bool eqn:E; [|discriminate]. destruct (signed s) as [b t] eqn:S. destruct (digits t) as [[[v k] r]|] eqn:D; [|discriminate]. destruct r; [|discriminate]. intros _.
  apply signed_split in S as (p & -> & P). apply digits_split in D as (q & -> & Q). rewrite app_nil_s. apply all_chars_cons. split; [|apply all_chars_app; auto]. unfold number_char. apply orb_true_iff in E as [E|E]; apply Ascii.eqb_eq in E as ->; reflexivity.
Qed.
Lemma rstrip_blank (s : string) : forall a, has_char a s -> has_char a (rstrip s) \/ is_blank a = true.
Proof.
  induction s as [|b s IH]; [intros a []|]. intros a H. apply has_char_cons in H. cbn [rstrip]. destruct (rstrip s) as [|c r] eqn:E.
  - destruct H as [<-|H]; [destruct (is_blank b) eqn:Bb; [auto|left; left; reflexivity]|]. destruct (IH a H) as [[]|K]; auto.
  - destruct H as [<-|H]; [left; left; reflexivity|]. destruct (IH a H) as [K|K]; [|auto]. left. apply has_char_cons. right. exact K.
Qed.
Lemma lstrip_blank (s : string) : forall a, has_char a s -> has_char a (lstrip s) \/ is_blank a = true.
Proof.
  induction s as [|b s IH]; [intros a []|]. intros a H. cbn [lstrip]. destruct (is_blank b) eqn:Bb; [|auto]. apply has_char_cons in H as [<-|H]; auto.
Qed.
Lemma strip_chars (s : string) : all_chars number_char (strip s) -> all_chars number_char s.
Proof.
  intros H a Ha. assert (Bl : is_blank a = true -> number_char a = true) by (intros K; unfold number_char; rewrite K, orb_true_r; reflexivity). destruct (lstrip_blank s a Ha) as [K|K]; [|auto]. destruct (rstrip_blank _ a K) as [K'|K']; [apply H, K'|auto].
Qed.
Lemma point_cons (s : string) : all_chars number_char s -> all_chars number_char (String "." s).
Proof. intros H. apply all_chars_cons. split; [reflexivity|exact H]. Qed.
Lemma parse_chars (s : string) (p : Z * Z) : parse_float s = Some p -> all_chars number_char s.
Proof.
  unfold parse_float. intros H. apply strip_chars. destruct (signed (strip s)) as [b t] eqn:S. apply signed_split in S as (g & -> & G). apply all_chars_app. split; [exact G|]. clear G.
  assert (Fr : forall m x y, fraction m x = Some y -> all_chars number_char x).
  { intros m x y. unfold fraction. destruct (digits x); [|discriminate]. destruct (more_digits m 0 x) as [[v n] r] eqn:M. destruct (exponent r) eqn:E; [|discriminate]. intros _. apply more_digits_split in M as (q & -> & Q). apply all_chars_app. split; [exact Q|]. eapply exponent_chars, E. }
  assert (Ex : forall (m : Z) x y, option_map (fun e : Z => (m, e)) (exponent x) = Some y -> all_chars number_char x) by (intros m x y K; destruct (exponent x) eqn:E; [eapply exponent_chars, E|discriminate K]).
  assert (O : forall r, option_map (fun p : Z * Z => (neg_if b (fst p), snd p)) r = Some p -> exists y, r = Some y) by (intros [y|] K; [eauto|discriminate K]). apply O in H as [y H].
  destruct (digits t) as [[[m n] r]|] eqn:D.
  - apply digits_split in D as (q & -> & Q). apply all_chars_app. split; [exact Q|]. clear Q. unfold after_digits in H. destruct r as [|c r]; [intros a []|]. destruct (Ascii.eqb c ".") eqn:C; [|eapply Ex, H]. apply Ascii.eqb_eq in C as ->. apply point_cons. destruct (digits r); [eapply Fr, H|eapply Ex, H].
  - destruct t as [|c r]; [discriminate H|]. destruct (Ascii.eqb c ".") eqn:C; [|discriminate H]. apply Ascii.eqb_eq in C as ->. apply point_cons. eapply Fr, H.
Qed.
Lemma py_float_refuses (s : string) (a : ascii) : has_char a s -> number_char a = false -> py_float s = Err ValueError.
Proof. intros H N. unfold py_float. destruct (parse_float s) as [[m e]|] eqn:E; [|reflexivity]. pose proof (parse_chars s _ E a H). congruence. Qed.
