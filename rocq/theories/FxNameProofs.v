From Coq Require Import String Ascii ZArith QArith Qreals Reals Lia Lqa List Bool Permutation.
From Verif Require Import Base Date BusDayModel BusDaySpec TenorModel TenorSpec TenorProofs CurveModel FxModel FxSpec.
Import ListNotations.
Open Scope string_scope.

Lemma digit_is_digit a v : digit a v -> is_digit a = true /\ digit_value a = v.
Proof. intros (k & L & -> & ->). do 10 (destruct k as [|k]; [split; reflexivity|]). lia. Qed.

(* ---- deltas ---- *)
Fixpoint all_digits (s : string) : bool := match s with EmptyString => true | String a t => is_digit a && all_digits t end.
Lemma in_digits i j w : In w (digits i j) -> exists k, (i <= k <= j)%nat /\ w = String (ascii_of_nat (48 + k)) "".
Proof. unfold digits. intros I. apply in_map_iff in I as (k & <- & I). apply in_seq in I. exists k. split; [lia|reflexivity]. Qed.
Lemma digits_in i j k : (i <= k <= j)%nat -> In (String (ascii_of_nat (48 + k)) "") (digits i j).
Proof. intros H. unfold digits. apply in_map_iff. exists k. split; [reflexivity|]. apply in_seq. lia. Qed.
Lemma in_seq2 a b w : In w (seq2 a b) <-> exists x y, In x a /\ In y b /\ w = x ++ y.
Proof.
  unfold seq2. rewrite in_flat_map. split.
  - intros (x & I & J). apply in_map_iff in J as (y & <- & J). eauto.
  - intros (x & y & I & J & ->). exists x. split; [exact I|]. apply in_map_iff. eauto.
Qed.
Lemma digit_of k : (k <= 9)%nat -> digit (ascii_of_nat (48 + k)) (Z.of_nat k).
Proof. intros L. exists k. auto. Qed.

Lemma number_iff n : In n re_number <-> exists v, delta_number n v.
Proof.
  unfold re_number, alt. rewrite in_app_iff, !in_seq2. split.
  - intros [(x & y & I & J & ->)|(x & y & I & J & ->)].
    + apply in_digits in J as (k & L & ->). exists (Z.of_nat k). destruct I as [<-|[<-|[]]].
      * split; [|cbn; lia]. replace (Z.of_nat k) with (10 * 0 + Z.of_nat k)%Z by lia. apply (num_more "0" 0); [|apply digit_of; lia]. apply (num_one "0"%char 0). exists 0%nat. repeat split; lia.
      * split; [|cbn; lia]. apply num_one, digit_of. lia.
    + apply in_digits in I as (j & L & ->). apply in_digits in J as (k & L' & ->). exists (10 * Z.of_nat j + Z.of_nat k)%Z. split; [|cbn [append String.length]; lia].
      apply (num_more (String (ascii_of_nat (48 + j)) "")); [apply num_one|]; apply digit_of; lia.
  - intros (v & N & L & R). inversion N as [a u D|s m a u N' D]; subst.
    + destruct D as (k & K & -> & ->). left. exists "", (String (ascii_of_nat (48 + k)) ""). split; [right; left; reflexivity|]. split; [|reflexivity]. apply digits_in. lia.
    + inversion N' as [b w D'|s' m' b w N2 D']; subst.
      * destruct D as (k & K & -> & ->), D' as (j & J & -> & ->). destruct j as [|j].
        -- left. exists "0", (String (ascii_of_nat (48 + k)) ""). split; [left; reflexivity|]. split; [|reflexivity]. apply digits_in. lia.
        -- right. exists (String (ascii_of_nat (48 + S j)) ""), (String (ascii_of_nat (48 + k)) ""). split; [apply digits_in; lia|]. split; [apply digits_in; lia|reflexivity].
      * exfalso. rewrite !length_app_s in L. cbn in L. assert (1 <= String.length s')%nat; [|lia]. clear -N2. inversion N2; subst; [cbn; lia|]. rewrite length_app_s. cbn. lia.
Qed.
Lemma delta_number_digits n v : delta_number n v -> exists a t, n = String a t /\ is_digit a = true /\ all_digits t = true /\ (t = "" \/ exists b, t = String b "").
Proof.
  intros (N & L & _). inversion N as [a u D|s m a u N' D]; subst.
  - destruct (digit_is_digit _ _ D). exists a, "". auto.
  - inversion N' as [b w D'|s' m' b w N2 D']; subst.
    + destruct (digit_is_digit _ _ D), (digit_is_digit _ _ D'). exists b, (String a ""). cbn. rewrite H. repeat split; try assumption; try reflexivity. right. eauto.
    + exfalso. rewrite !length_app_s in L. cbn in L. assert (1 <= String.length s')%nat; [|lia]. clear -N2. inversion N2; subst; [cbn; lia|]. rewrite length_app_s. cbn. lia.
Qed.

Lemma sep_iff s : In s re_sep <-> separator s.
Proof. unfold re_sep, opt, separator. cbn. intuition congruence. Qed.
Lemma delta_iff s : In s re_delta <-> delta_word s.
Proof. unfold re_delta, delta_word. cbn [In]. intuition congruence. Qed.

(* ---- reading a name ---- *)
Definition drop_sep (s : string) : string := match s with String a t => if Ascii.eqb a "_" || Ascii.eqb a " " then t else s | "" => "" end.
Definition drop_delta (s : string) : option string :=
  match s with
  | String "d" (String "e" (String "l" (String "t" (String "a" t)))) => Some t
  | String a (String b t) => if Ascii.eqb a (ascii_of_nat 206) && Ascii.eqb b (ascii_of_nat 148) then Some t else None
  | _ => None
  end.
Definition read (s : string) : option (string * string) :=
  let (n, r) := span_digits s in match drop_delta (drop_sep r) with Some t => Some (n, drop_sep t) | None => None end.

Definition no_sep (w : string) : Prop := match w with String a _ => Ascii.eqb a "_" || Ascii.eqb a " " = false | "" => True end.
Lemma span_app n r : all_digits n = true -> match r with String a _ => is_digit a = false | "" => True end -> span_digits (n ++ r) = (n, r).
Proof.
  induction n as [|a n IH]; cbn; intros A B.
  - destruct r as [|b r]; [reflexivity|]. cbn. rewrite B. reflexivity.
  - apply andb_prop in A as (A1 & A2). rewrite A1, (IH A2 B). reflexivity.
Qed.
Lemma read_word n v s d s' w : delta_number n v -> separator s -> delta_word d -> separator s' -> no_sep w -> read (n ++ s ++ d ++ s' ++ w) = Some (n, w).
Proof.
  intros N S1 D S2 W. destruct (delta_number_digits n v N) as (a & t & -> & A & T & _). unfold read.
  rewrite span_app; [|cbn; rewrite A; exact T|].
  - assert (E : drop_sep (s ++ d ++ s' ++ w) = d ++ s' ++ w) by (destruct S1 as [->|[->| ->]], D as [->| ->]; reflexivity). rewrite E.
    assert (E2 : drop_delta (d ++ s' ++ w) = Some (s' ++ w)) by (destruct D as [->| ->]; reflexivity). rewrite E2.
    f_equal. f_equal. destruct S2 as [->|[->| ->]]; cbn; try reflexivity. destruct w as [|b w]; [reflexivity|]. unfold drop_sep, no_sep in *. rewrite W. reflexivity.
  - destruct S1 as [->|[->| ->]], D as [->| ->]; reflexivity.
Qed.

Lemma app_assoc_s a b c : ((a ++ b) ++ c) = a ++ b ++ c.
Proof. induction a as [|x a IH]; cbn; [reflexivity|]. f_equal. exact IH. Qed.
Lemma is_word_iff s w : is_word s w = true <-> s = w \/ s = w ++ String newline "".
Proof. unfold is_word. rewrite orb_true_iff, !String.eqb_eq. reflexivity. Qed.
Lemma in_quote_words last w n l : In (w, (n, l)) (quote_words last) <-> exists v s d s', delta_number n v /\ separator s /\ delta_word d /\ separator s' /\ In l last /\ w = n ++ s ++ d ++ s' ++ l.
Proof.
  unfold quote_words. rewrite in_flat_map. split.
  - intros (n' & N & I). apply in_flat_map in I as (s & S1 & I). apply in_flat_map in I as (d & D & I). apply in_flat_map in I as (s' & S2 & I). apply in_map_iff in I as (l' & E & L).
    injection E as <- -> ->. apply number_iff in N as (v & N). exists v, s, d, s'. rewrite <- delta_iff, <- !sep_iff. auto 8.
  - intros (v & s & d & s' & N & S1 & D & S2 & L & ->). exists n. split; [apply number_iff; eauto|]. apply in_flat_map. exists s. split; [apply sep_iff, S1|].
    apply in_flat_map. exists d. split; [apply delta_iff, D|]. apply in_flat_map. exists s'. split; [apply sep_iff, S2|]. apply in_map_iff. eauto.
Qed.

Lemma word_in last n v s d s' l : delta_number n v -> separator s -> delta_word d -> separator s' -> In l last -> In (n ++ s ++ d ++ s' ++ l, (n, l)) (quote_words last).
Proof. intros. apply in_quote_words. exists v, s, d, s'. auto 7. Qed.

Definition plain_last (last : list string) : Prop := forall l, In l last -> exists a t, l = String a t /\ Ascii.eqb a "_" || Ascii.eqb a " " = false /\ (forall u, l <> u ++ String newline "").
Lemma app_newline_inj a b : a ++ String newline "" = b ++ String newline "" -> a = b.
Proof.
  revert b. induction a as [|x a IH]; intros [|y b] H; cbn in H; try reflexivity.
  - injection H as _ H. destruct b; discriminate.
  - injection H as _ H. destruct a; discriminate.
  - injection H as -> H. f_equal. exact (IH b H).
Qed.
Lemma no_newline_check l : forallb (fun k => negb (String.eqb (substring k 1 l) (String newline ""))) (List.seq 0 (String.length l)) = true -> forall u, l <> u ++ String newline "".
Proof.
  intros H u ->. rewrite forallb_forall in H. specialize (H (String.length u)). rewrite length_app_s in H. cbn [String.length] in H.
  assert (I : In (String.length u) (List.seq 0 (String.length u + 1))) by (apply in_seq; lia). apply H in I. clear H.
  assert (E : substring (String.length u) 1 (u ++ String newline "") = String newline "") by (clear; induction u as [|a u IH]; [reflexivity|exact IH]). rewrite E in I. discriminate.
Qed.
Lemma call_put_plain : plain_last re_call_put.
Proof. intros l [<-|[<-|[<-|[<-|[]]]]]; (do 2 eexists; split; [reflexivity|]; split; [reflexivity|]; apply no_newline_check; reflexivity). Qed.
Lemma strategy_in l : In l re_strategy <-> exists st, strategy_word l st.
Proof.
  unfold re_strategy. rewrite in_app_iff, !in_seq2. split.
  - intros [(x & y & I & [<-|[]] & ->)|I].
    + apply in_seq2 in I as (x' & s & [<-|[]] & S1 & ->). exists "riskreversal". left. split; [|reflexivity]. right. exists s. split; [apply sep_iff, S1|]. apply app_assoc_s.
    + destruct I as [<-|[<-|[<-|[]]]]; [exists "riskreversal"; left; auto|exists "butterfly"; right; auto|exists "butterfly"; right; auto].
  - intros (st & [([->|(s & S1 & ->)] & _)|([->| ->] & _)]); try (right; cbn; auto; fail).
    left. exists ("risk" ++ s), "reversal". split; [|split; [left; reflexivity|symmetry; apply app_assoc_s]]. apply in_seq2. exists "risk", s. split; [left; reflexivity|]. split; [apply sep_iff, S1|reflexivity].
Qed.
Lemma strategy_plain : plain_last re_strategy.
Proof.
  intros l I. apply strategy_in in I as (st & [([->|(s & S1 & ->)] & _)|([->| ->] & _)]); [| destruct S1 as [->|[->| ->]] | |];
    (do 2 eexists; split; [reflexivity|]; split; [reflexivity|]; apply no_newline_check; reflexivity).
Qed.

(* a name is a word of a pattern exactly as read *)
Lemma word_read last s w n l : plain_last last -> In (w, (n, l)) (quote_words last) -> is_word s w = true -> read s = Some (n, l) \/ read s = Some (n, l ++ String newline "").
Proof.
  intros P I W. apply in_quote_words in I as (v & s1 & d & s2 & N & S1 & D & S2 & L & ->). destruct (P l L) as (a & t & -> & A & _). apply is_word_iff in W as [->| ->].
  - left. apply (read_word n v); assumption.
  - right. rewrite !app_assoc_s. apply (read_word n v); assumption.
Qed.
Lemma match_value last s w n l : plain_last last -> In (w, (n, l)) (quote_words last) -> is_word s w = true -> match_groups (quote_words last) s = Some (n, l).
Proof.
  intros P I W. unfold match_groups. destruct (find (fun w => is_word s (fst w)) (quote_words last)) as [[w' [n' l']]|] eqn:F.
  - apply find_some in F as (I' & W'). cbn [snd]. cbn in W'. f_equal.
    assert (PL : forall u, l <> u ++ String newline "") by (apply in_quote_words in I as (?&?&?&?&_&_&_&_&L&_); destruct (P l L) as (?&?&_&_&X); exact X).
    assert (PL' : forall u, l' <> u ++ String newline "") by (apply in_quote_words in I' as (?&?&?&?&_&_&_&_&L&_); destruct (P l' L) as (?&?&_&_&X); exact X).
    destruct (word_read last s w n l P I W) as [R|R], (word_read last s w' n' l' P I' W') as [R'|R']; rewrite R in R'; injection R' as -> E.
    + congruence.
    + exfalso. exact (PL _ E).
    + exfalso. symmetry in E. exact (PL' _ E).
    + apply app_newline_inj in E. congruence.
  - apply (find_none _ _ F) in I. cbn in I. congruence.
Qed.
Lemma match_some last s n l : match_groups (quote_words last) s = Some (n, l) -> exists w, In (w, (n, l)) (quote_words last) /\ is_word s w = true.
Proof.
  unfold match_groups. destruct (find _ _) as [[w g]|] eqn:F; [|discriminate]. intros E. cbn in E. injection E as ->. apply find_some in F as (I & W). exists w. split; [exact I|exact W].
Qed.
Lemma match_none last s : plain_last last -> (forall n l, In l last -> read s <> Some (n, l) /\ read s <> Some (n, l ++ String newline "")) -> match_groups (quote_words last) s = None.
Proof.
  intros P H. destruct (match_groups (quote_words last) s) as [[n l]|] eqn:E; [|reflexivity]. apply match_some in E as (w & I & W).
  assert (L : In l last) by (apply in_quote_words in I as (?&?&?&?&_&_&_&_&L&_); exact L). destruct (H n l L) as (H1 & H2). destruct (word_read last s w n l P I W); contradiction.
Qed.

(* ---- at the money ---- *)
Lemma atm_iff w : In w re_atm <-> at_the_money w.
Proof.
  unfold re_atm, at_the_money. split.
  - intros I. apply in_seq2 in I as (x & s3 & I & S3 & ->). apply in_seq2 in I as (x' & m & I & M & ->). apply in_seq2 in I as (x'' & s2 & I & S2 & ->).
    apply in_seq2 in I as (x3 & t & I & T & ->). apply in_seq2 in I as (a & s1 & A & S1 & ->). exists a, s1, t, s2, m, s3. rewrite <- !sep_iff. rewrite !app_assoc_s.
    cbn in A, T, M. repeat split; try assumption; intuition congruence.
  - intros (a & s1 & t & s2 & m & s3 & A & S1 & T & S2 & M & S3 & ->). rewrite <- !sep_iff in *.
    apply in_seq2. exists ((((a ++ s1) ++ t) ++ s2) ++ m), s3. split; [|split; [exact S3|rewrite !app_assoc_s; reflexivity]].
    apply in_seq2. exists (((a ++ s1) ++ t) ++ s2), m. split; [|split; [cbn; intuition congruence|reflexivity]].
    apply in_seq2. exists ((a ++ s1) ++ t), s2. split; [|split; [exact S2|reflexivity]].
    apply in_seq2. exists (a ++ s1), t. split; [|split; [cbn; intuition congruence|reflexivity]].
    apply in_seq2. exists a, s1. split; [cbn; intuition congruence|split; [exact S1|reflexivity]].
Qed.
Lemma neutral_iff w : In w atm_neutral_words <-> exists m d s, at_the_money m /\ delta_word d /\ separator s /\ w = m ++ d ++ s ++ "neutral".
Proof.
  unfold atm_neutral_words. split.
  - intros I. apply in_seq2 in I as (x & z & I & [<-|[]] & ->). apply in_seq2 in I as (x' & s & I & S1 & ->). apply in_seq2 in I as (m & d & M & D & ->).
    exists m, d, s. rewrite <- atm_iff, <- delta_iff, <- sep_iff, !app_assoc_s. auto.
  - intros (m & d & s & M & D & S1 & ->). rewrite <- atm_iff, <- delta_iff, <- sep_iff in *. apply in_seq2. exists ((m ++ d) ++ s), "neutral". split; [|split; [left; reflexivity|rewrite !app_assoc_s; reflexivity]].
    apply in_seq2. exists (m ++ d), s. split; [|auto]. apply in_seq2. exists m, d. auto.
Qed.
Lemma forward_iff w : In w atm_forward_words <-> exists m f, at_the_money m /\ (f = "f" \/ f = "fwd" \/ f = "forward") /\ w = m ++ f.
Proof.
  unfold atm_forward_words. rewrite in_seq2. split; intros (m & f & M & F & ->); exists m, f; rewrite atm_iff in *; cbn in F |- *; intuition congruence.
Qed.
Lemma matches_iff ws s : matches ws s = true <-> exists w, In w ws /\ (s = w \/ s = w ++ String newline "").
Proof. unfold matches. rewrite existsb_exists. split; intros (w & I & W); exists w; rewrite is_word_iff in *; auto. Qed.
Lemma atm_starts m r : at_the_money m -> exists t, m ++ r = String "a" t /\ match t with String b _ => b <> "_"%char \/ True | "" => False end.
Proof. intros (a & s1 & t & s2 & mm & s3 & A & S1 & T & _ & _ & _ & ->). destruct A as [->| ->], S1 as [->|[->| ->]], T as [->| ->]; cbn; eexists; (split; [reflexivity|]); cbn; auto. Qed.
Lemma atm_read m r : at_the_money m -> read (m ++ r) = None.
Proof. intros M. destruct (atm_starts m r M) as (t & -> & _). destruct t; reflexivity. Qed.
Lemma atm_no_match last m r : plain_last last -> at_the_money m -> match_groups (quote_words last) (m ++ r) = None.
Proof. intros P M. apply match_none; [exact P|]. intros n l _. rewrite (atm_read m r M). split; discriminate. Qed.
Lemma forward_not_neutral : forallb (fun w => negb (matches atm_neutral_words w) && negb (matches atm_neutral_words (w ++ String newline ""))) atm_forward_words = true.
Proof. vm_compute. reflexivity. Qed.

(* ---- cleaning ---- *)
Lemma call_put_in l : In l re_call_put <-> exists side, side_word l side.
Proof. unfold side_word. split.
  - intros [<-|[<-|[<-|[<-|[]]]]]; eexists; [left|left|right|right]; auto.
  - intros (s & [([->| ->] & _)|([->| ->] & _)]); cbn; auto.
Qed.
Lemma side_value l side : side_word l side -> (if (l =? "call") || (l =? "c") then "call" else "put") = side.
Proof. intros [([->| ->] & ->)|([->| ->] & ->)]; reflexivity. Qed.
Lemma strategy_value l st : strategy_word l st -> strategy_name l = st.
Proof. intros [([->|(s & [->|[->| ->]] & ->)] & ->)|([->| ->] & ->)]; reflexivity. Qed.
Lemma not_both l side st : side_word l side -> strategy_word l st -> False.
Proof. intros [([->| ->] & ->)|([->| ->] & ->)] [([X|(s & [->|[->| ->]] & X)] & _)|([X|X] & _)]; discriminate. Qed.

Theorem clean_spelling s c : spells s c -> clean_name s = c.
Proof.
  intros (t & E & SP). assert (W : is_word s t = true) by (apply is_word_iff; exact E). unfold clean_name, call_put_words, strategy_words.
  inversion SP as [n v s1 d s2 w side N S1 D S2 SW|n v s1 d s2 w st N S1 D S2 SW|m d s1 M D S1|m f M F]; subst.
  - rewrite (match_value re_call_put s (n ++ s1 ++ d ++ s2 ++ w) n w call_put_plain); [|apply (word_in _ _ v); try assumption; apply call_put_in; eauto|exact W].
    rewrite (side_value w side SW). reflexivity.
  - assert (I : In (n ++ s1 ++ d ++ s2 ++ w, (n, w)) (quote_words re_strategy)) by (apply (word_in _ _ v); try assumption; apply strategy_in; eauto).
    rewrite (match_none re_call_put s call_put_plain).
    + rewrite (match_value re_strategy s _ n w strategy_plain I W), (strategy_value w st SW). reflexivity.
    + assert (PL : forall u, w <> u ++ String newline "") by (destruct (strategy_plain w) as (?&?&_&_&X); [apply strategy_in; eauto|exact X]).
      intros n' l L. destruct (call_put_plain l L) as (_ & _ & _ & _ & PL'). apply call_put_in in L as (side & L).
      destruct (word_read re_strategy s _ n w strategy_plain I W) as [R|R]; rewrite R; split; intros X; injection X as <- X.
      * subst l. exact (not_both _ _ _ L SW).
      * exact (PL _ X).
      * exact (PL' _ (eq_sym X)).
      * apply app_newline_inj in X. subst l. exact (not_both _ _ _ L SW).
  - assert (A : exists r, s = m ++ r) by (destruct E as [->| ->]; [eauto|]; rewrite app_assoc_s; eauto). destruct A as (r & A).
    assert (Q1 : match_groups (quote_words re_call_put) s = None) by (rewrite A; apply atm_no_match; [exact call_put_plain|exact M]).
    assert (Q2 : match_groups (quote_words re_strategy) s = None) by (rewrite A; apply atm_no_match; [exact strategy_plain|exact M]). rewrite Q1, Q2. clear Q1 Q2.
    assert (X : matches atm_neutral_words s = true) by (apply matches_iff; eexists; split; [apply neutral_iff; exists m, d, s1; repeat split; try eassumption; reflexivity|exact E]). rewrite X. reflexivity.
  - assert (A : exists r, s = m ++ r) by (destruct E as [->| ->]; [eauto|]; rewrite app_assoc_s; eauto). destruct A as (r & A).
    assert (Q1 : match_groups (quote_words re_call_put) s = None) by (rewrite A; apply atm_no_match; [exact call_put_plain|exact M]).
    assert (Q2 : match_groups (quote_words re_strategy) s = None) by (rewrite A; apply atm_no_match; [exact strategy_plain|exact M]). rewrite Q1, Q2. clear Q1 Q2.
    assert (I : In (m ++ f) atm_forward_words) by (apply forward_iff; eauto). pose proof forward_not_neutral as Q. rewrite forallb_forall in Q. specialize (Q _ I). apply andb_prop in Q as (Q1 & Q2).
    apply negb_true_iff in Q1, Q2.
    assert (X : matches atm_neutral_words s = false) by (destruct E as [->| ->]; assumption). rewrite X.
    assert (X2 : matches atm_forward_words s = true) by (apply matches_iff; eauto). rewrite X2. reflexivity.
Qed.
Theorem clean_other s : (forall c, ~ spells s c) -> clean_name s = s.
Proof.
  intros H. unfold clean_name, call_put_words, strategy_words.
  destruct (match_groups (quote_words re_call_put) s) as [[n l]|] eqn:E1.
  { exfalso. apply match_some in E1 as (w & I & W). apply in_quote_words in I as (v & s1 & d & s2 & N & S1 & D & S2 & L & ->). apply call_put_in in L as (side & L). apply is_word_iff in W.
    apply (H (n ++ "_delta_" ++ side)). exists (n ++ s1 ++ d ++ s2 ++ l). split; [exact W|]. apply (sp_side n v); assumption. }
  destruct (match_groups (quote_words re_strategy) s) as [[n l]|] eqn:E2.
  { exfalso. apply match_some in E2 as (w & I & W). apply in_quote_words in I as (v & s1 & d & s2 & N & S1 & D & S2 & L & ->). apply strategy_in in L as (st & L). apply is_word_iff in W.
    apply (H (n ++ "_delta_" ++ st)). exists (n ++ s1 ++ d ++ s2 ++ l). split; [exact W|]. apply (sp_strategy n v); assumption. }
  destruct (matches atm_neutral_words s) eqn:E3.
  { exfalso. apply matches_iff in E3 as (w & I & W). apply neutral_iff in I as (m & d & s1 & M & D & S1 & ->). apply (H "atm_delta_neutral"). exists (m ++ d ++ s1 ++ "neutral"). split; [exact W|]. apply sp_neutral; assumption. }
  destruct (matches atm_forward_words s) eqn:E4; [|reflexivity].
  exfalso. apply matches_iff in E4 as (w & I & W). apply forward_iff in I as (m & f & M & F & ->). apply (H "atm_forward"). exists (m ++ f). split; [exact W|]. apply sp_forward; assumption.
Qed.

Lemma canonical_spells s c : spells s c -> spells c c.
Proof.
  intros (t & _ & SP). exists c. split; [left; reflexivity|].
  inversion SP as [n v s1 d s2 w side N S1 D S2 SW|n v s1 d s2 w st N S1 D S2 SW|m d s1 M D S1|m f M F]; subst.
  - apply (sp_side n v "_" "delta" "_" side side); unfold separator, delta_word; auto. destruct SW as [(_ & ->)|(_ & ->)]; unfold side_word; auto.
  - apply (sp_strategy n v "_" "delta" "_" st st); unfold separator, delta_word; auto. destruct SW as [(_ & ->)|(_ & ->)]; unfold strategy_word, separator; [left|right]; split; auto.
    right. exists "". auto.
  - apply (sp_neutral "atm_" "delta" "_"); unfold separator, delta_word; auto. exists "a", "", "t", "", "m", "_". unfold separator. repeat split; auto.
  - apply (sp_forward "atm_" "forward"); auto. exists "a", "", "t", "", "m", "_". unfold separator. repeat split; auto.
Qed.
Lemma spells_dec s : {c | spells s c} + {forall c, ~ spells s c}.
Proof.
  destruct (match_groups (quote_words re_call_put) s) as [[n l]|] eqn:E1.
  { left. exists (clean_name s). apply match_some in E1 as (w & I & W). apply in_quote_words in I as (v & s1 & d & s2 & N & S1 & D & S2 & L & ->). apply call_put_in in L as (side & L). apply is_word_iff in W.
    assert (X : spells s (n ++ "_delta_" ++ side)) by (exists (n ++ s1 ++ d ++ s2 ++ l); split; [exact W|apply (sp_side n v); assumption]). rewrite (clean_spelling _ _ X). exact X. }
  destruct (match_groups (quote_words re_strategy) s) as [[n l]|] eqn:E2.
  { left. exists (clean_name s). apply match_some in E2 as (w & I & W). apply in_quote_words in I as (v & s1 & d & s2 & N & S1 & D & S2 & L & ->). apply strategy_in in L as (st & L). apply is_word_iff in W.
    assert (X : spells s (n ++ "_delta_" ++ st)) by (exists (n ++ s1 ++ d ++ s2 ++ l); split; [exact W|apply (sp_strategy n v); assumption]). rewrite (clean_spelling _ _ X). exact X. }
  destruct (matches atm_neutral_words s) eqn:E3.
  { left. exists (clean_name s). apply matches_iff in E3 as (w & I & W). apply neutral_iff in I as (m & d & s1 & M & D & S1 & ->).
    assert (X : spells s "atm_delta_neutral") by (exists (m ++ d ++ s1 ++ "neutral"); split; [exact W|apply sp_neutral; assumption]). rewrite (clean_spelling _ _ X). exact X. }
  destruct (matches atm_forward_words s) eqn:E4.
  { left. exists (clean_name s). apply matches_iff in E4 as (w & I & W). apply forward_iff in I as (m & f & M & F & ->).
    assert (X : spells s "atm_forward") by (exists (m ++ f); split; [exact W|apply sp_forward; assumption]). rewrite (clean_spelling _ _ X). exact X. }
  right. intros c (t & W & SP). inversion SP as [n v s1 d s2 w side N S1 D S2 SW|n v s1 d s2 w st N S1 D S2 SW|m d s1 M D S1|m f M F]; subst.
  - apply is_word_iff in W. rewrite (match_value re_call_put s (n ++ s1 ++ d ++ s2 ++ w) n w call_put_plain) in E1; [discriminate| |exact W]. apply (word_in _ _ v); try assumption. apply call_put_in. eauto.
  - apply is_word_iff in W. rewrite (match_value re_strategy s (n ++ s1 ++ d ++ s2 ++ w) n w strategy_plain) in E2; [discriminate| |exact W]. apply (word_in _ _ v); try assumption. apply strategy_in. eauto.
  - assert (X : matches atm_neutral_words s = true) by (apply matches_iff; eexists; split; [apply neutral_iff; exists m, d, s1; repeat split; try eassumption; reflexivity|exact W]). congruence.
  - assert (X : matches atm_forward_words s = true) by (apply matches_iff; eexists; split; [apply forward_iff; exists m, f; repeat split; try eassumption; reflexivity|exact W]). congruence.
Qed.
Theorem clean_idempotent s : clean_name (clean_name s) = clean_name s.
Proof.
  destruct (spells_dec s) as [(c & H)|H].
  - rewrite (clean_spelling _ _ H). apply clean_spelling, (canonical_spells s c H).
  - rewrite !(clean_other s H). reflexivity.
Qed.
(* renaming one by one is cleaning each name *)
Theorem clean_all cols : clean_names cols = map clean_name cols.
Proof.
  unfold clean_names.
  assert (G : forall todo cs orig, (forall i o, nth_error orig i = Some o -> exists c, nth_error cs i = Some c /\ (c = clean_name o \/ c = o /\ In o todo)) -> length cs = length orig ->
    fold_left (fun cs c => rename c (clean_name c) cs) todo cs = map clean_name orig).
  { induction todo as [|x todo IH]; intros cs orig H L; cbn.
    - revert cs H L. induction orig as [|o orig IHo]; intros [|c cs] H L; try discriminate; [reflexivity|]. cbn. destruct (H 0%nat o eq_refl) as (c' & E & [X|(_ & [])]). injection E as ->. subst c'. f_equal.
      apply IHo; [|cbn in L; lia]. intros i o' K. exact (H (S i) o' K).
    - apply IH; [|unfold rename; rewrite map_length; exact L]. intros i o K. destruct (H i o K) as (c & E & D). unfold rename. rewrite nth_error_map, E. cbn. eexists. split; [reflexivity|].
      destruct (c =? x) eqn:Q.
      + apply String.eqb_eq in Q. subst x. left. destruct D as [->|(-> & _)]; [apply clean_idempotent|reflexivity].
      + destruct D as [D|(-> & [->|I])]; auto. rewrite String.eqb_refl in Q. discriminate. }
  apply G; [|reflexivity]. intros i o K. exists o. split; [exact K|]. right. split; [reflexivity|]. exact (nth_error_In _ _ K).
Qed.
