(* What a column is renamed to and the dictionaries of all columns. *)
From Coq Require Import ZArith Reals String Ascii List Bool Lra Lia.
From Verif Require Import Base TenorModel BootModel EnumModel CurveModel ColumnModel ColumnSpec ColumnProofs ColumnFloatProofs ColumnTextProofs.
Import ListNotations.
Open Scope string_scope.

(* ---- removals ---- *)
Lemma starts_with_app (p s : string) : starts_with p s = true -> exists r, s = p ++ r.
Proof.
  revert s. induction p as [|a p IH]; intros s H; [exists s; reflexivity|]. destruct s as [|b s]; [discriminate|]. cbn in H. apply andb_true_iff in H as [H1 H2]. apply Ascii.eqb_eq in H1 as ->. destruct (IH s H2) as [r ->]. exists r. reflexivity.
Qed.
Lemma replace_keeps (old : string) (a : ascii) : old <> "" -> ~ has_char a old -> forall s k, (exists p r, s = p ++ r /\ String.length p = k /\ ~ has_char a p) -> has_char a s -> has_char a (replace_from old "" k s).
Proof.
  intros Ne N. induction s as [|b s IH]; intros k (p & r & E & L & P) H; [destruct H|]. cbn [replace_from]. destruct k as [|k].
  - destruct (starts_with old (String b s)) eqn:S.
    + apply starts_with_app in S as [t S]. cbn [append]. destruct old as [|c old]; [contradiction|]. cbn [append] in S. injection S as <- ->.
      cbn [String.length]. rewrite Nat.sub_succ, Nat.sub_0_r. apply IH; [exists old, t; split; [reflexivity|]; split; [reflexivity|]; intros K; apply N, has_char_cons; auto|]. apply has_char_cons in H as [<-|H]; [exfalso; apply N, has_char_cons; auto|exact H].
    + apply has_char_cons. apply has_char_cons in H as [H|H]; [auto|]. right. apply IH; [exists "", s; auto|exact H].
  - destruct p as [|c p]; [discriminate|]. cbn [append] in E. injection E as <- ->. cbn in L. apply IH; [exists p, r; split; [reflexivity|]; split; [lia|]; intros K; apply P, has_char_cons; auto|]. apply has_char_cons in H as [<-|H]; [exfalso; apply P, has_char_cons; auto|exact H].
Qed.
Lemma remove_keeps (c a : ascii) (s : string) : a <> c -> has_char a s -> has_char a (remove_char c s).
Proof.
  intros N. induction s as [|b s IH]; [intros []|]. cbn [remove_char]. intros H. apply has_char_cons in H. destruct (Ascii.eqb b c) eqn:E; [apply Ascii.eqb_eq in E as ->; destruct H as [<-|H]; [contradiction|auto]|]. apply has_char_cons. destruct H as [H|H]; [left; exact H|right; apply IH, H].
Qed.
Lemma bps_text_keeps (a : ascii) (s : string) : ~ In a ["b"; "p"; "s"; " "]%char -> has_char a s -> has_char a (bps_text s).
Proof.
  intros N H. assert (N1 : ~ has_char a "bps") by (intros [K|[K|[K|[]]]]; apply N; rewrite <- K; cbn; tauto). assert (N2 : ~ has_char a "bp") by (intros [K|[K|[]]]; apply N; rewrite <- K; cbn; tauto).
  unfold bps_text, without_spaces. apply remove_keeps; [intros ->; apply N; cbn; tauto|]. unfold replace_all. apply replace_keeps; [discriminate|exact N2|exists ""; eexists; split; [reflexivity|]; split; [reflexivity|intros []]|].
  apply replace_keeps; [discriminate|exact N1|exists ""; eexists; split; [reflexivity|]; split; [reflexivity|intros []]|exact H].
Qed.
Lemma percent_text_keeps (a : ascii) (s : string) : ~ In a ["%"; " "]%char -> has_char a s -> has_char a (percent_text s).
Proof. intros N H. unfold percent_text, without_spaces. apply remove_keeps; [intros ->; apply N; cbn; tauto|]. apply remove_keeps; [intros ->; apply N; cbn; tauto|exact H]. Qed.

Lemma starts_with_b (p s : string) : ~ has_char "b" s -> starts_with (String "b" p) s = false.
Proof. destruct s as [|c s]; [reflexivity|]. intros N. cbn [starts_with]. destruct (Ascii.eqb "b" c) eqn:E; [|reflexivity]. apply Ascii.eqb_eq in E as <-. exfalso. apply N. left. reflexivity. Qed.
(* nothing to remove before the suffix *)
Lemma replace_app (p x u : string) : ~ has_char "b" x -> replace_all (String "b" p) "" (x ++ u) = x ++ replace_all (String "b" p) "" u.
Proof.
  intros N. unfold replace_all. induction x as [|c x IH]; [reflexivity|]. cbn [append replace_from].
  assert (c <> "b"%char) by (intros ->; apply N; left; reflexivity). assert (S : starts_with (String "b" p) (String c (x ++ u)) = false) by (cbn [starts_with]; destruct (Ascii.eqb "b" c) eqn:E; [apply Ascii.eqb_eq in E as <-; contradiction|reflexivity]).
  rewrite S. f_equal. apply IH. intros K. apply N, has_char_cons. auto.
Qed.
Lemma remove_app (c : ascii) (x y : string) : remove_char c (x ++ y) = remove_char c x ++ remove_char c y.
Proof. induction x as [|a x IH]; [reflexivity|]. cbn [append remove_char]. rewrite IH. destruct (Ascii.eqb a c); reflexivity. Qed.
Lemma remove_none (c : ascii) (x : string) : ~ has_char c x -> remove_char c x = x.
Proof.
  induction x as [|a x IH]; [reflexivity|]. intros N. cbn [remove_char]. destruct (Ascii.eqb a c) eqn:E; [apply Ascii.eqb_eq in E as ->; exfalso; apply N; left; reflexivity|]. f_equal. apply IH. intros K. apply N, has_char_cons. auto.
Qed.
Lemma bps_text_label (x u : string) : (u = "bps" \/ u = "bp") -> ~ has_char "b" x -> bps_text (x ++ u) = without_spaces x.
Proof.
  intros Hu N. unfold bps_text. rewrite replace_app by exact N. destruct Hu as [->| ->].
  - change (replace_all "bps" "" "bps") with "". rewrite replace_app by exact N. rewrite app_nil_s. reflexivity.
  - change (replace_all "bps" "" "bp") with "bp". rewrite replace_app by exact N. change (replace_all "bp" "" "bp") with "". rewrite app_nil_s. reflexivity.
Qed.
Lemma spaced_plain (b : bool) (m : Z) (k : nat) (x : string) (a : ascii) : decimal b m k (without_spaces x) -> has_char a x -> a = " "%char \/ plain_char a = true.
Proof. intros D H. destruct (ascii_dec a " ") as [E|E]; [auto|]. right. apply (decimal_plain _ _ _ _ D). apply remove_keeps; assumption. Qed.
Lemma percent_text_label (b : bool) (m : Z) (k : nat) (x : string) : decimal b m k (without_spaces x) -> percent_text (x ++ "%") = without_spaces x.
Proof.
  intros D. unfold percent_text. rewrite remove_app. change (remove_char "%" "%") with "". rewrite app_nil_s. f_equal. apply remove_none. intros H. destruct (spaced_plain _ _ _ _ _ D H) as [K|K]; discriminate K.
Qed.

(* ---- one column ---- *)
Open Scope R_scope.
Lemma eight_places (b : bool) (m : Z) (k j : nat) : (k <= j)%nat -> exists N, decimal_value b m k * 10 ^ j = IZR N.
Proof.
  intros L. exists (neg_if b m * 10 ^ Z.of_nat (j - k))%Z. unfold decimal_value. rewrite mult_IZR, <- pow_IZR. replace (10 ^ j) with (10 ^ k * 10 ^ (j - k)) by (rewrite <- pow_add; f_equal; lia). field. apply pow_nonzero. lra.
Qed.
Lemma quote_value_is (scale : R) (j : nat) (b : bool) (m : Z) (k : nat) (t : string) : 1 <= scale <= 10 ^ 4 -> scale * 10 ^ j = 10 ^ 8 -> (k <= j)%nat -> decimal b m k t -> Rabs (decimal_value b m k) / scale <= 10 ^ 7 ->
  quote_value t scale = Ok (rn (decimal_value b m k / scale)).
Proof.
  intros Hs Hj L D B. unfold quote_value. rewrite (py_float_decimal b m k t D). cbn [bind]. f_equal. destruct (eight_places b m k j L) as [N E]. apply value_nearest with N; [exact Hs| |exact B]. rewrite <- E, <- Hj. field. split; [apply pow_nonzero; lra|lra].
Qed.
Lemma bps_not_percent (b : bool) (m : Z) (k : nat) (s : string) : percent_label b m k s -> re_search bps_quote s = false.
Proof.
  intros [_ (x & -> & D)]. destruct (re_search bps_quote (x ++ "%")) eqn:E; [|reflexivity]. apply bps_spec in E as (p & d & w & mk & after & E & _ & _ & Hm). exfalso. apply lower_cons_inv in Hm as (c & r & -> & Hc & _).
  assert (Hin : has_char c (x ++ "%")) by (rewrite E; apply has_char_app; right; apply has_char_cons; right; apply has_char_app; right; left; reflexivity).
  assert (Q : c = " "%char \/ plain_char c = true \/ c = "%"%char) by (apply has_char_app in Hin as [K|K]; [destruct (spaced_plain _ _ _ _ _ D K); auto|destruct K as [<-|[]]; auto]).
  destruct Q as [->|[Q| ->]]; [discriminate Hc| |discriminate Hc]. unfold plain_char in Q. apply orb_true_iff in Q as [Q|Q].
  - revert Q Hc. unfold is_digit, lower_char. destruct c as [[] [] [] [] [] [] [] []]; cbn; intros Q Hc; try discriminate.
  - cbn [existsb] in Q. rewrite !orb_true_iff in Q. destruct Q as [Q|[Q|[Q|Q]]]; try discriminate Q; apply Ascii.eqb_eq in Q as ->; discriminate Hc.
Qed.
Lemma plain_not_b (x : string) (b : bool) (m : Z) (k : nat) : decimal b m k (without_spaces x) -> ~ has_char "b" x.
Proof. intros D H. destruct (spaced_plain _ _ _ _ _ D H) as [K|K]; discriminate K. Qed.
Lemma read_bps (repr : R -> string) (b : bool) (m : Z) (k : nat) (s : string) : bps_label b m k s -> (k <= 4)%nat -> Rabs (decimal_value b m k) <= 10 ^ 11 ->
  read_column repr s = Ok (Some (quote_name repr (rn (decimal_value b m k / 10000)) 10000, rn (decimal_value b m k / 10000))).
Proof.
  intros [Hc (x & u & E & Hu & D)] L B. unfold read_column. apply bps_spec in Hc. rewrite Hc. rewrite E, (bps_text_label x u Hu (plain_not_b x b m k D)).
  rewrite (quote_value_is 10000 4 b m k _ ltac:(lra) ltac:(lra) L D) by lra. reflexivity.
Qed.
Lemma read_percent (repr : R -> string) (b : bool) (m : Z) (k : nat) (s : string) : percent_label b m k s -> (k <= 6)%nat -> Rabs (decimal_value b m k) <= 10 ^ 9 ->
  read_column repr s = Ok (Some (quote_name repr (rn (decimal_value b m k / 100)) 100, rn (decimal_value b m k / 100))).
Proof.
  intros H L B. pose proof (bps_not_percent b m k s H) as Nb. destruct H as [Hc (x & E & D)]. unfold read_column. rewrite Nb. apply percent_spec in Hc. rewrite Hc. rewrite E, (percent_text_label b m k x D).
  rewrite (quote_value_is 100 6 b m k _ ltac:(lra) ltac:(lra) L D) by lra. reflexivity.
Qed.
Lemma name_of_integer (repr : R -> string) (scale : R) (n : Z) : 1 <= scale <= 10 ^ 4 -> (Z.abs n <= 10 ^ 7)%Z ->
  let w := rn (rn (IZR n / scale) * scale) in
  quote_name repr (rn (IZR n / scale)) scale = (show (if Rle_dec (IZR (Z.abs n)) (Rabs w) then n else n - Z.sgn n) ++ "bps")%string.
Proof.
  intros Hs B w. assert (Bn : Rabs (IZR n) <= 10 ^ 7) by (rewrite <- abs_IZR; change 10 with (IZR 10); rewrite pow_IZR; apply IZR_le; exact B). unfold quote_name. fold w.
  assert (R8 : round8 w = IZR n) by (unfold w; rewrite (name_round scale (IZR n) (n * 10 ^ 8) Hs Bn); [apply rn_int; lia|rewrite mult_IZR; change (IZR (10 ^ 8)) with 100000000; field]).
  rewrite R8, is_integer_int. pose proof (back_err scale (IZR n) Hs Bn) as E. fold w in E. destruct (trunc_near w n) as [T1 T2]; [eapply Rle_lt_trans; [exact E|lra]|]. destruct (Rle_dec (IZR (Z.abs n)) (Rabs w)) as [K|K]; [rewrite T1 by exact K|rewrite T2 by lra]; reflexivity.
Qed.
Lemma name_of_fraction (repr : R -> string) (scale q : R) (N : Z) : 1 <= scale <= 10 ^ 4 -> Rabs q <= 10 ^ 7 -> q = IZR N / 10 ^ 8 -> (forall z, q <> IZR z) -> quote_name repr (rn (q / scale)) scale = (repr (rn q) ++ "bps")%string.
Proof.
  intros Hs B E Nz. unfold quote_name. rewrite (name_round scale q N Hs B E). rewrite E in *. rewrite rn_not_integer by assumption. reflexivity.
Qed.
(* enough for the right name *)
Lemma name_right (scale : R) (n : Z) : 1 <= scale <= 10 ^ 4 -> (Z.abs n <= 10 ^ 7)%Z -> Rabs (IZR n / scale) <= Rabs (rn (IZR n / scale)) -> IZR (Z.abs n) <= Rabs (rn (rn (IZR n / scale) * scale)).
Proof.
  intros Hs B H. assert (Ab : forall x, Rabs (rn x) = rn (Rabs x)) by (intros x; unfold Rabs at 2; destruct (Rcase_abs x) as [Q|Q]; [rewrite rn_opp, Rabs_left1; [reflexivity|]; rewrite <- (rn_int 0) by lia; apply rn_le; lra|]; rewrite Rabs_pos_eq; [reflexivity|]; rewrite <- (rn_int 0) by lia; apply rn_le; lra).
  rewrite Ab. rewrite <- (rn_int (Z.abs n)) by lia. apply rn_le. rewrite Rabs_mult, (Rabs_pos_eq scale) by lra. apply Rle_trans with (Rabs (IZR n / scale) * scale); [|apply Rmult_le_compat_r; lra].
  unfold Rdiv. rewrite Rabs_mult, (Rabs_pos_eq (/ scale)) by (apply Rlt_le, Rinv_0_lt_compat; lra). rewrite abs_IZR. right. field. lra.
Qed.
