(* The dictionaries of all columns, refusals, and what the floats are. *)
From Coq Require Import ZArith Reals String Ascii List Bool Lra Lia DecimalString DecimalZ DecimalFacts DecimalPos.
From Flocq Require Import Core.
From Verif Require Import Base TenorModel BootModel EnumModel CurveModel ColumnModel ColumnSpec ColumnProofs ColumnFloatProofs ColumnTextProofs ColumnReadProofs.
Import ListNotations.
Open Scope string_scope.

(* ---- the floats ---- *)
Lemma powerRZ_bpow (e : Z) : powerRZ 2 e = bpow radix2 e.
Proof. symmetry. apply bpow_powerRZ. Qed.
Lemma double_format (y : R) : double y <-> generic_format radix2 fexp64 y.
Proof.
  split.
  - intros (m & e & Hm & He & ->). apply generic_format_FLT. exists (Float radix2 m e); [unfold F2R; cbn; rewrite powerRZ_bpow; reflexivity|exact Hm|exact He].
  - intros H. apply FLT_format_generic in H; [|reflexivity]. destruct H as [[m e] E Hm He]. exists m, e. split; [exact Hm|]. split; [exact He|]. rewrite E. unfold F2R. cbn. rewrite powerRZ_bpow. reflexivity.
Qed.
Lemma rn_double (x : R) : double (rn x).
Proof. apply double_format. apply generic_format_round; [apply FLT_exp_valid; reflexivity|apply valid_rnd_N]. Qed.
Lemma rn_nearest (x : R) : nearest_double x (rn x).
Proof.
  split; [apply rn_double|]. intros z Hz. apply double_format in Hz.
  assert (P : Rnd_N_pt (generic_format radix2 fexp64) x (rn x)) by (apply round_N_pt, FLT_exp_valid; reflexivity). apply P, Hz.
Qed.
Open Scope R_scope.
Lemma one_bps : 1 <= rn (rn (IZR 1 / 10000) * 10000).
Proof.
  assert (V : rn (IZR 1 / 10000) = IZR 7378697629483821 * bpow radix2 (-66)).
  { apply rn_at; [lia|lia|]. change (bpow radix2 (-66)) with (/ 73786976294838206464). apply Rabs_def1; lra. }
  rewrite V. rewrite <- (rn_int 1) at 1 by lia. apply rn_le. change (bpow radix2 (-66)) with (/ 73786976294838206464). lra.
Qed.
Lemma two_bps : Rabs (IZR 2 / 10000) <= Rabs (rn (2 / 10000)).
Proof.
  assert (V : rn (2 / 10000) = IZR 7378697629483821 * bpow radix2 (-65)).
  { apply rn_at; [lia|lia|]. change (bpow radix2 (-65)) with (/ 36893488147419103232). apply Rabs_def1; lra. }
  rewrite V. change (bpow radix2 (-65)) with (/ 36893488147419103232). rewrite !Rabs_pos_eq; lra.
Qed.
Lemma is_integer_true (x : R) : is_integer x = true <-> is_integral x.
Proof. split; [apply is_integer_spec|intros [z ->]; apply is_integer_int]. Qed.
Lemma not_integral_rn (b : bool) (m : Z) (k : nat) : (k <= 8)%nat -> Rabs (decimal_value b m k) <= 10 ^ 7 -> ~ is_integral (decimal_value b m k) -> ~ is_integral (rn (decimal_value b m k)).
Proof.
  intros K B N Q. destruct (eight_places b m k 8 K) as [M E]. assert (D : decimal_value b m k = IZR M / 10 ^ 8) by (rewrite <- E; field). rewrite D in *. apply is_integer_true in Q. rewrite rn_not_integer in Q; [discriminate|exact B|]. intros z Hz. apply N. exists z. exact Hz.
Qed.
Open Scope string_scope.

(* ---- names ---- *)
Lemma app_right_inj (u : string) : forall x y, x ++ u = y ++ u -> x = y.
Proof.
  assert (Len : forall a b, String.length (a ++ b) = (String.length a + String.length b)%nat) by (induction a as [|c a IH]; intros b; cbn; [reflexivity|rewrite IH; reflexivity]).
  induction x as [|a x IH]; intros y E.
  - destruct y as [|b y]; [reflexivity|]. apply (f_equal String.length) in E. rewrite Len in E. cbn in E. rewrite Len in E. lia.
  - destruct y as [|b y]; [apply (f_equal String.length) in E; rewrite (Len (String a x)) in E; cbn in E; lia|]. cbn in E. injection E as -> E. f_equal. apply IH, E.
Qed.
Lemma show_inj (a b : Z) : show a = show b -> a = b.
Proof.
  unfold show. intros E. assert (U : forall z, NilZero.int_of_string (NilZero.string_of_int (Z.to_int z)) = Some (Z.to_int z)).
  { intros z. apply NilZero.isi; intros K; destruct z; cbn in K; try discriminate; injection K as K; revert K; apply Unsigned.to_uint_nonnil. }
  apply (f_equal NilZero.int_of_string) in E. rewrite !U in E. injection E as E. rewrite <- (of_to a), <- (of_to b), E. reflexivity.
Qed.
Lemma bps_not_atmf (x : string) : x ++ "bps" <> "atmf".
Proof. destruct x as [|a [|b [|c [|d x]]]]; cbn; try discriminate. intros E. injection E. intros E'. destruct x; discriminate E'. Qed.

(* ---- dictionaries ---- *)
Section dict.
  Context {A : Type}.
  Lemma dict_get_set (k k' : string) (v : A) (d : list (string * A)) : dict_get k (dict_set k' v d) = if String.eqb k k' then Some v else dict_get k d.
  Proof.
    induction d as [|[a w] d IH]; cbn; [destruct (String.eqb k k'); reflexivity|]. destruct (String.eqb k' a) eqn:E; cbn.
    - apply String.eqb_eq in E as <-. destruct (String.eqb k k'); reflexivity.
    - rewrite IH. destruct (String.eqb k k') eqn:E'; [|reflexivity]. apply String.eqb_eq in E' as ->. rewrite E. reflexivity.
  Qed.
  Lemma dict_get_in (k : string) (d : list (string * A)) : existsb (String.eqb k) (map fst d) = match dict_get k d with Some _ => true | None => false end.
  Proof. induction d as [|[a w] d IH]; cbn; [reflexivity|]. destruct (String.eqb k a); [reflexivity|exact IH]. Qed.
  Lemma dict_keys (k : string) (v : A) (d : list (string * A)) : map fst (dict_set k v d) = if existsb (String.eqb k) (map fst d) then map fst d else (map fst d ++ [k])%list.
  Proof.
    induction d as [|[a w] d IH]; cbn; [reflexivity|]. destruct (String.eqb k a) eqn:E; cbn; [apply String.eqb_eq in E as ->; reflexivity|]. rewrite IH. destruct (existsb _ _); reflexivity.
  Qed.
  Definition sets (l d : list (string * A)) : list (string * A) := fold_left (fun d p => dict_set (fst p) (snd p) d) l d.
  Lemma sets_get (l d : list (string * A)) (k : string) : dict_get k (sets l d) = match last_for k l with Some v => Some v | None => dict_get k d end.
  Proof.
    revert d. induction l as [|[a w] l IH]; intros d; cbn; [reflexivity|]. unfold sets in IH. rewrite IH, dict_get_set. destruct (last_for k l); [reflexivity|]. destruct (String.eqb k a); reflexivity.
  Qed.
  Lemma firsts_same (l s s' : list string) : (forall x, In x s <-> In x s') -> firsts s l = firsts s' l.
  Proof.
    revert s s'. induction l as [|a l IH]; intros s s' E; cbn; [reflexivity|]. assert (X : existsb (String.eqb a) s = existsb (String.eqb a) s').
    { apply Bool.eq_iff_eq_true. rewrite !existsb_exists. split; intros (y & Hy & Ey); exists y; (split; [apply E, Hy|exact Ey]). }
    rewrite X. destruct (existsb _ s'); [apply IH, E|]. f_equal. apply IH. intros x. cbn. rewrite E. tauto.
  Qed.
  Lemma sets_keys (l d : list (string * A)) : map fst (sets l d) = (map fst d ++ firsts (map fst d) (map fst l))%list.
  Proof.
    revert d. induction l as [|[a w] l IH]; intros d; cbn; [rewrite List.app_nil_r; reflexivity|]. unfold sets in IH. rewrite IH, dict_keys. cbn. destruct (existsb (String.eqb a) (map fst d)); [reflexivity|].
    rewrite <- List.app_assoc. cbn. do 2 f_equal. apply firsts_same. intros x. rewrite in_app_iff. cbn. tauto.
  Qed.
End dict.
Lemma firsts_out (l s : list string) (x : string) : In x (firsts s l) -> ~ In x s /\ In x l.
Proof.
  revert s. induction l as [|a l IH]; intros s; cbn; [intros []|]. destruct (existsb (String.eqb a) s) eqn:E; [intros H; apply IH in H; tauto|]. intros [<-|H].
  - split; [|auto]. intros K. assert (existsb (String.eqb a) s = true) by (apply existsb_exists; exists a; split; [exact K|apply String.eqb_refl]). congruence.
  - apply IH in H. cbn in H. tauto.
Qed.
Lemma firsts_nodup (l s : list string) : NoDup (firsts s l).
Proof.
  revert s. induction l as [|a l IH]; intros s; cbn; [constructor|]. destruct (existsb (String.eqb a) s) eqn:E; [apply IH|]. constructor; [|apply IH]. intros H. apply firsts_out in H as [H _]. apply H. left. reflexivity.
Qed.

Section cols.
  Variable repr : R -> string.
  Lemma read_errors (c : string) (e : exn) : read_column repr c = Err e <->
    e = ValueError /\ ((bps_column c /\ parse_float (bps_text c) = None) \/ (~ bps_column c /\ percent_column c /\ parse_float (percent_text c) = None)).
  Proof.
    unfold read_column, quote_value, py_float. rewrite <- bps_spec, <- percent_spec. destruct (re_search bps_quote c), (re_search percentage_quote c), (parse_float (bps_text c)) as [[]|], (parse_float (percent_text c)) as [[]|]; cbn; split; intros H; try discriminate; try (injection H as <-); try solve [intuition congruence].
    all: destruct H as [-> H]; try reflexivity; intuition congruence.
  Qed.
  Lemma read_name (c n : string) (v : R) : read_column repr c = Ok (Some (n, v)) -> exists x, n = x ++ "bps".
  Proof.
    unfold read_column, quote_name. destruct (re_search bps_quote c); [destruct (quote_value _ _); [|discriminate]|destruct (re_search percentage_quote c); [|discriminate]; destruct (quote_value _ _); [|discriminate]]; cbn [bind]; intros E; injection E as <- _; eexists; reflexivity.
  Qed.
  Definition renames (cols : list string) : list (string * string) := flat_map (fun c => match read_column repr c with Ok (Some (n, _)) => [(c, n)] | _ => [] end) cols.
  Lemma read_columns_spec (cols : list string) (u : list (string * string)) (o : list (string * R)) :
    ((forall c, In c cols -> exists q, read_column repr c = Ok q) /\ read_columns repr cols (u, o) = Ok (sets (renames cols) u, sets (quotes repr cols) o)) \/
    ((exists c, In c cols /\ read_column repr c = Err ValueError) /\ read_columns repr cols (u, o) = Err ValueError).
  Proof.
    revert u o. induction cols as [|c cols IH]; intros u o; [left; split; [intros c []|reflexivity]|]. cbn [read_columns]. destruct (read_column repr c) as [q|e] eqn:E; cbn [bind].
    - assert (S : forall u' o', match q with Some (n, v) => (dict_set c n (fst (u, o)), dict_set n v (snd (u, o))) | None => (u, o) end = (u', o') -> sets (renames (c :: cols)) u = sets (renames cols) u' /\ sets (quotes repr (c :: cols)) o = sets (quotes repr cols) o').
      { intros u' o' H. unfold sets, renames, quotes. cbn [flat_map]. rewrite E. destruct q as [[n v]|]; cbn in H; injection H as <- <-; split; reflexivity. }
      destruct (match q with Some (n, v) => (dict_set c n (fst (u, o)), dict_set n v (snd (u, o))) | None => (u, o) end) as [u' o'] eqn:D. destruct (S u' o' eq_refl) as [S1 S2]. rewrite S1, S2. destruct (IH u' o') as [[H1 H2]|[(d & H1 & H1') H2]].
      + left. split; [intros d [<-|Hd]; [exists q; exact E|apply H1, Hd]|rewrite <- H2; f_equal; exact D].
      + right. split; [exists d; split; [right; exact H1|exact H1']|rewrite <- H2; f_equal; exact D].
    - right. pose proof E as E'. apply read_errors in E' as [-> _]. split; [exists c; split; [left; reflexivity|exact E]|reflexivity].
  Qed.
  Lemma renames_in (cols : list string) (c n : string) : In (c, n) (renames cols) <-> In c cols /\ exists v, read_column repr c = Ok (Some (n, v)).
  Proof.
    unfold renames. rewrite in_flat_map. split.
    - intros (d & Hd & H). destruct (read_column repr d) as [[[n' v]|]|e] eqn:E; cbn in H; try contradiction. destruct H as [H|[]]. injection H as <- <-. split; [exact Hd|]. exists v. exact E.
    - intros [Hd [v E]]. exists c. split; [exact Hd|]. rewrite E. left. reflexivity.
  Qed.
  Lemma renames_get (cols : list string) (c n : string) : last_for c (renames cols) = Some n <-> In c cols /\ exists v, read_column repr c = Ok (Some (n, v)).
  Proof.
    rewrite <- renames_in. assert (F : forall n m, In (c, n) (renames cols) -> In (c, m) (renames cols) -> n = m) by (intros n1 n2 [_ [v1 H1]]%renames_in [_ [v2 H2]]%renames_in; congruence). revert F. induction (renames cols) as [|[a m] l IH]; intros F; cbn; [split; [discriminate|intros []]|].
    assert (IH' := IH (fun n1 n2 H1 H2 => F n1 n2 (or_intror H1) (or_intror H2))). destruct (last_for c l) as [w|] eqn:L.
    - split; [intros H; right; apply IH', H|]. intros H. f_equal. apply F; [|exact H]. right. clear -L. induction l as [|[b k] l IH]; [discriminate|]. cbn in L. destruct (last_for c l) as [x|] eqn:Lx; [right; apply IH; exact L|]. destruct (String.eqb c b) eqn:E; [|discriminate]. apply String.eqb_eq in E as ->. injection L as ->. left. reflexivity.
    - destruct (String.eqb c a) eqn:E.
      + apply String.eqb_eq in E as ->. split; [intros H; injection H as ->; left; reflexivity|]. intros [H|H]; [injection H as ->; reflexivity|]. apply IH' in H. discriminate H.
      + split; [discriminate|]. intros [H|H]; [injection H as -> ->; rewrite String.eqb_refl in E; discriminate|]. apply IH' in H. discriminate H.
  Qed.
  Lemma quotes_in (cols : list string) (n : string) (v : R) : In (n, v) (quotes repr cols) <-> exists c, In c cols /\ read_column repr c = Ok (Some (n, v)).
  Proof.
    unfold quotes. rewrite in_flat_map. split; intros (c & Hc & H); exists c; (split; [exact Hc|]).
    - destruct (read_column repr c) as [[q|]|e]; cbn in H; try contradiction. destruct H as [->|[]]. reflexivity.
    - rewrite H. left. reflexivity.
  Qed.
End cols.

Lemma last_for_in {A} (k : string) (v : A) (l : list (string * A)) : last_for k l = Some v -> In (k, v) l.
Proof.
  induction l as [|[b w] l IH]; cbn; [discriminate|]. destruct (last_for k l) as [x|] eqn:L; [intros E; right; apply IH; exact E|]. destruct (String.eqb k b) eqn:E; [|discriminate]. apply String.eqb_eq in E as ->. intros E. injection E as ->. left. reflexivity.
Qed.
Lemma last_for_last {A} (k : string) (v : A) (l r : list (string * A)) : (forall w, ~ In (k, w) r) -> last_for k (l ++ [(k, v)] ++ r)%list = Some v.
Proof.
  intros N. induction l as [|[b w] l IH]; cbn.
  - destruct (last_for k r) as [x|] eqn:L; [apply last_for_in in L; destruct (N x L)|]. rewrite String.eqb_refl. reflexivity.
  - cbn in IH. rewrite IH. reflexivity.
Qed.
(* ---- at the money ---- *)
Lemma firsts_in (l s : list string) (x : string) : In x l -> ~ In x s -> In x (firsts s l).
Proof.
  revert s. induction l as [|a l IH]; intros s; cbn; [intros []|]. intros H N. destruct (existsb (String.eqb a) s) eqn:E.
  - destruct H as [<-|H]; [|apply IH; assumption]. apply existsb_exists in E as (y & Hy & Ey). apply String.eqb_eq in Ey as <-. contradiction.
  - destruct (string_dec a x) as [->|Ne]; [left; reflexivity|]. right. destruct H as [->|H]; [contradiction|]. apply IH; [exact H|]. intros [K|K]; contradiction.
Qed.
Lemma atm_sets (cols : list string) : forall d, fold_left (fun d c => if re_search atm_quote c then dict_set c "atmf" d else d) cols d = sets (map (fun c => (c, "atmf")) (filter (re_search atm_quote) cols)) d.
Proof. induction cols as [|c cols IH]; intros d; cbn; [reflexivity|]. rewrite IH. destruct (re_search atm_quote c); reflexivity. Qed.
Lemma atm_keys (cols : list string) (x : string) : In x (firsts [] (filter (re_search atm_quote) cols)) <-> In x cols /\ atm_column x.
Proof.
  rewrite <- atm_spec, <- filter_In. split; [apply firsts_out|]. intros H. apply firsts_in; [exact H|intros []].
Qed.
Lemma atm_ok (cols : list string) (c : string) : one_atm cols c -> standardise_atmf_quote_col_names cols = Ok [(c, "atmf")].
Proof.
  intros (H1 & H2 & H3). unfold standardise_atmf_quote_col_names. rewrite atm_sets. set (d := sets _ []). pose proof (sets_keys (map (fun c => (c, "atmf")) (filter (re_search atm_quote) cols)) []) as K. fold d in K. cbn [map app] in K. rewrite map_map in K. cbn [fst] in K. rewrite map_id in K.
  assert (G : forall k, dict_get k d = match last_for k (map (fun c => (c, "atmf")) (filter (re_search atm_quote) cols)) with Some v => Some v | None => None end) by (intros k; unfold d; rewrite sets_get; reflexivity).
  assert (F : firsts [] (filter (re_search atm_quote) cols) = [c]).
  { pose proof (firsts_nodup (filter (re_search atm_quote) cols) []) as N. assert (I := proj2 (atm_keys cols c) (conj H1 H2)). assert (A : forall x, In x (firsts [] (filter (re_search atm_quote) cols)) -> x = c) by (intros x [X1 X2]%atm_keys; apply H3; assumption).
    destruct (firsts [] (filter (re_search atm_quote) cols)) as [|x [|y r]]; [destruct I|rewrite (A x) by (left; reflexivity); reflexivity|]. exfalso. inversion N as [|? ? Nx _]; subst. apply Nx. rewrite (A x), (A y) by (cbn; tauto). left. reflexivity. }
  rewrite F in K. destruct d as [|[k v] [|? ?]]; try discriminate K. cbn in K. injection K as ->. specialize (G c). cbn [dict_get] in G. rewrite String.eqb_refl in G. cbn [List.length Nat.eqb guard bind]. do 3 f_equal.
  assert (V : forall l w, last_for c (map (fun c => (c, "atmf")) l) = Some w -> w = "atmf").
  { clear. induction l as [|a l IH]; intros w; cbn; [discriminate|]. destruct (last_for c (map (fun c => (c, "atmf")) l)) as [z|] eqn:L; [intros E; injection E as <-; apply IH; reflexivity|]. destruct (String.eqb c a); [intros E; injection E as <-; reflexivity|discriminate]. }
  destruct (last_for c _) as [w|] eqn:L in G; [|discriminate]. injection G as ->. apply (V _ _ L).
Qed.
Lemma atm_err (cols : list string) : (forall c, ~ one_atm cols c) -> standardise_atmf_quote_col_names cols = Err AssertionError.
Proof.
  intros N. unfold standardise_atmf_quote_col_names. rewrite atm_sets. set (d := sets _ []). pose proof (sets_keys (map (fun c => (c, "atmf")) (filter (re_search atm_quote) cols)) []) as K. fold d in K. cbn [map app] in K. rewrite map_map in K. cbn [fst] in K. rewrite map_id in K.
  destruct (Nat.eqb (List.length d) 1) eqn:E; [|reflexivity]. exfalso. apply Nat.eqb_eq in E. rewrite <- (map_length fst), K in E. destruct (firsts [] (filter (re_search atm_quote) cols)) as [|c [|? ?]] eqn:F; try discriminate E.
  apply (N c). pose proof (atm_keys cols) as A. rewrite F in A. split; [apply A; left; reflexivity|]. split; [apply (A c); left; reflexivity|]. intros x X1 X2. destruct (proj2 (A x) (conj X1 X2)) as [->|[]]. reflexivity.
Qed.
Lemma atm_not_number (c : string) : atm_column c -> has_char "m" c \/ has_char "M" c.
Proof.
  intros (b & a & g & t & h & m & r & -> & _ & _ & _ & _ & Hm). apply lower_cons_inv in Hm as (x & m' & -> & Hx & _).
  assert (I : has_char x (b ++ a ++ g ++ t ++ h ++ String x m' ++ r)) by (do 5 (apply has_char_app; right); apply has_char_app; left; left; reflexivity).
  assert (x = "m"%char \/ x = "M"%char) by (clear -Hx; revert Hx; destruct x as [[] [] [] [] [] [] [] []]; cbn; intros E; try discriminate E; auto).
  destruct H as [-> | ->]; auto.
Qed.
Lemma refuses_char (repr : R -> string) (c : string) (a : ascii) : has_char a c -> ~ In a ["b"; "p"; "s"; " "; "%"]%char -> number_char a = false -> bps_column c \/ percent_column c -> read_column repr c = Err ValueError.
Proof.
  intros H N Na M. unfold read_column, quote_value. rewrite <- bps_spec, <- percent_spec in M. destruct (re_search bps_quote c) eqn:E.
  - rewrite (py_float_refuses (bps_text c) a); [reflexivity| |exact Na]. apply bps_text_keeps; [cbn in *; tauto|exact H].
  - destruct M as [M|M]; [discriminate|]. rewrite M. rewrite (py_float_refuses (percent_text c) a); [reflexivity| |exact Na]. apply percent_text_keeps; [cbn in *; tauto|exact H].
Qed.
Lemma relative_spec (repr : R -> string) (cols : list string) :
  (exists c, one_atm cols c /\ (forall d, In d cols -> exists q, read_column repr d = Ok q) /\
     standardise_relative_quote_col_names repr cols = Ok (sets (renames repr cols) [(c, "atmf")], sets (quotes repr cols) [("atmf", 0%R)])) \/
  (exists c, one_atm cols c /\ (exists d, In d cols /\ read_column repr d = Err ValueError) /\ standardise_relative_quote_col_names repr cols = Err ValueError) \/
  ((forall c, ~ one_atm cols c) /\ standardise_relative_quote_col_names repr cols = Err AssertionError).
Proof.
  unfold standardise_relative_quote_col_names. destruct (standardise_atmf_quote_col_names cols) as [d|e] eqn:E; cbn [bind].
  - assert (X : exists c, one_atm cols c) by (destruct (Classical_Prop.classic (exists c, one_atm cols c)) as [X|X]; [exact X|]; rewrite atm_err in E; [discriminate|intros c Hc; apply X; exists c; exact Hc]).
    destruct X as [c Hc]. rewrite (atm_ok cols c Hc) in E. injection E as <-. destruct (read_columns_spec repr cols [(c, "atmf")] [("atmf", 0%R)]) as [[A B]|[A B]].
    + left. exists c. auto.
    + right; left. exists c. auto.
  - right; right. assert (N : forall c, ~ one_atm cols c) by (intros c Hc; rewrite (atm_ok cols c Hc) in E; discriminate). split; [exact N|]. rewrite (atm_err cols N) in E. injection E as <-. reflexivity.
Qed.
