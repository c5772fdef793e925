(* Proofs for the rows and order of smile quotes. *)
From Coq Require Import String Ascii ZArith QArith Qreals Reals Lqa Lia List Bool Permutation Sorted.
From Verif Require Import Base Date BusDayModel BusDaySpec TenorModel TenorSpec TenorProofs CurveModel FxModel FxSpec FxNameProofs FxProofs.
Import ListNotations.
Open Scope string_scope.

(* ---- one quote ---- *)
Lemma put_check : forallb (fun n => negb (contains "call" (n ++ "_delta_put")) && contains "put" (n ++ "_delta_put") && (before_underscore (n ++ "_delta_put") =? n) && negb (n ++ "_delta_put" =? "atm_delta_neutral")) re_number = true.
Proof. vm_compute. reflexivity. Qed.
Lemma call_check : forallb (fun n => contains "call" (n ++ "_delta_call") && (before_underscore (n ++ "_delta_call") =? n) && negb (n ++ "_delta_call" =? "atm_delta_neutral")) re_number = true.
Proof. vm_compute. reflexivity. Qed.
Lemma side_is_quote n v l : delta_number n v -> In l re_call_put -> is_quote (n ++ "_delta_" ++ l) = true.
Proof.
  intros D I. unfold is_quote. fold call_put_words. assert (H : match_groups call_put_words (n ++ "_delta_" ++ l) = Some (n, l)).
  { apply (match_value re_call_put _ (n ++ "_" ++ "delta" ++ "_" ++ l)); [exact call_put_plain| |apply is_word_iff; left; reflexivity].
    apply (word_in re_call_put n v); [exact D|unfold separator; auto|unfold delta_word; auto|unfold separator; auto|exact I]. }
  rewrite H. reflexivity.
Qed.
Lemma quote_row s x : smile_quote s x -> is_quote s = true /\ exists r, quote_details s = Ok r /\ q_name r = s /\ detail_of r.
Proof.
  intros Q. destruct Q as [n v D|n v D|].
  - split; [apply (side_is_quote n v "put"); [exact D|cbn; tauto]|].
    assert (I : In n re_number) by (apply number_iff; eauto). pose proof put_check as C. rewrite forallb_forall in C. specialize (C n I).
    apply andb_true_iff in C as (C & C4). apply andb_true_iff in C as (C & C3). apply andb_true_iff in C as (C1 & C2). apply String.eqb_eq in C3. apply negb_true_iff in C1, C4.
    unfold quote_details, call_put_flag. rewrite C1, C2, C3, C4. unfold py_float. rewrite (numeral_py_int n v (proj1 D)). cbn [bind].
    eexists. split; [reflexivity|]. split; [reflexivity|]. exists (- inject_Z v / 100)%Q. eexists. split; [exact (sq_put n v D)|]. split; [reflexivity|].
    split; [cbn [inject_Z]; unfold Qdiv; change (inject_Z (-1)) with (-1)%Q; ring|]. cbn [q_flag].
    destruct (Qlt_le_dec (- inject_Z v / 100) 0) as [L|L]; [reflexivity|]. exfalso. destruct D as (_ & _ & V1 & _).
    assert (1 <= inject_Z v)%Q by (change 1%Q with (inject_Z 1); rewrite <- Zle_Qle; exact V1). unfold Qdiv in L. change (/100)%Q with (1#100)%Q in L. lra.
  - split; [apply (side_is_quote n v "call"); [exact D|cbn; tauto]|].
    assert (I : In n re_number) by (apply number_iff; eauto). pose proof call_check as C. rewrite forallb_forall in C. specialize (C n I).
    apply andb_true_iff in C as (C & C3). apply andb_true_iff in C as (C1 & C2). apply String.eqb_eq in C2. apply negb_true_iff in C3.
    unfold quote_details, call_put_flag. rewrite C1, C2, C3. unfold py_float. rewrite (numeral_py_int n v (proj1 D)). cbn [bind].
    eexists. split; [reflexivity|]. split; [reflexivity|]. exists (inject_Z v / 100)%Q. eexists. split; [exact (sq_call n v D)|]. split; [reflexivity|].
    split; [cbn [inject_Z]; unfold Qdiv; change (inject_Z 1) with 1%Q; ring|]. cbn [q_flag].
    destruct (Qlt_le_dec (inject_Z v / 100) 0) as [L|L]; [|reflexivity]. exfalso. destruct D as (_ & _ & V1 & _).
    assert (1 <= inject_Z v)%Q by (change 1%Q with (inject_Z 1); rewrite <- Zle_Qle; exact V1). unfold Qdiv in L. change (/100)%Q with (1#100)%Q in L. lra.
  - split; [vm_compute; reflexivity|]. eexists. split; [vm_compute; reflexivity|]. split; [reflexivity|]. exists (1#2)%Q, (1#2)%Q. split; [exact sq_atm|]. split; [reflexivity|]. split; [reflexivity|]. reflexivity.
Qed.
Lemma clean_quote s : clean_name s = s -> is_quote s = true -> exists x, smile_quote s x.
Proof.
  intros C Q. unfold is_quote in Q. destruct (match_groups call_put_words s) as [(n, l)|] eqn:M.
  - unfold call_put_words in M. apply (match_some re_call_put) in M as (w & I & W). apply in_quote_words in I as (v & p & d & p' & D & P & DW & P' & L & ->).
    apply call_put_in in L as (side & L). apply is_word_iff in W.
    assert (SP : spells s (n ++ "_delta_" ++ side)) by (eexists; split; [exact W|]; exact (sp_side n v p d p' l side D P DW P' L)).
    apply clean_spelling in SP. rewrite C in SP. subst s. destruct L as [(_ & ->)|(_ & ->)]; eexists; [exact (sq_call n v D)|exact (sq_put n v D)].
  - apply matches_iff in Q as (w & I & W). apply neutral_iff in I as (m & d & p & A & DW & P & ->).
    assert (SP : spells s "atm_delta_neutral") by (eexists; split; [exact W|]; exact (sp_neutral m d p A DW P)).
    apply clean_spelling in SP. rewrite C in SP. subst s. eexists. exact sq_atm.
Qed.
Lemma smile_quote_iff s : clean_name s = s -> is_quote s = true <-> exists x, smile_quote s x.
Proof. intros C. split; [exact (clean_quote s C)|]. intros (x & Q). apply (proj1 (quote_row s x Q)). Qed.

(* ---- order ---- *)
Lemma delta_sign s x : smile_quote s x -> ~ (x == 0)%Q.
Proof.
  intros Q. destruct Q as [n v (_ & _ & V & _)|n v (_ & _ & V & _)|]; [| |discriminate]; intros E;
    (assert (1 <= inject_Z v)%Q by (change 1%Q with (inject_Z 1); rewrite <- Zle_Qle; exact V)); unfold Qdiv in E; change (/100)%Q with (1#100)%Q in E; lra.
Qed.
Lemma products_le a b x y : (0 < a * b -> a * x == 100 -> b * y == 100 -> x <= y -> b <= a)%Q.
Proof.
  intros P A B L. assert (K : (a * b * x <= a * b * y)%Q) by (apply Qmult_le_l; assumption).
  assert (E1 : (a * b * x == 100 * b)%Q) by (rewrite <- A; ring). assert (E2 : (a * b * y == 100 * a)%Q) by (rewrite <- B; ring). rewrite E1, E2 in K. lra.
Qed.
Lemma order_smile a b : ~ (a == 0)%Q -> ~ (b == 0)%Q -> (100 / a <= 100 / b)%Q -> smile_order a b.
Proof.
  intros A B L. unfold smile_order.
  assert (EA : (a * (100 / a) == 100)%Q) by (field; exact A). assert (EB : (b * (100 / b) == 100)%Q) by (field; exact B).
  set (x := (100 / a)%Q) in *. set (y := (100 / b)%Q) in *. clearbody x y.
  destruct (Q_dec a 0) as [[NA|PA]|Z]; [| |contradiction]; (destruct (Q_dec b 0) as [[NB|PB]|Z]; [| |contradiction]).
  - right. split; [auto|]. apply (products_le a b x y); [nra|assumption..].
  - left. auto.
  - exfalso. assert (0 < x)%Q by nra. assert (y < 0)%Q by nra. lra.
  - right. split; [auto|]. apply (products_le a b x y); [nra|assumption..].
Qed.
Definition ordered (r s : quote_detail) : Prop := order_le r s = true.
Lemma order_trans r s t : ordered r s -> ordered s t -> ordered r t.
Proof.
  unfold ordered, order_le. destruct (q_delta r), (q_delta s), (q_delta t); try discriminate; try reflexivity. rewrite !Qle_bool_iff. apply Qle_trans.
Qed.
Lemma order_total r s : ordered r s \/ ordered s r.
Proof. unfold ordered, order_le. destruct (q_delta r), (q_delta s); auto. rewrite !Qle_bool_iff. destruct (Qlt_le_dec (100/q) (100/q0)); [left; apply Qlt_le_weak|right]; assumption. Qed.
Lemma insert_detail_perm x l : Permutation (insert_detail x l) (x :: l).
Proof. induction l as [|y l IH]; [reflexivity|]. cbn. destruct (order_le x y); [reflexivity|]. rewrite IH. apply perm_swap. Qed.
Lemma sort_detail_perm l : Permutation (fold_right insert_detail [] l) l.
Proof. induction l as [|x l IH]; [reflexivity|]. cbn. rewrite insert_detail_perm. constructor. exact IH. Qed.
Lemma insert_detail_sorted x l : StronglySorted ordered l -> StronglySorted ordered (insert_detail x l).
Proof.
  induction l as [|y l IH]; intros S; cbn; [repeat constructor|]. inversion S as [|? ? S' F]; subst. destruct (order_le x y) eqn:E.
  - constructor; [exact S|]. constructor; [exact E|]. apply Forall_forall. intros z I. rewrite Forall_forall in F. exact (order_trans _ _ _ E (F z I)).
  - constructor; [apply IH; exact S'|]. apply Forall_forall. intros z I. apply (Permutation_in _ (insert_detail_perm _ _)) in I. destruct I as [<-|I].
    + destruct (order_total x y) as [H|H]; [unfold ordered in H; congruence|exact H].
    + rewrite Forall_forall in F. exact (F z I).
Qed.
Lemma sort_detail_sorted l : StronglySorted ordered (fold_right insert_detail [] l).
Proof. induction l as [|x l IH]; [constructor|]. cbn. apply insert_detail_sorted. exact IH. Qed.

Lemma sequence_rows cols : (forall c, In c cols -> clean_name c = c) ->
  exists rows, sequence (map quote_details (filter is_quote cols)) = Ok rows /\ map q_name rows = filter is_quote cols /\ Forall detail_of rows.
Proof.
  induction cols as [|c cols IH]; intros C; [exists []; repeat split; constructor|].
  destruct (IH (fun x I => C x (or_intror I))) as (rows & E & N & F). cbn [filter]. destruct (is_quote c) eqn:Q; [|exists rows; auto].
  destruct (clean_quote c (C c (or_introl eq_refl)) Q) as (x & SQ). destruct (quote_row c x SQ) as (_ & r & ER & NR & DR).
  exists (r :: rows). cbn [map sequence]. rewrite ER. cbn [bind]. rewrite E. cbn [bind]. split; [reflexivity|]. split; [rewrite NR, N; reflexivity|]. constructor; assumption.
Qed.
Theorem details_ok cols : (forall c, In c cols -> clean_name c = c) ->
  exists rows, get_delta_smile_quote_details cols = Ok rows /\ Permutation (map q_name rows) (filter is_quote cols) /\
    (forall c, In c (map q_name rows) <-> In c cols /\ exists x, smile_quote c x) /\ (forall r, In r rows -> detail_of r) /\ in_smile_order rows.
Proof.
  intros C. destruct (sequence_rows cols C) as (rows & E & N & F). unfold get_delta_smile_quote_details. rewrite E. cbn [bind].
  eexists. split; [reflexivity|]. set (l := fold_right insert_detail [] rows).
  assert (P : Permutation l rows) by apply sort_detail_perm. assert (PN : Permutation (map q_name l) (filter is_quote cols)) by (rewrite P, N; reflexivity).
  assert (D : forall r, In r l -> detail_of r) by (intros r I; rewrite Forall_forall in F; apply F, (Permutation_in _ P I)).
  split; [exact PN|]. split; [|split; [exact D|]].
  - intros c. split.
    + intros I. apply (Permutation_in _ PN) in I. apply filter_In in I as (I & Q). split; [exact I|]. exact (clean_quote c (C c I) Q).
    + intros (I & x & Q). apply (Permutation_in _ (Permutation_sym PN)). apply filter_In. split; [exact I|]. exact (proj1 (quote_row c x Q)).
  - assert (S : StronglySorted ordered l) by apply sort_detail_sorted. clearbody l. clear -S D. unfold in_smile_order. induction S as [|r l S IH O]; [constructor|]. constructor.
    + apply Forall_forall. intros s I. rewrite Forall_forall in O. specialize (O s I). unfold ordered, order_le in O.
      destruct (D r (or_introl eq_refl)) as (x & y & Q & E1 & EQ & _). destruct (D s (or_intror I)) as (x' & y' & Q' & E2 & EQ' & _). rewrite E1, E2 in O.
      apply Qle_bool_iff in O. exists y, y'. split; [exact E1|]. split; [exact E2|].
      apply delta_sign in Q, Q'. apply order_smile; [rewrite EQ; exact Q|rewrite EQ'; exact Q'|exact O].
    + apply IH. intros s I. apply D. right. exact I.
Qed.
