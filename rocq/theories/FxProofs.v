(* Proofs for solving strategy quotes into put and call quotes. *)
From Coq Require Import String Ascii ZArith QArith Qreals Reals Lra Lia List Bool Permutation Sorted.
From Verif Require Import Base Date BusDayModel BusDaySpec TenorModel TenorSpec TenorProofs CurveModel FxModel FxSpec FxNameProofs.
Import ListNotations.
Open Scope string_scope.

(* ---- order of strings ---- *)
Lemma ascii_compare_lt_trans a b c : Ascii.compare a b = Lt -> Ascii.compare b c = Lt -> Ascii.compare a c = Lt.
Proof. unfold Ascii.compare. rewrite !N.compare_lt_iff. lia. Qed.
Lemma compare_refl s : String.compare s s = Eq.
Proof. induction s as [|a s IH]; [reflexivity|]. cbn. unfold Ascii.compare. rewrite N.compare_refl. exact IH. Qed.
Lemma compare_lt_trans a b c : String.compare a b = Lt -> String.compare b c = Lt -> String.compare a c = Lt.
Proof.
  revert b c. induction a as [|x a IH]; intros [|y b] [|z c]; cbn; try discriminate; try reflexivity; intros A B.
  destruct (Ascii.compare x y) eqn:E; try discriminate.
  - apply compare_eq_iff in E. subst y. destruct (Ascii.compare x z) eqn:F; try discriminate; [|reflexivity]. apply (IH b); assumption.
  - destruct (Ascii.compare y z) eqn:F; try discriminate.
    + apply compare_eq_iff in F. subst z. rewrite E. reflexivity.
    + rewrite (ascii_compare_lt_trans _ _ _ E F). reflexivity.
Qed.
Lemma leb_iff a b : String.leb a b = true <-> String.compare a b = Lt \/ a = b.
Proof.
  unfold String.leb. destruct (String.compare a b) eqn:E; split; intros H; try reflexivity; try discriminate; auto.
  - right. apply String.compare_eq_iff. exact E.
  - destruct H as [H| ->]; [discriminate|]. rewrite compare_refl in E. discriminate.
Qed.
Lemma leb_trans a b c : String.leb a b = true -> String.leb b c = true -> String.leb a c = true.
Proof.
  rewrite !leb_iff. intros [A| ->] [B| ->]; auto. left. exact (compare_lt_trans _ _ _ A B).
Qed.
Lemma insert_str_perm x l : Permutation (insert_str x l) (x :: l).
Proof. induction l as [|y l IH]; [reflexivity|]. cbn. destruct (String.leb x y); [reflexivity|]. rewrite IH. apply perm_swap. Qed.
Lemma sorted_perm l : Permutation (sorted l) l.
Proof. induction l as [|x l IH]; [reflexivity|]. cbn. rewrite insert_str_perm. constructor. exact IH. Qed.
Lemma insert_str_sorted x l : StronglySorted (fun a b => String.leb a b = true) l -> StronglySorted (fun a b => String.leb a b = true) (insert_str x l).
Proof.
  induction l as [|y l IH]; intros S; cbn; [repeat constructor|]. inversion S as [|? ? S' F]; subst. destruct (String.leb x y) eqn:E.
  - constructor; [exact S|]. constructor; [exact E|]. apply Forall_forall. intros z I. rewrite Forall_forall in F. exact (leb_trans _ _ _ E (F z I)).
  - constructor; [apply IH; exact S'|]. apply Forall_forall. intros z I. apply (Permutation_in _ (insert_str_perm _ _)) in I. destruct I as [<-|I].
    + destruct (String.leb_total x y) as [H|H]; [congruence|exact H].
    + rewrite Forall_forall in F. exact (F z I).
Qed.
Lemma sorted_sorted l : StronglySorted (fun a b => String.leb a b = true) (sorted l).
Proof. induction l as [|x l IH]; [constructor|]. cbn. apply insert_str_sorted. exact IH. Qed.
Lemma sorted_unique l m : StronglySorted (fun a b => String.leb a b = true) l -> StronglySorted (fun a b => String.leb a b = true) m -> Permutation l m -> l = m.
Proof.
  revert m. induction l as [|x l IH]; intros m SL SM P.
  - apply Permutation_nil in P. congruence.
  - destruct m as [|y m]; [apply Permutation_sym, Permutation_nil in P; discriminate|].
    inversion SL as [|? ? SL' FL]; subst. inversion SM as [|? ? SM' FM]; subst. rewrite Forall_forall in FL, FM.
    assert (x = y) as ->.
    { assert (I : In x (y :: m)) by (apply (Permutation_in _ P); left; reflexivity).
      assert (J : In y (x :: l)) by (apply (Permutation_in _ (Permutation_sym P)); left; reflexivity).
      destruct I as [->|I]; [reflexivity|]. destruct J as [->|J]; [reflexivity|]. apply String.leb_antisym; auto. }
    f_equal. apply IH; auto. exact (Permutation_cons_inv P).
Qed.
Lemma sorted_eq_iff l m : sorted l = sorted m <-> Permutation l m.
Proof.
  split; intros H.
  - rewrite <- (sorted_perm l), H. apply sorted_perm.
  - apply sorted_unique; [apply sorted_sorted|apply sorted_sorted|]. rewrite !sorted_perm. exact H.
Qed.
Lemma same_strings_iff l m : same_strings l m = true <-> l = m.
Proof.
  revert m. induction l as [|x l IH]; intros [|y m]; cbn; try (split; [discriminate|discriminate]); [split; reflexivity|].
  rewrite andb_true_iff, IH, String.eqb_eq. split; [intros (-> & ->); reflexivity|intros H; injection H; auto].
Qed.

(* ---- names ---- *)
Lemma app_inj_r a b s : a ++ s = b ++ s -> a = b.
Proof.
  revert b. induction a as [|x a IH]; intros [|y b]; cbn; intros H; [reflexivity| | |injection H as -> H; f_equal; exact (IH b H)].
  - exfalso. apply (f_equal String.length) in H. cbn in H. rewrite length_app_s in H. lia.
  - exfalso. apply (f_equal String.length) in H. cbn in H. rewrite length_app_s in H. lia.
Qed.
Fixpoint last3 (s : string) : string :=
  match s with String _ (String _ (String _ (String _ _)) as t) => last3 t | _ => s end.
Lemma last3_app p a b c t : last3 (p ++ String a (String b (String c t))) = last3 (String a (String b (String c t))).
Proof.
  induction p as [|x p IH]; [reflexivity|]. cbn [append]. rewrite <- IH.
  destruct (p ++ String a (String b (String c t))) as [|u [|v [|w r]]] eqn:E; try reflexivity;
    exfalso; apply (f_equal String.length) in E; rewrite length_app_s in E; cbn in E; lia.
Qed.
Ltac names_differ := let H := fresh in intros H; apply (f_equal last3) in H; rewrite ?last3_app in H; vm_compute in H; discriminate.
Lemma put_call d e : d ++ "_delta_put" <> e ++ "_delta_call". Proof. names_differ. Qed.
Lemma put_bf d e : d ++ "_delta_put" <> e ++ "_delta_butterfly". Proof. names_differ. Qed.
Lemma put_rr d e : d ++ "_delta_put" <> e ++ "_delta_riskreversal". Proof. names_differ. Qed.
Lemma call_bf d e : d ++ "_delta_call" <> e ++ "_delta_butterfly". Proof. names_differ. Qed.
Lemma call_rr d e : d ++ "_delta_call" <> e ++ "_delta_riskreversal". Proof. names_differ. Qed.
Lemma bf_rr d e : d ++ "_delta_butterfly" <> e ++ "_delta_riskreversal". Proof. names_differ. Qed.
Lemma atm_bf d : "atm_delta_neutral" <> d ++ "_delta_butterfly". Proof. names_differ. Qed.
Lemma atm_rr d : "atm_delta_neutral" <> d ++ "_delta_riskreversal". Proof. names_differ. Qed.
Lemma atm_put d : "atm_delta_neutral" <> d ++ "_delta_put". Proof. names_differ. Qed.
Lemma atm_call d : "atm_delta_neutral" <> d ++ "_delta_call". Proof. names_differ. Qed.

Lemma starts_self s t : starts_with s (s ++ t) = true.
Proof. induction s as [|a s IH]; [reflexivity|]. cbn. rewrite Ascii.eqb_refl. exact IH. Qed.
Lemma contains_app d s : contains s (d ++ s) = true.
Proof.
  induction d as [|a d IH].
  - cbn [append]. destruct s as [|a s]; [reflexivity|]. cbn [contains]. rewrite <- (TenorProofs.app_nil_r (String a s)) at 2. rewrite starts_self. reflexivity.
  - cbn [append contains]. rewrite IH. apply orb_true_r.
Qed.
Lemma before_app d t : before_underscore d = d -> before_underscore (d ++ String "_" t) = d.
Proof.
  induction d as [|a d IH]; [reflexivity|]. cbn [before_underscore append]. destruct (Ascii.eqb a "_"); [discriminate|].
  intros H. injection H as H. f_equal. exact (IH H).
Qed.

(* ---- columns ---- *)
Lemma has_iff f n : has f n = true <-> In n (names f).
Proof. unfold has. rewrite existsb_exists. split; [intros (x & I & E); apply String.eqb_eq in E; subst; exact I|intros I; exists n; split; [exact I|apply String.eqb_refl]]. Qed.
Lemma in_names f n : In n (names f) <-> exists v, In (n, v) f.
Proof. unfold names. rewrite in_map_iff. split; [intros ((x & v) & <- & I); eauto|intros (v & I); exists (n, v); auto]. Qed.
Lemma col_in f n v : NoDup (names f) -> In (n, v) f -> col f n = Ok v.
Proof.
  intros N I. unfold col. induction f as [|(m, u) f IH]; [contradiction|]. cbn [find fst]. inversion N as [|? ? N1 N2]; subst. destruct (m =? n) eqn:E.
  - apply String.eqb_eq in E. subst m. destruct I as [I|I]; [injection I as <-; reflexivity|]. exfalso. apply N1. apply in_names. eauto.
  - destruct I as [I|I]; [injection I as -> ->; rewrite String.eqb_refl in E; discriminate|]. exact (IH N2 I).
Qed.
Lemma drop_in f n : In n (names f) -> drop f n = Ok (filter (fun c => negb (fst c =? n)) f).
Proof. intros I. unfold drop. apply has_iff in I. rewrite I. reflexivity. Qed.
Lemma filter_names (f : quotes) n : names (filter (fun c => negb (fst c =? n)) f) = filter (fun m => negb (m =? n)) (names f).
Proof. induction f as [|(m, u) f IH]; [reflexivity|]. unfold names in *. cbn [filter map fst]. destruct (m =? n); cbn [negb map fst]; [exact IH|rewrite IH; reflexivity]. Qed.
Lemma in_dropped (f : quotes) n m v : In (m, v) (filter (fun c => negb (fst c =? n)) f) <-> In (m, v) f /\ m <> n.
Proof. rewrite filter_In. cbn. rewrite negb_true_iff, String.eqb_neq. reflexivity. Qed.

Definition legs (sign : R) (a b r : list R) : list R := map (fun x => fst x + fst (snd x) + sign * (1 / 2) * snd (snd x))%R (combine a (combine b r)).
Lemma legs_spec sign a b r v : List.length b = List.length a -> List.length r = List.length a -> leg_volatility a b r sign v <-> v = legs sign a b r.
Proof.
  intros LB LR.
  assert (LL : List.length (legs sign a b r) = List.length a) by (unfold legs; rewrite map_length, !combine_length; lia).
  assert (V : forall i, (i < List.length a)%nat -> nth i (legs sign a b r) 0%R = (nth i a 0 + nth i b 0 + sign * nth i r 0 / 2)%R).
  { intros i L. unfold legs. set (g := fun x : R * (R * R) => (fst x + fst (snd x) + sign * (1 / 2) * snd (snd x))%R).
    rewrite (nth_indep _ 0%R (g (0%R, (0%R, 0%R)))) by (rewrite map_length, !combine_length; lia).
    rewrite map_nth, !combine_nth by (rewrite ?combine_length; lia). unfold g. cbn. lra. }
  split.
  - intros (L & H). apply (nth_ext _ _ 0%R 0%R); [lia|]. intros i I. rewrite H, V by lia. reflexivity.
  - intros ->. split; [exact LL|]. exact V.
Qed.

Lemma add_leg_spec f name d sign a b r : NoDup (names f) -> In ("atm_delta_neutral", a) f -> In (d ++ "_delta_butterfly", b) f -> In (d ++ "_delta_riskreversal", r) f ->
  exists f', add_leg f name d sign = Ok f' /\ NoDup (names f') /\ forall n v, In (n, v) f' <-> In (n, v) f \/ (n = name /\ ~ In name (names f) /\ v = legs sign a b r).
Proof.
  intros N A B C. unfold add_leg. destruct (has f name) eqn:E.
  - exists f. split; [reflexivity|]. split; [exact N|]. apply has_iff in E. intros n v. tauto.
  - assert (M : ~ In name (names f)) by (intros I; apply has_iff in I; congruence).
    rewrite (col_in _ _ _ N A), (col_in _ _ _ N B), (col_in _ _ _ N C). cbn [bind]. eexists. split; [reflexivity|]. split.
    + unfold names. rewrite map_app. cbn. apply (Permutation_NoDup (Permutation_cons_append _ _)). constructor; [exact M|exact N].
    + intros n v. rewrite in_app_iff. cbn [In]. fold (legs sign a b r). split.
      * intros [I|[I|[]]]; [auto|]. injection I as <- <-. auto.
      * intros [I|(-> & _ & ->)]; auto.
Qed.
Lemma solve_delta_spec f d a b r : NoDup (names f) -> In ("atm_delta_neutral", a) f -> In (d ++ "_delta_butterfly", b) f -> In (d ++ "_delta_riskreversal", r) f ->
  exists f', solve_delta f d = Ok f' /\ NoDup (names f') /\ forall n v, In (n, v) f' <->
    (In (n, v) f /\ n <> d ++ "_delta_butterfly" /\ n <> d ++ "_delta_riskreversal") \/
    (n = d ++ "_delta_put" /\ ~ In n (names f) /\ v = legs (-1) a b r) \/ (n = d ++ "_delta_call" /\ ~ In n (names f) /\ v = legs 1 a b r).
Proof.
  intros N A B C. unfold solve_delta.
  destruct (add_leg_spec f (d ++ "_delta_put") d (-1) a b r N A B C) as (f1 & -> & N1 & I1). cbn [bind].
  destruct (add_leg_spec f1 (d ++ "_delta_call") d 1 a b r N1) as (f2 & -> & N2 & I2); try (apply I1; left; assumption). cbn [bind].
  assert (M1 : ~ In (d ++ "_delta_call") (names f1) <-> ~ In (d ++ "_delta_call") (names f)).
  { rewrite !in_names. split; intros H (v & I); apply H.
    - exists v. apply I1. auto.
    - apply I1 in I as [I|(E & _)]; [eauto|]. exfalso. exact (put_call d d (eq_sym E)). }
  rewrite (drop_in f2) by (apply in_names; exists b; apply I2; left; apply I1; auto). cbn [bind].
  rewrite drop_in.
  2: { apply in_names. exists r. apply in_dropped. split; [apply I2; left; apply I1; auto|]. intros E. exact (bf_rr d d (eq_sym E)). }
  eexists. split; [reflexivity|]. split; [rewrite !filter_names; apply NoDup_filter, NoDup_filter; exact N2|].
  intros n v. rewrite !in_dropped, I2, I1. split.
  - intros (([[I|(E & M & V)]|(E & M & V)] & X) & Y); [left; auto| |]; right; [left|right]; subst n; (split; [reflexivity|]); (split; [|exact V]); tauto.
  - intros [(I & X & Y)|[(E & M & V)|(E & M & V)]]; [tauto| |]; subst n.
    + split; [split; [left; right; auto|apply put_bf]|apply put_rr].
    + split; [split; [right; split; [reflexivity|split; [apply M1; exact M|exact V]]|apply call_bf]|apply call_rr].
Qed.

Lemma solve_deltas_spec ds : forall f rows a, NoDup ds -> well_formed f rows -> In ("atm_delta_neutral", a) f ->
  (forall d, In d ds -> In (d ++ "_delta_riskreversal") (names f) /\ In (d ++ "_delta_butterfly") (names f)) ->
  exists f', solve_deltas f ds = Ok f' /\ NoDup (names f') /\ forall n v, In (n, v) f' <-> solved f a ds n v.
Proof.
  induction ds as [|d ds IH]; intros f rows a ND (NF & LF) A S.
  - exists f. split; [reflexivity|]. split; [exact NF|]. intros n v. unfold solved. split.
    + intros I. left. split; [exact I|]. intros d [].
    + intros [(I & _)|(_ & d & _ & _ & [] & _)]. exact I.
  - cbn [solve_deltas]. inversion ND as [|? ? ND1 ND2]; subst.
    destruct (S d (or_introl eq_refl)) as (R0 & B0). apply in_names in R0 as (r & R0). apply in_names in B0 as (b & B0).
    destruct (solve_delta_spec f d a b r NF A B0 R0) as (f1 & -> & N1 & I1). cbn [bind].
    assert (LA := LF _ _ A). assert (LB := LF _ _ B0). assert (LR := LF _ _ R0).
    assert (LG : forall sign, List.length (legs sign a b r) = rows) by (intros; unfold legs; rewrite map_length, !combine_length; lia).
    assert (K : forall e u, e <> d -> In (e ++ "_delta_butterfly", u) f1 <-> In (e ++ "_delta_butterfly", u) f).
    { intros e u NE. rewrite I1. split.
      - intros [(I & _)|[(E & _)|(E & _)]]; [exact I| |]; exfalso; [exact (put_bf _ _ (eq_sym E))|exact (call_bf _ _ (eq_sym E))].
      - intros I. left. split; [exact I|]. split; [intros E; apply NE, (app_inj_r _ _ _ E)|apply bf_rr]. }
    assert (K' : forall e u, e <> d -> In (e ++ "_delta_riskreversal", u) f1 <-> In (e ++ "_delta_riskreversal", u) f).
    { intros e u NE. rewrite I1. split.
      - intros [(I & _)|[(E & _)|(E & _)]]; [exact I| |]; exfalso; [exact (put_rr _ _ (eq_sym E))|exact (call_rr _ _ (eq_sym E))].
      - intros I. left. split; [exact I|]. split; [intros E; exact (bf_rr _ _ (eq_sym E))|intros E; apply NE, (app_inj_r _ _ _ E)]. }
    assert (NE : forall e, In e ds -> e <> d) by (intros e I ->; contradiction).
    destruct (IH f1 rows a ND2) as (f' & E & N' & I').
    + split; [exact N1|]. intros n v I. apply I1 in I as [(I & _)|[(_ & _ & ->)|(_ & _ & ->)]]; [exact (LF _ _ I)| |]; apply LG.
    + apply I1. left. split; [exact A|]. split; [apply atm_bf|apply atm_rr].
    + intros e I. destruct (S e (or_intror I)) as (R1 & B1). rewrite in_names in R1, B1. destruct R1 as (x & R1). destruct B1 as (y & B1). rewrite !in_names.
      split; [exists x; apply K'; auto|exists y; apply K; auto].
    + exists f'. split; [exact E|]. split; [exact N'|]. intros n v. rewrite I'. unfold solved.
      (* membership of computed names in f1 and f *)
      assert (PN : forall e, e <> d -> In (e ++ "_delta_put") (names f1) <-> In (e ++ "_delta_put") (names f)).
      { intros e X. rewrite !in_names. split; intros (u & I); exists u.
        - apply I1 in I as [(I & _)|[(Q & _)|(Q & _)]]; [exact I|exfalso; apply X, (app_inj_r _ _ _ Q)|exfalso; exact (put_call _ _ Q)].
        - apply I1. left. split; [exact I|]. split; [apply put_bf|apply put_rr]. }
      assert (CN : forall e, e <> d -> In (e ++ "_delta_call") (names f1) <-> In (e ++ "_delta_call") (names f)).
      { intros e X. rewrite !in_names. split; intros (u & I); exists u.
        - apply I1 in I as [(I & _)|[(Q & _)|(Q & _)]]; [exact I|exfalso; exact (put_call _ _ (eq_sym Q))|exfalso; apply X, (app_inj_r _ _ _ Q)].
        - apply I1. left. split; [exact I|]. split; [apply call_bf|apply call_rr]. }
      split.
      * intros [(I & X)|(M & e & b' & r' & Ie & Ib & Ir & V)].
        -- apply I1 in I as [(I & Y)|[(Q & M & V)|(Q & M & V)]].
           ++ left. split; [exact I|]. intros e [<-|Ie]; [exact Y|exact (X e Ie)].
           ++ right. split; [exact M|]. exists d, b, r. split; [left; reflexivity|]. split; [exact B0|]. split; [exact R0|]. left. split; [exact Q|]. apply legs_spec; [lia|lia|exact V].
           ++ right. split; [exact M|]. exists d, b, r. split; [left; reflexivity|]. split; [exact B0|]. split; [exact R0|]. right. split; [exact Q|]. apply legs_spec; [lia|lia|exact V].
        -- right. split.
           ++ destruct V as [(-> & _)|(-> & _)]; [rewrite (PN e (NE e Ie)) in M|rewrite (CN e (NE e Ie)) in M]; exact M.
           ++ exists e, b', r'. split; [right; exact Ie|]. split; [apply K; auto|]. split; [apply K'; auto|exact V].
      * intros [(I & X)|(M & e & b' & r' & Ie & Ib & Ir & V)].
        -- left. split; [apply I1; left; split; [exact I|apply X; left; reflexivity]|]. intros e Ie. apply X. right. exact Ie.
        -- destruct Ie as [<-|Ie].
           ++ left. assert (b' = b /\ r' = r) as (-> & ->).
              { assert (H1 := col_in _ _ _ NF Ib). rewrite (col_in _ _ _ NF B0) in H1. assert (H2 := col_in _ _ _ NF Ir). rewrite (col_in _ _ _ NF R0) in H2. split; congruence. }
              split.
              ** apply I1. right. destruct V as [(-> & V)|(-> & V)]; [left|right]; (split; [reflexivity|]); (split; [exact M|]); apply legs_spec in V; auto; lia.
              ** intros e Ie. destruct V as [(-> & _)|(-> & _)]; split; [apply put_bf|apply put_rr|apply call_bf|apply call_rr].
           ++ right. split.
              ** destruct V as [(-> & _)|(-> & _)]; [rewrite (PN e (NE e Ie))|rewrite (CN e (NE e Ie))]; exact M.
              ** exists e, b', r'. split; [exact Ie|]. split; [apply K; auto|]. split; [apply K'; auto|exact V].
Qed.

Lemma strategy_deltas f ds strategy suffix : NoDup (names f) -> NoDup ds -> (forall d, In d ds -> before_underscore d = d) -> suffix = "_delta_" ++ strategy ->
  (forall n, In n (names f) -> contains strategy n = true -> exists d, In d ds /\ n = d ++ suffix) -> (forall d, In d ds -> In (d ++ suffix) (names f)) ->
  Permutation (quoted_deltas strategy f) ds.
Proof.
  intros NF ND U -> S T. apply NoDup_Permutation; [|exact ND|].
  - unfold quoted_deltas. assert (NN := NoDup_filter (contains strategy) NF).
    assert (SS : forall n, In n (filter (contains strategy) (names f)) -> exists d, In d ds /\ n = d ++ "_delta_" ++ strategy) by (intros n I; apply filter_In in I as (I & C); exact (S n I C)).
    revert NN SS. generalize (filter (contains strategy) (names f)) as l. induction l as [|x l IH]; intros NN SS; [constructor|]. cbn. inversion NN as [|? ? N1 N2]; subst. constructor.
    + intros I. apply in_map_iff in I as (y & E & I). destruct (SS x (or_introl eq_refl)) as (d & D & ->). destruct (SS y (or_intror I)) as (e & D' & ->).
      cbn [append] in E. rewrite !before_app in E by (apply U; assumption). subst e. contradiction.
    + apply IH; [exact N2|]. intros n I. apply SS. right. exact I.
  - intros d. unfold quoted_deltas. rewrite in_map_iff. split.
    + intros (n & <- & I). apply filter_In in I as (I & C). destruct (S n I C) as (d & D & ->). cbn [append]. rewrite before_app by (apply U; exact D). exact D.
    + intros D. exists (d ++ "_delta_" ++ strategy). split; [cbn [append]; apply before_app, U, D|]. apply filter_In. split; [apply T; exact D|].
      rewrite <- app_assoc_s. apply contains_app.
Qed.

Theorem solve_ok f rows ds atm : well_formed f rows -> strategies f ds -> In ("atm_delta_neutral", atm) f ->
  exists f', solve_call_put_quotes f = Ok f' /\ NoDup (names f') /\ forall n v, In (n, v) f' <-> solved f atm ds n v.
Proof.
  intros W (ND & U & SR & SB & T) A. unfold solve_call_put_quotes.
  assert (H : has f "atm_delta_neutral" = true) by (apply has_iff, in_names; eauto). rewrite H. cbn [guard bind].
  assert (PR : Permutation (quoted_deltas "riskreversal" f) ds).
  { apply (strategy_deltas f ds "riskreversal" "_delta_riskreversal"); auto; [apply W|]. intros d D. apply T. exact D. }
  assert (PB : Permutation (quoted_deltas "butterfly" f) ds).
  { apply (strategy_deltas f ds "butterfly" "_delta_butterfly"); auto; [apply W|]. intros d D. apply T. exact D. }
  assert (E : deltas_of "riskreversal" f = deltas_of "butterfly" f) by (apply sorted_eq_iff; fold (quoted_deltas "riskreversal" f); fold (quoted_deltas "butterfly" f); rewrite PR, PB; reflexivity).
  assert (E' : same_strings (deltas_of "riskreversal" f) (deltas_of "butterfly" f) = true) by (apply same_strings_iff; exact E). rewrite E'. cbn [guard bind].
  assert (PD : Permutation (deltas_of "butterfly" f) ds) by (unfold deltas_of; rewrite sorted_perm; exact PB).
  destruct (solve_deltas_spec (deltas_of "butterfly" f) f rows atm) as (f' & -> & N' & I').
  - exact (Permutation_NoDup (Permutation_sym PD) ND).
  - exact W.
  - exact A.
  - intros d D. apply T. exact (Permutation_in _ PD D).
  - exists f'. split; [reflexivity|]. split; [exact N'|]. intros n v. rewrite I'. unfold solved. split.
    + intros [(I & X)|(M & d & b & r & D & Y)]; [left; split; [exact I|intros d D; apply X; exact (Permutation_in _ (Permutation_sym PD) D)]|].
      right. split; [exact M|]. exists d, b, r. split; [exact (Permutation_in _ PD D)|exact Y].
    + intros [(I & X)|(M & d & b & r & D & Y)]; [left; split; [exact I|intros d D; apply X; exact (Permutation_in _ PD D)]|].
      right. split; [exact M|]. exists d, b, r. split; [exact (Permutation_in _ (Permutation_sym PD) D)|exact Y].
Qed.
Theorem solve_rejects f : ~ In "atm_delta_neutral" (names f) \/ ~ Permutation (quoted_deltas "riskreversal" f) (quoted_deltas "butterfly" f) ->
  solve_call_put_quotes f = Err AssertionError.
Proof.
  intros H. unfold solve_call_put_quotes. destruct (has f "atm_delta_neutral") eqn:E; [|reflexivity]. cbn [guard bind].
  destruct (same_strings _ _) eqn:S; [|reflexivity]. exfalso. apply same_strings_iff in S. apply sorted_eq_iff in S. apply has_iff in E. tauto.
Qed.

(* the computed legs reproduce the quoted strategies *)
Theorem legs_reproduce atm bf rr put call i : leg_volatility atm bf rr (-1) put -> leg_volatility atm bf rr 1 call -> (i < List.length atm)%nat ->
  (nth i call 0 - nth i put 0 = nth i rr 0 /\ (nth i call 0 + nth i put 0) / 2 - nth i atm 0 = nth i bf 0)%R.
Proof. intros (_ & P) (_ & C) L. rewrite (P i L), (C i L). split; lra. Qed.
Lemma market_pair_iff atm bf rr put call : market_pair atm bf rr put call <-> leg_volatility atm bf rr (-1) put /\ leg_volatility atm bf rr 1 call.
Proof.
  split.
  - intros (LP & LC & M). split; (split; [assumption|]); intros i L; destruct (M i L); lra.
  - intros (P & C). split; [apply P|]. split; [apply C|]. intros i L. apply legs_reproduce; assumption.
Qed.
Lemma solved_unique f rows ds atm n v w : well_formed f rows -> NoDup ds -> solved f atm ds n v -> solved f atm ds n w -> In ("atm_delta_neutral", atm) f -> v = w.
Proof.
  intros (N & L) ND A B AT.
  assert (U : forall m x y, In (m, x) f -> In (m, y) f -> x = y) by (intros m x y X Y; apply (col_in f) in X, Y; auto; congruence).
  destruct A as [(A & _)|(NA & d & b & r & D & IB & IR & A)], B as [(B & _)|(NB & d' & b' & r' & D' & IB' & IR' & B)].
  - exact (U n v w A B).
  - exfalso. apply NB, in_names. eauto.
  - exfalso. apply NA, in_names. eauto.
  - assert (LL : forall m x, In (m, x) f -> List.length x = List.length atm) by (intros m x I; rewrite (L _ _ I), (L _ _ AT); reflexivity).
    destruct A as [(-> & A)|(-> & A)], B as [(E & B)|(E & B)].
    + apply app_inj_r in E. subst d'. rewrite (U _ _ _ IB' IB), (U _ _ _ IR' IR) in B. apply legs_spec in A, B; eauto. congruence.
    + exfalso. exact (put_call _ _ E).
    + exfalso. exact (put_call _ _ (eq_sym E)).
    + apply app_inj_r in E. subst d'. rewrite (U _ _ _ IB' IB), (U _ _ _ IR' IR) in B. apply legs_spec in A, B; eauto. congruence.
Qed.
Theorem solved_pair f rows ds atm d bf rr put call : well_formed f rows -> strategies f ds -> In ("atm_delta_neutral", atm) f -> In d ds ->
  In (d ++ "_delta_butterfly", bf) f -> In (d ++ "_delta_riskreversal", rr) f -> ~ In (d ++ "_delta_put") (names f) -> ~ In (d ++ "_delta_call") (names f) ->
  exists f', solve_call_put_quotes f = Ok f' /\ (In (d ++ "_delta_put", put) f' /\ In (d ++ "_delta_call", call) f' <-> market_pair atm bf rr put call).
Proof.
  intros W S A D B R0 NP NC. destruct (solve_ok f rows ds atm W S A) as (f' & E & _ & I). exists f'. split; [exact E|]. rewrite !I, market_pair_iff.
  destruct W as (N & L). assert (U : forall m x y, In (m, x) f -> In (m, y) f -> x = y) by (intros m x y X Y; apply (col_in f) in X, Y; auto; congruence). split.
  - intros (P & C). split.
    + destruct P as [(P & _)|(_ & d' & b & r & _ & IB & IR & [(Q & P)|(Q & P)])].
      * exfalso. apply NP, in_names. eauto.
      * apply app_inj_r in Q. subst d'. rewrite (U _ _ _ IB B), (U _ _ _ IR R0) in P. exact P.
      * exfalso. exact (put_call _ _ Q).
    + destruct C as [(C & _)|(_ & d' & b & r & _ & IB & IR & [(Q & C)|(Q & C)])].
      * exfalso. apply NC, in_names. eauto.
      * exfalso. exact (put_call _ _ (eq_sym Q)).
      * apply app_inj_r in Q. subst d'. rewrite (U _ _ _ IB B), (U _ _ _ IR R0) in C. exact C.
  - intros (P & C). split; right; [split; [exact NP|]|split; [exact NC|]]; exists d, bf, rr; (split; [exact D|]); (split; [exact B|]); (split; [exact R0|]); [left|right]; auto.
Qed.
