From Coq Require Import ZArith String Ascii List Bool Arith Lia Permutation.
From Verif Require Import Base TenorModel BootModel TableModel TableSpec EnumModel EnumSpec EnumProofs.
Import ListNotations.
Open Scope string_scope.

(* ---- move_col_after ---- *)
Lemma index_app x a b : ~ In x a -> index x (a ++ x :: b)%list = Ok (List.length a).
Proof.
  induction a as [|y a IH]; intros N; cbn [app index List.length].
  - rewrite String.eqb_refl. reflexivity.
  - destruct (String.eqb_spec x y) as [->|E]; [exfalso; apply N; left; reflexivity|]. rewrite IH by (intros H; apply N; right; exact H). reflexivity.
Qed.
Lemma index_missing x l : ~ In x l -> index x l = Err ValueError.
Proof.
  induction l as [|y l IH]; intros N; [reflexivity|]. cbn [index]. destruct (String.eqb_spec x y) as [->|E]; [exfalso; apply N; left; reflexivity|]. rewrite IH by (intros H; apply N; right; exact H). reflexivity.
Qed.
Lemma index_ok x l : In x l -> exists i, index x l = Ok i.
Proof.
  induction l as [|y l IH]; [contradiction|]. intros [->|I]; cbn [index]; [rewrite String.eqb_refl; eexists; reflexivity|]. destruct (String.eqb x y); [eexists; reflexivity|]. destruct (IH I) as (i & ->). eexists; reflexivity.
Qed.
Lemma index_split x l i : index x l = Ok i -> exists a b, l = (a ++ x :: b)%list /\ List.length a = i /\ ~ In x a.
Proof.
  revert i. induction l as [|y l IH]; intros i; cbn [index]; [discriminate|]. destruct (String.eqb_spec x y) as [->|E].
  - intros H. injection H as <-. exists [], l. repeat split. intros [].
  - destruct (index x l) as [j|]; cbn [bind]; [|discriminate]. intros H. injection H as <-. destruct (IH j eq_refl) as (a & b & -> & L & N). exists (y :: a), b. split; [reflexivity|]. split; [cbn; congruence|]. intros [H|H]; [congruence|contradiction].
Qed.
Lemma pop_app {A} (a : list A) x b : pop (List.length a) (a ++ x :: b)%list = (a ++ b)%list.
Proof. induction a as [|y a IH]; [reflexivity|]. cbn. rewrite IH. reflexivity. Qed.
Lemma insert_app {A} (a : list A) x b : insert (List.length a) x (a ++ b)%list = (a ++ x :: b)%list.
Proof. unfold insert. rewrite firstn_app, Nat.sub_diag, firstn_all, firstn_O, app_nil_r, skipn_app, Nat.sub_diag, skipn_all, skipn_O. reflexivity. Qed.
Lemma insert_perm {A} i (x : A) l : Permutation (insert i x l) (x :: l).
Proof. unfold insert. rewrite <- Permutation_middle, firstn_skipn. reflexivity. Qed.
Lemma filter_one {A} (df : list (string * A)) p : distinct_labels df -> In p df -> filter (fun q => String.eqb (fst p) (fst q)) df = [p].
Proof.
  unfold distinct_labels. induction df as [|q df IH]; [contradiction|]. cbn [map]. intros N I. apply NoDup_cons_iff in N. destruct N as [Nq N]. cbn [filter]. destruct I as [->|I].
  - rewrite String.eqb_refl. f_equal. clear IH N. induction df as [|r df IH]; [reflexivity|]. cbn [filter]. destruct (String.eqb_spec (fst p) (fst r)) as [E|_]; [exfalso; apply Nq; left; congruence|]. apply IH. intros H. apply Nq. right. exact H.
  - destruct (String.eqb_spec (fst p) (fst q)) as [E|_]; [exfalso; apply Nq; rewrite <- E; apply in_map; exact I|]. exact (IH N I).
Qed.
Lemma select_id {A} (df l : list (string * A)) : distinct_labels df -> incl l df -> select df (map fst l) = l.
Proof.
  intros N. induction l as [|p l IH]; [reflexivity|]. intros I. unfold select in *. cbn [map flat_map]. rewrite filter_one by (try exact N; apply I; left; reflexivity). cbn [app]. f_equal. apply IH. intros q Q. apply I. right. exact Q.
Qed.
Lemma distinct_nin {A} (df : list (string * A)) a p b : distinct_labels df -> df = (a ++ p :: b)%list -> ~ In (fst p) (map fst a) /\ ~ In (fst p) (map fst b).
Proof. unfold distinct_labels. intros N ->. rewrite map_app in N. cbn [map] in N. apply NoDup_remove_2 in N. rewrite in_app_iff in N. tauto. Qed.
(* the columns after the move, when the labels are distinct: l is the moved list of columns *)
Lemma move_distinct {A} (df l : list (string * A)) (c r : string * A) i j : distinct_labels df -> In c df -> index (fst r) (map fst df) = Ok i -> index (fst c) (map fst df) = Ok j ->
  insert (i + 1) c (pop j df) = l -> incl (pop j df) df -> move_col_after df (fst c) (fst r) = Ok l.
Proof.
  intros N I Hi Hj <- Inc. unfold move_col_after. rewrite Hi, Hj. cbn [bind]. f_equal.
  assert (P : forall k (d : list (string * A)), pop k (map fst d) = map fst (pop k d)). { intros k d. revert k. induction d as [|x d IH]; intros k; [reflexivity|]. destruct k; cbn; [reflexivity|]. rewrite IH. reflexivity. }
  assert (Q : forall k (x : string * A) d, insert k (fst x) (map fst d) = map fst (insert k x d)). { intros k x d. unfold insert. rewrite map_app, <- firstn_map. cbn [map]. rewrite <- skipn_map. reflexivity. }
  rewrite P, Q. apply select_id; [exact N|]. intros x X. apply (Permutation_in _ (insert_perm _ _ _)) in X. destruct X as [<-|X]; [exact I|exact (Inc x X)].
Qed.
Lemma incl_mid {A} (a b : list A) x : incl (a ++ b) (a ++ x :: b).
Proof. intros y Y. rewrite in_app_iff in *. cbn. tauto. Qed.
Lemma move_later {A} (a b d : list (string * A)) r c : let df := (a ++ r :: b ++ c :: d)%list in distinct_labels df -> move_col_after df (fst c) (fst r) = Ok (a ++ r :: c :: b ++ d)%list.
Proof.
  intros df N. assert (E : df = ((a ++ r :: b) ++ c :: d)%list) by (unfold df; rewrite <- app_assoc; reflexivity).
  destruct (distinct_nin df a r (b ++ c :: d) N eq_refl) as [Na _]. destruct (distinct_nin df (a ++ r :: b) c d N E) as [Nc _].
  apply (move_distinct df _ c r (List.length a) (List.length (a ++ r :: b))); [exact N|rewrite E, in_app_iff; right; left; reflexivity| | | |].
  - unfold df. rewrite map_app. cbn [map]. rewrite index_app, map_length by exact Na. reflexivity.
  - rewrite E, map_app. cbn [map]. rewrite index_app, map_length by exact Nc. reflexivity.
  - rewrite E, pop_app. replace ((a ++ r :: b) ++ d)%list with ((a ++ [r]) ++ (b ++ d))%list by (rewrite <- !app_assoc; reflexivity). replace (List.length a + 1)%nat with (List.length (a ++ [r])) by (rewrite app_length; cbn; lia). rewrite insert_app, <- app_assoc. reflexivity.
  - rewrite E, pop_app. apply incl_mid.
Qed.
Lemma move_earlier {A} (a b d : list (string * A)) c r x : let df := (a ++ c :: b ++ r :: x :: d)%list in distinct_labels df -> move_col_after df (fst c) (fst r) = Ok (a ++ b ++ r :: x :: c :: d)%list.
Proof.
  intros df N. assert (E : df = ((a ++ c :: b) ++ r :: x :: d)%list) by (unfold df; rewrite <- app_assoc; reflexivity).
  destruct (distinct_nin df a c (b ++ r :: x :: d) N eq_refl) as [Nc _]. destruct (distinct_nin df (a ++ c :: b) r (x :: d) N E) as [Nr _].
  apply (move_distinct df _ c r (List.length (a ++ c :: b)) (List.length a)); [exact N|unfold df; rewrite in_app_iff; right; left; reflexivity| | | |].
  - rewrite E, map_app. cbn [map]. rewrite index_app, map_length by exact Nr. reflexivity.
  - unfold df. rewrite map_app. cbn [map]. rewrite index_app, map_length by exact Nc. reflexivity.
  - unfold df. rewrite pop_app. replace (a ++ b ++ r :: x :: d)%list with ((a ++ b ++ [r; x]) ++ d)%list by (rewrite <- !app_assoc; reflexivity). replace (List.length (a ++ c :: b) + 1)%nat with (List.length (a ++ b ++ [r; x])) by (rewrite !app_length; cbn; lia). rewrite insert_app, <- !app_assoc. reflexivity.
  - unfold df. rewrite pop_app. apply incl_mid.
Qed.
Lemma insert_end {A} i (x : A) l : (List.length l <= i)%nat -> insert i x l = (l ++ [x])%list.
Proof. intros L. unfold insert. rewrite firstn_all2, skipn_all2 by exact L. reflexivity. Qed.
Lemma move_last {A} (a b : list (string * A)) c r : let df := (a ++ c :: b ++ [r])%list in distinct_labels df -> move_col_after df (fst c) (fst r) = Ok (a ++ b ++ [r; c])%list.
Proof.
  intros df N. assert (E : df = ((a ++ c :: b) ++ [r])%list) by (unfold df; rewrite <- app_assoc; reflexivity).
  destruct (distinct_nin df a c (b ++ [r]) N eq_refl) as [Nc _]. destruct (distinct_nin df (a ++ c :: b) r [] N E) as [Nr _].
  apply (move_distinct df _ c r (List.length (a ++ c :: b)) (List.length a)); [exact N|unfold df; rewrite in_app_iff; right; left; reflexivity| | | |].
  - rewrite E, map_app. cbn [map]. rewrite index_app, map_length by exact Nr. reflexivity.
  - unfold df. rewrite map_app. cbn [map]. rewrite index_app, map_length by exact Nc. reflexivity.
  - unfold df. rewrite pop_app, insert_end by (rewrite !app_length; cbn; lia). rewrite <- !app_assoc. reflexivity.
  - unfold df. rewrite pop_app. apply incl_mid.
Qed.
Lemma move_itself {A} (a d : list (string * A)) c : let df := (a ++ c :: d)%list in distinct_labels df -> move_col_after df (fst c) (fst c) = Ok (match d with [] => df | x :: t => a ++ x :: c :: t end)%list.
Proof.
  intros df N. destruct (distinct_nin df a c d N eq_refl) as [Nc _].
  assert (I : index (fst c) (map fst df) = Ok (List.length a)) by (unfold df; rewrite map_app; cbn [map]; rewrite index_app, map_length by exact Nc; reflexivity).
  apply (move_distinct df _ c c (List.length a) (List.length a)); [exact N|unfold df; rewrite in_app_iff; right; left; reflexivity|exact I|exact I| |].
  - unfold df. rewrite pop_app. destruct d as [|x t].
    + rewrite app_nil_r, insert_end by lia. reflexivity.
    + replace (a ++ x :: t)%list with ((a ++ [x]) ++ t)%list by (rewrite <- app_assoc; reflexivity). replace (List.length a + 1)%nat with (List.length (a ++ [x])) by (rewrite app_length; cbn; lia). rewrite insert_app, <- app_assoc. reflexivity.
  - unfold df. rewrite pop_app. apply incl_mid.
Qed.
Lemma move_missing {A} (df : list (string * A)) c r : ~ In c (map fst df) \/ ~ In r (map fst df) -> move_col_after df c r = Err ValueError.
Proof.
  intros H. unfold move_col_after. destruct (in_dec string_dec r (map fst df)) as [I|N]; [|rewrite (index_missing _ _ N); reflexivity]. destruct (index_ok _ _ I) as (i & ->). cbn [bind]. destruct H as [H|H]; [|contradiction]. rewrite (index_missing _ _ H). reflexivity.
Qed.
Lemma count_select {A} (df : list (string * A)) cols l : count l (select df cols) = (count_occ string_dec cols l * count l df)%nat.
Proof.
  unfold count, select. induction cols as [|c cols IH]; [reflexivity|]. cbn [flat_map]. rewrite map_app, count_occ_app, IH. clear IH.
  assert (F : forall d : list (string * A), count_occ string_dec (map fst (filter (fun p => String.eqb c (fst p)) d)) l = if string_dec c l then count_occ string_dec (map fst d) l else O).
  { induction d as [|p d IH]; [cbn; destruct (string_dec c l); reflexivity|]. cbn [filter map count_occ]. destruct (String.eqb_spec c (fst p)) as [E|N].
    - cbn [map count_occ]. rewrite IH. rewrite <- E. destruct (string_dec c l); reflexivity.
    - rewrite IH. destruct (string_dec c l) as [->|]; [|reflexivity]. destruct (string_dec (fst p) l); [congruence|reflexivity]. }
  rewrite F. cbn [count_occ]. destruct (string_dec c l); lia.
Qed.
Lemma move_counts {A} (df out : list (string * A)) c r l : move_col_after df c r = Ok out -> count l out = (count l df * count l df)%nat.
Proof.
  unfold move_col_after. destruct (index r (map fst df)) as [i|]; cbn [bind]; [|discriminate]. destruct (index c (map fst df)) as [j|] eqn:J; cbn [bind]; [|discriminate]. intros H. injection H as <-. rewrite count_select. f_equal.
  destruct (index_split _ _ _ J) as (a & b & E & L & _). rewrite (proj1 (Permutation_count_occ string_dec _ _) (insert_perm (i + 1) c _)). unfold count. rewrite E, <- L, pop_app. cbn [count_occ]. rewrite !count_occ_app. cbn [count_occ]. destruct (string_dec c l); lia.
Qed.

(* ---- messages ---- *)
Section Copy.
Variables (get : message_row -> cell) (set : cell -> message_row -> message_row).
Hypothesis set_id : forall m r, row_id (set m r) = row_id r.
Hypothesis set_set : forall m n r, set m (set n r) = set m r.
Definition message (p : list message_row) (i : Z) : option cell := option_map get (find (fun r => Z.eqb (row_id r) i) p).
Definition memz (i : Z) (l : list Z) : bool := existsb (Z.eqb i) l.
Lemma copy_fold p ids : (forall i, In i ids -> exists m, first_message get p i = Ok m) -> forall input,
  fold_left (fun acc i => let* input := acc in let* m := first_message get p i in Ok (map (fun r => if Z.eqb (row_id r) i then set m r else r) input)) ids (Ok input)
  = Ok (map (fun r => if memz (row_id r) ids then match first_message get p (row_id r) with Ok m => set m r | Err _ => r end else r) input).
Proof.
  induction ids as [|i ids IH]; intros H input; [cbn; f_equal; symmetry; apply map_id|]. cbn [fold_left]. destruct (H i (or_introl eq_refl)) as (m & M). rewrite M. cbn [bind]. rewrite IH by (intros k K; apply H; right; exact K). f_equal. rewrite map_map. apply map_ext. intros r.
  cbn [memz existsb]. fold (memz (row_id r) ids). destruct (Z.eqb_spec (row_id r) i) as [E|N]; cbn [orb]; [|reflexivity]. rewrite set_id, E, M. destruct (memz i ids); [apply set_set|reflexivity].
Qed.
Definition result_of (p : list message_row) (r : message_row) : message_row :=
  if memz (row_id r) (map row_id (filter (fun r => not_empty (get r)) p)) then match first_message get p (row_id r) with Ok m => set m r | Err _ => r end else r.
Lemma copy_column_map p input : copy_column get set p input = Ok (map (result_of p) input).
Proof.
  unfold copy_column. apply copy_fold. intros i I. apply in_map_iff in I. destruct I as (r & <- & I). apply filter_In in I. unfold first_message. destruct (find _ p) eqn:F; [eexists; reflexivity|]. pose proof (find_none _ _ F r (proj1 I)) as N. cbn in N. rewrite Z.eqb_refl in N. discriminate.
Qed.
Lemma find_split {A} (f : A -> bool) l x : find f l = Some x -> exists a b, l = (a ++ x :: b)%list /\ f x = true /\ forall q, In q a -> f q = false.
Proof.
  induction l as [|y l IH]; cbn [find]; [discriminate|]. destruct (f y) eqn:F.
  - intros H. injection H as ->. exists [], l. repeat split; [exact F|intros q []].
  - intros H. destruct (IH H) as (a & b & -> & X & N). exists (y :: a), b. split; [reflexivity|]. split; [exact X|]. intros q [<-|Q]; [exact F|exact (N q Q)].
Qed.
Lemma not_empty_iff c : not_empty c = true <-> c <> Text "".
Proof. destruct c as [|s|k]; cbn; [split; [discriminate|reflexivity]| |split; [discriminate|reflexivity]]. rewrite negb_true_iff, String.eqb_neq. split; [intros N H; injection H; exact N|intros N ->; exact (N eq_refl)]. Qed.
Lemma result_copied p r : (result_of p r = r /\ forall q, In q p -> row_id q = row_id r -> get q = Text "") \/
  exists m, result_of p r = set m r /\ forall old, copied get p (row_id r) old m.
Proof.
  unfold result_of. destruct (memz _ _) eqn:M.
  - right. unfold memz in M. apply existsb_exists in M. destruct M as (i & I & E). apply Z.eqb_eq in E. subst i. apply in_map_iff in I. destruct I as (q & Eq & I). apply filter_In in I. destruct I as [I G]. apply not_empty_iff in G. unfold first_message. destruct (find _ p) as [f|] eqn:F.
    + exists (get f). split; [reflexivity|]. intros old. left. split; [exists q; repeat split; assumption|]. destruct (find_split _ _ _ F) as (a & b & -> & X & N). exists a, f, b. split; [reflexivity|]. split; [apply Z.eqb_eq; exact X|]. split; [|reflexivity]. intros z Hz. apply Z.eqb_neq. exact (N z Hz).
    + pose proof (find_none _ _ F q I) as N. cbn in N. rewrite Eq, Z.eqb_refl in N. discriminate.
  - left. split; [reflexivity|]. intros q I E. destruct (not_empty (get q)) eqn:G; [|destruct (get q) as [|s|]; cbn in G; try discriminate; apply negb_false_iff, String.eqb_eq in G; congruence]. exfalso. assert (memz (row_id r) (map row_id (filter (fun r => not_empty (get r)) p)) = true); [|congruence].
    apply existsb_exists. exists (row_id q). split; [apply in_map, filter_In; split; assumption|]. rewrite E. apply Z.eqb_refl.
Qed.
End Copy.

(* ---- cleaning ---- *)
Lemma has_iff l ls : has l ls = true <-> In l ls.
Proof. unfold has. rewrite existsb_exists. split; [intros (x & I & E); apply String.eqb_eq in E; congruence|intros I; exists l; split; [exact I|apply String.eqb_refl]]. Qed.
Lemma has_not l ls : has l ls = false <-> ~ In l ls.
Proof. rewrite <- has_iff. destruct (has l ls); split; congruence. Qed.
Lemma keep_iff ls r : keep ls r = false <-> blank_row ls r.
Proof.
  unfold keep, counted, blank_row. rewrite negb_false_iff, forallb_forall. split.
  - intros H l c I N. assert (M : is_missing c = true); [|destruct c; (reflexivity || discriminate)]. apply H, in_map_iff. exists (l, c). split; [reflexivity|]. apply filter_In. split; [exact I|]. cbn. apply negb_true_iff, String.eqb_neq. exact N.
  - intros H c I. apply in_map_iff in I. destruct I as ([l d] & <- & I). apply filter_In in I. cbn in *. destruct I as [I N]. apply negb_true_iff, String.eqb_neq in N. rewrite (H l d I N). reflexivity.
Qed.
Lemma filter_non_blank ls rs : non_blank ls rs (filter (keep ls) rs).
Proof.
  induction rs as [|r rs IH]; [constructor|]. cbn [filter]. destruct (keep ls r) eqn:K; constructor; try exact IH; [|apply keep_iff; exact K]. intros B. apply keep_iff in B. congruence.
Qed.
Lemma non_blank_unique ls rs ks : non_blank ls rs ks -> ks = filter (keep ls) rs.
Proof.
  intros H. induction H as [|r rs ks B _ IH|r rs ks B _ IH]; [reflexivity| |]; cbn [filter].
  - rewrite (proj2 (keep_iff ls r) B). exact IH.
  - destruct (keep ls r) eqn:K; [congruence|]. apply keep_iff in K. contradiction.
Qed.
Lemma lowered_iff c d : lowered c d <-> d = lower_cell c.
Proof. split; [intros H; destruct H; reflexivity|intros ->; destruct c; constructor]. Qed.
Lemma lower_cell_idem c : lower_cell (lower_cell c) = lower_cell c.
Proof. destruct c as [|s|k]; [reflexivity|cbn; rewrite lower_idem; reflexivity|reflexivity]. Qed.
Definition with_id (f : frame) : result frame := if has "internal_id" (labels f) then Ok f else add_internal_id f.
Definition finish (f : frame) : frame :=
  let kept := filter (keep (labels f)) (rows f) in
  let f := mk_frame (map (fun i => Other (Z.of_nat i)) (seq 0 (List.length kept))) (map strip (labels f)) (map (map lower_cell) kept) in
  let f := if has "errors" (labels f) then f else insert_column 0 "errors" f in
  if has "warnings" (labels f) then f else insert_column 1 "warnings" f.
Lemma clean_finish f : clean_input_dataframe f = (let* f := with_id f in Ok (finish f)).
Proof. reflexivity. Qed.
Lemma finish_cases f : let kept := filter (keep (labels f)) (rows f) in let ls := map strip (labels f) in let low := map (map lower_cell) kept in
  row_index (finish f) = map (fun i => Other (Z.of_nat i)) (seq 0 (List.length kept)) /\
  ((~ In "errors" ls /\ ~ In "warnings" ls /\ labels (finish f) = "errors" :: "warnings" :: ls /\ rows (finish f) = map (fun r => Text "" :: Text "" :: r) low)
   \/ (~ In "errors" ls /\ In "warnings" ls /\ labels (finish f) = "errors" :: ls /\ rows (finish f) = map (cons (Text "")) low)
   \/ (In "errors" ls /\ ~ In "warnings" ls /\ labels (finish f) = insert 1 "warnings" ls /\ rows (finish f) = map (insert 1 (Text "")) low)
   \/ (In "errors" ls /\ In "warnings" ls /\ labels (finish f) = ls /\ rows (finish f) = low)).
Proof.
  intros kept ls low. unfold finish. fold kept ls low. cbn [labels]. destruct (has "errors" ls) eqn:E.
  - cbn [labels]. destruct (has "warnings" ls) eqn:W; (split; [reflexivity|]); apply has_iff in E.
    + apply has_iff in W. do 3 right. repeat split; assumption.
    + apply has_not in W. right. right. left. repeat split; assumption.
  - unfold insert_column, insert. cbn [labels rows row_index firstn skipn app]. change (has "warnings" ("errors" :: ls)) with (has "warnings" ls). apply has_not in E. destruct (has "warnings" ls) eqn:W; cbn [labels rows row_index firstn skipn app]; (split; [reflexivity|]).
    + apply has_iff in W. right. left. split; [exact E|]. split; [exact W|]. split; reflexivity.
    + apply has_not in W. left. split; [exact E|]. split; [exact W|]. split; [reflexivity|]. rewrite map_map. reflexivity.
Qed.
Lemma with_id_labels f g : with_id f = Ok g -> In "internal_id" (labels g) /\ ((forall l, In l (labels f) -> strip l = "internal_id" -> l = "internal_id") -> forall l, In l (labels g) -> strip l = "internal_id" -> l = "internal_id").
Proof.
  unfold with_id. destruct (has "internal_id" (labels f)) eqn:I.
  - intros H. injection H as <-. apply has_iff in I. split; [exact I|trivial].
  - unfold add_internal_id. intros H. destruct (has "index" (labels f)) eqn:X; [destruct (has "level_0" (labels f)); cbn [bind] in H; [discriminate|]|cbn [bind] in H]; injection H as <-; cbn [labels].
    + apply has_iff in X. split; [right; apply in_map_iff; exists "index"; split; [reflexivity|exact X]|]. intros N l [<-|L] S; [discriminate S|]. apply in_map_iff in L. destruct L as (k & <- & K). destruct (String.eqb_spec k "index"); [reflexivity|]. exact (N _ K S).
    + split; [left; reflexivity|]. intros N l [<-|L] S; [reflexivity|]. apply in_map_iff in L. destruct L as (k & <- & K). destruct (String.eqb_spec k "index"); [reflexivity|]. exact (N _ K S).
Qed.
Lemma with_id_wf f g : well_formed f -> with_id f = Ok g -> well_formed g.
Proof.
  intros [L W]. unfold with_id. destruct (has "internal_id" (labels f)); [intros H; injection H as <-; split; assumption|]. unfold add_internal_id.
  assert (X : forall name, well_formed (mk_frame (map (fun i => Other (Z.of_nat i)) (seq 0 (List.length (rows f)))) (map (fun l => if String.eqb l "index" then "internal_id" else l) (name :: labels f)) (map (fun p => fst p :: snd p) (combine (row_index f) (rows f))))).
  { intros name. split; cbn [row_index rows labels]; [rewrite !map_length, seq_length, combine_length; lia|]. apply List.Forall_forall. intros r R. apply in_map_iff in R. destruct R as ([i r'] & <- & R). apply in_combine_r in R. cbn [fst snd List.length]. rewrite map_length. cbn [List.length]. f_equal. exact (proj1 (List.Forall_forall _ _) W r' R). }
  destruct (has "index" (labels f)); [destruct (has "level_0" (labels f)); cbn [bind]; [discriminate|]|cbn [bind]]; intros H; injection H as <-; [exact (X "level_0")|exact (X "index")].
Qed.
Lemma filter_all {A} (p : A -> bool) l : (forall x, In x l -> p x = true) -> filter p l = l.
Proof. induction l as [|x l IH]; [reflexivity|]. intros H. cbn [filter]. rewrite (H x) by (left; reflexivity). rewrite IH by (intros y Y; apply H; right; exact Y). reflexivity. Qed.
Lemma map_id_in {A} (f : A -> A) l : (forall x, In x l -> f x = x) -> map f l = l.
Proof. induction l as [|x l IH]; [reflexivity|]. intros H. cbn [map]. rewrite (H x) by (left; reflexivity). rewrite IH by (intros y Y; apply H; right; exact Y). reflexivity. Qed.
Lemma clean_fixed g : In "internal_id" (labels g) -> In "errors" (labels g) -> In "warnings" (labels g) -> (forall l, In l (labels g) -> strip l = l) -> (forall r, In r (rows g) -> keep (labels g) r = true /\ map lower_cell r = r) ->
  row_index g = map (fun i => Other (Z.of_nat i)) (seq 0 (List.length (rows g))) -> clean_input_dataframe g = Ok g.
Proof.
  intros I E W S R X. rewrite clean_finish. unfold with_id. rewrite (proj2 (has_iff _ _) I). cbn [bind]. f_equal. unfold finish. rewrite filter_all by (intros r Hr; apply R; exact Hr). rewrite (map_id_in strip) by exact S. rewrite (map_id_in (map lower_cell)) by (intros r Hr; apply R; exact Hr).
  cbn [labels]. rewrite (proj2 (has_iff _ _) E). cbn [labels]. rewrite (proj2 (has_iff _ _) W). rewrite <- X. destruct g. reflexivity.
Qed.
Lemma keep_witness ls r l c : In (l, c) (combine ls r) -> l <> "internal_id" -> c <> Missing -> keep ls r = true.
Proof. intros I N M. destruct (keep ls r) eqn:K; [reflexivity|]. exfalso. apply keep_iff in K. exact (M (K l c I N)). Qed.
Lemma combine_strip ls r : combine (map strip ls) (map lower_cell r) = map (fun p => (strip (fst p), lower_cell (snd p))) (combine ls r).
Proof. revert r. induction ls as [|l ls IH]; intros [|c r]; cbn; [reflexivity|reflexivity|reflexivity|]. rewrite IH. reflexivity. Qed.
Lemma keep_strip ls r : (forall l, In l ls -> strip l = "internal_id" -> l = "internal_id") -> keep ls r = true -> keep (map strip ls) (map lower_cell r) = true.
Proof.
  intros H K. destruct (keep (map strip ls) (map lower_cell r)) eqn:Q; [reflexivity|]. exfalso. apply keep_iff in Q. assert (keep ls r = false); [|congruence]. apply keep_iff. intros l c I N.
  assert (M : lower_cell c = Missing). { apply (Q (strip l)); [rewrite combine_strip; apply in_map_iff; exists (l, c); split; [reflexivity|exact I]|]. intros E. apply N. apply H; [apply in_combine_l in I; exact I|exact E]. }
  destruct c; (reflexivity || discriminate).
Qed.
Lemma lower_row r : map lower_cell (map lower_cell r) = map lower_cell r.
Proof. rewrite map_map. apply map_ext. apply lower_cell_idem. Qed.
Lemma finish_fixed f : In "internal_id" (labels f) -> well_formed f -> (forall l, In l (labels f) -> strip l = "internal_id" -> l = "internal_id") -> clean_input_dataframe (finish f) = Ok (finish f).
Proof.
  intros I [_ Wf] H. destruct (finish_cases f) as [Ri C]. set (kept := filter (keep (labels f)) (rows f)) in *. set (ls := map strip (labels f)) in *. set (low := map (map lower_cell) kept) in *.
  assert (Il : In "internal_id" ls) by (unfold ls; apply in_map_iff; exists "internal_id"; split; [reflexivity|exact I]).
  assert (Sl : forall l, In l ls -> strip l = l) by (intros l L; unfold ls in L; apply in_map_iff in L; destruct L as (k & <- & _); apply strip_idem).
  assert (Lo : forall r, In r low -> keep ls r = true /\ map lower_cell r = r /\ List.length r = List.length ls).
  { intros r R. unfold low in R. apply in_map_iff in R. destruct R as (q & <- & Q). unfold kept in Q. apply filter_In in Q. destruct Q as [Q K]. split; [apply keep_strip; assumption|]. split; [apply lower_row|]. unfold ls. rewrite !map_length. exact (proj1 (List.Forall_forall _ _) Wf q Q). }
  assert (Len : List.length kept = List.length low) by (unfold low; rewrite map_length; reflexivity).
  destruct C as [(E & W & L & R)|[(E & W & L & R)|[(E & W & L & R)|(E & W & L & R)]]]; apply clean_fixed; rewrite ?L, ?R, ?Ri, ?map_length, ?Len; try reflexivity; try assumption.
  - right. right. exact Il.
  - left. reflexivity.
  - right. left. reflexivity.
  - intros l [<-|[<-|X]]; [reflexivity|reflexivity|exact (Sl l X)].
  - intros r X. apply in_map_iff in X. destruct X as (q & <- & Q). split; [apply (keep_witness _ _ "errors" (Text "")); [left; reflexivity|discriminate|discriminate]|]. cbn. rewrite (proj1 (proj2 (Lo q Q))). reflexivity.
  - right. exact Il.
  - left. reflexivity.
  - right. exact W.
  - intros l [<-|X]; [reflexivity|exact (Sl l X)].
  - intros r X. apply in_map_iff in X. destruct X as (q & <- & Q). split; [apply (keep_witness _ _ "errors" (Text "")); [left; reflexivity|discriminate|discriminate]|]. cbn. rewrite (proj1 (proj2 (Lo q Q))). reflexivity.
  - apply (Permutation_in _ (Permutation_sym (insert_perm _ _ _))). right. exact Il.
  - apply (Permutation_in _ (Permutation_sym (insert_perm _ _ _))). right. exact E.
  - apply (Permutation_in _ (Permutation_sym (insert_perm _ _ _))). left. reflexivity.
  - intros l X. apply (Permutation_in _ (insert_perm _ _ _)) in X. destruct X as [<-|X]; [reflexivity|exact (Sl l X)].
  - intros r X. apply in_map_iff in X. destruct X as (q & <- & Q). destruct (Lo q Q) as (_ & Q2 & Q3). destruct ls as [|l ls']; [destruct E|]. destruct q as [|c q]; [discriminate|]. split; [apply (keep_witness _ _ "warnings" (Text "")); [right; left; reflexivity|discriminate|discriminate]|]. cbn in *. injection Q2 as -> ->. reflexivity.
  - intros r X. destruct (Lo r X) as (A & B & _). split; assumption.
Qed.
