(* C67, C110, C111: input tables *)
From Coq Require Import ZArith String Ascii List Bool Arith Lia Permutation.
From Verif Require Import Base TenorModel BootModel TableModel TableSpec TableProofs EnumProofs.
Import ListNotations.
Open Scope string_scope.
Open Scope list_scope.

(* ---- C67: moving a column ---- *)
(* a column that stands after the reference is put directly after it *)
Theorem C67_from_behind {A} (a b d : list (string * A)) (r c : string * A) : let df := a ++ r :: b ++ c :: d in distinct_labels df -> move_col_after df (fst c) (fst r) = Ok (a ++ r :: c :: b ++ d).
Proof. exact (move_later a b d r c). Qed.
(* one that stands before it is put one column too far, unless the reference is the last column *)
Theorem C67_from_front {A} (a b d : list (string * A)) (c r x : string * A) : let df := a ++ c :: b ++ r :: x :: d in distinct_labels df -> move_col_after df (fst c) (fst r) = Ok (a ++ b ++ r :: x :: c :: d).
Proof. exact (move_earlier a b d c r x). Qed.
Theorem C67_after_last {A} (a b : list (string * A)) (c r : string * A) : let df := a ++ c :: b ++ [r] in distinct_labels df -> move_col_after df (fst c) (fst r) = Ok (a ++ b ++ [r; c]).
Proof. exact (move_last a b c r). Qed.
(* a column moved after itself changes places with the next one *)
Theorem C67_itself {A} (a d : list (string * A)) (c : string * A) : let df := a ++ c :: d in distinct_labels df -> move_col_after df (fst c) (fst c) = Ok (match d with [] => df | x :: t => a ++ x :: c :: t end).
Proof. exact (move_itself a d c). Qed.
(* in all cases: the same columns, the others in their order; directly after the reference exactly when it was behind it or the reference is last *)
Theorem C67_columns_kept {A} (df : list (string * A)) (c r : string * A) : distinct_labels df -> In c df -> In r df -> c <> r -> exists out, move_col_after df (fst c) (fst r) = Ok out /\ Permutation out df
  /\ (exists x y x' y', df = x ++ c :: y /\ out = x' ++ c :: y' /\ x ++ y = x' ++ y')
  /\ (directly_after r c out <-> (exists x y z, df = x ++ r :: y ++ c :: z) \/ exists x, df = x ++ [r]).
Proof.
  intros N Ic Ir Ne. apply in_split in Ic. destruct Ic as (x & y & E). assert (D : forall l l' : list (string * A), Permutation l df -> l = l' -> NoDup l') by (intros l l' P <-; apply (Permutation_NoDup (Permutation_sym P)); unfold distinct_labels in N; exact (NoDup_map_inv _ _ N)).
  rewrite E in Ir. apply in_app_iff in Ir. destruct Ir as [Ir|[->|Ir]]; [|contradiction|].
  - apply in_split in Ir. destruct Ir as (x1 & x2 & ->). rewrite <- app_assoc in E. cbn [app] in E. exists (x1 ++ r :: c :: x2 ++ y). subst df. split; [apply move_later; exact N|]. split; [|split].
    + apply Permutation_app_head, perm_skip. apply Permutation_middle.
    + exists (x1 ++ r :: x2), y, (x1 ++ [r]), (x2 ++ y). split; [rewrite <- app_assoc; reflexivity|]. split; [rewrite <- app_assoc; reflexivity|]. rewrite <- !app_assoc. reflexivity.
    + split; [intros _; left; exists x1, x2, y; reflexivity|]. intros _. exists x1, (x2 ++ y). reflexivity.
  - apply in_split in Ir. destruct Ir as (y1 & y2 & ->). destruct y2 as [|z y2].
    + exists (x ++ y1 ++ [r; c]). subst df. split; [apply move_last; exact N|]. split; [|split].
      * apply Permutation_app_head. transitivity (y1 ++ c :: [r]); [apply Permutation_app_head, perm_swap|]. symmetry. apply Permutation_middle.
      * exists x, (y1 ++ [r]), (x ++ y1 ++ [r]), []. split; [reflexivity|]. split; [rewrite <- !app_assoc; reflexivity|]. rewrite app_nil_r. reflexivity.
      * split; [intros _; right; exists (x ++ c :: y1); rewrite <- app_assoc; reflexivity|]. intros _. exists (x ++ y1), []. rewrite <- app_assoc. reflexivity.
    + exists (x ++ y1 ++ r :: z :: c :: y2). subst df. assert (P : Permutation (x ++ y1 ++ r :: z :: c :: y2) (x ++ c :: y1 ++ r :: z :: y2)).
      { apply Permutation_app_head. transitivity (c :: (y1 ++ [r; z]) ++ y2); [|rewrite <- app_assoc; reflexivity]. replace (y1 ++ r :: z :: c :: y2) with ((y1 ++ [r; z]) ++ c :: y2) by (rewrite <- app_assoc; reflexivity). symmetry. apply Permutation_middle. }
      split; [apply move_earlier; exact N|]. split; [exact P|]. split.
      * exists x, (y1 ++ r :: z :: y2), (x ++ y1 ++ [r; z]), y2. split; [reflexivity|]. split; [rewrite <- !app_assoc; reflexivity|]. rewrite <- !app_assoc. reflexivity.
      * assert (U : forall l u v u' v' : list (string * A), NoDup l -> l = u ++ r :: v -> l = u' ++ r :: v' -> v = v').
        { intros l u v u' v' Nl E1 E2. rewrite E1 in Nl, E2. clear E1. revert u' Nl E2. induction u as [|p u IH]; intros [|q u'] Nl E2; cbn in *.
          - injection E2 as ->. reflexivity.
          - injection E2 as <- ->. inversion Nl; subst. exfalso. apply H1. apply in_app_iff. right. left. reflexivity.
          - injection E2 as -> _. inversion Nl; subst. exfalso. apply H1. apply in_app_iff. right. left. reflexivity.
          - injection E2 as -> E2. inversion Nl; subst. exact (IH u' H2 E2). }
        assert (Nd : NoDup (x ++ c :: y1 ++ r :: z :: y2)) by (apply (D _ _ (Permutation_refl _) eq_refl)). assert (No : NoDup (x ++ y1 ++ r :: z :: c :: y2)) by (apply (D _ _ P eq_refl)). split.
        -- intros (u & v & H). exfalso. pose proof (U _ (x ++ y1) (z :: c :: y2) u (c :: v) No ltac:(rewrite <- app_assoc; reflexivity) H) as Q. injection Q as -> _. apply NoDup_remove_2 in Nd. apply Nd. rewrite !in_app_iff. cbn. tauto.
        -- intros [(u & v & w & H)|(u & H)]; exfalso.
           ++ pose proof (U _ (x ++ c :: y1) (z :: y2) u (v ++ c :: w) Nd ltac:(rewrite <- app_assoc; reflexivity) H) as Q. apply NoDup_remove_2 in Nd. apply Nd. apply in_app_iff. right. apply in_app_iff. right. right. rewrite Q. apply in_app_iff. right. left. reflexivity.
           ++ pose proof (U _ (x ++ c :: y1) (z :: y2) u [] Nd ltac:(rewrite <- app_assoc; reflexivity) H). discriminate.
Qed.
Theorem C67_missing {A} (df : list (string * A)) (c r : string) : ~ In c (map fst df) \/ ~ In r (map fst df) -> move_col_after df c r = Err ValueError.
Proof. exact (move_missing df c r). Qed.
(* columns that share a label multiply: two become four *)
Theorem C67_duplicates {A} (df out : list (string * A)) (c r l : string) : move_col_after df c r = Ok out -> count l out = (count l df * count l df)%nat.
Proof. exact (move_counts df out c r l). Qed.

(* ---- C110: cleaning an input table ---- *)
Theorem C110_rows (f g : frame) : well_formed f -> In "internal_id" (labels f) -> clean_input_dataframe f = Ok g ->
  let ls := map strip (labels f) in let e := In "errors" ls in let w := In "warnings" ls in
  arranged e w "errors" "warnings" ls (labels g)
  /\ exists kept, non_blank (labels f) (rows f) kept /\ Forall2 (fun r out => exists low, Forall2 lowered r low /\ arranged e w (Text "") (Text "") low out) kept (rows g)
     /\ row_index g = map (fun i => Other (Z.of_nat i)) (seq 0 (List.length (rows g))).
Proof.
  intros [_ Wf] I H ls e w. rewrite clean_finish in H. unfold with_id in H. rewrite (proj2 (has_iff _ _) I) in H. cbn [bind] in H. injection H as <-. destruct (finish_cases f) as [Ri C]. fold ls e w in C.
  assert (Lne : ls <> []) by (unfold ls; destruct (labels f); [contradiction|discriminate]).
  assert (F2 : forall r, Forall2 lowered r (map lower_cell r)) by (induction r; constructor; [apply lowered_iff; reflexivity|assumption]).
  assert (FM : forall (h : list cell -> list cell), (forall r, In r (filter (keep (labels f)) (rows f)) -> arranged e w (Text "") (Text "") (map lower_cell r) (h (map lower_cell r))) ->
    Forall2 (fun r out => exists low, Forall2 lowered r low /\ arranged e w (Text "") (Text "") low out) (filter (keep (labels f)) (rows f)) (map h (map (map lower_cell) (filter (keep (labels f)) (rows f))))).
  { intros h. generalize (filter (keep (labels f)) (rows f)) as k. induction k as [|r k IH]; intros Hh; cbn [map]; constructor; [exists (map lower_cell r); split; [apply F2|apply Hh; left; reflexivity]|apply IH; intros q Q; apply Hh; right; exact Q]. }
  assert (RL : forall r, In r (filter (keep (labels f)) (rows f)) -> map lower_cell r <> []).
  { intros r Q. apply filter_In in Q. pose proof (proj1 (List.Forall_forall _ _) Wf r (proj1 Q)) as L. destruct r; [|discriminate]. destruct (labels f); [contradiction|discriminate]. }
  destruct C as [(E & W & L & R)|[(E & W & L & R)|[(E & W & L & R)|(E & W & L & R)]]].
  - split; [left; repeat split; assumption|]. exists (filter (keep (labels f)) (rows f)). split; [apply filter_non_blank|]. rewrite R. split; [apply FM; intros r Q; left; repeat split; assumption|]. rewrite Ri, !map_length. reflexivity.
  - split; [right; left; repeat split; assumption|]. exists (filter (keep (labels f)) (rows f)). split; [apply filter_non_blank|]. rewrite R. split; [apply FM; intros r Q; right; left; repeat split; assumption|]. rewrite Ri, !map_length. reflexivity.
  - split; [right; right; left; split; [exact E|split; [exact W|]]; destruct ls; [contradiction|exact L]|]. exists (filter (keep (labels f)) (rows f)). split; [apply filter_non_blank|]. rewrite R. split; [|rewrite Ri, !map_length; reflexivity]. apply FM. intros r Q. right. right. left. split; [exact E|]. split; [exact W|]. specialize (RL r Q). destruct (map lower_cell r); [contradiction|]. reflexivity.
  - split; [do 3 right; repeat split; assumption|]. exists (filter (keep (labels f)) (rows f)). split; [apply filter_non_blank|]. rewrite R. split; [|rewrite Ri, !map_length; reflexivity]. pose proof (FM (fun r => r)) as G. rewrite map_id in G. apply G. intros r Q. do 3 right. repeat split; assumption.
Qed.
(* without a column internal_id the index of the rows takes its place, but a column named index is taken for it *)
Theorem C110_new_ids (f : frame) : ~ In "internal_id" (labels f) ->
  (~ In "index" (labels f) -> clean_input_dataframe f = clean_input_dataframe (mk_frame [] ("internal_id" :: labels f) (map (fun p => fst p :: snd p) (combine (row_index f) (rows f)))))
  /\ (In "index" (labels f) -> ~ In "level_0" (labels f) -> clean_input_dataframe f
      = clean_input_dataframe (mk_frame [] ("level_0" :: map (fun l => if string_dec l "index" then "internal_id" else l) (labels f)) (map (fun p => fst p :: snd p) (combine (row_index f) (rows f)))))
  /\ (In "index" (labels f) -> In "level_0" (labels f) -> clean_input_dataframe f = Err ValueError).
Proof.
  intros N. apply has_not in N. split; [|split].
  - intros X. rewrite !clean_finish. unfold with_id. rewrite N. unfold add_internal_id. rewrite (proj2 (has_not _ _) X). cbn [bind labels map]. change (has "internal_id" ("internal_id" :: labels f)) with true. cbn [bind]. f_equal. unfold finish. cbn [labels rows row_index].
    assert (E : map (fun l => if String.eqb l "index" then "internal_id" else l) (labels f) = labels f) by (apply map_id_in; intros l L; destruct (String.eqb_spec l "index") as [->|]; [contradiction|reflexivity]). rewrite E. reflexivity.
  - intros X Y. rewrite !clean_finish. unfold with_id. rewrite N. unfold add_internal_id. rewrite (proj2 (has_iff _ _) X), (proj2 (has_not _ _) Y). cbn [bind labels map].
    assert (E : map (fun l => if String.eqb l "index" then "internal_id" else l) (labels f) = map (fun l => if string_dec l "index" then "internal_id" else l) (labels f)) by (apply map_ext; intros l; destruct (String.eqb_spec l "index"), (string_dec l "index"); (reflexivity || contradiction)).
    assert (H : has "internal_id" ("level_0" :: map (fun l => if string_dec l "index" then "internal_id" else l) (labels f)) = true) by (apply has_iff; right; apply in_map_iff; exists "index"; split; [reflexivity|exact X]).
    rewrite H. cbn [bind]. f_equal. unfold finish. cbn [labels rows row_index]. change (if String.eqb "level_0" "index" then "internal_id" else "level_0") with "level_0". rewrite E. reflexivity.
  - intros X Y. rewrite clean_finish. unfold with_id. rewrite N. unfold add_internal_id. rewrite (proj2 (has_iff _ _) X), (proj2 (has_iff _ _) Y). reflexivity.
Qed.
(* cleaning twice is cleaning once, if no label but internal_id itself is trimmed to internal_id *)
Theorem C110_idempotent (f g : frame) : well_formed f -> (forall l, In l (labels f) -> strip l = "internal_id" -> l = "internal_id") -> clean_input_dataframe f = Ok g -> clean_input_dataframe g = Ok g.
Proof.
  intros W H C. rewrite clean_finish in C. destruct (with_id f) as [f'|] eqn:F; cbn [bind] in C; [|discriminate]. injection C as <-. destruct (with_id_labels _ _ F) as [I T]. apply finish_fixed; [exact I|exact (with_id_wf _ _ W F)|exact (T H)].
Qed.
(* a label with blanks around internal_id is not recognised: there are two such columns afterwards *)
Theorem C110_untrimmed_id (f g : frame) (l : string) : ~ In "internal_id" (labels f) -> In l (labels f) -> strip l = "internal_id" -> clean_input_dataframe f = Ok g -> (2 <= count_occ string_dec (labels g) "internal_id")%nat.
Proof.
  intros N L S C. rewrite clean_finish in C. unfold with_id in C. rewrite (proj2 (has_not _ _) N) in C. destruct (add_internal_id f) as [f'|] eqn:F; cbn [bind] in C; [|discriminate]. injection C as <-.
  assert (K : (2 <= count_occ string_dec (map strip (labels f')) "internal_id")%nat).
  { assert (Q : forall ls, In l ls -> l <> "index" -> (1 <= count_occ string_dec (map strip (map (fun l => if String.eqb l "index" then "internal_id" else l) ls)) "internal_id")%nat).
    { intros ls I D. apply (count_occ_In string_dec). apply in_map_iff. exists l. split; [exact S|]. apply in_map_iff. exists l. split; [destruct (String.eqb_spec l "index"); [contradiction|reflexivity]|exact I]. }
    assert (D : l <> "index") by (intros ->; discriminate S). unfold add_internal_id in F. destruct (has "index" (labels f)) eqn:X; [destruct (has "level_0" (labels f)); cbn [bind] in F; [discriminate|]|cbn [bind] in F]; injection F as <-; cbn [labels map].
    - apply has_iff in X. rewrite count_occ_cons_neq by discriminate. clear N. revert L X. generalize (labels f) as ls. induction ls as [|k ls IH]; [contradiction|]. cbn [map]. intros [->|L] [E|X].
      + contradiction.
      + destruct (String.eqb_spec l "index"); [contradiction|]. rewrite count_occ_cons_eq by exact S. apply le_n_S. apply (count_occ_In string_dec). apply in_map_iff. exists "internal_id". split; [reflexivity|]. apply in_map_iff. exists "index". split; [reflexivity|exact X].
      + subst k. cbn [String.eqb]. rewrite count_occ_cons_eq by reflexivity. apply le_n_S. exact (Q ls L D).
      + specialize (IH L X). cbn [count_occ]. destruct (string_dec _ _); lia.
    - rewrite count_occ_cons_eq by reflexivity. apply le_n_S. exact (Q (labels f) L D). }
  destruct (finish_cases f') as [_ [(_ & _ & Lb & _)|[(_ & _ & Lb & _)|[(_ & _ & Lb & _)|(_ & _ & Lb & _)]]]]; rewrite Lb.
  - cbn [count_occ]. destruct (string_dec "errors" "internal_id"); [discriminate|]. destruct (string_dec "warnings" "internal_id"); [discriminate|]. exact K.
  - cbn [count_occ]. destruct (string_dec "errors" "internal_id"); [discriminate|]. exact K.
  - rewrite (proj1 (Permutation_count_occ string_dec _ _) (insert_perm 1 "warnings" _)). cbn [count_occ]. destruct (string_dec "warnings" "internal_id"); [discriminate|]. exact K.
  - exact K.
Qed.

(* ---- C111: messages back to the input ---- *)
Theorem C111_copied (processed input : list message_row) : exists out, copy_errors_and_warnings_to_input processed input = Ok out /\
  Forall2 (fun r r' => row_id r' = row_id r /\ copied errors processed (row_id r) (errors r) (errors r') /\ copied warnings processed (row_id r) (warnings r) (warnings r')) input out.
Proof.
  unfold copy_errors_and_warnings_to_input. rewrite (copy_column_map errors set_errors) by reflexivity. cbn [bind]. rewrite (copy_column_map warnings set_warnings) by reflexivity. eexists. split; [reflexivity|]. rewrite map_map. induction input as [|r input IH]; cbn [map]; constructor; [|exact IH]. clear IH.
  assert (A : row_id (result_of errors set_errors processed r) = row_id r /\ warnings (result_of errors set_errors processed r) = warnings r /\ copied errors processed (row_id r) (errors r) (errors (result_of errors set_errors processed r))).
  { destruct (result_copied errors set_errors processed r) as [[-> N]|(m & -> & C)]; [split; [reflexivity|]; split; [reflexivity|]; right; split; [exact N|reflexivity]|]. split; [reflexivity|]. split; [reflexivity|]. apply C. }
  set (r1 := result_of errors set_errors processed r) in *. destruct A as (A1 & A2 & A3).
  destruct (result_copied warnings set_warnings processed r1) as [[-> N]|(m & -> & C)]; rewrite A1 in *.
  - split; [reflexivity|]. split; [exact A3|]. right. split; [exact N|exact A2].
  - split; [exact A1|]. split; [exact A3|]. apply C.
Qed.
(* with one processed row for an id the input gets its message if it has one, and keeps its own otherwise *)
Theorem C111_unique_ids (processed input out : list message_row) (i : nat) (p r r' : message_row) : NoDup (map row_id processed) -> copy_errors_and_warnings_to_input processed input = Ok out ->
  In p processed -> nth_error input i = Some r -> nth_error out i = Some r' -> row_id p = row_id r ->
  (errors p <> Text "" -> errors r' = errors p) /\ (errors p = Text "" -> errors r' = errors r) /\ (warnings p <> Text "" -> warnings r' = warnings p) /\ (warnings p = Text "" -> warnings r' = warnings r).
Proof.
  intros N C I Hr Hr' E. destruct (C111_copied processed input) as (out' & C' & F). rewrite C in C'. injection C' as <-.
  assert (K : forall (l1 l2 : list message_row) P, Forall2 P l1 l2 -> forall i a b, nth_error l1 i = Some a -> nth_error l2 i = Some b -> P a b).
  { intros l1 l2 P FF. induction FF as [|a b l1 l2 Hab _ IH]; intros [|k] x y; cbn; intros X Y; try discriminate; [injection X as <-; injection Y as <-; exact Hab|exact (IH k x y X Y)]. }
  destruct (K _ _ _ F i r r' Hr Hr') as (_ & Ce & Cw).
  assert (U : forall q, In q processed -> row_id q = row_id r -> q = p). { intros q Q Eq. revert N I Q. clear -E Eq. induction processed as [|x l IH]; [contradiction|]. cbn [map]. intros N I Q. apply NoDup_cons_iff in N. destruct N as [Nx N].
    destruct I as [->|I], Q as [->|Q]; [reflexivity| | |exact (IH N I Q)]; exfalso; apply Nx; [rewrite E, <- Eq|rewrite Eq, <- E]; apply in_map; assumption. }
  assert (G : forall get old new, copied get processed (row_id r) old new -> (get p <> Text "" -> new = get p) /\ (get p = Text "" -> new = old)).
  { intros get old new [((q & Q & Eq & Nq) & b & x & a & El & Ex & _ & ->)|(Al & ->)].
    - assert (q = p) by (apply U; assumption). assert (x = p) by (apply U; [rewrite El, in_app_iff; right; left; reflexivity|exact Ex]). subst q x. split; [reflexivity|intros H; contradiction].
    - split; [|reflexivity]. intros H. exfalso. apply H. apply Al; assumption. }
  destruct (G _ _ _ Ce) as [G1 G2]. destruct (G _ _ _ Cw) as [G3 G4]. repeat split; assumption.
Qed.
(* with several, a message behind an empty one is lost, and the message of the input is erased *)
Theorem C111_lost_message (before after input out : list message_row) (p q r r' : message_row) (i : nat) : let processed := before ++ p :: after in (forall x, In x before -> row_id x <> row_id p) ->
  In q after -> row_id q = row_id p -> errors p = Text "" -> errors q <> Text "" -> copy_errors_and_warnings_to_input processed input = Ok out -> nth_error input i = Some r -> nth_error out i = Some r' -> row_id r = row_id p -> errors r' = Text "".
Proof.
  intros processed B Q Eq Ep Nq C Hr Hr' E. destruct (C111_copied processed input) as (out' & C' & F). rewrite C in C'. injection C' as <-.
  assert (K : forall (l1 l2 : list message_row) P, Forall2 P l1 l2 -> forall i a b, nth_error l1 i = Some a -> nth_error l2 i = Some b -> P a b).
  { intros l1 l2 P FF. induction FF as [|a b l1 l2 Hab _ IH]; intros [|k] x y; cbn; intros X Y; try discriminate; [injection X as <-; injection Y as <-; exact Hab|exact (IH k x y X Y)]. }
  destruct (K _ _ _ F i r r' Hr Hr') as (_ & Ce & _). destruct Ce as [(_ & b & x & a & El & Ex & Nb & ->)|(Al & _)].
  - assert (x = p); [|congruence]. unfold processed in El. rewrite E in Ex, Nb. clear -El Ex Nb B. revert b El Nb. induction before as [|y bf IH]; intros [|z b] El Nb; cbn in El.
    + injection El as <- _. reflexivity.
    + injection El as <- _. exfalso. apply (Nb p); [left; reflexivity|reflexivity].
    + injection El as -> _. exfalso. apply (B x); [left; reflexivity|exact Ex].
    + injection El as <- El. apply (IH (fun k K => B k (or_intror K)) b El). intros k K. apply Nb. right. exact K.
  - exfalso. apply Nq. apply Al; [unfold processed; rewrite in_app_iff; right; right; exact Q|congruence].
Qed.

Definition all_theorems := (@C67_from_behind, @C67_from_front, @C67_after_last, @C67_itself, @C67_columns_kept, @C67_missing, @C67_duplicates, C110_rows, C110_new_ids, C110_idempotent, C110_untrimmed_id, C111_copied, C111_unique_ids, C111_lost_message).
Print Assumptions all_theorems.

Example C67_ex : let df := [("a", 1); ("b", 2); ("c", 3); ("d", 4)]%nat in distinct_labels df /\ move_col_after df "d" "a" = Ok [("a", 1); ("d", 4); ("b", 2); ("c", 3)]%nat /\ move_col_after df "a" "b" = Ok [("b", 2); ("c", 3); ("a", 1); ("d", 4)]%nat
  /\ move_col_after df "b" "d" = Ok [("a", 1); ("c", 3); ("d", 4); ("b", 2)]%nat /\ move_col_after df "b" "b" = Ok [("a", 1); ("c", 3); ("b", 2); ("d", 4)]%nat.
Proof. split; [unfold distinct_labels; cbn; repeat constructor; cbn; intuition discriminate|]. repeat split. Qed.
Definition ex_frame : frame := mk_frame [Other 10; Other 11; Other 12] [" Ccy "; "rate"] [[Text "USD"; Other 5]; [Missing; Missing]; [Text "Eur"; Missing]].
Example C110_ex : well_formed ex_frame /\ (forall l, In l (labels ex_frame) -> strip l = "internal_id" -> l = "internal_id")
  /\ clean_input_dataframe ex_frame = Ok (mk_frame [Other 0; Other 1] ["errors"; "warnings"; "internal_id"; "Ccy"; "rate"] [[Text ""; Text ""; Other 10; Text "usd"; Other 5]; [Text ""; Text ""; Other 12; Text "eur"; Missing]]).
Proof. split; [split; [reflexivity|repeat constructor]|]. split; [intros l [<-|[<-|[]]] H; vm_compute in H; discriminate|reflexivity]. Qed.
Example C111_ex : copy_errors_and_warnings_to_input [mk_row 1 (Text "") (Text ""); mk_row 1 (Text "bad rate") (Text ""); mk_row 2 (Text "bad date") (Text "late")] [mk_row 1 (Text "old") (Text ""); mk_row 2 (Text "") (Text ""); mk_row 3 (Text "kept") (Text "")]
  = Ok [mk_row 1 (Text "") (Text ""); mk_row 2 (Text "bad date") (Text "late"); mk_row 3 (Text "kept") (Text "")].
Proof. reflexivity. Qed.
