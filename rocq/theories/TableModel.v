(* frm/utils/utilities.py:16-52: input tables. convert_column_to_consistent_data_type changes no value. *)
From Coq Require Import ZArith String Ascii List Bool Arith.
From Verif Require Import Base TenorModel BootModel.
Import ListNotations.
Open Scope string_scope.

(* a cell: None or NaN, text, or another value *)
Inductive cell : Set := Missing | Text (s : string) | Other (k : Z).
Definition is_missing (c : cell) : bool := match c with Missing => true | _ => false end.

(* ---- move_col_after, L49-52, on columns with their labels ---- *)
(* list.index *)
Fixpoint index (x : string) (l : list string) : result nat :=
  match l with [] => Err ValueError | y :: t => if String.eqb x y then Ok O else let* i := index x t in Ok (S i) end.
(* list.pop(i), without the popped element, and list.insert(i, x), which appends when i is past the end *)
Fixpoint pop {A} (i : nat) (l : list A) {struct l} : list A := match l with [] => [] | y :: t => match i with O => t | S i => y :: pop i t end end.
Definition insert {A} (i : nat) (x : A) (l : list A) : list A := firstn i l ++ x :: skipn i l.
(* df[cols] selects every column with the label *)
Definition select {A} (df : list (string * A)) (cols : list string) : list (string * A) := flat_map (fun c => filter (fun p => String.eqb c (fst p)) df) cols.
Definition move_col_after {A} (df : list (string * A)) (col_to_move ref_col : string) : result (list (string * A)) :=
  let cols := map fst df in
  let* i := index ref_col cols in
  let* j := index col_to_move cols in
  Ok (select df (insert (i + 1) col_to_move (pop j cols))).

(* ---- clean_input_dataframe, L30-46; labels are text, a row holds one cell for every label ---- *)
Record frame : Set := mk_frame { row_index : list cell; labels : list string; rows : list (list cell) }.
Definition has (l : string) (ls : list string) : bool := existsb (String.eqb l) ls.
(* df.reset_index().rename(columns={'index': 'internal_id'}): the index has no name *)
Definition add_internal_id (f : frame) : result frame :=
  let* name := if has "index" (labels f) then (if has "level_0" (labels f) then Err ValueError else Ok "level_0") else Ok "index" in
  Ok (mk_frame (map (fun i => Other (Z.of_nat i)) (seq 0 (List.length (rows f)))) (map (fun l => if String.eqb l "index" then "internal_id" else l) (name :: labels f)) (map (fun p => fst p :: snd p) (combine (row_index f) (rows f)))).
(* the cells of a row under the labels other than internal_id *)
Definition counted (ls : list string) (r : list cell) : list cell := map snd (filter (fun p => negb (String.eqb (fst p) "internal_id")) (combine ls r)).
Definition keep (ls : list string) (r : list cell) : bool := negb (forallb is_missing (counted ls r)).
Definition lower_cell (c : cell) : cell := match c with Text s => Text (lower s) | c => c end.
(* df.insert(i, label, value='') *)
Definition insert_column (i : nat) (l : string) (f : frame) : frame := mk_frame (row_index f) (insert i l (labels f)) (map (insert i (Text "")) (rows f)).
Definition clean_input_dataframe (f : frame) : result frame :=
  let* f := if has "internal_id" (labels f) then Ok f else add_internal_id f in
  let kept := filter (keep (labels f)) (rows f) in
  let f := mk_frame (map (fun i => Other (Z.of_nat i)) (seq 0 (List.length kept))) (map strip (labels f)) (map (map lower_cell) kept) in
  let f := if has "errors" (labels f) then f else insert_column 0 "errors" f in
  let f := if has "warnings" (labels f) then f else insert_column 1 "warnings" f in
  Ok f.

(* ---- copy_errors_and_warnings_to_input, L16-27; a row is its internal_id (a number), errors and warnings ---- *)
Record message_row : Set := mk_row { row_id : Z; errors : cell; warnings : cell }.
Definition not_empty (c : cell) : bool := match c with Text s => negb (String.eqb s "") | _ => true end.
Definition first_message (get : message_row -> cell) (processed : list message_row) (i : Z) : result cell :=
  match find (fun r => Z.eqb (row_id r) i) processed with Some r => Ok (get r) | None => Err IndexError end.
Definition copy_column (get : message_row -> cell) (set : cell -> message_row -> message_row) (processed input : list message_row) : result (list message_row) :=
  fold_left (fun acc i => let* input := acc in let* m := first_message get processed i in Ok (map (fun r => if Z.eqb (row_id r) i then set m r else r) input))
    (map row_id (filter (fun r => not_empty (get r)) processed)) (Ok input).
Definition set_errors (c : cell) (r : message_row) : message_row := mk_row (row_id r) c (warnings r).
Definition set_warnings (c : cell) (r : message_row) : message_row := mk_row (row_id r) (errors r) c.
Definition copy_errors_and_warnings_to_input (processed input : list message_row) : result (list message_row) :=
  let* input := copy_column errors set_errors processed input in
  copy_column warnings set_warnings processed input.
