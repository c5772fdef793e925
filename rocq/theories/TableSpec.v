(* Vocabulary for input tables *)
From Coq Require Import ZArith String List.
From Verif Require Import Base TenorModel BootModel TableModel.
Import ListNotations.
Open Scope string_scope.

Definition distinct_labels {A} (df : list (string * A)) : Prop := NoDup (map fst df).
Definition count {A} (l : string) (df : list (string * A)) : nat := count_occ string_dec (map fst df) l.
(* c stands directly after r *)
Definition directly_after {A} (r c : A) (l : list A) : Prop := exists x y, l = (x ++ r :: c :: y)%list.

(* a row with no value but its id *)
Definition blank_row (ls : list string) (r : list cell) : Prop := forall l c, In (l, c) (combine ls r) -> l <> "internal_id" -> c = Missing.
(* the rows that are not blank, in order *)
Inductive non_blank (ls : list string) : list (list cell) -> list (list cell) -> Prop :=
| nb_nil : non_blank ls [] []
| nb_drop r rs ks : blank_row ls r -> non_blank ls rs ks -> non_blank ls (r :: rs) ks
| nb_keep r rs ks : ~ blank_row ls r -> non_blank ls rs ks -> non_blank ls (r :: rs) (r :: ks).
(* text in lower case, everything else as it was *)
Inductive lowered : cell -> cell -> Prop :=
| lo_missing : lowered Missing Missing | lo_other k : lowered (Other k) (Other k) | lo_text s : lowered (Text s) (Text (lower s)).
(* the columns errors and warnings are put in front unless they exist; warnings second *)
Definition arranged {A} (has_errors has_warnings : Prop) (e w : A) (l out : list A) : Prop :=
  (~ has_errors /\ ~ has_warnings /\ out = e :: w :: l) \/ (~ has_errors /\ has_warnings /\ out = e :: l)
  \/ (has_errors /\ ~ has_warnings /\ match l with [] => False | x :: t => out = x :: w :: t end) \/ (has_errors /\ has_warnings /\ out = l).
Definition well_formed (f : frame) : Prop := List.length (row_index f) = List.length (rows f) /\ List.Forall (fun r => List.length r = List.length (labels f)) (rows f).

(* the message of the row with this id after copying: of the first processed row with the id, if any row with the id has one; as before otherwise *)
Definition copied (get : message_row -> cell) (processed : list message_row) (id : Z) (old new : cell) : Prop :=
  ((exists r, In r processed /\ row_id r = id /\ get r <> Text "")
   /\ exists before r after, processed = (before ++ r :: after)%list /\ row_id r = id /\ (forall q, In q before -> row_id q <> id) /\ new = get r)
  \/ ((forall r, In r processed -> row_id r = id -> get r = Text "") /\ new = old).
