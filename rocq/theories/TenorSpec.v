(* Vocabulary for tenor strings. *)
From Coq Require Import ZArith String Ascii List Bool.
From Verif Require Import Base Date.
Import ListNotations.
Open Scope string_scope.
Open Scope Z_scope.

(* Characters that tenor cleaning ignores: space, slash, newline, carriage return. *)
Definition ignored (a : ascii) : Prop :=
  a = " "%char \/ a = "/"%char \/ a = ascii_of_nat 10 \/ a = ascii_of_nat 13.

(* An upper case letter and its lower case form. *)
Definition case_pair (a b : ascii) : Prop :=
  exists k, (k < 26)%nat /\ a = ascii_of_nat (65 + k) /\ b = ascii_of_nat (97 + k).

(* Two strings that differ only by letter case and ignored characters. *)
Inductive tenor_equiv : string -> string -> Prop :=
| te_refl s : tenor_equiv s s
| te_sym s t : tenor_equiv s t -> tenor_equiv t s
| te_trans s t u : tenor_equiv s t -> tenor_equiv t u -> tenor_equiv s u
| te_insert s1 s2 a : ignored a -> tenor_equiv (s1 ++ s2) (s1 ++ String a s2)
| te_case s1 s2 a b : case_pair a b -> tenor_equiv (s1 ++ String a s2) (s1 ++ String b s2).

(* Decimal numerals and their value. *)
Definition digit (a : ascii) (v : Z) : Prop := exists k, (k <= 9)%nat /\ a = ascii_of_nat (48 + k) /\ v = Z.of_nat k.
Inductive numeral : string -> Z -> Prop :=
| num_one a v : digit a v -> numeral (String a "") v
| num_more s n a v : numeral s n -> digit a v -> numeral (s ++ String a "") (10 * n + v).

(* The tenor grammar with its meaning as (days, months). *)
Inductive tenor_means : string -> Z -> Z -> Prop :=
| tm_on : tenor_means "on" 1 0
| tm_tn : tenor_means "tn" 2 0
| tm_sp : tenor_means "sp" 0 0
| tm_sn : tenor_means "sn" 1 0
| tm_sw : tenor_means "sw" 5 0
| tm_days s n : numeral s n -> tenor_means (s ++ "d") n 0
| tm_weeks s n : numeral s n -> tenor_means (s ++ "w") (7 * n) 0
| tm_months s n : numeral s n -> tenor_means (s ++ "m") 0 n
| tm_years s n : numeral s n -> tenor_means (s ++ "y") 0 (12 * n)
| tm_years_months s n t m : numeral s n -> numeral t m -> tenor_means (s ++ "y" ++ t ++ "m") 0 (12 * n + m).

(* Unit words and their one letter form; names of the short tenors. *)
Definition unit_words : list (string * string) :=
  [("days", "d"); ("day", "d"); ("weeks", "w"); ("week", "w"); ("months", "m"); ("month", "m"); ("mon", "m");
   ("years", "y"); ("year", "y"); ("yrs", "y"); ("yr", "y")]%list.
Definition tenor_names : list (string * string) :=
  [("overnight", "on"); ("tomorrownext", "tn"); ("tomnext", "tn"); ("spotweek", "sw"); ("spotnext", "sn"); ("spot", "sp")]%list.
