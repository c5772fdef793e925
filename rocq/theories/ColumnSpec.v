(* What users rely on for the names of quote columns. *)
From Coq Require Import ZArith Reals String Ascii List Bool.
From Verif Require Import Base TenorModel BootModel EnumModel ColumnModel.
Import ListNotations.
Open Scope string_scope.

(* at most one blank; at most one space or dash *)
Definition blank (s : string) : Prop := s = "" \/ exists a, is_blank a = true /\ s = String a "".
Definition gap (s : string) : Prop := s = "" \/ s = " " \/ s = "-".
(* a digit, at most one blank and the mark occur one after the other in s *)
Definition has_mark (mark : string -> Prop) (s : string) : Prop :=
  exists before d b m after, s = before ++ String d (b ++ m ++ after) /\ is_digit d = true /\ blank b /\ mark m.
Definition bps_column : string -> Prop := has_mark (fun m => lower m = "bp").
Definition percent_column : string -> Prop := has_mark (fun m => m = "%").
(* "atm", "at the m...", "at-the-m...", "a t m" and alike, in any case *)
Definition atm_column (s : string) : Prop :=
  exists before a g t h m after, s = before ++ a ++ g ++ t ++ h ++ m ++ after /\ (lower a = "a" \/ lower a = "at") /\ gap g /\ (lower t = "t" \/ lower t = "the") /\ gap h /\ lower m = "m".

(* decimal numbers *)
Fixpoint number_from (acc : Z) (s : string) : Z := match s with EmptyString => acc | String a t => number_from (10 * acc + digit_value a) t end.
Definition number (s : string) : Z := number_from 0 s.
Definition sign_text (b : bool) (s : string) : Prop := if b then s = "-" else s = "" \/ s = "+".
(* t reads as an optional sign and digits with, perhaps, a point before, between or after them: (-1)^b m / 10^k *)
Definition decimal (b : bool) (m : Z) (k : nat) (t : string) : Prop :=
  exists g i f, sign_text b g /\ only_digits i = true /\ i ++ f <> "" /\ only_digits f = true /\ k = String.length f /\ m = number (i ++ f) /\ (t = g ++ i ++ "." ++ f \/ (f = "" /\ t = g ++ i)).
Definition decimal_value (b : bool) (m : Z) (k : nat) : R := (IZR (neg_if b m) / 10 ^ k)%R.
(* a column of the form 25 bps, -12.5bp or 1.5 %, with spaces where they may be *)
Definition bps_label (b : bool) (m : Z) (k : nat) (s : string) : Prop := bps_column s /\ exists x u, s = x ++ u /\ (u = "bps" \/ u = "bp") /\ decimal b m k (without_spaces x).
Definition percent_label (b : bool) (m : Z) (k : nat) (s : string) : Prop := percent_column s /\ exists x, s = x ++ "%" /\ decimal b m k (without_spaces x).

(* the value a dictionary has for a key in the end: that of the last assignment *)
Fixpoint last_for {A} (k : string) (l : list (string * A)) : option A :=
  match l with [] => None | (k', v) :: r => match last_for k r with Some w => Some w | None => if String.eqb k k' then Some v else None end end.

(* the texts a regular expression stands for *)
Inductive lang : regex -> string -> Prop :=
| lang_eps : lang Eps ""
| lang_chr p a : p a = true -> lang (Chr p) (String a "")
| lang_seq r s u v : lang r u -> lang s v -> lang (Seq r s) (u ++ v)
| lang_left r s u : lang r u -> lang (Alt r s) u
| lang_right r s u : lang s u -> lang (Alt r s) u
| lang_stop r : lang (Star r) ""
| lang_more r u v : lang r u -> lang (Star r) v -> lang (Star r) (u ++ v).
Definition has_char (a : ascii) (s : string) : Prop := In a (list_ascii_of_string s).

(* binary64 numbers, without the largest exponent, and the nearest of them *)
Definition double (y : R) : Prop := exists m e : Z, (Z.abs m < 9007199254740992)%Z /\ (-1074 <= e)%Z /\ y = (IZR m * powerRZ 2 e)%R.
Definition nearest_double (x y : R) : Prop := double y /\ forall z, double z -> (Rabs (y - x) <= Rabs (z - x))%R.
(* the number of an integer quote after a multiplication that lands on w *)
Definition cut (n : Z) (w : R) : Z := if Rle_dec (IZR (Z.abs n)) (Rabs w) then n else (n - Z.sgn n)%Z.
(* exactly one column (which may be repeated) is an at the money column *)
Definition one_atm (cols : list string) (c : string) : Prop := In c cols /\ atm_column c /\ forall d, In d cols -> atm_column d -> d = c.
(* the quotes in order of the columns, and each name once, in order of first appearance *)
Definition quotes (repr : R -> string) (cols : list string) : list (string * R) :=
  flat_map (fun c => match read_column repr c with Ok (Some q) => [q] | _ => [] end) cols.
Fixpoint firsts (seen l : list string) : list string :=
  match l with [] => [] | x :: r => if existsb (String.eqb x) seen then firsts seen r else x :: firsts (x :: seen) r end.
Definition is_integral (x : R) : Prop := exists z, x = IZR z.
(* what is assumed of str of a float where it matters *)
Definition faithful_repr (repr : R -> string) : Prop :=
  (forall x y, double x -> double y -> repr x = repr y -> x = y) /\ (forall x z, ~ is_integral x -> repr x <> show z).
