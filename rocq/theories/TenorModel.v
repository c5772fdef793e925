(* Model of frm/utils/tenor.py. Strings are ASCII; unicodedata.normalize('NFKD', .) is the identity on them. *)
From Coq Require Import ZArith String Ascii List Bool.
From Verif Require Import Base Date BusDayModel.
Import ListNotations.
Open Scope string_scope.
Open Scope Z_scope.

(* str.lower on ASCII *)
Definition lower_char (a : ascii) : ascii :=
  let n := nat_of_ascii a in if (65 <=? n)%nat && (n <=? 90)%nat then ascii_of_nat (n + 32) else a.

Fixpoint lower (s : string) : string :=
  match s with EmptyString => EmptyString | String a t => String (lower_char a) (lower t) end.

(* s.replace(c, '') for a single character c *)
Fixpoint remove_char (c : ascii) (s : string) : string :=
  match s with
  | EmptyString => EmptyString
  | String a t => if Ascii.eqb a c then remove_char c t else String a (remove_char c t)
  end.

Definition newline : ascii := ascii_of_nat 10.
Definition carriage_return : ascii := ascii_of_nat 13.

(* frm/utils/tenor.py:22-32, in dict order *)
Definition replacements : list (string * list string) :=
  [ ("d", ["days"; "day"]);
    ("w", ["weeks"; "week"]);
    ("m", ["months"; "month"; "mon"]);
    ("y", ["years"; "year"; "yrs"; "yr"]);
    ("on", ["overnight"]);
    ("tn", ["tomorrownext"; "tomnext"]);
    ("sw", ["spotweek"]);
    ("sn", ["spotnext"]);
    ("sp", ["spot"]) ].

(* frm/utils/tenor.py:34, the alternation in order *)
Definition alternatives : list string := flat_map snd replacements.

(* p is a prefix of s *)
Fixpoint starts_with (p s : string) : bool :=
  match p, s with
  | EmptyString, _ => true
  | String a p', String b s' => Ascii.eqb a b && starts_with p' s'
  | _, _ => false
  end.

(* the first alternative matching at the start of s (regular expression alternation is ordered) *)
Definition match_here (s : string) : option string := find (fun p => starts_with p s) alternatives.

(* frm/utils/tenor.py:35: next(k for k, v in replacements.items() if match.group(0) in v) *)
Definition replacement_key (m : string) : string :=
  match find (fun kv => existsb (String.eqb m) (snd kv)) replacements with
  | Some (k, _) => k
  | None => "" (* StopIteration in Python; unreachable, m is one of the alternatives *)
  end.

(* frm/utils/tenor.py:35 pattern.sub, scanning left to right; [skip] characters of the current match remain to be dropped. *)
Fixpoint subst_units (skip : nat) (s : string) : string :=
  match s with
  | EmptyString => EmptyString
  | String a t =>
      match skip with
      | S k => subst_units k t
      | O => match match_here s with
             | Some m => replacement_key m ++ subst_units (String.length m - 1) t
             | None => String a (subst_units 0 t)
             end
      end
  end.

(* frm/utils/tenor.py:20 *)
Definition strip_tenor (s : string) : string :=
  remove_char carriage_return (remove_char newline (remove_char "/"%char (remove_char " "%char (lower s)))).

(* frm/utils/tenor.py:15-37 for str arguments (any other type is a TypeError) *)
Definition clean_tenor (s : string) : string := subst_units 0 (strip_tenor s).

(* ---- tenor_to_date_offset ---- *)

Definition is_digit (a : ascii) : bool := let n := nat_of_ascii a in (48 <=? n)%nat && (n <=? 57)%nat.
Definition digit_value (a : ascii) : Z := Z.of_nat (nat_of_ascii a) - 48.

(* int(s) for a string. Python also accepts signs, surrounding blanks and underscores, and refuses more than 4300
   digits; the only arguments occurring here consist of digits or end in a letter. *)
Fixpoint int_digits (acc : Z) (s : string) : result Z :=
  match s with
  | EmptyString => Ok acc
  | String a t => if is_digit a then int_digits (10 * acc + digit_value a) t else Err ValueError
  end.
Definition py_int (s : string) : result Z :=
  match s with EmptyString => Err ValueError | _ => int_digits 0 s end.

(* longest run of leading digits and the rest *)
Fixpoint span_digits (s : string) : string * string :=
  match s with
  | EmptyString => (EmptyString, EmptyString)
  | String a t => if is_digit a then let '(d, r) := span_digits t in (String a d, r) else (EmptyString, s)
  end.

(* '$' matches at the end and just before a trailing newline *)
Definition at_end (s : string) : bool := (s =? "")%string || (s =? String newline "")%string.

(* re.search('^\d+X$', s) for a letter X *)
Definition matches_number_unit (x : ascii) (s : string) : bool :=
  let '(d, r) := span_digits s in
  negb (d =? "")%string && match r with String a t => Ascii.eqb a x && at_end t | EmptyString => false end.

(* re.search('^\d+y\d+m$', s) *)
Definition matches_years_months (s : string) : bool :=
  let '(d, r) := span_digits s in
  negb (d =? "")%string && match r with String a t => Ascii.eqb a "y"%char && matches_number_unit "m"%char t | EmptyString => false end.

(* s[:-1] *)
Fixpoint drop_last (s : string) : string :=
  match s with
  | EmptyString => EmptyString
  | String _ EmptyString => EmptyString
  | String a t => String a (drop_last t)
  end.

(* s.split('y') *)
Fixpoint split_y (s : string) : list string :=
  match s with
  | EmptyString => [""]
  | String a t =>
      if Ascii.eqb a "y"%char then "" :: split_y t
      else match split_y t with x :: l => String a x :: l | [] => [String a ""] end
  end.

Definition days_offset (n : Z) : date_offset := {| off_days := n; off_months := 0 |}.
Definition months_offset (n : Z) : date_offset := {| off_days := 0; off_months := n |}.

(* frm/utils/tenor.py:44-50 *)
Definition misc_tenors : list (string * date_offset) :=
  [("on", days_offset 1); ("tn", days_offset 2); ("sp", days_offset 0); ("sn", days_offset 1); ("sw", days_offset 5)].

(* frm/utils/tenor.py:40-76 for str arguments *)
Definition tenor_to_date_offset (s : string) : result date_offset :=
  match find (fun kv => String.eqb s (fst kv)) misc_tenors with
  | Some (_, o) => Ok o
  | None =>
      if matches_number_unit "d"%char s then let* n := py_int (drop_last s) in Ok (days_offset n)
      else if matches_number_unit "w"%char s then let* n := py_int (drop_last s) in Ok (days_offset (7 * n))
      else if matches_number_unit "m"%char s then let* n := py_int (drop_last s) in Ok (months_offset n)
      else if matches_number_unit "y"%char s then let* n := py_int (drop_last s) in Ok (months_offset (12 * n))
      else if matches_years_months s then
        match split_y (drop_last s) with
        | [ys; ms] => let* y := py_int ys in let* m := py_int ms in Ok (months_offset (y * 12 + m))
        | _ => Err ValueError (* unpacking error *)
        end
      else Err ValueError
  end.

(* ---- FX dates ---- *)

(* frm/utils/tenor.py:112-118. The loop rolls forward one day at a time. *)
Fixpoint implied_loop (c : calendar) (fuel : nat) (offset : Z) (d target : date) : result Z :=
  if d <? target then
    match fuel with
    | O => Err OutOfFuel
    | S k => let* e := busday_offset c (d + 1) 0 Following in implied_loop c k (offset + 1) e target
    end
  else Ok offset.

(* frm/utils/tenor.py:106-118. Every iteration moves at least a day, so target - d iterations suffice. *)
Definition calc_implied_business_day_offset (d offset_date : date) (c : calendar) : result Z :=
  let* _ := guard (offset_date <=? d) AssertionError in
  implied_loop c (Z.to_nat (offset_date - d)) 0 d offset_date.

(* frm/utils/tenor.py:94-103 *)
Definition check_day_offset_consistency (d offset_date : date) (day_offset : Z) (c : calendar) : result unit :=
  let* i := calc_implied_business_day_offset d offset_date c in
  if negb (i =? day_offset) then Err ValueError else Ok tt.

(* frm/utils/tenor.py:150-162; falls through (None) when the length is not 6 *)
Definition one_day_pairs : list string :=
  ["usdcad"; "cadusd"; "usdphp"; "phpusd"; "usdrub"; "rubusd"; "usdtry"; "tryusd"].
Definition get_fx_spot_day_offset (pair : string) : option Z :=
  if (String.length pair =? 6)%nat then
    if existsb (String.eqb pair) one_day_pairs then Some 1 else Some 2
  else None.

(* frm/utils/tenor.py:165-172 *)
Definition get_ir_settlement_offset (ccy : string) : Z :=
  if existsb (String.eqb ccy) ["usd"; "cad"] then 2
  else if existsb (String.eqb ccy) ["aud"; "nzd"; "jpy"; "eur"] then 2
  else if existsb (String.eqb ccy) ["gbp"] then 0
  else 2.

(* np.busday_offset with an offset that may be None (a TypeError) *)
Definition busday_offset_opt (c : calendar) (d : date) (n : option Z) (r : roll_conv) : result date :=
  match n with Some k => busday_offset c d k r | None => Err TypeError end.

(* frm/utils/tenor.py:121-147. Line 130 passes the keyword offset=, which check_day_offset_consistency does not have:
   a TypeError whatever the values. *)
Definition resolve_fx_curve_dates (pair : string) (c : calendar) (curve_date : option date) (spot_offset : option Z)
    (spot_date : option date) : result (date * option Z * date) :=
  match curve_date, spot_date, spot_offset with
  | Some _, Some _, Some _ => Err TypeError
  | Some cd, Some sd, None =>
      let* i := calc_implied_business_day_offset cd sd c in Ok (cd, Some i, sd)
  | _, _, _ =>
      let off := get_fx_spot_day_offset pair in
      match spot_date with
      | None =>
          match curve_date with
          | None => Err AttributeError (* None.to_numpy(), line 139 *)
          | Some cd => let* sd := busday_offset_opt c cd off Following in Ok (cd, off, sd)
          end
      | Some sd =>
          (* curve_date is None here *)
          let* cd := busday_offset_opt c sd (option_map Z.opp off) Preceding in Ok (cd, off, sd)
      end
  end.
