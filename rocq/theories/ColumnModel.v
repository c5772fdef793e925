(* frm/term_structures/interest_rate_option_helpers.py: names of quote columns, the offsets they stand for, and the settlement date.
   Texts are ASCII. Floats are the real numbers they denote, rounded to binary64 after every operation; overflow, signed zeros and payloads are not modelled. *)
From Coq Require Import ZArith Reals String Ascii List Bool Decimal DecimalString.
From Flocq Require Import Core.
From Verif Require Import Base Date BusDayModel TenorModel BootModel EnumModel CurveModel.
Import ListNotations.
Open Scope string_scope.

(* ---- re.search: regular expressions over characters, by derivatives ---- *)
Inductive regex : Type := Void | Eps | Chr (p : ascii -> bool) | Seq (r s : regex) | Alt (r s : regex) | Star (r : regex).
Fixpoint nullable (r : regex) : bool :=
  match r with Void => false | Eps => true | Chr _ => false | Seq r s => nullable r && nullable s | Alt r s => nullable r || nullable s | Star _ => true end.
Fixpoint deriv (a : ascii) (r : regex) : regex :=
  match r with
  | Void | Eps => Void
  | Chr p => if p a then Eps else Void
  | Seq r s => if nullable r then Alt (Seq (deriv a r) s) (deriv a s) else Seq (deriv a r) s
  | Alt r s => Alt (deriv a r) (deriv a s)
  | Star r => Seq (deriv a r) (Star r)
  end.
(* a match that starts at the first character *)
Fixpoint matches_here (r : regex) (s : string) : bool :=
  nullable r || match s with EmptyString => false | String a t => matches_here (deriv a r) t end.
(* re.search(r, s) finds something *)
Fixpoint re_search (r : regex) (s : string) : bool :=
  matches_here r s || match s with EmptyString => false | String _ t => re_search r t end.

Definition Opt (r : regex) : regex := Alt r Eps.
Definition Plus (r : regex) : regex := Seq r (Star r).
(* a literal under re.IGNORECASE; c is lower case *)
Definition chr (c : ascii) : regex := Chr (fun a => Ascii.eqb (lower_char a) c).
Fixpoint lit (s : string) : regex := match s with EmptyString => Eps | String a EmptyString => chr a | String a t => Seq (chr a) (lit t) end.
Definition one_of (l : list ascii) : regex := Chr (fun a => existsb (Ascii.eqb a) l).
Definition space : regex := Chr is_blank. (* \s *)
Definition digit : regex := Chr is_digit. (* \d *)

(* L143: (a|at)[ -]?(t|the)[ -]?(m|money)[ -]?(f|forward)? *)
Definition atm_quote : regex :=
  let sep := Opt (one_of [" "; "-"]%char) in
  Seq (Alt (lit "a") (lit "at")) (Seq sep (Seq (Alt (lit "t") (lit "the")) (Seq sep (Seq (Alt (lit "m") (lit "money")) (Seq sep (Opt (Alt (lit "f") (lit "forward")))))))).
Definition sign : regex := Opt (one_of ["+"; "-"]%char).
(* L158: [+-]?\s?\d+\s?(bps|bp) *)
Definition bps_quote : regex := Seq sign (Seq (Opt space) (Seq (Plus digit) (Seq (Opt space) (Alt (lit "bps") (lit "bp"))))).
(* L159: [+-]?\s?\d+(\.\d+)?\s?% *)
Definition percentage_quote : regex := Seq sign (Seq (Opt space) (Seq (Plus digit) (Seq (Opt (Seq (lit ".") (Plus digit))) (Seq (Opt space) (lit "%"))))).

(* ---- float(text) ---- *)
(* digits with single underscores between them: value, number of digits, rest *)
Fixpoint more_digits (acc : Z) (n : nat) (s : string) : Z * nat * string :=
  match s with
  | String a t =>
      if is_digit a then more_digits (10 * acc + digit_value a) (S n) t
      else if Ascii.eqb a "_" then
        match t with String b t' => if is_digit b then more_digits (10 * acc + digit_value b) (S n) t' else (acc, n, s) | EmptyString => (acc, n, s) end
      else (acc, n, s)
  | EmptyString => (acc, n, s)
  end.
Definition digits (s : string) : option (Z * nat * string) :=
  match s with String a t => if is_digit a then Some (more_digits (digit_value a) 1 t) else None | EmptyString => None end.
Definition signed (s : string) : bool * string :=
  match s with String a t => if Ascii.eqb a "-" then (true, t) else if Ascii.eqb a "+" then (false, t) else (false, s) | EmptyString => (false, s) end.
Definition neg_if (b : bool) (z : Z) : Z := if b then (- z)%Z else z.
(* e or E and an integer *)
Definition exponent (s : string) : option Z :=
  match s with
  | EmptyString => Some 0%Z
  | String a t => if Ascii.eqb a "e" || Ascii.eqb a "E" then let (b, t) := signed t in match digits t with Some (v, _, EmptyString) => Some (neg_if b v) | _ => None end else None
  end.
(* after the point, for the digits m before it *)
Definition fraction (m : Z) (s : string) : option (Z * Z) :=
  match digits s with
  | Some _ => match more_digits m 0 s with (v, n, r) => option_map (fun e => (v, e - Z.of_nat n)%Z) (exponent r) end
  | None => None
  end.
Definition after_digits (m : Z) (s : string) : option (Z * Z) :=
  let whole s := option_map (fun e => (m, e)) (exponent s) in
  match s with
  | String c t => if Ascii.eqb c "." then match digits t with Some _ => fraction m t | None => whole t end else whole s
  | EmptyString => whole s
  end.
(* mantissa and power of ten of a text float() accepts. The texts inf, infinity and nan have no digit and are not modelled: they are refused here *)
Definition parse_float (s : string) : option (Z * Z) :=
  let (b, s) := signed (strip s) in
  let r := match digits s with
           | Some (m, _, t) => after_digits m t
           | None => match s with String c t => if Ascii.eqb c "." then fraction 0 t else None | EmptyString => None end
           end in
  option_map (fun p : Z * Z => (neg_if b (fst p), snd p)) r.

Open Scope R_scope.
(* binary64, round to nearest even *)
Definition fexp64 : Z -> Z := FLT_exp (-1074) 53.
Definition rn (x : R) : R := round radix2 fexp64 ZnearestE x.
Definition ten_to (e : Z) : R := powerRZ 10 e.
Definition py_float (s : string) : result R := match parse_float s with Some (m, e) => Ok (rn (IZR m * ten_to e)) | None => Err ValueError end.
(* round(x, 8): the decimal with eight places nearest to x, as a float *)
Definition round8 (x : R) : R := rn (IZR (ZnearestE (x * 10 ^ 8)) / 10 ^ 8).
Definition is_integer (x : R) : bool := if Req_EM_T x (IZR (Zfloor x)) then true else false.
(* str of an int *)
Definition show (z : Z) : string := NilZero.string_of_int (Z.to_int z).

(* ---- dictionaries: insertion order, an assignment to a known key keeps its place ---- *)
Fixpoint dict_set {A} (k : string) (v : A) (d : list (string * A)) : list (string * A) :=
  match d with [] => [(k, v)] | (k', v') :: r => if String.eqb k k' then (k, v) :: r else (k', v') :: dict_set k v r end.
Fixpoint dict_get {A} (k : string) (d : list (string * A)) : option A :=
  match d with [] => None | (k', v) :: r => if String.eqb k k' then Some v else dict_get k r end.

Section names.
  Variable repr : R -> string. (* str of a float *)

  (* L169-170, L175-176 *)
  Definition quote_value (text : string) (scale : R) : result R := let* x := py_float text in Ok (round8 (rn (x / scale))).
  Definition quote_name (v scale : R) : string :=
    let w := rn (v * scale) in (if is_integer (round8 w) then show (py_trunc w) else repr (round8 w)) ++ "bps".
  Definition without_spaces (s : string) : string := remove_char " " s.
  Definition bps_text (s : string) : string := without_spaces (replace_all "bp" "" (replace_all "bps" "" s)).
  Definition percent_text (s : string) : string := without_spaces (remove_char "%" s).
  (* the body of the loops of L167-178 and L189-200: new name and value *)
  Definition read_column (c : string) : result (option (string * R)) :=
    if re_search bps_quote c then let* v := quote_value (bps_text c) 10000 in Ok (Some (quote_name v 10000, v))
    else if re_search percentage_quote c then let* v := quote_value (percent_text c) 100 in Ok (Some (quote_name v 100, v))
    else Ok None.
  Definition dicts : Type := (list (string * string) * list (string * R))%type.
  Fixpoint read_columns (cols : list string) (d : dicts) : result dicts :=
    match cols with
    | [] => Ok d
    | c :: r => let* q := read_column c in
                read_columns r (match q with Some (n, v) => (dict_set c n (fst d), dict_set n v (snd d)) | None => d end)
    end.

  (* L141-152 *)
  Definition standardise_atmf_quote_col_names (cols : list string) : result (list (string * string)) :=
    let d := fold_left (fun d c => if re_search atm_quote c then dict_set c "atmf" d else d) cols [] in
    let* _ := guard (Nat.eqb (List.length d) 1) AssertionError in
    Ok d.
  (* L155-180 *)
  Definition standardise_relative_quote_col_names (cols : list string) : result dicts :=
    let* atm := standardise_atmf_quote_col_names cols in
    read_columns cols (atm, [("atmf", 0)]).
  (* L183-202 *)
  Definition standardise_absolute_quote_col_names (cols : list string) : result dicts := read_columns cols ([], []).
End names.

(* ---- L122-138; dates ---- *)
Definition settlement_date_helper (curve_date : date) (settlement_date : option date) (settlement_delay : option Z) (c : calendar) : result date :=
  match settlement_date, settlement_delay with
  | None, None => Err ValueError
  | None, Some n => busday_offset c curve_date n Following
  | Some d, None => let* _ := guard (curve_date <=? d)%Z AssertionError in Ok d
  | Some d, Some _ => Ok d
  end.

(* ---- process_capfloor_quotes, L21-118: frames is what L36-73 does, which may raise. L74 passes the keywords frequency and busdaycal, which make_schedule does not have ---- *)
Definition process_capfloor_quotes {A} (curve_date : date) (settlement_date : option date) (settlement_delay : option Z) (c : calendar) (frames : date -> result unit) : result A :=
  let* s := match settlement_date with None => busday_offset_opt c curve_date settlement_delay Following | Some d => Ok d end in
  let* _ := frames s in
  Err TypeError.
