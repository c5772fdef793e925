(* frm/enums/helper.py and the parsing methods of the enums in frm/enums/utils.py. Strings are ASCII. A member is represented by its name. *)
From Coq Require Import ZArith String Ascii List Bool.
From Verif Require Import Base BusDayModel TenorModel BootModel.
Import ListNotations.
Open Scope string_scope.
Open Scope Z_scope.

(* an argument: text, an int (or a bool or float equal to one), None / NaN / NaT, or an object that equals no text or number and has no method replace, a member of an enum for example *)
Inductive value : Set := VStr (s : string) | VInt (k : Z) | VMissing | VOther.
(* the value of a member *)
Inductive evalue : Set := EStr (s : string) | EInt (k : Z).
Definition py_eq (e : evalue) (v : value) : bool :=
  match e, v with EStr s, VStr t => String.eqb s t | EInt k, VInt j => Z.eqb k j | _, _ => false end.

(* s.replace(' ', '_') *)
Fixpoint replace_char (a b : ascii) (s : string) : string :=
  match s with EmptyString => EmptyString | String c t => String (if Ascii.eqb c a then b else c) (replace_char a b t) end.
(* s.replace(old, new) for a non-empty old, scanning left to right; [skip] characters of the current match remain to be dropped *)
Fixpoint replace_from (old new : string) (skip : nat) (s : string) : string :=
  match s with
  | EmptyString => EmptyString
  | String a t =>
      match skip with
      | S k => replace_from old new k t
      | O => if starts_with old s then new ++ replace_from old new (String.length old - 1) t else String a (replace_from old new O t)
      end
  end.
Definition replace_all (old new s : string) : string := replace_from old new O s.
(* str.isdigit *)
Fixpoint only_digits (s : string) : bool := match s with EmptyString => true | String a t => is_digit a && only_digits t end.
Definition isdigit (s : string) : bool := negb (String.eqb s "") && only_digits s.

(* ---- helper.py:8-17; int() refuses more than 4300 digits, which no member needs ---- *)
Definition clean_enum_value (transform : option (string -> string)) (v : value) : result value :=
  match v with
  | VStr s =>
      let s := replace_char " " "_" (strip (lower s)) in
      let s := match transform with Some f => f s | None => s end in
      if isdigit s then let* k := py_int s in Ok (VInt k) else Ok (VStr s)
  | _ => Ok v
  end.

(* an enum class: its members in order of definition, and the member returned by default() if there is such a method *)
Record class : Set := mk_class { members : list (string * evalue); default : option string }.
Definition call_default (c : class) : result string := match default c with Some m => Ok m | None => Err AttributeError end.
Definition is_member (c : class) (v : value) : bool := existsb (fun m => py_eq (snd m) v) (members c).

(* helper.py:20-22 *)
Definition is_valid_enum_value (c : class) (v : value) : result bool := let* v := clean_enum_value None v in Ok (is_member c v).
(* helper.py:25-35 *)
Definition get_enum_member (c : class) (transform : option (string -> string)) (v : value) : result string :=
  let* v := clean_enum_value transform v in
  match v with
  | VMissing => call_default c
  | _ => match find (fun m => py_eq (snd m) v) (members c) with Some (n, _) => Ok n | None => Err ValueError end
  end.

(* the method from_value of the first five enums, utils.py:27-45, 71-89, 111-129, 150-168, 207-228; all their values are text *)
Definition without_slash (e : evalue) : evalue := match e with EStr s => EStr (remove_char "/" s) | EInt k => EInt k end.
Definition from_value_1 (c : class) (specific : value -> result value) (v : value) : result string :=
  let* v := clean_enum_value None v in
  let* v := specific v in
  match v with
  | VMissing => call_default c
  | _ => match find (fun m => py_eq (snd m) v || py_eq (without_slash (snd m)) v) (members c) with Some (n, _) => Ok n | None => Err ValueError end
  end.
(* utils.py:210-214 *)
Definition day_count_cleaning (v : value) : result value :=
  match v with
  | VStr s => let s := replace_all "actual" "act" s in Ok (VStr (if String.eqb s "act/365fixed" then "act/365" else s))
  | _ => Err AttributeError
  end.

(* ---- the classes ---- *)
Inductive enum : Set := ZeroCurveInterp | ZeroCurveExtrap | PayRcv | BuySell | DayCount | Compounding | Period | DayRolls | RollConvs | Timing | Stubs | Exchange.
(* the members and default(): utils.py:12-19, 57-63, 97-99, 136-138, 175-199, 235-244, 315-326, 395-432, 448-465, 472-474, 496-514, 525-545 *)
Definition class_of (e : enum) : class :=
  match e with
  | ZeroCurveInterp => mk_class [("LINEAR_ON_LN_DISCOUNT", EStr "linear_on_ln_discount"); ("CUBIC_SPLINE_ON_LN_DISCOUNT", EStr "cubic_spline_on_ln_discount"); ("CUBIC_SPLINE_ON_CCZR", EStr "cubic_spline_on_cczr")] (Some "LINEAR_ON_LN_DISCOUNT")
  | ZeroCurveExtrap => mk_class [("NONE", EStr "none"); ("FLAT", EStr "flat")] (Some "NONE")
  | PayRcv => mk_class [("PAY", EStr "pay"); ("RCV", EStr "rcv")] None
  | BuySell => mk_class [("BUY", EStr "buy"); ("SELL", EStr "sell")] None
  | DayCount => mk_class [("_30_360", EStr "30/360"); ("_30E_360", EStr "30e/360"); ("_30E_360_ISDA", EStr "30e/360_isda"); ("ACT_360", EStr "act/360"); ("ACT_365", EStr "act/365"); ("ACT_ACT", EStr "act/act"); ("ACT_366", EStr "act/366")] (Some "ACT_ACT")
  | Compounding => mk_class [("SIMPLE", EStr "simple"); ("CONTINUOUS", EStr "continuous"); ("DAILY", EStr "daily"); ("WEEKLY", EStr "weekly"); ("MONTHLY", EStr "monthly"); ("QUARTERLY", EStr "quarterly"); ("SEMIANNUAL", EStr "semiannual"); ("ANNUAL", EStr "annual")] None
  | Period => mk_class [("DAILY", EStr "daily"); ("WEEKLY", EStr "weekly"); ("_28_DAYS", EStr "28days"); ("MONTHLY", EStr "monthly"); ("QUARTERLY", EStr "quarterly"); ("SEMIANNUAL", EStr "semiannual"); ("ANNUAL", EStr "annual"); ("ZERO_COUPON", EStr "zerocoupon")] None
  | DayRolls => mk_class ([("UNADJUSTED", EStr "unadjusted"); ("_1", EInt 1); ("_2", EInt 2); ("_3", EInt 3); ("_4", EInt 4); ("_5", EInt 5); ("_6", EInt 6); ("_7", EInt 7); ("_8", EInt 8); ("_9", EInt 9); ("_10", EInt 10); ("_11", EInt 11); ("_12", EInt 12); ("_13", EInt 13); ("_14", EInt 14); ("_15", EInt 15); ("_16", EInt 16); ("_17", EInt 17); ("_18", EInt 18); ("_19", EInt 19); ("_20", EInt 20); ("_21", EInt 21); ("_22", EInt 22); ("_23", EInt 23); ("_24", EInt 24); ("_25", EInt 25); ("_26", EInt 26); ("_27", EInt 27); ("_28", EInt 28); ("_29", EInt 29); ("_30", EInt 30); ("_31", EInt 31); ("EOM", EStr "eom")]) (Some "UNADJUSTED")
  | RollConvs => mk_class [("UNADJUSTED", EStr "unadjusted"); ("FOLLOWING", EStr "following"); ("PRECEDING", EStr "preceding"); ("MODIFIED_FOLLOWING", EStr "modifiedfollowing"); ("MODIFIED_PRECEDING", EStr "modifiedpreceding")] (Some "MODIFIED_FOLLOWING")
  | Timing => mk_class [("IN_ARREARS", EStr "in_arrears"); ("IN_ADVANCE", EStr "in_advance")] None
  | Stubs => mk_class [("NONE", EStr "none"); ("SHORT", EStr "short"); ("LONG", EStr "long"); ("DEFAULT", EStr "default"); ("DEFINED_PER_FIRST_PERIOD_END_DATE", EStr "defined_per_first_period_end_date"); ("DEFINED_PER_LAST_PERIOD_START_DATE", EStr "defined_per_last_period_start_date")] (Some "DEFAULT")
  | Exchange => mk_class [("START", EStr "start"); ("END", EStr "end"); ("BOTH", EStr "both"); ("NEITHER", EStr "neither")] (Some "NEITHER")
  end.

(* PeriodFreq._transform_value, utils.py:370-388, the dict in order *)
Definition period_aliases : list (string * list string) :=
  [ ("daily", ["d"; "day"; "days"; "1d"; "1day"; "1days"]);
    ("weekly", ["w"; "week"; "weeks"; "wk"; "1w"; "1wk"; "1week"; "1weeks"]);
    ("28days", ["28d"; "28day"; "28days"]);
    ("monthly", ["m"; "month"; "months"; "mon"; "1m"; "1mo"; "1month"; "1months"]);
    ("quarterly", ["q"; "quarter"; "quarters"; "quart"; "3m"; "3mo"; "3month"; "3months"]);
    ("semiannual", ["s"; "sa"; "semiannual"; "semiannually"; "semi"; "6m"; "6mo"; "6month"; "6months"]);
    ("annual", ["a"; "year"; "years"; "yrs"; "yr"; "annually"; "1y"; "1yr"; "1year"; "1years"]);
    ("zerocoupon", ["z"; "zc"; "zerocoupon"; "zero"]) ].
Definition transform_period (s : string) : string :=
  let s := strip (lower (replace_all "per" "" (remove_char "_" (remove_char "/" s)))) in
  match find (fun ka => String.eqb s (fst ka) || existsb (String.eqb s) (snd ka)) period_aliases with Some (k, _) => k | None => s end.

Definition from_value (e : enum) (v : value) : result string :=
  match e with
  | ZeroCurveInterp | ZeroCurveExtrap | PayRcv | BuySell => from_value_1 (class_of e) Ok v
  | DayCount => from_value_1 (class_of e) day_count_cleaning v
  | Period => get_enum_member (class_of e) (Some transform_period) v
  | _ => get_enum_member (class_of e) None v
  end.
Definition is_valid (e : enum) (v : value) : result bool :=
  match e with
  | Period => let* v := clean_enum_value (Some transform_period) v in Ok (is_member (class_of e) v)
  | _ => is_valid_enum_value (class_of e) v
  end.

(* str.title: the first letter of every run of letters in upper case, the others in lower case *)
Definition is_letter (a : ascii) : bool :=
  let n := nat_of_ascii a in ((65 <=? n)%nat && (n <=? 90)%nat) || ((97 <=? n)%nat && (n <=? 122)%nat).
Fixpoint title_from (after_letter : bool) (s : string) : string :=
  match s with EmptyString => EmptyString | String a t => String (if after_letter then lower_char a else upper_char a) (title_from (is_letter a) t) end.
Definition title (s : string) : string := title_from false s.
(* display_name, utils.py:47-54, 91-93, 131-133, 170-172, 230-232, 275-277, 390-392, 442-444, 467-469, 484-486, 520-522, 539-541; m is a member with value v *)
Definition display_name (e : enum) (m : string) (v : evalue) : result string :=
  match e with
  | ZeroCurveInterp =>
      (if String.eqb m "LINEAR_ON_LN_DISCOUNT" then Ok "Linear on log of discount factors"
       else if String.eqb m "CUBIC_SPLINE_ON_LN_DISCOUNT" then Ok "Cubic spline on log of discount factors"
       else if String.eqb m "CUBIC_SPLINE_ON_CCZR" then Ok "Cubic spline on continuously compounded zero rates" else Err KeyError)
  | ZeroCurveExtrap | PayRcv | BuySell | Exchange => Ok (title m)
  | DayCount => match v with EStr s => Ok (strip (replace_char "_" " " (upper s))) | EInt _ => Err AttributeError end
  | Compounding | Period | DayRolls => Ok (strip (replace_char "_" " " (title m)))
  | RollConvs => Ok (title (replace_char "_" " " m))
  | Timing | Stubs => Ok (replace_char "_" " " (title m))
  end.

(* PayRcv.multiplier and BuySell.multiplier, utils.py:101-103 and 140-142 *)
Definition pay_rcv_multiplier (m : string) : Z := if String.eqb m "PAY" then -1 else 1.
Definition buy_sell_multiplier (m : string) : Z := if String.eqb m "SELL" then -1 else 1.
