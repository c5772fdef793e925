(* Vocabulary for the spellings of enum members *)
From Coq Require Import ZArith String Ascii List Bool.
From Verif Require Import Base TenorSpec EnumModel.
Import ListNotations.
Open Scope string_scope.
Open Scope Z_scope.

Definition blank (a : ascii) : Prop := exists n : nat, ((9 <= n <= 13)%nat \/ (28 <= n <= 32)%nat) /\ a = ascii_of_nat n.
Inductive blanks : string -> Prop := bl_nil : blanks "" | bl_cons a s : blank a -> blanks s -> blanks (String a s).
(* t is s without the blanks at both ends *)
Definition trimmed (s t : string) : Prop :=
  (exists a b, s = a ++ t ++ b /\ blanks a /\ blanks b) /\ (forall a r, t = String a r -> ~ blank a) /\ (forall a r, t = r ++ String a "" -> ~ blank a).
(* letters in lower case, spaces as underscores *)
Definition same_char (a b : ascii) : Prop :=
  (a = " "%char /\ b = "_"%char) \/ case_pair a b \/ (a = b /\ a <> " "%char /\ forall c, ~ case_pair a c).
Inductive same_text : string -> string -> Prop := st_nil : same_text "" "" | st_cons a b s t : same_char a b -> same_text s t -> same_text (String a s) (String b t).
Definition spelling (s v : string) : Prop := exists t, trimmed s t /\ same_text t v.

(* every occurrence of old, from the left, replaced by new *)
Inductive replaced (old new : string) : string -> string -> Prop :=
| rp_nil : replaced old new "" ""
| rp_hit s t : replaced old new s t -> replaced old new (old ++ s) (new ++ t)
| rp_miss a s t : (forall r, String a s <> old ++ r) -> replaced old new s t -> replaced old new (String a s) (String a t).
(* every occurrence of c deleted *)
Inductive deleted (c : ascii) : string -> string -> Prop :=
| del_nil : deleted c "" ""
| del_hit s t : deleted c s t -> deleted c (String c s) t
| del_keep a s t : a <> c -> deleted c s t -> deleted c (String a s) (String a t).

(* the members with a text, and the days of the month *)
Definition texts : list (enum * string * string) :=
  [ (ZeroCurveInterp, "LINEAR_ON_LN_DISCOUNT", "linear_on_ln_discount"); (ZeroCurveInterp, "CUBIC_SPLINE_ON_LN_DISCOUNT", "cubic_spline_on_ln_discount"); (ZeroCurveInterp, "CUBIC_SPLINE_ON_CCZR", "cubic_spline_on_cczr");
    (ZeroCurveExtrap, "NONE", "none"); (ZeroCurveExtrap, "FLAT", "flat"); (PayRcv, "PAY", "pay"); (PayRcv, "RCV", "rcv"); (BuySell, "BUY", "buy"); (BuySell, "SELL", "sell");
    (DayCount, "_30_360", "30/360"); (DayCount, "_30E_360", "30e/360"); (DayCount, "_30E_360_ISDA", "30e/360_isda"); (DayCount, "ACT_360", "act/360"); (DayCount, "ACT_365", "act/365"); (DayCount, "ACT_ACT", "act/act"); (DayCount, "ACT_366", "act/366");
    (Compounding, "SIMPLE", "simple"); (Compounding, "CONTINUOUS", "continuous"); (Compounding, "DAILY", "daily"); (Compounding, "WEEKLY", "weekly"); (Compounding, "MONTHLY", "monthly"); (Compounding, "QUARTERLY", "quarterly"); (Compounding, "SEMIANNUAL", "semiannual"); (Compounding, "ANNUAL", "annual");
    (Period, "DAILY", "daily"); (Period, "WEEKLY", "weekly"); (Period, "_28_DAYS", "28days"); (Period, "MONTHLY", "monthly"); (Period, "QUARTERLY", "quarterly"); (Period, "SEMIANNUAL", "semiannual"); (Period, "ANNUAL", "annual"); (Period, "ZERO_COUPON", "zerocoupon");
    (DayRolls, "UNADJUSTED", "unadjusted"); (DayRolls, "EOM", "eom");
    (RollConvs, "UNADJUSTED", "unadjusted"); (RollConvs, "FOLLOWING", "following"); (RollConvs, "PRECEDING", "preceding"); (RollConvs, "MODIFIED_FOLLOWING", "modifiedfollowing"); (RollConvs, "MODIFIED_PRECEDING", "modifiedpreceding");
    (Timing, "IN_ARREARS", "in_arrears"); (Timing, "IN_ADVANCE", "in_advance");
    (Stubs, "NONE", "none"); (Stubs, "SHORT", "short"); (Stubs, "LONG", "long"); (Stubs, "DEFAULT", "default"); (Stubs, "DEFINED_PER_FIRST_PERIOD_END_DATE", "defined_per_first_period_end_date"); (Stubs, "DEFINED_PER_LAST_PERIOD_START_DATE", "defined_per_last_period_start_date");
    (Exchange, "START", "start"); (Exchange, "END", "end"); (Exchange, "BOTH", "both"); (Exchange, "NEITHER", "neither") ].
Definition day_names : list string :=
  ["_1"; "_2"; "_3"; "_4"; "_5"; "_6"; "_7"; "_8"; "_9"; "_10"; "_11"; "_12"; "_13"; "_14"; "_15"; "_16"; "_17"; "_18"; "_19"; "_20"; "_21"; "_22"; "_23"; "_24"; "_25"; "_26"; "_27"; "_28"; "_29"; "_30"; "_31"].
Definition day_member (k : Z) (m : string) : Prop := 1 <= k /\ nth_error day_names (Z.to_nat (k - 1)) = Some m.

(* what an argument left out means *)
Definition default_member (e : enum) : option string :=
  match e with
  | ZeroCurveInterp => Some "LINEAR_ON_LN_DISCOUNT" | ZeroCurveExtrap => Some "NONE" | DayRolls => Some "UNADJUSTED" | RollConvs => Some "MODIFIED_FOLLOWING" | Stubs => Some "DEFAULT" | Exchange => Some "NEITHER"
  | _ => None
  end.

(* the words for a payment frequency *)
Definition frequency_words : list (string * list string) :=
  [ ("DAILY", ["daily"; "d"; "day"; "days"; "1d"; "1day"; "1days"]);
    ("WEEKLY", ["weekly"; "w"; "wk"; "week"; "weeks"; "1w"; "1wk"; "1week"; "1weeks"]);
    ("_28_DAYS", ["28d"; "28day"; "28days"]);
    ("MONTHLY", ["monthly"; "m"; "mon"; "month"; "months"; "1m"; "1mo"; "1month"; "1months"]);
    ("QUARTERLY", ["quarterly"; "q"; "quart"; "quarter"; "quarters"; "3m"; "3mo"; "3month"; "3months"]);
    ("SEMIANNUAL", ["semiannual"; "semiannually"; "s"; "sa"; "semi"; "6m"; "6mo"; "6month"; "6months"]);
    ("ANNUAL", ["annual"; "annually"; "a"; "yr"; "yrs"; "year"; "years"; "1y"; "1yr"; "1year"; "1years"]);
    ("ZERO_COUPON", ["zerocoupon"; "z"; "zc"; "zero"]) ].
Definition frequency_word (w m : string) : Prop := exists l, In (m, l) frequency_words /\ In w l.
(* the word of a frequency: slashes, underscores (and spaces) and "per" do not count *)
Definition frequency_spelling (s w : string) : Prop :=
  exists t u v x, spelling s t /\ deleted "/" t u /\ deleted "_" u v /\ replaced "per" "" v x /\ trimmed x w.

(* how a basis may be written: "actual" for "act", "act/365fixed", and without its slash unless only digits remain *)
Definition basis_word (t v : string) : Prop :=
  exists u, replaced "actual" "act" t u /\ (u = v \/ (u = "act/365fixed" /\ v = "act/365") \/ (deleted "/" v u /\ u <> "30360")).

(* a letter in upper or lower case, anything else unchanged *)
Definition letter (a : ascii) : Prop := exists b, case_pair a b \/ case_pair b a.
Definition cased (capital : bool) (a b : ascii) : Prop :=
  if capital then case_pair b a \/ (a = b /\ forall c, ~ case_pair c a) else case_pair a b \/ (a = b /\ forall c, ~ case_pair a c).
(* the first letter of every run of letters is a capital, the others are small; after: the text follows a letter *)
Inductive titled : bool -> string -> string -> Prop :=
| ti_nil after : titled after "" ""
| ti_letter after a b s t : letter a -> cased (negb after) a b -> titled true s t -> titled after (String a s) (String b t)
| ti_other after a s t : ~ letter a -> titled false s t -> titled after (String a s) (String a t).
