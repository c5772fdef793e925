(* Vocabulary for FX helper properties. *)
From Coq Require Import String Ascii ZArith QArith Qreals Reals List Bool Permutation.
From Verif Require Import Base Date BusDayModel BusDaySpec TenorModel TenorSpec CurveModel FxModel.
Import ListNotations.
Open Scope string_scope.

(* ---- column names ---- *)
(* A delta from 1 to 49 of one or two digits *)
Definition delta_number (n : string) (v : Z) : Prop := numeral n v /\ (String.length n <= 2)%nat /\ (1 <= v <= 49)%Z.
Definition separator (s : string) : Prop := s = "" \/ s = "_" \/ s = " ".
Definition delta_word (d : string) : Prop := d = "delta" \/ d = delta_letter.
Definition side_word (w side : string) : Prop := (w = "call" \/ w = "c") /\ side = "call" \/ (w = "put" \/ w = "p") /\ side = "put".
Definition strategy_word (w strategy : string) : Prop :=
  (w = "rr" \/ exists s, separator s /\ w = "risk" ++ s ++ "reversal") /\ strategy = "riskreversal" \/ (w = "bf" \/ w = "butterfly") /\ strategy = "butterfly".
Definition at_the_money (w : string) : Prop :=
  exists a s t s' m s'', (a = "a" \/ a = "at") /\ separator s /\ (t = "t" \/ t = "the") /\ separator s' /\ (m = "m" \/ m = "money") /\ separator s'' /\
    w = a ++ s ++ t ++ s' ++ m ++ s''.

(* [names t c]: the spelling t means the column c *)
Inductive spelling : string -> string -> Prop :=
| sp_side n v s d s' w side : delta_number n v -> separator s -> delta_word d -> separator s' -> side_word w side ->
    spelling (n ++ s ++ d ++ s' ++ w) (n ++ "_delta_" ++ side)
| sp_strategy n v s d s' w st : delta_number n v -> separator s -> delta_word d -> separator s' -> strategy_word w st ->
    spelling (n ++ s ++ d ++ s' ++ w) (n ++ "_delta_" ++ st)
| sp_neutral w d s : at_the_money w -> delta_word d -> separator s -> spelling (w ++ d ++ s ++ "neutral") "atm_delta_neutral"
| sp_forward w f : at_the_money w -> f = "f" \/ f = "fwd" \/ f = "forward" -> spelling (w ++ f) "atm_forward".
(* a trailing newline is ignored *)
Definition spells (s c : string) : Prop := exists t, (s = t \/ s = t ++ String newline "") /\ spelling t c.

(* A smile quote and its signed delta *)
Inductive smile_quote : string -> Q -> Prop :=
| sq_put n v : delta_number n v -> smile_quote (n ++ "_delta_put") (- inject_Z v / 100)
| sq_call n v : delta_number n v -> smile_quote (n ++ "_delta_call") (inject_Z v / 100)
| sq_atm : smile_quote "atm_delta_neutral" (1 # 2).
(* puts by growing absolute delta, then the money, then calls by falling delta: from low to high strikes *)
Definition smile_order (x y : Q) : Prop := (x < 0 /\ 0 < y \/ (x < 0 /\ y < 0 \/ 0 < x /\ 0 < y) /\ y <= x)%Q.

(* ---- strategies ---- *)
Definition well_formed (f : quotes) (rows : nat) : Prop := NoDup (names f) /\ forall n v, In (n, v) f -> List.length v = rows.
(* the strategy columns of f are named after the deltas ds, which contain no underscore *)
Definition strategies (f : quotes) (ds : list string) : Prop :=
  NoDup ds /\ (forall d, In d ds -> before_underscore d = d) /\
  (forall n, In n (names f) -> contains "riskreversal" n = true -> exists d, In d ds /\ n = d ++ "_delta_riskreversal") /\
  (forall n, In n (names f) -> contains "butterfly" n = true -> exists d, In d ds /\ n = d ++ "_delta_butterfly") /\
  (forall d, In d ds -> In (d ++ "_delta_riskreversal") (names f) /\ In (d ++ "_delta_butterfly") (names f)).
(* row by row, the volatility of the put (sign -1) or call (sign 1) with this at-the-money, butterfly and risk reversal *)
Definition leg_volatility (atm bf rr : list R) (sign : R) (v : list R) : Prop :=
  List.length v = List.length atm /\ forall i, (i < List.length atm)%nat -> (nth i v 0 = nth i atm 0 + nth i bf 0 + sign * nth i rr 0 / 2)%R.
(* the market definitions of the two strategies *)
Definition market_pair (atm bf rr put call : list R) : Prop :=
  List.length put = List.length atm /\ List.length call = List.length atm /\
  forall i, (i < List.length atm)%nat -> (nth i call 0 - nth i put 0 = nth i rr 0 /\ (nth i call 0 + nth i put 0) / 2 - nth i atm 0 = nth i bf 0)%R.
(* the columns after solving *)
Definition solved (f : quotes) (atm : list R) (ds : list string) (n : string) (v : list R) : Prop :=
  (In (n, v) f /\ forall d, In d ds -> n <> d ++ "_delta_butterfly" /\ n <> d ++ "_delta_riskreversal") \/
  (~ In n (names f) /\ exists d bf rr, In d ds /\ In (d ++ "_delta_butterfly", bf) f /\ In (d ++ "_delta_riskreversal", rr) f /\
     (n = d ++ "_delta_put" /\ leg_volatility atm bf rr (-1) v \/ n = d ++ "_delta_call" /\ leg_volatility atm bf rr 1 v)).
(* the deltas a strategy is quoted for, by the text before the first underscore *)
Definition quoted_deltas (strategy : string) (f : quotes) : list string := map before_underscore (filter (contains strategy) (names f)).

(* the row of a smile quote: its name, 1 for calls and the money, -1 for puts, and its signed delta *)
Definition detail_of (r : quote_detail) : Prop :=
  exists x y, smile_quote (q_name r) x /\ q_delta r = Some y /\ (y == x)%Q /\ q_flag r = Some (if Qlt_le_dec x 0 then -1 else 1)%Z.
Definition in_smile_order (rows : list quote_detail) : Prop :=
  ForallOrdPairs (fun r s => exists x y, q_delta r = Some x /\ q_delta s = Some y /\ smile_order x y) rows.

(* ---- term structures ---- *)
(* one row: a delivery date is kept with the rest of the row; with neither date, the rate-set date is the first business day at or after
   curve date plus tenor and delivery is the spot offset of business days later *)
Definition dated_row (c : date) (spot : Z) (cal : calendar) (x : string * (option date * option date)) (r : fx_row) : Prop :=
  x_tenor r = clean_tenor (fst x) /\
  match snd (snd x) with
  | Some d => x_rate_set r = fst (snd x) /\ x_delivery r = Some d
  | None => fst (snd x) = None /\ exists a b rs dl, tenor_means (clean_tenor (fst x)) a b /\ x_rate_set r = Some rs /\ x_delivery r = Some dl /\
      first_on_or_after cal (add_offset c {| off_days := a; off_months := b |}) rs /\
      business_day cal dl /\ (rs <= dl)%Z /\ Z.of_nat (business_days_between cal rs dl) = spot
  end.
Definition datable (x : string * (option date * option date)) : Prop :=
  snd (snd x) <> None \/ (snd x = (None, None) /\ exists a b, tenor_means (clean_tenor (fst x)) a b).
Definition by_delivery (rows : list fx_row) : Prop :=
  ForallOrdPairs (fun r s => exists d e, x_delivery r = Some d /\ x_delivery s = Some e /\ (d <= e)%Z) rows.

(* ---- forward curves ---- *)
Definition quoted (curve : list (date * option R)) (d : date) (y : R) : Prop := In (d, Some y) curve.
Inductive interpolated (curve : list (date * option R)) (flat : bool) (d : date) : option R -> Prop :=
| ip_at y : quoted curve d y -> interpolated curve flat d (Some y)
| ip_between a ya b yb : quoted curve a ya -> quoted curve b yb -> (a < d < b)%Z -> (forall x y, quoted curve x y -> (x <= a \/ b <= x)%Z) ->
    interpolated curve flat d (Some (ya + (yb - ya) * (IZR (d - a) / IZR (b - a)))%R)
| ip_after a ya : quoted curve a ya -> (a < d)%Z -> (forall x y, quoted curve x y -> (x <= a)%Z) -> interpolated curve flat d (if flat then Some ya else None)
| ip_before b yb : quoted curve b yb -> (d < b)%Z -> (forall x y, quoted curve x y -> (b <= x)%Z) -> interpolated curve flat d (if flat then Some yb else None)
| ip_empty : (forall x y, ~ quoted curve x y) -> interpolated curve flat d None.

(* ---- currency pairs ---- *)
Definition letter (a : ascii) : Prop := exists k, (k < 26)%nat /\ (a = ascii_of_nat (65 + k) \/ a = ascii_of_nat (97 + k)).
Fixpoint letters (s : string) : Prop := match s with EmptyString => True | String a t => letter a /\ letters t end.
Definition currency (s : string) : Prop := letters s /\ String.length s = 3%nat.
