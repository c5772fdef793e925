(* Model of frm/term_structures/fx_helpers.py. Strings are ASCII, the letter Δ is its UTF-8 encoding; \d matches ASCII digits only. *)
From Coq Require Import String Ascii ZArith QArith Qreals Reals List Bool.
From Verif Require Import Base Date BusDayModel TenorModel NumModel CurveModel BootModel.
Import ListNotations.
Open Scope string_scope.

(* ---- the regular expressions ----
   The patterns have no repetition, so each is a finite list of words with its groups, in the order in which the backtracking
   matcher tries them. '$' also matches before a final newline. *)
Definition alt (a b : list string) : list string := (a ++ b)%list.
Definition seq2 (a b : list string) : list string := flat_map (fun x => map (fun y => x ++ y) b) a.
Definition opt (a : list string) : list string := (a ++ [""])%list.
Definition digits (from to : nat) : list string := map (fun k => String (ascii_of_nat (48 + k)) "") (seq from (S to - from)).

Definition delta_letter : string := String (ascii_of_nat 206) (String (ascii_of_nat 148) "").
(* (0?[1-9]|[1-4]\d) *)
Definition re_number : list string := alt (seq2 (opt ["0"]) (digits 1 9)) (seq2 (digits 1 4) (digits 0 9)).
(* [_ ]? *)
Definition re_sep : list string := opt ["_"; " "].
(* (delta|Δ) *)
Definition re_delta : list string := ["delta"; delta_letter].
(* (call|c|put|p) *)
Definition re_call_put : list string := ["call"; "c"; "put"; "p"].
(* (risk[_ ]?reversal|rr|butterfly|bf) *)
Definition re_strategy : list string := (seq2 (seq2 ["risk"] re_sep) ["reversal"] ++ ["rr"; "butterfly"; "bf"])%list.
(* (a|at)[_ ]?(t|the)[_ ]?(m|money)[_ ]? *)
Definition re_atm : list string := seq2 (seq2 (seq2 (seq2 (seq2 ["a"; "at"] re_sep) ["t"; "the"]) re_sep) ["m"; "money"]) re_sep.

(* words of a pattern with groups 1 and 3 *)
Definition quote_words (last : list string) : list (string * (string * string)) :=
  flat_map (fun n => flat_map (fun s => flat_map (fun d => flat_map (fun s' => map (fun l => (n ++ s ++ d ++ s' ++ l, (n, l))) last) re_sep) re_delta) re_sep) re_number.
Definition call_put_words := quote_words re_call_put.
Definition strategy_words := quote_words re_strategy.
Definition atm_neutral_words : list string := seq2 (seq2 (seq2 re_atm re_delta) re_sep) ["neutral"].
Definition atm_forward_words : list string := seq2 re_atm ["f"; "fwd"; "forward"].

(* s is the word w, perhaps followed by a newline *)
Definition is_word (s w : string) : bool := (s =? w) || (s =? w ++ String newline "").
Definition match_groups (ws : list (string * (string * string))) (s : string) : option (string * string) :=
  match find (fun w => is_word s (fst w)) ws with Some w => Some (snd w) | None => None end.
Definition matches (ws : list string) (s : string) : bool := existsb (is_word s) ws.

(* ---- lines 133-151 ---- *)
(* s.replace(old, new) for a two letter old *)
Fixpoint replace2 (a b : ascii) (new s : string) : string :=
  match s with
  | String x (String y t as u) => if Ascii.eqb x a && Ascii.eqb y b then new ++ replace2 a b new t else String x (replace2 a b new u)
  | _ => s
  end.
Definition strategy_name (g : string) : string :=
  replace2 "b" "f" "butterfly" (replace2 "r" "r" "riskreversal" (remove_char " " (remove_char "_" g))).
Definition clean_name (s : string) : string :=
  match match_groups call_put_words s with
  | Some (n, g) => n ++ "_delta_" ++ (if (g =? "call") || (g =? "c") then "call" else "put")
  | None =>
      match match_groups strategy_words s with
      | Some (n, g) => n ++ "_delta_" ++ strategy_name g
      | None => if matches atm_neutral_words s then "atm_delta_neutral" else if matches atm_forward_words s then "atm_forward" else s
      end
  end.
(* one rename per original column name, in order *)
Definition rename (old new : string) (cols : list string) : list string := map (fun c => if c =? old then new else c) cols.
Definition clean_names (cols : list string) : list string := fold_left (fun cs c => rename c (clean_name c) cs) cols cols.

(* ---- quotes: columns of numbers by name; names are distinct ---- *)
Definition quotes := list (string * list R).
Definition names (f : quotes) : list string := map fst f.
Definition has (f : quotes) (n : string) : bool := existsb (String.eqb n) (names f).
Definition col (f : quotes) (n : string) : result (list R) :=
  match find (fun c => fst c =? n) f with Some c => Ok (snd c) | None => Err KeyError end.
Definition drop (f : quotes) (n : string) : result quotes :=
  if has f n then Ok (filter (fun c => negb (fst c =? n)) f) else Err KeyError.

Definition clean_vol_quotes_column_names (f : quotes) : quotes := combine (clean_names (names f)) (map snd f).

(* sub in s *)
Fixpoint contains (sub s : string) : bool :=
  starts_with sub s || match s with EmptyString => false | String _ t => contains sub t end.
(* s.split('_')[0] *)
Fixpoint before_underscore (s : string) : string :=
  match s with EmptyString => EmptyString | String a t => if Ascii.eqb a "_" then EmptyString else String a (before_underscore t) end.
(* sorted() of strings *)
Fixpoint insert_str (x : string) (l : list string) : list string :=
  match l with [] => [x] | y :: t => if String.leb x y then x :: l else y :: insert_str x t end.
Definition sorted (l : list string) : list string := fold_right insert_str [] l.

(* ---- lines 154-175 ---- *)
Definition deltas_of (strategy : string) (f : quotes) : list string :=
  sorted (map before_underscore (filter (contains strategy) (names f))).
Definition add_leg (f : quotes) (name delta : string) (sign : R) : result quotes :=
  if has f name then Ok f
  else
    let* a := col f "atm_delta_neutral" in
    let* b := col f (delta ++ "_delta_butterfly") in
    let* r := col f (delta ++ "_delta_riskreversal") in
    Ok (f ++ [(name, map (fun x => fst x + fst (snd x) + sign * (1 / 2) * snd (snd x))%R (combine a (combine b r)))])%list.
Definition solve_delta (f : quotes) (delta : string) : result quotes :=
  let* f := add_leg f (delta ++ "_delta_put") delta (-1) in
  let* f := add_leg f (delta ++ "_delta_call") delta 1 in
  let* f := drop f (delta ++ "_delta_butterfly") in
  drop f (delta ++ "_delta_riskreversal").
Fixpoint solve_deltas (f : quotes) (ds : list string) : result quotes :=
  match ds with [] => Ok f | d :: t => let* f := solve_delta f d in solve_deltas f t end.
Fixpoint same_strings (l m : list string) : bool :=
  match l, m with [], [] => true | x :: t, y :: u => (x =? y) && same_strings t u | _, _ => false end.
Definition solve_call_put_quotes (f : quotes) : result quotes :=
  let* _ := guard (has f "atm_delta_neutral") AssertionError in
  let* _ := guard (same_strings (deltas_of "riskreversal" f) (deltas_of "butterfly" f)) AssertionError in
  solve_deltas f (deltas_of "butterfly" f).

(* ---- lines 178-199 ---- *)
Record quote_detail : Type := { q_name : string; q_flag : option Z; q_delta : option Q }.
Definition is_quote (s : string) : bool :=
  match match_groups call_put_words s with Some _ => true | None => matches atm_neutral_words s end.
Definition call_put_flag (s : string) : option Z :=
  if contains "call" s then Some 1%Z else if contains "put" s then Some (-1)%Z else if s =? "atm_delta_neutral" then Some 1%Z else None.
(* float() of the text before the first underscore; only digits can occur in a quote name *)
Definition py_float (s : string) : result Q := let* n := py_int s in Ok (inject_Z n).
Definition quote_details (s : string) : result quote_detail :=
  let flag := call_put_flag s in
  if s =? "atm_delta_neutral" then Ok {| q_name := s; q_flag := flag; q_delta := Some (1 # 2)%Q |}
  else
    let* x := py_float (before_underscore s) in
    Ok {| q_name := s; q_flag := flag; q_delta := match flag with Some c => Some (inject_Z c * x / 100)%Q | None => None end |}.
(* sort_values('order'): 100/delta ascending, missing last; rows of equal order in unspecified order *)
Definition order_le (x y : quote_detail) : bool :=
  match q_delta x, q_delta y with
  | Some a, Some b => Qle_bool (100 / a) (100 / b)
  | _, None => true
  | None, Some _ => false
  end.
Fixpoint insert_detail (x : quote_detail) (l : list quote_detail) : list quote_detail :=
  match l with [] => [x] | y :: t => if order_le x y then x :: l else y :: insert_detail x t end.
Definition get_delta_smile_quote_details (cols : list string) : result (list quote_detail) :=
  let* rows := sequence (map quote_details (filter is_quote cols)) in
  Ok (fold_right insert_detail [] rows).

(* ---- lines 85-99: the pair, the domestic and the foreign currency (the warnings are not modelled) ---- *)
Definition validate_ccy_pair (s : string) : result (string * string * string) :=
  let p := strip (remove_char "/" (lower s)) in
  if Nat.eqb (String.length p) 6 then Ok (p, substring 3 (String.length p - 3) p, substring 0 3 p) else Err AssertionError.

(* ---- lines 105-130: which rows get which warning ---- *)
Definition regular_pairs : list string := ["audusd"; "nzdeur"; "gbpusd"; "nzdusd"].
Definition exempt_pairs : list string := ["audusd"; "nzdeur"; "gbpusd"; "nzdusd"; "usdaud"; "usdeur"; "usdgbp"; "usdnzd"].
Definition member (s : string) (l : list string) : bool := existsb (String.eqb s) l.
Definition warns_regular (pair convention : string) : bool := member pair regular_pairs && contains "premium_adjusted" convention.
Definition warns_premium_adjusted (pair convention : string) : bool :=
  negb (member pair exempt_pairs) && contains "usd" pair && contains "regular" convention.

(* ---- lines 18-63 ---- *)
Record fx_row : Type := { x_tenor : string; x_rate_set : option date; x_delivery : option date }.
(* lines 40-53 *)
Definition fx_row_dates (r : fx_row) (curve_date : date) (spot_offset : Z) (cal : calendar) : result fx_row :=
  match x_delivery r with
  | Some _ => Ok r
  | None =>
      match x_rate_set r with
      | Some _ => Err AttributeError (* a Timestamp has no method astype *)
      | None =>
          let* o := tenor_to_date_offset (x_tenor r) in
          let d := add_offset curve_date o in
          let* rs := busday_offset cal d 0 Following in
          let* dl := busday_offset cal d spot_offset Following in
          Ok {| x_tenor := x_tenor r; x_rate_set := Some rs; x_delivery := Some dl |}
      end
  end.
Definition delivery_key (r : fx_row) : Z := match x_delivery r with Some d => d | None => 0%Z end.
(* a tenor column is required at line 24; [rows]: tenor (not a string: TypeError), rate set date and delivery date.
   Every row has a delivery date when they are sorted. *)
Definition fx_term_structure_helper (tenors : option (list (option string))) (dates : list (option date * option date)) (curve_date : date)
    (spot_offset : Z) (cal : calendar) : result (list fx_row) :=
  let* ts := match tenors with Some l => Ok l | None => Err KeyError end in
  let* ts := sequence (map (fun t => match t with Some s => Ok (clean_tenor s) | None => Err TypeError end) ts) in
  let* rows := sequence (map (fun x => fx_row_dates {| x_tenor := fst x; x_rate_set := fst (snd x); x_delivery := snd (snd x) |} curve_date spot_offset cal) (combine ts dates)) in
  Ok (sort_by delivery_key rows).

(* ---- lines 202-238 ---- *)
Fixpoint insert_date (d : date) (l : list date) : list date :=
  match l with [] => [d] | x :: t => if (d <? x)%Z then d :: l else if (d =? x)%Z then l else x :: insert_date d t end.
(* unique_dates.union(..): sorted, each once *)
Definition union_dates (l m : list date) : list date := fold_right insert_date [] (l ++ m)%list.
Definition value_at (curve : list (date * option R)) (d : date) : option R :=
  match find (fun k => (fst k =? d)%Z) curve with Some k => snd k | None => None end.
(* the nearest cell with a value before and after each cell *)
Fixpoint last_valid (acc : option (date * R)) (l : list (date * option R)) (d : date) : option (date * R) :=
  match l with
  | [] => acc
  | (x, v) :: t => if (x <=? d)%Z then last_valid (match v with Some y => Some (x, y) | None => acc end) t d else acc
  end.
Fixpoint first_valid (l : list (date * option R)) (d : date) : option (date * R) :=
  match l with
  | [] => None
  | (x, v) :: t => if (d <=? x)%Z then match v with Some y => Some (x, y) | None => first_valid t d end else first_valid t d
  end.
(* Series.interpolate(method='time', limit_area='inside') at one cell, then ffill and bfill *)
Definition interpolate_cell (s : list (date * option R)) (flat : bool) (d : date) (v : option R) : option R :=
  match v with
  | Some y => Some y
  | None =>
      match last_valid None s d, first_valid s d with
      | Some (a, ya), Some (b, yb) => Some (ya + (yb - ya) * (IZR (d - a) / IZR (b - a)))%R
      | Some (_, ya), None => if flat then Some ya else None
      | None, Some (_, yb) => if flat then Some yb else None
      | None, None => None
      end
  end.
Fixpoint has_duplicates (l : list date) : bool :=
  match l with [] => false | x :: t => existsb (Z.eqb x) t || has_duplicates t end.
(* [curve]: the fx_forward_curve_df columns date_type (no missing dates) and fx_forward_rate *)
Definition interp_fx_forward_curve (curve : list (date * option R)) (dates : list date) (flat : bool) : result (list (option R)) :=
  let all := union_dates dates (map fst curve) in
  let* _ := guard (negb (has_duplicates (map fst curve))) ValueError in
  let s := map (fun d => (d, value_at curve d)) all in
  Ok (map (fun d => match find (fun k => (fst k =? d)%Z) s with Some k => interpolate_cell s flat d (snd k) | None => None end) dates).
