(* Model of CompoundingFreq, frm/enums/utils.py:235-312. *)
From Coq Require Import ZArith Reals.
From Verif Require Import Base NumModel.
Open Scope R_scope.

Inductive comp : Set := Simple | Continuous | CDaily | CWeekly | CMonthly | CQuarterly | CSemiannual | CAnnual.

(* periods_per_year, lines 246-257 *)
Definition periods_per_year (f : comp) : option R :=
  match f with
  | Simple | Continuous => None
  | CDaily => Some 365 | CWeekly => Some 52 | CMonthly => Some 12 | CQuarterly => Some 4 | CSemiannual => Some 2 | CAnnual => Some 1
  end.

(* lines 279-286; the raise at line 286 is unreachable for members of the enum *)
Definition zero_rate_from_df (f : comp) (years d : R) : option R :=
  match f with
  | Continuous => let? l := np_log d in np_div (- l) years
  | Simple => let? i := np_div 1 d in np_div (i - 1) years
  | _ =>
      let? n := periods_per_year f in
      let? i := np_div 1 d in
      let? e := np_div 1 (n * years) in
      let? p := np_pow i e in
      Some (n * (p - 1))
  end.

(* lines 288-295 *)
Definition df_from_zero_rate (f : comp) (years r : R) : option R :=
  match f with
  | Continuous => Some (exp (- r * years))
  | Simple => np_div 1 (1 + r * years)
  | _ =>
      let? n := periods_per_year f in
      let? p := np_pow (1 + r / n) (n * years) in
      np_div 1 p
  end.

(* lines 297-312 *)
Definition to_continuous (f : comp) (r : R) : option R :=
  match f with
  | Continuous => Some r
  | Simple => np_log1p r
  | _ => let? n := periods_per_year f in let? l := np_log1p (r / n) in Some (n * l)
  end.
Definition from_continuous (f : comp) (c : R) : option R :=
  match f with
  | Continuous => Some c
  | Simple => Some (np_expm1 c)
  | _ => let? n := periods_per_year f in Some (n * np_expm1 (c / n))
  end.
Definition convert_rate_to (f : comp) (r : R) (target : comp) : option R :=
  let? c := to_continuous f r in from_continuous target c.
