(* What users rely on for caps, floors and optionlets, stated with the prices of single options. *)
From Coq Require Import ZArith Reals List Bool Sorted.
From Verif Require Import Base NormalModel BlackModel BlackSpec SabrModel SabrSpec OptionletModel.
Import ListNotations.
Open Scope R_scope.

(* sorted termination dates, and periods in order *)
Definition ascending (l : list Z) : Prop := forall (i j : nat) (a b : Z), (i <= j)%nat -> nth_error l i = Some a -> nth_error l j = Some b -> (a <= b)%Z.
(* the periods of a cap: those that end by its termination date *)
Definition covered (rows : list caplet) (term : Z) : list caplet := filter (fun c => (c_end c <=? term)%Z) rows.
Definition sum_over {A} (f : A -> R) (l : list A) : R := fold_right (fun x s => f x + s) 0 l.
(* total annuity of a cap *)
Definition annuity (rows : list caplet) : R := sum_over c_ann rows.
(* value of a cap (cp = 1) or floor (cp = -1) whose optionlets have the lognormal volatilities vol: the sum of the optionlet values, when all are finite *)
Definition capfloor_value (shift cp K : R) (vol : caplet -> R) (rows : list caplet) (x : R) : Prop :=
  exists ps, Forall2 (fun c p => price76 (c_F c) (c_tau c) cp K (vol c) shift (c_ann c) = Fin p) rows ps /\ x = sum_over (fun p => p) ps.
(* the same with normal volatilities *)
Definition capfloor_value_n (cp K : R) (vol : caplet -> R) (rows : list caplet) (x : R) : Prop :=
  exists ps, Forall2 (fun c p => price_n (c_F c) (c_tau c) cp K (vol c) (c_ann c) = Fin p) rows ps /\ x = sum_over (fun p => p) ps.
(* options with a value: positive shifted forwards and expiries *)
Definition alive (shift : R) (rows : list caplet) : Prop := Forall (fun c => 0 < c_F c + shift /\ 0 < c_tau c) rows.

(* the straight line through two points *)
Definition on_line (X0 Y0 X1 Y1 x y : R) : Prop := (y - Y0) * (X1 - X0) = (Y1 - Y0) * (x - X0).

(* the last row whose quote number satisfies p *)
Definition last_row (p : nat -> bool) (t : list entry) (e : entry) : Prop :=
  exists i, nth_error t i = Some e /\ p (e_nb e) = true /\ forall (j : nat) (f : entry), (i < j)%nat -> nth_error t j = Some f -> p (e_nb f) = false.
Definition before (q : nat) : nat -> bool := fun n => Nat.ltb n q.
Definition within (q : nat) : nat -> bool := fun n => Nat.eqb n q.
Definition rows_of (p : nat -> bool) (t : list entry) : list entry := filter (fun e => p (e_nb e)) t.
(* value of the optionlet of a row, with the volatility of its SABR smile at the strike *)
Definition sabr_value (shift cp K : R) (e : entry) (x : R) : Prop :=
  exists a b r v vol, e_sabr e = Some (a, b, r, v) /\ 0 < vol /\ sabr_vol_is (c_tau (e_row e)) (c_F (e_row e)) a b r v K shift vol /\
    price76 (c_F (e_row e)) (c_tau (e_row e)) cp K vol shift (c_ann (e_row e)) = Fin x.
Definition sabr_total (shift cp K : R) (l : list entry) (x : R) : Prop := exists ps, Forall2 (sabr_value shift cp K) l ps /\ x = sum_over (fun p => p) ps.
(* rows that have been solved *)
Definition solved (e : entry) : Prop := (exists m, e_atm e = Some m) /\ exists s, e_sabr e = Some s.
(* numbers of the quotes in ascending order down the table *)
Definition ordered (t : list entry) : Prop := forall (i j : nat) (a b : entry), (i <= j)%nat -> nth_error t i = Some a -> nth_error t j = Some b -> (e_nb a <= e_nb b)%nat.
Definition upto (q : nat) : nat -> bool := fun n => Nat.leb n q.
(* every answer of a search satisfies P *)
Fixpoint answers (P : list R -> Prop) (s : fit_search) : Prop := match s with FitEnd _ x => P x | FitProbe _ k => forall y, answers P (k y) end.
Definition in_bounds (bs : list (R * option R)) (x : list R) : Prop :=
  Forall2 (fun b v => fst b <= v /\ match snd b with Some h => v <= h | None => True end) bs x.
(* mean of the squared relative errors of prices C for targets T *)
Definition mean_square (T C : list R) : R := sum_over (fun z => ((fst z - snd z) / fst z) ^ 2 / INR (length T)) (combine T C).
(* beta, rho and volvol of a row, within limits *)
Definition parameters_in (blo bhi : R) (e : entry) : Prop :=
  forall a b r v, e_sabr e = Some (a, b, r, v) -> blo <= b <= bhi /\ -1 <= r <= 1 /\ 1 / 10000 <= v.
(* the beta of a quote, given or fitted, within limits *)
Definition beta_in (blo bhi : R) (beta : option R) : Prop := match beta with Some b => blo <= b <= bhi | None => blo <= -1 /\ 1 <= bhi end.
(* same periods, numbers and order *)
Definition same_rows (e e' : entry) : Prop := e_row e' = e_row e /\ e_nb e' = e_nb e.

(* ---- the term structure at a date ---- *)
Definition start (e : entry) : R := IZR (c_start (e_row e)).
(* the periods start one after another *)
Definition by_start (t : list entry) : Prop := StronglySorted (fun a b => start a < start b) t.
(* a column at a date: the stored value at the start of a row, on the line between neighbouring rows, the last value later *)
Definition reads (f : entry -> option R) (t : list entry) (s y : R) : Prop :=
  (exists e, In e t /\ start e = s /\ f e = Some y) \/
  (exists i e e' y0 y1, nth_error t i = Some e /\ nth_error t (S i) = Some e' /\ start e < s < start e' /\ f e = Some y0 /\ f e' = Some y1 /\ on_line (start e) y0 (start e') y1 s y) \/
  (exists e, nth_error t (length t - 1) = Some e /\ start e < s /\ f e = Some y).

(* ---- prices of optionlets ---- *)
(* a row reports what black76_price reports for its option alone *)
Definition valued76 (shift : R) (l : leg) (K cp v : R) (d : detail) : Prop :=
  let A := l_yf l * l_df l in
  g_K d = K /\ g_cp d = cp /\ g_vol d = Fin v /\ g_ann d = A /\
  g_price d = price76 (l_F l) (l_tau l) cp K v shift A /\ g_delta d = delta76 (l_F l) (l_tau l) cp K v shift A /\ g_vega d = vega76 (l_F l) (l_tau l) cp K v shift A /\
  split76 (l_F l) (l_tau l) cp K v shift A = Some (g_intrinsic d, g_time d) /\ g_forward_price d = div (g_price d) (Fin A).
Definition valued_n (l : leg) (K cp v : R) (d : detail) : Prop :=
  let A := l_yf l * l_df l in
  g_K d = K /\ g_cp d = cp /\ g_vol d = Fin v /\ g_ann d = A /\
  g_price d = price_n (l_F l) (l_tau l) cp K v A /\ g_delta d = delta_n (l_F l) (l_tau l) cp K v A /\ g_vega d = vega_n (l_F l) (l_tau l) cp K v A /\
  split_n (l_F l) (l_tau l) cp K v A = Some (g_intrinsic d, g_time d) /\ g_forward_price d = div (g_price d) (Fin A).
(* strikes and types that are accepted for a schedule of n periods *)
Definition accepted (K : strike_arg) (cp : type_arg) (n : nat) : Prop :=
  (exists k c, K = StrikeNumber k /\ cp = TypeInt c /\ (c = 1 \/ c = -1)%Z) \/
  (exists ks cs, K = StrikeArray ks /\ cp = TypeArray cs /\ length ks = n /\ length cs = n /\ Forall call_or_put cs).
