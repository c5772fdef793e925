(* frm/pricing_engine/volatility_generic.py and the daily smile of frm/term_structures/fx_volatility_surface.py; exact reals *)
From Coq Require Import ZArith Reals List Bool.
From Verif Require Import Base Date DayCountModel NormalModel BlackModel BootModel.
Import ListNotations.
Open Scope R_scope.

(* a python float or a one dimensional array *)
Inductive arr : Type := Sc (x : R) | Ar (l : list R).
Definition vals (a : arr) : list R := match a with Sc x => [x] | Ar l => l end.
(* a[mask] for a boolean mask of the given length *)
Definition masked (a : arr) (n : nat) : result unit :=
  match a with Sc _ => Err TypeError (* a float is not subscriptable *) | Ar l => guard (Nat.eqb (length l) n) IndexError end.

(* (vol_t2 ** 2 * t2 - vol_t1 ** 2 * t1) / tau, L45 *)
Definition fwd_var (t1 v1 t2 v2 : R) : num := div (Fin (v2 ^ 2 * t2 - v1 ^ 2 * t1)) (Fin (t2 - t1)).
(* x < 0 *)
Definition is_neg (x : num) : bool := match x with Fin a => if Rlt_dec a 0 then true else false | NInf => true | _ => false end.

(* forward_volatility, L10-49 *)
Definition forward_volatility (t1 v1 t2 v2 : arr) : result (list num) :=
  match broadcast [length (vals t1); length (vals t2)] with
  | None => Err ValueError
  | Some n =>
      let tau := map (fun i => at_ (vals t2) i - at_ (vals t1) i) (seq 0 n) in
      let* _ := if existsb (fun x => if Req_EM_T x 0 then true else false) tau then (let* _ := masked t1 n in masked t2 n)
                else guard (negb (existsb (fun x => if Rlt_dec x 0 then true else false) tau)) ValueError in
      match broadcast [length (vals t1); length (vals v1); length (vals t2); length (vals v2)] with
      | None => Err ValueError
      | Some m =>
          let var := vec m (fun i => fwd_var (at_ (vals t1) i) (at_ (vals v1) i) (at_ (vals t2) i) (at_ (vals v2) i)) in
          let* _ := guard (negb (existsb is_neg var)) ValueError in
          Ok (map nsqrt var)
      end
  end.

(* flat_forward_interp, L52-77. Rows: the entries of t1, t2 and t, arrays of shape (n,) or (n, 1), with the entries of vol_t1 and vol_t2 in the same row.
   Python floats have no method flatten (L75): AttributeError. *)
Record ff_row : Type := mk_ff { f_t1 : R; f_t2 : R; f_t : R; f_vols : list (R * R) }.
Inductive ff_input : Type := FfFloats (t1 v1 t2 v2 t : R) | FfRows (rows : list ff_row).
Definition ff_live (r : ff_row) : bool := if Req_EM_T (f_t1 r) (f_t2 r) then false else true.
Definition ff_vol12 (r : ff_row) (p : R * R) : num := if ff_live r then nsqrt (fwd_var (f_t1 r) (fst p) (f_t2 r) (snd p)) else Fin 0.
Definition ff_elem (r : ff_row) (p : R * R) : num :=
  nsqrt (div (add (Fin (fst p ^ 2 * f_t1 r)) (mul (npow2 (ff_vol12 r p)) (Fin (f_t r - f_t1 r)))) (Fin (f_t r))).
Definition flat_forward_interp (a : ff_input) : result (list (list num)) :=
  match a with
  | FfFloats _ _ _ _ _ => Err AttributeError
  | FfRows rows =>
      (* forward_volatility of the rows with t1 != t2: no zero tau, then the two checks *)
      let live := filter ff_live rows in
      let* _ := guard (forallb (fun r => if Rlt_dec (f_t2 r - f_t1 r) 0 then false else true) live) ValueError in
      let* _ := guard (forallb (fun r => forallb (fun p => negb (is_neg (fwd_var (f_t1 r) (fst p) (f_t2 r) (snd p)))) (f_vols r)) live) ValueError in
      Ok (map (fun r => map (ff_elem r) (f_vols r)) rows)
  end.

(* ---- FXVolatilitySurface._setup_vol_smile_daily_df, fx_volatility_surface.py:133-178: expiry date, year fraction and volatilities of each day ---- *)
Record vol_pillar : Type := mk_pillar { v_expiry : date; v_vols : list R }.
(* merge_asof requires sorted keys *)
Fixpoint keys_sorted (l : list vol_pillar) : bool :=
  match l with
  | p :: ((q :: _) as r) => (v_expiry p <=? v_expiry q)%Z && keys_sorted r
  | _ => true
  end.
(* merge_asof, direction backward and forward *)
Definition lower_pillar (l : list (vol_pillar * R)) (d : date) : option (vol_pillar * R) := find (fun p => (v_expiry (fst p) <=? d)%Z) (rev l).
Definition upper_pillar (l : list (vol_pillar * R)) (d : date) : option (vol_pillar * R) := find (fun p => (d <=? v_expiry (fst p))%Z) l.
(* pd.date_range(min, max, freq='d') *)
Definition days_from (a b : date) : list date := map (fun i => (a + Z.of_nat i)%Z) (seq 0 (Z.to_nat (b - a + 1))).
Definition daily_vols (curve_date : date) (b : basis) (pillars : list vol_pillar) : result (list (date * R * list num)) :=
  match pillars with
  | [] => Err ValueError
  | p :: r =>
      let dates := days_from (fold_right Z.min (v_expiry p) (map v_expiry r)) (fold_right Z.max (v_expiry p) (map v_expiry r)) in
      let* ts := years_column [curve_date] dates b (length dates) in
      let* ps := years_column [curve_date] (map v_expiry pillars) b (length pillars) in
      let* _ := guard (keys_sorted pillars) ValueError in
      let table := combine pillars ps in
      let* rows := sequence (map (fun x =>
        match lower_pillar table (fst x), upper_pillar table (fst x) with
        | Some lo, Some up => Ok (mk_ff (snd lo) (snd up) (snd x) (combine (v_vols (fst lo)) (v_vols (fst up))))
        | _, _ => Err KeyError (* not reached: every day lies between the first and the last pillar *)
        end) (combine dates ts)) in
      let* vols := flat_forward_interp (FfRows rows) in
      Ok (combine (combine dates ts) vols)
  end.
