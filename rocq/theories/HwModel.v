(* frm/pricing_engine/hw1f.py, and the moment functions at the top of hw1f2.py. Finite arithmetic is exact.
   The zero curve enters through its discount factors df and instantaneous forward rates fwd, as functions of years. *)
From Coq Require Import ZArith Reals String List Bool.
From Verif Require Import Base NormalModel BlackModel MonteModel.
Import ListNotations.
Open Scope R_scope.

Definition ltb (x y : R) : bool := if Rlt_dec x y then true else false.
Definition leb (x y : R) : bool := if Rle_dec x y then true else false.
Definition eqb (x y : R) : bool := if Req_EM_T x y then true else false.

(* ---- HullWhite1Factor.__post_init__, hw1f.py:38-46 ---- *)
(* spline: the interpolation method is one of the two cubic splines; pillars: the columns years and cczr of pillar_df, not empty;
   get_zero_rates of a scalar returns a float, zero_curve.py:318, which cannot be indexed *)
Definition hw_init (spline : bool) (pillars : list (R * R)) : result R :=
  let* _ := guard spline AssertionError in
  match pillars with
  | [] => Err IndexError
  | (y0, c0) :: rest => if eqb (fold_right Rmin y0 (map fst rest)) 0 then Ok c0 else Err TypeError
  end.

(* ---- calc_b, L417-437 ---- *)
Definition calc_b (alpha t1 t2 : R) : R := if Rlt_dec alpha (1 / 100000000) then t2 - t1 else 1 / alpha * (1 - exp (- alpha * (t2 - t1))).

(* ---- get_thetas, L120-145, at one point; the forward rates computed before the branch `if True` are not used ---- *)
Definition get_theta (r0 alpha sigma t : R) : result R :=
  let* _ := guard (negb (eqb (2 * alpha) 0)) ZeroDivisionError in
  Ok (alpha * r0 + sigma ^ 2 / (2 * alpha) * (1 - exp (-2 * alpha * t))).

(* scipy.integrate.quad(f, a, b)[0] *)
Definition integrator := (R -> R) -> R -> R -> R.

(* r_t1 of the two discount factor functions, L475-480 and L524-529 *)
Definition short_rate (r0 t1 : R) (r : option R) : result R :=
  if eqb t1 0 then Ok r0 else match r with Some r => Ok r | None => Err AssertionError end.

(* ---- calc_discount_factor_by_solving_ode_1, L440-486; theta is the spline, absent before setup_theta ---- *)
Definition ode_1 (quad : integrator) (theta : option (R -> R)) (r0 alpha sigma t1 t2 : R) (r : option R) : result R :=
  let* _ := guard (ltb t1 t2) AssertionError in
  let* rt := short_rate r0 t1 r in
  let b := calc_b alpha t1 t2 in
  match theta with
  | None => Err AttributeError
  | Some theta =>
      let a := 1 / 2 * sigma ^ 2 * quad (fun t => calc_b alpha t t2 ^ 2) t1 t2 - quad (fun t => theta t * calc_b alpha t t2) t1 t2 in
      Ok (exp (a - rt * b))
  end.

(* ---- calc_discount_factor_by_solving_ode_2, L489-534 ---- *)
Definition ode_2 (df fwd : R -> R) (r0 alpha sigma t1 t2 : R) (r : option R) : result R :=
  let* _ := guard (ltb t1 t2) AssertionError in
  let* rt := short_rate r0 t1 r in
  let b := calc_b alpha t1 t2 in
  let* _ := guard (negb (eqb (df t1) 0)) ZeroDivisionError in
  let* _ := guard (negb (eqb (4 * alpha) 0)) ZeroDivisionError in
  let a := df t2 / df t1 * exp (b * fwd t1 - sigma ^ 2 / (4 * alpha) * (1 - exp (-2 * alpha * t1)) * b ^ 2) in
  Ok (a * exp (- b * rt)).

(* ---- price_zero_coupon_bond_option, L307-373; arguments are floats or arrays, non-empty after np.atleast_1d ---- *)
(* sigma_P, L352 *)
Definition bond_vol (alpha sigma T S : R) : num :=
  mul (mul (Fin sigma) (nsqrt (div (Fin (1 - exp (-2 * alpha * T))) (Fin (2 * alpha))))) (Fin (calc_b alpha T S)).
Definition nonpos (x : num) : bool := match x with Fin a => leb a 0 | NInf => true | _ => false end.
Definition zcbo_elem (df : R -> R) (alpha sigma T S K cp : R) : num :=
  let PT := df T in let PS := df S in
  let v := bond_vol alpha sigma T S in
  if ltb S T then Fin 0
  else if nonpos v then
    (* np.maximum(cp * (F - K), 0.0) *)
    positive_part (mul (Fin cp) (sub (div (Fin PS) (Fin PT)) (Fin K)))
  else
    let h := add (mul (div (Fin 1) v) (nlog (div (Fin PS) (Fin (K * PT))))) (mul (Fin (1 / 2)) v) in
    mul (Fin cp) (sub (mul (Fin PS) (ncdf (mul (Fin cp) h))) (mul (Fin (K * PT)) (ncdf (mul (Fin cp) (sub h v))))).
Definition zcbo (df : R -> R) (alpha sigma : R) (T S K cp : list R) (t0 : R) : result (list num) :=
  let lens := [List.length T; List.length S; List.length K; List.length cp] in
  let n := fold_right Nat.max O lens in
  let* _ := guard (forallb (fun m => Nat.eqb m 1 || Nat.eqb m n) lens) AssertionError in
  let* _ := guard (eqb t0 0) ValueError in
  (* the masks have the common length of T and S, L354-371 *)
  let* _ := guard (Nat.eqb (Nat.max (List.length T) (List.length S)) n) IndexError in
  Ok (map (fun i => zcbo_elem df alpha sigma (at_ T i) (at_ S i) (at_ K i) (at_ cp i)) (seq 0 n)).

(* ---- calls by keyword: a name that is not a parameter is a TypeError ---- *)
Open Scope string_scope.
Definition zcbo_parameters : list string := ["option_expiry"; "bond_maturity"; "K"; "cp"; "t0"].
Definition accepts (parameters names : list string) : bool := forallb (fun n => existsb (String.eqb n) parameters) names.
(* the keywords used at L408-411, L707-711 and L716-720 *)
Definition used_keywords : list string := ["expiry_years"; "maturity_years"; "K"; "cp"].
Open Scope R_scope.

(* ---- price_optionlet, L376-413, for floats ---- *)
Definition price_optionlet (df : R -> R) (alpha sigma t1 t2 K cp : R) : result (list num) :=
  let* _ := guard (negb (eqb (1 + K * (t2 - t1)) 0)) ZeroDivisionError in
  let K' := 1 / (1 + K * (t2 - t1)) in
  let* _ := guard (accepts zcbo_parameters used_keywords) TypeError in
  let* px := zcbo df alpha sigma [t1] [t2] [K'] [-1 * cp] 0 in
  Ok (map (fun x => div x (Fin K')) px).

(* ---- jamshidian_decomposition, L578-652; P t2 r is calc_discount_factor_by_solving_ode_1(swaption_expiry, t2, r) ---- *)
Definition root_finder := (R -> result R) -> R -> R -> result R.
Definition zero_function (P : R -> R -> result R) (times fractions : list R) (notional_time rate r : R) : result R :=
  let* terminal := P notional_time r in
  let* coupons := sequence (map (fun tf => let* p := P (fst tf) r in Ok (rate * snd tf * p)) (combine times fractions)) in
  Ok (terminal + fold_right Rplus 0 coupons - 1).
Fixpoint increasing (l : list R) : bool :=
  match l with [] => true | x :: t => match t with [] => true | y :: _ => ltb x y && increasing t end end.
Definition jamshidian (brentq : root_finder) (P : R -> R -> result R) (times fractions : list R) (notional_time rate : R) : result (list R) :=
  let* _ := guard (Nat.eqb (List.length times) (List.length fractions)) ValueError in
  let* _ := guard (increasing times) ValueError in
  (* coupon_payment_times[-2] *)
  let* _ := guard (Nat.leb 2 (List.length times)) IndexError in
  let* _ := guard (negb (ltb notional_time (nth (List.length times - 2) times 0))) ValueError in
  let* r := brentq (zero_function P times fractions notional_time rate) (-1) 1 in
  let* strikes := sequence (map (fun t => P t r) times) in
  if eqb notional_time (last times 0) then Ok strikes
  else let* k := P notional_time r in Ok (strikes ++ [k])%list.

(* ---- price_swaption, L655-735 ---- *)
Definition price_swaption (brentq : root_finder) (P : R -> R -> result R) (df : R -> R) (alpha sigma expiry : R) (times fractions : list R) (notional_time rate : R) (payer : bool) (notional : R) : result (list num) :=
  let* strikes := jamshidian brentq P times fractions notional_time rate in
  let cp := if payer then -1 else 1 in
  (* the first call is a TypeError: either for a coupon or for the notional payment *)
  let* _ := guard (accepts zcbo_parameters used_keywords) TypeError in
  let* x := zcbo df alpha sigma [expiry] [notional_time] [last strikes 0] [cp] 0 in
  let* c := sequence (map (fun tk => zcbo df alpha sigma [expiry] [fst tk] [snd tk] [cp] 0) (combine times (removelast strikes))) in
  let c := List.concat c in
  let* _ := guard (Nat.eqb (List.length c) (List.length fractions) || Nat.eqb (List.length c) 1 || Nat.eqb (List.length fractions) 1) ValueError in
  let n := Nat.max (List.length c) (List.length fractions) in
  let coupon := nsum (map (fun i => mul (Fin (at_ fractions i)) (nth (if Nat.eqb (List.length c) 1 then O else i) c NaN)) (seq 0 n)) in
  Ok (map (fun v => mul (Fin notional) (add (mul (Fin rate) coupon) v)) x).

(* ---- simulate, L153-304, for tau >= 0 ---- *)
(* np.interp(s, years_grid, thetas) on the grid i * h, i <= n *)
Fixpoint interp_from (h : R) (y : nat -> R) (i k : nat) (s : R) : R :=
  match k with
  | O => y i
  | S k => if Rlt_dec s (INR (S i) * h) then y i + (y (S i) - y i) / h * (s - INR i * h) else interp_from h y (S i) k s
  end.
Definition interp_grid (h : R) (y : nat -> R) (n : nat) (s : R) : R := if Rle_dec s 0 then y O else interp_from h y 0 n s.
Inductive scheme : Type := Euler | Rk4 | Exact | Other.
Definition scheme_of (m : string) : scheme :=
  (if String.eqb m "euler" then Euler else if String.eqb m "rk4" then Rk4 else if String.eqb m "exact" then Exact else Other)%string.
Section Path.
Variables (quad : integrator) (alpha sigma r0 h : R) (theta : nat -> R) (n : nat) (z : nat -> R).
(* the rate after step i of one simulation, L219-266 *)
Definition step (m : scheme) (i : nat) (x : R) : R :=
  match m with
  | Euler => x + (theta i - alpha * x) * h + sigma * sqrt h * z i
  | Rk4 =>
      let k1 := h * (theta i - alpha * x) in
      let k2 := h * (theta i - alpha * (x + 1 / 2 * k1)) in
      let k3 := h * (theta i - alpha * (x + 1 / 2 * k2)) in
      let k4 := h * (theta i - alpha * (x + k3)) in
      x + (k1 + 2 * k2 + 2 * k3 + k4) / 6 + sigma * sqrt h * z i
  | Exact =>
      let t0 := INR i * h in let t1 := INR (S i) * h in
      x * exp (- alpha * h) + quad (fun s => interp_grid h theta n s * exp (- alpha * (t1 - s))) t0 t1
      + sqrt (sigma ^ 2 / (2 * alpha) * (1 - exp (-2 * alpha * h))) * z i
  | Other => 0
  end.
Fixpoint rate_path (m : scheme) (i : nat) : R := match i with O => r0 | S i => step m i (rate_path m i) end.
(* scipy.integrate.simpson of two points is the trapezoid, L275-285 *)
Fixpoint rate_integral (m : scheme) (i : nat) : R :=
  match i with O => 0 | S i => rate_integral m i + 1 / 2 * h * (rate_path m i + rate_path m (S i)) end.
End Path.

Record simulation : Type := mk_sim {
  s_steps : nat; s_sims : nat; s_time : nat -> R;
  s_rate : nat -> nat -> R; s_discount : nat -> nat -> R;
  (* None is NaN: 0 / 0 *)
  s_zero_rate : nat -> nat -> option R;
  s_avg_discount : nat -> R; s_avg_zero_rate : nat -> option R }.
Definition zero_rate_of (t d : R) : option R := if Req_EM_T t 0 then None else Some (-1 * ln d / t).
Definition hw_simulate (normal : normals) (quad : integrator) (r0 alpha sigma tau : R) (steps sims : Z) (antithetic : bool) (seed : Z) (method : string) : result simulation :=
  let* z := generate_rand_nbs normal steps 1 sims antithetic seed in
  let n := Z.to_nat steps in let s := Z.to_nat sims in
  let h := tau / IZR steps in
  let* _ := guard (negb (eqb (2 * alpha) 0)) ZeroDivisionError in
  let theta i := alpha * r0 + sigma ^ 2 / (2 * alpha) * (1 - exp (-2 * alpha * (INR i * h))) in
  let m := scheme_of method in
  (* a row of random numbers meets a row of nb_simulations rates *)
  let* _ := guard (match m with Other => true | _ => Nat.eqb (d2 z) s || Nat.eqb (d2 z) 1 end) ValueError in
  let draw j i := el z i 0%nat (if Nat.eqb (d2 z) 1 then O else j) in
  let rate i j := rate_path quad alpha sigma r0 h theta n (draw j) m i in
  let disc i j := exp (- rate_integral quad alpha sigma r0 h theta n (draw j) m i) in
  let avg i := sum_to s (disc i) / INR s in
  Ok (mk_sim n s (fun i => INR i * h) rate disc (fun i j => zero_rate_of (INR i * h) (disc i j)) avg (fun i => zero_rate_of (INR i * h) (avg i))).

(* ---- hw1f2.py:65-103, scalar mean reversion k and volatility on the grid t ---- *)
Definition y_integral (t0 t vol k : R) : R := vol * vol / (2 * k) * (exp (2 * k * t) - exp (2 * k * t0)).
Definition y_t (t vol k : R) : R := exp (-2 * k * t) * y_integral 0 t vol k.
Definition ex_integral (t0 t vol k y_t0 : R) : R :=
  (exp (k * t) - exp (k * t0) + exp (2 * k * t0) * (exp (- k * t) - exp (- k * t0))) * vol ^ 2 / (2 * k * k) + y_t0 * (exp (- k * t0) - exp (- k * t)) / k.
Definition variance_int (t0 t vol k : R) : R := vol * vol / (2 * k) * (exp (2 * k * t) - exp (2 * k * t0)).
Definition conditional_mean (k vol : R) (t : nat -> R) (i : nat) : R := (ex_integral 0 (t (S i)) vol k 0 - ex_integral 0 (t i) vol k 0) * exp (- k * t (S i)).
Definition conditional_variance (k vol : R) (t : nat -> R) (i : nat) : R := (variance_int 0 (t (S i)) vol k - variance_int 0 (t i) vol k) * exp (-2 * k * t (S i)).
(* current_x after step i of one path, L140-150 *)
Fixpoint x_path (k vol : R) (t : nat -> R) (z : nat -> R) (i : nat) : R :=
  match i with
  | O => 0
  | S i => exp (- k * (t (S i) - t i)) * x_path k vol t z i + conditional_mean k vol t i + sqrt (Rmax (conditional_variance k vol t i) 0) * z i
  end.
(* p_t_tau, L163-178 *)
Definition bond_from_state (df : R -> R) (k vol t tau x : R) : R :=
  let g := (1 - exp (- k * tau)) / k in
  df (t + tau) / df t * exp (- (x * g) - 1 / 2 * (y_t t vol k * g ^ 2)).
