(* frm/pricing_engine/sabr.py; exact reals extended with infinities and NaN *)
From Coq Require Import Reals List Bool.
From Verif Require Import Base NormalModel BlackModel.
Import ListNotations.
Open Scope R_scope.

(* x ** y of numpy floats, finite arguments *)
Definition is_integer (y : R) : bool := if Req_EM_T y (IZR (Int_part y)) then true else false.
Definition npow (x y : R) : num :=
  if Req_EM_T y 0 then Fin 1
  else if Rlt_dec 0 x then Fin (Rpower x y)
  else if Req_EM_T x 0 then (if Rlt_dec 0 y then Fin 0 else PInf)
  else if is_integer y then Fin (powerRZ x (Int_part y)) else NaN.

(* L87 *)
Definition sabr_atm_tol : R := / 1000000.

(* the bracket {1 + [...] tau} of (2.17a) and (2.18): L95-99 and L117-121; L96 multiplies before dividing and L118 after, which changes nothing here *)
Definition sabr_bracket (tau F alpha beta rho v K : R) : num :=
  let half := npow (F * K) ((1 - beta) / 2) in
  add (Fin 1)
      (mul (add (add (mul (Fin ((1 - beta) ^ 2 / 24)) (div (Fin (alpha ^ 2)) (npow (F * K) (1 - beta))))
                     (div (Fin (1 / 4 * rho * beta * v * alpha)) half))
                (Fin ((2 - 3 * rho ^ 2) * v ^ 2 / 24)))
           (Fin tau)).

(* x(z), L105-107 *)
Definition sabr_x (rho : R) (z : num) : num :=
  nlog (div (sub (add (nsqrt (add (sub (Fin 1) (mul (Fin (2 * rho)) z)) (mul z z))) z) (Fin rho)) (Fin (1 - rho))).

(* one element of the volatilities, L87-123; F and K already shifted *)
Definition sabr_elem (tau F alpha beta rho v K : R) : num :=
  let half := npow (F * K) ((1 - beta) / 2) in
  let l := nlog (div (Fin F) (Fin K)) in
  let bracket := sabr_bracket tau F alpha beta rho v K in
  if abs_below sabr_atm_tol l then mul (div (Fin alpha) half) bracket
  else
    let z := mul (mul (div (Fin v) (Fin alpha)) half) l in
    let row1 := div (mul (Fin alpha) (div z (sabr_x rho z)))
                    (mul half (add (add (Fin 1) (mul (Fin ((1 - beta) ^ 2 / 24)) (npow2 l)))
                                   (mul (Fin ((1 - beta) ^ 4 / 1920)) (npow2 (npow2 l))))) in
    mul row1 bracket.

Record smile : Type := mk_smile { s_tau : list R; s_F : list R; s_alpha : list R; s_beta : list R; s_rho : list R; s_volvol : list R }.
Definition smile_lengths (s : smile) : list nat :=
  [length (s_tau s); length (s_F s); length (s_alpha s); length (s_beta s); length (s_rho s); length (s_volvol s)].

(* calc_sln_vol_for_strike_from_sabr_params, L13-128: one dimensional arrays, scalars are arrays of length one, as is a result of one element.
   An array of shifts with other than one element fails the assertion of L75. *)
Definition calc_sln_vol (s : smile) (K : list R) (shift : list R) : result (list num) :=
  let n := length (s_tau s) in
  let* _ := guard (forallb (Nat.eqb n) (smile_lengths s)) AssertionError in
  let* _ := guard (Nat.leb (length K) 1 || Nat.eqb n (length K) || Nat.eqb n 1) AssertionError in
  match shift with
  | [h] =>
      match broadcast [n; length K] with
      | None => Err ValueError
      | Some m =>
          Ok (vec m (fun i => sabr_elem (at_ (s_tau s) i) (at_ (s_F s) i + h) (at_ (s_alpha s) i) (at_ (s_beta s) i) (at_ (s_rho s) i)
                                        (at_ (s_volvol s) i) (at_ K i + h)))
      end
  | _ => Err AssertionError
  end.
Definition smile1 (tau F alpha beta rho v : R) : smile := mk_smile [tau] [F] [alpha] [beta] [rho] [v].

(* ---- solve_alpha_from_sln_vol, L131-186, for a positive shifted forward ---- *)
(* the roots of a x^3 + b x^2 + c x + d as real and imaginary parts; np.roots is external *)
Definition solver := R -> R -> R -> R -> list (R * R).
Definition real_roots (l : list (R * R)) : list R := map fst (filter (fun c => if Req_EM_T (snd c) 0 then true else false) l).
(* np.argmin(np.abs(roots - guess)): the first of the closest; ValueError on an empty array *)
Fixpoint closest (g : R) (best : R) (l : list R) : R :=
  match l with
  | [] => best
  | x :: r => closest g (if Rlt_dec (Rabs (x - g)) (Rabs (best - g)) then x else best) r
  end.
Definition pick (g : R) (l : list R) : result R := match l with [] => Err ValueError | x :: r => Ok (closest g x r) end.

Definition cubic_a (tau F beta : R) : R := 1 / 24 * (1 - beta) ^ 2 * tau / Rpower F (2 - 2 * beta).
Definition cubic_b (tau F beta rho v : R) : R := 1 / 4 * rho * beta * v * tau / Rpower F (1 - beta).
Definition cubic_c (tau rho v : R) : R := 1 + (2 - 3 * rho ^ 2) * v ^ 2 * tau / 24.
Definition solve_alpha (roots : solver) (tau F0 beta rho v vol shift : R) : result R :=
  let F := F0 + shift in
  let l := roots (cubic_a tau F beta) (cubic_b tau F beta rho v) (cubic_c tau rho v) (- vol * Rpower F (1 - beta)) in
  pick (vol * Rpower F (1 - beta)) (real_roots l).

(* ---- fit_sabr_params_to_sln_smile, L189-257 ---- *)
(* scipy's minimize is external: it evaluates the objective at parameter vectors of its choice and ends with res.success and res.x *)
Inductive fit_search : Type :=
| FitEnd (success : bool) (x : list R)
| FitProbe (x : list R) (k : num -> fit_search).
(* np.isclose(K, F), default tolerances *)
Definition isclose (k f : R) : bool := if Rle_dec (Rabs (k - f)) (/ 100000000 + / 100000 * Rabs f) then true else false.
(* unpacking of the parameters, L226-230 and L252 *)
Definition unpack (beta_override : option R) (x : list R) : result (R * R * R) :=
  match beta_override, x with
  | None, [b; r; v] => Ok (b, r, v)
  | Some b, [r; v] => Ok (b, r, v)
  | _, _ => Err ValueError
  end.
Fixpoint fit_run (f : list R -> result num) (s : fit_search) : result (list R) :=
  match s with
  | FitEnd true x => Ok x
  | FitEnd false _ => Err ValueError (* L257 *)
  | FitProbe x k => let* y := f x in fit_run f (k y)
  end.
(* F + ln_shift with ln_shift = None *)
Definition need_shift (shift : option R) : result R := match shift with Some h => Ok h | None => Err TypeError end.
(* vol_sse, L225-234 *)
Definition vol_sse (roots : solver) (tau F : R) (K vols : list R) (shift beta_override : option R) (vol_atm : R) (x : list R) : result num :=
  let* p := unpack beta_override x in
  let '(b, r, v) := p in
  let* h := need_shift shift in
  let* a := solve_alpha roots tau F b r v vol_atm h in
  let* s := calc_sln_vol (smile1 tau F a b r v) K [h] in
  Ok (nsum (map (fun p => npow2 (sub (Fin (fst p)) (snd p))) (combine vols s))).
Definition fit_sabr (roots : solver) (tau F : R) (K vols : list R) (shift beta_override : option R) (opt : fit_search) : result (R * R * R * R) :=
  let* _ := guard (Nat.eqb (length K) (length vols)) IndexError in
  match map snd (filter (fun p => isclose (fst p) F) (combine K vols)) with
  | [vol_atm] =>
      let* x := fit_run (vol_sse roots tau F K vols shift beta_override vol_atm) opt in
      let* p := unpack beta_override x in
      let '(b, r, v) := p in
      let* h := need_shift shift in
      let* a := solve_alpha roots tau F b r v vol_atm h in
      Ok (a, b, r, v)
  | _ => Err ValueError
  end.
