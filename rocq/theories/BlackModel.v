(* frm/pricing_engine/black76_bachelier.py. Inputs are one dimensional, non-empty arrays of finite numbers; a scalar is an array of
   length one (np.atleast_1d). Finite arithmetic is exact. *)
From Coq Require Import Reals List Bool.
From Verif Require Import Base NormalModel.
Import ListNotations.
Open Scope R_scope.

Record b76 : Type := mk_b76 {
  b_F : list R; b_tau : list R; b_cp : list R; b_K : list R; b_vol : list R; b_shift : list R; b_annuity : list R }.

(* what a call to black76_price or bachelier_price returns *)
Record priced : Type := mk_priced {
  p_price : list num;
  p_split : option (list num * list num); (* results['intrinsic'], results['time'] *)
  p_analytical : option (list (list num)); (* columns of results['analytical_greeks'] *)
  p_numerical : option (list (list num)) (* columns of results['numerical_greeks'] *) }.

(* ---- elementwise formulas, black76_bachelier.py:79-85; F and K are already shifted ---- *)
Definition b76_d1 (F K vol tau : num) : num :=
  div (add (nlog (div F K)) (mul (mul (Fin (1 / 2)) (mul vol vol)) tau)) (mul vol (nsqrt tau)).
Definition b76_d2 (F K vol tau : num) : num := sub (b76_d1 F K vol tau) (mul vol (nsqrt tau)).
Definition b76_elem (F tau cp K vol annuity : num) : num :=
  mul (mul annuity cp)
      (sub (mul F (ncdf (mul cp (b76_d1 F K vol tau)))) (mul K (ncdf (mul cp (b76_d2 F K vol tau))))).
(* L100 *)
Definition b76_delta_elem (F tau cp K vol annuity : num) : num := mul (mul cp (ncdf (mul cp (b76_d1 F K vol tau)))) annuity.
(* L102-104 *)
Definition b76_vega_elem (F tau K vol annuity : num) : num :=
  mul (mul (Fin (1 / 100)) (mul (mul F (nsqrt tau)) (npdf (b76_d1 F K vol tau)))) annuity.
(* L92: np.maximum(0, cp * (F - K)) *)
Definition intrinsic_elem (F cp K : num) : num := positive_part (mul cp (sub F K)).

(* intrinsic[tau>0] = ...[tau>0]; intrinsic[tau==0] = X[tau==0]; elsewhere NaN, L90-95 and L256-261.
   A boolean mask must have the length of the array it indexes. *)
Definition split_values (tau : list R) (payoff price : list num) : result (list num * list num) :=
  let* _ := guard (Nat.eqb (length tau) (length payoff)) IndexError in
  let* _ := guard (Nat.eqb (length tau) (length price)) IndexError in
  let intrinsic := map (fun q : R * (num * num) => let '(t, (x, p)) := q in
                          if is_pos (Fin t) then x else if is_zero (Fin t) then p else NaN)
                       (combine tau (combine payoff price)) in
  Ok (intrinsic, map (fun q => sub (fst q) (snd q)) (combine price intrinsic)).

(* df[name] = values on a frame that already has n rows *)
Definition column (n : nat) (values : list num) : result (list num) := let* _ := guard (Nat.eqb (length values) n) ValueError in Ok values.

Definition size (lens : list nat) : nat := match broadcast lens with Some n => n | None => 0%nat end.
Definition vec (n : nat) (f : nat -> num) : list num := map f (seq 0 n).
(* elementwise sum of two arrays *)
Definition badd (a b : list R) : list R := map (fun i => at_ a i + at_ b i) (seq 0 (size [length a; length b])).
Definition bscale (k : R) (a : list R) : list R := map (fun x => k * x) a.

(* black76_price without numerical greeks, black76_bachelier.py:68-104 *)
Definition black76_core (a : b76) (split analytical : bool) : result priced :=
  let lens := [length (b_F a); length (b_tau a); length (b_cp a); length (b_K a); length (b_vol a); length (b_shift a); length (b_annuity a)] in
  let* _ := guard (Nat.eqb (length (b_F a)) (length (b_tau a))) AssertionError in
  let* _ := guard (shapes_ok lens) AssertionError in
  let F i := Fin (at_ (b_F a) i + at_ (b_shift a) i) in
  let K i := Fin (at_ (b_K a) i + at_ (b_shift a) i) in
  let tau i := Fin (at_ (b_tau a) i) in
  let cp i := Fin (at_ (b_cp a) i) in
  let vol i := Fin (at_ (b_vol a) i) in
  let ann i := Fin (at_ (b_annuity a) i) in
  let n := size lens in
  let X := vec n (fun i => b76_elem (F i) (tau i) (cp i) (K i) (vol i) (ann i)) in
  let* sp := if split then
               let payoff := vec (size [length (b_cp a); length (b_F a); length (b_K a); length (b_shift a)])
                                 (fun i => intrinsic_elem (F i) (cp i) (K i)) in
               let* s := split_values (b_tau a) payoff X in Ok (Some s)
             else Ok None in
  let* an := if analytical then
               let delta := vec n (fun i => b76_delta_elem (F i) (tau i) (cp i) (K i) (vol i) (ann i)) in
               (* cp does not enter vega *)
               let vega := vec (size [length (b_F a); length (b_tau a); length (b_K a); length (b_vol a); length (b_shift a); length (b_annuity a)])
                               (fun i => b76_vega_elem (F i) (tau i) (K i) (vol i) (ann i)) in
               let* v := column (length delta) vega in Ok (Some [delta; v])
             else Ok None in
  Ok (mk_priced X sp an None).

(* the bumped calls of L111-126 receive the arrays F and K after the shift was added, together with ln_shift *)
Definition b76_bump (a : b76) (f : list R -> list R) (v : list R -> list R) : b76 :=
  mk_b76 (f (badd (b_F a) (b_shift a))) (b_tau a) (b_cp a) (badd (b_K a) (b_shift a)) (v (b_vol a)) (b_shift a) (b_annuity a).
Definition ratio_column (n : nat) (up dn : list num) (den : nat -> num) : list num :=
  vec n (fun i => div (sub (nth i up NaN) (nth i dn NaN)) (den i)).

(* black76_price, black76_bachelier.py:14-128 *)
Definition black76_price (a : b76) (split analytical numerical : bool) : result priced :=
  let* r := black76_core a split analytical in
  if negb numerical then Ok r else
    let n := length (p_price r) in
    let* fu := black76_core (b76_bump a (bscale (101 / 100)) (fun v => v)) false true in
    let* fd := black76_core (b76_bump a (bscale (99 / 100)) (fun v => v)) false true in
    let delta := ratio_column n (p_price fu) (p_price fd) (fun i => Fin (2 * (at_ (b_F a) i + at_ (b_shift a) i) * (1 / 100))) in
    let* vu := black76_core (b76_bump a (fun f => f) (map (fun v => v + 1 / 100))) false true in
    let* vd := black76_core (b76_bump a (fun f => f) (map (fun v => v - 1 / 100))) false true in
    let vega := ratio_column n (p_price vu) (p_price vd) (fun _ => Fin 2) in
    let* v := column (length delta) vega in
    Ok (mk_priced (p_price r) (p_split r) (p_analytical r) (Some [delta; v])).

(* ---- bachelier_price, black76_bachelier.py:187-274 ---- *)
Record bach : Type := mk_bach { n_F : list R; n_tau : list R; n_cp : list R; n_K : list R; n_vol : list R; n_annuity : list R }.

Definition bach_d (F K vol tau : num) : num := div (sub F K) (mul vol (nsqrt tau)).
Definition bach_elem (F tau cp K vol annuity : num) : num :=
  mul annuity (add (mul (mul cp (sub F K)) (ncdf (mul cp (bach_d F K vol tau)))) (mul (mul vol (nsqrt tau)) (npdf (bach_d F K vol tau)))).
(* L266 *)
Definition bach_delta_elem (F tau cp K vol annuity : num) : num := mul (mul cp (ncdf (mul cp (bach_d F K vol tau)))) annuity.
(* L269 *)
Definition bach_vega_elem (F tau cp K vol annuity : num) : num :=
  mul (mul (mul (nsqrt tau) (npdf (mul cp (bach_d F K vol tau)))) annuity) (Fin (1 / 10000)).
(* L272: divided by (1/365.25) *)
Definition bach_theta_elem (F tau K vol annuity : num) : num :=
  div (mul (div (mul (mul (Fin (- (1 / 2))) (npdf (bach_d F K vol tau))) vol) (nsqrt tau)) annuity) (Fin (4 / 1461)).

(* numerical_greeks is accepted and ignored *)
Definition bachelier_price (a : bach) (split analytical numerical : bool) : result priced :=
  let lens := [length (n_F a); length (n_tau a); length (n_cp a); length (n_K a); length (n_vol a); length (n_annuity a)] in
  let* _ := guard (Nat.eqb (length (n_F a)) (length (n_tau a))) AssertionError in
  let* _ := guard (shapes_ok lens) AssertionError in
  let F i := Fin (at_ (n_F a) i) in
  let K i := Fin (at_ (n_K a) i) in
  let tau i := Fin (at_ (n_tau a) i) in
  let cp i := Fin (at_ (n_cp a) i) in
  let vol i := Fin (at_ (n_vol a) i) in
  let ann i := Fin (at_ (n_annuity a) i) in
  let n := size lens in
  let X := vec n (fun i => bach_elem (F i) (tau i) (cp i) (K i) (vol i) (ann i)) in
  let* sp := if split then
               let payoff := vec (size [length (n_cp a); length (n_F a); length (n_K a)]) (fun i => intrinsic_elem (F i) (cp i) (K i)) in
               let* s := split_values (n_tau a) payoff X in Ok (Some s)
             else Ok None in
  let* an := if analytical then
               let delta := vec n (fun i => bach_delta_elem (F i) (tau i) (cp i) (K i) (vol i) (ann i)) in
               let vega := vec n (fun i => bach_vega_elem (F i) (tau i) (cp i) (K i) (vol i) (ann i)) in
               let* v := column (length delta) vega in
               (* cp does not enter theta *)
               let theta := vec (size [length (n_F a); length (n_tau a); length (n_K a); length (n_vol a); length (n_annuity a)])
                                (fun i => bach_theta_elem (F i) (tau i) (K i) (vol i) (ann i)) in
               let* t := column (length delta) theta in Ok (Some [delta; v; t])
             else Ok None in
  Ok (mk_priced X sp an None).

(* ---- implied volatilities ---- *)
(* scipy's root_scalar and minimize are external: adaptive strategies that evaluate the objective at points of their choice *)
Inductive search (O : Type) : Type :=
| Finish (o : O)
| Probe (x : R) (k : num -> search O).
Arguments Finish {O} o.
Arguments Probe {O} x k.
Inductive root_outcome : Type := Root (x : R) | NoConvergence (* RuntimeError *) | RootRaises (e : exn).
(* res.x[0], res.success, res.fun *)
Inductive min_outcome : Type := Minimum (x : R) (success : bool) (value : num) | MinRaises (e : exn).

(* the run of an objective that may raise StopIteration carrying the point *)
Inductive run_end (O : Type) : Type := Stopped (x : R) | Ended (o : O) | Failed (e : exn).
Arguments Stopped {O} x.
Arguments Ended {O} o.
Arguments Failed {O} e.
Inductive evaluation : Type := Value (y : num) | Stop (* StopIteration *) | Raise (e : exn).
Fixpoint run {O} (f : R -> evaluation) (s : search O) : run_end O :=
  match s with
  | Finish o => Ended o
  | Probe x k => match f x with Value y => run f (k y) | Stop => Stopped x | Raise e => Failed e end
  end.

Definition solve_tol : R := / 100000.

(* error_function, black76_bachelier.py:143-150 and 288-295, for a pricing function of the volatility *)
Definition error_function (price : R -> result (list num)) (X : num) (squared : bool) (v : R) : evaluation :=
  match price v with
  | Err e => Raise e
  | Ok p =>
      let rel := div (sub (nsum p) X) X in
      let err := if squared then mul rel rel else rel in
      if abs_below (if squared then solve_tol * solve_tol else solve_tol) err then Stop else Value err
  end.

(* L161-184 and L306-329 *)
Definition solve_implied_vol (price : R -> result (list num)) (X : num) (brent : search root_outcome) (lbfgs : search min_outcome) : result R :=
  let fallback :=
    match run (error_function price X true) lbfgs with
    | Stopped x => Ok x
    | Failed e => Err e
    | Ended (MinRaises e) => Err e
    | Ended (Minimum x success value) => if success || abs_below (solve_tol * solve_tol) value then Ok x else Err ValueError
    end in
  match run (error_function price X false) brent with
  | Stopped x => Ok x
  | Failed e => Err e
  | Ended (RootRaises e) => Err e
  | Ended NoConvergence => fallback
  | Ended (Root x) =>
      match error_function price X false x with
      | Stop => Ok x
      | Raise e => Err e
      | Value y => if abs_below solve_tol y then Ok x else fallback
      end
  end.

(* black76_solve_implied_vol, L131-184; the volatility field of a is not used *)
Definition b76_with_vol (a : b76) (v : R) : b76 := mk_b76 (b_F a) (b_tau a) (b_cp a) (b_K a) [v] (b_shift a) (b_annuity a).
Definition b76_prices (a : b76) (v : R) : result (list num) := let* r := black76_price (b76_with_vol a v) false false false in Ok (p_price r).
Definition black76_solve_implied_vol (a : b76) (X : num) (brent : search root_outcome) (lbfgs : search min_outcome) : result R :=
  solve_implied_vol (b76_prices a) X brent lbfgs.

(* bachelier_solve_implied_vol, L277-329 *)
Definition bach_with_vol (a : bach) (v : R) : bach := mk_bach (n_F a) (n_tau a) (n_cp a) (n_K a) [v] (n_annuity a).
Definition bach_prices (a : bach) (v : R) : result (list num) := let* r := bachelier_price (bach_with_vol a v) false false false in Ok (p_price r).
Definition bachelier_solve_implied_vol (a : bach) (X : num) (brent : search root_outcome) (lbfgs : search min_outcome) : result R :=
  solve_implied_vol (bach_prices a) X brent lbfgs.

(* ---- conversions, scalar arguments ---- *)
Definition b76_scalar (F tau cp K vol shift : R) : b76 := mk_b76 [F] [tau] [cp] [K] [vol] [shift] [1].
Definition bach_scalar (F tau cp K vol : R) : bach := mk_bach [F] [tau] [cp] [K] [vol] [1].
(* ...['price'][0] *)
Definition first_price (r : result priced) : result num :=
  let* p := r in match p_price p with x :: _ => Ok x | [] => Err IndexError end.

(* black76_sln_to_normal_vol_analytical, L333-376; python floats, so F/K raises when the shifted strike is zero *)
(* a python float used as a divisor *)
Definition nonzero (x : R) : result unit := if Req_EM_T x 0 then Err ZeroDivisionError else Ok tt.
Definition npow2 (x : num) : num := mul x x.
Definition hagan_normal_vol (F0 tau0 K0 vol0 shift : R) : result num :=
  let* _ := nonzero (K0 + shift) in
  let F := Fin (F0 + shift) in let K := Fin (K0 + shift) in let vol := Fin vol0 in let tau := Fin tau0 in
  let l := nlog (div F K) in
  Ok (div (mul (mul vol (nsqrt (mul F K)))
           (add (add (Fin 1) (mul (Fin (1 / 24)) (npow2 l))) (mul (Fin (1 / 1920)) (npow2 (npow2 l)))))
      (add (add (Fin 1) (mul (mul (mul (Fin (1 / 24)) (sub (Fin 1) (mul (Fin (1 / 120)) (npow2 l)))) (npow2 vol)) tau))
           (mul (mul (Fin (1 / 5760)) (npow2 (npow2 vol))) (npow2 tau)))).

Definition atm_tol : R := / 10000000000.

(* black76_sln_to_normal_vol, L379-398; python floats *)
Definition black76_sln_to_normal_vol (F tau K vol shift : R) (brent : search root_outcome) (lbfgs : search min_outcome) : result num :=
  if Rlt_dec (Rabs (F - K)) atm_tol then
    let Fs := F + shift in
    Ok (div (sub (mul (Fin (2 * Fs)) (ncdf (div (mul (Fin vol) (nsqrt (Fin tau))) (Fin 2)))) (Fin Fs))
            (mul (nsqrt (Fin tau)) (Fin (pdf 0))))
  else
    let* px := first_price (black76_price (b76_scalar F tau 1 K vol shift) false false false) in
    let* _ := hagan_normal_vol F tau K vol shift in
    let* v := bachelier_solve_implied_vol (bach_scalar F tau 1 K 0) px brent lbfgs in
    Ok (Fin v).

(* normal_vol_atm_to_black76_sln_atm, L447-453 *)
Definition normal_vol_atm_to_black76_sln_atm (F tau vol_n shift : R) : num :=
  let Fs := F + shift in
  mul (div (Fin 2) (nsqrt (Fin tau)))
      (nppf (div (add (mul (mul (Fin vol_n) (nsqrt (Fin tau))) (Fin (pdf 0))) (Fin Fs)) (Fin (2 * Fs)))).

(* the squared relative error minimised by shift_black76_vol and normal_vol_to_black76_sln *)
Definition relative_objective (price : R -> result num) (target : num) (v : R) : evaluation :=
  match price v with
  | Err e => Raise e
  | Ok p => Value (npow2 (div (sub p target) target))
  end.
Definition minimise (f : R -> evaluation) (s : search min_outcome) : result R :=
  match run f s with
  | Stopped _ => Err StopIteration
  | Failed e => Err e
  | Ended (MinRaises e) => Err e
  | Ended (Minimum x success value) => if success || abs_below (solve_tol * solve_tol) value then Ok x else Err ValueError
  end.

(* shift_black76_vol, L401-444; python floats, the initial guess divides by F + (to_ln_shift - from_ln_shift) *)
Definition shift_black76_vol (F tau K vol from_shift to_shift : R) (lbfgs : search min_outcome) : result R :=
  let* px := first_price (black76_price (b76_scalar F tau 1 K vol from_shift) false false false) in
  let* _ := nonzero (F + (to_shift - from_shift)) in
  minimise (relative_objective (fun v => first_price (black76_price (b76_scalar F tau 1 K v to_shift) false false false)) px) lbfgs.

(* normal_vol_to_black76_sln, L456-503; python floats, the initial guess divides by F + ln_shift. The result of the at-the-money conversion is computed and dropped; it cannot raise.
   The objective (b - p)/b squared equals (p - b)/b squared. *)
Definition normal_vol_to_black76_sln (F tau K vol_n shift : R) (lbfgs : search min_outcome) : result R :=
  let* px := first_price (bachelier_price (bach_scalar F tau 1 K vol_n) false false false) in
  let* _ := nonzero (F + shift) in
  minimise (relative_objective (fun v => first_price (black76_price (b76_scalar F tau 1 K v shift) false false false)) px) lbfgs.
