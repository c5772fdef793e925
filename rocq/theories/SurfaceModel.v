(* frm/term_structures/fx_volatility_surface.py L133-382 and heston_calibrate_vanilla_smile of frm/pricing_engine/heston.py L58-209.
   Numbers as in NormalModel. The forward curve and the zero curves cover the expiries and give finite numbers. *)
From Coq Require Import String ZArith Reals List Bool.
From Verif Require Import Base Date DayCountModel NormalModel BlackModel GkModel BootModel SabrModel ChfModel CosModel VolModel.
Import ListNotations.
Open Scope list_scope.
Open Scope R_scope.

(* FXSmileInterpolationMethod, enums/term_structures.py L33-40 *)
Inductive smile_method : Type := UnivariateSpline | CubicSpline | Heston1993 | HestonCarrMadanQuadrature | HestonCarrMadanFft | HestonLipton | HestonCosine.
Definition method_value (m : smile_method) : string :=
  match m with
  | UnivariateSpline => "univariate_spline"
  | CubicSpline => "cubic_spline"
  | Heston1993 => "heston_1993"
  | HestonCarrMadanQuadrature => "heston_carr_madan_gauss_kronrod_quadrature"
  | HestonCarrMadanFft => "heston_carr_madan_fft_w_simpsons"
  | HestonLipton => "heston_lipton"
  | HestonCosine => "heston_cosine"
  end%string.
(* heston.py L18-24 *)
Definition pricing_methods : list string :=
  ["heston_1993"; "heston_carr_madan_gauss_kronrod_quadrature"; "heston_carr_madan_fft_w_simpsons"; "heston_cosine"; "heston_lipton"]%string.

(* the returned var0, vv, kappa, theta, rho, lambda_, IV, SSE *)
Record fit : Type := mk_fit { f_var0 : R; f_vv : R; f_kappa : R; f_theta : R; f_rho : R; f_lambda : R; f_IV : list num; f_SSE : num }.
(* a row of vol_smile_daily_df *)
Record day_row : Type := mk_day { d_date : date; d_years : R; d_F : R; d_rd : R; d_rf : R; d_conv : string; d_vols : list num }.
(* a value of vol_smile_daily_func *)
Inductive smile : Type := Spline (f : R -> R) | Params (h : fit).
(* the attributes that the queries read; one signed delta and one option type per quote column *)
Record surface : Type := mk_surface { s_spot : R; s_method : smile_method; s_deltas : list R; s_cps : list R; s_daily : list day_row }.
Definition cache : Type := list (date * smile).
(* a row of the frame returned by interp_vol_surface *)
Record quote : Type := mk_quote { q_day : day_row; q_K : R; q_cp : R; q_vol : num }.

Definition all_fin (l : list num) : option (list R) :=
  fold_right (fun x acc => match x, acc with Fin a, Some t => Some (a :: t) | _, _ => None end) (Some []) l.
(* the strike solver asserts that volatilities are positive: NaN is not, and infinity is no outcome of the daily interpolation *)
Definition quoted (l : list num) : result (list R) := match all_fin l with Some v => Ok v | None => Err AssertionError end.
Definition is_cp_flag (x : R) : bool := is_one x || is_minus_one x.

(* external: root_scalar, the two splines (the first with its degree), quad, minimize given its starting point, newton given its starting point, brentq,
   and what garman_kohlhagen_solve_implied_vol makes of a price or strike that is not a finite number *)
Record externals : Type := mk_ext { x_rs : root_finder; x_univariate : nat -> list num -> list num -> result (R -> R); x_cubic : list num -> list num -> result (R -> R);
  x_quad : quadrature; x_minimize : list R -> fit_search; x_newton : R -> search root_outcome; x_brent : search rs_outcome; x_undefined : result num }.

Section Surface.
Variable ext : externals.

(* ---- heston.py L111-158; the cosine pricer is called strike by strike, which gives the same numbers (PCos) ---- *)
Definition model_price (p : params) (lambda_ S0 cp : R) (k : num) (method : string) : result (option R) :=
  match k with
  | Fin k => let* l := heston_price (x_quad ext) cosine_default p lambda_ S0 cp k method in match l with x :: _ => Ok x | [] => Err IndexError end
  | _ => Ok None
  end.
Definition implied (S0 tau r q cp : R) (k : num) (P : option R) (guess : R) : result num :=
  match k, P with
  | Fin k, Some x => gk_solve_implied_vol S0 tau r q cp k x (x_newton ext guess) (x_brent ext)
  | _, _ => x_undefined ext
  end.
(* None: np.inf is returned in place of the tuple *)
Definition calibration_helper (S0 tau r q var0 kappa lambda_ : R) (method : string) (cps : list R) (strikes : list num) (vols param : list R)
  : result (option (list (option R) * list num * num)) :=
  match param with
  | [vv; theta; rho] =>
      if Rlt_dec vv 0 then Ok None else if Rlt_dec theta 0 then Ok None else if Rlt_dec 1 (Rabs rho) then Ok None else
      let p := mk_params tau r q var0 vv kappa theta rho in
      let* P := sequence (map (fun ck => model_price p lambda_ S0 (fst ck) (snd ck) method) (combine cps strikes)) in
      let* IV := sequence (map (fun x => let '(P, (cp, (k, v))) := x in
        match P with
        | Some y => if Rlt_dec y 0 then Ok (Fin (-1)) else implied S0 tau r q cp k P v
        | None => implied S0 tau r q cp k P v
        end) (combine P (combine cps (combine strikes vols)))) in
      Ok (Some (P, IV, nsum (map (fun x => npow2 (sub (Fin (fst x)) (snd x))) (combine vols IV))))
  | _ => Err ValueError
  end.
Fixpoint run_fit (f : list R -> result num) (s : fit_search) : result (list R) :=
  match s with
  | FitEnd _ x => Ok x (* res.success is not looked at *)
  | FitProbe x k => let* y := f x in run_fit f (k y)
  end.
(* L160-209; None: the calibration is reported to have failed *)
Definition heston_calibrate (quotes : list num) (deltas : list R) (S0 r q tau : R) (cps : list R) (convention method : string) : result (option fit) :=
  let* _ := guard (if Rlt_dec 0 S0 then true else false) ValueError in
  let* _ := guard (if Rlt_dec 0 tau then true else false) ValueError in
  let* _ := guard (forallb is_cp_flag cps) ValueError in
  let* _ := guard (existsb (String.eqb method) pricing_methods) ValueError in
  let* vols := quoted quotes in
  let* strikes := solve_strike_from_delta (x_rs ext) S0 tau r q vols deltas convention None "forward" in
  match nth_error vols (Nat.div (length strikes) 2) with
  | None => Err IndexError
  | Some v =>
      let var0 := v ^ 2 in let kappa := 3 / 2 in let lambda_ := 0 in
      let helper := calibration_helper S0 tau r q var0 kappa lambda_ method cps strikes vols in
      let objective x := let* h := helper x in Ok (match h with None => PInf | Some (_, _, sse) => sse end) in
      let* x := run_fit objective (x_minimize ext [2 * sqrt var0; 2 * var0; 0]) in
      let* h := helper x in
      match h, x with
      | Some (_, IV, sse), [vv; theta; rho] =>
          match sse with PInf => Ok None | _ => Ok (Some (mk_fit var0 vv kappa theta rho lambda_ IV sse)) end
      | _, _ => Err TypeError (* np.inf cannot be unpacked *)
      end
  end.

(* ---- fx_volatility_surface.py ---- *)
(* the rate that carries the spot to the market forward, L227-231 and L322-326 *)
Definition basis_rate (S0 tau rf F : R) : num := add (div (nlog (div (Fin F) (Fin S0))) (Fin tau)) (Fin rf).
Definition below_tolerance (x : num) : bool := match x with Fin a => if Rlt_dec a (1 / 1000) then true else false | NInf => true | _ => false end.
Definition day_strikes (s : surface) (d : day_row) : result (list num) :=
  let* vols := quoted (d_vols d) in
  solve_strike_from_delta (x_rs ext) (s_spot s) (d_years d) (d_rd d) (d_rf d) vols (s_deltas s) (d_conv d) (Some (d_F d)) "forward".
(* the body of the loop of _solve_vol_daily_smile_func, L214-283 *)
Definition solve_smile (s : surface) (d : day_row) : result smile :=
  let n := length (s_deltas s) in
  match s_method s with
  | UnivariateSpline =>
      let* K := day_strikes s d in
      let* _ := guard (Nat.leb 3 n) ValueError in
      let* f := x_univariate ext (Nat.min 3 (Nat.max 2 (n - 1))) K (d_vols d) in Ok (Spline f)
  | CubicSpline =>
      let* K := day_strikes s d in
      let* _ := guard (Nat.leb 4 n) ValueError in
      let* f := x_cubic ext K (d_vols d) in Ok (Spline f)
  | m =>
      match basis_rate (s_spot s) (d_years d) (d_rf d) (d_F d) with
      | Fin r =>
          let* h := heston_calibrate (d_vols d) (s_deltas s) (s_spot s) r (d_rf d) (d_years d) (s_cps s) (d_conv d) (method_value m) in
          match h with
          | None => Err TypeError (* None cannot be unpacked *)
          | Some h => if below_tolerance (f_SSE h) then Ok (Params h) else Err ValueError
          end
      | _ => Err ValueError (* a rate that is NaN, or an expiry of zero; a forward of exactly zero is not modelled *)
      end
  end.
Definition row_of (s : surface) (d : date) : option day_row := find (fun r => (d_date r =? d)%Z) (s_daily s).
Definition cached (c : cache) (d : date) : option smile := match find (fun e => (fst e =? d)%Z) c with Some e => Some (snd e) | None => None end.
(* L212-283: repeated dates are already in the dictionary when they come again; what was solved before an exception stays *)
Fixpoint solve_days (s : surface) (c : cache) (dates : list date) : cache * result unit :=
  match dates with
  | [] => (c, Ok tt)
  | d :: t =>
      match cached c d with
      | Some _ => solve_days s c t
      | None =>
          match row_of s d with
          | None => (c, Err IndexError)
          | Some r => match solve_smile s r with Ok f => solve_days s (c ++ [(d, f)]) t | Err e => (c, Err e) end
          end
      end
  end.
(* L306-346: the volatility of one row *)
Definition smile_vol (s : surface) (f : smile) (r : day_row) (K cp : R) : result num :=
  match f with
  | Spline g => Ok (Fin (g K))
  | Params h =>
      match basis_rate (s_spot s) (d_years r) (d_rf r) (d_F r) with
      | Fin rd =>
          let p := mk_params (d_years r) rd (d_rf r) (f_var0 h) (f_vv h) (f_kappa h) (f_theta h) (f_rho h) in
          let* X := model_price p (f_lambda h) (s_spot s) cp (Fin K) (method_value (s_method s)) in
          implied (s_spot s) (d_years r) rd (d_rf r) cp (Fin K) X (sqrt (f_var0 h))
      | _ => x_undefined ext
      end
  end.
(* L286-346; arrays of dates, strikes and option types *)
Definition query_row (s : surface) (c : cache) (x : date * (R * R)) : result quote :=
  let '(d, (K, cp)) := x in
  match row_of s d with
  | None => Err KeyError
  | Some r => match cached c d with
              | None => Err KeyError
              | Some f => let* v := smile_vol s f r K cp in Ok (mk_quote r K cp v)
              end
  end.
Definition interp_vol_surface (s : surface) (c : cache) (dates : list date) (Ks cps : list R) : cache * result (list quote) :=
  if Nat.eqb (length dates) (length Ks) && Nat.eqb (length dates) (length cps) then
    match solve_days s c dates with
    | (c, Err e) => (c, Err e)
    | (c, Ok _) => (c, sequence (map (query_row s c) (combine dates (combine Ks cps))))
    end
  else (c, Err AssertionError).
(* L349-382: the prices; where the volatility is not finite so is the price *)
Definition finite_or (x : num) : R := match x with Fin a => a | _ => 1 end.
Definition price_vanilla_european (s : surface) (c : cache) (dates : list date) (Ks cps : list R) : cache * result (list num * list quote) :=
  let '(c, r) := interp_vol_surface s c dates Ks cps in
  (c,
   let* rows := r in
   let* p := garman_kohlhagen_price (mk_gk [s_spot s] (map (fun x => d_years (q_day x)) rows) (map (fun x => d_rd (q_day x)) rows) (map (fun x => d_rf (q_day x)) rows)
     cps Ks (map (fun x => finite_or (q_vol x)) rows) (Some (map (fun x => d_F (q_day x)) rows))) false false false in
   Ok (map (fun x => match q_vol (fst x) with Fin _ => snd x | _ => NaN end) (combine rows (p_price p)), rows)).

(* ---- L133-195: daily rows and pillar strikes ---- *)
Record pillar : Type := mk_quoted { p_vol : vol_pillar; p_conv : string }.
(* fx forward, domestic and foreign zero rate at an expiry date, L104-112 *)
Definition market : Type := date -> R * R * R.
Definition daily_rows (curve_date : date) (b : basis) (mkt : market) (pillars : list pillar) : result (list day_row) :=
  let* rows := daily_vols curve_date b (map p_vol pillars) in
  sequence (map (fun x => let '(d, t, vols) := x in
    match find (fun p => (d <=? v_expiry (p_vol p))%Z) pillars with
    | Some up => let '(F, rd, rf) := mkt d in Ok (mk_day d t F rd rf (p_conv up) vols)
    | None => Err KeyError (* not reached: no day is after the last pillar *)
    end) rows).
Definition strike_pillars (curve_date : date) (b : basis) (mkt : market) (S0 : R) (deltas : list R) (pillars : list pillar) : result (list (list num)) :=
  let* ts := years_column [curve_date] (map (fun p => v_expiry (p_vol p)) pillars) b (length pillars) in
  sequence (map (fun x => let '(p, t) := x in let '(F, rd, rf) := mkt (v_expiry (p_vol p)) in
    solve_strike_from_delta (x_rs ext) S0 t rd rf (v_vols (p_vol p)) deltas (p_conv p) (Some F) "forward") (combine pillars ts)).
Definition build (curve_date : date) (b : basis) (mkt : market) (S0 : R) (m : smile_method) (quotes : list (R * R)) (pillars : list pillar) : result (surface * list (list num)) :=
  let* rows := daily_rows curve_date b mkt pillars in
  let* ks := strike_pillars curve_date b mkt S0 (map fst quotes) pillars in
  Ok (mk_surface S0 m (map fst quotes) (map snd quotes) rows, ks).
End Surface.
