(* What users rely on when they query an FX volatility surface *)
From Coq Require Import String ZArith Reals List Bool.
From Verif Require Import Base Date NormalModel BlackSpec GkModel GkSpec SabrModel ChfModel CosModel VolModel SurfaceModel.
Import ListNotations.
Open Scope list_scope.
Open Scope R_scope.

(* a user's calls on one surface object *)
Inductive request : Type := AskVol (dates : list date) (Ks cps : list R) | AskPrice (dates : list date) (Ks cps : list R).
(* what earlier calls, whether they returned or raised, leave in the object *)
Definition perform (ext : externals) (s : surface) (c : cache) (q : request) : cache :=
  match q with AskVol d K cp => fst (interp_vol_surface ext s c d K cp) | AskPrice d K cp => fst (price_vanilla_european ext s c d K cp) end.
Definition session (ext : externals) (s : surface) (history : list request) : cache := fold_left (perform ext s) history [].
(* the outcome of a call made after some history *)
Definition vols_at (ext : externals) (s : surface) (history : list request) (dates : list date) (Ks cps : list R) : result (list quote) :=
  snd (interp_vol_surface ext s (session ext s history) dates Ks cps).
Definition prices_at (ext : externals) (s : surface) (history : list request) (dates : list date) (Ks cps : list R) : result (list num * list quote) :=
  snd (price_vanilla_european ext s (session ext s history) dates Ks cps).

(* no date has two rows *)
Definition one_row_per_day (s : surface) : Prop := NoDup (map d_date (s_daily s)).
Definition spline_surface (s : surface) : Prop := s_method s = UnivariateSpline \/ s_method s = CubicSpline.
(* a spline that passes through the points it was fitted to *)
Definition interpolating (fit : list num -> list num -> result (R -> R)) : Prop :=
  forall (xs ys : list num) (f : R -> R), fit xs ys = Ok f -> forall (i : nat) (x y : R), nth_error xs i = Some (Fin x) -> nth_error ys i = Some (Fin y) -> f x = y.
Definition exact_splines (ext : externals) : Prop := interpolating (x_cubic ext) /\ forall k : nat, interpolating (x_univariate ext k).
(* the price reported for an option whose market data is q *)
Definition price_of (s : surface) (q : quote) (p : num) : Prop :=
  match q_vol q with
  | Fin v => p = price_gk (s_spot s) (d_years (q_day q)) (d_rd (q_day q)) (d_rf (q_day q)) (q_cp q) (q_K q) v (Some (d_F (q_day q)))
  | _ => p = NaN
  end.

(* ---- Heston smiles ---- *)
(* a point at which the minimiser may stop *)
Inductive end_point : fit_search -> list R -> Prop :=
| End_here (b : bool) (x : list R) : end_point (FitEnd b x) x
| End_later (x z : list R) (k : num -> fit_search) (y : num) : end_point (k y) z -> end_point (FitProbe x k) z.
Definition admissible (x : list R) : Prop := match x with [vv; theta; rho] => 0 <= vv /\ 0 <= theta /\ Rabs rho <= 1 | _ => False end.
(* the same search, with the success flag replaced *)
Fixpoint flagged (b : bool) (s : fit_search) : fit_search :=
  match s with FitEnd _ x => FitEnd b x | FitProbe x k => FitProbe x (fun y => flagged b (k y)) end.
Definition with_minimize (ext : externals) (m : list R -> fit_search) : externals :=
  mk_ext (x_rs ext) (x_univariate ext) (x_cubic ext) (x_quad ext) m (x_newton ext) (x_brent ext) (x_undefined ext).
Definition with_univariate (ext : externals) (u : nat -> list num -> list num -> result (R -> R)) : externals :=
  mk_ext (x_rs ext) u (x_cubic ext) (x_quad ext) (x_minimize ext) (x_newton ext) (x_brent ext) (x_undefined ext).
Definition squares (l : list (R * R)) : R := fold_right Rplus 0 (map (fun p => (fst p - snd p) ^ 2) l).
Definition heston_surface (s : surface) : Prop := ~ spline_surface s.
Definition pricing_method (m : string) : Prop :=
  In m ["heston_1993"; "heston_carr_madan_gauss_kronrod_quadrature"; "heston_carr_madan_fft_w_simpsons"; "heston_cosine"; "heston_lipton"]%string.
(* the parameters with which calibrated smiles are priced *)
Definition fit_params (h : fit) (tau r q : R) : params := mk_params tau r q (f_var0 h) (f_vv h) (f_kappa h) (f_theta h) (f_rho h).
(* x is the price of the calibrated model *)
Definition fit_price (ext : externals) (h : fit) (S0 tau r q cp K : R) (method : string) (x : option R) : Prop :=
  exists rest, heston_price (x_quad ext) cosine_default (fit_params h tau r q) (f_lambda h) S0 cp K method = Ok (x :: rest).
(* the volatility reported for a quote: -1 for a negative model price, else what the implied volatility solver makes of the price *)
Definition reported_vol (ext : externals) (S0 tau r q cp K guess : R) (x : option R) (iv : num) : Prop :=
  match x with
  | Some y => (y < 0 -> iv = Fin (-1)) /\ (0 <= y -> gk_solve_implied_vol S0 tau r q cp K y (x_newton ext guess) (x_brent ext) = Ok iv)
  | None => x_undefined ext = Ok iv
  end.
(* the reported volatilities belong to the quotes, one each *)
Definition quote_fits (ext : externals) (h : fit) (S0 tau r q : R) (method : string) (cps : list R) (strikes : list num) (vols : list R) : Prop :=
  length (f_IV h) = length vols /\
  forall (i : nat) (cp k v : R), nth_error cps i = Some cp -> nth_error strikes i = Some (Fin k) -> nth_error vols i = Some v ->
     exists x iv, fit_price ext h S0 tau r q cp k method x /\ nth_error (f_IV h) i = Some iv /\ reported_vol ext S0 tau r q cp k v x iv.
(* volatilities found by the solver give the price back up to eps *)
Definition accurate_vols (eps : R) (ext : externals) : Prop :=
  forall S0 tau r q cp K X guess v : R, gk_solve_implied_vol S0 tau r q cp K X (x_newton ext guess) (x_brent ext) = Ok (Fin v) ->
  exists y, price_gk S0 tau r q cp K v None = Fin y /\ Rabs (y - X) <= eps.
(* numbers for prices and strikes that are not finite do not arise from nothing *)
Definition undefined_undefined (ext : externals) : Prop := forall v : R, x_undefined ext <> Ok (Fin v).

(* ---- construction ---- *)
(* q is the first pillar on or after day d *)
Definition next_pillar (pillars : list pillar) (d : date) (q : pillar) : Prop :=
  In q pillars /\ (d <= v_expiry (p_vol q))%Z /\ forall q' : pillar, In q' pillars -> (v_expiry (p_vol q') < v_expiry (p_vol q))%Z -> (v_expiry (p_vol q') < d)%Z.
(* the row carries the market data of its own date *)
Definition on_market (mkt : market) (r : day_row) : Prop := mkt (d_date r) = (d_F r, d_rd r, d_rf r).
