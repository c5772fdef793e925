(* frm/pricing_engine/cosine_method_generic.py and the cosine pricer of frm/pricing_engine/heston.py, L523-651.
   Numbers are exact reals; None is a result that is not a finite number, as in ChfModel. *)
From Coq Require Import ZArith Reals String List Bool.
From Coquelicot Require Import Complex.
From Verif Require Import Base NumModel CurveModel NormalModel MonteModel MonteSpec ChfModel.
Import ListNotations.
Open Scope R_scope.

(* ---- get_cos_truncation_range, L74-143: a sequence for one model, a dictionary for the other ---- *)
Inductive model_param : Type := P_seq (l : list R) | P_dict (l : list (string * R)).
Definition item (m : model_param) (key : string) : result R :=
  match m with
  | P_seq _ => Err TypeError
  | P_dict l => match find (fun kv => String.eqb (fst kv) key) l with Some (_, v) => Ok v | None => Err KeyError end
  end.
(* L115-120 *)
Definition heston_c1 (tau mu u0 lam u_bar : R) : R := mu * tau + (1 - exp (-1 * lam * tau)) * (u_bar - u0) / (2 * lam) - 1 / 2 * u_bar * tau.
(* L122-128 *)
Definition heston_c2 (tau u0 eta lam u_bar rho : R) : R :=
  1 / (8 * lam ^ 3) * (
    eta * tau * lam * exp (- lam * tau) * (u0 - u_bar) * (8 * lam * rho - 4 * eta)
    + lam * rho * eta * (1 - exp (- lam * tau)) * (16 * u_bar - 8 * u0)
    + 2 * u_bar * lam * tau * (-4 * lam * rho * eta + eta ^ 2 + 4 * lam ^ 2)
    + eta ^ 2 * ((u_bar - 2 * u0) * exp (-2 * lam * tau) + u_bar * (6 * exp (- lam * tau) - 7) + 2 * u0)
    + 8 * lam ^ 2 * (u0 - u_bar) * (1 - exp (- lam * tau))).
Open Scope string_scope.
Definition cumulants (model : string) (m : model_param) : result (R * R * R) :=
  if String.eqb model "geomentric_brownion_motion" then
    match m with
    | P_seq [mu; sigma; tau] => Ok (mu * tau, sigma ^ 2 * tau, 0)
    | P_seq _ => Err ValueError
    (* three keys unpack to strings, which do not multiply *)
    | P_dict l => if Nat.eqb (List.length l) 3 then Err TypeError else Err ValueError
    end
  else if String.eqb model "heston" then
    let* tau := item m "tau" in let* mu := item m "mu" in let* u0 := item m "var0" in let* eta := item m "vv" in
    let* lam := item m "kappa" in let* u_bar := item m "theta" in let* rho := item m "rho" in
    (* 1 / (8 * lambda**3) on Python floats *)
    let* _ := guard (negb (if Req_EM_T lam 0 then true else false)) ZeroDivisionError in
    Ok (heston_c1 tau mu u0 lam u_bar, heston_c2 tau u0 eta lam u_bar rho, 0)
  else (* 'VG', 'CGMY' and anything else: c1 is unbound at L137 *) Err NameError.
Definition get_cos_truncation_range (model : string) (L : R) (m : model_param) : result (R * R) :=
  let* c := cumulants model m in
  let '(c1, c2, c4) := c in
  Ok (c1 - L * sqrt (Rabs c2 + sqrt (Rabs c4)), c1 + L * sqrt (Rabs c2 + sqrt (Rabs c4))).
Open Scope R_scope.

(* ---- calculate_Uk_european_options, heston.py L523-571 ---- *)
Definition calc_chi (a b : R) (k : nat) (c d : R) : R :=
  let w := INR k * PI / (b - a) in
  let term1 := 1 / (1 + w ^ 2) in
  let term2 := cos (INR k * PI * (d - a) / (b - a)) * exp d in
  let term3 := cos (INR k * PI * (c - a) / (b - a)) * exp c in
  let term4 := w * sin (INR k * PI * (d - a) / (b - a)) in
  let term5 := w * sin (INR k * PI * (c - a) / (b - a)) * exp c in
  term1 * (term2 - term3 + term4 - term5).
Definition calc_psi (a b : R) (k : nat) (c d : R) : R :=
  match k with
  | O => d - c
  | _ => (sin (INR k * PI * (d - a) / (b - a)) - sin (INR k * PI * (c - a) / (b - a))) * (b - a) / (INR k * PI)
  end.
Definition calculate_Uk (call : bool) (a b : R) (k : nat) : R :=
  if call then 2 / (b - a) * (calc_chi a b k 0 b - calc_psi a b k 0 b)
  else 2 / (b - a) * (- calc_chi a b k a 0 + calc_psi a b k a 0).

(* ---- heston_cosine_price_vanilla_european, heston.py L574-651 ---- *)
Definition heston_dict (p : params) : model_param :=
  P_dict [("tau", p_tau p); ("mu", p_r p - p_q p); ("var0", p_var0 p); ("vv", p_vv p); ("kappa", p_kappa p); ("theta", p_theta p); ("rho", p_rho p)]%string.
(* row k of Fk for one strike, L620-622 *)
Definition cos_Fk (p : params) (a b x0 : R) (k : nat) : option R :=
  let? z := if Req_EM_T b a then None else chf_fang p (INR k * PI / (b - a))%R in
  let F := Re (z * cexp (Ci * INR k * PI * ((x0 - a) / (b - a))%R))%C in
  Some (match k with O => 1 / 2 * F | _ => F end).
Fixpoint osum (l : list (option R)) : option R :=
  match l with [] => Some 0 | x :: t => let? v := x in let? s := osum t in Some (v + s) end.
(* K * sum(Fk * Uk) * exp(-r tau), L633-640 *)
Definition cos_px (p : params) (a b S0 : R) (N : nat) (call : bool) (K : R) : option R :=
  let? x0 := if Req_EM_T K 0 then None else log_of (S0 / K) in
  let? s := osum (map (fun k => let? f := cos_Fk p a b x0 k in Some (f * calculate_Uk call a b k)) (seq 0 N)) in
  Some (K * s * exp (- p_r p * p_tau p)).
Definition is_one (x : R) : bool := if Req_EM_T x 1 then true else false.
Definition is_minus_one (x : R) : bool := if Req_EM_T x (-1) then true else false.
Definition heston_cosine (p : params) (S0 : R) (cps Ks : list R) (N : nat) (L : R) (by_parity : bool) : result (list (option R)) :=
  let* _ := guard (Nat.eqb (List.length cps) (List.length Ks)) AssertionError in
  let* ab := get_cos_truncation_range "heston" L (heston_dict p) in
  let '(a, b) := ab in
  (* Fk[0] *)
  let* _ := guard (Nat.ltb 0 N) IndexError in
  (* call_px and put_px are bound only if needed, L626-642 *)
  let* _ := guard (by_parity || existsb is_one cps) NameError in
  let* _ := guard (by_parity || existsb is_minus_one cps) NameError in
  Ok (map (fun ck => let '(cp, K) := ck in
        if is_one cp then
          if by_parity then let? put := cos_px p a b S0 N false K in Some (put + S0 * exp (- p_q p * p_tau p) - K * exp (- p_r p * p_tau p))
          else cos_px p a b S0 N true K
        else if is_minus_one cp then cos_px p a b S0 N false K
        else None) (combine cps Ks)).
(* the defaults, used by heston_price_vanilla_european *)
Definition cosine_default (p : params) (S0 cp K : R) : result (list (option R)) := heston_cosine p S0 [cp] [K] 160 10 true.

(* ---- cos_method, L10-71; cf is any function, N the number of terms beyond the first ---- *)
Definition ceil (x : R) : Z := (1 - up (- x))%Z.
(* np.arange(a, c, dt) *)
Definition arange (a c dt : R) : list R := map (fun i => a + INR i * dt) (seq 0 (Z.to_nat (ceil ((c - a) / dt)))).
(* np.sort(np.unique(...)) *)
Fixpoint ins (x : R) (l : list R) : list R :=
  match l with
  | [] => [x]
  | y :: t => if Rlt_dec x y then x :: l else if Req_EM_T x y then l else y :: ins x t
  end.
Definition sort_unique (l : list R) : list R := fold_right ins [] l.
(* np.append(np.diff(pts), dt) *)
Fixpoint widths (dt : R) (l : list R) : list R :=
  match l with
  | [] => [dt]
  | [_] => [dt]
  | x :: ((y :: _) as t) => (y - x) :: widths dt t
  end.
Fixpoint cumsum_from (s : R) (l : list R) : list R := match l with [] => [] | x :: t => (s + x) :: cumsum_from (s + x) t end.
Fixpoint index_of (x : R) (l : list R) : option nat :=
  match l with [] => None | y :: t => if Req_EM_T y x then Some O else match index_of x t with Some i => Some (S i) | None => None end end.
Definition cos_pdf (cf : R -> C) (a b : R) (N : nat) (x : R) : R :=
  total (S N) (fun k =>
    (match k with O => 1 / 2 | _ => 1 end)
    * ((2 / (b - a) * Re (cf (INR k * PI / (b - a))%R * cexp (- Ci * INR k * PI * a / (b - a)%R))%C) * cos (INR k * PI * (x - a) / (b - a)))).
Record cos_result : Type := mk_cos { at_p : R; cdf_pts : list R; pdf_pts : list R; integral : R; points : list R }.
Definition rsum (l : list R) : R := fold_right Rplus 0 l.
Definition cos_method (p : R) (cf : R -> C) (dt a b : R) (N : nat) : result cos_result :=
  let lt x y := if Rlt_dec x y then true else false in
  let le x y := if Rle_dec x y then true else false in
  let* _ := guard (lt 0 dt) AssertionError in
  let* _ := guard (le (a + dt) b) AssertionError in
  let* _ := guard (le a p) AssertionError in
  let* _ := guard (le p b) AssertionError in
  let pts := sort_unique (p :: arange a (b + dt) dt) in
  let dt_pts := widths dt pts in
  let PDF_pts := map (cos_pdf cf a b N) pts in
  let cells := map (fun fd => fst fd * snd fd) (combine PDF_pts dt_pts) in
  let total_mass := rsum cells in
  let* _ := guard (negb (lt total_mass (cdf 5))) ValueError in
  let CDF_pts := cumsum_from 0 cells in
  match index_of p pts with
  | Some i => match nth_error CDF_pts i with Some v => Ok (mk_cos v CDF_pts PDF_pts total_mass pts) | None => Err IndexError end
  | None => Err IndexError
  end.
