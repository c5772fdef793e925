(* frm/pricing_engine/heston.py, L26-47, L212-520, L654-717: characteristic functions and the four integral pricers.
   Parameters are finite floats. A complex (or real) result None is not a finite number: compiled code ends in an infinity, a NaN or a
   ZeroDivisionError there, and nothing more is said about it. Signed zeros are not modelled. *)
From Coq Require Import ZArith Reals String List Bool.
From Coquelicot Require Import Complex.
From Verif Require Import Base NumModel CurveModel.
Import ListNotations.
Open Scope R_scope.

(* ---- numpy on complex numbers: /, exp, log and sqrt (principal branches), x**2 ---- *)
Definition cdiv (x y : C) : option C := if Ceq_dec y 0 then None else Some (x / y)%C.
Definition cexp (z : C) : C := (exp (fst z) * cos (snd z), exp (fst z) * sin (snd z)).
Definition carg (z : C) : R :=
  let '(x, y) := z in
  if Rlt_dec 0 x then atan (y / x)
  else if Rlt_dec x 0 then (if Rle_dec 0 y then atan (y / x) + PI else atan (y / x) - PI)
  else if Rlt_dec 0 y then PI / 2 else - (PI / 2).
Definition clog (z : C) : option C := if Ceq_dec z 0 then None else Some (ln (Cmod z), carg z).
Definition csqrt (z : C) : C :=
  let '(x, y) := z in
  (sqrt ((Cmod z + x) / 2), (if Rle_dec 0 y then 1 else -1) * sqrt ((Cmod z - x) / 2)).
Definition csq (z : C) : C := (z * z)%C.
Arguments cexp z%C.
Arguments csq z%C.
Arguments csqrt z%C.
Arguments clog z%C.
Arguments cdiv (x y)%C.

(* S0, tau, r, q, var0, vv, kappa, theta, rho *)
Record params : Type := mk_params { p_tau : R; p_r : R; p_q : R; p_var0 : R; p_vv : R; p_kappa : R; p_theta : R; p_rho : R }.

(* chf_heston_albrecher2007, L419-474 *)
Definition chf_albrecher (p : params) (log_S0 : R) (u : C) : option C :=
  let k := p_kappa p in let eta := p_theta p in let lam := p_vv p in let tau := p_tau p in
  let? sigma0 := if Rle_dec 0 (p_var0 p) then Some (sqrt (p_var0 p)) else None in
  (let d := csqrt (csq (p_rho p * lam * u * Ci - k) + (lam ^ 2)%R * (Ci * u + csq u)) in
   let? g2 := cdiv (k - p_rho p * lam * Ci * u - d) (k - p_rho p * lam * Ci * u + d) in
   let A := Ci * u * (log_S0 + (p_r p - p_q p) * tau)%R in
   let? lam_2 := if Req_EM_T lam 0 then None else Some (/ lam ^ 2)%R in
   let? ratio := cdiv (1 - g2 * cexp (- d * tau)) (1 - g2) in
   let? l := clog ratio in
   let B := eta * k * lam_2 * ((k - p_rho p * lam * Ci * u - d) * tau - 2 * l) in
   let? c := cdiv ((sigma0 ^ 2)%R * lam_2 * (k - p_rho p * lam * Ci * u - d) * (1 - cexp (- d * tau))) (1 - g2 * cexp (- d * tau)) in
   Some (cexp (A + B + c)))%C.

(* chf_heston_fang2008, L478-520 *)
Definition chf_fang (p : params) (u : C) : option C :=
  let mu := p_r p - p_q p in
  let lam := p_kappa p in let u_bar := p_theta p in let eta := p_vv p in let u0 := p_var0 p in let tau := p_tau p in
  (let W := lam - Ci * p_rho p * eta * u in
   let D := csqrt (csq W + (csq u + Ci * u) * (eta ^ 2)%R) in
   let? G2 := cdiv (W - D) (W + D) in
   let exp_D_tau := cexp (- D * tau) in
   let? a := if Req_EM_T eta 0 then None else Some (u0 / eta ^ 2)%R in
   let? b := cdiv (1 - exp_D_tau) (1 - G2 * exp_D_tau) in
   let inner_exp_1 := Ci * u * mu * tau + a * b * (W - D) in
   let? ratio := cdiv (1 - G2 * exp_D_tau) (1 - G2) in
   let? l := clog ratio in
   let inner_exp_2 := (lam * u_bar / eta ^ 2)%R * (tau * (W - D) - 2 * l) in
   Some (cexp (inner_exp_1 + inner_exp_2)))%C.

(* heston_1993_vanilla_european_integral up to the characteristic function, L243-267; m is 1 or 2 *)
Definition chf_1993 (p : params) (lambda_ log_S0 : R) (m : nat) (phi : C) : option C :=
  let mu := p_r p - p_q p in let tau := p_tau p in let sigma := p_vv p in
  let a := p_kappa p * p_theta p in
  let u := match m with 1%nat => 1 / 2 | _ => - (1 / 2) end in
  let b := match m with 1%nat => p_kappa p + lambda_ - p_rho p * sigma | _ => p_kappa p + lambda_ end in
  (let d := csqrt (csq (p_rho p * sigma * phi * Ci - b) - (sigma ^ 2)%R * (2 * u * phi * Ci - csq phi)) in
   let? g2 := cdiv (b - p_rho p * sigma * phi * Ci - d) (b - p_rho p * sigma * phi * Ci + d) in
   let? a_2 := if Req_EM_T sigma 0 then None else Some (a / sigma ^ 2)%R in
   let? ratio := cdiv (1 - g2 * cexp (- d * tau)) (1 - g2) in
   let? l := clog ratio in
   let c := mu * phi * Ci * tau + a_2 * ((b - p_rho p * sigma * phi * Ci - d) * tau - 2 * l) in
   let? w := cdiv (1 - cexp (- d * tau)) (1 - g2 * cexp (- d * tau)) in
   let D := (b - p_rho p * sigma * phi * Ci - d) / (sigma ^ 2)%R * w in
   Some (cexp (c + D * p_var0 p + Ci * phi * log_S0)))%C.

Definition log_of (x : R) : option R := if Rlt_dec 0 x then Some (ln x) else None.

(* heston_1993_vanilla_european_integral, L213-272 *)
Definition integrand_1993 (p : params) (lambda_ S0 K : R) (m : nat) (phi : R) : option R :=
  let? x := log_of S0 in
  let? c := chf_1993 p lambda_ x m phi in
  let? k := log_of K in
  let? f := cdiv (cexp (- Ci * phi * k) * c)%C (Ci * phi)%C in
  Some (Re f).

(* heston_fft_vanilla_european_integral, L389-416, before the real part is taken *)
Definition fft_func (p : params) (cp log_S0 alpha v : R) : option C :=
  let u := (v - (cp * alpha + 1)%R * Ci)%C in
  let? c := chf_albrecher p log_S0 u in
  cdiv (c * exp (- p_r p * p_tau p))%C (alpha ^ 2 + cp * alpha - v ^ 2 + Ci * (cp * 2 * alpha + 1)%R * v)%C.
Definition integrand_fft (p : params) (cp log_S0 log_K alpha v : R) : option R :=
  let? f := fft_func p cp log_S0 alpha v in Some (Re (cexp (- Ci * v * log_K) * f)%C).

(* heston_lipton_vanilla_european_integral, L686-717 *)
Definition integrand_lipton (p : params) (S0 K v : R) : option R :=
  let kappa := p_kappa p in let vv := p_vv p in let rho := p_rho p in let tau := p_tau p in
  let? X0 := if Req_EM_T K 0 then None else log_of (S0 / K) in
  let X := X0 + (p_r p - p_q p) * tau in
  let kappa_hat := kappa - rho * vv / 2 in
  (let zeta := csqrt ((v ^ 2 * vv ^ 2 * (1 - rho ^ 2))%R + 2 * Ci * v * vv * rho * kappa_hat + (kappa_hat ^ 2)%R + (vv ^ 2 / 4)%R) in
   let psi_plus := - (Ci * kappa * rho * vv + kappa_hat) + zeta in
   let psi_minus := (Ci * kappa * rho * vv + kappa_hat) + zeta in
   let? ratio := cdiv (psi_minus + psi_plus * cexp (- zeta * tau)) (2 * zeta) in
   let? log_term := clog ratio in
   let? a := if Req_EM_T vv 0 then None else Some (- kappa * p_theta p / vv ^ 2)%R in
   let alpha := a * (psi_plus * tau + 2 * log_term) in
   let? beta := cdiv (1 - cexp (- zeta * tau)) (psi_minus + psi_plus * cexp (- zeta * tau)) in
   let exponent := (- Ci * v + (1 / 2)%R) * X + alpha - (v ^ 2 + 1 / 4)%R * beta * p_var0 p in
   Some (Re (cexp exponent) / (v ^ 2 + 1 / 4))%R)%C.

(* ---- prices. scipy.integrate.quad over [0, inf] is an arbitrary function of the integrand ---- *)
Definition quadrature := (R -> option R) -> option R.

Section Prices.
Variable quad : quadrature.

(* heston1993_price_vanilla_european, L275-316 *)
Definition price_1993 (p : params) (lambda_ S0 cp K : R) : option R :=
  let? i1 := quad (integrand_1993 p lambda_ S0 K 1) in
  let? i2 := quad (integrand_1993 p lambda_ S0 K 2) in
  let P1 := 1 / 2 + 1 / PI * i1 in
  let P2 := 1 / 2 + 1 / PI * i2 in
  let Pplus := (1 - cp) / 2 + cp * P1 in
  let Pminus := (1 - cp) / 2 + cp * P2 in
  Some (cp * (S0 * exp (- p_q p * p_tau p) * Pplus - K * exp (- p_r p * p_tau p) * Pminus)).

(* heston_lipton_price_vanilla_european, L654-684 *)
Definition price_lipton (p : params) (S0 cp K : R) : option R :=
  let? i := quad (integrand_lipton p S0 K) in
  let c := exp (- p_q p * p_tau p) * S0 - exp (- p_r p * p_tau p) * K / PI * i in
  if Req_EM_T cp 1 then Some c else Some (c - S0 * exp (- p_q p * p_tau p) + K * exp (- p_r p * p_tau p)).

(* get_simpson_weights, L383-386 *)
Definition get_simpson_weights (n : Z) : list R :=
  map (fun w => w / 3) ([1] ++ List.concat (repeat [4; 2] (Z.to_nat ((n - 2) / 2))) ++ [1]).

(* scipy.fft.fft: entry k of the discrete Fourier transform *)
Definition dft (x : list C) (k : nat) : C :=
  fold_right Cplus 0 (map (fun jx => snd jx * cexp (- (2 * PI * INR (fst jx) * INR k / INR (List.length x))%R * Ci))%C (combine (seq 0 (List.length x)) x)).

(* Fast Fourier transform branch of heston_carr_madan_price_vanilla_european, L358-380, for N points *)
Definition fft_eta : R := 1 / 4.
Definition fft_lambda (N : Z) : R := 2 * PI / (IZR N * fft_eta).
Definition fft_b (N : Z) : R := IZR N * fft_lambda N / 2.
Definition fft_k (N : Z) (j : nat) : R := - fft_b N + fft_lambda N * INR j.
Definition fft_v (j : nat) : R := INR j * fft_eta.
Fixpoint all_some {A} (l : list (option A)) : option (list A) :=
  match l with
  | [] => Some []
  | x :: xs => let? a := x in let? t := all_some xs in Some (a :: t)
  end.
Definition fft_values (N : Z) (p : params) (cp log_S0 alpha : R) : option (result (list (R * option R))) :=
  let n := Z.to_nat N in
  let? F := all_some (map (fun j => fft_func p cp log_S0 alpha (fft_v j)) (seq 0 n)) in
  let w := get_simpson_weights N in
  Some (
    (* product of arrays of different lengths *)
    let* _ := guard (Nat.eqb (List.length w) n) ValueError in
    let x := map (fun jfw => let '(j, (f, w)) := jfw in (cexp (Ci * fft_b N * fft_v j) * f * fft_eta * RtoC w)%C) (combine (seq 0 n) (combine F w)) in
    Ok (map (fun j => (fft_k N j, Some (exp (- cp * fft_k N j * alpha) * Re (dft x j) / PI))) (seq 0 n))).
Definition fft_points : Z := 1024.

(* heston_carr_madan_price_vanilla_european, L320-380 *)
Definition price_carr_madan (p : params) (S0 cp K : R) (method : Z) : result (option R) :=
  let* alpha := if Req_EM_T cp 1 then Ok (3 / 4) else if Req_EM_T cp (-1) then Ok (7 / 4) else Err ValueError in
  match log_of S0, log_of K with
  | Some log_S0, Some log_K =>
      if (method =? 0)%Z then
        Ok (let? i := quad (integrand_fft p cp log_S0 log_K alpha) in Some (exp (- cp * log_K * alpha) * i / PI))
      else if (method =? 1)%Z then
        match fft_values fft_points p cp log_S0 alpha with
        | None => Ok None
        | Some values => let* v := values in Ok (np_interp v log_K)
        end
      else Err NameError
  | _, _ => if (method =? 0)%Z || (method =? 1)%Z then Ok None else Err NameError
  end.

(* heston_price_vanilla_european, L26-46; the cosine pricer is CosModel.v *)
Open Scope string_scope.
Definition heston_price (cosine : params -> R -> R -> R -> result (list (option R))) (p : params) (lambda_ S0 cp K : R) (method : string) : result (list (option R)) :=
  let one (x : result (option R)) := let* v := x in Ok [v] in
  if String.eqb method "heston_cosine" then cosine p S0 cp K
  else if String.eqb method "heston_1993" then one (Ok (price_1993 p lambda_ S0 cp K))
  else if String.eqb method "heston_carr_madan_gauss_kronrod_quadrature" then one (price_carr_madan p S0 cp K 0)
  else if String.eqb method "heston_carr_madan_fft_w_simpsons" then one (price_carr_madan p S0 cp K 1)
  else if String.eqb method "heston_lipton" then one (Ok (price_lipton p S0 cp K))
  else Err ValueError.
End Prices.
