(* frm/pricing_engine/heston.py, L719-944: simulation of spot and variance. Parameters are python floats, array entries numpy floats: exact reals extended with infinities and NaN. *)
From Coq Require Import Reals List Bool String.
From Verif Require Import Base NormalModel BlackModel MonteModel.
Import ListNotations.
Open Scope R_scope.

Record heston : Type := mk_heston { h_S0 : R; h_mu : R; h_var0 : R; h_vv : R; h_kappa : R; h_theta : R; h_rho : R; h_tau : R }.

(* x <= y and x < y of floats *)
Definition nle (x y : num) : bool :=
  match x, y with
  | NaN, _ | _, NaN => false
  | NInf, _ | _, PInf => true
  | Fin a, Fin b => if Rle_dec a b then true else false
  | _, _ => false
  end.
Definition nlt (x y : num) : bool :=
  match x, y with
  | NaN, _ | _, NaN => false
  | NInf, NInf | PInf, PInf => false
  | NInf, _ | _, PInf => true
  | Fin a, Fin b => if Rlt_dec a b then true else false
  | _, _ => false
  end.
Definition nabs (x : num) : num := match x with Fin a => Fin (Rabs a) | NaN => NaN | _ => PInf end.

Definition corr_matrix (rho : R) : mat R := mk_mat 2 2 (fun i j => if Nat.eqb i j then 1 else rho).
Definition phi_c : R := 3 / 2.

(* ---- quadratic exponential, L782-803 ---- *)
Section Qe.
Variables (h : heston) (dt : R).
Definition qe_m (v : num) : num := add (Fin (h_theta h)) (mul (sub v (Fin (h_theta h))) (Fin (exp (- h_kappa h * dt)))).
Definition qe_s2 (v : num) : num :=
  let e := exp (- h_kappa h * dt) in
  add (mul (div (mul (mul v (Fin (h_vv h ^ 2))) (Fin e)) (Fin (h_kappa h))) (Fin (1 - e)))
      (Fin (h_theta h * h_vv h ^ 2 / (2 * h_kappa h) * (1 - e) ^ 2)).
Definition qe_phi (v : num) : num := div (qe_s2 v) (npow2 (qe_m v)).
Definition qe_b2 (phi : num) : num :=
  let two := div (Fin 2) phi in add (sub two (Fin 1)) (nsqrt (mul two (sub two (Fin 1)))).
Definition qe_a (m b2 : num) : num := div m (add (Fin 1) b2).
Definition qe_p (phi : num) : num := div (sub phi (Fin 1)) (add phi (Fin 1)).
Definition qe_beta (m p : num) : num := div (sub (Fin 1) p) m.
Definition qe_low (a b2 : num) (z : R) : num := mul a (npow2 (add (nsqrt b2) (Fin z))).
Definition qe_high (p beta : num) (z : R) : num := mul (div (Fin 1) beta) (nlog (div (sub (Fin 1) p) (sub (Fin 1) (Fin (cdf z))))).
Definition k0 : R := - h_rho h * h_kappa h * h_theta h / h_vv h * dt.
Definition k1 : R := 1 / 2 * dt * (h_kappa h * h_rho h / h_vv h - 1 / 2) - h_rho h / h_vv h.
Definition k2 : R := 1 / 2 * dt * (h_kappa h * h_rho h / h_vv h - 1 / 2) + h_rho h / h_vv h.
Definition k34 : R := 1 / 2 * dt * (1 - h_rho h ^ 2).

(* scalar, L790-800; the entry is zero before it is assigned *)
Definition qe_variance (v : num) (z : R) : num :=
  let m := qe_m v in
  let phi := qe_phi v in
  if nle phi (Fin phi_c) then let b2 := qe_b2 phi in qe_low (qe_a m b2) b2 z
  else
    let p := qe_p phi in
    let beta := qe_beta m p in
    if nle (Fin 0) (Fin (cdf z)) && nle (Fin (cdf z)) p then Fin 0
    else if nlt p (Fin (cdf z)) && nle (Fin (cdf z)) (Fin 1) then qe_high p beta z
    else Fin 0.
(* vectorised, L902-923: the three masked assignments of one element *)
Definition qe_variance_masked (v : num) (z : R) : num :=
  let m := qe_m v in
  let phi := qe_phi v in
  let mask := nle phi (Fin phi_c) in
  let b2 := if mask then qe_b2 phi else NaN in
  let a := if mask then qe_a m b2 else NaN in
  let x := if mask then qe_low a b2 z else Fin 0 in
  let mask := negb mask in
  let p := if mask then qe_p phi else NaN in
  let beta := if mask then qe_beta m p else NaN in
  let x := if mask && (nle (Fin 0) (Fin (cdf z)) && nle (Fin (cdf z)) p) then Fin 0 else x in
  if mask && (nlt p (Fin (cdf z)) && nle (Fin (cdf z)) (Fin 1)) then qe_high p beta z else x.
(* L802 and L925 *)
Definition qe_log_spot (s v v' : num) (z : R) : num :=
  add (add (add (add (add s (Fin (h_mu h * dt))) (Fin k0)) (mul (Fin k1) v)) (mul (Fin k2) v'))
      (mul (nsqrt (add (mul (Fin k34) v) (mul (Fin k34) v'))) (Fin z)).
(* (log spot, variance) after i steps; z the spot and variance normals *)
Fixpoint qe_at (variance : num -> R -> num) (z : nat -> nat -> R) (i : nat) : num * num :=
  match i with
  | O => (nlog (Fin (h_S0 h)), Fin (h_var0 h))
  | S i =>
      let '(s, v) := qe_at variance z i in
      let v' := variance v (z i 1%nat) in
      (qe_log_spot s v v' (z i 0%nat), v')
  end.

(* ---- Euler schemes, L806-817: fix is applied to the previous variance in place ---- *)
Fixpoint euler_at (fix_ : num -> num) (u : nat -> nat -> num) (i : nat) : num * num :=
  match i with
  | O => (Fin (h_S0 h), Fin (h_var0 h))
  | S i =>
      let '(s, raw) := euler_at fix_ u i in
      let v := fix_ raw in
      (add s (mul s (add (Fin (h_mu h * dt)) (mul (nsqrt v) (u i 0%nat)))),
       add (add v (mul (mul (Fin (h_kappa h)) (sub (Fin (h_theta h)) v)) (Fin dt))) (mul (mul (Fin (h_vv h)) (nsqrt v)) (u i 1%nat)))
  end.
End Qe.

Open Scope string_scope.
(* max(x, 0), abs(x), or nothing *)
Definition euler_fix (method : string) (x : num) : num :=
  if String.eqb method "euler_with_absorption_of_volatility_process" then positive_part x
  else if String.eqb method "euler_with_reflection_of_volatility_process" then nabs x
  else x.

(* the array of both functions for one path; u holds the correlated normals times sqrt(dt) *)
Definition heston_path (h : heston) (variance : heston -> R -> num -> R -> num) (method : string) (n : nat) (z : nat -> nat -> R) (u : nat -> nat -> num) : result (nat -> nat -> num) :=
  let dt := h_tau h / INR n in
  if String.eqb method "quadratic_exponential" then
    (* L786 and L788 divide python floats *)
    let* _ := guard (if Req_EM_T (h_kappa h) 0 then false else true) ZeroDivisionError in
    let* _ := guard (if Req_EM_T (h_vv h) 0 then false else true) ZeroDivisionError in
    Ok (fun t c => let '(s, v) := qe_at h dt (variance h dt) z t in if Nat.eqb c 0 then nexp s else v)
  else if String.eqb (substring 0 5 method) "euler" then
    Ok (fun t c => let '(s, raw) := euler_at h dt (euler_fix method) u t in if Nat.eqb c 0 then s else if Nat.ltb t n then euler_fix method raw else raw)
  else Ok (fun _ _ => Fin 0).

(* heston_simulate_scalar, L719-821 *)
Definition heston_simulate_scalar (cholesky : factorisation) (h : heston) (method : string) (z : mat R) : result (mat num) :=
  let* _ := guard (Nat.eqb (nc z) 2) AssertionError in
  let n := nr z in
  let* _ := guard (negb (Nat.eqb n 0)) ZeroDivisionError in
  let* c := normal_corr cholesky (corr_matrix (h_rho h)) z in
  let u := fun i v => mul (Fin (me c i v)) (nsqrt (Fin (h_tau h / INR n))) in
  let* x := heston_path h qe_variance method n (me z) u in
  Ok (mk_mat (S n) 2 x).
(* heston_simulate, L824-944; at least one simulation *)
Definition heston_simulate (cholesky : factorisation) (h : heston) (method : string) (z : arr3 R) : result (arr3 num) :=
  let* _ := guard (Nat.eqb (d1 z) 2) AssertionError in
  let n := d0 z in
  let* _ := guard (negb (Nat.eqb n 0)) ZeroDivisionError in
  let* c := normal_corr3 cholesky (corr_matrix (h_rho h)) z in
  let path := fun s =>
    let u := fun i v => mul (Fin (el c i v s)) (nsqrt (Fin (h_tau h / INR n))) in
    heston_path h qe_variance_masked method n (fun i v => el z i v s) u in
  (* whether an exception is raised does not depend on the simulation *)
  let* _ := path O in
  Ok (mk_arr3 (S n) 2 (d2 z) (fun t v s => match path s with Ok x => x t v | Err _ => NaN (* not reached *) end)).
