(* frm/pricing_engine/garman_kohlhagen.py. Array arguments of the price are non-empty and one dimensional; numbers as in NormalModel. *)
From Coq Require Import String Reals List Bool.
From Verif Require Import Base NormalModel BlackModel.
Import ListNotations.
Open Scope R_scope.

Record gk : Type := mk_gk {
  g_S : list R; g_tau : list R; g_rd : list R; g_rf : list R; g_cp : list R; g_K : list R; g_vol : list R; g_F : option (list R) }.

(* ---- elementwise formulas ---- *)
(* L84-93: the domestic rate, implied from the market forward when one is given *)
Definition gk_rate (S tau rd rf : num) (F : option num) : num :=
  match F with
  | Some f => add (div (nlog (div f S)) tau) rf
  | None => rd
  end.
(* L96-97 *)
Definition gk_d1 (S tau r q K vol : num) : num :=
  div (add (nlog (div S K)) (mul (add (sub r q) (mul (Fin (1 / 2)) (mul vol vol))) tau)) (mul vol (nsqrt tau)).
Definition gk_d2 (S tau r q K vol : num) : num := sub (gk_d1 S tau r q K vol) (mul vol (nsqrt tau)).
Definition disc (r tau : num) : num := nexp (mul (neg r) tau).
(* L98 *)
Definition gk_elem (S tau r q cp K vol : num) : num :=
  mul cp (sub (mul (mul S (disc q tau)) (ncdf (mul cp (gk_d1 S tau r q K vol)))) (mul (mul K (disc r tau)) (ncdf (mul cp (gk_d2 S tau r q K vol))))).
(* L105 *)
Definition gk_intrinsic (S tau r q cp K : num) : num := positive_part (mul cp (sub (mul S (disc q tau)) (mul K (disc r tau)))).
(* L115-116 *)
Definition gk_spot_delta (S tau r q cp K vol : num) : num := mul (mul cp (disc q tau)) (ncdf (mul cp (gk_d1 S tau r q K vol))).
Definition gk_forward_delta (S tau r q cp K vol : num) : num := mul cp (ncdf (mul cp (gk_d1 S tau r q K vol))).
(* L120-121 *)
Definition gk_vega (S tau r q K vol : num) : num :=
  mul (mul (mul (mul S (nsqrt tau)) (npdf (gk_d1 S tau r q K vol))) (disc q tau)) (Fin (1 / 100)).
(* L124-127 *)
Definition gk_theta (S tau r q cp K vol : num) : num :=
  let d1 := gk_d1 S tau r q K vol in let d2 := gk_d2 S tau r q K vol in
  mul (sub (add (div (neg (mul (mul (mul S (disc r tau)) (npdf (mul d1 cp))) vol)) (mul (Fin 2) (nsqrt tau)))
                (mul (mul (mul q (disc q tau)) S) (ncdf (mul d1 cp))))
           (mul (mul (mul r (disc r tau)) K) (ncdf (mul d2 cp))))
      (Fin (4 / 1461)).
(* L131-132 *)
Definition gk_gamma (S tau r q K vol : num) : num :=
  mul (mul (Fin (1 / 100)) S) (div (mul (disc q tau) (npdf (gk_d1 S tau r q K vol))) (mul (mul S vol) (nsqrt tau))).
(* L136-137 *)
Definition gk_rho (S tau r q cp K vol : num) : num :=
  mul (mul (mul (mul K tau) (disc q tau)) (ncdf (mul cp (gk_d2 S tau r q K vol)))) (Fin (1 / 100)).

(* ---- garman_kohlhagen_price, L11-194 ---- *)
Definition all_pos (l : list R) : bool := forallb (fun x => if Rlt_dec 0 x then true else false) l.
Definition all_nonneg (l : list R) : bool := forallb (fun x => if Rle_dec 0 x then true else false) l.
Definition is_cp (x : R) : bool := if Req_EM_T x 1 then true else if Req_EM_T x (-1) then true else false.

(* lengths of the arrays that enter the price; the domestic rate does not when a forward is given *)
Definition gk_lens (a : gk) : list nat :=
  match g_F a with
  | None => [length (g_S a); length (g_tau a); length (g_rd a); length (g_rf a); length (g_cp a); length (g_K a); length (g_vol a)]
  | Some f => [length (g_S a); length (g_tau a); length f; length (g_rf a); length (g_cp a); length (g_K a); length (g_vol a)]
  end.

(* X[tau==0] = payoff[tau==0], L100: a mask must have the length of the array it indexes *)
Definition at_expiry (tau : list R) (payoff X : list num) : result (list num) :=
  let* _ := guard (Nat.eqb (length tau) (length payoff)) IndexError in
  let* _ := guard (Nat.eqb (length tau) (length X)) IndexError in
  Ok (map (fun q : R * (num * num) => let '(t, (p, x)) := q in if is_zero (Fin t) then p else x) (combine tau (combine payoff X))).

(* everything but the numerical greeks *)
Definition gk_core (a : gk) (split analytical : bool) : result priced :=
  let* _ := guard (all_pos (g_S a)) AssertionError in
  let* _ := guard (all_nonneg (g_tau a)) AssertionError in
  let* _ := guard (forallb is_cp (g_cp a)) AssertionError in
  let* _ := guard (Nat.eqb (length (g_cp a)) (length (g_vol a))) AssertionError in
  let* _ := guard (Nat.eqb (length (g_cp a)) (length (g_K a))) AssertionError in
  let* _ := match g_F a with Some f => guard (all_pos f) AssertionError | None => Ok tt end in
  match broadcast (gk_lens a) with
  | None => Err ValueError (* operands could not be broadcast together *)
  | Some n =>
      let S i := Fin (at_ (g_S a) i) in
      let tau i := Fin (at_ (g_tau a) i) in
      let q i := Fin (at_ (g_rf a) i) in
      let cp i := Fin (at_ (g_cp a) i) in
      let K i := Fin (at_ (g_K a) i) in
      let vol i := Fin (at_ (g_vol a) i) in
      let r i := gk_rate (S i) (tau i) (Fin (at_ (g_rd a) i)) (q i) (match g_F a with Some f => Some (Fin (at_ f i)) | None => None end) in
      let payoff := vec (size [length (g_cp a); length (g_S a); length (g_K a)]) (fun i => intrinsic_elem (S i) (cp i) (K i)) in
      let* X := at_expiry (g_tau a) payoff (vec n (fun i => gk_elem (S i) (tau i) (r i) (q i) (cp i) (K i) (vol i))) in
      (* every formula below contains tau, which has the full length n here *)
      let* sp := if split then let* s := split_values (g_tau a) (vec n (fun i => gk_intrinsic (S i) (tau i) (r i) (q i) (cp i) (K i))) X in Ok (Some s)
                 else Ok None in
      let greeks := [vec n (fun i => gk_spot_delta (S i) (tau i) (r i) (q i) (cp i) (K i) (vol i));
                     vec n (fun i => gk_forward_delta (S i) (tau i) (r i) (q i) (cp i) (K i) (vol i));
                     vec n (fun i => gk_vega (S i) (tau i) (r i) (q i) (K i) (vol i));
                     vec n (fun i => gk_theta (S i) (tau i) (r i) (q i) (cp i) (K i) (vol i));
                     vec n (fun i => gk_gamma (S i) (tau i) (r i) (q i) (K i) (vol i));
                     vec n (fun i => gk_rho (S i) (tau i) (r i) (q i) (cp i) (K i) (vol i))] in
      Ok (mk_priced X sp (if analytical then Some greeks else None) None)
  end.

(* spot and forward bumped together, L148-155 *)
Definition gk_bump (k : R) (a : gk) : gk :=
  mk_gk (bscale k (g_S a)) (g_tau a) (g_rd a) (g_rf a) (g_cp a) (g_K a) (g_vol a) (match g_F a with Some f => Some (bscale k f) | None => None end).

(* L140-192: results['numerical_greeks'] is read before it is ever assigned *)
Definition garman_kohlhagen_price (a : gk) (split analytical numerical : bool) : result priced :=
  let* r := gk_core a split analytical in
  if negb numerical then Ok r else
    let* _ := gk_core (gk_bump (101 / 100) a) false true in
    let* _ := gk_core (gk_bump (99 / 100) a) false true in
    Err KeyError.

(* ---- garman_kohlhagen_solve_strike_from_delta, L197-344; spot, expiry, rates and forward are scalars, as documented; one volatility per delta ---- *)
Definition sgn (x : R) : R := if Rlt_dec 0 x then 1 else if Rlt_dec x 0 then -1 else 0.
Definition is_atm (d : R) : bool := if Req_EM_T (Rabs d) (1 / 2) then true else false.

(* L269-275 *)
Definition regular_strike (spot : bool) (F rf tau vol delta : R) : num :=
  let cp := sgn delta in
  let z := nppf (if spot then Fin (cp * delta * exp (rf * tau)) else Fin (cp * delta)) in
  mul (Fin F) (nexp (add (mul (mul (mul (Fin (- cp)) z) (Fin vol)) (nsqrt (Fin tau))) (Fin (1 / 2 * (vol * vol) * tau)))).
(* L277-280 *)
Definition regular_quote (spot atm_forward : bool) (F rf tau vol delta : R) : num :=
  if atm_forward && is_atm delta then Fin (F * exp (1 / 2 * (vol * vol) * tau)) else regular_strike spot F rf tau vol delta.

(* L293-298, scaled objective of the root finder *)
Definition solve_delta (spot : bool) (F rf tau vol delta : R) (K : R) : num :=
  let cp := sgn delta in
  let m := if spot then exp (- rf * tau) else 1 in
  sub (mul (mul (Fin m) (div (Fin (cp * K)) (Fin F)))
           (ncdf (div (mul (Fin cp) (sub (nlog (div (Fin F) (Fin K))) (Fin (1 / 2 * (vol * vol) * tau)))) (mul (Fin vol) (nsqrt (Fin tau))))))
      (Fin delta).
(* L316-319: built from the rates, not from the forward *)
Definition solve_k_lower_bound (S0 tau rd rf vol : R) (K : R) : num :=
  let d2 := gk_d2 (Fin S0) (Fin tau) (Fin rd) (Fin rf) (Fin K) (Fin vol) in
  sub (mul (mul (Fin vol) (nsqrt (Fin tau))) (ncdf d2)) (npdf d2).

(* scipy's root_scalar(f, bracket=[a, b]): external *)
Inductive rs_outcome : Type := RS (root : R) (converged : bool) | RSRaises (e : exn).
Definition root_finder : Type := (R -> num) -> R -> num -> rs_outcome.

(* L289-339: one iteration; prev is the variable `solution` left by earlier iterations *)
Definition pa_step (rs : root_finder) (spot : bool) (S0 tau rd rf F : R) (prev : option (R * bool)) (vol delta : R) : result (R * option (R * bool)) :=
  let f := solve_delta spot F rf tau vol delta in
  let K_max := regular_quote spot true F rf tau vol delta in
  let finish (s : option (R * bool)) : result (R * option (R * bool)) :=
    match s with
    | None => Err NameError (* UnboundLocalError *)
    | Some (x, true) => Ok (x, s)
    | Some (_, false) => Err ValueError
    end in
  if Rlt_dec delta 0 then
    match rs f (/ 1000000) K_max with
    | RSRaises e => Err e
    | RS x c => finish (Some (x, c))
    end
  else if Rlt_dec 0 delta then
    (* `except ValueError(...)` names an instance, so any exception turns into TypeError *)
    match rs (solve_k_lower_bound S0 tau rd rf vol) (/ 100000) K_max with
    | RSRaises _ => Err TypeError
    | RS _ false => Err ValueError
    | RS k true =>
        match rs f k K_max with
        | RSRaises _ => Err TypeError
        | RS x c => finish (Some (x, c))
        end
    end
  else finish prev.

Fixpoint pa_loop (rs : root_finder) (spot : bool) (S0 tau rd rf F : R) (prev : option (R * bool)) (quotes : list (R * R)) : result (list R) :=
  match quotes with
  | [] => Ok []
  | (vol, delta) :: t =>
      if Req_EM_T delta (1 / 2) then
        let* k := pa_loop rs spot S0 tau rd rf F prev t in Ok (F * exp (- (1 / 2) * (vol * vol) * tau) :: k)
      else
        let* xs := pa_step rs spot S0 tau rd rf F prev vol delta in
        let* k := pa_loop rs spot S0 tau rd rf F (snd xs) t in Ok (fst xs :: k)
  end.

(* L282-339 *)
Definition premium_adjusted (rs : root_finder) (spot : bool) (S0 tau rd rf F : R) (quotes : list (R * R)) : result (list num) :=
  if existsb (fun q => negb (is_atm (snd q))) quotes
  then let* k := pa_loop rs spot S0 tau rd rf F None quotes in Ok (map Fin k)
  else Ok (map (fun q => Fin (F * exp (- (1 / 2) * (fst q * fst q) * tau))) quotes).

Local Open Scope string_scope.
Definition solve_strike_from_delta (rs : root_finder) (S0 tau rd rf : R) (vols deltas : list R) (convention : string) (F : option R) (atm : string)
  : result (list num) :=
  let* _ := guard (all_pos [S0] && all_pos [tau] && all_pos vols) AssertionError in
  let* _ := guard (forallb (fun d => if Rle_dec (Rabs d) (1 / 2) then true else false) deltas) AssertionError in
  let* _ := guard (Nat.eqb (length deltas) (length vols)) AssertionError in
  let* _ := guard (existsb (String.eqb convention) ["regular_spot"; "regular_forward"; "premium_adjusted_spot"; "premium_adjusted_forward"]) AssertionError in
  let* _ := guard (existsb (String.eqb atm) ["forward"; "per_delta_convention"]) AssertionError in
  let* fwd := match F with
              | None => Ok (S0 * exp ((rd - rf) * tau))
              | Some f => let* _ := guard (all_pos [f]) AssertionError in Ok f
              end in
  let quotes := combine vols deltas in
  if String.eqb convention "regular_spot" || String.eqb convention "regular_forward"
  then Ok (map (fun q => regular_quote (String.eqb convention "regular_spot") (String.eqb atm "forward") fwd rf tau (fst q) (snd q)) quotes)
  else premium_adjusted rs (String.eqb convention "premium_adjusted_spot") S0 tau rd rf fwd quotes.
Local Close Scope string_scope.

(* ---- garman_kohlhagen_solve_implied_vol, L347-411; scalar arguments; newton and root_scalar are external ---- *)
Definition gk_error (S0 tau rd rf cp K X : R) (v : R) : evaluation :=
  match garman_kohlhagen_price (mk_gk [S0] [tau] [rd] [rf] [cp] [K] [v] None) false false false with
  | Ok p => match p_price p with x :: _ => Value (sub x (Fin X)) | [] => Raise IndexError end
  | Err e => Raise e
  end.
(* newton raises RuntimeError when it does not converge; root_scalar's .root is returned whether or not brentq converged *)
Definition gk_solve_implied_vol (S0 tau rd rf cp K X : R) (newton : search root_outcome) (brent : search rs_outcome) : result num :=
  match run (gk_error S0 tau rd rf cp K X) newton with
  | Stopped _ => Err StopIteration
  | Failed e => Err e
  | Ended (Root x) => Ok (Fin x)
  | Ended (RootRaises e) => Err e
  | Ended NoConvergence =>
      match run (gk_error S0 tau rd rf cp K X) brent with
      | Stopped _ => Err StopIteration
      | Ended (RS x _) => Ok (Fin x)
      | Failed e | Ended (RSRaises e) => match e with ValueError => Ok PInf | _ => Err e end
      end
  end.
