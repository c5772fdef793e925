(* frm/term_structures/optionlet.py: cap and floor quotes, the bootstrap of optionlet volatilities and the pricing of optionlets.
   The frames hold finite numbers; finite arithmetic is exact. The searches of scipy and the roots of numpy are parameters.
   Year fractions, discount factors and forward rates of the rows come from functions modelled elsewhere and are data here. *)
From Coq Require Import ZArith Reals List Bool.
From Verif Require Import Base NumModel NormalModel CurveModel BlackModel SabrModel.
Import ListNotations.
Open Scope R_scope.

(* ---- __post_init__, L46-121 ---- *)
(* frames: what L62-105 does to the quotes, which may raise. L111 reads self.cal, an attribute the class does not have *)
Definition optionlet_init {A} (settlement_date : option Z) (settlement_delay : option Z) (busday : Z -> result Z) (frames : Z -> result unit) : result A :=
  let* settlement := match settlement_date, settlement_delay with
                     | None, None => Err ValueError
                     | None, Some n => busday n
                     | Some d, _ => Ok d
                     end in
  let* _ := frames settlement in
  Err AttributeError.

(* ---- the term structure and the quotes, L107-176 ---- *)
(* columns period_start, period_end, expiry_years, F and annuity_factor of one row of term_structure *)
Record caplet : Type := mk_caplet { c_start : Z; c_end : Z; c_tau : R; c_F : R; c_ann : R }.
(* columns quote_nb, (vol_n_atm, vol_sln_atm) and (alpha, beta, rho, volvol); None: still NaN *)
Record entry : Type := mk_entry { e_row : caplet; e_nb : nat; e_atm : option (R * R); e_sabr : option (R * R * R * R) }.

(* mask.idxmax() of a mask with a True in it *)
Fixpoint first_index {A} (f : A -> bool) (l : list A) : option nat :=
  match l with
  | [] => None
  | x :: r => if f x then Some 0%nat else option_map S (first_index f r)
  end.
(* L123-130; terms: termination dates of the quotes after the sort of L93 *)
Definition quote_nb (terms : list Z) (e : Z) : nat := match first_index (fun t => (e <=? t)%Z) terms with Some i => i | None => 0%nat end.
Definition new_table (terms : list Z) (rows : list caplet) : list entry := map (fun c => mk_entry c (quote_nb terms (c_end c)) None None) rows.

Definition rsum (l : list R) : R := fold_right Rplus 0 l.
(* L133-137: the annuity weighted forward of a quote *)
Definition quote_forward (rows : list caplet) (term : Z) : num :=
  let m := filter (fun c => (c_end c <=? term)%Z) rows in
  div (Fin (rsum (map (fun c => c_F c * c_ann c) m))) (Fin (rsum (map c_ann m))).
(* L140-143; offsets: the values of quote_str_map *)
Definition quote_strikes (F : num) (offsets : list R) : list num := map (fun o => add F (Fin o)) offsets.
(* L146-149 *)
Definition quote_cp (F : num) (strikes : list num) : list R := map (fun k => if is_pos (sub k F) then 1 else -1) strikes.

(* black76_price(...)['price'] * annuity_factor for one row and one strike, L165-171, L305-311, L428-434, L470-476; the default annuity factor is 1.
   The volatility may be NaN here; OptionletProofs shows the agreement with black76_price on finite ones. *)
Definition caplet_px (shift : R) (c : caplet) (cp : R) (K vol : num) : num :=
  mul (b76_elem (Fin (c_F c + shift)) (Fin (c_tau c)) (Fin cp) (add K (Fin shift)) vol (Fin 1)) (Fin (c_ann c)).

Definition labelled {A} (l : list A) : list (nat * A) := combine (seq 0 (length l)) l.
(* term_structure[mask] for a mask on quote_nb; rows keep their labels *)
Definition select (p : nat -> bool) (t : list entry) : list (nat * entry) := filter (fun e => p (e_nb (snd e))) (labelled t).
(* px[i, :] = ... for an array with one row per selected row, indexed by the label *)
Definition labels_fit (m : list (nat * entry)) : result unit := guard (forallb (fun e => Nat.ltb (fst e) (length m)) m) IndexError.

(* prices of one quote, one per column, L156-176 *)
Definition quote_pxs (shift : R) (q : nat) (cps : list R) (Ks : list num) (vols : list R) (t : list entry) : result (list num) :=
  let m := select (fun n => Nat.leb n q) t in
  let* _ := labels_fit m in
  Ok (map (fun x : R * (num * R) => let '(cp, (K, vol)) := x in nsum (map (fun e => caplet_px shift (e_row (snd e)) cp K (Fin vol)) m))
          (combine cps (combine Ks vols))).

(* the equivalent normal volatility of one quote and column, L185-228 *)
Definition normal_sum (q : nat) (cp K : R) (t : list entry) (v : R) : result num :=
  let m := map (fun e => e_row (snd e)) (select (fun n => Nat.leb n q) t) in
  let* p := bachelier_price (mk_bach (map c_F m) (map c_tau m) [cp] [K] [v] (map c_ann m)) false false false in
  Ok (nsum (p_price p)).
Definition quote_vol_n (q : nat) (cp K : R) (px : num) (lbfgs : search min_outcome) (t : list entry) : result R :=
  minimise (relative_objective (normal_sum q cp K t) px) lbfgs.

(* ---- _solve_vol_n_atm, L255-382 ---- *)
(* np.interp with two points *)
Inductive place : Set := AtLeft | AtRight | Between.
Definition place_of (X0 X1 x : R) : place :=
  if Rlt_dec X1 x then AtRight else if Rlt_dec x X0 then AtLeft else if Rle_dec X1 x then AtRight else if Req_EM_T x X0 then AtLeft else Between.
Definition lin2 (X0 X1 Y0 Y1 x : R) : R :=
  match place_of X0 X1 x with AtLeft => Y0 | AtRight => Y1 | Between => (Y1 - Y0) / (X1 - X0) * (x - X0) + Y0 end.
(* the same for a left value that may not be finite *)
Definition lin2_num (X0 X1 : R) (Y0 Y1 : num) (x : R) : num :=
  match place_of X0 X1 x with AtLeft => Y0 | AtRight => Y1 | Between => add (mul (div (sub Y1 Y0) (Fin (X1 - X0))) (Fin (x - X0))) Y0 end.

(* pd.Series(mask)[::-1].idxmax(): the last label selected; the last label of all when none is *)
Definition pillar (p : nat -> bool) (t : list entry) : result nat :=
  match t with
  | [] => Err ValueError
  | _ => match rev (select p t) with (i, _) :: _ => Ok i | [] => Ok (length t - 1)%nat end
  end.
Definition row_at (t : list entry) (i : nat) : result entry := match nth_error t i with Some e => Ok e | None => Err KeyError end.
(* columns that are NaN when they are read: not modelled, OptionletProofs shows that the bootstrap never reads them *)
Definition atm_of (e : entry) : result (R * R) := match e_atm e with Some p => Ok p | None => Err OutOfFuel end.
Definition sabr_of (e : entry) : result (R * R * R * R) := match e_sabr e with Some p => Ok p | None => Err OutOfFuel end.

(* the searches made for one quote *)
Record searches : Type := mk_searches {
  x_quote : nat -> search min_outcome; (* L216, one per column *)
  x_brent : search root_outcome; x_lbfgs : search min_outcome; (* inside black76_sln_to_normal_vol, L314 *)
  x_pillar : search min_outcome; (* L353 *)
  x_sln : nat -> search min_outcome; (* inside normal_vol_to_black76_sln, L377, one per row *)
  x_fit : fit_search (* L486 *) }.

Definition taus (m : list (nat * entry)) : list R := map (fun e => c_tau (e_row (snd e))) m.
Definition fwds (m : list (nat * entry)) : list R := map (fun e => c_F (e_row (snd e))) m.

(* vol_sln[-1], L318: the array of a single volatility has become a float *)
Definition last_vol (vols : list num) : result num :=
  match vols with [_] => Err TypeError | _ => match rev vols with v :: _ => Ok v | [] => Err IndexError end end.

(* L291-342: the normal volatility of the prior pillar at the strike, the target, and the price of the current rows for a volatility at the pillar *)
Definition pillar_problem (shift : R) (q : nat) (cp K : R) (px : num) (x : searches) (t : list entry) : result (num * num * (R -> num)) :=
  let prior := select (fun n => Nat.ltb n q) t in
  let current := select (fun n => Nat.eqb n q) t in
  let* pi := pillar (fun n => Nat.ltb n q) t in
  let* ci := pillar (fun n => Nat.eqb n q) t in
  let* ps := sequence (map (fun e => sabr_of (snd e)) prior) in
  let* sln := calc_sln_vol (mk_smile (taus prior) (fwds prior) (map (fun p => fst (fst (fst p))) ps) (map (fun p => snd (fst (fst p))) ps)
                                     (map (fun p => snd (fst p)) ps) (map snd ps)) [K] [shift] in
  let pxs := map (fun z : (nat * entry) * num => caplet_px shift (e_row (snd (fst z))) cp (Fin K) (snd z)) (combine prior sln) in
  (* optionlets.loc[N, ...] with N = len(optionlets) - 1 *)
  let* r := match prior, find (fun e => Nat.eqb (fst e) (length prior - 1)) prior with _ :: _, Some e => Ok (e_row (snd e)) | _, _ => Err KeyError end in
  let* v := last_vol sln in
  let* y0 := match v with Fin v => black76_sln_to_normal_vol (c_F r) (c_tau r) K v shift (x_brent x) (x_lbfgs x) | _ => Err OutOfFuel (* not modelled *) end in
  let* ep := row_at t pi in
  let* ec := row_at t ci in
  Ok (y0, sub px (nsum pxs),
      fun p => nsum (map (fun e : nat * entry => let c := e_row (snd e) in
                            mul (bach_elem (Fin (c_F c)) (Fin (c_tau c)) (Fin cp) (Fin K)
                                           (lin2_num (c_tau (e_row ep)) (c_tau (e_row ec)) y0 (Fin p) (c_tau c)) (Fin 1)) (Fin (c_ann c))) current)).

(* the column vol_n_atm of the current rows as a function of expiry_years, L277-373 *)
Definition atm_curve (shift : R) (q : nat) (cp K : R) (px : num) (vol_n : R) (x : searches) (t : list entry) : result (R -> R) :=
  if Nat.eqb q 0 then let* _ := pillar (fun n => Nat.ltb n q) t in Ok (fun _ => vol_n)
  else
    let* p := pillar_problem shift q cp K px x t in
    let '(y0, target, price) := p in
    let* v := minimise (relative_objective (fun p => Ok (price p)) target) (x_pillar x) in
    let* pi := pillar (fun n => Nat.ltb n q) t in
    let* ci := pillar (fun n => Nat.eqb n q) t in
    let* ep := row_at t pi in
    let* ec := row_at t ci in
    let* prior := atm_of ep in
    Ok (lin2 (c_tau (e_row ep)) (c_tau (e_row ec)) (fst prior) v).

Definition update (q : nat) (f : nat -> entry -> result entry) (t : list entry) : result (list entry) :=
  sequence (map (fun e => if Nat.eqb (e_nb (snd e)) q then f (fst e) (snd e) else Ok (snd e)) (labelled t)).

Definition solve_vol_n_atm (shift : R) (q : nat) (cp K : R) (px : num) (vol_n : R) (x : searches) (t : list entry) : result (list entry) :=
  let* curve := atm_curve shift q cp K px vol_n x t in
  (* L376-382 *)
  update q (fun i e => let c := e_row e in let n := curve (c_tau c) in
                       let* s := normal_vol_to_black76_sln (c_F c) (c_tau c) (c_F c) n shift (x_sln x i) in
                       Ok (mk_entry c (e_nb e) (Some (n, s)) (e_sabr e))) t.

(* ---- _solve_sabr_params, L385-518 ---- *)
Definition colsum (k : nat) (rows : list (list num)) : list num := map (fun j => nsum (map (fun r => nth j r NaN) rows)) (seq 0 k).
(* prices of one row for every column *)
Definition sabr_pxs (shift : R) (cols : list (R * R * num)) (c : caplet) (p : R * R * R * R) : result (list num) :=
  let '(a, b, r, v) := p in
  let Ks := map (fun z => snd (fst z)) cols in
  let* vols := calc_sln_vol (smile1 (c_tau c) (c_F c) a b r v) Ks [shift] in
  Ok (map (fun z : (R * R * num) * num => caplet_px shift c (fst (fst (fst z))) (Fin (snd (fst (fst z)))) (snd z)) (combine cols vols)).

(* beta, rho and volvol of a row as functions of expiry_years, L406-422 and L496-509 *)
Definition sabr_curves (q : nat) (t : list entry) (b r v : R) : result ((R -> R) * (R -> R) * (R -> R)) :=
  let* pi := pillar (fun n => Nat.ltb n q) t in
  let* ci := pillar (fun n => Nat.eqb n q) t in
  if Nat.eqb q 0 then Ok ((fun _ => b), (fun _ => r), (fun _ => v))
  else
    let* ep := row_at t pi in
    let* ec := row_at t ci in
    let* p := sabr_of ep in
    let '(_, b0, r0, v0) := p in
    let X0 := c_tau (e_row ep) in let X1 := c_tau (e_row ec) in
    Ok (lin2 X0 X1 b0 b, lin2 X0 X1 r0 r, lin2 X0 X1 v0 v).
(* L425 and L514 *)
Definition row_params (shift : R) (roots : solver) (curves : (R -> R) * (R -> R) * (R -> R)) (e : entry) : result (R * R * R * R) :=
  let '(fb, fr, fv) := curves in
  let c := e_row e in let t := c_tau c in
  let* atm := atm_of e in
  let* a := solve_alpha roots t (c_F c) (fb t) (fr t) (fv t) (snd atm) shift in
  Ok (a, fb t, fr t, fv t).

(* L453-478 *)
Definition sabr_target (shift : R) (q : nat) (cols : list (R * R * num)) (t : list entry) : result (list num) :=
  if Nat.eqb q 0 then Ok (map snd cols)
  else
    let prior := select (fun n => Nat.ltb n q) t in
    let* _ := labels_fit prior in
    let* rows := sequence (map (fun e => let* p := sabr_of (snd e) in sabr_pxs shift cols (e_row (snd e)) p) prior) in
    Ok (map (fun z => sub (fst z) (snd z)) (combine (map snd cols) (colsum (length cols) rows))).
(* sse_sabr_for_pillar_optionlet, L390-437 *)
Definition sabr_objective (shift : R) (roots : solver) (q : nat) (cols : list (R * R * num)) (beta : option R) (target : list num) (t : list entry) (x : list R) : result num :=
  let* p := unpack beta x in
  let '(b, r, v) := p in
  let* curves := sabr_curves q t b r v in
  let* rows := sequence (map (fun e => let* p := row_params shift roots curves (snd e) in sabr_pxs shift cols (e_row (snd e)) p) (select (fun n => Nat.eqb n q) t)) in
  let errs := map (fun z => div (sub (fst z) (snd z)) (fst z)) (combine target (colsum (length cols) rows)) in
  Ok (nsum (map (fun e => div (npow2 e) (Fin (INR (length errs)))) errs)).
(* bounds passed to the search, L485, in the order of its parameters; None: unbounded *)
Definition sabr_bounds (beta : option R) : list (R * option R) :=
  match beta with Some _ => [(-1, Some 1); (1 / 10000, None)] | None => [(-1, Some 1); (-1, Some 1); (1 / 10000, None)] end.

Definition solve_sabr_params (shift : R) (roots : solver) (q : nat) (cols : list (R * R * num)) (beta : option R) (x : searches) (t : list entry) : result (list entry) :=
  let* target := sabr_target shift q cols t in
  let* y := fit_run (sabr_objective shift roots q cols beta target t) (x_fit x) in
  let* p := unpack beta y in
  let '(b, r, v) := p in
  let* curves := sabr_curves q t b r v in
  update q (fun _ e => let* s := row_params shift roots curves e in Ok (mk_entry (e_row e) (e_nb e) (e_atm e) (Some s))) t.

(* ---- the quotes together, L132-249 ---- *)
(* termination date, volatilities of the columns (the first one is atmf), the column beta, and the searches made for the quote *)
Record capquote : Type := mk_capquote { k_term : Z; k_vols : list R; k_beta : option R; k_searches : searches }.
Definition finite (x : num) : result R := match x with Fin r => Ok r | _ => Err OutOfFuel end. (* quotes without a forward are not modelled *)
(* per quote: cp, strike and price of every column, and the normal volatility of the column atmf, L132-228 *)
Definition quote_frame (shift : R) (rows : list caplet) (offsets : list R) (t : list entry) (q : nat) (k : capquote) : result (list (R * R * num) * R) :=
  let F := quote_forward rows (k_term k) in
  let strikes := quote_strikes F offsets in
  let* Ks := sequence (map finite strikes) in
  let cps := quote_cp F strikes in
  let* _ := guard (Nat.eqb (length (k_vols k)) (length offsets)) KeyError in
  let* pxs := quote_pxs shift q cps strikes (k_vols k) t in
  let cols := combine (combine cps Ks) pxs in
  let* vols := sequence (map (fun z : nat * (R * R * num) => let '(j, (cp, K, px)) := z in quote_vol_n q cp K px (x_quote (k_searches k) j) t) (labelled cols)) in
  match vols with v :: _ => Ok (cols, v) | [] => Err KeyError end.

(* one pass of the loop of L236-249 *)
Definition solve_quote (shift : R) (roots : solver) (q : nat) (f : list (R * R * num) * R) (k : capquote) (t : list entry) : result (list entry) :=
  match fst f with
  | [] => Err KeyError
  | (cp, K, px) :: _ =>
      let* t := solve_vol_n_atm shift q cp K px (snd f) (k_searches k) t in
      solve_sabr_params shift roots q (fst f) (k_beta k) (k_searches k) t
  end.
Fixpoint solve_quotes (shift : R) (roots : solver) (q : nat) (fs : list ((list (R * R * num) * R) * capquote)) (t : list entry) : result (list entry) :=
  match fs with
  | [] => Ok t
  | (f, k) :: r => let* t := solve_quote shift roots q f k t in solve_quotes shift roots (S q) r t
  end.
(* quotes sorted by termination date; offsets start with the 0 of atmf *)
Definition calibrate (shift : R) (roots : solver) (rows : list caplet) (offsets : list R) (quotes : list capquote) : result (list entry) :=
  let t := new_table (map k_term quotes) rows in
  let* fs := sequence (map (fun z => quote_frame shift rows offsets t (fst z) (snd z)) (labelled quotes)) in
  solve_quotes shift roots 0 (combine fs quotes) t.

(* ---- interpolate_sabr_term_structure, L521-571 ---- *)
(* a row of the schedule: dates, year fraction from the curve date to the start, forward rate, year fraction and discount factor of the period *)
Record leg : Type := mk_leg { l_start : Z; l_end : Z; l_tau : R; l_F : R; l_yf : R; l_df : R }.
(* vol_n_atm, vol_sln_atm, alpha, beta, rho, volvol of a row of the answer *)
Record point : Type := mk_point { i_leg : leg; i_vol_n : R; i_vol_sln : R; i_alpha : R; i_beta : R; i_rho : R; i_volvol : R }.
(* DataFrame.interpolate(method='index') of one column at a date: linear in time, NaN before the first date, the last value after the last one *)
Definition interp_index (pts : list (R * option R)) (x : R) : option R :=
  match pts with [] => None | p :: _ => if Rlt_dec x (fst p) then None else np_interp pts x end.
Definition column_of (f : entry -> option R) (t : list entry) : list (R * option R) := map (fun e => (IZR (c_start (e_row e)), f e)) t.
Definition col_vol_n (e : entry) : option R := option_map fst (e_atm e).
Definition col_beta (e : entry) : option R := option_map (fun p => snd (fst (fst p))) (e_sabr e).
Definition col_rho (e : entry) : option R := option_map (fun p => snd (fst p)) (e_sabr e).
Definition col_volvol (e : entry) : option R := option_map snd (e_sabr e).
(* L536-559 for one row; np.roots refuses coefficients that are not finite (LinAlgError, a ValueError) *)
Definition interpolate_leg (shift : R) (roots : solver) (t : list entry) (l : leg) : result point :=
  let at_date f := interp_index (column_of f t) (IZR (l_start l)) in
  match at_date col_beta, at_date col_rho, at_date col_volvol, at_date col_vol_n with
  | Some b, Some r, Some v, Some n =>
      match normal_vol_atm_to_black76_sln_atm (l_F l) (l_tau l) n shift with
      | Fin s => let* a := solve_alpha roots (l_tau l) (l_F l) b r v s shift in Ok (mk_point l n s a b r v)
      | _ => Err ValueError
      end
  | _, _, _, _ => Err ValueError
  end.
Fixpoint repeated (l : list Z) : bool := match l with [] => false | x :: r => existsb (Z.eqb x) r || repeated r end.
(* L546 assigns one value per row of the schedule to a frame without repeated dates *)
Definition interpolate_table (shift : R) (roots : solver) (t : list entry) (legs : list leg) : result (list point) :=
  let* _ := guard (negb (repeated (map l_start legs))) ValueError in
  sequence (map (interpolate_leg shift roots t) legs).

(* ---- _validate_strike_and_option_type, L574-592 ---- *)
Inductive strike_arg : Type := StrikeNumber (k : R) | StrikeOther | StrikeArray (ks : list R).
(* an int; anything else that is neither a list nor an array (1.0, numpy integers, strings); a list or array *)
Inductive type_arg : Type := TypeInt (c : Z) | TypeOther | TypeArray (cs : list R).
Definition is_one (c : R) : bool := if Req_EM_T c 1 then true else if Req_EM_T c (-1) then true else false.
Definition validate (K : strike_arg) (cp : type_arg) (n : nat) : result unit :=
  let* _ := match K with StrikeNumber _ => Ok tt | StrikeOther => Err AssertionError | StrikeArray ks => guard (Nat.eqb (length ks) n) AssertionError end in
  let* _ := match cp with
            | TypeInt c => guard (Z.eqb c 1 || Z.eqb c (-1)) AssertionError
            | TypeOther => Err AssertionError
            | TypeArray cs => guard (Nat.eqb (length cs) n && forallb is_one cs) AssertionError
            end in
  match K, cp with
  | StrikeArray _, TypeArray _ => Ok tt
  | StrikeArray _, _ | _, TypeArray _ => Err AssertionError
  | _, _ => Ok tt
  end.
Definition strike_list (K : strike_arg) : list R := match K with StrikeNumber k => [k] | StrikeOther => [] | StrikeArray ks => ks end.
Definition type_list (cp : type_arg) : list R := match cp with TypeInt c => [IZR c] | TypeOther => [] | TypeArray cs => cs end.

(* ---- _price_optionlets, L595-702 ---- *)
(* a row of the answer; g_vol is vol_n for the normal model and vol_sln otherwise *)
Record detail : Type := mk_detail { g_point : point; g_K : R; g_cp : R; g_ann : R; g_vol : num; g_forward_price : num; g_price : num; g_intrinsic : num; g_time : num; g_delta : num; g_vega : num }.
(* df[name] = override: a number, or an array of one element or of one per row *)
Definition spread (n : nat) (l : list R) : result (list R) := match l with [x] => Ok (repeat x n) | _ => let* _ := guard (Nat.eqb (length l) n) ValueError in Ok l end.
Definition split_elem (tau : R) (payoff price : num) : num := if is_pos (Fin tau) then payoff else if is_zero (Fin tau) then price else NaN.
Definition row76 (shift : R) (p : point) (K cp : R) (vol : num) : detail :=
  let l := i_leg p in
  let ann := l_yf l * l_df l in
  let F := Fin (l_F l + shift) in let Ks := Fin (K + shift) in let tau := Fin (l_tau l) in
  let px := b76_elem F tau (Fin cp) Ks vol (Fin ann) in
  let i := split_elem (l_tau l) (intrinsic_elem F (Fin cp) Ks) px in
  mk_detail p K cp ann vol (div px (Fin ann)) px i (sub px i) (b76_delta_elem F tau (Fin cp) Ks vol (Fin ann)) (b76_vega_elem F tau Ks vol (Fin ann)).
Definition row_n (p : point) (K cp : R) (vol : num) : detail :=
  let l := i_leg p in
  let ann := l_yf l * l_df l in
  let F := Fin (l_F l) in let tau := Fin (l_tau l) in
  let px := bach_elem F tau (Fin cp) (Fin K) vol (Fin ann) in
  let i := split_elem (l_tau l) (intrinsic_elem F (Fin cp) (Fin K)) px in
  mk_detail p K cp ann vol (div px (Fin ann)) px i (sub px i) (bach_delta_elem F tau (Fin cp) (Fin K) vol (Fin ann)) (bach_vega_elem F tau (Fin cp) (Fin K) vol (Fin ann)).

Record flat_search : Type := mk_flat_search { y_brent : search root_outcome; y_lbfgs : search min_outcome; y_brent_n : search root_outcome; y_lbfgs_n : search min_outcome }.
Definition price_optionlets (shift : R) (roots : solver) (t : list entry) (legs : list leg) (K : strike_arg) (cp : type_arg)
    (vol_sln vol_n : option (list R)) (use_term_structure solve_flat : bool) (y : flat_search) : result (list detail * option (R * R)) :=
  let n := length legs in
  let* _ := validate K cp n in
  let* pts := interpolate_table shift roots t legs in
  let Fs := map (fun p => l_F (i_leg p)) pts in let ts := map (fun p => l_tau (i_leg p)) pts in
  (* L616-634: the columns vol_sln and vol_n *)
  let* cols := if use_term_structure then
                 let* v := calc_sln_vol (mk_smile ts Fs (map i_alpha pts) (map i_beta pts) (map i_rho pts) (map i_volvol pts)) (strike_list K) [shift] in Ok (Some v, None)
               else match vol_sln, vol_n with
                    | Some v, _ => let* v := spread n v in Ok (Some (map Fin v), None)
                    | None, Some v => let* v := spread n v in Ok (None, Some (map Fin v))
                    | None, None => Ok (None, None)
                    end in
  let* Ks := spread n (strike_list K) in
  let* cps := spread n (type_list cp) in
  (* L642-664 *)
  let* rows := match vol_n with
               | Some _ => match snd cols with Some v => Ok (map (fun z : point * (R * (R * num)) => let '(p, (k, (c, s))) := z in row_n p k c s) (combine pts (combine Ks (combine cps v)))) | None => Err KeyError end
               | None => match fst cols with Some v => Ok (map (fun z : point * (R * (R * num)) => let '(p, (k, (c, s))) := z in row76 shift p k c s) (combine pts (combine Ks (combine cps v)))) | None => Err KeyError end
               end in
  (* L674-702 *)
  if use_term_structure && solve_flat then
    let target := nsum (map g_price rows) in
    let anns := map g_ann rows in
    let* s := black76_solve_implied_vol (mk_b76 Fs ts cps Ks [] [shift] anns) target (y_brent y) (y_lbfgs y) in
    let* m := bachelier_solve_implied_vol (mk_bach Fs ts cps Ks [] anns) target (y_brent_n y) (y_lbfgs_n y) in
    Ok (rows, Some (s, m))
  else Ok (rows, None).

(* L704-745 *)
Definition price_per_term_structure shift roots t legs K cp solve_flat y := price_optionlets shift roots t legs K cp None None true solve_flat y.
Definition price_per_flat_vol_sln shift roots t legs K cp vol y := price_optionlets shift roots t legs K cp (Some vol) None false false y.
Definition price_per_flat_vol_n shift roots t legs K cp vol y := price_optionlets shift roots t legs K cp None (Some vol) false false y.
