(* frm/pricing_engine/monte_carlo_generic.py, geometric_brownian_motion.py and clewlow_strickland_1_factor.py; exact reals extended with infinities and NaN.
   Arrays carry their shape; entries outside the shape are never read. *)
From Coq Require Import ZArith Reals List Bool.
From Verif Require Import Base NormalModel.
Import ListNotations.
Open Scope R_scope.

Record mat (A : Type) : Type := mk_mat { nr : nat; nc : nat; me : nat -> nat -> A }.
Arguments mk_mat {A}. Arguments nr {A}. Arguments nc {A}. Arguments me {A}.
Record arr3 (A : Type) : Type := mk_arr3 { d0 : nat; d1 : nat; d2 : nat; el : nat -> nat -> nat -> A }.
Arguments mk_arr3 {A}. Arguments d0 {A}. Arguments d1 {A}. Arguments d2 {A}. Arguments el {A}.
(* numpy arrays of at most two dimensions *)
Inductive nd : Type := D0 (x : R) | D1 (n : nat) (f : nat -> R) | D2 (m : mat R).

(* ---- monte_carlo_generic.py ---- *)
(* frm/utils/settings.py:51 *)
Definition max_simulations : Z := 100000000.
(* np.random.normal(0, 1, shape) directly after np.random.seed: a function of the seed and the shape *)
Definition normals := Z -> nat * nat * nat -> nat -> nat -> nat -> R.

(* generate_rand_nbs, L6-60; arguments of the annotated types *)
Definition generate_rand_nbs (normal : normals) (steps vars sims : Z) (antithetic : bool) (seed : Z) : result (arr3 R) :=
  let* _ := guard ((0 <=? seed) && (seed <? 2 ^ 32))%Z ValueError in
  let* _ := guard ((1 <=? steps) && (1 <=? vars) && (1 <=? sims))%Z AssertionError in
  let* _ := guard (steps * sims <=? max_simulations)%Z ValueError in
  let* _ := guard (negb (antithetic && (sims =? 1)%Z)) ValueError in
  let n := Z.to_nat sims in
  if antithetic then
    let pairs := Nat.div n 2 in
    let half := (n - pairs)%nat in
    let z := normal seed (Z.to_nat steps, Z.to_nat vars, half) in
    (* np.concatenate *)
    let both := fun i j k => if Nat.ltb k half then z i j k else -1 * z i j (k - half)%nat in
    (* np.column_stack((arange(pairs), arange(pairs) + pairs)).flatten() *)
    let idx := fun k => if Nat.even k then Nat.div k 2 else (Nat.div k 2 + pairs)%nat in
    Ok (mk_arr3 (Z.to_nat steps) (Z.to_nat vars) (2 * pairs) (fun i j k => both i j (idx k)))
  else Ok (mk_arr3 (Z.to_nat steps) (Z.to_nat vars) n (normal seed (Z.to_nat steps, Z.to_nat vars, n))).

Fixpoint sum_to (n : nat) (f : nat -> R) : R := match n with O => 0 | S m => sum_to m f + f m end.

(* normal_corr, L63-78: (M @ rand_nbs.T).T with M the transpose of the Cholesky factor, for two and three dimensional rand_nbs.
   np.linalg.cholesky is external; LinAlgError is a ValueError. *)
Definition factorisation := mat R -> result (mat R).
Definition normal_corr (cholesky : factorisation) (C : mat R) (r : mat R) : result (mat R) :=
  let* L := cholesky C in
  let* _ := guard (Nat.eqb (nr L) (nc r)) ValueError in
  Ok (mk_mat (nr r) (nc L) (fun s v => sum_to (nr L) (fun u => me L u v * me r s u))).
Definition normal_corr3 (cholesky : factorisation) (C : mat R) (r : arr3 R) : result (arr3 R) :=
  let* L := cholesky C in
  let* _ := guard (Nat.eqb (nr L) (d1 r)) ValueError in
  Ok (mk_arr3 (d0 r) (nc L) (d2 r) (fun t v s => sum_to (nr L) (fun u => me L u v * el r t u s))).

(* ---- geometric_brownian_motion.py: simulate_gbm_path, L12-84 ---- *)
Definition atleast_2d (a : nd) : mat R :=
  match a with D0 x => mk_mat 1 1 (fun _ _ => x) | D1 n f => mk_mat 1 n (fun _ j => f j) | D2 m => m end.
(* L58-61 *)
Definition column (m : mat R) : mat R := if Nat.eqb (nr m) 1 then mk_mat (nc m) 1 (fun i _ => me m 0 i) else m.

(* entry (i, v, s) of x, L76-82. A row of k parameters meets an array of shape (k, simulations): the parameters run along the simulations. *)
Fixpoint gbm_at (k : nat) (px drift vol : mat R) (dt : nat -> R) (z : arr3 R) (i v s : nat) : num :=
  let c := if Nat.eqb k 1 then O else s in
  match i with
  | O => Fin (me px 0 c)
  | S i =>
      mul (gbm_at k px drift vol dt z i v s)
          (nexp (add (mul (Fin (me drift i c - 1 / 2 * me vol i c ^ 2)) (Fin (dt i)))
                     (mul (mul (Fin (me vol i c)) (nsqrt (Fin (dt i)))) (Fin (el z i v s)))))
  end.
Definition simulate_gbm_path (px drift vol timestep : nd) (z : arr3 R) : result (arr3 num) :=
  match timestep with
  | D1 n dt =>
      let drift := column (atleast_2d drift) in
      let vol := column (atleast_2d vol) in
      let px := atleast_2d px in
      let* _ := guard (Nat.eqb n (nr drift) && Nat.eqb n (nr vol) && Nat.eqb n (d0 z) && Nat.eqb (nr px) 1) AssertionError in
      let k := nc px in
      let* _ := guard (Nat.eqb k (nc drift) && Nat.eqb k (nc vol) && Nat.eqb k (d1 z)) AssertionError in
      (* x[0, :, :] = initial_px *)
      let* _ := guard (Nat.eqb k 1 || Nat.eqb k (d2 z)) ValueError in
      Ok (mk_arr3 (S (d0 z)) (d1 z) (d2 z) (gbm_at k px drift vol dt z))
  | _ => Err AssertionError
  end.

(* ---- clewlow_strickland_1_factor.py: L7-102, for non-negative integers nb_simulations, segments_per_day and T ---- *)
(* ln_spot_px[i, n] of one loop, L73-88: lnf the logarithms of the interpolated curve, z the random numbers of one path *)
Fixpoint cs_path (dt alpha sigma : R) (lnf : nat -> num) (z : nat -> R) (i : nat) : num :=
  match i with
  | O => lnf O
  | S i =>
      let x := cs_path dt alpha sigma lnf z i in
      let term1 := div (sub (lnf (S i)) (lnf i)) (Fin dt) in
      let term2 := mul (Fin alpha) (sub (lnf i) x) in
      let term3 := Fin (- (1 / 4) * sigma ^ 2 * (1 + exp (-2 * alpha * (INR i * dt)))) in
      add (add x (mul (add (add term1 term2) term3) (Fin dt))) (mul (Fin (z i * sigma)) (nsqrt (Fin dt)))
  end.
(* the loop over chunks, L82-100: result is the array filled so far; chunk j starts at column j * per *)
Definition cs_fill (per sims loops j : nat) (spot : nat -> nat -> num) (rows : nat -> nat) (result : nat -> nat -> num) : Base.result (nat -> nat -> num) :=
  let first := (j * per)%nat in
  let last := Nat.min ((j + 1) * per) sims in
  let* _ := guard (Nat.leb loops (S j) || Nat.eqb (last - first) per) ValueError in
  Ok (fun t n => if Nat.leb first n && Nat.ltb n last then spot (rows t) (n - first)%nat else result t n).
Fixpoint cs_loops (body : nat -> (nat -> nat -> num) -> Base.result (nat -> nat -> num)) (todo j : nat) (result : nat -> nat -> num) : Base.result (nat -> nat -> num) :=
  match todo with
  | O => Ok result
  | S m => let* r := body j result in cs_loops body m (S j) r
  end.
(* curve is interp1d of the forward curve: ValueError outside its range *)
Definition cs_simulate (normal : normals) (curve : R -> result R) (sims seg T : nat) (alpha sigma : R) : result (mat num) :=
  let* _ := guard (negb (Nat.eqb seg 0)) ZeroDivisionError in
  let dt := 1 / INR seg in
  let steps := (T * seg)%nat in
  let* fwd := sequence (map (fun i => curve (INR i * dt)) (seq 0 (S steps))) in
  let lnf := fun i => match nth_error fwd i with Some x => nlog (Fin x) | None => NaN (* not reached *) end in
  let* _ := guard (negb (Nat.eqb steps 0)) ZeroDivisionError in
  let per := Z.to_nat (Z.min (Z.of_nat sims) (max_simulations / Z.of_nat steps)) in
  let* _ := guard (negb (Nat.eqb per 0)) ZeroDivisionError in
  let loops := Nat.div (sims + per - 1) per in
  let body := fun j result =>
    let* z := generate_rand_nbs normal (Z.of_nat steps) 1 (Z.of_nat per) false (Z.of_nat j) in
    let spot := fun i n => nexp (cs_path dt alpha sigma lnf (fun i => el z i 0 n) i) in
    cs_fill per sims loops j spot (fun t => (t * seg)%nat) result in
  let* r := cs_loops body loops 0 (fun _ _ => Fin 0) in
  Ok (mk_mat (S T) sims r).
