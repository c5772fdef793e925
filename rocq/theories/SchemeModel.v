(* frm/pricing_engine/in_progress: the three programs of gbm_speed_exploration.py (L11-138) and the helper of monte_carlo_multiprocessing.py (L25-40), which option.py, L63-81, repeats.
   Arithmetic is exact; random numbers are given, as a flat sequence. *)
From Coq Require Import ZArith Reals List Bool.
From Flocq Require Import Core.
From Verif Require Import Base NormalModel MonteModel HwModel.
Import ListNotations.
Open Scope R_scope.

(* int(np.ceil(T / dt)) of floats *)
Definition nb_of_steps (T dt : R) : result Z := let* _ := guard (negb (eqb dt 0)) ZeroDivisionError in Ok (Zceil (T / dt)).
(* L34-40, L67-75, L110-116. A negative step with as many numbers as steps (the root is then NaN) is not modelled *)
Definition checked (T dt : R) (z : list R) : result unit :=
  let* n := nb_of_steps T dt in
  let* _ := guard (Z.of_nat (List.length z) =? n)%Z ValueError in
  guard (ltb 0 dt) OutOfFuel.

Fixpoint cumulate {A} (op : A -> R -> A) (acc : A) (l : list R) : list A :=
  match l with [] => [] | a :: r => op acc a :: cumulate op (op acc a) r end.
Definition cumsum (l : list R) : list R := cumulate Rplus 0 l.
Definition cumprod (l : list R) : list R := cumulate Rmult 1 l.

Section gbm.
  Variable junk : nat -> R. (* what np.empty leaves in memory *)
  Variables (x0 mu sigma T dt : R) (z : list R) (method : Z).

  (* L11-58 *)
  Definition simulate_gbm : result (list R) :=
    let* _ := checked T dt z in
    let* x := match method with
              | 0%Z => Ok (map (fun s => x0 * exp s) (cumsum (map (fun r => (mu - 1 / 2 * sigma ^ 2) * dt + sigma * sqrt dt * r) z)))
              | 1%Z => Ok (map (Rmult x0) (cumprod (map (fun r => 1 + mu * dt + sigma * sqrt dt * r) z)))
              | 2%Z => Ok (map (Rmult x0) (cumprod (map (fun r => 1 + mu * dt + sigma * sqrt dt * r + 1 / 2 * sigma ^ 2 * dt * (r ^ 2 - 1)) z)))
              | 3%Z => Ok (map (Rmult x0) (cumprod (map (fun r => 1 + mu * dt + sigma * sqrt dt * r + 1 / 2 * sigma ^ 2 * dt * (r ^ 2 - 1) + mu * sigma * r * Rpower dt (3 / 2) + 1 / 2 * mu ^ 2 * dt ^ 2) z)))
              | _ => Err NameError (* x is not bound *)
              end in
    Ok (x0 :: x).

  (* L61-101: the factors in parallel, then their products. Another method leaves x as np.empty made it *)
  Definition simulate_gbm_numba_prange : result (list R) :=
    let* _ := checked T dt z in
    let sqrt_dt := sqrt dt in
    let x := match method with
             | 0%Z => cumprod (map (fun r => exp ((mu - 1 / 2 * sigma ^ 2) * dt + sigma * sqrt_dt * r)) z)
             | 1%Z => cumprod (map (fun r => 1 + mu * dt + sigma * sqrt_dt * r) z)
             | 2%Z => cumprod (map (fun r => 1 + mu * dt + sigma * sqrt_dt * r + 1 / 2 * sigma ^ 2 * (dt * (r ^ 2 - 1))) z)
             | 3%Z => cumprod (map (fun r => 1 + mu * dt + sigma * sqrt_dt * r + 1 / 2 * sigma ^ 2 * (dt * (r ^ 2 - 1)) + mu * sigma * r * Rpower dt (3 / 2) + 1 / 2 * mu ^ 2 * dt ^ 2) z)
             | _ => map junk (seq 0 (List.length z))
             end in
    Ok (x0 :: map (Rmult x0) x).

  (* L104-138: each value from the one before *)
  Definition simulate_gbm_numba : result (list R) :=
    let* _ := checked T dt z in
    Ok (x0 :: match method with
              | 0%Z => cumulate (fun x r => x * exp ((mu - 1 / 2 * sigma ^ 2) * dt + sigma * sqrt dt * r)) x0 z
              | 1%Z => cumulate (fun x r => x * (1 + mu * dt + sigma * sqrt dt * r)) x0 z
              | 2%Z => cumulate (fun x r => x * (1 + mu * dt + sigma * sqrt dt * r + 1 / 2 * sigma ^ 2 * dt * (r ^ 2 - 1))) x0 z
              | 3%Z => cumulate (fun x r => x * (1 + mu * dt + sigma * sqrt dt * r + 1 / 2 * sigma ^ 2 * dt * (r ^ 2 - 1) + mu * sigma * r * Rpower dt (3 / 2) + 1 / 2 * mu ^ 2 * dt ^ 2)) x0 z
              | _ => map junk (seq 1 (List.length z))
              end).
End gbm.

(* ---- gbm_helper: x0, dt, drift, speed, nb_timesteps, nb_assets and APPLY_CONTROL_VARIATES are globals of the module; the products run along axis 1, the assets ---- *)
Definition along_assets (x0 dt drift speed : R) (w : arr3 R) : arr3 R :=
  mk_arr3 (d0 w) (d1 w) (d2 w) (fun i a j => x0 * fold_right Rmult 1 (map (fun b => exp ((drift - 1 / 2 * speed ^ 2) * dt + speed * sqrt dt * el w i b j)) (seq 0 (S a)))).
Definition append2 (x y : arr3 R) : arr3 R := mk_arr3 (d0 x) (d1 x) (d2 x + d2 y) (fun i a j => if (j <? d2 x)%nat then el x i a j else el y i a (j - d2 x)%nat).
(* randn of a shape; a negative size is refused *)
Definition randn (normal : nat * nat * nat -> nat -> nat -> nat -> R) (steps assets n : Z) : result (arr3 R) :=
  let* _ := guard ((0 <=? steps) && (0 <=? assets) && (0 <=? n))%Z ValueError in
  Ok (mk_arr3 (Z.to_nat steps) (Z.to_nat assets) (Z.to_nat n) (normal (Z.to_nat steps, Z.to_nat assets, Z.to_nat n))).
Definition gbm_helper (normal : nat * nat * nat -> nat -> nat -> nat -> R) (x0 dt drift speed : R) (steps assets : Z) (control_variates : bool) (start_iter end_iter : Z) : result (arr3 R) :=
  let* _ := guard (ltb 0 dt) OutOfFuel in (* a negative step is not modelled *)
  let local := (end_iter - start_iter)%Z in
  if control_variates then
    let* w := randn normal steps assets (local / 2) in
    let w' := mk_arr3 (d0 w) (d1 w) (d2 w) (fun i a j => - el w i a j) in
    Ok (append2 (along_assets x0 dt drift speed w) (along_assets x0 dt drift speed w'))
  else
    let* w := randn normal steps assets local in
    Ok (along_assets x0 dt drift speed w).
