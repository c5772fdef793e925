(* The theta grid of frm/pricing_engine/hw1f.py and its grid search, L47-117, L148-150, and create_date_grid_for_fx_exposures of frm/utils/schedule.py, L535-621. Finite arithmetic is exact. *)
From Coq Require Import String ZArith Reals List Bool.
From Verif Require Import Base Date NormalModel HwModel CurveModel.
Import ListNotations.
Open Scope R_scope.

(* np.linspace(a, b, num, endpoint=False) *)
Definition linspace (a b : R) (num : Z) : result (list R) :=
  let* _ := guard (0 <=? num)%Z ValueError in
  Ok (map (fun j => INR j * ((b - a) / IZR num) + a) (seq 0 (Z.to_nat num))).
(* L113-115: np.concatenate of the pieces between neighbouring pillars; it refuses an empty list *)
Fixpoint pieces (num : Z) (years : list R) : result (list (list R)) :=
  match years with
  | a :: ((b :: _) as r) => let* p := linspace a b num in let* q := pieces num r in Ok (p :: q)
  | _ => Ok []
  end.
Definition theta_grid (num : Z) (years : list R) : result (list R) :=
  let* ps := pieces num years in
  match ps with [] => Err ValueError | _ => Ok (List.concat ps) end.

(* the fields that change: dt, num and theta_spline, which is absent before setup_theta *)
Record hw : Type := mk_hw { w_dt : R; w_num : Z; w_theta : option (R -> R) }.

Section fit.
  (* scipy.interpolate.splrep read as the function splev evaluates; the unused forward rates of get_thetas, L132-134, which may raise; columns years and cczr of the pillars *)
  Variables (quad : integrator) (splrep : list R -> list R -> result (R -> R)) (forwards : R -> list R -> result unit).
  Variables (pillars : list (R * option R)) (r0 alpha sigma : R).

  (* L120-145 for an array; the division by 2 alpha is one of floats, whatever the array *)
  Definition get_thetas (dt : R) (years : list R) : result (list R) :=
    let* _ := forwards dt years in
    let* _ := get_theta r0 alpha sigma 0 in
    sequence (map (get_theta r0 alpha sigma) years).
  (* L100-117 *)
  Definition setup_theta (s : hw) (years_grid : option (list R)) (num : option Z) : result hw :=
    let* g := match years_grid with
              | Some g => Ok g
              | None => theta_grid (match num with Some n => n | None => w_num s end) (map fst pillars)
              end in
    let* th := get_thetas (w_dt s) g in
    let* sp := splrep g th in
    Ok (mk_hw (w_dt s) (w_num s) (Some sp)).
  (* L78-98: the root of the mean squared difference in basis points, None for NaN *)
  Definition recalc (s : hw) (yr : R) : result R := let* d := ode_1 quad (w_theta s) r0 alpha sigma 0 yr None in Ok (-1 * ln d / yr).
  Definition root_mean_square (l : list (option R)) : option R :=
    match fold_right (fun o acc => match o, acc with Some d, Some a => Some (d ^ 2 + a) | _, _ => None end) (Some 0) l with
    | Some t => match l with [] => None | _ => Some (sqrt (t / INR (List.length l))) end
    | None => None
    end.
  Definition calc_error_for_theta_fit (s : hw) : result (option R) :=
    let* rs := sequence (map (fun p => recalc s (fst p)) pillars) in
    Ok (root_mean_square (map (fun q => match snd (fst q) with Some c => Some (10000 * (c - snd q)) | None => None end) (combine pillars rs))).

  (* sorted(results, key=error): stable; a comparison with NaN is false. (For a mix of NaN and numbers Python's order may differ.) *)
  Definition entry : Type := (R * Z * option R)%type.
  Definition less (x y : entry) : bool := match snd x, snd y with Some a, Some b => ltb a b | _, _ => false end.
  Fixpoint insert_sorted (x : entry) (l : list entry) : list entry :=
    match l with [] => [x] | y :: r => if less y x then y :: insert_sorted x r else x :: l end.
  Definition sort_entries (l : list entry) : list entry := fold_right insert_sorted [] l.
  (* L47-75; an exception leaves the fields as they are at that point *)
  Fixpoint search (pairs : list (R * Z)) (s : hw) (acc : list entry) : hw * result (list entry) :=
    match pairs with
    | [] => (s, Ok acc)
    | (dt, num) :: r =>
        let s1 := mk_hw dt num (w_theta s) in
        match setup_theta s1 None None with
        | Err e => (s1, Err e)
        | Ok s2 => match calc_error_for_theta_fit s2 with
                   | Err e => (s2, Err e)
                   | Ok err => search r s2 (acc ++ [(dt, num, err)])
                   end
        end
    end.
  Definition fit_theta (s : hw) (dts : list R) (nums : list Z) : hw * result unit :=
    match search (list_prod dts nums) s [] with
    | (s1, Err e) => (s1, Err e)
    | (s1, Ok entries) => match sort_entries entries with
                          | [] => (s1, Err IndexError)
                          | (dt, num, _) :: _ => (mk_hw dt num (w_theta s1), Ok tt)
                          end
    end.
End fit.

(* L148-150: scipy.integrate.quad of the curve's instantaneous forward rates, not divided by T - t. A linear curve returns None
   everywhere, which the integrand may not (TypeError); quad gives NaN when the integrand does *)
Definition get_forward_rate_by_integration (quad : (R -> option R) -> R -> R -> option R) (z : zero_curve) (t T : R) : result (option R) :=
  let* first := get_instantaneous_forward_rate z t in
  match first with
  | None => Err TypeError
  | Some _ => Ok (quad (fun x => match get_instantaneous_forward_rate z x with Ok (Some v) => v | _ => None end) t T)
  end.

(* ---- schedule.py, L535-621 ---- *)
(* L584-596: the number of the frequency is passed as freq, its unit as direction, which L484-485 refuses unless it is a direction *)
Definition unit_of (sampling_freq : string) : option string :=
  (if String.eqb sampling_freq "1d" then Some "days" else if String.eqb sampling_freq "1w" then Some "weeks"
   else if existsb (String.eqb sampling_freq) ["1m"; "3m"; "6m"; "12m"] then Some "months" else None)%string.
Definition is_direction (d : string) : bool := (String.eqb d "forward" || String.eqb d "backward")%string.
Definition sampled_grid (schedule : string -> result (list date)) (sampling_freq : string) : result (list date) :=
  match unit_of sampling_freq with
  | Some u => let* _ := guard (is_direction u) ValueError in schedule u
  | None => Err NameError (* date_grid is not bound, L598 *)
  end.
Fixpoint insert_date (d : date) (l : list date) : list date :=
  match l with [] => [d] | e :: r => if (d <? e)%Z then d :: l else if (d =? e)%Z then l else e :: insert_date d r end.
(* drop_duplicates().sort_values() *)
Definition unique_sorted (l : list date) : list date := fold_right insert_date [] l.
(* pillar: None is None, Some None something that is not a DatetimeIndex. L607, L614: the second argument of np.concatenate is the axis, a TypeError for dates *)
Definition create_date_grid (schedule : string -> result (list date)) (delivery_dates : list date) (sampling_freq : option string) (pillar : option (option (list date))) (last_day day_after : bool) : result (list date) :=
  let* _ := guard (match delivery_dates with [] => false | _ => true end) ValueError in
  let* grid := match sampling_freq, pillar with
               | Some f, _ => sampled_grid schedule f
               | None, Some (Some g) => Ok g
               | None, Some None => Err AssertionError
               | None, None => Err ValueError
               end in
  let* _ := guard (negb (last_day || day_after)) TypeError in
  Ok (unique_sorted grid).
