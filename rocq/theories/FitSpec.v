(* What is claimed about the theta grid and its search. *)
From Coq Require Import ZArith Reals List.
From Coquelicot Require Import Coquelicot.
From Verif Require Import Base NormalModel HwModel CurveModel FitModel.
Import ListNotations.
Open Scope R_scope.

Fixpoint increasing_list (l : list R) : Prop := match l with a :: ((b :: _) as r) => a < b /\ increasing_list r | _ => True end.

(* a pair tried on a fresh object: its spline and its error *)
Definition trial (quad : integrator) (splrep : list R -> list R -> result (R -> R)) (forwards : R -> list R -> result unit) (pillars : list (R * option R)) (r0 alpha sigma : R) (p : R * Z) : result (option (R -> R) * option R) :=
  let* s := setup_theta splrep forwards pillars r0 alpha sigma (mk_hw (fst p) (snd p) None) None None in
  let* e := calc_error_for_theta_fit quad pillars r0 alpha sigma s in
  Ok (w_theta s, e).

(* a spline whose reported derivative is the derivative, and an integrator that gives the integral *)
Definition smooth_spline (s : spline) (f f' : R -> R) : Prop :=
  forall x, sp_at s x = Some (f x) /\ sp_deriv s x = Some (f' x) /\ is_derive f x (f' x) /\ continuous f' x.
Definition exact_quad (quad : (R -> option R) -> R -> R -> option R) : Prop :=
  forall g f a b, (forall x, g x = Some (f x)) -> (forall x, continuous f x) -> quad g a b = Some (RInt f a b).
