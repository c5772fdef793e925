(* scipy.stats.norm and numpy floating point numbers with infinities and NaN; finite numbers are exact reals, zero has no sign. *)
From Coq Require Import Reals List Bool.
From Coquelicot Require Import Coquelicot.
From Verif Require Import Base.
Import ListNotations.
Open Scope R_scope.

(* norm.pdf *)
Definition pdf (x : R) : R := exp (- (x * x) / 2) / sqrt (2 * PI).
(* norm.cdf: half the mass lies below zero; NormalProofs shows that this is the integral of pdf from minus infinity to x *)
Definition cdf (x : R) : R := 1 / 2 + RInt pdf 0 x.
(* norm.ppf inside (0, 1); scipy returns infinities at 0 and 1 and NaN elsewhere *)
Definition ppf (p : R) : option R :=
  if Rlt_dec 0 p then if Rlt_dec p 1 then Some (real (Lub_Rbar (fun x => cdf x <= p))) else None else None.

(* ---- floats ---- *)
Inductive num : Type := Fin (r : R) | PInf | NInf | NaN.

Definition neg (x : num) : num := match x with Fin a => Fin (- a) | PInf => NInf | NInf => PInf | NaN => NaN end.
Definition add (x y : num) : num :=
  match x, y with
  | Fin a, Fin b => Fin (a + b)
  | NaN, _ | _, NaN => NaN
  | PInf, NInf | NInf, PInf => NaN
  | PInf, _ | _, PInf => PInf
  | NInf, _ | _, NInf => NInf
  end.
Definition sub (x y : num) : num := add x (neg y).
(* a times +infinity *)
Definition scale_inf (a : R) : num := if Rlt_dec 0 a then PInf else if Rlt_dec a 0 then NInf else NaN.
Definition mul (x y : num) : num :=
  match x, y with
  | Fin a, Fin b => Fin (a * b)
  | NaN, _ | _, NaN => NaN
  | Fin a, PInf | PInf, Fin a => scale_inf a
  | Fin a, NInf | NInf, Fin a => scale_inf (- a)
  | PInf, PInf | NInf, NInf => PInf
  | PInf, NInf | NInf, PInf => NInf
  end.
Definition div (x y : num) : num :=
  match x, y with
  | Fin a, Fin b => if Req_EM_T b 0 then scale_inf a else Fin (a / b)
  | NaN, _ | _, NaN => NaN
  | Fin _, _ => Fin 0
  | PInf, Fin b => if Rlt_dec b 0 then NInf else PInf
  | NInf, Fin b => if Rlt_dec b 0 then PInf else NInf
  | _, _ => NaN
  end.
Definition nlog (x : num) : num :=
  match x with
  | Fin a => if Rlt_dec 0 a then Fin (ln a) else if Req_EM_T a 0 then NInf else NaN
  | PInf => PInf
  | _ => NaN
  end.
Definition nexp (x : num) : num := match x with Fin a => Fin (exp a) | PInf => PInf | NInf => Fin 0 | NaN => NaN end.
Definition nsqrt (x : num) : num := match x with Fin a => if Rlt_dec a 0 then NaN else Fin (sqrt a) | PInf => PInf | _ => NaN end.
Definition ncdf (x : num) : num := match x with Fin a => Fin (cdf a) | PInf => Fin 1 | NInf => Fin 0 | NaN => NaN end.
Definition npdf (x : num) : num := match x with Fin a => Fin (pdf a) | PInf | NInf => Fin 0 | NaN => NaN end.
(* np.maximum(0, x) *)
Definition positive_part (x : num) : num := match x with Fin a => Fin (Rmax 0 a) | PInf => PInf | NInf => Fin 0 | NaN => NaN end.
(* comparisons are false on NaN *)
Definition is_pos (x : num) : bool := match x with Fin a => if Rlt_dec 0 a then true else false | PInf => true | _ => false end.
Definition is_zero (x : num) : bool := match x with Fin a => if Req_EM_T a 0 then true else false | _ => false end.
(* norm.ppf on floats *)
Definition nppf (x : num) : num :=
  match x with
  | Fin p => match ppf p with Some z => Fin z | None => if Req_EM_T p 0 then NInf else if Req_EM_T p 1 then PInf else NaN end
  | _ => NaN
  end.
(* abs(x) < t *)
Definition abs_below (t : R) (x : num) : bool := match x with Fin a => if Rlt_dec (Rabs a) t then true else false | _ => false end.
(* ndarray.sum() *)
Definition nsum (l : list num) : num := fold_right add (Fin 0) l.

(* ---- one dimensional arrays and broadcasting ---- *)
(* the common length of arrays combined elementwise; None: ValueError, operands could not be broadcast together *)
Fixpoint broadcast (lens : list nat) : option nat :=
  match lens with
  | [] => Some 1%nat
  | n :: r =>
      match broadcast r with
      | None => None
      | Some m => if Nat.eqb n 1 then Some m else if Nat.eqb m 1 then Some n else if Nat.eqb n m then Some n else None
      end
  end.
(* the element of an array used at position i of a broadcast; the default is never used below the common length *)
Definition at_ (l : list R) (i : nat) : R := nth (if Nat.eqb (length l) 1 then 0%nat else i) l 0.
(* assertions of the pricing functions: at most two distinct shapes, one of them (1,) when there are two *)
Definition shapes_ok (lens : list nat) : bool :=
  let d := nodup Nat.eq_dec lens in
  (Nat.eqb (length d) 1 || Nat.eqb (length d) 2) && (if Nat.eqb (length d) 2 then existsb (Nat.eqb 1) d else true).
