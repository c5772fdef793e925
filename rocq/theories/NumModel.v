(* Floating point operations as exact real operations. None stands for a result that is not a finite real number (NaN or an
   infinity), and for operations outside the domain stated here. *)
From Coq Require Import Reals List.
From Verif Require Import Base.
Import ListNotations.
Open Scope R_scope.

Definition obind {A B} (x : option A) (f : A -> option B) : option B := match x with Some a => f a | None => None end.
Notation "'let?' x := e 'in' f" := (obind e (fun x => f)) (at level 200, x name, e at level 100, f at level 200, right associativity).

(* np.log; -inf at 0 and NaN below *)
Definition np_log (x : R) : option R := if Rlt_dec 0 x then Some (ln x) else None.
(* np.log1p *)
Definition np_log1p (x : R) : option R := np_log (1 + x).
(* np.expm1 *)
Definition np_expm1 (x : R) : R := exp x - 1.
(* x / y; division by zero gives NaN or an infinity *)
Definition np_div (x y : R) : option R := if Req_EM_T y 0 then None else Some (x / y).
(* x ** y for a positive base; other bases (real for some exponents only) are outside the model *)
Definition np_pow (x y : R) : option R := if Rlt_dec 0 x then Some (Rpower x y) else None.

Lemma np_log_pos x : 0 < x -> np_log x = Some (ln x).
Proof. intros H. unfold np_log. destruct (Rlt_dec 0 x); [reflexivity|contradiction]. Qed.
Lemma np_log_some x y : np_log x = Some y -> 0 < x /\ y = ln x.
Proof. unfold np_log. destruct (Rlt_dec 0 x); [|discriminate]. intros H. injection H as <-. auto. Qed.
Lemma np_div_nz x y : y <> 0 -> np_div x y = Some (x / y).
Proof. intros H. unfold np_div. destruct (Req_EM_T y 0); [contradiction|reflexivity]. Qed.
Lemma np_div_zero x : np_div x 0 = None.
Proof. unfold np_div. destruct (Req_EM_T 0 0); [reflexivity|contradiction]. Qed.
Lemma np_div_some x y z : np_div x y = Some z -> y <> 0 /\ z = x / y.
Proof. unfold np_div. destruct (Req_EM_T y 0); [discriminate|]. intros H. injection H as <-. auto. Qed.
Lemma np_pow_pos x y : 0 < x -> np_pow x y = Some (Rpower x y).
Proof. intros H. unfold np_pow. destruct (Rlt_dec 0 x); [reflexivity|contradiction]. Qed.
