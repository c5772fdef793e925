(* Shared conventions: Python exceptions as values. *)
From Coq Require Import List.
Import ListNotations.

(* The exception classes the modelled functions can raise. *)
Inductive exn : Set :=
| ValueError | TypeError | AssertionError | AttributeError | IndexError | KeyError | NameError | ZeroDivisionError | StopIteration
| MarketDataNotAvailable (* custom_errors_and_warnings.py:3 *)
| OutOfFuel (* not a Python exception: a modelled loop ran out of fuel; excluded by theorems *).

(* Outcome of a modelled call. *)
Inductive result (A : Type) : Type :=
| Ok (a : A)
| Err (e : exn).
Arguments Ok {A} a.
Arguments Err {A} e.

Definition bind {A B} (x : result A) (f : A -> result B) : result B :=
  match x with Ok a => f a | Err e => Err e end.

Notation "'let*' x := e 'in' f" := (bind e (fun x => f)) (at level 200, x pattern, e at level 100, f at level 200, right associativity).

(* Evaluate a list of fallible computations left to right, stopping at the first exception. *)
Fixpoint sequence {A} (l : list (result A)) : result (list A) :=
  match l with
  | [] => Ok []
  | x :: xs => let* a := x in let* t := sequence xs in Ok (a :: t)
  end.

Definition guard (b : bool) (e : exn) : result unit := if b then Ok tt else Err e.

Lemma bind_ok {A B} (x : result A) (f : A -> result B) b :
  bind x f = Ok b -> exists a, x = Ok a /\ f a = Ok b.
Proof. destruct x as [a|e]; cbn; intros H; [exists a; auto | discriminate]. Qed.

Lemma sequence_ok {A} (l : list (result A)) r :
  sequence l = Ok r <-> l = map Ok r.
Proof.
  revert r. induction l as [|x xs IH]; intros r; cbn [sequence].
  - split; intros H; [injection H as <-; reflexivity | destruct r; [reflexivity|discriminate]].
  - destruct x as [a|e]; cbn [bind].
    + destruct (sequence xs) as [t|e] eqn:E; cbn [bind].
      * split; intros H.
        -- injection H as <-. cbn. f_equal. apply IH. reflexivity.
        -- destruct r as [|b r]; [discriminate|]. cbn in H. injection H as <- Hx.
           apply IH in Hx. injection Hx as <-. reflexivity.
      * split; intros H; [discriminate|].
        destruct r as [|b r]; [discriminate|]. cbn in H. injection H as <- Hx.
        apply IH in Hx. discriminate.
    + split; intros H; [discriminate|]. destruct r; discriminate.
Qed.
