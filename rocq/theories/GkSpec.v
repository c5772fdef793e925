(* What users rely on for Garman-Kohlhagen options, stated without the pricing formulas. *)
From Coq Require Import String Reals List Bool.
From Verif Require Import Base NormalModel BlackModel BlackSpec GkModel.
Import ListNotations.
Open Scope R_scope.

(* a call with scalar arguments, with or without a market forward, and the single number it reports *)
Definition scalar_gk (S tau rd rf cp K vol : R) (F : option R) : gk :=
  mk_gk [S] [tau] [rd] [rf] [cp] [K] [vol] (match F with Some f => Some [f] | None => None end).
Definition price_gk (S tau rd rf cp K vol : R) (F : option R) : num := the_price (garman_kohlhagen_price (scalar_gk S tau rd rf cp K vol F) false false false).
Definition greek_gk (k : nat) (S tau rd rf cp K vol : R) (F : option R) : num :=
  the_greek k (garman_kohlhagen_price (scalar_gk S tau rd rf cp K vol F) false true false).
Definition spot_delta_gk := greek_gk 0.
Definition forward_delta_gk := greek_gk 1.
Definition vega_gk := greek_gk 2.
Definition theta_gk := greek_gk 3.
Definition gamma_gk := greek_gk 4.
Definition rho_gk := greek_gk 5.
Definition split_gk (S tau rd rf cp K vol : R) (F : option R) : option (num * num) :=
  the_split (garman_kohlhagen_price (scalar_gk S tau rd rf cp K vol F) true false false).

(* the forward in force, and what one unit of domestic currency at expiry is worth today *)
Definition forward_of (S tau rd rf : R) (F : option R) : R := match F with Some f => f | None => S * exp ((rd - rf) * tau) end.
Definition dom_df (S tau rd rf : R) (F : option R) : R := S * exp (- rf * tau) / forward_of S tau rd rf F.

(* a forward, when given, is positive *)
Definition good_forward (F : option R) : Prop := match F with Some f => 0 < f | None => True end.

(* delta net of the premium, which is paid in the foreign currency *)
Definition pa_spot_delta (S tau rd rf cp K vol : R) (F : option R) : num :=
  sub (spot_delta_gk S tau rd rf cp K vol F) (div (price_gk S tau rd rf cp K vol F) (Fin S)).
Definition pa_forward_delta (S tau rd rf cp K vol : R) (F : option R) : num :=
  mul (Fin (exp (rf * tau))) (pa_spot_delta S tau rd rf cp K vol F).

(* argument checks of the price *)
Definition valid_gk (a : gk) : Prop :=
  Forall (fun x => 0 < x) (g_S a) /\ Forall (fun x => 0 <= x) (g_tau a) /\ Forall call_or_put (g_cp a) /\
  length (g_cp a) = length (g_vol a) /\ length (g_cp a) = length (g_K a) /\ match g_F a with Some f => Forall (fun x => 0 < x) f | None => True end.

(* the market forward used at position i, when one is given *)
Definition used_forward (F : option (list R)) (i : nat) (f : option R) : Prop :=
  match F, f with Some l, Some x => used l i x | None, None => True | _, _ => False end.

(* checks of the strike solver *)
Definition valid_quotes (S tau : R) (vols deltas : list R) (F : option R) : Prop :=
  0 < S /\ 0 < tau /\ Forall (fun v => 0 < v) vols /\ Forall (fun d => Rabs d <= 1 / 2) deltas /\ length deltas = length vols /\ good_forward F.

(* a root finder whose converged answers lie at or above the lower end of the bracket and have a residual of at most eps *)
Definition accurate (eps : R) (rs : root_finder) : Prop :=
  forall f a b x, rs f a b = RS x true -> a <= x /\ exists y, f x = Fin y /\ Rabs y <= eps.

(* x is within eps of d *)
Definition within (eps d : R) (x : num) : Prop := exists y, x = Fin y /\ Rabs (y - d) <= eps.

(* spot moves from S to s and the market forward with it *)
Definition carried (F : option R) (S s : R) : option R := match F with Some f => Some (f * s / S) | None => None end.
(* value per unit of domestic currency paid at expiry *)
Definition forward_value_gk (S tau rd rf cp K vol f : R) : num :=
  div (price_gk S tau rd rf cp K vol (Some f)) (Fin (dom_df S tau rd rf (Some f))).

(* the strikes a solver call returns, one per quote *)
Definition strike_at (r : result (list num)) (i : nat) : num := match r with Ok ks => nth i ks NaN | Err _ => NaN end.
Definition call_put (d : R) : R := if Rlt_dec 0 d then 1 else -1.

(* delta conventions and at-the-money conventions the solver knows *)
Definition known (convention atm : string) : Prop :=
  In convention ["regular_spot"; "regular_forward"; "premium_adjusted_spot"; "premium_adjusted_forward"]%string /\ In atm ["forward"; "per_delta_convention"]%string.
Definition pa_name (spot : bool) : string := if spot then "premium_adjusted_spot" else "premium_adjusted_forward".

(* premium adjusted delta in spot or forward terms *)
Definition pa_delta (spot : bool) := if spot then pa_spot_delta else pa_forward_delta.
Definition regular_delta (spot : bool) := if spot then spot_delta_gk else forward_delta_gk.
(* x < y for reported numbers *)
Definition below (x y : num) : Prop := exists a b, x = Fin a /\ y = Fin b /\ a < b.
