(* What users rely on when an FX volatility surface is set up. *)
From Coq Require Import String ZArith Reals List.
From Verif Require Import Base Date BusDayModel BusDaySpec TenorModel TenorSpec FxModel FxSpec SurfaceInitModel.
Import ListNotations.

(* a frame with a tenor, dates or a tenor to find them from, and a rate in every row *)
Definition complete (f : forward_frame) (ts : list string) (rates : list (option R)) : Prop :=
  ff_tenors f = Some (map Some ts) /\ ff_rates f = Some rates /\ length ts = length (ff_dates f) /\ length rates = length (ff_dates f) /\
  forall x, In x (combine ts (ff_dates f)) -> datable x.
(* row i, and no other, is the spot quote *)
Definition spot_quote_at (ts : list string) (i : nat) : Prop :=
  (exists t, nth_error ts i = Some t /\ clean_tenor t = "sp"%string) /\ forall j t, nth_error ts j = Some t -> clean_tenor t = "sp"%string -> j = i.
