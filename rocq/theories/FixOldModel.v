(* Model of frm/term_structures/archive/ois_fixings.py, with the conventions of FixingModel.v *)
From Coq Require Import ZArith Reals List Bool.
From Verif Require Import Base Date BusDayModel DayCountModel ScheduleModel NumModel CurveModel FixingModel.
Import ListNotations.
Open Scope R_scope.

(* L40-54 and L101-115, the same text in both classes. The comparisons with the NaT that max() and min() of no dates return are False. *)
Definition old_rates (rate : list fixing -> date -> date -> result (option R)) (fx : list fixing) (ps : list period) : result (list (option R)) :=
  match ps with
  | [] => Ok []
  | p0 :: pt =>
      let first := min_date (fst p0) (map fst pt) in
      let ends := map (fun p : period => (snd p - 1)%Z) pt in
      let lo := min_date (snd p0 - 1)%Z ends in
      let hi := max_date (snd p0 - 1)%Z ends in
      let applicable := sort_fixings (filter (within first hi) fx) in
      let* _ := match map fst applicable with
                | [] => Ok tt
                | d0 :: dt => guard (negb ((max_date d0 dt <? hi)%Z || (lo <? min_date d0 dt)%Z)) ValueError
                end in
      sequence (map (fun p : period => rate applicable (fst p) (snd p - 1)%Z) ps)
  end.
(* L57-79 and L118-140; [basis_days] is self.day_count_basis.days_per_year, None inside is NaN *)
Definition old_rate (basis_days : result (option R)) (m : rfr_method) (fx : list fixing) (first last : date) : result (option R) :=
  let own := filter (within first last) fx in
  match m with
  | SimpleAverage => Ok (series_mean (map snd own))
  | DailyCompounded =>
      let days := date_range first last in
      let* n := basis_days in
      let interest := map (fun d => let? f := as_of own d in let? n := n in let? q := np_div f n in Some (1 + q)) days in
      let prod := fold_right Rmult 1 (valid_dates interest) in
      Ok (let? n := n in np_div ((prod - 1) * n) (INR (length days)))
  | WeightedAverage => Ok (series_mean (map (as_of own) (date_range first last)))
  | RfrOther => Err ValueError
  end.
(* OISFixings.get_coupon_rates, L32-54; [own] is the attribute cpn_calc_method. None is no method and matches none of them. *)
Definition ois_get_coupon_rates (n : option R) (own : option rfr_method) (fx : list fixing) (ps : list period) (arg : option rfr_method) : result (list (option R)) :=
  let m := match arg with Some m => m | None => match own with Some m => m | None => RfrOther end end in
  old_rates (old_rate (Ok n) m) fx ps.
(* the archived TermFixings.get_coupon_rates, L93-115: the class has neither cpn_calc_method nor day_count_basis *)
Definition old_term_get_coupon_rates (fx : list fixing) (ps : list period) (arg : option rfr_method) : result (list (option R)) :=
  let* m := match arg with Some m => Ok m | None => Err AttributeError end in
  old_rates (old_rate (Err AttributeError) m) fx ps.
