(* C153: the archived fixings classes *)
From Coq Require Import ZArith Reals List Bool Lra Lia.
From Verif Require Import Base Date BusDayModel DayCountModel ScheduleModel NumModel CurveModel CurveSpec FixingModel FixingSpec FixingProofs FixOldModel PFixing.
Import ListNotations.
Open Scope R_scope.

Lemma old_same (n : option R) (m : rfr_method) (b : result (option R)) (fx : list fixing) (ps : list period) : m <> DailyCompounded \/ b = Ok n -> old_rates (old_rate b m) fx ps = get_coupon_rates n fx ps m.
Proof.
  intros H. unfold old_rates, get_coupon_rates. destruct ps as [|p0 pt]; [reflexivity|]. cbv zeta. destruct (match map fst _ with [] => _ | _ => _ end); [|reflexivity]. cbn [bind]. f_equal. apply map_ext. intros p.
  unfold old_rate, coupon_rate. destruct m; try reflexivity. destruct H as [H| ->]; [contradiction|]. reflexivity.
Qed.
(* the argument wins over the attribute; the rates are those of RFRFixings *)
Theorem C153_ois (n : option R) (own : option rfr_method) (fx : list fixing) (ps : list period) (m : rfr_method) :
  ois_get_coupon_rates n own fx ps (Some m) = get_coupon_rates n fx ps m /\ ois_get_coupon_rates n (Some m) fx ps None = get_coupon_rates n fx ps m.
Proof. unfold ois_get_coupon_rates. split; apply old_same; right; reflexivity. Qed.
Theorem C153_ois_without_method (n : option R) (fx : list fixing) (ps : list period) : ps <> [] -> ois_get_coupon_rates n None fx ps None = Err ValueError.
Proof.
  intros N. unfold ois_get_coupon_rates, old_rates. destruct ps as [|p0 pt]; [contradiction|]. cbv zeta. destruct (match map fst _ with [] => _ | _ => _ end) as [u|e] eqn:G; [reflexivity|]. cbn [bind]. f_equal.
  destruct (map fst _); [discriminate|]. unfold guard in G. destruct (negb _); [discriminate|]. congruence.
Qed.
(* the term class always fails without a method *)
Theorem C153_term_without_method (fx : list fixing) (ps : list period) : old_term_get_coupon_rates fx ps None = Err AttributeError.
Proof. reflexivity. Qed.
Theorem C153_term_averages (n : option R) (fx : list fixing) (ps : list period) (m : rfr_method) : m <> DailyCompounded -> old_term_get_coupon_rates fx ps (Some m) = get_coupon_rates n fx ps m.
Proof. intros N. unfold old_term_get_coupon_rates. cbn [bind]. apply old_same. left. exact N. Qed.
(* and never compounds: poorly covered periods are refused first *)
Theorem C153_term_never_compounds (fx : list fixing) (ps : list period) : ps <> [] ->
  (poorly_covered fx ps -> old_term_get_coupon_rates fx ps (Some DailyCompounded) = Err ValueError) /\
  (~ poorly_covered fx ps -> old_term_get_coupon_rates fx ps (Some DailyCompounded) = Err AttributeError).
Proof.
  intros N. destruct (C73_rejected_iff_poorly_covered None fx ps SimpleAverage N ltac:(discriminate)) as [I A].
  unfold old_term_get_coupon_rates. cbn [bind]. unfold old_rates. unfold get_coupon_rates in I, A. destruct ps as [|p0 pt]; [contradiction|]. cbv zeta in *.
  destruct (match map fst _ with [] => _ | _ => _ end) as [u|e] eqn:G; cbn [bind] in *; cbn [map sequence] in *.
  - split; [|reflexivity]. intros P. exfalso. apply I in P. destruct (rates_ok None (sort_fixings (filter (within (min_date (fst p0) (map fst pt)) (max_date (snd p0 - 1) (map (fun p : period => (snd p - 1)%Z) pt))) fx)) SimpleAverage (p0 :: pt) ltac:(discriminate)) as [rs Q]. cbn [map sequence] in Q. congruence.
  - assert (E : e = ValueError) by (destruct (map fst _); [discriminate|]; unfold guard in G; destruct (negb _); [discriminate|]; congruence). subst e. split; [reflexivity|]. intros P. destruct (A P) as [rs Q]. discriminate.
Qed.

Definition all_theorems := (C153_ois, C153_ois_without_method, C153_term_without_method, C153_term_averages, C153_term_never_compounds).
Print Assumptions all_theorems.

(* four days, the first three at 1 and the last at 2 *)
Example C153_ex : ~ poorly_covered ex_two [(100, 104)]%Z /\ old_term_get_coupon_rates ex_two [(100, 104)]%Z (Some DailyCompounded) = Err AttributeError /\
  exists rs, ois_get_coupon_rates (Some 360) (Some DailyCompounded) ex_two [(100, 104)]%Z (Some WeightedAverage) = Ok rs.
Proof.
  assert (P : ~ poorly_covered ex_two [(100, 104)]%Z) by apply C73_ex. split; [exact P|]. split; [apply C153_term_never_compounds; [discriminate | exact P]|].
  rewrite (proj1 (C153_ois _ _ _ _ _)). apply C73_rejected_iff_poorly_covered; [discriminate | discriminate | exact P].
Qed.
