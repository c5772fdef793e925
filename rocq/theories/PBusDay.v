(* Properties C08-C11: business day calendars and rolling. *)
From Coq Require Import ZArith String List Bool Lia.
From Verif Require Import Base Date DateProofs BusDayModel BusDaySpec BusDayProofs.
Import ListNotations.
Open Scope Z_scope.

(* A calendar with a run of holidays, used in the examples: Mon-Fri, 23-29 Dec 2024 and 1 Jan 2025 closed. *)
Definition xmas : calendar :=
  {| weekmask := [true; true; true; true; true; false; false];
     holidays := mk 2025 1 1 :: mk 2024 12 30 :: mk 2024 12 31 :: map (fun i => mk 2024 12 23 + Z.of_nat i) (seq 0 7) |}.

Example xmas_wf : wf_calendar xmas.
Proof. exists 2. split; [lia | reflexivity]. Qed.

(* Every calendar numpy can construct is well formed; constructing one never fails for another reason. *)
Theorem C08_constructed_calendars_wf : forall wm h c, busdaycalendar wm h = Ok c ->
  wf_calendar c /\ weekmask c = wm /\ holidays c = h.
Proof. exact busdaycalendar_wf. Qed.
Print Assumptions C08_constructed_calendars_wf.

Theorem C08_is_busday : forall c d, is_busday c d = true <-> business_day c d.
Proof. exact is_busday_iff. Qed.
Print Assumptions C08_is_busday.

Theorem C08_following_nearest : forall c d, wf_calendar c ->
  exists r, workday d 0 c = Ok r /\ first_on_or_after c d r.
Proof. exact workday_0. Qed.
Print Assumptions C08_following_nearest.

Theorem C08_preceding_nearest : forall c d, wf_calendar c ->
  exists r, busday_offset c d 0 Preceding = Ok r /\ last_on_or_before c d r.
Proof. exact preceding_0. Qed.
Print Assumptions C08_preceding_nearest.

(* Rolling succeeds for every convention except 'unadjusted', which numpy rejects; business days are fixed points. *)
Theorem C08_roll_total : forall c d n r, wf_calendar c -> r <> Unadjusted ->
  exists e, busday_offset c d n r = Ok e /\ business_day c e.
Proof. exact busday_offset_ok. Qed.
Print Assumptions C08_roll_total.

Theorem C08_unadjusted_rejected : forall c d n, busday_offset c d n Unadjusted = Err ValueError.
Proof. exact busday_offset_unadjusted. Qed.
Print Assumptions C08_unadjusted_rejected.

Theorem C08_roll_identity : forall c r d, wf_calendar c -> r <> Unadjusted -> business_day c d -> roll c r d = Ok d.
Proof. exact roll_id. Qed.
Print Assumptions C08_roll_identity.

Theorem C08_roll_idempotent : forall c r d e, wf_calendar c -> roll c r d = Ok e -> roll c r e = Ok e.
Proof. exact roll_idempotent. Qed.
Print Assumptions C08_roll_idempotent.

Theorem C08_roll_monotone : forall c r d d' e e', wf_calendar c -> d <= d' ->
  roll c r d = Ok e -> roll c r d' = Ok e' -> e <= e'.
Proof. exact roll_mono. Qed.
Print Assumptions C08_roll_monotone.

Example C08_ex : workday (mk 2024 12 24) 0 xmas = Ok (mk 2025 1 2) /\
  busday_offset xmas (mk 2025 1 1) 0 Preceding = Ok (mk 2024 12 20).
Proof. vm_compute. auto. Qed.

(* Modified rolls. *)
Theorem C09_modified_following_stays_in_month : forall c d, wf_calendar c ->
  (exists x, business_day c x /\ month_index x = month_index d) ->
  exists e, roll c ModFollowing d = Ok e /\ business_day c e /\ month_index e = month_index d.
Proof. exact roll_modfol_month. Qed.
Print Assumptions C09_modified_following_stays_in_month.

Theorem C09_modified_preceding_stays_in_month : forall c d, wf_calendar c ->
  (exists x, business_day c x /\ month_index x = month_index d) ->
  exists e, roll c ModPreceding d = Ok e /\ business_day c e /\ month_index e = month_index d.
Proof. exact roll_modprec_month. Qed.
Print Assumptions C09_modified_preceding_stays_in_month.

Theorem C09_modified_following_cases : forall c d f p, wf_calendar c -> first_on_or_after c d f -> last_on_or_before c d p ->
  roll c ModFollowing d = Ok (if month_index f =? month_index d then f else p).
Proof. exact roll_modfol_cases. Qed.
Print Assumptions C09_modified_following_cases.

Theorem C09_modified_preceding_cases : forall c d f p, wf_calendar c -> first_on_or_after c d f -> last_on_or_before c d p ->
  roll c ModPreceding d = Ok (if month_index p =? month_index d then p else f).
Proof. exact roll_modprec_cases. Qed.
Print Assumptions C09_modified_preceding_cases.

(* month_index identifies the calendar month. *)
Theorem C09_month_index_is_calendar_month : forall a b, month_index a = month_index b <-> year a = year b /\ month a = month b.
Proof. exact same_month_iff. Qed.
Print Assumptions C09_month_index_is_calendar_month.

Example C09_ex : roll xmas ModFollowing (mk 2024 12 28) = Ok (mk 2024 12 20) /\
  (exists x, business_day xmas x /\ month_index x = month_index (mk 2024 12 28)).
Proof.
  split; [vm_compute; reflexivity|]. exists (mk 2024 12 20). split; [|reflexivity].
  apply is_busday_iff. vm_compute. reflexivity.
Qed.

(* Offsets count business days exactly. *)
Theorem C10_workday_counts : forall c d n, wf_calendar c -> 0 <= n ->
  exists s e, following c d = Ok s /\ workday d n c = Ok e /\ business_day c e /\ s <= e /\
    business_days_between c s e = Z.to_nat n.
Proof. exact workday_count. Qed.
Print Assumptions C10_workday_counts.

Theorem C10_offsets_compose : forall c d n m r r', wf_calendar c -> r <> Unadjusted -> r' <> Unadjusted -> 0 <= n -> 0 <= m ->
  exists e, busday_offset c d n r = Ok e /\ busday_offset c e m r' = busday_offset c d (n + m) r.
Proof. exact busday_offset_compose. Qed.
Print Assumptions C10_offsets_compose.

Theorem C10_offsets_invertible : forall c d n r r', wf_calendar c -> r <> Unadjusted -> r' <> Unadjusted ->
  exists s e, roll c r d = Ok s /\ busday_offset c d n r = Ok e /\ busday_offset c e (- n) r' = Ok s.
Proof. exact busday_offset_inverse. Qed.
Print Assumptions C10_offsets_invertible.

Example C10_ex : workday (mk 2024 12 19) 3 xmas = Ok (mk 2025 1 3) /\
  business_days_between xmas (mk 2024 12 19) (mk 2025 1 3) = 3%nat.
Proof. vm_compute. auto. Qed.

(* Joint calendars. *)
Theorem C11_joint_calendar_is_intersection : forall ccy loc keys,
  (forall k, In k keys -> exists o, member_calendar ccy loc k o) ->
  (forall k o, In k keys -> member_calendar ccy loc k o -> forall w, In w (weekend o) -> 0 <= w <= 6) ->
  (exists w, 0 <= w <= 6 /\ forall k o, In k keys -> member_calendar ccy loc k o -> ~ In w (weekend o)) ->
  exists c, get_busdaycal ccy loc (KList keys) = Ok c /\ wf_calendar c /\
    forall d, business_day c d <-> forall k o, In k keys -> member_calendar ccy loc k o -> open_in o d.
Proof. exact get_busdaycal_list. Qed.
Print Assumptions C11_joint_calendar_is_intersection.

Theorem C11_single_key : forall ccy loc k, get_busdaycal ccy loc (KStr k) = get_busdaycal ccy loc (KList [k]).
Proof. exact get_busdaycal_str_list. Qed.
Print Assumptions C11_single_key.

Theorem C11_unknown_member_rejected : forall ccy loc keys k, In k keys -> (forall o, ~ member_calendar ccy loc k o) ->
  get_busdaycal ccy loc (KList keys) = Err ValueError.
Proof. exact get_busdaycal_unknown. Qed.
Print Assumptions C11_unknown_member_rejected.

(* Order and repetition of members do not change which days are business days. *)
Theorem C11_order_and_repetition_irrelevant : forall ccy loc keys keys' c c',
  (forall k, In k keys <-> In k keys') ->
  (forall k, In k keys -> exists o, member_calendar ccy loc k o) ->
  (forall k o, In k keys -> member_calendar ccy loc k o -> forall w, In w (weekend o) -> 0 <= w <= 6) ->
  (exists w, 0 <= w <= 6 /\ forall k o, In k keys -> member_calendar ccy loc k o -> ~ In w (weekend o)) ->
  get_busdaycal ccy loc (KList keys) = Ok c -> get_busdaycal ccy loc (KList keys') = Ok c' ->
  forall d, business_day c d <-> business_day c' d.
Proof. exact get_busdaycal_order. Qed.
Print Assumptions C11_order_and_repetition_irrelevant.

(* Members whose weekends together cover the whole week are rejected. *)
Theorem C11_no_common_working_day_rejected : forall ccy loc ks objs,
  sequence (map (get_holidays_object ccy loc) ks) = Ok objs ->
  (forall o, In o objs -> forall w, In w (weekend o) -> 0 <= w <= 6) ->
  (forall w, 0 <= w <= 6 -> exists o, In o objs /\ In w (weekend o)) ->
  build_calendar ccy loc ks = Err ValueError.
Proof. exact build_calendar_no_working_day. Qed.
Print Assumptions C11_no_common_working_day_rejected.

(* The week mask of a weekend set: negative weekdays count from the end of the week, others do not exist. *)
Theorem C11_weekmask : forall ws,
  ((exists m, convert_weekend_to_weekmask ws = Ok m) <-> forall w, In w ws -> -7 <= w <= 6) /\
  ((exists w, In w ws /\ (w < -7 \/ 6 < w)) -> convert_weekend_to_weekmask ws = Err IndexError) /\
  forall m, convert_weekend_to_weekmask ws = Ok m -> List.length m = 7%nat /\
    forall j, 0 <= j <= 6 -> (nth (Z.to_nat j) m false = true <-> ~ In j ws /\ ~ In (j - 7) ws).
Proof.
  intros ws. unfold convert_weekend_to_weekmask. pose proof (convert_any ws (repeat true 7) eq_refl) as H.
  assert (F : forallb (fun w => (-7 <=? w) && (w <=? 6)) ws = true <-> forall w, In w ws -> -7 <= w <= 6).
  { rewrite forallb_forall. split; intros G w I; specialize (G w I); [apply andb_true_iff in G as [G1 G2]; lia|apply andb_true_iff; lia]. }
  destruct (forallb _ ws).
  - destruct H as (m & E & L & N). split; [|split].
    + split; [intros _; apply F; reflexivity|eauto].
    + intros (w & I & B). pose proof (proj1 F eq_refl w I). lia.
    + intros m' E'. rewrite E in E'. injection E' as <-. split; [exact L|]. intros j Hj. rewrite N by exact Hj.
      assert (T : nth (Z.to_nat j) (repeat true 7) false = true).
      { assert (J : j = 0 \/ j = 1 \/ j = 2 \/ j = 3 \/ j = 4 \/ j = 5 \/ j = 6) by lia. repeat (destruct J as [->|J]; [reflexivity|]). subst. reflexivity. }
      rewrite T. tauto.
  - split; [|split].
    + split; [intros [m E]; rewrite H in E; discriminate|]. intros G. apply F in G. discriminate.
    + intros _. exact H.
    + intros m E. rewrite H in E. discriminate.
Qed.
Print Assumptions C11_weekmask.
Example C11_weekmask_ex : convert_weekend_to_weekmask [-1; 5] = Ok [true; true; true; true; true; false; false].
Proof. reflexivity. Qed.

Definition ex_ccy (k : string) : option holiday_object :=
  if String.eqb k "AED" then Some {| weekend := [5; 6]; holiday_dates := [mk 2024 12 2] |}
  else if String.eqb k "ILS" then Some {| weekend := [4; 5]; holiday_dates := [mk 2024 10 3] |} else None.

Example C11_ex : exists c, get_busdaycal ex_ccy (fun _ => None) (KList ["aed"%string; "ILS"%string; "aed"%string]) = Ok c /\
  weekmask c = [true; true; true; true; false; false; false] /\ holidays c = [mk 2024 10 3; mk 2024 12 2].
Proof. eexists. split; [vm_compute; reflexivity|]. split; reflexivity. Qed.
