(* C149: names of calendars *)
From Coq Require Import ZArith String Ascii List Bool Lia.
From Verif Require Import Base Date DateProofs BusDayModel BusDaySpec BusDayProofs CalKeyModel CalKeySpec.
Import ListNotations.
Open Scope Z_scope.

Local Lemma lookup_some t k s : lookup t k = Some s -> In (k, s) t.
Proof.
  unfold lookup. destruct (find _ t) as [[n x]|] eqn:E; [|discriminate]. intros H. injection H as <-. apply find_some in E as [I E]. cbn in E. apply String.eqb_eq in E as ->. exact I.
Qed.
Local Lemma lookup_in t k : In k (map fst t) -> exists s, lookup t k = Some s.
Proof.
  intros I. apply in_map_iff in I as ((n & s) & E & I). cbn in E. subst n. unfold lookup. destruct (find _ t) as [x|] eqn:F; [eexists; reflexivity|].
  exfalso. apply find_none with (x := (k, s)) in F; [|exact I]. cbn in F. rewrite String.eqb_refl in F. discriminate.
Qed.
Local Lemma upper_char_idem a : upper_char (upper_char a) = upper_char a.
Proof. destruct a as [[] [] [] [] [] [] [] []]; reflexivity. Qed.
Local Lemma upper_idem s : upper (upper s) = upper s.
Proof. induction s as [|a s IH]; [reflexivity|]. cbn. rewrite upper_char_idem, IH. reflexivity. Qed.
Local Lemma member_source pkg k o : member_calendar (ccy_holiday pkg) (locale_holiday pkg) k o -> exists s, source_of (upper k) s /\ o = pkg s.
Proof.
  unfold ccy_holiday, locale_holiday. intros [H|[_ H]]; [destruct (lookup ccy_table _) as [s|] eqn:E|destruct (lookup locale_table _) as [s|] eqn:E]; try discriminate; injection H as <-;
    exists s; (split; [|reflexivity]); [left|right]; apply lookup_some; exact E.
Qed.
Local Lemma name_member pkg k : In (upper k) all_names -> exists o, member_calendar (ccy_holiday pkg) (locale_holiday pkg) k o.
Proof.
  unfold member_calendar, ccy_holiday, locale_holiday. intros I. destruct (lookup ccy_table (upper k)) as [s|] eqn:E; [exists (pkg s); left; reflexivity|].
  apply in_app_or in I as [I|I]; apply lookup_in in I as (s & F); [congruence|]. exists (pkg s). right. split; [reflexivity|]. rewrite F. reflexivity.
Qed.
Local Lemma source_name k s : source_of k s -> In k all_names.
Proof. intros [I|I]; apply in_or_app; [left|right]; apply in_map_iff; exists (k, s); auto. Qed.
Local Lemma list_calendar pkg keys : plausible pkg -> (forall k, In k keys -> In (upper k) all_names) ->
  exists c, busdaycal pkg (KList keys) = Ok c /\ wf_calendar c /\ forall d, business_day c d <-> forall k o, In k keys -> member_calendar (ccy_holiday pkg) (locale_holiday pkg) k o -> open_in o d.
Proof.
  intros [P1 (w & W & P2)] N. apply get_busdaycal_list.
  - intros k I. apply name_member, N, I.
  - intros k o _ M x X. apply member_source in M as (s & _ & ->). apply (P1 _ _ X).
  - exists w. split; [exact W|]. intros k o _ M. apply member_source in M as (s & _ & ->). apply P2.
Qed.

(* a text is a key exactly when it is, in any case, one of the names in the tables; a list when all of its members are *)
Theorem C149_accepted (pkg : source -> holiday_object) (k : string) (keys : list string) : plausible pkg ->
  ((exists c, busdaycal pkg (KStr k) = Ok c) <-> In (upper k) all_names)
  /\ ((exists c, busdaycal pkg (KList keys) = Ok c) <-> forall k, In k keys -> In (upper k) all_names)
  /\ ((exists k, In k keys /\ ~ In (upper k) all_names) -> busdaycal pkg (KList keys) = Err ValueError).
Proof.
  intros P. assert (U : forall l, (exists k, In k l /\ ~ In (upper k) all_names) -> busdaycal pkg (KList l) = Err ValueError).
  { intros l (x & I & N). apply get_busdaycal_unknown with (k := x); [exact I|]. intros o M. apply member_source in M as (s & S & _). apply N. eapply source_name, S. }
  assert (L : forall l, (exists c, busdaycal pkg (KList l) = Ok c) <-> forall k, In k l -> In (upper k) all_names).
  { intros l. split.
    - intros (c & E) x I. destruct (in_dec string_dec (upper x) all_names) as [|N]; [assumption|]. rewrite U in E by (exists x; auto). discriminate.
    - intros N. destruct (list_calendar pkg l P N) as (c & E & _). exists c. exact E. }
  split; [|split; [apply L|apply U]]. unfold busdaycal. rewrite get_busdaycal_str_list. rewrite (L [k]). split; [intros H; apply H; left; reflexivity|]. intros H x [<-|[]]. exact H.
Qed.
(* case does not matter *)
Theorem C149_case (pkg : source -> holiday_object) (k k' : string) : upper k = upper k' -> busdaycal pkg (KStr k) = busdaycal pkg (KStr k').
Proof. intros E. unfold busdaycal. cbn [get_busdaycal]. rewrite E. reflexivity. Qed.
Theorem C149_case_list (pkg : source -> holiday_object) (keys keys' : list string) : plausible pkg -> (forall n, In n (map upper keys) <-> In n (map upper keys')) -> forall c c',
  busdaycal pkg (KList keys) = Ok c -> busdaycal pkg (KList keys') = Ok c' -> forall d, business_day c d <-> business_day c' d.
Proof.
  intros P S c c' E E' d. assert (A : forall l x, busdaycal pkg (KList l) = Ok x -> forall k, In k l -> In (upper k) all_names) by (intros l x H; apply (proj1 (proj2 (C149_accepted pkg EmptyString l P))); exists x; exact H).
  destruct (list_calendar pkg keys P (A _ _ E)) as (x & X & _ & B). destruct (list_calendar pkg keys' P (A _ _ E')) as (y & Y & _ & B'). rewrite E in X. rewrite E' in Y. injection X as <-. injection Y as <-. rewrite B, B'.
  assert (M : forall k k' o, upper k = upper k' -> member_calendar (ccy_holiday pkg) (locale_holiday pkg) k o -> member_calendar (ccy_holiday pkg) (locale_holiday pkg) k' o) by (unfold member_calendar; intros a b o ->; auto).
  split; intros H k o I Mo.
  - assert (J : In (upper k) (map upper keys)) by (apply S, in_map, I). apply in_map_iff in J as (k' & F & J). apply (H k' o J). apply (M k k' o); auto.
  - assert (J : In (upper k) (map upper keys')) by (apply S, in_map, I). apply in_map_iff in J as (k' & F & J). apply (H k' o J). apply (M k k' o); auto.
Qed.

(* three names cannot be given as a text or in a list, because they are not in upper case; the calendars of two exchanges are therefore never used *)
Theorem C149_unreachable (n : string) : In n all_names -> ((forall k, upper k <> n) <-> In n mixed_case_names).
Proof.
  intros I. assert (A : List.Forall (fun n => (upper n = n /\ ~ In n mixed_case_names) \/ (upper n <> n /\ In n mixed_case_names)) all_names).
  { cbn. repeat (constructor; [first [left; split; [reflexivity|intros [H|[H|[H|[]]]]; discriminate H]|right; split; [discriminate|cbn; auto]]|]). constructor. }
  rewrite List.Forall_forall in A. destruct (A n I) as [[U N]|[U N]]; split; intros H.
  - destruct (H n U).
  - contradiction.
  - exact N.
  - intros k E. apply U. rewrite <- E. apply upper_idem.
Qed.
Theorem C149_unused_exchanges (pkg pkg' : source -> holiday_object) : (forall s, s_class s <> "IFEU"%string -> s_class s <> "XNYS"%string -> pkg s = pkg' s) -> forall keys, busdaycal pkg keys = busdaycal pkg' keys.
Proof.
  intros A. assert (C : forall t k, In (k, t) ccy_table \/ (In (k, t) locale_table /\ exists j, upper j = k) -> pkg t = pkg' t).
  { assert (F : List.Forall (fun e => s_class (snd e) <> "IFEU"%string /\ s_class (snd e) <> "XNYS"%string) ccy_table) by (cbn; repeat (constructor; [split; discriminate|]); constructor).
    assert (G : List.Forall (fun e => (s_class (snd e) <> "IFEU"%string /\ s_class (snd e) <> "XNYS"%string) \/ In (fst e) mixed_case_names) locale_table) by (cbn; repeat (constructor; [first [left; split; discriminate|right; cbn; auto]|]); constructor).
    rewrite List.Forall_forall in F, G. intros t k [I|[I (j & U)]].
    - destruct (F _ I). apply A; assumption.
    - destruct (G _ I) as [[]|M]; [apply A; assumption|]. cbn in M. exfalso. refine (proj2 (C149_unreachable k _) M j U). apply in_or_app. right. apply in_map_iff. exists (k, t). auto. }
  assert (O : forall j, get_holidays_object (ccy_holiday pkg) (locale_holiday pkg) (upper j) = get_holidays_object (ccy_holiday pkg') (locale_holiday pkg') (upper j)).
  { intros j. unfold get_holidays_object, ccy_holiday, locale_holiday. destruct (lookup ccy_table (upper j)) as [s|] eqn:E; cbn.
    - rewrite (C s (upper j)); [reflexivity|]. left. apply lookup_some, E.
    - destruct (lookup locale_table (upper j)) as [s|] eqn:F; cbn; [|reflexivity]. rewrite (C s (upper j)); [reflexivity|]. right. split; [apply lookup_some, F|]. exists j. reflexivity. }
  intros [|k|l]; unfold busdaycal; cbn [get_busdaycal]; [reflexivity| |]; unfold build_calendar.
  - cbn [map]. rewrite O. reflexivity.
  - rewrite !map_map. rewrite (map_ext _ _ O). reflexivity.
Qed.

(* keys in a tuple or set are not put in upper case: there the three names work, and no other name with a lower case letter does *)
Theorem C149_iterable (pkg : source -> holiday_object) (keys : list string) : plausible pkg ->
  ((exists c, busdaycal_of_iterable pkg keys = Ok c) <-> forall k, In k keys -> In k all_names)
  /\ (forall k, In k keys -> upper k <> k -> ~ In k mixed_case_names -> busdaycal_of_iterable pkg keys = Err ValueError).
Proof.
  intros [P1 (w & W & P2)].
  assert (R : forall k, match get_holidays_object (ccy_holiday pkg) (locale_holiday pkg) k with Ok o => In k all_names /\ exists s, o = pkg s | Err e => e = ValueError /\ ~ In k all_names end).
  { intros k. unfold get_holidays_object, ccy_holiday, locale_holiday. destruct (lookup ccy_table k) as [s|] eqn:E; cbn [option_map]; [split; [apply source_name with (s := s); left; apply lookup_some, E|eauto]|].
    destruct (lookup locale_table k) as [s|] eqn:F; cbn [option_map]; [split; [apply source_name with (s := s); right; apply lookup_some, F|eauto]|]. split; [reflexivity|]. intros I. apply in_app_or in I as [I|I]; apply lookup_in in I as (s & G); congruence. }
  assert (U : forall k, In k keys -> ~ In k all_names -> busdaycal_of_iterable pkg keys = Err ValueError).
  { intros k I N. unfold busdaycal_of_iterable, build_calendar. rewrite (sequence_err_kind (map (get_holidays_object (ccy_holiday pkg) (locale_holiday pkg)) keys) ValueError); [reflexivity| |].
    - intros e J. apply in_map_iff in J as (x & E & _). specialize (R x). rewrite E in R. apply R.
    - specialize (R k). destruct (get_holidays_object _ _ k) as [o|e] eqn:E; [destruct R; contradiction|]. exists e. rewrite <- E. apply in_map, I. }
  split.
  - split.
    + intros (c & E) k I. destruct (in_dec string_dec k all_names) as [|N]; [assumption|]. rewrite (U k I N) in E. discriminate.
    + intros N. unfold busdaycal_of_iterable.
      assert (Q : exists objs, sequence (map (get_holidays_object (ccy_holiday pkg) (locale_holiday pkg)) keys) = Ok objs /\ forall o, In o objs -> exists s, o = pkg s).
      { clear U. induction keys as [|k l IH]; [exists []; split; [reflexivity|intros o []]|]. destruct IH as (objs & E & F); [intros x I; apply N; right; exact I|].
        specialize (R k). cbn [map sequence]. destruct (get_holidays_object _ _ k) as [o|e] eqn:G; [|destruct R as [_ B]; destruct B; apply N; left; reflexivity]. destruct R as [_ (s & ->)]. exists (pkg s :: objs). cbn. rewrite E. split; [reflexivity|]. intros x [<-|I]; [eauto|apply F, I]. }
      destruct Q as (objs & E & F). destruct (build_calendar_business_days _ _ keys objs E) as (c & Ec & _); [|exists w; split; [exact W|]|exists c; exact Ec].
      * intros o I x X. destruct (F o I) as (s & ->). apply (P1 _ _ X).
      * intros o I. destruct (F o I) as (s & ->). apply P2.
  - intros k I L M. apply (U k I). intros J. apply M, C149_unreachable; [exact J|]. intros j E. apply L. rewrite <- E. apply upper_idem.
Qed.

(* the calendar of a currency is that of one of the places, which can be named; the euro's has no other name *)
Theorem C149_currencies (pkg : source -> holiday_object) : 
  (forall c, In c (map fst ccy_table) -> c <> "EUR"%string -> exists place, In place (map fst locale_table) /\ upper place = place /\ busdaycal pkg (KStr c) = busdaycal pkg (KStr place))
  /\ (forall k, source_of (upper k) (entry "ECB" "" false) <-> upper k = "EUR"%string).
Proof.
  split.
  - assert (A : List.Forall (fun c => c = "EUR"%string \/ exists place, In place (map fst locale_table) /\ upper place = place /\ upper c = c /\ lookup ccy_table place = None /\ lookup ccy_table c <> None /\ lookup ccy_table c = lookup locale_table place) (map fst ccy_table)).
    { cbn [map fst ccy_table]. repeat (constructor; [first [left; reflexivity|right]|]); [..|constructor];
      match goal with |- exists place, _ /\ _ /\ upper ?c = ?c /\ _ => 
        let s := eval vm_compute in (lookup ccy_table c) in
        let e := eval vm_compute in (find (fun e => match s with Some x => String.eqb (s_class (snd e)) (s_class x) && String.eqb (s_subdiv (snd e)) (s_subdiv x) | None => false end) locale_table) in
        match e with Some (?p, _) => exists p end end;
      (split; [vm_compute; repeat (try (left; reflexivity); right)|]); repeat split; vm_compute; try reflexivity; discriminate. }
    rewrite List.Forall_forall in A. intros c I N. destruct (A c I) as [|(p & J & Up & Uc & None1 & Some1 & E)]; [contradiction|]. exists p. split; [exact J|]. split; [exact Up|].
    unfold busdaycal. cbn [get_busdaycal]. unfold build_calendar. cbn [map]. rewrite Up, Uc. unfold get_holidays_object, ccy_holiday, locale_holiday. rewrite None1. cbn [option_map]. rewrite <- E. destruct (lookup ccy_table c); [reflexivity|contradiction].
  - intros k. split; [|intros ->; left; cbn; repeat (try (left; reflexivity); right)]. intros [I|I].
    + assert (F : List.Forall (fun e => snd e = entry "ECB" "" false -> fst e = "EUR"%string) ccy_table) by (cbn [ccy_table]; repeat (constructor; [cbn; first [discriminate|reflexivity]|]); constructor).
      rewrite List.Forall_forall in F. apply (F _ I). reflexivity.
    + assert (F : List.Forall (fun e => snd e = entry "ECB" "" false -> In (fst e) mixed_case_names) locale_table) by (cbn [locale_table]; repeat (constructor; [cbn; first [discriminate|auto]|]); constructor).
      rewrite List.Forall_forall in F. specialize (F _ I eq_refl). cbn [fst] in F. exfalso. refine (proj2 (C149_unreachable (upper k) _) F k eq_refl). eapply source_name. right. exact I.
Qed.

(* which names there are: the currencies of the list of centres and the euro, and the places of that list and five more *)
Theorem C149_names (n : string) : In n all_names <-> n = "EUR"%string \/ In n (map fst centres) \/ In n (map snd centres) \/ In n other_places \/ In n mixed_case_names.
Proof.
  assert (D : forall l m : list string, forallb (fun x => existsb (String.eqb x) m) l = true -> forall x, In x l -> In x m).
  { intros l m H x I. rewrite forallb_forall in H. specialize (H x I). apply existsb_exists in H as (y & J & E). apply String.eqb_eq in E as ->. exact J. }
  assert (E : In n all_names <-> In n ("EUR"%string :: map fst centres ++ map snd centres ++ other_places ++ mixed_case_names)) by (split; apply D; vm_compute; reflexivity).
  rewrite E. cbn [In]. rewrite !in_app_iff. intuition congruence.
Qed.
(* a currency has the calendar of its centre *)
Theorem C149_centres (pkg : source -> holiday_object) (c place : string) : In (c, place) centres -> busdaycal pkg (KStr c) = busdaycal pkg (KStr place) /\ upper c = c /\ upper place = place.
Proof.
  intros I. assert (A : List.Forall (fun e => lookup ccy_table (snd e) = None /\ lookup ccy_table (fst e) <> None /\ lookup ccy_table (fst e) = lookup locale_table (snd e) /\ upper (fst e) = fst e /\ upper (snd e) = snd e) centres).
  { unfold centres. repeat (constructor; [cbn [fst snd]; repeat split; vm_compute; try reflexivity; discriminate|]). constructor. }
  rewrite List.Forall_forall in A. destruct (A _ I) as (None1 & Some1 & E & Uc & Up). cbn [fst snd] in *. split; [|split; assumption].
  unfold busdaycal. cbn [get_busdaycal]. unfold build_calendar. cbn [map]. rewrite Up, Uc. unfold get_holidays_object, ccy_holiday, locale_holiday. rewrite None1. cbn [option_map]. rewrite <- E. destruct (lookup ccy_table c); [reflexivity|contradiction].
Qed.
(* a place has the public holidays of the country its name begins with and of the region listed, with the bank holidays of three countries *)
Theorem C149_places (n : string) (s : source) : source_of n s -> In n (map snd centres) \/ In n other_places ->
  s_class s = substring 0 2 n /\ (In (n, s_subdiv s) regions \/ (s_subdiv s = EmptyString /\ ~ In n (map fst regions))) /\ (s_bank s = true <-> In (s_class s) bank_countries).
Proof.
  intros S N. assert (A : List.Forall (fun e => In (fst e) mixed_case_names \/
      (s_class (snd e) = substring 0 2 (fst e) /\ (In (fst e, s_subdiv (snd e)) regions \/ (s_subdiv (snd e) = EmptyString /\ existsb (String.eqb (fst e)) (map fst regions) = false)) /\ s_bank (snd e) = existsb (String.eqb (s_class (snd e))) bank_countries)) locale_table).
  { unfold locale_table. repeat (constructor; [first [right; cbn [fst snd s_class s_subdiv s_bank]; split; [reflexivity|]; split; [first [right; split; reflexivity|left; unfold regions; repeat (try (left; reflexivity); right)]|reflexivity]|left; cbn; auto]|]). constructor. }
  assert (NC : ~ In n (map fst ccy_table)).
  { assert (B : List.Forall (fun x => existsb (String.eqb x) (map fst ccy_table) = false) (map snd centres ++ other_places)) by (unfold centres, other_places; cbn [map snd app]; repeat (constructor; [vm_compute; reflexivity|]); constructor).
    rewrite List.Forall_forall in B. intros I. assert (J : In n (map snd centres ++ other_places)) by (apply in_or_app; exact N). specialize (B n J).
    assert (T : existsb (String.eqb n) (map fst ccy_table) = true) by (apply existsb_exists; exists n; split; [exact I|apply String.eqb_refl]). congruence. }
  assert (NM : ~ In n mixed_case_names).
  { assert (B : List.Forall (fun x => existsb (String.eqb x) mixed_case_names = false) (map snd centres ++ other_places)) by (unfold centres, other_places; cbn [map snd app]; repeat (constructor; [vm_compute; reflexivity|]); constructor).
    rewrite List.Forall_forall in B. intros I. assert (J : In n (map snd centres ++ other_places)) by (apply in_or_app; exact N). specialize (B n J).
    assert (T : existsb (String.eqb n) mixed_case_names = true) by (apply existsb_exists; exists n; split; [exact I|apply String.eqb_refl]). congruence. }
  destruct S as [S|S]; [destruct NC; apply in_map_iff; exists (n, s); auto|]. rewrite List.Forall_forall in A. destruct (A _ S) as [M|(A1 & A2 & A3)]; [contradiction|]. cbn [fst snd] in *.
  assert (EB : forall x l, existsb (String.eqb x) l = true <-> In x l).
  { intros x l. rewrite existsb_exists. split; [intros (y & J & E); apply String.eqb_eq in E as ->; exact J|]. intros J. exists x. split; [exact J|apply String.eqb_refl]. }
  split; [exact A1|]. split; [|rewrite A3; apply EB]. destruct A2 as [A2|[A2 A4]]; [left; exact A2|right; split; [exact A2|]]. intros J. apply EB in J. congruence.
Qed.

(* no keys at all means every day is a business day; None means Monday to Friday *)
Theorem C149_empty (pkg : source -> holiday_object) :
  (exists c, busdaycal pkg (KList []) = Ok c /\ forall d, business_day c d) /\ (exists c, busdaycal pkg KNone = Ok c /\ forall d, business_day c d <-> weekday d <= 4).
Proof.
  split.
  - eexists. split; [reflexivity|]. intros d. unfold business_day, working_weekday. cbn [weekmask holidays]. split; [|intros []]. pose proof (weekday_range d) as R.
    assert (H : weekday d = 0 \/ weekday d = 1 \/ weekday d = 2 \/ weekday d = 3 \/ weekday d = 4 \/ weekday d = 5 \/ weekday d = 6) by lia. destruct H as [-> |[-> |[-> |[-> |[-> |[-> | -> ]]]]]]; reflexivity.
  - eexists. split; [reflexivity|]. intros d. unfold business_day, working_weekday. cbn [weekmask holidays default_calendar]. pose proof (weekday_range d) as R.
    assert (H : weekday d = 0 \/ weekday d = 1 \/ weekday d = 2 \/ weekday d = 3 \/ weekday d = 4 \/ weekday d = 5 \/ weekday d = 6) by lia. destruct H as [-> |[-> |[-> |[-> |[-> |[-> | -> ]]]]]]; cbn; split; try lia; try (intros _; split; [reflexivity|intros []]); intros [X _]; discriminate X.
Qed.

(* from 2100 on and before 1990 weekends are the only holidays *)
Theorem C149_years (pkg : source -> holiday_object) (keys : list string) (c : calendar) (d : date) : plausible pkg -> in_years pkg -> d < mk 1990 1 1 \/ mk 2100 1 1 <= d -> busdaycal pkg (KList keys) = Ok c ->
  (business_day c d <-> forall k s, In k keys -> source_of (upper k) s -> member_calendar (ccy_holiday pkg) (locale_holiday pkg) k (pkg s) -> ~ In (weekday d) (weekend (pkg s))).
Proof.
  intros P Y D E. assert (A : forall k, In k keys -> In (upper k) all_names) by (apply (proj1 (proj2 (C149_accepted pkg EmptyString keys P))); exists c; exact E).
  destruct (list_calendar pkg keys P A) as (x & X & _ & B). rewrite E in X. injection X as <-. rewrite B. split.
  - intros H k s I _ M. apply (H k (pkg s) I M).
  - intros H k o I M. destruct (member_source pkg k o M) as (s & S & ->). split; [apply (H k s I S M)|]. intros J. apply Y in J. lia.
Qed.

(* ---- concrete cases ---- *)
Definition weekends_only (s : source) : holiday_object := {| weekend := if String.eqb (s_class s) "IL" then [4; 5] else [5; 6]; holiday_dates := [mk 2024 12 25] |}.
Example weekends_plausible : plausible weekends_only /\ in_years weekends_only.
Proof.
  split; [split|].
  - intros s w. unfold weekends_only. cbn. destruct String.eqb; intros [<-|[<-|[]]]; lia.
  - exists 0. split; [lia|]. intros s. unfold weekends_only. cbn. destruct String.eqb; intros [H|[H|[]]]; lia.
  - intros s d [<-|[]]. vm_compute. split; [discriminate|reflexivity].
Qed.
Example sydney : exists c, busdaycal weekends_only (KStr "au-sydney") = Ok c. Proof. eexists. reflexivity. Qed.
(* Frankfurt has Hamburg's holidays; Tokyo, Bangkok and Taipei are not found under their names *)
Example frankfurt : source_of "DE-FRANKFURT" (entry "DE" "HH" false). Proof. right. cbn. repeat (try (left; reflexivity); right). Qed.
Example tokyo (pkg : source -> holiday_object) : busdaycal pkg (KStr "JP-Tokyo") = Err ValueError /\ busdaycal pkg (KStr "TH-Bangkok") = Err ValueError /\ busdaycal pkg (KStr "TW-Taipei") = Err ValueError.
Proof. repeat split. Qed.

Example sydney_region : source_of "AU-SYDNEY" (entry "AU" "NSW" true) /\ In "AU-SYDNEY"%string (map snd centres) /\ In ("AUD", "AU-SYDNEY")%string centres.
Proof. split; [right|split]; cbn; repeat (try (left; reflexivity); right). Qed.

Definition all_theorems := (C149_accepted, C149_case, C149_case_list, C149_unreachable, C149_unused_exchanges, C149_iterable, C149_currencies, C149_names, C149_centres, C149_places, C149_empty, C149_years).
Print Assumptions all_theorems.
