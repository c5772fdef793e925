From Coq Require Import String ZArith Reals List Bool Lra Lia.
From Verif Require Import Base Date NormalModel NormalProofs BlackModel BlackSpec GkModel GkSpec GkProofs GkVecProofs SabrModel SurfaceModel SurfaceSpec.
Import ListNotations.
Open Scope list_scope.
Open Scope R_scope.

Section Cache.
Variables (ext : externals) (s : surface).

Definition solve1 (d : date) : result smile := match row_of s d with None => Err IndexError | Some r => solve_smile ext s r end.
Definition sound (c : cache) : Prop := forall d f, cached c d = Some f -> solve1 d = Ok f.

Lemma cached_app (c : cache) (d e : date) (f : smile) : cached (c ++ [(d, f)]) e = match cached c e with Some g => Some g | None => if (d =? e)%Z then Some f else None end.
Proof.
  unfold cached. induction c as [|[x g] t IH]; cbn; [now destruct (d =? e)%Z|].
  destruct (x =? e)%Z; [reflexivity|exact IH].
Qed.

Lemma solve_days_spec (dates : list date) : forall c, sound c ->
  sound (fst (solve_days ext s c dates)) /\ (forall d f, cached c d = Some f -> cached (fst (solve_days ext s c dates)) d = Some f)
  /\ snd (solve_days ext s c dates) = (let* _ := sequence (map solve1 dates) in Ok tt)
  /\ (snd (solve_days ext s c dates) = Ok tt -> forall d, In d dates -> exists f, cached (fst (solve_days ext s c dates)) d = Some f).
Proof.
  induction dates as [|d t IH]; intros c G; cbn [solve_days map sequence].
  - cbn. repeat split; auto. intros _ d [].
  - destruct (cached c d) as [g|] eqn:C.
    + destruct (IH c G) as (A & B & E & F). rewrite (G d g C). cbn [bind]. split; [exact A|]. split; [exact B|]. split.
      * rewrite E. destruct (sequence (map solve1 t)); reflexivity.
      * intros H e [<-|I]; [exists g; apply B; exact C | apply F; auto].
    + unfold solve1 at 1. destruct (row_of s d) as [r|] eqn:W; [|cbn; repeat split; auto; discriminate].
      destruct (solve_smile ext s r) as [f|e] eqn:V; [|cbn; repeat split; auto; discriminate].
      assert (G' : sound (c ++ [(d, f)])).
      { intros x h H. rewrite cached_app in H. destruct (cached c x) eqn:Q; [apply G; congruence|].
        destruct (d =? x)%Z eqn:K; [|discriminate]. apply Z.eqb_eq in K. subst x. unfold solve1. rewrite W, V. congruence. }
      destruct (IH _ G') as (A & B & E & F). cbn [bind]. split; [exact A|]. split; [|split].
      * intros x h H. apply B. rewrite cached_app, H. reflexivity.
      * rewrite E. destruct (sequence (map solve1 t)); reflexivity.
      * intros H x [<-|I]; [|apply F; auto]. exists f. apply B. rewrite cached_app, C, Z.eqb_refl. reflexivity.
Qed.

Definition query1 (x : date * (R * R)) : result quote :=
  let '(d, (K, cp)) := x in
  match row_of s d with
  | None => Err KeyError
  | Some r => match solve_smile ext s r with Err _ => Err KeyError | Ok f => let* v := smile_vol ext s f r K cp in Ok (mk_quote r K cp v) end
  end.
Definition outcome (dates : list date) (Ks cps : list R) : result (list quote) :=
  if Nat.eqb (length dates) (length Ks) && Nat.eqb (length dates) (length cps) then
    let* _ := sequence (map solve1 dates) in sequence (map query1 (combine dates (combine Ks cps)))
  else Err AssertionError.

Lemma interp_spec (c : cache) (dates : list date) (Ks cps : list R) : sound c ->
  sound (fst (interp_vol_surface ext s c dates Ks cps)) /\ snd (interp_vol_surface ext s c dates Ks cps) = outcome dates Ks cps.
Proof.
  intros G. unfold interp_vol_surface, outcome. destruct (_ && _); [|cbn; auto].
  destruct (solve_days_spec dates c G) as (A & B & E & F). destruct (solve_days ext s c dates) as [c' r]. cbn [fst snd] in *.
  destruct (sequence (map solve1 dates)) as [l|e] eqn:Q; cbn [bind] in E; subst r; cbn [fst snd bind]; split; auto.
  f_equal. apply map_ext_in. intros (d & K & cp) I. apply in_combine_l in I. destruct (F eq_refl d I) as (f & C).
  unfold query_row, query1. rewrite C. pose proof (A d f C) as V. unfold solve1 in V. destruct (row_of s d); [|discriminate]. now rewrite V.
Qed.

Lemma perform_sound (q : request) (c : cache) : sound c -> sound (perform ext s c q).
Proof.
  intros G. destruct q as [d K cp|d K cp]; cbn [perform].
  - apply (interp_spec c d K cp G).
  - unfold price_vanilla_european. destruct (interp_spec c d K cp G) as [A _]. destruct (interp_vol_surface ext s c d K cp) as [c' r]. exact A.
Qed.
Lemma session_sound (h : list request) : sound (session ext s h).
Proof.
  unfold session. assert (G : sound []) by (intros d f H; discriminate). revert G. generalize (@nil (date * smile)) as c.
  induction h as [|q t IH]; intros c G; cbn; [exact G|]. apply IH, perform_sound, G.
Qed.
Lemma vols_outcome (h : list request) (dates : list date) (Ks cps : list R) : vols_at ext s h dates Ks cps = outcome dates Ks cps.
Proof. apply (interp_spec _ dates Ks cps (session_sound h)). Qed.

Definition priced_rows (cps Ks : list R) (rows : list quote) : result (list num * list quote) :=
  let* p := garman_kohlhagen_price (mk_gk [s_spot s] (map (fun x => d_years (q_day x)) rows) (map (fun x => d_rd (q_day x)) rows) (map (fun x => d_rf (q_day x)) rows)
     cps Ks (map (fun x => finite_or (q_vol x)) rows) (Some (map (fun x => d_F (q_day x)) rows))) false false false in
  Ok (map (fun x => match q_vol (fst x) with Fin _ => snd x | _ => NaN end) (combine rows (p_price p)), rows).
Lemma prices_outcome (h : list request) (dates : list date) (Ks cps : list R) :
  prices_at ext s h dates Ks cps = let* rows := outcome dates Ks cps in priced_rows cps Ks rows.
Proof.
  unfold prices_at, price_vanilla_european. rewrite <- (vols_outcome h). unfold vols_at.
  destruct (interp_vol_surface ext s (session ext s h) dates Ks cps) as [c r]. reflexivity.
Qed.

Lemma history (h : list request) (dates : list date) (Ks cps : list R) :
  vols_at ext s h dates Ks cps = vols_at ext s [] dates Ks cps /\ prices_at ext s h dates Ks cps = prices_at ext s [] dates Ks cps.
Proof. rewrite !vols_outcome, !prices_outcome. auto. Qed.

Lemma outcome_one (d : date) (K cp : R) : outcome [d] [K] [cp] =
  match row_of s d with
  | None => Err IndexError
  | Some r => let* f := solve_smile ext s r in let* v := smile_vol ext s f r K cp in Ok [mk_quote r K cp v]
  end.
Proof.
  unfold outcome. cbn [length Nat.eqb andb map combine sequence]. unfold solve1, query1. destruct (row_of s d) as [r|]; [|reflexivity].
  destruct (solve_smile ext s r) as [f|e]; [|reflexivity]. cbn [bind]. destruct (smile_vol ext s f r K cp); reflexivity.
Qed.

Lemma one_ok (d : date) (K cp : R) (q : quote) : outcome [d] [K] [cp] = Ok [q] <-> (exists f, solve1 d = Ok f) /\ query1 (d, (K, cp)) = Ok q.
Proof.
  rewrite outcome_one. unfold solve1, query1. destruct (row_of s d) as [r|]; [|split; [discriminate|intros [[f H] _]; discriminate]].
  destruct (solve_smile ext s r) as [f|e]; cbn [bind]; [|split; [discriminate|intros [[f H] _]; discriminate]].
  destruct (smile_vol ext s f r K cp) as [v|e]; cbn [bind]; split; try discriminate.
  - intros H. injection H as <-. eauto.
  - intros [_ H]. injection H as <-. reflexivity.
  - intros [_ H]. discriminate.
Qed.

Lemma sequence_map_ok {A B} (f : A -> result B) (l : list A) (r : list B) :
  sequence (map f l) = Ok r <-> length r = length l /\ forall i a, nth_error l i = Some a -> exists b, nth_error r i = Some b /\ f a = Ok b.
Proof.
  revert r. induction l as [|a l IH]; intros r; cbn [map sequence length].
  - split; [intros H; injection H as <-; split; [reflexivity|intros [|i] a H; discriminate]|]. intros [H _]. destruct r; [reflexivity|discriminate].
  - split.
    + intros H. apply bind_ok in H as (b & E & H). apply bind_ok in H as (t & E' & H). injection H as <-. apply IH in E' as [L N].
      cbn. split; [congruence|]. intros [|i] x H; cbn in *; [injection H as <-; eauto|eauto].
    + intros [L N]. destruct r as [|b t]; [discriminate|]. destruct (N O a eq_refl) as (b' & E & F). cbn in E. injection E as <-. rewrite F. cbn [bind].
      assert (Q : sequence (map f l) = Ok t). { apply IH. split; [now injection L|]. intros i x H. exact (N (Datatypes.S i) x H). }
      now rewrite Q.
Qed.

Lemma elementwise (h : list request) (dates : list date) (Ks cps : list R) (rows : list quote) :
  vols_at ext s h dates Ks cps = Ok rows <->
  length Ks = length dates /\ length cps = length dates /\ length rows = length dates /\
  forall (i : nat) (d : date) (K cp : R), nth_error dates i = Some d -> nth_error Ks i = Some K -> nth_error cps i = Some cp ->
    exists q, nth_error rows i = Some q /\ vols_at ext s [] [d] [K] [cp] = Ok [q].
Proof.
  rewrite vols_outcome. unfold outcome at 1.
  assert (NC : forall i d K cp, nth_error (combine dates (combine Ks cps)) i = Some (d, (K, cp)) <-> nth_error dates i = Some d /\ nth_error Ks i = Some K /\ nth_error cps i = Some cp).
  { intros i d K cp.
    assert (G : forall A B (l : list A) (m : list B) j, nth_error (combine l m) j = match nth_error l j, nth_error m j with Some a, Some b => Some (a, b) | _, _ => None end).
    { intros A B l. induction l as [|a l IH]; intros [|b m] [|j]; cbn; auto; destruct (nth_error l j); reflexivity. }
    rewrite !G. destruct (nth_error dates i), (nth_error Ks i), (nth_error cps i); split; intros H; try discriminate; try (destruct H as (? & ? & ?); discriminate).
    - injection H as -> -> ->. auto.
    - destruct H as (H1 & H2 & H3). injection H1 as ->. injection H2 as ->. injection H3 as ->. reflexivity. }
  destruct (Nat.eqb (length dates) (length Ks) && Nat.eqb (length dates) (length cps)) eqn:L.
  - apply andb_true_iff in L as [L1 L2]. apply Nat.eqb_eq in L1. apply Nat.eqb_eq in L2.
    assert (LC : length (combine dates (combine Ks cps)) = length dates) by (rewrite !combine_length; lia).
    split.
    + intros H. apply bind_ok in H as (l & E & H). apply sequence_map_ok in E as [_ E]. apply sequence_map_ok in H as [LH H]. rewrite LC in LH.
      repeat split; try congruence. intros i d K cp Hd HK Hc. destruct (H i (d, (K, cp))) as (q & Q & F); [apply NC; auto|]. exists q. split; [exact Q|].
      rewrite vols_outcome. apply one_ok. split; [|exact F]. destruct (E i d Hd) as (f & _ & V). eauto.
    + intros (_ & _ & LR & H).
      assert (E : exists l, sequence (map solve1 dates) = Ok l).
      { assert (A : forall d, In d dates -> exists f, solve1 d = Ok f).
        { intros d I. apply In_nth_error in I as (i & Hi). assert (HL : (i < length dates)%nat) by (apply nth_error_Some; congruence).
          destruct (nth_error Ks i) as [K|] eqn:EK; [|apply nth_error_None in EK; lia]. destruct (nth_error cps i) as [cp|] eqn:EC; [|apply nth_error_None in EC; lia].
          destruct (H i d K cp Hi EK EC) as (q & _ & V). rewrite vols_outcome in V. apply one_ok in V. apply V. }
        clear -A. induction dates as [|d t IH]; [exists []; reflexivity|]. destruct (A d (or_introl eq_refl)) as (f & V). destruct IH as (l & E); [intros x I; apply A; right; exact I|].
        exists (f :: l). cbn [map sequence]. now rewrite V, E. }
      destruct E as (l & ->). cbn [bind]. apply sequence_map_ok. split; [congruence|]. intros i (d & K & cp) N. apply NC in N as (Hd & HK & Hc).
      destruct (H i d K cp Hd HK Hc) as (q & Q & V). exists q. split; [exact Q|]. rewrite vols_outcome in V. apply one_ok in V. apply V.
  - split; [discriminate|]. intros (L1 & L2 & _). rewrite <- L1 in L at 1. rewrite <- L2 in L. rewrite !Nat.eqb_refl in L. discriminate.
Qed.

Lemma row_of_in (d : date) (r : day_row) : row_of s d = Some r -> In r (s_daily s) /\ d_date r = d.
Proof. intros H. apply find_some in H as [I E]. apply Z.eqb_eq in E. auto. Qed.
Lemma row_of_none (d : date) : (forall r, In r (s_daily s) -> d_date r <> d) -> row_of s d = None.
Proof.
  intros H. destruct (row_of s d) as [r|] eqn:E; [|reflexivity]. apply row_of_in in E as [I Q]. destruct (H r I Q).
Qed.
Lemma row_of_unique (r : day_row) : one_row_per_day s -> In r (s_daily s) -> row_of s (d_date r) = Some r.
Proof.
  unfold one_row_per_day, row_of. induction (s_daily s) as [|x l IH]; [contradiction|]. cbn. intros N [<-|I].
  - now rewrite Z.eqb_refl.
  - inversion N as [|? ? NI ND]; subst. destruct (d_date x =? d_date r)%Z eqn:E; [|auto]. apply Z.eqb_eq in E. destruct NI. rewrite E. apply in_map. exact I.
Qed.

Lemma row_content (h : list request) (d : date) (K cp : R) (q : quote) : vols_at ext s h [d] [K] [cp] = Ok [q] ->
  In (q_day q) (s_daily s) /\ d_date (q_day q) = d /\ q_K q = K /\ q_cp q = cp.
Proof.
  rewrite vols_outcome. rewrite one_ok. unfold query1. intros [_ H]. destruct (row_of s d) as [r|] eqn:E; [|discriminate].
  destruct (solve_smile ext s r); [|discriminate]. apply bind_ok in H as (v & _ & H). injection H as <-. cbn. apply row_of_in in E. tauto.
Qed.

Lemma outside (h : list request) (d : date) (K cp : R) : (forall r, In r (s_daily s) -> d_date r <> d) -> vols_at ext s h [d] [K] [cp] = Err IndexError.
Proof. intros H. rewrite vols_outcome, outcome_one, row_of_none by exact H. reflexivity. Qed.
Lemma outside_any (h : list request) (dates : list date) (Ks cps : list R) (d : date) : In d dates -> (forall r, In r (s_daily s) -> d_date r <> d) ->
  exists e, vols_at ext s h dates Ks cps = Err e.
Proof.
  intros I H. destruct (vols_at ext s h dates Ks cps) as [rows|e] eqn:E; [|eauto]. apply elementwise in E as (L1 & L2 & _ & N).
  apply In_nth_error in I as (i & Hi). assert (HL : (i < length dates)%nat) by (apply nth_error_Some; congruence).
  destruct (nth_error Ks i) as [K|] eqn:EK; [|apply nth_error_None in EK; lia]. destruct (nth_error cps i) as [cp|] eqn:EC; [|apply nth_error_None in EC; lia].
  destruct (N i d K cp Hi EK EC) as (q & _ & V). rewrite outside in V by exact H. discriminate.
Qed.
Lemma lengths (h : list request) (dates : list date) (Ks cps : list R) : ~ (length Ks = length dates /\ length cps = length dates) ->
  vols_at ext s h dates Ks cps = Err AssertionError /\ prices_at ext s h dates Ks cps = Err AssertionError.
Proof.
  intros H. rewrite vols_outcome, prices_outcome. unfold outcome. destruct (Nat.eqb (length dates) (length Ks) && Nat.eqb (length dates) (length cps)) eqn:L; [|auto].
  apply andb_true_iff in L as [L1 L2]. apply Nat.eqb_eq in L1. apply Nat.eqb_eq in L2. destruct H. auto.
Qed.

Lemma prices (h : list request) (dates : list date) (Ks cps : list R) (ps : list num) (rows : list quote) :
  (prices_at ext s h dates Ks cps = Ok (ps, rows) <->
   vols_at ext s h dates Ks cps = Ok rows /\ 0 < s_spot s /\ Forall call_or_put cps /\ (forall q, In q rows -> 0 <= d_years (q_day q) /\ 0 < d_F (q_day q)) /\ Forall2 (price_of s) rows ps).
Proof.
  rewrite prices_outcome, vols_outcome. destruct (outcome dates Ks cps) as [rs|e] eqn:O; [|cbn; split; [discriminate|intros [H _]; discriminate]]. cbn [bind].
  assert (O' := O). rewrite <- (vols_outcome []) in O'. apply elementwise in O' as (L1 & L2 & L3 & N).
  unfold priced_rows.
  set (g := mk_gk _ _ _ _ _ _ _ _).
  assert (V : valid_gk g <-> 0 < s_spot s /\ Forall call_or_put cps /\ (forall q, In q rs -> 0 <= d_years (q_day q) /\ 0 < d_F (q_day q))).
  { unfold valid_gk, g. cbn. rewrite !Forall_map, !map_length, !Forall_forall. split.
    - intros (A & B & C & D & E & F). split; [apply A; left; reflexivity|]. split; [exact C|]. intros q I. split; [apply B|apply F]; exact I.
    - intros (A & C & F). split; [intros x [<-|[]]; exact A|]. split; [intros q I; apply F; exact I|]. split; [exact C|]. split; [lia|]. split; [lia|]. intros q I. apply F. exact I. }
  assert (FT : fits (gk_lens g) (length rs)).
  { unfold fits, gk_lens, g. cbn. rewrite !map_length. split; [repeat (apply Forall_cons; [first [left; reflexivity | right; lia]|]); apply Forall_nil|]. right. left. reflexivity. }
  assert (AC : forall n, (exists r, garman_kohlhagen_price g false false false = Ok r /\ length (p_price r) = n) <-> valid_gk g /\ n = length rs).
  { intros n. rewrite gk_accepts. split.
    - intros (A & _ & B & _). cbn in B. rewrite map_length in B. auto.
    - intros (A & ->). split; [exact A|]. split; [exact FT|]. cbn. rewrite map_length. split; [reflexivity|]. right. lia. }
  assert (EL : forall r, garman_kohlhagen_price g false false false = Ok r -> Forall2 (price_of s) rs (map (fun x => match q_vol (fst x) with Fin _ => snd x | _ => NaN end) (combine rs (p_price r)))).
  { intros r E. destruct (proj1 (AC (length (p_price r))) (ex_intro _ r (conj E eq_refl))) as [_ LP].
    pose proof (gk_elementwise g false false r E) as EW.
    assert (P : forall i q, nth_error rs i = Some q -> exists p, nth_error (p_price r) i = Some p /\ (forall v, q_vol q = Fin v ->
       p = price_gk (s_spot s) (d_years (q_day q)) (d_rd (q_day q)) (d_rf (q_day q)) (q_cp q) (q_K q) v (Some (d_F (q_day q))))).
    { intros i q Hq. assert (HL : (i < length rs)%nat) by (apply nth_error_Some; congruence).
      destruct (nth_error dates i) as [d|] eqn:ED; [|apply nth_error_None in ED; lia].
      destruct (nth_error Ks i) as [K|] eqn:EK; [|apply nth_error_None in EK; lia]. destruct (nth_error cps i) as [cp|] eqn:EC; [|apply nth_error_None in EC; lia].
      destruct (N i d K cp ED EK EC) as (q' & Q & W). assert (q' = q) by congruence. subst q'. apply row_content in W as (_ & _ & QK & QC).
      destruct (EW i (s_spot s) (d_years (q_day q)) (d_rd (q_day q)) (d_rf (q_day q)) cp K (finite_or (q_vol q)) (Some (d_F (q_day q)))) as [X _]; try lia;
        try (unfold g; cbn; left; try (rewrite (map_nth_error _ _ _ Hq); reflexivity); assumption).
      - right. reflexivity.
      - eexists. split; [exact X|]. intros v ->. cbn. rewrite QK, QC. reflexivity. }
    clear -P LP. revert P LP. generalize (p_price r) as pp. clear. induction rs as [|q t IH]; intros [|p pp] P LP; cbn in *; try discriminate; constructor.
    - destruct (P O q eq_refl) as (p' & E & F). cbn in E. injection E as <-. unfold price_of. cbn. destruct (q_vol q); auto.
    - apply IH; [|lia]. intros i x H. exact (P (Datatypes.S i) x H). }
  assert (UNI : forall q p p', price_of s q p -> price_of s q p' -> p = p') by (intros q p p'; unfold price_of; destruct (q_vol q); congruence).
  split.
  - intros H. apply bind_ok in H as (r & E & H). injection H as <- <-. split; [reflexivity|].
    assert (VG : valid_gk g) by (apply (AC (length (p_price r))); eauto). apply V in VG as (A & B & C). auto.
  - intros (E & A & B & C & F). injection E as ->. destruct (proj2 (AC (length rows))) as (r & E & _); [split; [apply V; auto|reflexivity]|].
    rewrite E. cbn [bind]. f_equal. f_equal. specialize (EL r E). revert EL F.
    generalize (map (fun x : quote * num => match q_vol (fst x) with Fin _ => snd x | _ => NaN end) (combine rows (p_price r))) as l. clear -UNI. intros l EL. revert ps.
    induction EL as [|q p rs l P EL IH]; intros ps F; inversion F; subst; [reflexivity|]. f_equal; eauto.
Qed.
End Cache.
