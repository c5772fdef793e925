From Coq Require Import String Ascii ZArith QArith Qreals Reals Lra Lia List Bool Permutation Sorted.
From Verif Require Import Base Date DateProofs BusDayModel BusDaySpec BusDayProofs DayCountModel DayCountSpec DayCountProofs TenorModel ScheduleModel NumModel CurveModel CurveSpec CurveProofs BootModel BootSpec.
Import ListNotations.
Open Scope R_scope.

(* ---- sorting ---- *)
Lemma insert_by_perm {A} (key : A -> Z) x l : Permutation (insert_by key x l) (x :: l).
Proof. induction l as [|y t IH]; cbn [insert_by]; [reflexivity|]. destruct (key x <=? key y)%Z; [reflexivity|]. rewrite IH. apply perm_swap. Qed.
Lemma sort_by_perm {A} (key : A -> Z) l : Permutation (sort_by key l) l.
Proof. induction l as [|x t IH]; cbn; [reflexivity|]. rewrite insert_by_perm. constructor. exact IH. Qed.
Lemma insert_by_sorted {A} (key : A -> Z) x l : StronglySorted (fun a b => (key a <= key b)%Z) l -> StronglySorted (fun a b => (key a <= key b)%Z) (insert_by key x l).
Proof.
  induction l as [|y t IH]; intros H; cbn [insert_by]; [repeat constructor|]. inversion H as [|a b S F]; subst.
  destruct (Z.leb_spec (key x) (key y)) as [L|L].
  - constructor; [exact H|]. constructor; [exact L|]. eapply Forall_impl; [|exact F]. cbn. intros z Z1. lia.
  - constructor; [exact (IH S)|]. rewrite Forall_forall in *. intros z I. apply (Permutation_in _ (insert_by_perm key x t)) in I as [<-|I]; [lia|exact (F z I)].
Qed.
Lemma sort_by_sorted {A} (key : A -> Z) l : StronglySorted (fun a b => (key a <= key b)%Z) (sort_by key l).
Proof. induction l as [|x t IH]; cbn; [constructor|]. apply insert_by_sorted. exact IH. Qed.
Lemma sorted_ordered {A} (key : A -> Z) l : StronglySorted (fun a b => (key a <= key b)%Z) l -> ordered_by key l.
Proof.
  induction 1 as [|x t S IH F]; intros i j a c L I J; [destruct i; discriminate|].
  destruct j as [|j]; [lia|]. destruct i as [|i].
  - cbn in I, J. injection I as <-. rewrite Forall_forall in F. apply F. eapply nth_error_In, J.
  - apply (IH i j); [lia|exact I|exact J].
Qed.

(* ---- year columns ---- *)
Lemma years_column_from (c : date) (ds : list date) b ys : plain_basis b -> years_column [c] ds b (length ds) = Ok ys ->
  ys = map (fun d => Q2R (yf1 b c d)) ds /\ forall d, In d ds -> (c <= d)%Z.
Proof.
  intros P H. unfold years_column in H. destruct (year_frac [c] ds b None) as [o|] eqn:E; [|discriminate]. cbn [bind] in H. injection H as <-.
  rewrite (year_frac_values c ds b o P E), map_map. split; [reflexivity|]. exact (year_frac_all_le c ds b o E).
Qed.
Lemma years_column_ok (c : date) (ds : list date) b : plain_basis b -> ds <> [] -> (forall d, In d ds -> (c <= d)%Z) -> years_column [c] ds b (length ds) = Ok (map (fun d => Q2R (yf1 b c d)) ds).
Proof.
  intros P N L. destruct (year_frac_ok c ds b (proj2 P) N L) as (o & E). unfold years_column. rewrite E. cbn [bind].
  rewrite (year_frac_values c ds b o P E), map_map. reflexivity.
Qed.
Lemma year_fraction_yf1 b (c d : date) : plain_basis b -> (c <= d)%Z -> year_fraction b c d (Q2R (yf1 b c d)).
Proof. intros P L. eexists. split; [apply yf1_scalar; [exact (proj2 P)|exact L]|reflexivity]. Qed.

Lemma strict_plain b : strict_basis b -> plain_basis b.
Proof. intros [-> | [-> | [-> | ->]]]; split; discriminate. Qed.
Lemma yf1_strict b (c d e : date) : strict_basis b -> (c <= d < e)%Z -> Q2R (yf1 b c d) < Q2R (yf1 b c e).
Proof.
  intros B L.
  assert (T : forall k : positive, Q2R (inject_Z (dc_act c d) / (Zpos k # 1)) < Q2R (inject_Z (dc_act c e) / (Zpos k # 1))).
  { intros k. apply Qlt_Rlt. unfold dc_act, Qdiv. apply Qmult_lt_r; [reflexivity|]. rewrite <- Zlt_Qlt. lia. }
  destruct B as [-> | [-> | [-> | ->]]]; cbn [yf1]; try apply T.
  destruct (act_act_props c d e None ltac:(lia)) as (x & y & z & X & Y & W & E & _).
  destruct (act_act_props d e e None ltac:(lia)) as (y' & w & v & Y' & _ & _ & _ & P & _).
  pose proof (eq_trans (eq_sym Y) Y') as YY. injection YY as <-. specialize (P ltac:(lia)).
  pose proof (eq_trans (eq_sym X) (yf1_scalar ACT_ACT c d ltac:(discriminate) ltac:(lia))) as X'. injection X' as ->.
  pose proof (eq_trans (eq_sym W) (yf1_scalar ACT_ACT c e ltac:(discriminate) ltac:(lia))) as W'. injection W' as ->.
  cbn [yf1] in E. rewrite <- (Qeq_eqR _ _ E), Q2R_plus. apply Qlt_Rlt in P. rewrite RMicromega.Q2R_0 in P. lra.
Qed.
Lemma yf1_le b (c d e : date) : strict_basis b -> (c <= d <= e)%Z -> Q2R (yf1 b c d) <= Q2R (yf1 b c e).
Proof.
  intros B L. destruct (Z.eq_dec d e) as [->|N]; [lra|]. apply Rlt_le, yf1_strict; [exact B|lia].
Qed.

(* ---- interpolation at the last knot ---- *)
Lemma interp_from_last l : forall p x, Forall (fun q : R * option R => fst q <= x) l -> interp_from p l x = snd (last l p).
Proof.
  induction l as [|q t IH]; intros p x F; [reflexivity|]. inversion F as [|a b H1 H2]; subst. cbn [interp_from].
  destruct (Rle_dec (fst q) x) as [_|N]; [|contradiction]. rewrite (IH q x H2). destruct t as [|r t']; [reflexivity|].
  change (last (q :: r :: t') p) with (last (r :: t') p). f_equal. clear. revert r. induction t' as [|s t IH]; intros r; [reflexivity|].
  change (last (r :: s :: t) q) with (last (s :: t) q). change (last (r :: s :: t) p) with (last (s :: t) p). apply IH.
Qed.
Lemma last_in {A} (l : list A) p : In (last l p) (p :: l).
Proof. revert p. induction l as [|q t IH]; intros p; [left; reflexivity|]. destruct t as [|r t']; [right; left; reflexivity|].
  change (last (q :: r :: t') p) with (last (r :: t') p). destruct (IH p) as [E|I]; [left; exact E|right; right; exact I]. Qed.
Lemma last_greatest (l : list (R * option R)) : forall p, StronglySorted (fun a b => fst a <= fst b) (p :: l) -> forall q, In q (p :: l) -> fst q <= fst (last l p).
Proof.
  induction l as [|r t IH]; intros p S q I.
  - destruct I as [<-|[]]. cbn. lra.
  - inversion S as [|a b S1 F1]; subst. assert (E : last (r :: t) p = last t r).
    { destruct t as [|s t']; [reflexivity|]. clear. change (last (r :: s :: t') p) with (last (s :: t') p). revert s. induction t' as [|u t IH]; intros s; [reflexivity|].
      change (last (s :: u :: t) p) with (last (u :: t) p). change (last (s :: u :: t) r) with (last (u :: t) r). apply IH. }
    rewrite E. destruct I as [<-|I]; [|exact (IH r S1 q I)]. rewrite Forall_forall in F1. apply Rle_trans with (fst r); [apply F1; left; reflexivity|].
    apply (IH r S1 r). left. reflexivity.
Qed.

Lemma interp_inside_last pts x v : (forall p, In p pts -> fst p <= x) -> interp_inside pts x = Ok v -> exists p, In p pts /\ fst p = x /\ snd p = v.
Proof.
  intros L H. unfold interp_inside in H. pose proof (sort_perm (@fst R (option R)) pts) as P. pose proof (sort_sorted (@fst R (option R)) pts) as SS.
  destruct (sort_rows fst pts) as [|p t]; [discriminate|].
  destruct (Rlt_dec x (fst p)) as [|N1]; cbn [guard bind] in H; [discriminate|].
  destruct (Rlt_dec (fst (last t p)) x) as [|N2]; cbn [guard bind] in H; [discriminate|].
  exists (last t p). assert (I : In (last t p) pts) by (apply (Permutation_in _ P), last_in). split; [exact I|].
  specialize (L _ I). split; [lra|]. injection H as <-. unfold np_interp. destruct (Rlt_dec x (fst p)); [contradiction|]. symmetry. apply interp_from_last.
  rewrite Forall_forall. intros q J. apply Rle_trans with (fst (last t p)); [|lra]. apply (last_greatest t p SS). right. exact J.
Qed.
Lemma interp_inside_ok pts x p : (forall p, In p pts -> fst p <= x) -> In p pts -> fst p = x -> exists v, interp_inside pts x = Ok v.
Proof.
  intros L I E. unfold interp_inside. pose proof (sort_perm (@fst R (option R)) pts) as P. pose proof (sort_sorted (@fst R (option R)) pts) as SS.
  destruct (sort_rows fst pts) as [|p0 t]; [apply Permutation_nil in P; subst; destruct I|].
  assert (I0 : In p0 pts) by (apply (Permutation_in _ P); left; reflexivity). specialize (L _ I0).
  destruct (Rlt_dec x (fst p0)) as [|N1]; [lra|]. cbn [guard bind].
  pose proof (last_greatest t p0 SS p (Permutation_in _ (Permutation_sym P) I)) as G.
  destruct (Rlt_dec (fst (last t p0)) x) as [|N2]; [lra|]. cbn [guard bind]. eexists. reflexivity.
Qed.

(* ---- cash rates ---- *)
Definition fresh (c : date) (b : basis) (q : cash_quote) : cash_row :=
  {| b_delayed := k_delayed q; b_eff := k_eff q; b_mat := k_mat q; b_rate := k_rate q; b_tau := k_tau q; b_eff_years := Q2R (yf1 b c (k_eff q));
     b_mat_years := Q2R (yf1 b c (k_mat q)); b_eff_df := None; b_mat_df := None |}.
Lemma combine_maps {A B C D} (f : A -> B) (g : A -> C) (h : A * (B * C) -> D) l :
  map h (combine l (combine (map f l) (map g l))) = map (fun a => h (a, (f a, g a))) l.
Proof. induction l as [|x t IH]; cbn; [reflexivity|]. f_equal. exact IH. Qed.

Lemma cash_start qs (c : date) b out : plain_basis b -> bootstrap_cash_rates qs c b = Ok out ->
  cash_loop [] (sort_by b_mat (map (fresh c b) qs)) = Ok out /\ (forall q, In q qs -> (c <= k_eff q)%Z /\ (c <= k_mat q)%Z).
Proof.
  intros P H. unfold bootstrap_cash_rates in H.
  destruct (years_column [c] (map k_eff qs) b (length qs)) as [ey|] eqn:E1; [|discriminate]. cbn [bind] in H.
  destruct (years_column [c] (map k_mat qs) b (length qs)) as [my|] eqn:E2; [|discriminate]. cbn [bind] in H.
  rewrite <- (map_length k_eff) in E1. rewrite <- (map_length k_mat) in E2.
  apply years_column_from in E1 as [-> L1]; [|exact P]. apply years_column_from in E2 as [-> L2]; [|exact P].
  rewrite !map_map, combine_maps in H. split; [exact H|].
  intros q I. split; [apply L1|apply L2]; apply in_map; exact I.
Qed.
Lemma cash_start_ok qs (c : date) b : plain_basis b -> qs <> [] -> (forall q, In q qs -> (c <= k_eff q)%Z /\ (c <= k_mat q)%Z) ->
  bootstrap_cash_rates qs c b = cash_loop [] (sort_by b_mat (map (fresh c b) qs)).
Proof.
  intros P N L. unfold bootstrap_cash_rates.
  assert (E1 : years_column [c] (map k_eff qs) b (length qs) = Ok (map (fun d : date => Q2R (yf1 b c d)) (map k_eff qs))).
  { rewrite <- (map_length k_eff qs) at 1. apply years_column_ok; [exact P|destruct qs; [contradiction|discriminate]|].
    intros d I. apply in_map_iff in I as (q & <- & I). apply L, I. }
  assert (E2 : years_column [c] (map k_mat qs) b (length qs) = Ok (map (fun d : date => Q2R (yf1 b c d)) (map k_mat qs))).
  { rewrite <- (map_length k_mat qs) at 1. apply years_column_ok; [exact P|destruct qs; [contradiction|discriminate]|].
    intros d I. apply in_map_iff in I as (q & <- & I). apply L, I. }
  rewrite E1. cbn [bind]. rewrite E2. cbn [bind]. rewrite !map_map, combine_maps. reflexivity.
Qed.

Lemma nan_log_pos m : 0 < m -> nan_log (Some m) = Some (ln m).
Proof. intros P. unfold nan_log, obind, np_log. destruct (Rlt_dec 0 m); [reflexivity|contradiction]. Qed.

(* a solved row, given the rows before it *)
Definition solved (prior : list cash_row) (r : cash_row) : Prop :=
  exists e m, b_eff_df r = Some e /\ b_mat_df r = Some m /\ 0 < e /\ 0 < m /\ e / m = 1 + b_rate r * b_tau r /\ (b_delayed r = false -> e = 1) /\ (b_delayed r = true -> exists q, In q prior /\ (b_mat q <= b_eff r)%Z /\ b_mat_years q = b_eff_years r /\ b_mat_df q = Some e).
Definition row_ok (c : date) (b : basis) (r : cash_row) : Prop :=
  (c <= b_eff r < b_mat r)%Z /\ 0 < 1 + b_rate r * b_tau r /\ b_eff_years r = Q2R (yf1 b c (b_eff r)) /\ b_mat_years r = Q2R (yf1 b c (b_mat r)).
Definition same_quote (r r' : cash_row) : Prop :=
  quote_of r' = quote_of r /\ b_eff_years r' = b_eff_years r /\ b_mat_years r' = b_mat_years r.

Lemma same_ok c b r r' : same_quote r r' -> row_ok c b r -> row_ok c b r'.
Proof.
  intros (Q & Y1 & Y2) (L & G & E1 & E2). unfold quote_of in Q. injection Q as D E M T U. unfold row_ok. rewrite Y1, Y2, E, M, T, U. auto.
Qed.

Lemma filter_none {A} (f : A -> bool) l : (forall x, In x l -> f x = false) -> filter f l = [].
Proof. induction l as [|x t IH]; intros H; cbn; [reflexivity|]. rewrite (H x) by (left; reflexivity). apply IH. intros y I. apply H. right. exact I. Qed.

Lemma step_spec c b (done : list cash_row) r t : strict_basis b -> StronglySorted (fun x y => (b_mat x <= b_mat y)%Z) (r :: t) ->
  (forall q, In q done -> row_ok c b q /\ exists m, b_mat_df q = Some m /\ 0 < m) -> row_ok c b r ->
  (forall r', cash_step (done ++ r :: t) r = Ok r' -> same_quote r r' /\ solved done r') /\ ((b_delayed r = true -> exists q, In q done /\ b_mat q = b_eff r) -> exists r', cash_step (done ++ r :: t) r = Ok r').
Proof.
  intros B SS D (L & G & Y1 & Y2). unfold cash_step. destruct (b_delayed r) eqn:DR.
  - set (pts := map knot (filter _ _)).
    assert (F : pts = map knot (filter (fun q => (b_mat q <=? b_eff r)%Z) done)).
    { unfold pts. rewrite filter_app. rewrite (filter_none _ (r :: t)); [rewrite app_nil_r; reflexivity|].
      intros q [<-|I]; apply Z.leb_gt; [lia|]. inversion SS as [|x y S1 F1]; subst. rewrite Forall_forall in F1. specialize (F1 q I). cbn in F1. lia. }
    clearbody pts. subst pts.
    set (lp := map (fun p : R * option R => (fst p, nan_log (snd p))) _).
    assert (LP : forall p, In p lp -> exists q m, In q done /\ (b_mat q <= b_eff r)%Z /\ b_mat_df q = Some m /\ 0 < m /\ p = (b_mat_years q, Some (ln m)) /\ b_mat_years q <= b_eff_years r).
    { intros p I. unfold lp in I. rewrite map_map in I. apply in_map_iff in I as (q & <- & I). apply filter_In in I as (I & LE). apply Z.leb_le in LE.
      destruct (D q I) as (O & m & M & P). exists q, m. unfold knot. cbn [fst snd]. rewrite M, (nan_log_pos m P).
      repeat split; try assumption. destruct O as (O1 & _ & _ & O4). rewrite O4, Y1. apply yf1_le; [exact B|lia]. }
    split.
    + intros r' H. destruct (interp_inside lp (b_eff_years r)) as [v|] eqn:E; [|discriminate]. cbn [bind] in H. injection H as <-.
      apply interp_inside_last in E as (p & I & X & V); [|intros p I; destruct (LP p I) as (q & m & _ & _ & _ & _ & -> & K); exact K].
      destruct (LP p I) as (q & m & Q & LE & M & P & -> & K). cbn [fst snd] in X, V. subst v. cbn [option_map].
      split; [repeat split|]. unfold solved, with_dfs. cbn. rewrite (exp_ln m P). exists m, (m / (1 + b_rate r * b_tau r)).
      unfold np_div, obind. destruct (Req_EM_T (1 + b_rate r * b_tau r) 0); [lra|]. repeat split; try assumption.
      * apply Rmult_lt_0_compat; [exact P|]. apply Rinv_0_lt_compat, G.
      * field. lra.
      * intros W. congruence.
      * intros _. exists q. rewrite X. repeat split; assumption.
    + intros C. destruct (C eq_refl) as (q & I & E). destruct (D q I) as (O & m & M & P).
      destruct (interp_inside_ok lp (b_eff_years r) (b_mat_years q, Some (ln m))) as (v & V).
      * intros p J. destruct (LP p J) as (q' & m' & _ & _ & _ & _ & -> & K). exact K.
      * unfold lp. rewrite map_map. apply in_map_iff. exists q. unfold knot. cbn [fst snd]. rewrite M, (nan_log_pos m P). split; [reflexivity|]. apply filter_In. split; [exact I|]. apply Z.leb_le. lia.
      * cbn [fst]. destruct O as (_ & _ & _ & O4). rewrite O4, Y1, E. reflexivity.
      * rewrite V. eexists. reflexivity.
  - destruct (Req_EM_T (1 + b_rate r * b_tau r) 0) as [|N]; [lra|]. cbn [guard bind]. split; [|intros _; eexists; reflexivity].
    intros r' H. injection H as <-. split; [repeat split|]. unfold solved, with_dfs. cbn. exists 1, (1 / (1 + b_rate r * b_tau r)).
    repeat split; try lra.
    + apply Rdiv_lt_0_compat; lra.
    + field. lra.
    + intros W. congruence.
Qed.

Lemma solved_mono p p' r : (forall x, In x p -> In x p') -> solved p r -> solved p' r.
Proof.
  intros I (e & m & E & M & PE & PM & Q & D0 & D1). exists e, m. repeat split; try assumption. intros D. destruct (D1 D) as (q & J & K). exists q. split; [apply I, J|exact K].
Qed.

Lemma loop_spec c b rest : strict_basis b -> forall done out, StronglySorted (fun x y => (b_mat x <= b_mat y)%Z) rest ->
  (forall q, In q done -> row_ok c b q /\ exists m, b_mat_df q = Some m /\ 0 < m) -> (forall r, In r rest -> row_ok c b r) ->
  cash_loop done rest = Ok out -> exists new, out = (done ++ new)%list /\ Forall2 same_quote rest new /\ forall r, In r new -> solved out r.
Proof.
  intros B. induction rest as [|r t IH]; intros done out SS D O H; cbn [cash_loop] in H.
  - injection H as <-. exists []. rewrite app_nil_r. repeat split; [constructor|intros r []].
  - destruct (cash_step (done ++ r :: t) r) as [r'|] eqn:E; [|discriminate]. cbn [bind] in H.
    destruct (step_spec c b done r t B SS D (O r (or_introl eq_refl))) as (S1 & _). destruct (S1 r' E) as (SQ & SV).
    inversion SS as [|x y SS' F]; subst.
    destruct (IH (done ++ [r'])%list out SS') as (new & -> & F2 & A); [| |exact H|].
    + intros q I. apply in_app_or in I as [I|[<-|[]]]; [exact (D q I)|]. split; [apply (same_ok c b r r' SQ), O; left; reflexivity|].
      destruct SV as (e & m & _ & M & _ & P & _). exists m. split; assumption.
    + intros q I. apply O. right. exact I.
    + exists (r' :: new). rewrite <- app_assoc. cbn [app]. split; [reflexivity|]. rewrite <- app_assoc in A. cbn [app] in A. split; [constructor; assumption|].
      intros q [<-|I]; [|exact (A q I)]. apply (solved_mono done); [|exact SV]. intros x J. apply in_or_app. left. exact J.
Qed.

Lemma loop_ok c b rest : strict_basis b -> forall done, StronglySorted (fun x y => (b_mat x <= b_mat y)%Z) rest ->
  (forall q, In q done -> row_ok c b q /\ exists m, b_mat_df q = Some m /\ 0 < m) -> (forall r, In r rest -> row_ok c b r) ->
  (forall r, In r rest -> b_delayed r = true -> exists q, In q (done ++ rest) /\ b_mat q = b_eff r) ->
  exists out, cash_loop done rest = Ok out.
Proof.
  intros B. induction rest as [|r t IH]; intros done SS D O C; cbn [cash_loop]; [eexists; reflexivity|].
  destruct (step_spec c b done r t B SS D (O r (or_introl eq_refl))) as (S1 & S2). inversion SS as [|x y SS' F]; subst. rewrite Forall_forall in F.
  destruct S2 as (r' & E).
  { intros DR. destruct (C r (or_introl eq_refl) DR) as (q & I & Q). apply in_app_or in I as [I|I]; [exists q; auto|]. exfalso.
    destruct (O r (or_introl eq_refl)) as (L & _). destruct I as [<-|I]; [lia|]. specialize (F q I). lia. }
  rewrite E. cbn [bind]. destruct (S1 r' E) as (SQ & SV). apply IH; [exact SS'| | |].
  - intros q I. apply in_app_or in I as [I|[<-|[]]]; [exact (D q I)|]. split; [apply (same_ok c b r r' SQ), O; left; reflexivity|].
    destruct SV as (e & m & _ & M & _ & P & _). exists m. split; assumption.
  - intros q I. apply O. right. exact I.
  - intros q I DQ. destruct (C q (or_intror I) DQ) as (p & J & P). rewrite <- app_assoc. cbn [app].
    apply in_app_or in J as [J|[<-|J]].
    + exists p. split; [apply in_or_app; left; exact J|exact P].
    + exists r'. split; [apply in_or_app; right; left; reflexivity|]. destruct SQ as (Q & _). injection Q as _ _ M _ _. congruence.
    + exists p. split; [apply in_or_app; right; right; exact J|exact P].
Qed.

Lemma fresh_ok c b qs r : sane_quotes c qs -> In r (sort_by b_mat (map (fresh c b) qs)) -> row_ok c b r.
Proof.
  intros G I. apply (Permutation_in _ (sort_by_perm _ _)) in I. apply in_map_iff in I as (q & <- & I). destruct (G q I) as (L & P). repeat split; cbn; lia || assumption.
Qed.

Lemma Forall2_same_quotes l m : Forall2 same_quote l m -> map quote_of m = map quote_of l.
Proof. induction 1 as [|x y t t' (Q & _) F IH]; cbn; [reflexivity|]. rewrite Q, IH. reflexivity. Qed.
Lemma quote_fresh c b q : quote_of (fresh c b q) = q.
Proof. destruct q. reflexivity. Qed.
Lemma sorted_quotes l m : Forall2 same_quote l m -> StronglySorted (fun x y => (b_mat x <= b_mat y)%Z) l -> StronglySorted (fun x y => (b_mat x <= b_mat y)%Z) m.
Proof.
  induction 1 as [|x y t t' (Q & _) F IH]; intros SS; [constructor|]. inversion SS as [|a b S1 F1]; subst. constructor; [exact (IH S1)|].
  injection Q as _ _ M _ _. rewrite M. clear -F F1. induction F as [|u v t t' (Q & _) F IH]; [constructor|]. inversion F1 as [|a b G1 G2]; subst.
  constructor; [injection Q as _ _ M _ _; rewrite M; exact G1|exact (IH G2)].
Qed.

Theorem cash_reprices qs (c : date) b rows : strict_basis b -> sane_quotes c qs -> bootstrap_cash_rates qs c b = Ok rows ->
  Permutation (map quote_of rows) qs /\ ordered_by b_mat rows /\ forall r, In r rows -> exists e m, b_eff_df r = Some e /\ b_mat_df r = Some m /\ 0 < e /\ 0 < m /\ e / m = 1 + b_rate r * b_tau r /\ (b_delayed r = false -> e = 1) /\ (b_delayed r = true -> exists q, In q rows /\ b_mat q = b_eff r /\ b_mat_df q = Some e).
Proof.
  intros B G H. destruct (cash_start qs c b rows (strict_plain b B) H) as (E & _).
  set (l := sort_by b_mat (map (fresh c b) qs)) in *.
  destruct (loop_spec c b l B [] rows (sort_by_sorted _ _)) as (new & -> & F & A); [intros q []|intros r I; exact (fresh_ok c b qs r G I)|exact E|].
  cbn [app] in *. split; [|split].
  - rewrite (Forall2_same_quotes l new F). unfold l. rewrite (Permutation_map quote_of (sort_by_perm _ _)), map_map. erewrite map_ext; [rewrite map_id; reflexivity|]. intros q. apply quote_fresh.
  - apply sorted_ordered. apply (sorted_quotes l new F), sort_by_sorted.
  - assert (O : forall r, In r new -> row_ok c b r).
    { intros r I. assert (T : forall l m, Forall2 same_quote l m -> (forall x, In x l -> row_ok c b x) -> forall x, In x m -> row_ok c b x).
      { clear. induction 1 as [|x y t t' Q F IH]; intros K z I; [destruct I|]. destruct I as [<-|I]; [apply (same_ok c b x y Q), K; left; reflexivity|].
        apply IH; [|exact I]. intros w J. apply K. right. exact J. }
      apply (T l new F); [|exact I]. intros x J. exact (fresh_ok c b qs x G J). }
    intros r I. destruct (A r I) as (e & m & X1 & X2 & X3 & X4 & X5 & X6 & X7). exists e, m. repeat split; try assumption.
    intros D. destruct (X7 D) as (q & J & L & Y & V). exists q. repeat split; try assumption.
    destruct (O r I) as (L1 & _ & Y1 & _). destruct (O q J) as (L2 & _ & _ & Y2). rewrite Y1, Y2 in Y.
    destruct (Z.eq_dec (b_mat q) (b_eff r)) as [->|N]; [reflexivity|]. pose proof (yf1_strict b c (b_mat q) (b_eff r) B ltac:(lia)). lra.
Qed.

Theorem cash_possible qs (c : date) b : strict_basis b -> qs <> [] -> sane_quotes c qs ->
  (exists rows, bootstrap_cash_rates qs c b = Ok rows) <-> chained qs.
Proof.
  intros B N G. split.
  - intros (rows & H) q I D. destruct (cash_reprices qs c b rows B G H) as (P & _ & A).
    apply (Permutation_in _ (Permutation_sym P)) in I. apply in_map_iff in I as (r & <- & I). destruct (A r I) as (e & m & _ & _ & _ & _ & _ & _ & X).
    destruct (X D) as (q & J & E & _). exists (quote_of q). split; [apply (Permutation_in _ P), in_map, J|exact E].
  - intros C. rewrite (cash_start_ok qs c b (strict_plain b B) N) by (intros q I; destruct (G q I) as (L & _); lia).
    apply (loop_ok c b); [exact B|apply sort_by_sorted|intros q []|intros r I; exact (fresh_ok c b qs r G I)|].
    intros r I D. apply (Permutation_in _ (sort_by_perm _ _)) in I. apply in_map_iff in I as (q & <- & I). destruct (C q I D) as (q' & I' & E).
    exists (fresh c b q'). split; [|exact E]. cbn [app]. apply (Permutation_in _ (Permutation_sym (sort_by_perm _ _))), in_map, I'.
Qed.
