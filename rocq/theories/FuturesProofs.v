From Coq Require Import String Ascii ZArith QArith Qreals Reals Lra Lia List Bool Permutation Sorted.
From Verif Require Import Base Date DateProofs BusDayModel BusDaySpec BusDayProofs DayCountModel DayCountSpec DayCountProofs TenorModel ScheduleModel NumModel CurveModel CurveSpec CurveProofs BootModel BootSpec BootProofs.
Import ListNotations.
Open Scope R_scope.

(* ---- extrapolating interpolation ---- *)
Definition lin (p q : R * R) (x : R) : R := (snd q - snd p) / (fst q - fst p) * (x - fst p) + snd p.
Lemma line_lift p q x : fst p < fst q -> line (lift p) (lift q) x = Some (lin p q x).
Proof. intros L. unfold line, lift, lin, obind, np_div. cbn. destruct (Req_EM_T (fst q - fst p) 0); [lra|]. reflexivity. Qed.

Lemma extrapolate_spec t : forall p q x, StronglySorted before (p :: q :: t) ->
  exists a c, extrapolate (lift p) (lift q) (map lift t) x = Some (lin a c x) /\ neighbours (p :: q :: t) a c /\
    (a = p \/ fst a < x) /\ (x <= fst c \/ forall k, In k (p :: q :: t) -> fst k <= fst c).
Proof.
  induction t as [|r t IH]; intros p q x SS.
  - inversion SS as [|u v S1 F1]; subst. inversion F1 as [|u v H1 _]; subst. exists p, q. cbn [map extrapolate]. rewrite (line_lift p q x H1).
    split; [reflexivity|]. split; [|split; [left; reflexivity|right; intros k [<-|[<-|[]]]; unfold before in H1; lra]].
    split; [left; reflexivity|]. split; [right; left; reflexivity|]. split; [exact H1|]. intros k [<-|[<-|[]]]; [left|right]; lra.
  - inversion SS as [|u v S1 F1]; subst. pose proof F1 as F1'. inversion F1' as [|u v H1 _]; subst. cbn [map extrapolate]. rewrite Forall_forall in F1.
    destruct (Rle_dec x (fst (lift q))) as [L|L]; cbn [fst lift] in L.
    + exists p, q. rewrite (line_lift p q x H1). split; [reflexivity|]. split; [|split; [left; reflexivity|left; exact L]].
      split; [left; reflexivity|]. split; [right; left; reflexivity|]. split; [exact H1|]. intros k [<-|[<-|I]]; [left; lra|right; lra|right].
      inversion S1 as [|u v S2 F2]; subst. rewrite Forall_forall in F2. specialize (F2 k I). unfold before in F2. lra.
    + destruct (IH q r x S1) as (a & c & E & (N1 & N2 & N3 & N4) & A & C). exists a, c. split; [exact E|].
      assert (PA : fst p < fst a) by (apply (F1 a N1)). assert (PC : fst p < fst c) by (apply (F1 c N2)).
      split; [|split].
      * split; [right; exact N1|]. split; [right; exact N2|]. split; [exact N3|]. intros k [<-|I]; [left; lra|exact (N4 k I)].
      * right. destruct A as [->|A]; [lra|exact A].
      * destruct C as [C|C]; [left; exact C|right]. intros k [<-|I]; [lra|exact (C k I)].
Qed.

Lemma lin_geometric p q x : fst p < fst q -> 0 < snd p -> 0 < snd q -> exp (lin (ln_knot p) (ln_knot q) x) = geometric p q x.
Proof.
  intros L P Q. unfold lin, geometric, ln_knot, Rpower. cbn [fst snd]. rewrite <- exp_plus. f_equal. field. lra.
Qed.

Lemma interp_anywhere_spec K x : (2 <= length K)%nat -> NoDup (map fst K) -> (forall k, In k K -> 0 < snd k) ->
  exists p q l, interp_anywhere (map ln_lift K) x = Ok (Some l) /\ bracket K p q x /\ exp l = geometric p q x /\ 0 < geometric p q x.
Proof.
  intros N ND P. unfold interp_anywhere. pose proof (sort_perm (@fst R (option R)) (map ln_lift K)) as PM. pose proof (sort_sorted (@fst R (option R)) (map ln_lift K)) as SS.
  apply Permutation_map_inv in PM as (K2 & E & PK). rewrite E in *.
  assert (SB : StronglySorted before (map ln_knot K2)).
  { apply before_ln, sorted_strict.
    - clear -SS. induction K2 as [|k t IH]; [constructor|]. cbn in SS. inversion SS as [|u v S1 F1]; subst. constructor; [exact (IH S1)|].
      rewrite Forall_forall in *. intros z I. apply (F1 (ln_lift z)). apply in_map, I.
    - apply (Permutation_NoDup (Permutation_map fst PK) ND). }
  apply Permutation_length in PK as PL.
  destruct K2 as [|p0 [|q0 t]]; [cbn in PL; lia|cbn in PL; lia|]. cbn [map].
  destruct (extrapolate_spec (map ln_knot t) (ln_knot p0) (ln_knot q0) x SB) as (a & c & EX & NB & A & C).
  change (ln_knot p0 :: ln_knot q0 :: map ln_knot t) with (map ln_knot (p0 :: q0 :: t)) in *. destruct NB as (N1 & N2 & N3 & N4).
  apply in_map_iff in N1 as (p & <- & IP). apply in_map_iff in N2 as (q & <- & IQ).
  assert (K1 : forall k, In k K -> In (ln_knot k) (map ln_knot (p0 :: q0 :: t))) by (intros k I; apply in_map, (Permutation_in _ PK), I).
  assert (IP' : In p K) by (apply (Permutation_in _ (Permutation_sym PK)), IP). assert (IQ' : In q K) by (apply (Permutation_in _ (Permutation_sym PK)), IQ).
  exists p, q, (lin (ln_knot p) (ln_knot q) x).
  split. { f_equal. change (ln_lift p0) with (lift (ln_knot p0)). change (ln_lift q0) with (lift (ln_knot q0)). rewrite ln_lift_knot. exact EX. }
  rewrite lin_geometric; [|exact N3|apply P, IP'|apply P, IQ']. split; [|split; [reflexivity|unfold geometric, Rpower; apply Rmult_lt_0_compat; apply exp_pos]].
  split; [|split].
  - split; [exact IP'|]. split; [exact IQ'|]. split; [exact N3|]. intros k I. exact (N4 (ln_knot k) (K1 k I)).
  - destruct A as [A|A]; [right|left; exact A]. intros k I. apply K1 in I. cbn [map] in I, SB. inversion SB as [|u v S1 F1]; subst. rewrite Forall_forall in F1.
    change (fst p) with (fst (ln_knot p)). change (fst k) with (fst (ln_knot k)). rewrite A. destruct I as [<-|I]; [lra|]. specialize (F1 _ I). unfold before in F1. lra.
  - destruct C as [C|C]; [left; exact C|right]. intros k I. exact (C (ln_knot k) (K1 k I)).
Qed.

Lemma bracket_at_knot K p q t v : NoDup (map fst K) -> (forall k, In k K -> 0 < snd k) -> bracket K p q t -> In (t, v) K -> geometric p q t = v.
Proof.
  intros ND P ((I1 & I2 & L & N) & A & C) I.
  assert (U : forall k, In k K -> fst k = t -> snd k = v).
  { clear -ND I. intros k J E. assert (k = (t, v)) as ->; [|reflexivity]. induction K as [|x l IH]; [destruct I|]. cbn in ND. inversion ND as [|a b N1 N2]; subst.
    destruct I as [->|I], J as [<-|J]; try reflexivity.
    - exfalso. apply N1. cbn. change (fst k) with (fst k). apply (in_map fst) in J. exact J.
    - exfalso. apply N1. apply (in_map fst) in I. exact I.
    - exact (IH N2 I J). }
  unfold geometric. destruct (N (t, v) I) as [M|M]; cbn [fst] in M.
  - assert (E : t = fst p) by (destruct A as [A|A]; [lra|specialize (A (t, v) I); cbn in A; lra]).
    replace ((t - fst p) / (fst q - fst p)) with 0 by (rewrite E; field; lra). rewrite Rpower_O by (apply P, I2). rewrite Rminus_0_r, Rpower_1 by (apply P, I1).
    rewrite (U p I1 (eq_sym E)). ring.
  - assert (E : t = fst q) by (destruct C as [C|C]; [lra|specialize (C (t, v) I); cbn in C; lra]).
    replace ((t - fst p) / (fst q - fst p)) with 1 by (rewrite E; field; lra). replace (1 - 1) with 0 by ring. rewrite Rpower_O by (apply P, I1). rewrite Rpower_1 by (apply P, I2).
    rewrite (U q I2 (eq_sym E)). ring.
Qed.

(* ---- the loop ---- *)
Lemma NoDup_app_l {A} (l m : list A) : NoDup (l ++ m) -> NoDup l.
Proof.
  induction l as [|x t IH]; intros H; [constructor|]. cbn in H. inversion H as [|a b N1 N2]; subst. constructor; [|exact (IH N2)].
  intros I. apply N1, in_or_app. left. exact I.
Qed.
Definition same_contract (r r' : futures_row) : Prop :=
  r_eff r' = r_eff r /\ r_mat r' = r_mat r /\ r_fwd r' = r_fwd r /\ r_tau r' = r_tau r /\ r_eff_years r' = r_eff_years r /\ r_mat_years r' = r_mat_years r.

Lemma futures_loop_spec rows : forall K, (2 <= length K)%nat -> NoDup (map fst K ++ map r_mat_years rows) -> (forall k, In k K -> 0 < snd k) ->
  (forall r, In r rows -> 0 < 1 + r_fwd r * r_tau r) ->
  exists out, futures_loop (map ln_lift K) rows = Ok out /\ Forall2 same_contract rows out /\
    forall i r, nth_error out i = Some r -> exists e m Ki p q, r_eff_df r = Some e /\ r_mat_df r = Some m /\ 0 < e /\ 0 < m /\ e / m = 1 + r_fwd r * r_tau r /\
      known_before K out i Ki /\ NoDup (map fst Ki) /\ (forall k, In k Ki -> 0 < snd k) /\ bracket Ki p q (r_eff_years r) /\ e = geometric p q (r_eff_years r).
Proof.
  induction rows as [|r t IH]; intros K N ND P G.
  - exists []. split; [reflexivity|]. split; [constructor|]. intros [|i] r H; discriminate.
  - assert (ND1 : NoDup (map fst K)) by exact (NoDup_app_l _ _ ND).
    destruct (interp_anywhere_spec K (r_eff_years r) N ND1 P) as (p & q & l & E & B & X & PX).
    assert (GR : 0 < 1 + r_fwd r * r_tau r) by (apply G; left; reflexivity).
    set (e := geometric p q (r_eff_years r)) in *. set (m := e / (1 + r_fwd r * r_tau r)).
    assert (PM : 0 < m) by (apply Rdiv_lt_0_compat; assumption).
    destruct (IH (K ++ [(r_mat_years r, m)])%list) as (out & O & F & A).
    + rewrite app_length. lia.
    + rewrite map_app. cbn [map fst]. rewrite <- app_assoc. exact ND.
    + intros k I. apply in_app_or in I as [I|[<-|[]]]; [exact (P k I)|exact PM].
    + intros x I. apply G. right. exact I.
    + cbn [futures_loop]. rewrite E. cbn [bind option_map]. rewrite X. unfold nan_div at 1 2, obind at 1 2. cbn [obind]. 
      assert (D : np_div e (1 + r_fwd r * r_tau r) = Some m) by (unfold np_div; destruct (Req_EM_T (1 + r_fwd r * r_tau r) 0); [lra|reflexivity]).
      rewrite D, (nan_log_pos m PM). rewrite map_app in O. cbn [map] in O. unfold ln_lift at 2 in O. cbn [fst snd] in O. rewrite O. cbn [bind].
      eexists. split; [reflexivity|]. split; [constructor; [repeat split|exact F]|]. intros [|i] x H.
      * cbn in H. injection H as <-. exists e, m, K, p, q. cbn. repeat split; try assumption; try apply B.
        -- unfold m. field. lra.
        -- exists []. rewrite app_nil_r. split; [reflexivity|constructor].
      * cbn [nth_error] in H. destruct (A i x H) as (e' & m' & Ki & p' & q' & H1 & H2 & H3 & H4 & H5 & (fs & H6 & H6') & H7). exists e', m', Ki, p', q'.
        repeat split; try assumption; try apply H7. exists ((r_mat_years r, m) :: fs). rewrite H6, <- app_assoc. split; [reflexivity|]. cbn [firstn]. constructor; [split; reflexivity|exact H6'].
Qed.

(* ---- the whole strip ---- *)
Lemma yf1_flag b (x y : date) f z : plain_basis b -> year_frac [x] [y] b (Some [f]) = Ok (Scalar z) -> z = yf1 b x y /\ (x <= y)%Z.
Proof.
  intros [N1 N2] H. destruct b; try contradiction; cbn in H; destruct (x <=? y)%Z eqn:E; cbn in H; try discriminate;
    (split; [|apply Z.leb_le; exact E]); injection H as <-; reflexivity.
Qed.
Lemma years_column_pairs (s e : list date) b ys : plain_basis b -> s <> [] -> length s = length e -> years_column s e b (length s) = Ok ys ->
  ys = map2 (fun x y => Q2R (yf1 b x y)) s e /\ forall x y, In (x, y) (combine s e) -> (x <= y)%Z.
Proof.
  intros P NE L H. unfold years_column in H. destruct (year_frac s e b None) as [o|] eqn:E; [|discriminate]. cbn [bind] in H. injection H as <-.
  destruct s as [|x0 [|x1 s']]; [contradiction| |].
  - destruct e as [|y0 [|? ?]]; try discriminate. pose proof (year_frac_scalar_le b x0 y0 o E) as LE.
    pose proof (eq_trans (eq_sym E) (yf1_scalar b x0 y0 (proj2 P) LE)) as X. injection X as ->. split; [reflexivity|]. intros x y [I|[]]. injection I as <- <-. exact LE.
  - assert (NB : ~ bad_pair (x0 :: x1 :: s') e).
    { intros B. pose proof (year_frac_reversed _ _ b None L B (proj2 P)) as X. discriminate (eq_trans (eq_sym E) X). }
    destruct (year_frac_vector (x0 :: x1 :: s') e b L ltac:(cbn; lia) NB (proj2 P)) as (r & E' & LR & A).
    pose proof (eq_trans (eq_sym E) E') as X. injection X as ->. cbn [out_list].
    set (s := x0 :: x1 :: s') in *. clearbody s.
    assert (G : forall i (x y : date), nth_error s i = Some x -> nth_error e i = Some y -> nth_error r i = Some (yf1 b x y) /\ (x <= y)%Z).
    { intros i x y X Y. destruct (A i x y X Y) as (z & Z1 & Z2). destruct (yf1_flag b x y _ z P Z2) as (-> & LE). split; assumption. }
    clear -L LR G. revert e r L LR G. induction s as [|x t IH]; intros [|y u] [|q r] L LR G; try discriminate.
    + split; [reflexivity|]. intros x y [].
    + destruct (G 0%nat x y eq_refl eq_refl) as (Q & LE). injection Q as ->.
      destruct (IH u r) as (E & LL); [cbn in L; lia|cbn in LR; lia|intros i a c; exact (G (S i) a c)|]. unfold map2 in *. cbn [combine map fst snd]. rewrite E. split; [reflexivity|].
      intros a c [I|I]; [injection I as <- <-; exact LE|exact (LL a c I)].
Qed.
Lemma years_column_pairs_ok (s e : list date) b : plain_basis b -> s <> [] -> length s = length e -> (forall x y, In (x, y) (combine s e) -> (x <= y)%Z) ->
  exists ys, years_column s e b (length s) = Ok ys.
Proof.
  intros P NE L H. unfold years_column. destruct s as [|x0 [|x1 s']]; [contradiction| |].
  - destruct e as [|y0 [|? ?]]; try discriminate. rewrite (yf1_scalar b x0 y0 (proj2 P)) by (apply H; left; reflexivity). eexists. reflexivity.
  - assert (NB : ~ bad_pair (x0 :: x1 :: s') e).
    { intros (i & x & y & X & Y & LT). enough (x <= y)%Z by lia. apply H. clear -X Y. revert e i X Y. generalize (x0 :: x1 :: s') as s. clear.
      induction s as [|a t IH]; intros [|c u] [|i] X Y; try discriminate; cbn in X, Y.
      - injection X as ->. injection Y as ->. left. reflexivity.
      - right. exact (IH u i X Y). }
    destruct (year_frac_vector (x0 :: x1 :: s') e b L ltac:(cbn; lia) NB (proj2 P)) as (r & E' & _). rewrite E'. eexists. reflexivity.
Qed.

Definition contract_row (c : date) (b by' : basis) (x : (date * date) * R) : futures_row :=
  let '((e, m), w) := x in
  {| r_eff := e; r_mat := m; r_fwd := w; r_tau := Q2R (yf1 b e m); r_eff_years := Q2R (yf1 by' c e); r_mat_years := Q2R (yf1 by' c m); r_eff_df := None; r_mat_df := None |}.
Lemma combine_contracts c b by' (es ms : list date) ws : length ms = length es -> length ws = length es ->
  map (fun p => let '((e, m), (w, t), (x, y)) := p in
    {| r_eff := e; r_mat := m; r_fwd := w; r_tau := t; r_eff_years := x; r_mat_years := y; r_eff_df := None; r_mat_df := None |})
    (combine (combine (combine es ms) (combine ws (map2 (fun x y => Q2R (yf1 b x y)) es ms))) (combine (map (fun d => Q2R (yf1 by' c d)) es) (map (fun d => Q2R (yf1 by' c d)) ms)))
  = map (contract_row c b by') (combine (combine es ms) ws).
Proof.
  unfold map2. revert ms ws. induction es as [|e t IH]; intros [|m ms] [|w ws] L1 L2; try discriminate; [reflexivity|].
  cbn [combine map fst snd]. cbn [contract_row]. f_equal. apply IH; cbn in L1, L2; lia.
Qed.

Lemma combine_fst {A B} (l : list A) (m : list B) : length m = length l -> map fst (combine l m) = l.
Proof. revert m. induction l as [|x t IH]; intros [|y u] L; try discriminate; [reflexivity|]. cbn in *. f_equal. apply IH. lia. Qed.
Lemma combine_snd {A B} (l : list A) (m : list B) : length m = length l -> map snd (combine l m) = m.
Proof. revert m. induction l as [|x t IH]; intros [|y u] L; try discriminate; [reflexivity|]. cbn in *. f_equal. apply IH. lia. Qed.

Lemma strip_reprices f c ks b by' fwd ys : plain_basis b -> plain_basis by' -> f_eff f <> [] -> length (f_mat f) = length (f_eff f) -> length fwd = length (f_eff f) ->
  forward_column f = Ok fwd -> (forall e m, In (e, m) (combine (f_eff f) (f_mat f)) -> (c <= e <= m)%Z) ->
  (forall e m w t, In ((e, m), w) (combine (combine (f_eff f) (f_mat f)) fwd) -> year_fraction b e m t -> 0 < 1 + w * t) ->
  (2 <= length ks)%nat -> (forall k, In k ks -> 0 < snd k) -> Forall2 (year_fraction by' c) (f_mat f) ys -> NoDup (map fst ks ++ ys) ->
  exists rows, bootstrap_futures f c (map lift_knot ks) b by' = Ok rows /\ ordered_by r_eff rows /\
    Permutation (map (fun r => ((r_eff r, r_mat r), r_fwd r)) rows) (combine (combine (f_eff f) (f_mat f)) fwd) /\
    forall i r, nth_error rows i = Some r ->
      year_fraction b (r_eff r) (r_mat r) (r_tau r) /\ year_fraction by' c (r_eff r) (r_eff_years r) /\ year_fraction by' c (r_mat r) (r_mat_years r) /\
      exists e m K p q, r_eff_df r = Some e /\ r_mat_df r = Some m /\ 0 < e /\ 0 < m /\ e / m = 1 + r_fwd r * r_tau r /\
        known_before ks rows i K /\ bracket K p q (r_eff_years r) /\ e = geometric p q (r_eff_years r) /\ (forall v, In (r_eff_years r, v) K -> e = v).
Proof.
  intros P PY NE LM LW FW LE G N2 PK YM ND.
  assert (LE1 : forall d, In d (f_eff f) -> (c <= d)%Z).
  { intros d I. rewrite <- (combine_fst (f_eff f) (f_mat f) LM) in I. apply in_map_iff in I as ((e & m) & <- & I). exact (proj1 (LE e m I)). }
  assert (LE2 : forall d, In d (f_mat f) -> (c <= d)%Z).
  { intros d I. rewrite <- (combine_snd (f_eff f) (f_mat f) LM) in I. apply in_map_iff in I as ((e & m) & <- & I). cbn. pose proof (LE e m I). lia. }
  unfold bootstrap_futures. rewrite FW. cbn [bind].
  destruct (years_column_pairs_ok (f_eff f) (f_mat f) b P NE (eq_sym LM)) as (ts & E). { intros x y I. apply LE in I. lia. }
  rewrite E. cbn [bind]. apply years_column_pairs in E as (-> & _); [|exact P|exact NE|exact (eq_sym LM)].
  rewrite (years_column_ok c (f_eff f) by' PY NE LE1). cbn [bind].
  assert (NM : f_mat f <> []) by (destruct (f_mat f); [destruct (f_eff f); [contradiction|discriminate]|discriminate]).
  rewrite <- LM, (years_column_ok c (f_mat f) by' PY NM LE2). cbn [bind]. rewrite combine_contracts by assumption.
  set (cs := combine (combine (f_eff f) (f_mat f)) fwd) in *.
  assert (EL : map (fun p : R * option R => (fst p, nan_log (snd p))) (map lift_knot ks) = map ln_lift ks).
  { rewrite map_map. apply map_ext_in. intros k I. unfold lift_knot, ln_lift. cbn [fst snd]. rewrite (nan_log_pos _ (PK k I)). reflexivity. }
  rewrite EL. clear EL. set (l := sort_by r_eff (map (contract_row c b by') cs)).
  assert (PL : Permutation l (map (contract_row c b by') cs)) by apply sort_by_perm.
  assert (MY : Permutation (map r_mat_years l) ys).
  { rewrite (Permutation_map r_mat_years PL), map_map. apply Forall2_yf in YM as (_ & ->); [|exact PY]. unfold cs.
    assert (X : map (fun x : date * date * R => Q2R (yf1 by' c (snd (fst x)))) (combine (combine (f_eff f) (f_mat f)) fwd) = map (fun d => Q2R (yf1 by' c d)) (f_mat f)).
    { rewrite <- (map_map (fun x : date * date * R => snd (fst x)) (fun d : date => Q2R (yf1 by' c d))). f_equal. rewrite <- (map_map fst snd), combine_fst; [apply combine_snd, LM|].
      rewrite combine_length, LM, LW. lia. }
    rewrite <- X. apply Permutation_refl'. apply map_ext. intros ((e & m) & w). reflexivity. }
  destruct (futures_loop_spec l ks N2) as (out & O & F & A).
  { apply (Permutation_NoDup (l := map fst ks ++ ys)); [|exact ND]. apply Permutation_app_head, Permutation_sym, MY. }
  { exact PK. }
  { intros r I. apply (Permutation_in _ PL) in I. apply in_map_iff in I as (((e & m) & w) & <- & I). cbn. apply (G e m w); [exact I|].
    apply year_fraction_yf1; [exact P|]. unfold cs in I. apply in_combine_l in I. apply LE in I. lia. }
  exists out. split; [exact O|].
  assert (Q : forall r, In r out -> exists x, In x cs /\ same_contract (contract_row c b by' x) r).
  { intros r I. assert (T : forall l m, Forall2 same_contract l m -> forall y, In y m -> exists x, In x l /\ same_contract x y).
    { clear. induction 1 as [|x y t t' S1 F IH]; intros z I; [destruct I|]. destruct I as [<-|I]; [exists x; split; [left; reflexivity|exact S1]|].
      destruct (IH z I) as (w & J & K). exists w. split; [right; exact J|exact K]. }
    destruct (T l out F r I) as (x & J & K). apply (Permutation_in _ PL) in J. apply in_map_iff in J as (y & <- & J). exists y. split; assumption. }
  split; [|split].
  - assert (SS : StronglySorted (fun x y => (r_eff x <= r_eff y)%Z) l) by apply sort_by_sorted. apply sorted_ordered. clear -F SS.
    induction F as [|x y t t' (Q & _) F IH]; [constructor|]. inversion SS as [|a d S1 F1]; subst. constructor; [exact (IH S1)|].
    rewrite Q. clear -F F1. induction F as [|u v t t' (Q & _) F IH]; [constructor|]. inversion F1 as [|a b G1 G2]; subst. constructor; [rewrite Q; exact G1|exact (IH G2)].
  - assert (X : map (fun r => ((r_eff r, r_mat r), r_fwd r)) out = map (fun r => ((r_eff r, r_mat r), r_fwd r)) l).
    { clear -F. induction F as [|x y t t' (Q1 & Q2 & Q3 & _) F IH]; [reflexivity|]. cbn [map]. rewrite Q1, Q2, Q3, IH. reflexivity. }
    rewrite X, (Permutation_map _ PL), map_map. apply Permutation_refl'. transitivity (map (fun x => x) cs); [|apply map_id]. apply map_ext. intros ((e & m) & w). reflexivity.
  - intros i r H. pose proof (nth_error_In _ _ H) as I. destruct (Q r I) as (((e & m) & w) & J & (S1 & S2 & S3 & S4 & S5 & S6)). cbn in S1, S2, S3, S4, S5, S6.
    assert (J' : In (e, m) (combine (f_eff f) (f_mat f))) by (unfold cs in J; apply in_combine_l in J; exact J). apply LE in J'.
    rewrite S1, S2, S5, S6, S4. split; [apply year_fraction_yf1; [exact P|lia]|]. split; [apply year_fraction_yf1; [exact PY|lia]|]. split; [apply year_fraction_yf1; [exact PY|lia]|].
    destruct (A i r H) as (e' & m' & K & p & q & H1 & H2 & H3 & H4 & H5 & H6 & H7 & H8 & H9 & H10). rewrite S4 in H5. rewrite S5 in H9, H10. exists e', m', K, p, q.
    repeat split; try assumption; try apply H9. intros v V. rewrite H10. exact (bracket_at_knot K p q _ v H7 H8 H9 V).
Qed.
