From Coq Require Import String ZArith Reals List Bool Lra Lia.
From Verif Require Import Base Date NormalModel NormalProofs BlackModel BlackSpec GkModel GkSpec GkProofs GkVecProofs GkStrikeProofs SabrModel ChfModel CosModel SurfaceModel SurfaceSpec SurfaceProofs SurfaceSplineProofs.
Import ListNotations.
Open Scope list_scope.
Open Scope R_scope.

Lemma guard_ok (b : bool) (e : exn) (u : unit) : guard b e = Ok u -> b = true.
Proof. destruct b; [reflexivity|discriminate]. Qed.
Lemma is_cp_flag_ok (x : R) : is_cp_flag x = true <-> x = 1 \/ x = -1.
Proof.
  unfold is_cp_flag, is_one, is_minus_one. destruct (Req_EM_T x 1) as [E|E]; [cbn; tauto|]. destruct (Req_EM_T x (-1)) as [E'|E']; cbn; [tauto|]. split; [discriminate|tauto].
Qed.
Lemma run_fit_end (f : list R -> result num) (s : fit_search) (x : list R) : run_fit f s = Ok x -> end_point s x.
Proof.
  induction s as [b z|z k IH]; cbn; intros H; [injection H as <-; constructor|]. apply bind_ok in H as (y & _ & H). eapply End_later, IH, H.
Qed.
Lemma run_fit_flag (f : list R -> result num) (b : bool) (s : fit_search) : run_fit f (flagged b s) = run_fit f s.
Proof. induction s as [b' z|z k IH]; cbn; [reflexivity|]. destruct (f z) as [y|e]; cbn; [apply IH|reflexivity]. Qed.

Lemma nsum_fin (l : list num) (a : R) : nsum l = Fin a -> exists r, l = map Fin r /\ a = fold_right Rplus 0 r.
Proof.
  unfold nsum. revert a. induction l as [|x t IH]; cbn; intros a H; [injection H as <-; exists []; auto|].
  destruct x as [x| | |], (fold_right add (Fin 0) t) as [y| | |]; cbn in H; try discriminate. injection H as <-.
  destruct (IH y eq_refl) as (r & -> & ->). exists (x :: r). auto.
Qed.
Lemma nsum_map (r : list R) : nsum (map Fin r) = Fin (fold_right Rplus 0 r).
Proof. unfold nsum. induction r as [|x t IH]; cbn; [reflexivity|]. now rewrite IH. Qed.
Lemma npow2_sub (v : R) (x : num) (a : R) : npow2 (sub (Fin v) x) = Fin a -> exists y, x = Fin y /\ a = (v - y) ^ 2.
Proof. destruct x as [y| | |]; cbn; try discriminate. intros H. injection H as <-. exists y. split; [reflexivity|ring]. Qed.
Lemma sse_fin (vols : list R) (IV : list num) (e : R) : length IV = length vols -> nsum (map (fun x => npow2 (sub (Fin (fst x)) (snd x))) (combine vols IV)) = Fin e ->
  exists ivs, IV = map Fin ivs /\ e = squares (combine vols ivs).
Proof.
  intros L H. apply nsum_fin in H as (r & E & ->). revert IV r L E. unfold squares. induction vols as [|v t IH]; intros [|x IV] r L E; cbn [length combine map] in L, E; try discriminate.
  - destruct r; [|discriminate]. exists []. auto.
  - destruct r as [|a r]; [discriminate|]. cbn [map] in E. injection E as E1 E2. apply npow2_sub in E1 as (y & -> & ->).
    destruct (IH IV r ltac:(lia) E2) as (ivs & -> & Q). exists (y :: ivs). cbn [combine map fold_right fst snd]. rewrite Q. auto.
Qed.
Lemma sse_of (vols ivs : list R) : nsum (map (fun x => npow2 (sub (Fin (fst x)) (snd x))) (combine vols (map Fin ivs))) = Fin (squares (combine vols ivs)).
Proof.
  unfold squares. rewrite <- nsum_map. f_equal. revert ivs. induction vols as [|v t IH]; intros [|x ivs]; cbn; [reflexivity..|]. rewrite IH. do 2 f_equal. ring.
Qed.
Lemma sse_not_ninf (l : list (R * num)) : nsum (map (fun x => npow2 (sub (Fin (fst x)) (snd x))) l) <> NInf.
Proof.
  unfold nsum. induction l as [|[v x] t IH]; cbn; [discriminate|]. destruct (fold_right add (Fin 0) _) as [y| | |]; [| |congruence|]; destruct x; cbn; discriminate.
Qed.
Lemma squares_bound (l : list (R * R)) (a b : R) : In (a, b) l -> (a - b) ^ 2 <= squares l.
Proof.
  unfold squares. assert (P : forall m : list (R * R), 0 <= fold_right Rplus 0 (map (fun p => (fst p - snd p) ^ 2) m)).
  { induction m as [|p m IH]; cbn [map fold_right]; [lra|]. pose proof (pow2_ge_0 (fst p - snd p)). lra. }
  induction l as [|p m IH]; [contradiction|]. cbn [map fold_right]. intros [-> | I].
  - cbn [fst snd]. pose proof (P m). lra.
  - pose proof (pow2_ge_0 (fst p - snd p)). specialize (IH I). lra.
Qed.

Lemma helper_ok (ext : externals) (S0 tau r q var0 kappa lambda_ : R) (method : string) (cps : list R) (strikes : list num) (vols param : list R) (P : list (option R)) (IV : list num) (sse : num) :
  calibration_helper ext S0 tau r q var0 kappa lambda_ method cps strikes vols param = Ok (Some (P, IV, sse)) ->
  exists vv theta rho, param = [vv; theta; rho] /\ 0 <= vv /\ 0 <= theta /\ Rabs rho <= 1 /\
  sse = nsum (map (fun x => npow2 (sub (Fin (fst x)) (snd x))) (combine vols IV)) /\
  (length cps = length vols -> length strikes = length vols -> length IV = length vols /\
   forall (i : nat) (cp k v : R), nth_error cps i = Some cp -> nth_error strikes i = Some (Fin k) -> nth_error vols i = Some v ->
     exists x rest iv, heston_price (x_quad ext) cosine_default (mk_params tau r q var0 vv kappa theta rho) lambda_ S0 cp k method = Ok (x :: rest) /\
       nth_error IV i = Some iv /\ reported_vol ext S0 tau r q cp k v x iv).
Proof.
  unfold calibration_helper. destruct param as [|vv [|theta [|rho [|]]]]; try discriminate.
  destruct (Rlt_dec vv 0) as [|A]; [discriminate|]. destruct (Rlt_dec theta 0) as [|B]; [discriminate|]. destruct (Rlt_dec 1 (Rabs rho)) as [|C]; [discriminate|].
  intros H. apply bind_ok in H as (P' & EP & H). apply bind_ok in H as (IV' & EI & H). injection H as -> -> <-.
  exists vv, theta, rho. split; [reflexivity|]. split; [lra|]. split; [lra|]. split; [lra|]. split; [reflexivity|]. intros L1 L2.
  apply sequence_map_ok in EP as [LP EP]. apply sequence_map_ok in EI as [LI EI]. rewrite combine_length in LP. rewrite !combine_length in LI. split; [lia|].
  assert (G : forall A B (l : list A) (m : list B) j a b, nth_error l j = Some a -> nth_error m j = Some b -> nth_error (combine l m) j = Some (a, b)).
  { clear. intros A B l. induction l as [|a l IH]; intros [|b m] [|j] x y; cbn; try discriminate; [intros H1 H2; congruence|apply IH]. }
  intros i cp k v Hc Hk Hv. destruct (EP i (cp, Fin k) (G _ _ _ _ _ _ _ Hc Hk)) as (x & Hx & EX). cbn [fst snd model_price] in EX. apply bind_ok in EX as (l & EX & HL).
  destruct l as [|x' rest]; [discriminate|]. injection HL as ->.
  destruct (EI i (x, (cp, (Fin k, v))) (G _ _ _ _ _ _ _ Hx (G _ _ _ _ _ _ _ Hc (G _ _ _ _ _ _ _ Hk Hv)))) as (iv & Hiv & EV).
  exists x, rest, iv. split; [exact EX|]. split; [exact Hiv|]. destruct x as [y|]; cbn in *.
  - destruct (Rlt_dec y 0) as [N|N]; [injection EV as <-|]; split; intros; try lra; [reflexivity|exact EV].
  - exact EV.
Qed.

Lemma method_known (m : string) : existsb (String.eqb m) pricing_methods = true <-> pricing_method m.
Proof.
  rewrite existsb_exists. unfold pricing_method, pricing_methods. split.
  - intros (x & I & E). apply String.eqb_eq in E. subst x. cbn in *. tauto.
  - intros I. exists m. split; [cbn in *; tauto|apply String.eqb_refl].
Qed.

Lemma sqrt_pow2 (v : R) : 0 < v -> sqrt (v ^ 2) = v.
Proof. intros H. replace (v ^ 2) with (v * v) by ring. apply sqrt_square. lra. Qed.

Lemma strikes_facts (rs : root_finder) (S0 tau rd rf : R) (vols deltas : list R) (conv atm : string) (F : option R) (ks : list num) :
  solve_strike_from_delta rs S0 tau rd rf vols deltas conv F atm = Ok ks -> length ks = length vols /\ Forall (fun v => 0 < v) vols.
Proof. intros H. apply solver_length in H as ((_ & _ & V & _ & L & _) & _ & LK). split; [congruence|exact V]. Qed.

Lemma calibrate_report (ext : externals) (quotes : list num) (deltas : list R) (S0 r q tau : R) (cps : list R) (conv method : string) (h : fit) :
  heston_calibrate ext quotes deltas S0 r q tau cps conv method = Ok (Some h) ->
  exists (vols : list R) (strikes : list num) (v : R), quotes = map Fin vols /\
    solve_strike_from_delta (x_rs ext) S0 tau r q vols deltas conv None "forward" = Ok strikes /\
    nth_error vols (Nat.div (length vols) 2) = Some v /\ f_var0 h = v ^ 2 /\ f_kappa h = 3 / 2 /\ f_lambda h = 0 /\
    0 <= f_vv h /\ 0 <= f_theta h /\ Rabs (f_rho h) <= 1 /\ end_point (x_minimize ext [2 * v; 2 * v ^ 2; 0]) [f_vv h; f_theta h; f_rho h] /\
    f_SSE h <> PInf /\ f_SSE h <> NInf /\
    (length cps = length vols -> quote_fits ext h S0 tau r q method cps strikes vols /\
       forall e, f_SSE h = Fin e <-> exists ivs, f_IV h = map Fin ivs /\ e = squares (combine vols ivs)).
Proof.
  unfold heston_calibrate. intros H. apply bind_ok in H as ([] & _ & H). apply bind_ok in H as ([] & _ & H). apply bind_ok in H as ([] & _ & H). apply bind_ok in H as ([] & _ & H).
  apply bind_ok in H as (vols & EV & H). apply bind_ok in H as (strikes & ES & H).
  unfold quoted in EV. destruct (all_fin quotes) as [w|] eqn:AF; [|discriminate]. injection EV as ->. apply all_fin_inv in AF.
  destruct (strikes_facts _ _ _ _ _ _ _ _ _ _ _ ES) as [LS PV]. rewrite LS in H.
  destruct (nth_error vols (Nat.div (length vols) 2)) as [v|] eqn:EN; [|discriminate]. cbv zeta in H.
  assert (Hv : 0 < v) by (rewrite Forall_forall in PV; apply PV; eapply nth_error_In; eauto). rewrite (sqrt_pow2 v Hv) in H.
  apply bind_ok in H as (x & EX & H). apply run_fit_end in EX. apply bind_ok in H as (o & EO & H). destruct o as [[[P IV] sse]|]; [|discriminate].
  destruct (helper_ok _ _ _ _ _ _ _ _ _ _ _ _ _ _ _ _ EO) as (vv & theta & rho & -> & A & B & C & D & E). 
  assert (F : sse <> PInf /\ h = mk_fit (v ^ 2) vv (3 / 2) theta rho 0 IV sse) by (destruct sse; try discriminate; injection H as <-; (split; [discriminate|reflexivity])).
  destruct F as [NP ->]. exists vols, strikes, v. cbn [f_var0 f_vv f_kappa f_theta f_rho f_lambda f_IV f_SSE].
  split; [exact AF|]. split; [exact ES|]. split; [exact EN|]. split; [reflexivity|]. split; [reflexivity|]. split; [reflexivity|]. split; [exact A|]. split; [exact B|]. split; [exact C|].
  split; [exact EX|]. split; [exact NP|]. split; [rewrite D; apply sse_not_ninf|].
  intros L. destruct (E L LS) as [LI Q]. split.
  - split; [exact LI|]. intros i cp k w Hc Hk Hw. destruct (Q i cp k w Hc Hk Hw) as (y & rest & iv & Y & I & V). exists y, iv. split; [exists rest; exact Y|]. auto.
  - intros e. rewrite D. split; [apply sse_fin; exact LI|]. intros (ivs & -> & ->). apply sse_of.
Qed.

Lemma calibrate_invalid (ext : externals) (quotes : list num) (deltas : list R) (S0 r q tau : R) (cps : list R) (conv method : string) :
  ~ (0 < S0 /\ 0 < tau /\ Forall (fun c => c = 1 \/ c = -1) cps /\ pricing_method method) -> heston_calibrate ext quotes deltas S0 r q tau cps conv method = Err ValueError.
Proof.
  intros N. unfold heston_calibrate. destruct (Rlt_dec 0 S0) as [A|A]; [|reflexivity]. destruct (Rlt_dec 0 tau) as [B|B]; [|reflexivity]. cbn [guard bind].
  destruct (forallb is_cp_flag cps) eqn:C; [|reflexivity]. destruct (existsb (String.eqb method) pricing_methods) eqn:D; [|reflexivity].
  destruct N. split; [exact A|]. split; [exact B|]. split; [|apply method_known; exact D]. rewrite Forall_forall. rewrite forallb_forall in C. intros x I. apply is_cp_flag_ok, C, I.
Qed.

Lemma calibrate_flag (ext : externals) (b : bool) (quotes : list num) (deltas : list R) (S0 r q tau : R) (cps : list R) (conv method : string) :
  heston_calibrate (with_minimize ext (fun x => flagged b (x_minimize ext x))) quotes deltas S0 r q tau cps conv method = heston_calibrate ext quotes deltas S0 r q tau cps conv method.
Proof.
  unfold heston_calibrate. cbn [with_minimize x_rs x_minimize]. destruct (guard _ _); [|reflexivity]. cbn [bind]. destruct (guard _ _); [|reflexivity]. cbn [bind].
  destruct (guard _ _); [|reflexivity]. cbn [bind]. destruct (guard _ _); [|reflexivity]. cbn [bind]. destruct (quoted quotes) as [vols|]; [|reflexivity]. cbn [bind].
  destruct (solve_strike_from_delta _ _ _ _ _ _ _ _ _ _) as [ks|]; [|reflexivity]. cbn [bind]. destruct (nth_error vols _) as [v|]; [|reflexivity]. cbv zeta. rewrite run_fit_flag. reflexivity.
Qed.

Lemma calibrate_inadmissible (ext : externals) (quotes : list num) (deltas : list R) (S0 r q tau : R) (cps : list R) (conv method : string) (v : R) :
  nth_error quotes (Nat.div (length quotes) 2) = Some (Fin v) -> (forall x, end_point (x_minimize ext [2 * v; 2 * v ^ 2; 0]) x -> ~ admissible x) ->
  exists e, heston_calibrate ext quotes deltas S0 r q tau cps conv method = Err e.
Proof.
  intros N H. destruct (heston_calibrate ext quotes deltas S0 r q tau cps conv method) as [[h|]|e] eqn:E; [| |eauto].
  - exfalso. apply calibrate_report in E as (vols & ks & w & -> & _ & EN & _ & _ & _ & A & B & C & EP & _). rewrite map_length, (map_nth_error Fin _ _ EN) in N. injection N as ->.
    apply (H _ EP). cbn. auto.
  - exfalso. unfold heston_calibrate in E. apply bind_ok in E as ([] & _ & E). apply bind_ok in E as ([] & _ & E). apply bind_ok in E as ([] & _ & E). apply bind_ok in E as ([] & _ & E).
    apply bind_ok in E as (vols & EV & E). apply bind_ok in E as (strikes & ES & E).
    unfold quoted in EV. destruct (all_fin quotes) as [w|] eqn:AF; [|discriminate]. injection EV as ->. apply all_fin_inv in AF. subst quotes.
    destruct (strikes_facts _ _ _ _ _ _ _ _ _ _ _ ES) as [LS PV]. rewrite LS in E. rewrite map_length in N.
    destruct (nth_error vols (Nat.div (length vols) 2)) as [w|] eqn:EN; [|discriminate]. rewrite (map_nth_error Fin _ _ EN) in N. injection N as ->. cbv zeta in E.
    assert (Hv : 0 < v) by (rewrite Forall_forall in PV; apply PV; eapply nth_error_In; eauto). rewrite (sqrt_pow2 v Hv) in E.
    apply bind_ok in E as (x & EX & E). apply run_fit_end in EX. apply bind_ok in E as (o & EO & E). destruct o as [[[P IV] sse]|]; [|discriminate].
    destruct (helper_ok _ _ _ _ _ _ _ _ _ _ _ _ _ _ _ _ EO) as (vv & theta & rho & -> & A & B & C & _). apply (H _ EX). cbn. auto.
Qed.

(* a minimiser that stops at once at an inadmissible point *)
Lemma calibrate_type_error (ext : externals) (vols : list R) (ks : list num) (deltas : list R) (S0 r q tau : R) (cps : list R) (conv method : string) (v : R) (b : bool) (vv theta rho : R) :
  0 < S0 -> 0 < tau -> Forall (fun c => c = 1 \/ c = -1) cps -> pricing_method method ->
  solve_strike_from_delta (x_rs ext) S0 tau r q vols deltas conv None "forward" = Ok ks -> nth_error vols (Nat.div (length vols) 2) = Some v ->
  x_minimize ext [2 * v; 2 * v ^ 2; 0] = FitEnd b [vv; theta; rho] -> ~ admissible [vv; theta; rho] ->
  heston_calibrate ext (map Fin vols) deltas S0 r q tau cps conv method = Err TypeError.
Proof.
  intros HS Ht HC HM ES EN EM NA. unfold heston_calibrate. destruct (Rlt_dec 0 S0); [|lra]. destruct (Rlt_dec 0 tau); [|lra]. cbn [guard bind].
  replace (forallb is_cp_flag cps) with true by (symmetry; apply forallb_forall; rewrite Forall_forall in HC; intros x I; apply is_cp_flag_ok, HC, I).
  rewrite (proj2 (method_known method) HM). cbn [guard bind]. unfold quoted. rewrite all_fin_map. cbn [bind]. rewrite ES. cbn [bind].
  destruct (strikes_facts _ _ _ _ _ _ _ _ _ _ _ ES) as [LS PV]. rewrite LS, EN. cbv zeta. 
  assert (Hv : 0 < v) by (rewrite Forall_forall in PV; apply PV; eapply nth_error_In; eauto). rewrite (sqrt_pow2 v Hv), EM. cbn [run_fit bind].
  cbn in NA. unfold calibration_helper. destruct (Rlt_dec vv 0) as [|A]; [reflexivity|]. destruct (Rlt_dec theta 0) as [|B]; [reflexivity|]. destruct (Rlt_dec 1 (Rabs rho)) as [|C]; [reflexivity|].
  destruct NA. repeat split; lra.
Qed.

Lemma calibrate_start (ext : externals) (m : list R -> fit_search) (quotes : list num) (deltas : list R) (S0 r q tau : R) (cps : list R) (conv method : string) (v : R) :
  nth_error quotes (Nat.div (length quotes) 2) = Some (Fin v) -> m [2 * v; 2 * v ^ 2; 0] = x_minimize ext [2 * v; 2 * v ^ 2; 0] ->
  heston_calibrate (with_minimize ext m) quotes deltas S0 r q tau cps conv method = heston_calibrate ext quotes deltas S0 r q tau cps conv method.
Proof.
  intros N E. unfold heston_calibrate. cbn [with_minimize x_rs x_minimize]. destruct (guard _ _); [|reflexivity]. cbn [bind]. destruct (guard _ _); [|reflexivity]. cbn [bind].
  destruct (guard _ _); [|reflexivity]. cbn [bind]. destruct (guard _ _); [|reflexivity]. cbn [bind]. unfold quoted. destruct (all_fin quotes) as [vols|] eqn:AF; [|reflexivity]. cbn [bind].
  apply all_fin_inv in AF. subst quotes. destruct (solve_strike_from_delta _ _ _ _ _ _ _ _ _ _) as [ks|] eqn:ES; [|reflexivity]. cbn [bind].
  destruct (strikes_facts _ _ _ _ _ _ _ _ _ _ _ ES) as [LS PV]. rewrite LS. rewrite map_length in N.
  destruct (nth_error vols (Nat.div (length vols) 2)) as [w|] eqn:EN; [|reflexivity]. rewrite (map_nth_error Fin _ _ EN) in N. injection N as ->. cbv zeta.
  assert (Hv : 0 < v) by (rewrite Forall_forall in PV; apply PV; eapply nth_error_In; eauto). rewrite (sqrt_pow2 v Hv), E. reflexivity.
Qed.

Lemma cosine_by_strike (p : params) (S0 : R) (cps Ks : list R) : length cps = length Ks -> cps <> [] ->
  heston_cosine p S0 cps Ks 160 10 true = sequence (map (fun ck => let* l := cosine_default p S0 (fst ck) (snd ck) in match l with x :: _ => Ok x | [] => Err IndexError end) (combine cps Ks)).
Proof.
  intros L NE. unfold cosine_default, heston_cosine. rewrite (proj2 (Nat.eqb_eq _ _) L). cbn [List.length Nat.eqb guard bind combine map].
  destruct (get_cos_truncation_range "heston" 10 (heston_dict p)) as [[a b]|e]; cbn [bind].
  - cbn [Nat.ltb Nat.leb guard bind orb]. generalize (combine cps Ks) as l. induction l as [|[cp K] l IH]; [reflexivity|].
    cbn [map sequence fst snd bind]. rewrite <- IH. reflexivity.
  - destruct cps as [|c cps]; [contradiction|]. destruct Ks as [|k Ks]; [discriminate|]. reflexivity.
Qed.
