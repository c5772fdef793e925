(* Values of the characteristic function, Lipton's integrand, prices *)
From Coq Require Import ZArith Reals Lra Psatz Lia String List Sorting.Sorted.
From Coquelicot Require Import Coquelicot.
From Verif Require Import Base NumModel CurveModel ChfModel ChfSpec CplxProofs ChfProofs RiccatiProofs RiccatiUniqueProofs MonteModel MonteSpec MonteProofs.
Import ListNotations.
Open Scope R_scope.

(* ---- values ---- *)
Lemma core_real (w tau vv : R) : core (RtoC w) (RtoC (Rabs w)) tau vv = if Rlt_dec 0 w then (if Req_EM_T vv 0 then None else Some (RtoC 0, RtoC 0)) else None.
Proof.
  unfold core. destruct (Rlt_dec 0 w) as [P|N].
  - rewrite Rabs_pos_eq by lra. assert (W : (w + w)%C <> RtoC 0) by (intros H; apply (f_equal fst) in H; cbn in H; lra). rewrite cdiv_some by exact W. cbn [obind].
    replace ((w - w) / (w + w))%C with (RtoC 0) by (unfold Cdiv, Cminus; rewrite Cplus_opp_r; ring). destruct Req_EM_T; [reflexivity|]. cbn [obind].
    replace (1 - 0 * cexp (- w * tau)%C)%C with (RtoC 1) by ring. replace (1 - 0)%C with (RtoC 1) by ring.
    assert (O : RtoC 1 <> RtoC 0) by (intros H; apply (f_equal fst) in H; cbn in H; lra).
    rewrite cdiv_some by exact O. cbn [obind]. replace (1 / 1)%C with (RtoC 1) by (field; exact O). rewrite clog_1. cbn [obind]. f_equal. f_equal; unfold Cdiv; ring.
  - rewrite Rabs_left1 by lra. rewrite RtoC_opp, Cplus_opp_r, cdiv_none. reflexivity.
Qed.
Lemma fang_at_zero (p : params) : chf_fang p 0 = if Rlt_dec 0 (p_kappa p) then (if Req_EM_T (p_vv p) 0 then None else Some (RtoC 1)) else None.
Proof.
  rewrite fang_core. assert (W : wval p 0 = RtoC (p_kappa p)) by (unfold wval; ring).
  assert (D : dval p 0 = RtoC (Rabs (p_kappa p))). { unfold dval. rewrite W, <- csqrt_square. f_equal. unfold csq. apply c_eq; cbn -[pow]; ring. }
  rewrite W, D, core_real. destruct Rlt_dec; [|reflexivity]. destruct Req_EM_T; [reflexivity|]. cbn [obind fst snd]. f_equal. rewrite <- cexp_0. f_equal. ring.
Qed.
Lemma albrecher_forward (p : params) (s : R) : 0 <= p_var0 p ->
  chf_albrecher p s (- Ci)%C = if Rlt_dec (p_rho p * p_vv p) (p_kappa p) then (if Req_EM_T (p_vv p) 0 then None else Some (RtoC (exp (s + (p_r p - p_q p) * p_tau p)))) else None.
Proof.
  intros V. rewrite albrecher_core by exact V. set (w := p_kappa p - p_rho p * p_vv p).
  assert (W : wval p (- Ci)%C = RtoC w) by (unfold wval, w; apply c_eq; cbn; ring).
  assert (D : dval p (- Ci)%C = RtoC (Rabs w)). { unfold dval. rewrite W, <- csqrt_square. f_equal. unfold csq. apply c_eq; cbn -[pow]; ring. }
  rewrite W, D, core_real. unfold w. destruct (Rlt_dec 0 (p_kappa p - p_rho p * p_vv p)), (Rlt_dec (p_rho p * p_vv p) (p_kappa p)); try lra; [|reflexivity]. destruct Req_EM_T; [reflexivity|]. cbn [obind fst snd].
  f_equal. rewrite <- cexp_real. f_equal. apply c_eq; cbn -[pow]; ring.
Qed.

(* ---- prices ---- *)
Section Quad.
Variable quad : quadrature.
Lemma parity_1993 (p : params) (lambda_ S0 K c : R) :
  price_1993 quad p lambda_ S0 1 K = Some c -> price_1993 quad p lambda_ S0 (-1) K = Some (c - S0 * exp (- p_q p * p_tau p) + K * exp (- p_r p * p_tau p)).
Proof.
  unfold price_1993. destruct (quad (integrand_1993 p lambda_ S0 K 1)); [|discriminate]. destruct (quad (integrand_1993 p lambda_ S0 K 2)); [|discriminate]. cbn [obind].
  intros [= <-]. f_equal. field. apply PI_neq0.
Qed.
Lemma parity_lipton (p : params) (S0 K c cp : R) : cp <> 1 ->
  price_lipton quad p S0 1 K = Some c -> price_lipton quad p S0 cp K = Some (c - S0 * exp (- p_q p * p_tau p) + K * exp (- p_r p * p_tau p)).
Proof.
  intros N. unfold price_lipton. destruct (quad (integrand_lipton p S0 K)); [|discriminate]. cbn [obind]. destruct (Req_EM_T 1 1); [|lra]. destruct (Req_EM_T cp 1); [lra|].
  intros [= <-]. reflexivity.
Qed.
Lemma carr_madan_rejects (p : params) (S0 cp K : R) (method : Z) :
  (cp <> 1 /\ cp <> -1 -> price_carr_madan quad p S0 cp K method = Err ValueError)
  /\ (cp = 1 \/ cp = -1 -> (method <> 0 /\ method <> 1)%Z -> price_carr_madan quad p S0 cp K method = Err NameError).
Proof.
  unfold price_carr_madan. split.
  - intros [H1 H2]. destruct (Req_EM_T cp 1); [contradiction|]. destruct (Req_EM_T cp (-1)); [contradiction|]. reflexivity.
  - intros H [M0 M1]. assert (E0 : (method =? 0)%Z = false) by (apply Z.eqb_neq; exact M0). assert (E1 : (method =? 1)%Z = false) by (apply Z.eqb_neq; exact M1).
    destruct (Req_EM_T cp 1); [|destruct (Req_EM_T cp (-1)); [|tauto]]; cbn [bind]; destruct (log_of S0), (log_of K); rewrite ?E0, ?E1; reflexivity.
Qed.
End Quad.

(* ---- Simpson weights ---- *)
Lemma weights_even (h : nat) : get_simpson_weights (2 * Z.of_nat h + 2) = [1 / 3] ++ List.concat (repeat [4 / 3; 2 / 3] h) ++ [1 / 3].
Proof.
  unfold get_simpson_weights. replace ((2 * Z.of_nat h + 2 - 2) / 2)%Z with (Z.of_nat h). 2:{ replace (2 * Z.of_nat h + 2 - 2)%Z with (Z.of_nat h * 2)%Z by ring. rewrite Z.div_mul by lia. reflexivity. }
  rewrite Nat2Z.id, !map_app. f_equal. f_equal. induction h as [|h IH]; [reflexivity|]. cbn [repeat List.concat app map]. rewrite IH. reflexivity.
Qed.
Lemma weights_odd (n : Z) : get_simpson_weights (2 * n + 1) = get_simpson_weights (2 * n).
Proof.
  unfold get_simpson_weights. replace ((2 * n + 1 - 2) / 2)%Z with ((2 * n - 2) / 2)%Z; [reflexivity|].
  replace (2 * n + 1 - 2)%Z with (1 + (n - 1) * 2)%Z by ring. replace (2 * n - 2)%Z with ((n - 1) * 2)%Z by ring. rewrite Z.div_add, Z.div_mul by lia. reflexivity.
Qed.
Lemma weights_short (n : Z) : (n < 4)%Z -> get_simpson_weights n = [1 / 3; 1 / 3].
Proof.
  intros H. unfold get_simpson_weights. replace (Z.to_nat ((n - 2) / 2)) with O; [reflexivity|]. symmetry.
  assert ((n - 2) / 2 <= 0)%Z. { assert ((n - 2) / 2 < 1)%Z; [|lia]. apply Z.div_lt_upper_bound; lia. } lia.
Qed.
Lemma nth_pairs (h i : nat) (a b : R) : (i < h)%nat -> nth (2 * i) (List.concat (repeat [a; b] h)) 0 = a /\ nth (2 * i + 1) (List.concat (repeat [a; b] h)) 0 = b.
Proof.
  revert i. induction h as [|h IH]; intros i H; [lia|]. cbn [repeat List.concat app]. destruct i as [|i]; [split; reflexivity|].
  replace (2 * S i)%nat with (S (S (2 * i))) by lia. cbn [nth Nat.add]. apply IH. lia.
Qed.
Lemma pairs_length (h : nat) (a b : R) : List.length (List.concat (repeat [a; b] h)) = (2 * h)%nat.
Proof. induction h as [|h IH]; [reflexivity|]. cbn [repeat List.concat app List.length]. rewrite IH. lia. Qed.
Lemma weights_length_even (h : nat) : List.length (get_simpson_weights (2 * Z.of_nat h + 2)) = (2 * h + 2)%nat.
Proof. rewrite weights_even, !app_length, pairs_length. cbn. lia. Qed.
Lemma weighted_sum (h : nat) (f : nat -> R) :
  total (2 * h + 2) (fun i => nth i (get_simpson_weights (2 * Z.of_nat h + 2)) 0 * f i) = simpson h f + (f (2 * h)%nat + f (2 * h + 1)%nat) / 3.
Proof.
  rewrite weights_even. replace (2 * h + 2)%nat with (S (S (2 * h))) by lia. rewrite total_S, total_shift.
  set (l := List.concat (repeat [4 / 3; 2 / 3] h)).
  rewrite (total_ext _ _ (fun i => nth i l 0 * f (S i))).
  2:{ intros i H. cbn [app nth]. rewrite app_nth1; [reflexivity|]. unfold l. rewrite pairs_length. exact H. }
  cbn [app nth]. rewrite app_nth2 by (unfold l; rewrite pairs_length; lia). unfold l at 2. rewrite pairs_length, Nat.sub_diag. cbn [nth].
  rewrite total_pairs. rewrite (total_ext _ _ (fun i => 4 / 3 * f (2 * i + 1)%nat + 2 / 3 * f (2 * (S i))%nat)).
  2:{ intros i H. destruct (nth_pairs h i (4 / 3) (2 / 3) H) as [E1 E2]. fold l in E1, E2. rewrite E1, E2. replace (S (2 * i)) with (2 * i + 1)%nat by lia. replace (S (2 * i + 1)) with (2 * S i)%nat by lia. reflexivity. }
  replace (S (2 * h)) with (2 * h + 1)%nat by lia.
  assert (I : 1 / 3 * f O + total h (fun i => 4 / 3 * f (2 * i + 1)%nat + 2 / 3 * f (2 * S i)%nat) = simpson h f + f (2 * h)%nat / 3).
  { unfold simpson. clear l. induction h as [|h IH]; [rewrite !total_0; cbn; lra|]. rewrite !total_S. replace (2 * S h)%nat with (2 * h + 2)%nat in * by lia. lra. }
  lra.
Qed.

(* ---- fast Fourier transform ---- *)
Lemma combine_maps {A B I} (f : I -> A) (g : I -> B) (l : list I) : combine (map f l) (map g l) = map (fun j => (f j, g j)) l.
Proof. induction l as [|x l IH]; [reflexivity|]. cbn. rewrite IH. reflexivity. Qed.
Lemma combine_self {B I} (g : I -> B) (l : list I) : combine l (map g l) = map (fun j => (j, g j)) l.
Proof. induction l as [|x l IH]; [reflexivity|]. cbn. rewrite IH. reflexivity. Qed.
Lemma as_map (l : list R) : l = map (fun i => nth i l 0) (seq 0 (List.length l)).
Proof.
  induction l as [|x l IH]; [reflexivity|]. cbn [List.length seq map nth]. f_equal. rewrite <- seq_shift, map_map. cbn [nth]. exact IH.
Qed.
Lemma all_some_map {A} (g : nat -> option A) (f : nat -> A) (l : list nat) : (forall j : nat, In j l -> g j = Some (f j)) -> all_some (map g l) = Some (map f l).
Proof.
  induction l as [|x l IH]; intros H; [reflexivity|]. cbn [map all_some]. rewrite (H x (or_introl eq_refl)). cbn [obind]. rewrite IH by (intros j Hj; apply H; right; exact Hj). reflexivity.
Qed.
Lemma all_some_none {A} (g : nat -> option A) (j : nat) (l : list nat) : In j l -> g j = None -> all_some (map g l) = None.
Proof.
  induction l as [|x l IH]; intros H E; [destruct H|]. cbn [map all_some]. destruct H as [->|H]; [rewrite E; reflexivity|]. rewrite (IH H E). destruct (g x); reflexivity.
Qed.
Lemma re_sum (g : nat -> C) (n : nat) : Re (fold_right Cplus 0 (map g (seq 0 n))) = total n (fun j => Re (g j)).
Proof.
  unfold total. generalize (seq 0 n). intros l. induction l as [|x l IH]; [reflexivity|]. cbn [map fold_right]. rewrite <- IH. reflexivity.
Qed.
Lemma re_scal (c : R) (z : C) : Re (z * c)%C = Re z * c. Proof. unfold Re. cbn. ring. Qed.

Lemma fft_ok (h : nat) (p : params) (cp s alpha : R) (F : nat -> C) :
  let N := (2 * Z.of_nat h + 2)%Z in
  (forall j : nat, (j < 2 * h + 2)%nat -> fft_func p cp s alpha (fft_v j) = Some (F j)) ->
  fft_values N p cp s alpha =
  Some (Ok (map (fun k => (fft_k N k, Some (exp (- cp * fft_k N k * alpha) / PI *
     total (2 * h + 2) (fun j => fft_eta * nth j (get_simpson_weights N) 0 * Re (cexp (- Ci * fft_v j * fft_k N k)%C * F j)%C)))) (seq 0 (2 * h + 2)))).
Proof.
  intros N H. unfold fft_values. replace (Z.to_nat N) with (2 * h + 2)%nat by (unfold N; lia). set (n := (2 * h + 2)%nat) in *.
  rewrite (all_some_map _ F) by (intros j Hj; apply in_seq in Hj; apply H; lia). cbn [obind]. unfold N at 1 2. rewrite weights_length_even. fold n N. rewrite Nat.eqb_refl. cbn [guard bind].
  f_equal. f_equal. apply map_ext. intros k. f_equal. f_equal.
  assert (L : List.length (get_simpson_weights N) = n) by (unfold N, n; apply weights_length_even).
  rewrite (as_map (get_simpson_weights N)) at 1. rewrite L, combine_maps.
  rewrite combine_self, map_map. cbn beta iota.
  unfold dft. rewrite map_length, seq_length. rewrite combine_self, map_map. cbn [fst snd]. rewrite re_sum.
  unfold Rdiv at 1. rewrite (Rmult_assoc _ (total _ _)), (Rmult_comm (total _ _)), <- Rmult_assoc. f_equal.
  apply total_ext. intros j Hj.
  assert (E : (cexp (Ci * fft_b N * fft_v j) * F j * fft_eta * nth j (get_simpson_weights N) 0 * cexp (- (2 * PI * INR j * INR k / INR n)%R * Ci))%C
            = (cexp (- Ci * fft_v j * fft_k N k) * F j * (fft_eta * nth j (get_simpson_weights N) 0)%R)%C).
  { rewrite RtoC_mult. replace (cexp (- Ci * fft_v j * fft_k N k)%C) with (cexp (Ci * fft_b N * fft_v j)%C * cexp (- (2 * PI * INR j * INR k / INR n)%R * Ci)%C)%C; [ring|].
    rewrite <- cexp_add. f_equal.
    assert (P : (fft_v j * fft_k N k = - (fft_b N * fft_v j) + 2 * PI * INR j * INR k / INR n)%R).
    { assert (IN : IZR N = INR n) by (unfold N, n; rewrite INR_IZR_INZ; f_equal; lia). unfold fft_v, fft_k, fft_lambda, fft_eta. rewrite IN. field. apply not_0_INR. unfold n. lia. }
    apply c_eq; cbn [fst snd Cplus Cmult Copp Ci RtoC]; [ring|]. transitivity (- (fft_v j * fft_k N k))%R; [rewrite P; ring | ring]. }
  rewrite E, re_scal. ring.
Qed.

(* ---- interpolation on the grid ---- *)
Definition rising (l : list (R * option R)) : Prop := StronglySorted (fun a b => fst a < fst b) l.
Lemma interp_from_node (l : list (R * option R)) : forall (p : R * option R) (i : nat) (d : R * option R), rising (p :: l) -> (i < S (List.length l))%nat ->
  interp_from p l (fst (nth i (p :: l) d)) = snd (nth i (p :: l) d).
Proof.
  induction l as [|q t IH]; intros p i d S H.
  - destruct i; [reflexivity | cbn in H; lia].
  - cbn [interp_from]. inversion S as [|? ? S' F]; subst. destruct i as [|i].
    + cbn [nth]. inversion F; subst. destruct (Rle_dec (fst q) (fst p)); [lra|]. destruct Req_EM_T; [reflexivity|congruence].
    + change (nth (Datatypes.S i) (p :: q :: t) d) with (nth i (q :: t) d). destruct (Rle_dec (fst q) (fst (nth i (q :: t) d))) as [_|N].
      * apply IH; [exact S' | cbn [List.length] in H; lia].
      * exfalso. apply N. destruct i; [cbn; lra|]. cbn [nth]. inversion S' as [|? ? _ F']; subst. left. rewrite List.Forall_forall in F'. apply F'. apply nth_In. cbn [List.length] in H. lia.
Qed.
Lemma np_interp_node (l : list (R * option R)) (i : nat) (d : R * option R) : rising l -> (i < List.length l)%nat -> np_interp l (fst (nth i l d)) = snd (nth i l d).
Proof.
  destruct l as [|p t]; intros S H; [cbn in H; lia|]. cbn [np_interp]. destruct Rlt_dec as [L|_].
  - exfalso. destruct i; [cbn in L; lra|]. inversion S as [|? ? _ F]; subst. rewrite List.Forall_forall in F. cbn [nth] in L. specialize (F (nth i t d) ltac:(apply nth_In; cbn in H; lia)). cbn in F. lra.
  - apply interp_from_node; [exact S | exact H].
Qed.
Lemma rising_map (f : nat -> R * option R) (a n : nat) : (forall i j : nat, (i < j)%nat -> fst (f i) < fst (f j)) -> rising (map f (seq a n)).
Proof.
  intros H. revert a. induction n as [|n IH]; intros a; [constructor|]. cbn [seq map]. constructor; [apply IH|]. apply List.Forall_forall. intros x Hx. apply in_map_iff in Hx. destruct Hx as (j & <- & Hj). apply in_seq in Hj. apply H. lia.
Qed.
Lemma fft_k_rising (N : Z) (i j : nat) : (0 < N)%Z -> (i < j)%nat -> fft_k N i < fft_k N j.
Proof.
  intros HN H. unfold fft_k. assert (0 < fft_lambda N). { unfold fft_lambda, fft_eta. pose proof PI_RGT_0. assert (0 < IZR N) by (apply IZR_lt; exact HN). apply Rdiv_lt_0_compat; lra. }
  apply lt_INR in H. nra.
Qed.
Lemma fft_price (quad : quadrature) (p : params) (S0 cp K alpha : R) (j : nat) (f : nat -> R) :
  (cp = 1 /\ alpha = 3 / 4 \/ cp = -1 /\ alpha = 7 / 4) -> 0 < S0 -> 0 < K -> (Z.of_nat j < 1024)%Z -> ln K = fft_k fft_points j ->
  (forall m : nat, (Z.of_nat m < 1024)%Z -> integrand_fft p cp (ln S0) (ln K) alpha (fft_v m) = Some (f m)) ->
  price_carr_madan quad p S0 cp K 1 = Ok (Some (exp (- cp * ln K * alpha) / PI * (fft_eta * (simpson (Z.to_nat 511) f + (f (Z.to_nat 1022) + f (Z.to_nat 1023)) / 3)))).
Proof.
  intros A S K0 J EK H. set (h := Z.to_nat 511). assert (Hh : Z.of_nat h = 511%Z) by (unfold h; apply Z2Nat.id; lia). clearbody h.
  assert (N : fft_points = (2 * Z.of_nat h + 2)%Z) by (rewrite Hh; reflexivity).
  set (F := fun m => match fft_func p cp (ln S0) alpha (fft_v m) with Some z => z | None => RtoC 0 end).
  assert (HF : forall m : nat, (m < 2 * h + 2)%nat -> fft_func p cp (ln S0) alpha (fft_v m) = Some (F m) /\ f m = Re (cexp (- Ci * fft_v m * fft_k fft_points j)%C * F m)%C).
  { intros m Hm. specialize (H m ltac:(lia)). unfold integrand_fft in H. unfold F. destruct (fft_func p cp (ln S0) alpha (fft_v m)); [|discriminate]. cbn [obind] in H. injection H as <-. rewrite EK. split; reflexivity. }
  unfold price_carr_madan. replace (if Req_EM_T cp 1 then Ok (3 / 4) else if Req_EM_T cp (-1) then Ok (7 / 4) else Err ValueError) with (@Ok R alpha).
  2:{ destruct A as [[-> ->]|[-> ->]]; [destruct (Req_EM_T 1 1); [reflexivity|lra]|]. destruct (Req_EM_T (-1) 1); [lra|]. destruct (Req_EM_T (-1) (-1)); [reflexivity|lra]. }
  cbn [bind]. unfold log_of. destruct (Rlt_dec 0 S0); [|lra]. destruct (Rlt_dec 0 K); [|lra]. change (1 =? 0)%Z with false. change (1 =? 1)%Z with true. cbn iota.
  rewrite N. rewrite (fft_ok h p cp (ln S0) alpha F) by (intros m Hm; apply HF, Hm). cbn [bind]. f_equal.
  match goal with |- np_interp (map ?g ?l) _ = _ => set (G := g) end.
  assert (Lj : (j < 2 * h + 2)%nat) by lia.
  assert (Nj : nth j (map G (seq 0 (2 * h + 2))) (G O) = G j). { rewrite map_nth, seq_nth by exact Lj. reflexivity. }
  rewrite EK, N. change (fft_k (2 * Z.of_nat h + 2) j) with (fst (G j)). rewrite <- Nj at 1.
  rewrite np_interp_node; [| apply rising_map; intros a b Hab; cbn [G fst]; apply fft_k_rising; [lia | exact Hab] | rewrite map_length, seq_length; exact Lj].
  rewrite Nj. cbn [G snd fst]. f_equal. f_equal. rewrite <- N.
  rewrite (total_ext _ _ (fun m => fft_eta * (nth m (get_simpson_weights fft_points) 0 * f m))).
  2:{ intros m Hm. rewrite <- (proj2 (HF m Hm)). ring. }
  rewrite total_scal. f_equal. rewrite N, weighted_sum. f_equal. f_equal. f_equal; f_equal; lia.
Qed.

(* ---- the Carr-Madan integrand is finite on the strip ---- *)
Lemma fft_defined (p : params) (cp s k alpha : R) : (cp = 1 /\ alpha = 3 / 4 \/ cp = -1 /\ alpha = 7 / 4) -> 0 <= p_var0 p -> 0 <= p_tau p ->
  (forall v : R, strip p (v - (cp * alpha + 1)%R * Ci)%C) -> exists f : R -> R, forall v : R, integrand_fft p cp s k alpha v = Some (f v).
Proof.
  intros A V T Str. exists (fun v => match integrand_fft p cp s k alpha v with Some x => x | None => 0 end). intros v.
  enough (exists x, integrand_fft p cp s k alpha v = Some x) as [x ->] by reflexivity.
  unfold integrand_fft, fft_func. rewrite fang_albrecher by exact V. destruct (chf_defined p _ (Str v) T) as [z ->]. cbn [obind].
  rewrite cdiv_some; [cbn [obind]; eexists; reflexivity|]. intros H. pose proof (f_equal fst H) as H1. apply (f_equal snd) in H. rename H into H2. cbn [fst snd Cplus Cminus Cmult Copp Ci RtoC] in H1, H2.
  destruct A as [[-> ->]|[-> ->]]; assert (v = 0) by lra; subst v; lra.
Qed.
