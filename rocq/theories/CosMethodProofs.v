(* cos_method: the points and the sums *)
From Coq Require Import ZArith Reals String Lra Psatz Lia List.
From Coquelicot Require Import Coquelicot.
From Verif Require Import Base NormalModel NormalProofs MonteModel MonteSpec MonteProofs ChfModel CplxProofs CosModel CosSpec.
Import ListNotations.
Open Scope R_scope.

Lemma ceil_bounds (x : R) : x <= IZR (ceil x) < x + 1.
Proof. unfold ceil. rewrite minus_IZR. destruct (archimed (- x)). lra. Qed.

(* consecutive points rise by at most dt *)
Fixpoint chain (dt : R) (l : list R) : Prop :=
  match l with
  | x :: ((y :: _) as t) => x < y <= x + dt /\ chain dt t
  | _ => True
  end.
Lemma chain_ins (dt p : R) (l : list R) : 0 < dt -> chain dt l -> l <> [] -> hd 0 l <= p <= last l 0 -> chain dt (ins p l) /\ hd 0 (ins p l) = hd 0 l /\ last (ins p l) 0 = last l 0 /\ In p (ins p l).
Proof.
  intros D. induction l as [|y t IH]; [congruence|]. intros H _ [A B]. cbn [hd] in A. cbn [ins]. destruct (Rlt_dec p y); [lra|]. destruct (Req_EM_T p y) as [->|N]; [repeat split; try assumption; left; reflexivity|].
  destruct t as [|z t]; [cbn in B; lra|]. destruct H as [H1 H2]. change (last (y :: z :: t) 0) with (last (z :: t) 0) in *.
  destruct (Rlt_dec p z) as [L|L].
  - cbn [ins]. destruct (Rlt_dec p z); [|contradiction]. split; [cbn [chain]; repeat split; try lra; exact H2|]. split; [reflexivity|]. split; [reflexivity|]. right; left; reflexivity.
  - destruct (IH H2 ltac:(discriminate) ltac:(cbn [hd]; lra)) as (C & Hd & La & I). 
    destruct (ins p (z :: t)) as [|w s] eqn:E; [destruct I|]. cbn [hd] in Hd. subst w.
    split; [split; [exact H1 | exact C]|]. split; [reflexivity|]. split; [exact La | right; exact I].
Qed.
Lemma sort_chain (dt : R) (l : list R) : chain dt l -> sort_unique l = l.
Proof.
  induction l as [|x t IH]; intros H; [reflexivity|]. cbn [sort_unique fold_right]. change (fold_right ins [] t) with (sort_unique t). destruct t as [|y t]; [reflexivity|]. destruct H as [H1 H2]. rewrite (IH H2). cbn [ins]. destruct (Rlt_dec x y); [reflexivity | lra].
Qed.
Lemma chain_map (a dt : R) (n k : nat) : 0 < dt -> chain dt (map (fun i => a + INR i * dt) (seq k n)).
Proof.
  intros D. revert k. induction n as [|n IH]; intros k; [exact I|]. destruct n as [|n]; [exact I|]. specialize (IH (S k)). cbn [seq map] in *. split; [|exact IH]. rewrite S_INR. lra.
Qed.
Lemma last_map (a dt : R) (n k : nat) : last (map (fun i => a + INR i * dt) (seq k (S n))) 0 = a + INR (k + n) * dt.
Proof.
  revert k. induction n as [|n IH]; intros k; [rewrite Nat.add_0_r; reflexivity|]. rewrite <- Nat.add_succ_comm, <- (IH (S k)). reflexivity.
Qed.

Lemma widths_map (dt : R) (l : list R) : l <> [] -> widths dt l = map (fun i => nth (S i) (l ++ [last l 0 + dt]) 0 - nth i (l ++ [last l 0 + dt]) 0) (seq 0 (List.length l)).
Proof.
  induction l as [|x t IH]; [congruence|]. intros _. destruct t as [|y t].
  - cbn. f_equal. ring.
  - change (widths dt (x :: y :: t)) with ((y - x) :: widths dt (y :: t)). rewrite IH by discriminate. change (last (x :: y :: t) 0) with (last (y :: t) 0).
    set (e := last (y :: t) 0 + dt). change (List.length (x :: y :: t)) with (S (List.length (y :: t))). set (n := List.length (y :: t)). change (seq 0 (S n)) with (0%nat :: seq 1 n). cbn [map]. f_equal.
    rewrite <- seq_shift, map_map. apply map_ext. intros i. reflexivity.
Qed.
Lemma pts_map (l : list R) (e : R) : l = map (fun i => nth i (l ++ [e]) 0) (seq 0 (List.length l)).
Proof.
  induction l as [|x t IH]; [reflexivity|]. cbn [List.length seq map app nth]. f_equal. rewrite <- seq_shift, map_map. exact IH.
Qed.
Lemma combine_seq (f g : nat -> R) (l : list nat) : map (fun fd => fst fd * snd fd) (combine (map f l) (map g l)) = map (fun i => f i * g i) l.
Proof. induction l as [|x l IH]; [reflexivity|]. cbn. rewrite IH. reflexivity. Qed.
Lemma cumsum_map (c : nat -> R) (n k : nat) : cumsum_from (total k c) (map c (seq k n)) = map (fun i => total (S i) c) (seq k n).
Proof.
  revert k. induction n as [|n IH]; intros k; [reflexivity|]. cbn [seq map cumsum_from]. rewrite <- total_S. f_equal. apply IH.
Qed.
Lemma index_in (p : R) (l : list R) : In p l -> exists j, index_of p l = Some j /\ (j < List.length l)%nat /\ nth j l 0 = p.
Proof.
  induction l as [|y t IH]; [intros []|]. intros H. cbn [index_of]. destruct (Req_EM_T y p) as [->|N]; [exists 0%nat; repeat split; cbn; lia|].
  destruct H as [->|H]; [congruence|]. destruct (IH H) as (j & -> & J & E). exists (S j). repeat split; [cbn; lia | exact E].
Qed.
Lemma chain_nth (dt : R) (l : list R) : l <> [] -> 0 < dt -> chain dt l -> forall i : nat, (i < List.length l)%nat -> nth i (l ++ [last l 0 + dt]) 0 < nth (S i) (l ++ [last l 0 + dt]) 0 <= nth i (l ++ [last l 0 + dt]) 0 + dt.
Proof.
  induction l as [|x t IH]; [congruence|]. intros _ D H i I. destruct t as [|y t].
  - cbn in I. assert (i = 0)%nat by lia. subst. cbn. lra.
  - destruct H as [H1 H2]. change (last (x :: y :: t) 0) with (last (y :: t) 0). destruct i; [exact H1|]. apply (IH ltac:(discriminate) D H2 i). cbn in *. lia.
Qed.

(* ---- what the routine returns ---- *)
Definition grid_n (dt a b : R) : nat := Z.to_nat (ceil ((b + dt - a) / dt)).
Lemma grid_facts (dt a b : R) : 0 < dt -> a + dt <= b -> exists k : nat, grid_n dt a b = S k /\ b <= a + INR k * dt < b + dt.
Proof.
  intros D L. destruct (ceil_bounds ((b + dt - a) / dt)) as [C1 C2]. set (c := ceil _) in *.
  assert (Q : (b + dt - a) / dt * dt = b + dt - a) by (field; lra).
  assert (P : (1 < c)%Z). { apply lt_IZR. apply Rlt_le_trans with ((b + dt - a) / dt); [|exact C1]. apply (Rmult_lt_reg_r dt); [exact D|]. rewrite Q. lra. }
  exists (Z.to_nat (c - 1)). unfold grid_n. fold c. split; [lia|]. rewrite INR_IZR_INZ, Z2Nat.id, minus_IZR by lia.
  assert (IZR c * dt < (b + dt - a) + dt). { apply Rlt_le_trans with (((b + dt - a) / dt + 1) * dt); [apply Rmult_lt_compat_r; assumption|]. rewrite Rmult_plus_distr_r, Q. lra. }
  assert (b + dt - a <= IZR c * dt). { rewrite <- Q. apply Rmult_le_compat_r; [lra | exact C1]. } lra.
Qed.
Definition total_of (p : R) (cf : R -> C) (dt a b : R) (N : nat) : R :=
  let pts := sort_unique (p :: arange a (b + dt) dt) in rsum (map (fun fd => fst fd * snd fd) (combine (map (cos_pdf cf a b N) pts) (widths dt pts))).
Lemma method_ok (p : R) (cf : R -> C) (dt a b : R) (N : nat) : 0 < dt -> a + dt <= b -> a <= p <= b ->
  exists (n j : nat) (x : nat -> R),
    x 0%nat = a /\ (forall i : nat, (i < n)%nat -> x i < x (S i) <= x i + dt) /\ (0 < n)%nat /\ b <= x (n - 1)%nat < b + dt /\ x n = x (n - 1)%nat + dt
    /\ (j < n)%nat /\ x j = p
    /\ cos_method p cf dt a b N =
       if Rlt_dec (left_sum (cos_pdf cf a b N) x n) (cdf 5) then Err ValueError
       else Ok (mk_cos (left_sum (cos_pdf cf a b N) x (S j)) (map (fun i => left_sum (cos_pdf cf a b N) x (S i)) (seq 0 n)) (map (fun i => cos_pdf cf a b N (x i)) (seq 0 n))
                       (left_sum (cos_pdf cf a b N) x n) (map x (seq 0 n))).
Proof.
  intros D L [P1 P2]. destruct (grid_facts dt a b D L) as (k & K & B1 & B2).
  set (g := arange a (b + dt) dt). assert (G : g = map (fun i => a + INR i * dt) (seq 0 (S k))). { unfold g, arange. fold (grid_n dt a b). rewrite K. reflexivity. }
  assert (Ch : chain dt g) by (rewrite G; apply chain_map, D). assert (Ne : g <> []) by (rewrite G; discriminate).
  assert (Hd : hd 0 g = a) by (rewrite G; cbn; ring). assert (La : last g 0 = a + INR k * dt) by (rewrite G, last_map; reflexivity).
  destruct (chain_ins dt p g D Ch Ne) as (Ch' & Hd' & La' & In'). { rewrite Hd, La. lra. }
  set (pts := ins p g) in *. assert (Np : pts <> []) by (intros Z; rewrite Z in In'; destruct In').
  set (e := last pts 0 + dt). set (x := fun i => nth i (pts ++ [e]) 0). set (n := List.length pts).
  assert (N0 : (0 < n)%nat) by (unfold n; destruct pts; [congruence|cbn; lia]).
  destruct (index_in p pts In') as (j & J1 & J2 & J3). exists n, j, x.
  assert (X0 : x 0%nat = a). { unfold x. rewrite <- Hd, <- Hd'. destruct pts; [congruence|reflexivity]. }
  assert (Xl : x (n - 1)%nat = last pts 0).
  { unfold x, n. rewrite app_nth1 by (unfold n in N0; lia). clear -Np. induction pts as [|y t IH]; [congruence|]. destruct t as [|z t]; [reflexivity|].
    change (last (y :: z :: t) 0) with (last (z :: t) 0). rewrite <- IH by discriminate. cbn [List.length]. replace (S (S (List.length t)) - 1)%nat with (S (S (List.length t) - 1)) by lia. reflexivity. }
  assert (Xn : x n = last pts 0 + dt). { unfold x, n. rewrite app_nth2, Nat.sub_diag by lia. reflexivity. }
  split; [exact X0|]. split; [intros i I; apply (chain_nth dt pts Np D Ch' i I)|]. split; [exact N0|]. split; [rewrite Xl, La', La; lra|]. split; [rewrite Xn, Xl; reflexivity|].
  split; [exact J2|]. split; [unfold x; rewrite app_nth1 by exact J2; exact J3|].
  unfold cos_method. destruct (Rlt_dec 0 dt); [|contradiction]. destruct (Rle_dec (a + dt) b); [|contradiction]. destruct (Rle_dec a p); [|contradiction]. destruct (Rle_dec p b); [|contradiction]. cbn [guard bind].
  fold g. assert (So : sort_unique (p :: g) = pts) by (cbn [sort_unique fold_right]; change (fold_right ins [] g) with (sort_unique g); rewrite (sort_chain dt g Ch); reflexivity). rewrite So.
  assert (Ep : pts = map x (seq 0 n)) by apply pts_map.
  assert (Ec : map (fun fd => fst fd * snd fd) (combine (map (cos_pdf cf a b N) pts) (widths dt pts)) = map (fun i => cos_pdf cf a b N (x i) * (x (S i) - x i)) (seq 0 n)).
  { rewrite widths_map by exact Np. rewrite Ep at 1. rewrite map_map. fold n. fold e. apply combine_seq. }
  rewrite Ec. change (rsum (map (fun i => cos_pdf cf a b N (x i) * (x (S i) - x i)) (seq 0 n))) with (left_sum (cos_pdf cf a b N) x n).
  destruct (Rlt_dec (left_sum (cos_pdf cf a b N) x n) (cdf 5)); [reflexivity|]. cbn [negb guard bind]. rewrite J1.
  change 0 with (total 0 (fun i => cos_pdf cf a b N (x i) * (x (S i) - x i))) at 1. rewrite cumsum_map.
  rewrite (nth_error_nth' _ 0) by (rewrite map_length, seq_length; exact J2).
  rewrite (nth_indep _ 0 ((fun i => total (S i) (fun i => cos_pdf cf a b N (x i) * (x (S i) - x i))) 0%nat)) by (rewrite map_length, seq_length; exact J2).
  rewrite (map_nth (fun i => total (S i) (fun i => cos_pdf cf a b N (x i) * (x (S i) - x i)))), seq_nth by exact J2.
  f_equal. f_equal; [exact (cumsum_map (fun i => cos_pdf cf a b N (x i) * (x (S i) - x i)) n 0) | rewrite Ep at 1; rewrite map_map; reflexivity | exact Ep].
Qed.
Lemma method_rejects (p : R) (cf : R -> C) (dt a b : R) (N : nat) : ~ (0 < dt /\ a + dt <= b /\ a <= p <= b) -> cos_method p cf dt a b N = Err AssertionError.
Proof.
  intros H. unfold cos_method. destruct (Rlt_dec 0 dt); [|reflexivity]. destruct (Rle_dec (a + dt) b); [|reflexivity]. destruct (Rle_dec a p); [|reflexivity]. destruct (Rle_dec p b); [|reflexivity]. exfalso. apply H. repeat split; assumption.
Qed.
(* one term: the uniform law on [a, b] *)
Lemma uniform_pdf (cf : R -> C) (a b x : R) : a < b -> cf 0 = RtoC 1 -> cos_pdf cf a b 0 x = / (b - a).
Proof.
  intros L H. unfold cos_pdf. rewrite total_S, total_0. cbn [INR]. replace (0 * PI / (b - a)) with 0 by (field; lra). rewrite H.
  replace (- Ci * 0 * PI * a / (b - a)%R)%C with (RtoC 0) by (unfold Cdiv; ring). rewrite cexp_0, Cmult_1_r. replace (0 * PI * (x - a) / (b - a)) with 0 by (field; lra). rewrite cos_0. unfold Re. cbn [fst RtoC]. field. lra.
Qed.
Lemma left_const (c : R) (f : R -> R) (x : nat -> R) (n : nat) : (forall y, f y = c) -> left_sum f x n = c * (x n - x 0%nat).
Proof. intros H. unfold left_sum. induction n as [|n IH]; [rewrite total_0; ring|]. rewrite total_S, IH, H. ring. Qed.

(* ---- the range ---- *)
Lemma range_ok (p : params) (L : R) : p_kappa p <> 0 -> get_cos_truncation_range "heston"%string L (heston_dict p) =
  let c1 := heston_c1 (p_tau p) (p_r p - p_q p) (p_var0 p) (p_kappa p) (p_theta p) in
  let w := L * sqrt (Rabs (heston_c2 (p_tau p) (p_var0 p) (p_vv p) (p_kappa p) (p_theta p) (p_rho p))) in Ok (c1 - w, c1 + w).
Proof.
  intros K. unfold get_cos_truncation_range, cumulants, heston_dict. cbn [item find fst String.eqb Ascii.eqb Bool.eqb bind]. destruct Req_EM_T; [contradiction|]. cbn [negb guard bind].
  rewrite Rabs_R0, sqrt_0, Rplus_0_r. reflexivity.
Qed.
