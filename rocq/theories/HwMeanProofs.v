(* Expectations of the simulated Hull-White short rates and discount factors *)
From Coq Require Import ZArith String Reals Lra Lia List.
From Coquelicot Require Import Coquelicot.
From Verif Require Import Base NormalModel NormalProofs BsProofs MonteModel MonteSpec MonteProofs HwModel HwSpec HwProofs HwSimProofs MeanSpec MeanProofs PathMeanProofs.
Open Scope R_scope.

Section Integral.
  Variables (m : scheme) (alpha sigma h : R).
  Lemma rate_weights z i n : (i <= n)%nat -> total i (fun k => decay m alpha h ^ (i - 1 - k) * noise m alpha sigma h * z k) = total n (fun k => rate_weight m alpha sigma h i k * z k).
  Proof.
    intros L. replace n with (i + (n - i))%nat by lia. generalize (n - i)%nat. intros d. induction d as [|d IH].
    - rewrite Nat.add_0_r. apply total_ext. intros k K. unfold rate_weight. apply Nat.ltb_lt in K. rewrite K. reflexivity.
    - replace (i + S d)%nat with (S (i + d)) by lia. rewrite total_S, <- IH. unfold rate_weight at 1. assert (E : Nat.ltb (i + d) i = false) by (apply Nat.ltb_ge; lia). rewrite E. ring.
  Qed.
  Lemma integral_weights z i : total i (fun l => h / 2 * (excess m alpha sigma h z l + excess m alpha sigma h z (S l)))
    = total i (fun l => h / 2 * (excess m alpha sigma h (fun _ => 0) l + excess m alpha sigma h (fun _ => 0) (S l))) + total i (fun k => integral_weight m alpha sigma h i k * z k).
  Proof.
    unfold integral_weight. rewrite (total_ext i (fun k => total i (fun l => h / 2 * (rate_weight m alpha sigma h l k + rate_weight m alpha sigma h (S l) k)) * z k) (fun k => total i (fun l => h / 2 * (rate_weight m alpha sigma h l k * z k + rate_weight m alpha sigma h (S l) k * z k)))).
    2: { intros k _. rewrite Rmult_comm, <- total_scal. apply total_ext. intros l _. ring. }
    rewrite total_swap, <- total_plus. apply total_ext. intros l L. rewrite (excess_split m alpha sigma h z l), (excess_split m alpha sigma h z (S l)), (rate_weights z l i), (rate_weights z (S l) i) by lia. rewrite total_scal, total_plus. ring.
  Qed.
End Integral.
Lemma rate_integral_excess quad alpha sigma r0 h n z m i : alpha <> 0 -> m <> Other -> (m = Exact -> exact_quad quad /\ 0 < h) -> (i <= n)%nat ->
  rate_integral quad alpha sigma r0 h (fun k => alpha * r0 + sigma ^ 2 / (2 * alpha) * (1 - exp (-2 * alpha * (INR k * h)))) n z m i
  = r0 * (INR i * h) + total i (fun l => h / 2 * (excess m alpha sigma h z l + excess m alpha sigma h z (S l))).
Proof.
  intros A M X. induction i as [|i IH]; intros L; [cbn [rate_integral INR]; rewrite total_0; ring|]. cbn [rate_integral]. rewrite IH by lia. rewrite !path_excess by (try assumption; lia). rewrite total_S, S_INR. field.
Qed.
Lemma simulate_discount normal quad r0 alpha sigma tau steps sims anti seed method x :
  hw_simulate normal quad r0 alpha sigma tau steps sims anti seed method = Ok x -> scheme_of method <> Other -> (scheme_of method = Exact -> exact_quad quad /\ 0 < tau) ->
  exists a : arr3 R, generate_rand_nbs normal steps 1 sims anti seed = Ok a /\
  forall i j, (i <= Z.to_nat steps)%nat -> (j < Z.to_nat sims)%nat ->
    let h := tau / IZR steps in
    s_discount x i j = exp (- (r0 * (INR i * h) + total i (fun l => h / 2 * (excess (scheme_of method) alpha sigma h (fun k => el a k 0%nat j) l + excess (scheme_of method) alpha sigma h (fun k => el a k 0%nat j) (S l))))).
Proof.
  intros H M X. destruct (simulate_inv _ _ _ _ _ _ _ _ _ _ _ _ H) as (a & G & A & _ & _ & W & _ & _ & Ds & _). exists a. specialize (W M). split; [exact G|]. intros i j I J h.
  destruct (steps_pos _ _ _ _ _ _ G) as [S1 _]. assert (SP : 0 < IZR steps) by (apply IZR_lt; lia).
  rewrite Ds. fold h. rewrite rate_integral_excess; [|exact A|exact M| |exact I].
  - assert (E : forall l, excess (scheme_of method) alpha sigma h (fun i0 => el a i0 0%nat (if Nat.eqb (d2 a) 1 then 0%nat else j)) l = excess (scheme_of method) alpha sigma h (fun k => el a k 0%nat j) l).
    { intros l. apply excess_ext. intros k _. destruct (Nat.eqb (d2 a) 1) eqn:E; [|reflexivity]. apply Nat.eqb_eq in E. f_equal. lia. }
    do 3 f_equal. apply total_ext. intros l _. rewrite !E. reflexivity.
  - intros E. destruct (X E). split; [assumption|]. apply Rdiv_lt_0_compat; assumption.
Qed.
