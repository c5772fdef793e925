(* Lemmas on regular expressions, texts and dictionaries. *)
From Coq Require Import ZArith Reals String Ascii List Bool Lra Lia.
From Verif Require Import Base TenorModel BootModel EnumModel CurveModel ColumnModel ColumnSpec.
Import ListNotations.
Open Scope string_scope.

(* ---- texts ---- *)
Lemma app_assoc_s (a b c : string) : (a ++ b) ++ c = a ++ (b ++ c).
Proof. induction a as [|x a IH]; [reflexivity|]. cbn. rewrite IH. reflexivity. Qed.
Lemma app_nil_s (a : string) : a ++ "" = a.
Proof. induction a as [|x a IH]; [reflexivity|]. cbn. rewrite IH. reflexivity. Qed.
Lemma chars_app (a b : string) : list_ascii_of_string (a ++ b) = (list_ascii_of_string a ++ list_ascii_of_string b)%list.
Proof. induction a as [|x a IH]; [reflexivity|]. cbn. rewrite IH. reflexivity. Qed.
Lemma has_char_app (c : ascii) (a b : string) : has_char c (a ++ b) <-> has_char c a \/ has_char c b.
Proof. unfold has_char. rewrite chars_app, in_app_iff. tauto. Qed.
Lemma has_char_cons (c x : ascii) (b : string) : has_char c (String x b) <-> x = c \/ has_char c b.
Proof. unfold has_char. cbn. tauto. Qed.
Lemma lower_app (a b : string) : lower (a ++ b) = lower a ++ lower b.
Proof. induction a as [|x a IH]; [reflexivity|]. cbn. rewrite IH. reflexivity. Qed.
Lemma lower_cons_inv (s t : string) (c : ascii) : lower s = String c t -> exists a s', s = String a s' /\ lower_char a = c /\ lower s' = t.
Proof. destruct s as [|a s]; [discriminate|]. cbn. intros H. injection H as H1 H2. eauto. Qed.
Lemma lower_nil_inv (s : string) : lower s = "" -> s = "".
Proof. destruct s; [reflexivity|discriminate]. Qed.

(* ---- regular expressions ---- *)
Lemma lang_seq_inv (r s : regex) (w : string) : lang (Seq r s) w <-> exists u v, w = u ++ v /\ lang r u /\ lang s v.
Proof. split; [intros H; inversion H; subst; eauto|]. intros (u & v & -> & H1 & H2). constructor; assumption. Qed.
Lemma lang_alt_inv (r s : regex) (w : string) : lang (Alt r s) w <-> lang r w \/ lang s w.
Proof. split; [intros H; inversion H; subst; auto|]. intros [H|H]; [apply lang_left|apply lang_right]; exact H. Qed.
Lemma lang_chr_inv (p : ascii -> bool) (w : string) : lang (Chr p) w <-> exists a, w = String a "" /\ p a = true.
Proof. split; [intros H; inversion H; subst; eauto|]. intros (a & -> & H). constructor. exact H. Qed.
Lemma lang_eps_inv (w : string) : lang Eps w <-> w = "".
Proof. split; [intros H; inversion H; reflexivity|intros ->; constructor]. Qed.
Lemma lang_opt_inv (r : regex) (w : string) : lang (Opt r) w <-> lang r w \/ w = "".
Proof. unfold Opt. rewrite lang_alt_inv, lang_eps_inv. tauto. Qed.
Lemma lang_void (w : string) : ~ lang Void w.
Proof. intros H. inversion H. Qed.

Lemma nullable_spec (r : regex) : nullable r = true <-> lang r "".
Proof.
  induction r as [| |p|r IHr s IHs|r IHr s IHs|r IHr]; cbn [nullable].
  - split; [discriminate|]. intros H. inversion H.
  - split; [constructor|reflexivity].
  - split; [discriminate|]. intros H. inversion H.
  - rewrite andb_true_iff, IHr, IHs, lang_seq_inv. split; [intros [H1 H2]; exists "", ""; auto|]. intros (u & v & E & H1 & H2). destruct u; [|discriminate]. cbn in E. subst v. auto.
  - rewrite orb_true_iff, IHr, IHs, lang_alt_inv. reflexivity.
  - split; [constructor|reflexivity].
Qed.
Lemma star_cons (r : regex) (a : ascii) (w : string) : lang (Star r) (String a w) -> exists u v, w = u ++ v /\ lang r (String a u) /\ lang (Star r) v.
Proof.
  intros H. remember (Star r) as q eqn:Q. remember (String a w) as x eqn:X. revert a w X. induction H as [| | | | | |r' u v H1 IH1 H2 IH2]; intros a0 w0 X; try discriminate. injection Q as ->.
  destruct u as [|b u]; [exact (IH2 eq_refl a0 w0 X)|]. cbn in X. injection X as -> <-. exists u, v. auto.
Qed.
Lemma deriv_spec (a : ascii) (r : regex) : forall w, lang (deriv a r) w <-> lang r (String a w).
Proof.
  induction r as [| |p|r IHr s IHs|r IHr s IHs|r IHr]; intros w; cbn [deriv].
  - split; intros H; inversion H.
  - split; intros H; inversion H.
  - rewrite lang_chr_inv. destruct (p a) eqn:P.
    + rewrite lang_eps_inv. split; [intros ->; eauto|]. intros (b & E & _). injection E as _ E. exact E.
    + split; [intros H; inversion H|]. intros (b & E & Hb). injection E as <- _. congruence.
  - assert (G : lang (Seq r s) (String a w) <-> (exists u v, w = u ++ v /\ lang (deriv a r) u /\ lang s v) \/ (lang r "" /\ lang (deriv a s) w)).
    { rewrite lang_seq_inv. split.
      - intros ([|b u] & v & E & H1 & H2); cbn in E; [subst v; right; rewrite IHs; auto|]. injection E as -> ->. left. exists u, v. rewrite IHr. auto.
      - intros [(u & v & -> & H1 & H2)|[H1 H2]]; [exists (String a u), v; rewrite <- IHr; auto|]. exists "", (String a w). rewrite <- IHs. auto. }
    rewrite G, <- nullable_spec. destruct (nullable r); [rewrite lang_alt_inv|]; rewrite lang_seq_inv; intuition discriminate.
  - rewrite !lang_alt_inv, IHr, IHs. reflexivity.
  - rewrite lang_seq_inv. split.
    + intros (u & v & -> & H1 & H2). apply IHr in H1. exact (lang_more r (String a u) v H1 H2).
    + intros H. apply star_cons in H as (u & v & -> & H1 & H2). exists u, v. rewrite IHr. auto.
Qed.
Lemma matches_here_spec (s : string) : forall r, matches_here r s = true <-> exists m after, s = m ++ after /\ lang r m.
Proof.
  induction s as [|a s IH]; intros r; cbn [matches_here]; rewrite orb_true_iff, nullable_spec.
  - split; [intros [H|H]; [exists "", ""; auto|discriminate]|]. intros (m & after & E & H). destruct m; [left; exact H|discriminate].
  - rewrite IH. split.
    + intros [H|(m & after & -> & H)]; [exists "", (String a s); auto|]. exists (String a m), after. split; [reflexivity|]. apply deriv_spec. exact H.
    + intros ([|b m] & after & E & H); [left; exact H|]. cbn in E. injection E as <- ->. right. exists m, after. split; [reflexivity|]. apply deriv_spec. exact H.
Qed.
Lemma re_search_spec (r : regex) (s : string) : re_search r s = true <-> exists before m after, s = before ++ m ++ after /\ lang r m.
Proof.
  induction s as [|a s IH]; cbn [re_search]; rewrite orb_true_iff, matches_here_spec.
  - split; [intros [(m & after & E & H)|H]; [exists "", m, after; auto|discriminate]|]. intros (b & m & after & E & H). destruct b; [|discriminate]. left. exists m, after. auto.
  - rewrite IH. split.
    + intros [(m & after & E & H)|(b & m & after & E & H)]; [exists "", m, after; auto|]. exists (String a b), m, after. rewrite E. auto.
    + intros ([|c b] & m & after & E & H); [left; exists m, after; auto|]. cbn in E. injection E as <- ->. right. eauto.
Qed.
Lemma lang_lit (t : string) : lower t = t -> forall w, lang (lit t) w <-> lower w = t.
Proof.
  induction t as [|c t IH]; intros L w.
  - cbn. rewrite lang_eps_inv. split; [intros ->; reflexivity|apply lower_nil_inv].
  - cbn in L. injection L as Lc Lt. assert (C : forall x, lang (chr c) x <-> exists a, x = String a "" /\ lower_char a = c).
    { intros x. unfold chr. rewrite lang_chr_inv. split; intros (a & E & H); exists a; split; auto; [apply Ascii.eqb_eq; exact H|apply Ascii.eqb_eq; exact H]. }
    assert (G : lang (Seq (chr c) (lit t)) w <-> lower w = String c t).
    { rewrite lang_seq_inv. split.
      - intros (u & v & -> & H1 & H2). apply C in H1 as (a & -> & <-). apply (IH Lt) in H2. cbn. rewrite H2. reflexivity.
      - intros H. apply lower_cons_inv in H as (a & s' & -> & H1 & H2). exists (String a ""), s'. split; [reflexivity|]. split; [apply C; eauto|apply (IH Lt); exact H2]. }
    destruct t as [|d t]; [|exact G]. cbn [lit]. rewrite C. split; [intros (a & -> & <-); reflexivity|]. intros H. apply lower_cons_inv in H as (a & s' & -> & H1 & H2). apply lower_nil_inv in H2 as ->. eauto.
Qed.
Lemma lang_space (w : string) : lang (Opt space) w <-> blank w.
Proof. rewrite lang_opt_inv. unfold space, blank. rewrite lang_chr_inv. split; [intros [(a & -> & H)| ->]; eauto|]. intros [->|(a & H & ->)]; eauto. Qed.
Lemma lang_gap (w : string) : lang (Opt (one_of [" "; "-"]%char)) w <-> gap w.
Proof.
  rewrite lang_opt_inv. unfold one_of, gap. rewrite lang_chr_inv. cbn [existsb]. split.
  - intros [(a & -> & H)| ->]; [|auto]. rewrite !orb_true_iff in H. destruct H as [H|[H|H]]; [apply Ascii.eqb_eq in H as ->; auto|apply Ascii.eqb_eq in H as ->; auto|discriminate].
  - intros [->|[->| ->]]; [auto|left; exists " "%char; auto|left; exists "-"%char; auto].
Qed.
(* one or more digits end with a digit *)
Lemma lang_digits (w : string) : lang (Plus digit) w -> exists u d, w = u ++ String d "" /\ is_digit d = true.
Proof.
  unfold Plus. rewrite lang_seq_inv. intros (x & v & -> & H1 & H2). apply lang_chr_inv in H1 as (d & -> & H1). revert d H1. remember (Star digit) as q eqn:Q. induction H2 as [| | | | | |r u v H3 IH1 H4 IH2]; try discriminate.
  - intros d H1. exists "", d. auto.
  - injection Q as ->. intros d H1. apply lang_chr_inv in H3 as (e & -> & H3). destruct (IH2 eq_refl e H3) as (u & f & E & Hf). cbn in E. exists (String d u), f. cbn. rewrite E. auto.
Qed.
Lemma lang_digit (d : ascii) : is_digit d = true -> lang (Plus digit) (String d "").
Proof. intros H. unfold Plus. rewrite lang_seq_inv. exists (String d ""), "". split; [reflexivity|]. split; [constructor; exact H|constructor]. Qed.
Lemma lang_sign_none : lang sign "".
Proof. unfold sign. rewrite lang_opt_inv. auto. Qed.

Lemma bps_spec (s : string) : re_search bps_quote s = true <-> bps_column s.
Proof.
  rewrite re_search_spec. unfold bps_quote, bps_column, has_mark. split.
  - intros (b & m & after & -> & H). apply lang_seq_inv in H as (x1 & y1 & -> & _ & H). apply lang_seq_inv in H as (x2 & y2 & -> & _ & H). apply lang_seq_inv in H as (x3 & y3 & -> & H3 & H). apply lang_seq_inv in H as (x4 & y4 & -> & H4 & H).
    apply lang_digits in H3 as (u & d & -> & Hd). apply lang_space in H4. rewrite lang_alt_inv, !lang_lit in H by reflexivity. destruct H as [H|H].
    + apply lower_cons_inv in H as (c1 & z1 & -> & E1 & H). apply lower_cons_inv in H as (c2 & z2 & -> & E2 & H). exists (b ++ x1 ++ x2 ++ u), d, x4, (String c1 (String c2 "")), (z2 ++ after). split; [rewrite !app_assoc_s; reflexivity|]. split; [exact Hd|]. split; [exact H4|]. cbn. rewrite E1, E2. reflexivity.
    + exists (b ++ x1 ++ x2 ++ u), d, x4, y4, after. split; [rewrite !app_assoc_s; reflexivity|]. auto.
  - intros (b & d & x & m & after & -> & Hd & Hx & Hm). exists b, (String d (x ++ m)), after. split; [cbn; rewrite app_assoc_s; reflexivity|].
    rewrite lang_seq_inv. exists "", (String d (x ++ m)). split; [reflexivity|]. split; [apply lang_sign_none|]. rewrite lang_seq_inv. exists "", (String d (x ++ m)). split; [reflexivity|]. split; [apply lang_space; left; reflexivity|].
    rewrite lang_seq_inv. exists (String d ""), (x ++ m). split; [reflexivity|]. split; [apply lang_digit; exact Hd|]. rewrite lang_seq_inv. exists x, m. split; [reflexivity|]. split; [apply lang_space; exact Hx|]. rewrite lang_alt_inv. right. apply lang_lit; [reflexivity|exact Hm].
Qed.
Lemma lower_percent (m : string) : lower m = "%" -> m = "%".
Proof.
  intros H. apply lower_cons_inv in H as (a & t & -> & E & H). apply lower_nil_inv in H as ->. f_equal. revert E. unfold lower_char. destruct a as [[] [] [] [] [] [] [] []]; cbn; intros E; try reflexivity; discriminate E.
Qed.
Lemma percent_spec (s : string) : re_search percentage_quote s = true <-> percent_column s.
Proof.
  rewrite re_search_spec. unfold percentage_quote, percent_column, has_mark. split.
  - intros (b & m & after & -> & H). apply lang_seq_inv in H as (x1 & y1 & -> & _ & H). apply lang_seq_inv in H as (x2 & y2 & -> & _ & H). apply lang_seq_inv in H as (x3 & y3 & -> & H3 & H). apply lang_seq_inv in H as (x4 & y4 & -> & H4 & H). apply lang_seq_inv in H as (x5 & y5 & -> & H5 & H).
    apply lang_lit in H; [|reflexivity]. apply lower_percent in H as ->. apply lang_space in H5. apply lang_opt_inv in H4 as [H4| ->].
    + apply lang_seq_inv in H4 as (p & q & -> & _ & H4). apply lang_digits in H4 as (u & d & -> & Hd). exists (b ++ x1 ++ x2 ++ x3 ++ p ++ u), d, x5, "%", after. split; [rewrite !app_assoc_s; reflexivity|]. auto.
    + apply lang_digits in H3 as (u & d & -> & Hd). exists (b ++ x1 ++ x2 ++ u), d, x5, "%", after. split; [rewrite !app_assoc_s; reflexivity|]. auto.
  - intros (b & d & x & m & after & -> & Hd & Hx & ->). exists b, (String d (x ++ "%")), after. split; [cbn; rewrite app_assoc_s; reflexivity|].
    rewrite lang_seq_inv. exists "", (String d (x ++ "%")). split; [reflexivity|]. split; [apply lang_sign_none|]. rewrite lang_seq_inv. exists "", (String d (x ++ "%")). split; [reflexivity|]. split; [apply lang_space; left; reflexivity|].
    rewrite lang_seq_inv. exists (String d ""), (x ++ "%"). split; [reflexivity|]. split; [apply lang_digit; exact Hd|]. rewrite lang_seq_inv. exists "", (x ++ "%"). split; [reflexivity|]. split; [apply lang_opt_inv; auto|]. rewrite lang_seq_inv. exists x, "%". split; [reflexivity|]. split; [apply lang_space; exact Hx|]. apply lang_lit; reflexivity.
Qed.
Lemma atm_spec (s : string) : re_search atm_quote s = true <-> atm_column s.
Proof.
  rewrite re_search_spec. unfold atm_quote, atm_column. split.
  - intros (b & m & after & -> & H). apply lang_seq_inv in H as (a & y1 & -> & Ha & H). apply lang_seq_inv in H as (g & y2 & -> & Hg & H). apply lang_seq_inv in H as (t & y3 & -> & Ht & H). apply lang_seq_inv in H as (h & y4 & -> & Hh & H). apply lang_seq_inv in H as (z & y5 & -> & Hz & H). clear H.
    rewrite lang_alt_inv, !lang_lit in Ha, Ht, Hz by reflexivity. apply lang_gap in Hg. apply lang_gap in Hh. destruct Hz as [Hz|Hz].
    + exists b, a, g, t, h, z, (y5 ++ after). rewrite !app_assoc_s. auto 10.
    + apply lower_cons_inv in Hz as (c & z' & -> & Ec & _). exists b, a, g, t, h, (String c ""), (z' ++ y5 ++ after). split; [rewrite !app_assoc_s; reflexivity|]. cbn. rewrite Ec. auto 10.
  - intros (b & a & g & t & h & z & after & -> & Ha & Hg & Ht & Hh & Hz). exists b, (a ++ g ++ t ++ h ++ z), after. split; [rewrite !app_assoc_s; reflexivity|].
    rewrite lang_seq_inv. exists a, (g ++ t ++ h ++ z). split; [reflexivity|]. split; [rewrite lang_alt_inv, !lang_lit by reflexivity; exact Ha|]. rewrite lang_seq_inv. exists g, (t ++ h ++ z). split; [reflexivity|]. split; [apply lang_gap; exact Hg|].
    rewrite lang_seq_inv. exists t, (h ++ z). split; [reflexivity|]. split; [rewrite lang_alt_inv, !lang_lit by reflexivity; exact Ht|]. rewrite lang_seq_inv. exists h, z. split; [reflexivity|]. split; [apply lang_gap; exact Hh|].
    rewrite lang_seq_inv. exists z, "". split; [symmetry; apply app_nil_s|]. split; [rewrite lang_alt_inv, !lang_lit by reflexivity; auto|]. rewrite lang_seq_inv. exists "", "". split; [reflexivity|]. split; [apply lang_gap; left; reflexivity|]. apply lang_opt_inv. auto.
Qed.
