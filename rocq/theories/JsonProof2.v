(** stod of a number in scientific format; characters, tokens. *)
From Coq Require Import List ZArith QArith Qabs Qround Qpower Bool String Ascii Lia Lqa.
From Verif Require Import TextModel TextProof TextProof2 PresolveModel JsonModel JsonSpec JsonProof.
Import ListNotations.
Local Open Scope Z_scope.
Local Notation "a +++ b" := (append a b) (at level 60, right associativity).

Lemma span_grows s : forall acc k, k <= snd (fst (span_digits s acc k)).
Proof. induction s as [|c s IH]; intros acc k; cbn [span_digits fst snd]; [lia|]. destruct (digit_of c) as [d|]; cbn [fst snd]; [|lia]. specialize (IH (10 * acc + d) (k + 1)). lia. Qed.
Definition in_range (q : Q) : bool := Qeq_bool q 0 || negb (Qle_bool HUGE (Qabs q) || negb (Qle_bool TINY (Qabs q))).
Lemma stod_number t neg c u q : split_sign t = (neg, String c (String "." u)) -> is_digit c = true -> skip_space t = t -> atof t = Some q -> in_range q = true ->
  stod t = Ok (JReal q).
Proof.
  intros Sg D Sk A R. unfold stod. rewrite Sk, Sg, A. assert (F : starts_with "inf" (String c (String "." u)) || starts_with "nan" (String c (String "." u)) || starts_with "0x" (String c (String "." u)) = false).
  { revert D. destruct c as [[] [] [] [] [] [] [] []]; vm_compute; congruence. }
  rewrite F. unfold is_digit in D. destruct (digit_of c) as [d|] eqn:Ed; [|discriminate]. cbn [span_digits]. rewrite Ed. change (digit_of "."%char) with (@None Z). cbv iota beta.
  change (after_point (String "." u) (10 * 0 + d)) with (span_digits u (10 * 0 + d) 0). pose proof (span_grows u (10 * 0 + d) 0) as G.
  destruct (span_digits u (10 * 0 + d) 0) as [[m kf] r]. cbn [fst snd] in G. rewrite (proj2 (Z.eqb_neq (0 + 1 + kf) 0)) by lia.
  unfold in_range in R. destruct (Qeq_bool q 0); [reflexivity|]. cbn [orb] in R. now destruct (Qle_bool HUGE (Qabs q) || negb (Qle_bool TINY (Qabs q))).
Qed.
Lemma safe_no_space s : (forall c, In c (list_ascii_of_string s) -> is_space c = false) -> skip_space s = s.
Proof. destruct s as [|c s]; [reflexivity|]. intros H. cbn. now rewrite (H c (or_introl eq_refl)). Qed.
Lemma sci_first d x : exists c u, sci_body d x = String c (String "." u) /\ is_digit c = true.
Proof.
  unfold sci_body. pose proof (fixed_digits_digits 1 (d / 10 ^ 6)) as D. pose proof (fixed_length 1 (d / 10 ^ 6)) as L.
  destruct (fixed_digits 1 (d / 10 ^ 6)) as [|c [|c' s]]; [discriminate| |discriminate]. unfold digits in D. cbn in D. rewrite andb_true_r in D.
  cbn [append]. eexists c, _. split; [reflexivity|exact D].
Qed.
Lemma tiny_small : (TINY <= decimal (-300) * (1 # 2))%Q. Proof. apply Qle_bool_imp_le. vm_compute. reflexivity. Qed.
Lemma huge_big : (decimal 300 * 2 < HUGE)%Q. Proof. apply Qnot_le_lt. intros H. apply Qle_bool_iff in H. vm_compute in H. discriminate. Qed.
Lemma range_kept q r : (q == 0 \/ decimal (-300) <= Qabs q <= decimal 300)%Q -> rounded q r -> in_range r = true.
Proof.
  intros H [R1 R2]. unfold in_range. destruct (Qeq_bool r 0) eqn:E; [reflexivity|]. apply Qeq_bool_neq in E. cbn [orb].
  destruct H as [H|[H1 H2]]; [exfalso; apply E; rewrite (R2 0 0); [exact H|rewrite H; reflexivity|reflexivity]|].
  pose proof tiny_small as T. pose proof huge_big as B. assert (A : (Qabs q <= Qabs r + Qabs (r - q))%Q).
  { setoid_replace q with (r + - (r - q))%Q at 1 by ring. apply Qle_trans with (Qabs r + Qabs (- (r - q)))%Q; [apply Qabs_triangle|]. rewrite Qabs_opp. apply Qle_refl. }
  assert (A' : (Qabs r <= Qabs q + Qabs (r - q))%Q).
  { setoid_replace r with (q + (r - q))%Q at 1 by ring. apply Qabs_triangle. }
  pose proof (Qabs_nonneg q) as N. generalize dependent TINY. intros ti T. generalize dependent HUGE. intros hu B.
  generalize dependent (decimal (-300)). intros lo H1 T. generalize dependent (decimal 300). intros hi H2 B.
  generalize dependent (Qabs (r - q)). intros dd R1 A A'.
  assert (L1 : (ti <= Qabs r)%Q) by lra. assert (L2 : (Qabs r < hu)%Q) by lra.
  rewrite (proj2 (Qle_bool_iff _ _) L1). destruct (Qle_bool hu (Qabs r)) eqn:C; [|reflexivity]. apply Qle_bool_iff in C. lra.
Qed.
Lemma sci_nospace q : skip_space (print_sci q) = print_sci q.
Proof.
  destruct (sci_shape q) as [-> | (neg & d & x & ->)]; [reflexivity|]. destruct (sci_first d x) as (c & u & -> & D). destruct neg; cbn [signed]; [reflexivity|].
  cbn. destruct (digit_facts c D) as (_ & _ & _ & _ & _ & _ & _ & _ & _ & _ & _ & E). now rewrite E.
Qed.
Lemma sci_sign q : exists neg c u, split_sign (print_sci q) = (neg, String c (String "." u)) /\ is_digit c = true.
Proof.
  destruct (sci_shape q) as [-> | (neg & d & x & ->)]; [exists false; eexists _, _; split; reflexivity|]. destruct (sci_first d x) as (c & u & -> & D).
  exists neg, c, u. split; [|exact D]. destruct neg; cbn [signed]; [reflexivity|]. destruct (digit_facts c D) as (E1 & E2 & _). cbn [split_sign]. now rewrite E1, E2.
Qed.
Lemma stod_sci q : (q == 0 \/ decimal (-300) <= Qabs q <= decimal 300)%Q -> exists r, stod (print_sci q) = Ok (JReal r) /\ rounded q r.
Proof.
  intros H. destruct (sci_reads_back q) as (r & R1 & R2). exists r. split; [|exact R2]. destruct (sci_sign q) as (neg & c & u & Sg & D).
  exact (stod_number _ neg c u r Sg D (sci_nospace q) R1 (range_kept q r H R2)).
Qed.
Lemma sci_not_integer q : is_integer (print_sci q) = false.
Proof.
  destruct (sci_shape q) as [-> | (neg & d & x & ->)]; [reflexivity|]. destruct (sci_first d x) as (c & u & -> & D). destruct neg; cbn [signed]; [|now cbn; rewrite andb_false_r].
  change (is_integer (append "-" (String c (String "." u)))) with (all_digits (String c (String "." u))). cbn. destruct (digit_of c); reflexivity.
Qed.
Definition number_start (t : string) : Prop := match t with String c _ => is_digit c = true \/ c = "-"%char | EmptyString => False end.
Lemma sci_start q : number_start (print_sci q).
Proof.
  destruct (sci_shape q) as [-> | (neg & d & x & ->)]; [left; reflexivity|]. destruct (sci_first d x) as (c & u & -> & D). destruct neg; cbn; [now right|now left].
Qed.
Lemma int_start z : number_start (print_int z).
Proof.
  unfold print_int. destruct (z <? 0); cbn; [now right|]. pose proof (fixed_digits_digits (ndigits z) z) as D.
  destruct (fixed_digits (ndigits z) z) as [|c s] eqn:E; [apply fixed_nonempty in E; [exact E|apply ndigits_pos]|]. unfold digits in D. cbn in D. apply andb_prop in D. left. tauto.
Qed.
Lemma scalar_number a t : number_start t -> scalar a t = if is_integer t then bind (stoi t) (fun z => Ok (JInt KInt z)) else stod t.
Proof.
  destruct t as [|c t]; [intros []|]. intros H.
  assert (F : Ascii.eqb c QUOTE = false /\ c <> "n"%char /\ c <> "t"%char /\ c <> "f"%char).
  { destruct H as [H| ->]; [|repeat split; discriminate]. split; [destruct c as [[] [] [] [] [] [] [] []]; try reflexivity; discriminate H|]. repeat split; intros E; subst; discriminate H. }
  destruct F as (F1 & F2 & F3 & F4). cbn [scalar]. rewrite F1.
  assert (E : forall c0 s, c <> c0 -> String.eqb (String c t) (String c0 s) = false). { intros c0 s N. apply String.eqb_neq. congruence. }
  rewrite !E by assumption. reflexivity.
Qed.

(** ** Tokens *)
Definition bad_char (c : ascii) : bool := existsb (Ascii.eqb c) unsafe.
Lemma plain_chars s : plain s <-> all_chars (fun c => negb (bad_char c)) s = true.
Proof.
  unfold plain, bad_char. induction s as [|c s IH]; [split; [reflexivity|intros _ n c H; destruct n; discriminate]|]. cbn [all_chars]. split.
  - intros H. apply andb_true_intro. split; [|apply IH; intros n d G; exact (H (S n) d G)]. apply negb_true_iff. destruct (existsb (Ascii.eqb c) unsafe) eqn:E; [|reflexivity].
    apply existsb_exists in E. destruct E as (d & D1 & D2). apply Ascii.eqb_eq in D2. subst d. exfalso. exact (H 0%nat c eq_refl D1).
  - intros H. apply andb_prop in H. destruct H as [H1 H2]. intros [|n] d G I; [|exact (proj2 IH H2 n d G I)]. injection G as <-. apply negb_true_iff in H1.
    assert (existsb (Ascii.eqb c) unsafe = true); [|congruence]. apply existsb_exists. exists c. split; [exact I|apply Ascii.eqb_refl].
Qed.
Lemma join_app a b : join_lines (a +++ b) = join_lines a +++ join_lines b.
Proof. induction a as [|c a IH]; [reflexivity|]. cbn [append join_lines]. rewrite IH. destruct (Ascii.eqb c LF); reflexivity. Qed.
Lemma expand_app a b : expand (a +++ b) = expand a +++ expand b.
Proof. induction a as [|c a IH]; [reflexivity|]. cbn [append expand]. rewrite IH, app_assoc'. reflexivity. Qed.
Lemma join_no_lf s : all_chars (fun c => negb (Ascii.eqb c LF)) (join_lines s) = true.
Proof. induction s as [|c s IH]; [reflexivity|]. cbn [join_lines]. destruct (Ascii.eqb c LF) eqn:E; [exact IH|]. cbn [all_chars]. now rewrite E. Qed.
Lemma crlf_none s : all_chars (fun c => negb (Ascii.eqb c LF)) s = true -> strip_crlf s = s.
Proof.
  induction s as [|c s IH]; [reflexivity|]. cbn [all_chars]. intros H. apply andb_prop in H. destruct H as [_ H]. cbn [strip_crlf].
  destruct s as [|d s]; [reflexivity|]. rewrite (IH H). cbn [all_chars] in H. apply andb_prop in H. destruct H as [H _]. apply negb_true_iff in H. rewrite H, andb_false_r. reflexivity.
Qed.
Lemma join_id s : all_chars (fun c => negb (Ascii.eqb c LF)) s = true -> join_lines s = s.
Proof. induction s as [|c s IH]; [reflexivity|]. cbn [all_chars join_lines]. intros H. apply andb_prop in H. destruct H as [H1 H2]. apply negb_true_iff in H1. rewrite H1, (IH H2). reflexivity. Qed.
Lemma expand_id s : all_chars (fun c => negb (existsb (Ascii.eqb c) [","; ":"; "{"; "}"; "["; "]"]%char)) s = true -> expand s = s.
Proof.
  induction s as [|c s IH]; [reflexivity|]. cbn [all_chars expand]. intros H. apply andb_prop in H. destruct H as [H1 H2]. rewrite (IH H2). apply negb_true_iff in H1.
  cbn [existsb] in H1. repeat (apply orb_false_elim in H1; let E := fresh "E" in destruct H1 as [E H1]). unfold expand_char. rewrite E, E0, E1, E2, E3, E4. reflexivity.
Qed.
Lemma all_impl (p q : ascii -> bool) s : (forall c, p c = true -> q c = true) -> all_chars p s = true -> all_chars q s = true.
Proof. intros H. induction s as [|c s IH]; [reflexivity|]. cbn. intros G. apply andb_prop in G. destruct G as [G1 G2]. now rewrite (H c G1), (IH G2). Qed.
Lemma safe_char_facts c : safe_char c = true -> Ascii.eqb c QUOTE = false /\ Ascii.eqb c LF = false /\ Ascii.eqb c " "%char = false /\ Ascii.eqb c TAB = false /\
  existsb (Ascii.eqb c) [","; ":"; "{"; "}"; "["; "]"]%char = false.
Proof.
  unfold safe_char. intros H. apply negb_true_iff in H. repeat (apply orb_false_elim in H; let E := fresh "E" in destruct H as [H E]). cbn [existsb].
  rewrite H, E, E0, E1, E2, E3, E4, E5, E6, E7. repeat split; reflexivity.
Qed.
Lemma bad_char_facts c : negb (bad_char c) = true -> Ascii.eqb c QUOTE = false /\ Ascii.eqb c LF = false /\
  existsb (Ascii.eqb c) [","; ":"; "{"; "}"; "["; "]"]%char = false.
Proof.
  intros H. apply negb_true_iff in H. unfold bad_char, unsafe in H. cbn [existsb] in *. apply orb_false_elim in H. destruct H as [H1 H]. apply orb_false_elim in H. destruct H as [H2 H].
  repeat split; assumption.
Qed.
Definition space_start (s : string) : Prop := match s with EmptyString => True | String c _ => c = " "%char end.
Lemma split_cur w rest : forall cur, all_chars safe_char w = true -> space_start rest -> (w <> EmptyString \/ cur <> None) ->
  split_tokens (w +++ rest) cur false = (match cur with Some v => v | None => EmptyString end +++ w) :: split_tokens rest None false.
Proof.
  induction w as [|c w IH]; intros cur H S N.
  - cbn [append]. destruct cur as [v|]; [|destruct N; congruence]. rewrite app_nil'. destruct rest as [|d r]; [reflexivity|]. cbn in S. subst d. reflexivity.
  - cbn in H. apply andb_prop in H. destruct H as [H1 H2]. destruct (safe_char_facts c H1) as (F1 & F2 & F3 & F4 & _). cbn [append split_tokens]. rewrite F1, F3, F4. cbn [orb].
    rewrite (IH (Some _) H2 S) by (right; discriminate). cbn [append]. rewrite app_assoc'. reflexivity.
Qed.
Lemma split_word_token w rest : safe w -> space_start rest -> split_tokens (w +++ rest) None false = w :: split_tokens rest None false.
Proof. intros [W1 W2] S. rewrite (split_cur w rest None W2 S); [reflexivity|now left]. Qed.
Lemma split_quoted s rest : forall v, all_chars (fun c => negb (bad_char c)) s = true -> space_start rest ->
  split_tokens (s +++ String QUOTE rest) (Some v) true = (v +++ (s +++ String QUOTE EmptyString)) :: split_tokens rest None false.
Proof.
  induction s as [|c s IH]; intros v H S.
  - cbn [append]. destruct rest as [|d r]; [reflexivity|]. cbn in S. subst d. reflexivity.
  - cbn in H. apply andb_prop in H. destruct H as [H1 H2]. destruct (bad_char_facts c H1) as (F1 & F2 & F3). cbn [append split_tokens]. rewrite F1.
    destruct (Ascii.eqb c " " || Ascii.eqb c TAB); rewrite (IH _ H2 S), app_assoc'; reflexivity.
Qed.
Lemma split_quoted_token s rest : all_chars (fun c => negb (bad_char c)) s = true -> space_start rest -> split_tokens (quoted s +++ rest) None false = quoted s :: split_tokens rest None false.
Proof.
  intros H S. unfold quoted. change (String QUOTE (s +++ String QUOTE "") +++ rest) with (String QUOTE ((s +++ String QUOTE "") +++ rest)). rewrite app_assoc'.
  cbn [append split_tokens]. change (Ascii.eqb QUOTE QUOTE) with true. change (Ascii.eqb QUOTE " " || Ascii.eqb QUOTE TAB) with false. cbv iota zeta. cbn [negb].
  rewrite (split_quoted s rest _ H S). reflexivity.
Qed.
Lemma inner_quoted s : inner_text (quoted s) = s.
Proof. unfold quoted, inner_text. induction s as [|c s IH]; [reflexivity|]. cbn [append drop_last]. destruct (s +++ String QUOTE "") eqn:E; [destruct s; discriminate|]. now rewrite IH. Qed.
Lemma indent_spaces n rest : split_tokens (indent n +++ rest) None false = split_tokens rest None false.
Proof. induction n as [|n IH]; [reflexivity|]. cbn [indent]. rewrite app_assoc'. cbn. exact IH. Qed.
Lemma indent_chars n : all_chars (fun c => Ascii.eqb c " "%char) (indent n) = true.
Proof. induction n as [|n IH]; [reflexivity|]. cbn [indent]. rewrite all_app, IH. reflexivity. Qed.
