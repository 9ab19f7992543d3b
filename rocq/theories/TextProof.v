(** Proofs about text: items of a line, reading and printing of numbers. *)
From Coq Require Import List ZArith QArith Qabs Qround Qpower Bool String Ascii Lia Lqa.
From Verif Require Import TextModel.
Import ListNotations.
Local Open Scope Z_scope.
Local Notation "a +++ b" := (append a b) (at level 60, right associativity).

(** ** Strings *)
Lemma app_assoc' a b c : (a +++ b) +++ c = a +++ (b +++ c).
Proof. induction a as [|x a IH]; cbn; [reflexivity|now rewrite IH]. Qed.
Lemma app_nil' a : a +++ EmptyString = a.
Proof. induction a as [|x a IH]; cbn; [reflexivity|now rewrite IH]. Qed.
Lemma length_app' a b : String.length (a +++ b) = (String.length a + String.length b)%nat.
Proof. induction a as [|x a IH]; cbn; [reflexivity|now rewrite IH]. Qed.

Fixpoint all_chars (p : ascii -> bool) (s : string) : bool :=
  match s with EmptyString => true | String c tl => p c && all_chars p tl end.
Lemma all_app p a b : all_chars p (a +++ b) = all_chars p a && all_chars p b.
Proof. induction a as [|x a IH]; cbn; [reflexivity|]. rewrite IH. now rewrite andb_assoc. Qed.

(** ** Items *)
Definition word (s : string) : Prop := s <> EmptyString /\ all_chars (fun c => negb (is_space c)) s = true.
Lemma split_word w t : forall cur, all_chars (fun c => negb (is_space c)) w = true -> split_items (w +++ t) cur = split_items t (cur +++ w).
Proof.
  induction w as [|c w IH]; intros cur H; cbn [append]; [now rewrite app_nil'|]. cbn in H. apply andb_prop in H. destruct H as [H1 H2].
  cbn [split_items]. destruct (is_space c); [discriminate|]. rewrite (IH _ H2), app_assoc'. reflexivity.
Qed.
Lemma word_nonempty w : word w -> is_empty w = false.
Proof. intros [H _]. destruct w; [congruence|reflexivity]. Qed.
Lemma split_word_space w c t : word w -> is_space c = true -> split_items (w +++ String c t) EmptyString = w :: split_items t EmptyString.
Proof. intros W S. rewrite split_word by apply W. cbn [append split_items]. rewrite S, (word_nonempty w W). reflexivity. Qed.
Lemma split_word_end w : word w -> split_items w EmptyString = [w].
Proof. intros W. rewrite <- (app_nil' w), split_word by apply W. cbn [append split_items]. rewrite app_nil', (word_nonempty w W). reflexivity. Qed.

(** ** Digits *)
Definition is_digit (c : ascii) : bool := match digit_of c with Some _ => true | None => false end.
Definition digits (s : string) : bool := all_chars is_digit s.
Fixpoint dval (s : string) (acc : Z) : Z :=
  match s with EmptyString => acc | String c tl => dval tl (10 * acc + match digit_of c with Some d => d | None => 0 end) end.
Lemma digit_char_of d : 0 <= d <= 9 -> digit_of (digit_char d) = Some d.
Proof.
  intros H. assert (C : d = 0 \/ d = 1 \/ d = 2 \/ d = 3 \/ d = 4 \/ d = 5 \/ d = 6 \/ d = 7 \/ d = 8 \/ d = 9) by lia.
  repeat (destruct C as [-> | C]; [reflexivity|]). subst; reflexivity.
Qed.
Lemma span_app s t : forall acc k, digits s = true -> span_digits (s +++ t) acc k = span_digits t (dval s acc) (k + Z.of_nat (String.length s)).
Proof.
  induction s as [|c s IH]; intros acc k H; [cbn; f_equal; lia|]. cbn in H. apply andb_prop in H. destruct H as [H1 H2].
  cbn [append span_digits dval]. unfold is_digit in H1. destruct (digit_of c) as [d|]; [|discriminate]. rewrite (IH _ _ H2). f_equal.
  cbn [String.length]. lia.
Qed.
Definition stops (t : string) : Prop := match t with EmptyString => True | String c _ => is_digit c = false end.
Lemma span_stop t acc k : stops t -> span_digits t acc k = (acc, k, t).
Proof. destruct t as [|c t]; cbn; [reflexivity|]. unfold is_digit. destruct (digit_of c); [discriminate|reflexivity]. Qed.
Lemma dval_app s t : forall acc, dval (s +++ t) acc = dval t (dval s acc).
Proof. induction s as [|c s IH]; intros acc; cbn; [reflexivity|apply IH]. Qed.
Lemma fixed_length k : forall m, String.length (fixed_digits k m) = k.
Proof. induction k as [|k IH]; intros m; cbn [fixed_digits]; [reflexivity|]. rewrite length_app', IH. cbn. lia. Qed.
Lemma fixed_digits_digits k : forall m, digits (fixed_digits k m) = true.
Proof.
  induction k as [|k IH]; intros m; cbn [fixed_digits]; [reflexivity|]. unfold digits. rewrite all_app. fold (digits (fixed_digits k (m / 10))). rewrite IH.
  cbn [all_chars andb]. unfold is_digit. rewrite digit_char_of; [reflexivity|]. pose proof (Z.mod_pos_bound m 10). lia.
Qed.
Lemma fixed_value k : forall m acc, 0 <= m -> dval (fixed_digits k m) acc = acc * 10 ^ Z.of_nat k + m mod 10 ^ Z.of_nat k.
Proof.
  induction k as [|k IH]; intros m acc Hm; cbn [fixed_digits]; [cbn [dval]; change (10 ^ Z.of_nat 0) with 1; rewrite Z.mod_1_r; lia|].
  rewrite dval_app, IH by (apply Z.div_pos; lia). cbn [dval]. rewrite digit_char_of by (pose proof (Z.mod_pos_bound m 10); lia).
  replace (10 ^ Z.of_nat (S k)) with (10 * 10 ^ Z.of_nat k) by (rewrite Nat2Z.inj_succ, Z.pow_succ_r; lia).
  rewrite (Z.rem_mul_r m 10 (10 ^ Z.of_nat k)) by (try lia; apply Z.pow_pos_nonneg; lia). lia.
Qed.
Lemma count_fuel f : forall m, 0 < m -> Z.log2 m <= Z.of_nat f -> 10 ^ (Z.of_nat (count_digits f m) - 1) <= m < 10 ^ Z.of_nat (count_digits f m).
Proof.
  induction f as [|f IH]; intros m Hm Hf; cbn [count_digits].
  { assert (m < 2) by (apply Z.log2_lt_cancel; cbn [Z.of_nat] in *; cbn; lia). assert (m = 1) by lia. subst. cbn. lia. }
  destruct (Z.ltb_spec m 10) as [H|H]; [cbn; lia|].
  assert (D : 0 < m / 10) by (apply Z.div_str_pos; lia).
  assert (L : Z.log2 (m / 10) <= Z.of_nat f).
  { assert (Z.log2 (m / 10) < Z.log2 m); [|lia]. apply Z.log2_lt_pow2; [exact D|].
    pose proof (Z.log2_spec m Hm) as [_ S]. rewrite Z.pow_succ_r in S by apply Z.log2_nonneg. apply Z.div_lt_upper_bound; lia. }
  specialize (IH _ D L). replace (Z.of_nat (S (count_digits f (m / 10))) - 1) with (Z.succ (Z.of_nat (count_digits f (m / 10)) - 1)) by lia.
  assert (G : (1 <= count_digits f (m / 10))%nat) by (destruct f; cbn; [lia|destruct (_ <? 10); lia]).
  rewrite Nat2Z.inj_succ, !Z.pow_succ_r by lia. pose proof (Z.div_mod m 10 ltac:(lia)). pose proof (Z.mod_pos_bound m 10 ltac:(lia)). lia.
Qed.
Lemma ndigits_spec m : 0 < m -> 10 ^ (Z.of_nat (ndigits m) - 1) <= m < 10 ^ Z.of_nat (ndigits m).
Proof. intros H. apply count_fuel; [exact H|]. rewrite Z2Nat.id; [lia|apply Z.log2_nonneg]. Qed.
Lemma ndigits_pos m : (1 <= ndigits m)%nat.
Proof. unfold ndigits. destruct (Z.to_nat (Z.log2 m)); cbn; [lia|destruct (_ <? 10); lia]. Qed.
Lemma ndigits_above m : 0 <= m -> m < 10 ^ Z.of_nat (ndigits m).
Proof. intros H. destruct (Z.eq_dec m 0) as [->|D]; [cbn; lia|]. apply ndigits_spec. lia. Qed.
Lemma print_value m acc : 0 <= m -> dval (fixed_digits (ndigits m) m) acc = acc * 10 ^ Z.of_nat (ndigits m) + m.
Proof. intros H. rewrite fixed_value by exact H. rewrite Z.mod_small; [reflexivity|]. split; [exact H|now apply ndigits_above]. Qed.

(** ** Reading a number that starts with a digit *)
Definition no_x (t : string) : Prop := match t with EmptyString => True | String c _ => c <> "x"%char /\ c <> "X"%char end.
Lemma digit_facts c : is_digit c = true ->
  Ascii.eqb c "-"%char = false /\ Ascii.eqb c "+"%char = false /\ Ascii.eqb c "i"%char = false /\ Ascii.eqb c "I"%char = false /\
  Ascii.eqb c "n"%char = false /\ Ascii.eqb c "N"%char = false /\ Ascii.eqb c "x"%char = false /\ Ascii.eqb c "X"%char = false /\
  Ascii.eqb c "."%char = false /\ Ascii.eqb c "e"%char = false /\ Ascii.eqb c "E"%char = false /\ is_space c = false.
Proof. destruct c as [[] [] [] [] [] [] [] []]; vm_compute; intuition congruence. Qed.
Lemma special_digits s t : digits s = true -> s <> EmptyString -> no_x t -> special_number (s +++ t) = false.
Proof.
  intros D N X. destruct s as [|c s]; [congruence|]. unfold digits in D. cbn in D. apply andb_prop in D. destruct D as [D1 D2].
  destruct (digit_facts c D1) as (_ & _ & E1 & E2 & E3 & E4 & _). cbn [append special_number]. rewrite E1, E2, E3, E4. cbn [orb].
  destruct (Ascii.eqb c "0"%char); [|reflexivity]. cbn [andb]. destruct s as [|d s]; cbn [append].
  - destruct t as [|d t]; [reflexivity|]. destruct X as [X1 X2]. rewrite (proj2 (Ascii.eqb_neq d _) X1), (proj2 (Ascii.eqb_neq d _) X2). reflexivity.
  - cbn in D2. apply andb_prop in D2. destruct D2 as [D2 _]. destruct (digit_facts d D2) as (_ & _ & _ & _ & _ & _ & E5 & E6 & _). now rewrite E5, E6.
Qed.
Lemma sign_digits s t : digits s = true -> s <> EmptyString -> split_sign (s +++ t) = (false, s +++ t).
Proof.
  intros D N. destruct s as [|c s]; [congruence|]. unfold digits in D. cbn in D. apply andb_prop in D. destruct D as [D1 _].
  destruct (digit_facts c D1) as (E1 & E2 & _). cbn [append split_sign]. now rewrite E1, E2.
Qed.

(** Unsigned body: digits, fraction part, exponent part. *)
Definition point_part (f : string) (fp kf : Z) : Prop :=
  forall ip t, stops t -> no_x t -> (forall c u, t = String c u -> c <> "."%char) ->
  exists m, after_point (f +++ t) ip = (m, kf, t) /\ m = ip * 10 ^ kf + fp.
Definition body (a f e : string) : string := a +++ (f +++ e).
Definition signed (neg : bool) (b : string) : string := if neg then append "-" b else b.
Lemma atof_body neg a f e fp kf x : digits a = true -> a <> EmptyString -> point_part f fp kf -> 0 <= kf -> (f = EmptyString \/ exists g, f = append "." g) ->
  stops e -> no_x e -> (forall c u, e = String c u -> c <> "."%char) -> exponent_of e = x ->
  atof (signed neg (body a f e)) = Some (let q := (inject_Z (dval a 0 * 10 ^ kf + fp) * pow10 (x - kf))%Q in if neg then (- q)%Q else q).
Proof.
  intros D N P K F S X E Hx. assert (Sp : split_sign (signed neg (body a f e)) = (neg, body a f e)).
  { destruct neg; cbn [signed]; [reflexivity|]. unfold body. apply sign_digits; assumption. }
  assert (Nx : no_x (f +++ e)) by (destruct F as [-> | [g ->]]; cbn; [exact X|split; discriminate]).
  assert (St : stops (f +++ e)) by (destruct F as [-> | [g ->]]; cbn; [exact S|reflexivity]).
  unfold atof. rewrite Sp. unfold body. rewrite special_digits by assumption.
  rewrite span_app by assumption. rewrite span_stop by assumption. destruct (P (dval a 0) e S X E) as (m & P1 & ->). rewrite P1.
  assert (L : 0 + Z.of_nat (String.length a) + kf =? 0 = false). { apply Z.eqb_neq. destruct a; [congruence|]. cbn [String.length]. lia. }
  rewrite L, Hx. reflexivity.
Qed.
Lemma no_point : point_part EmptyString 0 0.
Proof.
  intros ip t S X E. exists ip. split; [|rewrite Z.pow_0_r; lia]. cbn [append]. destruct t as [|c t]; [reflexivity|]. cbn [after_point].
  rewrite (proj2 (Ascii.eqb_neq c _) (E c t eq_refl)). reflexivity.
Qed.

(** ** print_int *)
Lemma fixed_nonempty k m : (1 <= k)%nat -> fixed_digits k m <> EmptyString.
Proof. intros H E. pose proof (fixed_length k m) as L. rewrite E in L. cbn in L. lia. Qed.
Lemma int_reads_back z : exists r, atof (print_int z) = Some r /\ (r == inject_Z z)%Q.
Proof.
  assert (G : forall neg m, 0 <= m -> exists r, atof (signed neg (fixed_digits (ndigits m) m)) = Some r /\ (r == inject_Z (if neg then - m else m))%Q).
  { intros neg m Hm. pose proof (atof_body neg (fixed_digits (ndigits m) m) EmptyString EmptyString 0 0 0) as A.
    unfold body in A. cbn [append] in A. rewrite app_nil' in A. rewrite A; [|apply fixed_digits_digits|apply fixed_nonempty, ndigits_pos|exact no_point|lia|now left|exact Logic.I|exact Logic.I|discriminate|reflexivity].
    eexists. split; [reflexivity|]. rewrite print_value by exact Hm. cbv zeta. unfold pow10. cbn [Z.sub Z.pow Z.opp Z.pow_pos Pos.iter Qpower Z.add].
    destruct neg; rewrite ?inject_Z_opp, Z.mul_0_l, Z.mul_1_r, Z.add_0_r, Z.add_0_l; ring. }
  unfold print_int. destruct (Z.ltb_spec z 0) as [H|H].
  - destruct (G true (- z) ltac:(lia)) as (r & R1 & R2). exists r. split; [exact R1|]. rewrite R2. now rewrite Z.opp_involutive.
  - destruct (G false z H) as (r & R1 & R2). exists r. split; [exact R1|exact R2].
Qed.
