(** Six decimals; the tokens of the text and their parsing. *)
From Coq Require Import List ZArith QArith Qabs Qround Qpower Bool String Ascii Lia Lqa.
From Verif Require Import TextModel TextProof TextProof2 PresolveModel JsonModel JsonSpec JsonProof JsonProof2 JsonProof3 JsonProof4 JsonProof5 VariableSpec ArraySpec ArrayProof ReportModel ReportSpec ReportProof.
Import ListNotations.
Local Open Scope Z_scope.
Local Notation "a +++ b" := (append a b) (at level 60, right associativity).

(** ** std::to_string(double) *)
Definition fixed_body (n : Z) : string := fixed_digits (ndigits (n / 10 ^ 6)) (n / 10 ^ 6) +++ (("." +++ fixed_digits 6 (n mod 10 ^ 6)) +++ EmptyString).
Lemma fixed_shape q : print_fixed q = signed (Qnum q <? 0) (fixed_body (round_half_even (Qabs q * pow10 6))).
Proof. reflexivity. Qed.
Lemma fixed_body_value neg n : 0 <= n -> exists r, atof (signed neg (fixed_body n)) = Some r /\ (r == (if neg then - (inject_Z n * (1 # 1000000)) else inject_Z n * (1 # 1000000)))%Q.
Proof.
  intros Hn. unfold fixed_body. set (s := fixed_digits 6 (n mod 10 ^ 6)).
  assert (Ds : digits s = true) by apply fixed_digits_digits.
  pose proof (point_digits s Ds) as F. assert (Ls : Z.of_nat (String.length s) = 6) by (unfold s; now rewrite fixed_length). rewrite Ls in F.
  pose proof (atof_body neg (fixed_digits (ndigits (n / 10 ^ 6)) (n / 10 ^ 6)) ("." +++ s) EmptyString (dval s 0) 6 0) as A. unfold body in A. rewrite A; clear A.
  2: apply fixed_digits_digits. 2: apply fixed_nonempty, ndigits_pos. 2: exact F. 2: lia. 2: right; now exists s. 2: exact Logic.I. 2: exact Logic.I. 2: discriminate. 2: reflexivity.
  eexists. split; [reflexivity|]. cbv zeta. assert (P : 0 <= n / 10 ^ 6) by (apply Z.div_pos; lia).
  assert (V : dval (fixed_digits (ndigits (n / 10 ^ 6)) (n / 10 ^ 6)) 0 * 10 ^ 6 + dval s 0 = n).
  { unfold s. rewrite (print_value _ 0 P). rewrite fixed_value by (apply Z.mod_pos_bound; lia). change (10 ^ Z.of_nat 6) with (10 ^ 6). rewrite Z.mod_mod by lia. pose proof (Z.div_mod n (10 ^ 6) ltac:(lia)). lia. }
  rewrite V. change (pow10 (0 - 6)) with (1 # 1000000)%Q. destruct neg; reflexivity.
Qed.
Lemma six_of q r : (r == (if Qnum q <? 0 then - (inject_Z (round_half_even (Qabs q * pow10 6)) * (1 # 1000000)) else inject_Z (round_half_even (Qabs q * pow10 6)) * (1 # 1000000)))%Q -> six q r.
Proof.
  intros R. destruct (round_spec (Qabs q * pow10 6)) as (A & _ & B). set (d := round_half_even _) in *. change (pow10 6) with 1000000%Q in *. pose proof (qabs_sign q) as Sg.
  assert (C : (Qabs (inject_Z d * (1 # 1000000) - Qabs q) <= 1 # 2000000)%Q).
  { setoid_replace (inject_Z d * (1 # 1000000) - Qabs q)%Q with ((inject_Z d - Qabs q * 1000000) * (1 # 1000000))%Q by field. rewrite Qabs_Qmult. change (Qabs (1 # 1000000)) with (1 # 1000000)%Q. lra. }
  assert (D : forall k, (Qabs q == inject_Z k * (1 # 1000000))%Q -> (inject_Z d * (1 # 1000000) == Qabs q)%Q).
  { intros k H. rewrite (B k); [symmetry; exact H|]. rewrite H. field. }
  destruct (Qnum q <? 0); split.
  - rewrite R. setoid_replace (- (inject_Z d * (1 # 1000000)) - q)%Q with (- (inject_Z d * (1 # 1000000) - Qabs q))%Q by (rewrite Sg; ring). rewrite Qabs_opp. exact C.
  - intros k H. rewrite R, (D (- k)); [rewrite Sg; ring|]. rewrite Sg, H, inject_Z_opp. ring.
  - rewrite R. setoid_replace (inject_Z d * (1 # 1000000) - q)%Q with (inject_Z d * (1 # 1000000) - Qabs q)%Q by (rewrite Sg; ring). exact C.
  - intros k H. rewrite R, (D k); [exact Sg|]. rewrite Sg. exact H.
Qed.
Lemma round_nonneg q : 0 <= round_half_even (Qabs q * pow10 6).
Proof.
  destruct (round_spec (Qabs q * pow10 6)) as (_ & A & _). assert (0 <= Qfloor (Qabs q * pow10 6)); [|lia]. change 0 with (Qfloor 0). apply Qfloor_resp_le. pose proof (Qabs_nonneg q). change (pow10 6) with 1000000%Q. lra.
Qed.
Lemma fixed_reads_back q : exists r, atof (print_fixed q) = Some r /\ six q r /\ (r == (if Qnum q <? 0 then - (inject_Z (round_half_even (Qabs q * pow10 6)) * (1 # 1000000)) else inject_Z (round_half_even (Qabs q * pow10 6)) * (1 # 1000000)))%Q.
Proof. rewrite fixed_shape. destruct (fixed_body_value (Qnum q <? 0) _ (round_nonneg q)) as (r & R1 & R2). exists r. split; [exact R1|]. split; [now apply six_of|exact R2]. Qed.
Lemma decimal_int : (decimal 300 * 1000000 == inject_Z (10 ^ 306))%Q. Proof. apply Qeq_bool_eq. vm_compute. reflexivity. Qed.
Lemma round_bound q : (Qabs q <= decimal 300)%Q -> (Qabs (inject_Z (round_half_even (Qabs q * pow10 6)) * (1 # 1000000)) <= decimal 300)%Q.
Proof.
  intros H. pose proof decimal_int as D. pose proof (round_nonneg q) as N. destruct (round_spec (Qabs q * pow10 6)) as (_ & A & B). change (pow10 6) with 1000000%Q in *. set (d := round_half_even _) in *.
  assert (L : d <= 10 ^ 306).
  { destruct (Qlt_le_dec (Qabs q * 1000000) (inject_Z (10 ^ 306))) as [S|S].
    - assert (Qfloor (Qabs q * 1000000) < 10 ^ 306); [|lia]. rewrite Zlt_Qlt. apply Qle_lt_trans with (Qabs q * 1000000)%Q; [apply Qfloor_le|exact S].
    - rewrite (B (10 ^ 306)); [lia|]. apply Qle_antisym; [|exact S]. rewrite <- D. apply Qmult_le_compat_r; [exact H|]. discriminate. }
  rewrite Qabs_pos by (apply Qmult_le_0_compat; [change 0%Q with (inject_Z 0); rewrite <- Zle_Qle; exact N|discriminate]).
  apply Qle_trans with (inject_Z (10 ^ 306) * (1 # 1000000))%Q; [apply Qmult_le_compat_r; [rewrite <- Zle_Qle; exact L|discriminate]|]. rewrite <- D. generalize (decimal 300). intros x. lra.
Qed.
Lemma small_millionth : (decimal (-300) <= 1 # 1000000)%Q. Proof. apply Qle_bool_imp_le. vm_compute. reflexivity. Qed.
Lemma fixed_storable q r : (Qabs q <= decimal 300)%Q -> (r == (if Qnum q <? 0 then - (inject_Z (round_half_even (Qabs q * pow10 6)) * (1 # 1000000)) else inject_Z (round_half_even (Qabs q * pow10 6)) * (1 # 1000000)))%Q ->
  (r == 0 \/ decimal (-300) <= Qabs r <= decimal 300)%Q.
Proof.
  intros H R. pose proof (round_bound q H) as Bd. pose proof (round_nonneg q) as N. set (d := round_half_even _) in *. assert (E : (Qabs r == Qabs (inject_Z d * (1 # 1000000)))%Q) by (rewrite R; destruct (Qnum q <? 0); [apply Qabs_opp|reflexivity]).
  destruct (Z.eq_dec d 0) as [D0|D0]; [left; rewrite R, D0; destruct (Qnum q <? 0); reflexivity|]. right. rewrite E. split; [|exact Bd].
  apply Qle_trans with (1 # 1000000)%Q; [exact small_millionth|]. assert (L : (1 <= inject_Z d)%Q) by (change 1%Q with (inject_Z 1); rewrite <- Zle_Qle; lia). rewrite Qabs_pos; lra.
Qed.
Lemma plain_range r : (r == 0 \/ decimal (-300) <= Qabs r <= decimal 300)%Q -> JsonProof2.in_range r = true.
Proof. intros H. apply (range_kept r r H). split; [|reflexivity]. setoid_replace (r - r)%Q with 0%Q by ring. change (Qabs 0) with 0%Q. pose proof (Qabs_nonneg r). lra. Qed.
Lemma first_digit s : digits s = true -> s <> EmptyString -> exists c u, s = String c u /\ is_digit c = true /\ digits u = true.
Proof. intros D N. destruct s as [|c u]; [congruence|]. unfold digits in *. cbn in D. apply andb_prop in D. exists c, u. tauto. Qed.
Lemma fixed_first n : exists c u, fixed_body n = String c u /\ is_digit c = true.
Proof. destruct (first_digit _ (fixed_digits_digits (ndigits (n / 10 ^ 6)) (n / 10 ^ 6)) (fixed_nonempty _ _ (ndigits_pos _))) as (c & u & E & D & _). unfold fixed_body. rewrite E. cbn [append]. eexists c, _. split; [reflexivity|exact D]. Qed.
Lemma stod_fixed_body t neg n q : split_sign t = (neg, fixed_body n) -> skip_space t = t -> atof t = Some q -> JsonProof2.in_range q = true -> stod t = Ok (JReal q).
Proof.
  intros Sg Sk A R. unfold stod. rewrite Sk, Sg, A. destruct (fixed_first n) as (c & u & E & D). assert (F : starts_with "inf" (fixed_body n) || starts_with "nan" (fixed_body n) || starts_with "0x" (fixed_body n) = false).
  { assert (G : starts_with "inf" (fixed_body n) || starts_with "nan" (fixed_body n) = false) by (rewrite E; revert D; clear; destruct c as [[] [] [] [] [] [] [] []]; vm_compute; congruence). rewrite G. cbn [orb].
    unfold fixed_body in E |- *. set (k := ndigits (n / 10 ^ 6)) in *. pose proof (fixed_digits_digits k (n / 10 ^ 6)) as Ds. pose proof (fixed_nonempty k (n / 10 ^ 6) (ndigits_pos _)) as Nn. destruct (fixed_digits k (n / 10 ^ 6)) as [|a [|b w]]; [congruence| |].
    - cbn [append starts_with]. destruct (Ascii.eqb "0" (lower a)); reflexivity.
    - unfold digits in Ds. cbn in Ds. apply andb_prop in Ds. destruct Ds as [_ Ds]. apply andb_prop in Ds. destruct Ds as [Ds _]. cbn [append starts_with]. destruct (Ascii.eqb "0" (lower a)); [|reflexivity]. cbn [andb]. revert Ds. clear. destruct b as [[] [] [] [] [] [] [] []]; vm_compute; congruence. }
  rewrite F. unfold fixed_body at 1. set (s := fixed_digits (ndigits (n / 10 ^ 6)) (n / 10 ^ 6)). rewrite span_app by apply fixed_digits_digits. rewrite span_stop by reflexivity.
  change (after_point (("." +++ fixed_digits 6 (n mod 10 ^ 6)) +++ EmptyString) (dval s 0)) with (span_digits (fixed_digits 6 (n mod 10 ^ 6) +++ EmptyString) (dval s 0) 0).
  pose proof (span_grows (fixed_digits 6 (n mod 10 ^ 6) +++ EmptyString) (dval s 0) 0) as G. destruct (span_digits (fixed_digits 6 (n mod 10 ^ 6) +++ EmptyString) (dval s 0) 0) as [[m kf] r]. cbn [fst snd] in G.
  assert (Ls : (1 <= String.length s)%nat) by (unfold s; rewrite fixed_length; apply ndigits_pos). rewrite (proj2 (Z.eqb_neq (0 + Z.of_nat (String.length s) + kf) 0)) by lia.
  unfold JsonProof2.in_range in R. destruct (Qeq_bool q 0); [reflexivity|]. cbn [orb] in R. now destruct (Qle_bool HUGE (Qabs q) || negb (Qle_bool TINY (Qabs q))).
Qed.
Lemma fixed_scalar a q : (Qabs q <= decimal 300)%Q -> exists r, scalar a (print_fixed q) = Ok (JReal r) /\ six q r /\ (r == 0 \/ decimal (-300) <= Qabs r <= decimal 300)%Q.
Proof.
  intros H. destruct (fixed_reads_back q) as (r & R1 & R2 & R3). exists r. pose proof (fixed_storable q r H R3) as St. split; [|now split]. rewrite fixed_shape in *. set (n := round_half_even _) in *. destruct (fixed_first n) as (c & u & E & D).
  rewrite scalar_number by (destruct (Qnum q <? 0); cbn [signed]; [right; reflexivity|rewrite E; now left]).
  assert (I : is_integer (signed (Qnum q <? 0) (fixed_body n)) = false).
  { assert (K : all_digits (fixed_body n) = false) by (rewrite all_digits_eq; unfold fixed_body, digits; rewrite all_app; change (all_chars is_digit (("." +++ ?x) +++ EmptyString)) with false; apply andb_false_r).
    destruct (Qnum q <? 0); cbn [signed]; [exact K|]. rewrite E in *. cbn [is_integer]. cbn [all_digits] in K. unfold is_digit in D. destruct (digit_of c); [|discriminate]. exact K. }
  rewrite I. apply (stod_fixed_body _ (Qnum q <? 0) n); [| |exact R1|now apply plain_range].
  - destruct (Qnum q <? 0); cbn [signed]; [reflexivity|]. rewrite E. destruct (digit_facts c D) as (E1 & E2 & _). cbn [split_sign]. now rewrite E1, E2.
  - destruct (Qnum q <? 0); cbn [signed]; [reflexivity|]. rewrite E. cbn. destruct (digit_facts c D) as (_ & _ & _ & _ & _ & _ & _ & _ & _ & _ & _ & E'). now rewrite E'.
Qed.
Lemma fixed_safe q : safe (print_fixed q).
Proof.
  rewrite fixed_shape. set (n := round_half_even _). assert (S : all_chars safe_char (fixed_body n) = true).
  { unfold fixed_body. rewrite !all_app, (digits_safe (fixed_digits (ndigits _) _)), (digits_safe (fixed_digits 6 _)) by apply fixed_digits_digits. reflexivity. }
  destruct (Qnum q <? 0); cbn [signed]; split; [discriminate|rewrite all_app, S; reflexivity| |exact S]. destruct (fixed_first n) as (c & u & -> & _). discriminate.
Qed.
Lemma value_safe v : safe (value_text v). Proof. destruct v; [apply int_safe|apply fixed_safe]. Qed.
Lemma value_scalar v : sound_value v -> exists w, (forall a, scalar a (value_text v) = Ok w) /\ shown v w /\ storable true w.
Proof.
  destruct v as [z|q]; intros H; cbn [value_text shown].
  - exists (JInt KInt z). split; [intros a; now apply scalar_int|]. split; [reflexivity|]. split; [exact H|discriminate].
  - destruct (fixed_scalar true q H) as (r & R1 & R2 & R3). exists (JReal r). split; [|split; [now exists r|exact R3]]. intros a. destruct a; [exact R1|]. destruct (fixed_scalar false q H) as (r' & R1' & _). rewrite R1'. rewrite scalar_number in R1, R1'.
    + congruence.
    + rewrite fixed_shape. destruct (fixed_first (round_half_even (Qabs q * pow10 6))) as (c & u & E & D). destruct (Qnum q <? 0); cbn [signed]; [right; reflexivity|rewrite E; now left].
    + rewrite fixed_shape. destruct (fixed_first (round_half_even (Qabs q * pow10 6))) as (c & u & E & D). destruct (Qnum q <? 0); cbn [signed]; [right; reflexivity|rewrite E; now left].
Qed.
