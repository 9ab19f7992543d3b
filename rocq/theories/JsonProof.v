(** Numbers in scientific format are read back. *)
From Coq Require Import List ZArith QArith Qabs Qround Qpower Bool String Ascii Lia Lqa.
From Verif Require Import TextModel TextProof TextProof2 PresolveModel JsonModel JsonSpec.
Import ListNotations.
Local Open Scope Z_scope.
Local Notation "a +++ b" := (append a b) (at level 60, right associativity).

Lemma mantissa7_spec m : (0 < m)%Q -> let '(d, x) := mantissa7 m in
  1000000 <= d < 10000000 /\ (Qabs (inject_Z d * pow10 (x - 6) - m) <= m * (1 # 2000000))%Q /\
  (forall k e, (m == inject_Z k * pow10 e)%Q -> Z.abs k < 10000000 -> (inject_Z d * pow10 (x - 6) == m)%Q).
Proof.
  intros Hm. unfold mantissa7. destruct (decade_spec m Hm) as [D1 D2]. set (x := decade m) in *. set (s := (m * pow10 (6 - x))%Q).
  pose proof (pow10_pos (6 - x)) as P5. pose proof (pow10_pos (x - 6)) as P5'.
  assert (I5 : (pow10 (6 - x) * pow10 (x - 6) == 1)%Q) by (rewrite <- pow10_add; replace (6 - x + (x - 6)) with 0 by lia; reflexivity).
  assert (S1 : (inject_Z 1000000 <= s)%Q).
  { apply Qle_trans with (pow10 x * pow10 (6 - x))%Q; [rewrite <- pow10_add; replace (x + (6 - x)) with 6 by lia; apply Qle_refl|]. apply Qmult_le_r; assumption. }
  assert (S2 : (s < inject_Z 10000000)%Q).
  { apply Qlt_le_trans with (pow10 (x + 1) * pow10 (6 - x))%Q; [apply Qmult_lt_r; assumption|]. rewrite <- pow10_add. replace (x + 1 + (6 - x)) with 7 by lia. apply Qle_refl. }
  assert (Sm : (s * pow10 (x - 6) == m)%Q) by (unfold s; rewrite <- Qmult_assoc, I5; ring).
  destruct (round_spec s) as (R1 & R2 & R3). set (d := round_half_even s) in *.
  assert (F1 : 1000000 <= Qfloor s). { rewrite <- (Qfloor_Z 1000000). apply Qfloor_resp_le, S1. }
  assert (F2 : Qfloor s < 10000000). { rewrite Zlt_Qlt. apply Qle_lt_trans with s; [apply Qfloor_le|exact S2]. }
  assert (Er : (Qabs (inject_Z d * pow10 (x - 6) - m) <= m * (1 # 2000000))%Q).
  { setoid_replace (inject_Z d * pow10 (x - 6) - m)%Q with ((inject_Z d - s) * pow10 (x - 6))%Q by (rewrite <- Sm; ring).
    rewrite Qabs_Qmult, (Qabs_pos (pow10 (x - 6))) by lra. apply Qle_trans with ((1 # 2) * pow10 (x - 6))%Q; [apply Qmult_le_r; assumption|].
    setoid_replace (m * (1 # 2000000))%Q with (s * (1 # 2000000) * pow10 (x - 6))%Q by (rewrite <- Sm; ring). apply Qmult_le_r; [exact P5'|]. change (inject_Z 1000000) with 1000000%Q in S1. lra. }
  assert (Ex : forall k e, (m == inject_Z k * pow10 e)%Q -> Z.abs k < 10000000 -> (inject_Z d * pow10 (x - 6) == m)%Q).
  { intros k e E K. assert (Se : (s == inject_Z k * pow10 (e + (6 - x)))%Q) by (unfold s; rewrite E, pow10_add; ring).
    destruct (Z.lt_ge_cases (e + (6 - x)) 0) as [N|N].
    - exfalso. pose proof (pow10_lt_mono (e + (6 - x)) 0 N) as L. rewrite pow10_0 in L.
      assert (K2 : (inject_Z k < inject_Z 10000000)%Q) by (rewrite <- Zlt_Qlt; lia). pose proof (pow10_pos (e + (6 - x))) as Pp.
      assert (K3 : (inject_Z k * pow10 (e + (6 - x)) < inject_Z 10000000 * pow10 (e + (6 - x)))%Q) by (apply Qmult_lt_r; assumption).
      change (inject_Z 10000000) with 10000000%Q in *. change (inject_Z 1000000) with 1000000%Q in *. lra.
    - assert (Si : (s == inject_Z (k * 10 ^ (e + (6 - x))))%Q) by (rewrite Se, inject_Z_mult, pow10_Z by lia; reflexivity).
      rewrite (R3 _ Si), <- Si. exact Sm. }
  destruct (Z.eqb_spec d 10000000) as [E|E].
  - split; [lia|]. assert (V : (inject_Z 1000000 * pow10 (x + 1 - 6) == inject_Z d * pow10 (x - 6))%Q).
    { rewrite E. replace (x + 1 - 6) with (1 + (x - 6)) by lia. rewrite pow10_add. change (pow10 1) with 10%Q. change (inject_Z 10000000) with (10000000)%Q. change (inject_Z 1000000) with 1000000%Q. ring. }
    split; [rewrite V; exact Er|]. intros k e H1 H2. rewrite V. exact (Ex k e H1 H2).
  - split; [lia|]. split; [exact Er|exact Ex].
Qed.

Lemma point_digits s : digits s = true -> point_part ("." +++ s) (dval s 0) (Z.of_nat (String.length s)).
Proof.
  intros D ip r S X P. exists (dval s ip). split; [|apply dval_shift].
  change (("." +++ s) +++ r) with (String "." (s +++ r)). cbn [after_point]. change (Ascii.eqb "." ".") with true. cbv iota.
  rewrite span_app by exact D. rewrite span_stop by exact S. f_equal.
Qed.

(** The shape of the text: a sign, a digit, a point, six digits and an exponent. *)
Definition sci_body (d x : Z) : string :=
  fixed_digits 1 (d / 10 ^ 6) +++ (("." +++ fixed_digits 6 (d mod 10 ^ 6)) +++ ((if x <? 0 then "e-" else "e+") +++ fixed_digits (Nat.max 2 (ndigits (Z.abs x))) (Z.abs x))).
Lemma sci_shape q : print_sci q = "0.000000e+00"%string \/ exists neg d x, print_sci q = signed neg (sci_body d x).
Proof.
  unfold print_sci. destruct (Qnum q =? 0); [now left|]. right. destruct (mantissa7 (Qabs q)) as [d x]. exists (Qnum q <? 0), d, x.
  destruct (Qnum q <? 0); reflexivity.
Qed.

Lemma sci_body_value neg d x : 1000000 <= d < 10000000 ->
  exists r, atof (signed neg (sci_body d x)) = Some r /\ (r == (if neg then - (inject_Z d * pow10 (x - 6)) else inject_Z d * pow10 (x - 6)))%Q.
Proof.
  intros Md. unfold sci_body. set (s := fixed_digits 6 (d mod 10 ^ 6)). set (xp := (if x <? 0 then "e-" else "e+") +++ _).
  assert (Ex : exponent_of xp = x).
  { unfold xp. rewrite exponent_value; [destruct (Z.ltb_spec x 0); lia| |lia]. split; [lia|]. apply Z.lt_le_trans with (10 ^ Z.of_nat (ndigits (Z.abs x))); [apply ndigits_above; lia|].
    apply Z.pow_le_mono_r; lia. }
  assert (Ds : digits s = true) by apply fixed_digits_digits.
  pose proof (point_digits s Ds) as F. assert (Ls : Z.of_nat (String.length s) = 6) by (unfold s; now rewrite fixed_length). rewrite Ls in F.
  pose proof (atof_body neg (fixed_digits 1 (d / 10 ^ 6)) ("." +++ s) xp (dval s 0) 6 x) as A. unfold body in A. rewrite A; clear A.
  2: apply fixed_digits_digits. 2: apply fixed_nonempty; lia. 2: exact F. 2: lia. 2: right; now exists s.
  2-4: unfold xp; destruct (x <? 0). 2-3: reflexivity. 2-3: split; discriminate. 2-3: intros c u E; cbn in E; injection E as <- _; discriminate. 2: exact Ex.
  eexists. split; [reflexivity|]. cbv zeta.
  assert (V : dval (fixed_digits 1 (d / 10 ^ 6)) 0 * 10 ^ 6 + dval s 0 = d).
  { unfold s. assert (0 <= d / 10 ^ 6 < 10) by (split; [apply Z.div_pos; lia|apply Z.div_lt_upper_bound; lia]).
    rewrite !fixed_value by (try lia; apply Z.mod_pos_bound; lia). change (10 ^ Z.of_nat 1) with 10. change (10 ^ Z.of_nat 6) with (10 ^ 6).
    rewrite (Z.mod_small (d / _)) by lia. rewrite Z.mod_mod by lia. pose proof (Z.div_mod d (10 ^ 6) ltac:(lia)). lia. }
  rewrite V. destruct neg; reflexivity.
Qed.

Lemma sci_reads_back q : exists r, atof (print_sci q) = Some r /\ rounded q r.
Proof.
  destruct (Qeq_dec q 0) as [E|E].
  - assert (N0 : Qnum q = 0) by (destruct q as [a b]; unfold Qeq in E; cbn in *; lia). exists (inject_Z 0 * pow10 (0 - 6))%Q. unfold print_sci. rewrite N0. split; [reflexivity|].
    split; [rewrite E; vm_compute; discriminate|]. intros. rewrite E. reflexivity.
  - assert (Pq : (0 < Qabs q)%Q) by (apply Qabs_case; intros; lra). pose proof (mantissa7_spec _ Pq) as M.
    assert (N0 : Qnum q =? 0 = false). { apply Z.eqb_neq. intros C. apply E. destruct q. cbn in C. subst. reflexivity. }
    unfold print_sci. rewrite N0. destruct (mantissa7 (Qabs q)) as [d x]. destruct M as (M1 & M2 & M3).
    destruct (sci_body_value (Qnum q <? 0) d x M1) as (r & R1 & R2). exists r. split.
    { rewrite <- R1. unfold signed, sci_body. destruct (Qnum q <? 0); reflexivity. }
    unfold rounded, decimal. fold pow10. change (Qpower 10) with pow10. pose proof (qabs_sign q) as Sg. destruct (Qnum q <? 0); split.
    + rewrite R2. setoid_replace (- (inject_Z d * pow10 (x - 6)) - q)%Q with (- (inject_Z d * pow10 (x - 6) - Qabs q))%Q by (rewrite Sg; ring). rewrite Qabs_opp. exact M2.
    + intros k e H K. rewrite R2. rewrite (M3 (- k) e); [rewrite Sg; ring|rewrite Sg, H, inject_Z_opp; ring|lia].
    + rewrite R2. setoid_replace (inject_Z d * pow10 (x - 6) - q)%Q with (inject_Z d * pow10 (x - 6) - Qabs q)%Q by (rewrite Sg; ring). exact M2.
    + intros k e H K. rewrite R2. rewrite (M3 k e); [exact Sg|rewrite Sg; exact H|exact K].
Qed.

(** ** The tokens of numbers *)
(** A token character: no blank, tab, end of line, quotation mark or punctuation. *)
Definition safe_char (c : ascii) : bool :=
  negb (Ascii.eqb c QUOTE || Ascii.eqb c LF || Ascii.eqb c " "%char || Ascii.eqb c TAB || Ascii.eqb c ","%char || Ascii.eqb c ":"%char ||
        Ascii.eqb c "{"%char || Ascii.eqb c "}"%char || Ascii.eqb c "["%char || Ascii.eqb c "]"%char).
Definition safe (s : string) : Prop := s <> EmptyString /\ all_chars safe_char s = true.
Lemma digits_safe s : digits s = true -> all_chars safe_char s = true.
Proof.
  induction s as [|c s IH]; [reflexivity|]. unfold digits. cbn [all_chars]. intros H. apply andb_prop in H. destruct H as [H1 H2]. rewrite (IH H2), andb_true_r.
  revert H1. destruct c as [[] [] [] [] [] [] [] []]; vm_compute; congruence.
Qed.
Lemma int_safe z : safe (print_int z).
Proof.
  unfold print_int. destruct (z <? 0); split; [discriminate| |apply fixed_nonempty, ndigits_pos|apply digits_safe, fixed_digits_digits].
  rewrite all_app, (digits_safe (fixed_digits _ _)) by apply fixed_digits_digits. reflexivity.
Qed.
Lemma sci_body_safe d x : all_chars safe_char (sci_body d x) = true.
Proof. unfold sci_body. rewrite !all_app, (digits_safe (fixed_digits 1 _)), (digits_safe (fixed_digits 6 _)), (digits_safe (fixed_digits (Nat.max _ _) _)) by apply fixed_digits_digits. destruct (x <? 0); reflexivity. Qed.
Lemma sci_safe q : safe (print_sci q).
Proof.
  destruct (sci_shape q) as [-> | (neg & d & x & ->)]; [split; [discriminate|reflexivity]|]. destruct neg; cbn [signed]; split.
  - discriminate.
  - rewrite all_app, sci_body_safe. reflexivity.
  - unfold sci_body. destruct (fixed_digits 1 (d / 10 ^ 6)) eqn:E; [|discriminate]. now apply fixed_nonempty in E; [|lia].
  - apply sci_body_safe.
Qed.

(** ** stoi and stod *)
Lemma all_digits_eq s : all_digits s = digits s.
Proof. induction s as [|c s IH]; [reflexivity|]. unfold digits. cbn. rewrite IH. unfold is_digit. destruct (digit_of c); reflexivity. Qed.
Lemma int_is_integer z : is_integer (print_int z) = true.
Proof.
  unfold print_int. destruct (z <? 0).
  - cbn [append is_integer]. rewrite all_digits_eq, fixed_digits_digits. reflexivity.
  - pose proof (fixed_digits_digits (ndigits z) z) as D. destruct (fixed_digits (ndigits z) z) as [|c s]; [reflexivity|]. unfold digits in D. cbn in D.
    apply andb_prop in D. destruct D as [D1 D2]. cbn [is_integer]. unfold is_digit in D1. destruct (digit_of c); [|discriminate]. rewrite all_digits_eq. unfold digits. now rewrite D2.
Qed.
Lemma stoi_int z : INT_MIN <= z <= INT_MAX -> stoi (print_int z) = Ok z.
Proof.
  intros R. unfold stoi.
  assert (G : forall m, 0 <= m -> span_digits (fixed_digits (ndigits m) m) 0 0 = (m, Z.of_nat (ndigits m), EmptyString)).
  { intros m Hm. rewrite <- (app_nil' (fixed_digits _ m)), span_app by apply fixed_digits_digits. rewrite span_stop by exact Logic.I. rewrite print_value, fixed_length by lia. f_equal. }
  assert (P : forall m, Z.of_nat (ndigits m) =? 0 = false) by (intros m; pose proof (ndigits_pos m); apply Z.eqb_neq; lia).
  unfold print_int. destruct (Z.ltb_spec z 0) as [L|L].
  - change (split_sign (append "-" ?s)) with (true, s). cbn iota beta. change (split_sign _) with (true, fixed_digits (ndigits (- z)) (- z)).
    cbv iota beta. rewrite G by lia. rewrite P. replace (- - z) with z by lia. rewrite (proj2 (Z.leb_le _ _)), (proj2 (Z.leb_le _ _)) by lia. reflexivity.
  - pose proof (sign_digits (fixed_digits (ndigits z) z) EmptyString (fixed_digits_digits _ _) (fixed_nonempty _ _ (ndigits_pos z))) as Sg. rewrite app_nil' in Sg. rewrite Sg.
    rewrite G by lia. rewrite P. rewrite (proj2 (Z.leb_le _ _)), (proj2 (Z.leb_le _ _)) by lia. reflexivity.
Qed.
Lemma skip_nospace s : all_chars (fun c => negb (is_space c)) s = true -> skip_space s = s.
Proof. destruct s as [|c s]; [reflexivity|]. cbn. destruct (is_space c); [discriminate|reflexivity]. Qed.
