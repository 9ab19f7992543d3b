(** Proofs about printing doubles. *)
From Coq Require Import List ZArith QArith Qabs Qround Qpower Bool String Ascii Lia Lqa.
From Verif Require Import TextModel TextProof.
Import ListNotations.
Local Open Scope Z_scope.
Local Notation "a +++ b" := (append a b) (at level 60, right associativity).

(** ** Powers of ten *)
Lemma ten_nz : ~ (10 == 0)%Q. Proof. discriminate. Qed.
Lemma pow10_pos e : (0 < pow10 e)%Q.
Proof. apply Qpower_0_lt. reflexivity. Qed.
Lemma pow10_add a b : (pow10 (a + b) == pow10 a * pow10 b)%Q.
Proof. apply Qpower_plus, ten_nz. Qed.
Lemma pow10_Z e : 0 <= e -> (pow10 e == inject_Z (10 ^ e))%Q.
Proof. intros H. unfold pow10. rewrite Zpower_Qpower by exact H. reflexivity. Qed.
Lemma pow10_0 : (pow10 0 == 1)%Q. Proof. reflexivity. Qed.
Lemma pow10_cancel e : (pow10 e * pow10 (- e) == 1)%Q.
Proof. rewrite <- pow10_add. replace (e + - e) with 0 by lia. reflexivity. Qed.
Lemma pow10_lt_mono a b : a < b -> (10 * pow10 a <= pow10 b)%Q.
Proof.
  intros H. assert (E : (pow10 b == pow10 1 * pow10 a * pow10 (b - a - 1))%Q) by (rewrite <- !pow10_add; replace (1 + a + (b - a - 1)) with b by lia; reflexivity).
  assert (G : (1 <= pow10 (b - a - 1))%Q). { rewrite pow10_Z by lia. change 1%Q with (inject_Z 1). rewrite <- Zle_Qle. assert (0 < 10 ^ (b - a - 1)) by (apply Z.pow_pos_nonneg; lia). lia. }
  rewrite E. change (pow10 1) with 10%Q. pose proof (pow10_pos a). apply Qle_trans with (10 * pow10 a * 1)%Q; [lra|].
  apply Qmult_le_l; [|exact G]. lra.
Qed.
Lemma pow10_lt_cancel a b : (pow10 a < pow10 b)%Q -> a < b.
Proof.
  intros H. destruct (Z.lt_ge_cases a b) as [L|L]; [exact L|]. exfalso. destruct (Z.eq_dec a b) as [->|D]; [lra|].
  pose proof (pow10_lt_mono b a ltac:(lia)). pose proof (pow10_pos b). lra.
Qed.

(** ** Decade and mantissa *)
Lemma decade_spec m : (0 < m)%Q -> (pow10 (decade m) <= m /\ m < pow10 (decade m + 1))%Q.
Proof.
  intros Hm. destruct m as [a b]. unfold decade. cbn [Qnum Qden]. assert (Ha : 0 < a) by (unfold Qlt in Hm; cbn in Hm; lia).
  pose proof (ndigits_spec a Ha) as A. pose proof (ndigits_spec (Zpos b) ltac:(lia)) as B. pose proof (ndigits_pos a) as NA. pose proof (ndigits_pos (Zpos b)) as NB.
  set (da := Z.of_nat (ndigits a)) in *. set (db := Z.of_nat (ndigits (Zpos b))) in *.
  assert (E : (a # b == inject_Z a * / inject_Z (Zpos b))%Q) by (rewrite Qmake_Qdiv; reflexivity).
  assert (Bp : (0 < inject_Z (Zpos b))%Q) by reflexivity.
  assert (M : ((a # b) * inject_Z (Zpos b) == inject_Z a)%Q) by (rewrite E; field; discriminate).
  assert (A1 : (pow10 (da - 1) <= inject_Z a)%Q) by (rewrite pow10_Z by lia; rewrite <- Zle_Qle; lia).
  assert (A2 : (inject_Z a < pow10 da)%Q) by (rewrite pow10_Z by lia; rewrite <- Zlt_Qlt; lia).
  assert (B1 : (pow10 (db - 1) <= inject_Z (Zpos b))%Q) by (rewrite pow10_Z by lia; rewrite <- Zle_Qle; lia).
  assert (B2 : (inject_Z (Zpos b) < pow10 db)%Q) by (rewrite pow10_Z by lia; rewrite <- Zlt_Qlt; lia).
  assert (Up : (a # b < pow10 (da - db + 1))%Q).
  { apply (Qmult_lt_r _ _ (inject_Z (Zpos b)) Bp). rewrite M. apply Qlt_le_trans with (pow10 da); [exact A2|].
    setoid_replace (pow10 da) with (pow10 (da - db + 1) * pow10 (db - 1))%Q by (rewrite <- pow10_add; replace (da - db + 1 + (db - 1)) with da by lia; reflexivity).
    apply Qmult_le_l; [apply pow10_pos|exact B1]. }
  assert (Lo : (pow10 (da - db - 1) <= a # b)%Q).
  { apply (Qmult_le_r _ _ (inject_Z (Zpos b)) Bp). rewrite M. apply Qle_trans with (pow10 (da - 1)); [|exact A1].
    setoid_replace (pow10 (da - 1)) with (pow10 (da - db - 1) * pow10 db)%Q by (rewrite <- pow10_add; replace (da - db - 1 + db) with (da - 1) by lia; reflexivity).
    apply Qmult_le_l; [apply pow10_pos|lra]. }
  destruct (Qle_bool (pow10 (da - db)) (a # b)) eqn:C.
  - apply Qle_bool_iff in C. split; [exact C|exact Up].
  - split; [exact Lo|]. replace (da - db - 1 + 1) with (da - db) by lia. apply Qnot_le_lt. intros L. apply Qle_bool_iff in L. congruence.
Qed.
Lemma round_spec s : (Qabs (inject_Z (round_half_even s) - s) <= 1 # 2)%Q /\ Qfloor s <= round_half_even s <= Qfloor s + 1 /\ (forall z, s == inject_Z z -> round_half_even s = z)%Q.
Proof.
  unfold round_half_even. pose proof (Qfloor_le s) as F1. pose proof (Qlt_floor s) as F2. rewrite inject_Z_plus in F2. change (inject_Z 1) with 1%Q in F2.
  assert (Z0 : forall z, (s == inject_Z z)%Q -> Qfloor s = z) by (intros z H; rewrite (Qfloor_comp _ _ H); apply Qfloor_Z).
  destruct (Qcompare_spec (s - inject_Z (Qfloor s)) (1 # 2)) as [C|C|C]; (split; [|split]).
  all: try (destruct (Z.even (Qfloor s))).
  all: try lia.
  all: try (intros z H; specialize (Z0 z H); rewrite Z0 in *; exfalso; rewrite H in C; ring_simplify in C; lra).
  all: try (intros z H; exact (Z0 z H)).
  all: try (rewrite inject_Z_plus; change (inject_Z 1) with 1%Q); apply Qabs_case; lra.
Qed.
Lemma mantissa_spec m : (0 < m)%Q -> let '(d, x) := mantissa m in
  100000 <= d < 1000000 /\ (Qabs (inject_Z d * pow10 (x - 5) - m) <= m * (1 # 200000))%Q /\
  (forall k e, (m == inject_Z k * pow10 e)%Q -> Z.abs k < 1000000 -> (inject_Z d * pow10 (x - 5) == m)%Q).
Proof.
  intros Hm. unfold mantissa. destruct (decade_spec m Hm) as [D1 D2]. set (x := decade m) in *. set (s := (m * pow10 (5 - x))%Q).
  pose proof (pow10_pos (5 - x)) as P5. pose proof (pow10_pos (x - 5)) as P5'.
  assert (I5 : (pow10 (5 - x) * pow10 (x - 5) == 1)%Q) by (rewrite <- pow10_add; replace (5 - x + (x - 5)) with 0 by lia; reflexivity).
  assert (S1 : (inject_Z 100000 <= s)%Q).
  { apply Qle_trans with (pow10 x * pow10 (5 - x))%Q; [rewrite <- pow10_add; replace (x + (5 - x)) with 5 by lia; apply Qle_refl|]. apply Qmult_le_r; assumption. }
  assert (S2 : (s < inject_Z 1000000)%Q).
  { apply Qlt_le_trans with (pow10 (x + 1) * pow10 (5 - x))%Q; [apply Qmult_lt_r; assumption|]. rewrite <- pow10_add. replace (x + 1 + (5 - x)) with 6 by lia. apply Qle_refl. }
  assert (Sm : (s * pow10 (x - 5) == m)%Q) by (unfold s; rewrite <- Qmult_assoc, I5; ring).
  destruct (round_spec s) as (R1 & R2 & R3). set (d := round_half_even s) in *.
  assert (F1 : 100000 <= Qfloor s). { rewrite <- (Qfloor_Z 100000). apply Qfloor_resp_le, S1. }
  assert (F2 : Qfloor s < 1000000). { rewrite Zlt_Qlt. apply Qle_lt_trans with s; [apply Qfloor_le|exact S2]. }
  assert (Er : (Qabs (inject_Z d * pow10 (x - 5) - m) <= m * (1 # 200000))%Q).
  { setoid_replace (inject_Z d * pow10 (x - 5) - m)%Q with ((inject_Z d - s) * pow10 (x - 5))%Q by (rewrite <- Sm; ring).
    rewrite Qabs_Qmult, (Qabs_pos (pow10 (x - 5))) by lra. apply Qle_trans with ((1 # 2) * pow10 (x - 5))%Q; [apply Qmult_le_r; assumption|].
    setoid_replace (m * (1 # 200000))%Q with (s * (1 # 200000) * pow10 (x - 5))%Q by (rewrite <- Sm; ring). apply Qmult_le_r; [exact P5'|]. change (inject_Z 100000) with 100000%Q in S1. lra. }
  assert (Ex : forall k e, (m == inject_Z k * pow10 e)%Q -> Z.abs k < 1000000 -> (inject_Z d * pow10 (x - 5) == m)%Q).
  { intros k e E K. assert (Se : (s == inject_Z k * pow10 (e + (5 - x)))%Q) by (unfold s; rewrite E, pow10_add; ring).
    destruct (Z.lt_ge_cases (e + (5 - x)) 0) as [N|N].
    - exfalso. pose proof (pow10_lt_mono (e + (5 - x)) 0 N) as L. rewrite pow10_0 in L.
      assert (K2 : (inject_Z k < inject_Z 1000000)%Q) by (rewrite <- Zlt_Qlt; lia). pose proof (pow10_pos (e + (5 - x))) as Pp.
      assert (K3 : (inject_Z k * pow10 (e + (5 - x)) < inject_Z 1000000 * pow10 (e + (5 - x)))%Q) by (apply Qmult_lt_r; assumption).
      change (inject_Z 1000000) with 1000000%Q in *. change (inject_Z 100000) with 100000%Q in *. lra.
    - assert (Si : (s == inject_Z (k * 10 ^ (e + (5 - x))))%Q) by (rewrite Se, inject_Z_mult, pow10_Z by lia; reflexivity).
      rewrite (R3 _ Si), <- Si. exact Sm. }
  destruct (Z.eqb_spec d 1000000) as [E|E].
  - split; [lia|]. assert (V : (inject_Z 100000 * pow10 (x + 1 - 5) == inject_Z d * pow10 (x - 5))%Q).
    { rewrite E. replace (x + 1 - 5) with (1 + (x - 5)) by lia. rewrite pow10_add. change (pow10 1) with 10%Q. change (inject_Z 1000000) with (1000000)%Q. change (inject_Z 100000) with 100000%Q. ring. }
    split; [rewrite V; exact Er|]. intros k e H1 H2. rewrite V. exact (Ex k e H1 H2).
  - split; [lia|]. split; [exact Er|exact Ex].
Qed.

(** ** Trailing zeros *)
Fixpoint zeros (n : nat) : string := match n with O => EmptyString | S n => String "0" (zeros n) end.
Lemma strip_split s : exists n, s = strip_zeros s +++ zeros n.
Proof.
  induction s as [|c s [n IH]]; [exists 0%nat; reflexivity|]. cbn [strip_zeros]. destruct (strip_zeros s) as [|d u] eqn:E.
  - destruct (Ascii.eqb_spec c "0"%char) as [-> | D]; [exists (S n); cbn; now rewrite IH|exists n; cbn; now rewrite IH].
  - exists n. cbn. rewrite IH. reflexivity.
Qed.
Lemma dval_zeros n : forall acc, dval (zeros n) acc = acc * 10 ^ Z.of_nat n.
Proof. induction n as [|n IH]; intros acc; [cbn [zeros dval]; change (10 ^ Z.of_nat 0) with 1; lia|]. cbn [zeros dval]. rewrite IH, Nat2Z.inj_succ, Z.pow_succ_r by lia. change (digit_of "0"%char) with (Some 0). cbv iota. lia. Qed.
Lemma zeros_length n : String.length (zeros n) = n. Proof. induction n; cbn; auto. Qed.
Lemma dval_shift s : forall acc, dval s acc = acc * 10 ^ Z.of_nat (String.length s) + dval s 0.
Proof.
  induction s as [|c s IH]; intros acc; [cbn [dval String.length]; change (10 ^ Z.of_nat 0) with 1; lia|]. cbn [dval String.length]. rewrite IH. rewrite (IH (10 * 0 + _)).
  rewrite Nat2Z.inj_succ, Z.pow_succ_r by lia. destruct (digit_of c); lia.
Qed.
Lemma fraction_part s : digits s = true -> exists fp kf n, point_part (fraction s) fp kf /\ 0 <= kf /\ kf + n = Z.of_nat (String.length s) /\ 0 <= n /\ fp * 10 ^ n = dval s 0 /\
  (fraction s = EmptyString \/ exists g, fraction s = append "." g).
Proof.
  intros D. destruct (strip_split s) as [n E]. unfold fraction. destruct (strip_zeros s) as [|c u] eqn:Es.
  - exists 0, 0, (Z.of_nat n). split; [exact no_point|]. split; [lia|]. cbn [append] in E. split; [rewrite E, zeros_length; lia|]. split; [lia|].
    split; [rewrite E, dval_zeros; lia|now left].
  - set (t := String c u) in *. exists (dval t 0), (Z.of_nat (String.length t)), (Z.of_nat n).
    assert (Dt : digits t = true) by (unfold digits in *; rewrite E, all_app in D; apply andb_prop in D; tauto).
    split; [|split; [lia|split; [rewrite E;  rewrite length_app', zeros_length; lia|split; [lia|split; [rewrite E;  rewrite dval_app, dval_zeros; reflexivity|right; now exists t]]]]].
    intros ip r S X P. exists (dval t ip). split; [|apply dval_shift].
    change (append "." t +++ r) with (String "." (t +++ r)). cbn [after_point]. change (Ascii.eqb "." ".") with true. cbv iota.
    rewrite span_app by exact Dt. rewrite span_stop by exact S. f_equal.
Qed.

Lemma exponent_value (neg : bool) n m : 0 <= m < 10 ^ Z.of_nat n -> (1 <= n)%nat ->
  exponent_of ((if neg then "e-" else "e+") +++ fixed_digits n m) = if neg then - m else m.
Proof.
  intros H N. assert (G : span_digits (fixed_digits n m) 0 0 = (m, Z.of_nat n, EmptyString)).
  { rewrite <- (app_nil' (fixed_digits n m)), span_app by apply fixed_digits_digits. rewrite span_stop by exact Logic.I. rewrite fixed_value by lia.
    rewrite Z.mod_small, fixed_length by lia. reflexivity. }
  destruct neg; cbn [append exponent_of]; cbn; rewrite G; destruct (Z.eqb_spec (Z.of_nat n) 0); try lia; reflexivity.
Qed.

Lemma digits_value (d x : Z) : 0 <= d -> 0 <= 5 - x -> forall n, d / 10 ^ (5 - x) < 10 ^ Z.of_nat n ->
  dval (fixed_digits n (d / 10 ^ (5 - x))) 0 * 10 ^ (5 - x) + dval (fixed_digits (Z.to_nat (5 - x)) (d mod 10 ^ (5 - x))) 0 = d.
Proof.
  intros Hd Hx n Hn. assert (P : 0 < 10 ^ (5 - x)) by (apply Z.pow_pos_nonneg; lia).
  rewrite !fixed_value by (try (apply Z.div_pos; lia); apply Z.mod_pos_bound; lia). rewrite Z2Nat.id by lia.
  rewrite (Z.mod_small (d / _)) by (split; [apply Z.div_pos; lia|exact Hn]). rewrite Z.mod_mod by lia. pose proof (Z.div_mod d (10 ^ (5 - x)) ltac:(lia)). lia.
Qed.
Lemma scaled ip fp kf n k d x : 0 <= kf -> 0 <= n -> kf + n = k -> ip * 10 ^ k + fp * 10 ^ n = d ->
  (inject_Z (ip * 10 ^ kf + fp) * pow10 (x - kf) == inject_Z d * pow10 (x - k))%Q.
Proof.
  intros H1 H2 H3 H4. subst d. replace (ip * 10 ^ k + fp * 10 ^ n) with ((ip * 10 ^ kf + fp) * 10 ^ n) by (rewrite <- H3, Z.pow_add_r by lia; ring).
  rewrite (inject_Z_mult (ip * 10 ^ kf + fp)), <- (pow10_Z n) by lia. replace (x - kf) with (n + (x - k)) by lia. rewrite pow10_add. ring.
Qed.
Lemma double_value q : ~ (q == 0)%Q -> let '(d, x) := mantissa (Qabs q) in
  exists r, atof (print_double q) = Some r /\ (r == (if (Qnum q <? 0)%Z then - (inject_Z d * pow10 (x - 5)) else inject_Z d * pow10 (x - 5)))%Q.
Proof.
  intros Hq. assert (N0 : Qnum q =? 0 = false). { apply Z.eqb_neq. intros E. apply Hq. destruct q. cbn in E. subst. reflexivity. }
  assert (Pq : (0 < Qabs q)%Q). { apply Qabs_case; intros; lra. }
  pose proof (mantissa_spec _ Pq) as M. unfold print_double. rewrite N0. destruct (mantissa (Qabs q)) as [d x]. destruct M as (Md & _ & _).
  set (b := if (-4 <=? x) && (x <? 6) then _ else _).
  assert (G : forall neg, exists r, atof (signed neg b) = Some r /\ (r == (if neg then - (inject_Z d * pow10 (x - 5)) else inject_Z d * pow10 (x - 5)))%Q).
  { intros neg. unfold b. clear b. destruct ((-4 <=? x) && (x <? 6)) eqn:C.
    - apply andb_prop in C. destruct C as [C1 C2]. apply Z.leb_le in C1. apply Z.ltb_lt in C2.
      set (n := Z.to_nat (Z.max 1 (x + 1))). set (s := fixed_digits (Z.to_nat (5 - x)) (d mod 10 ^ (5 - x))).
      destruct (fraction_part s (fixed_digits_digits _ _)) as (fp & kf & z & F1 & F2 & F3 & F4 & F5 & F6).
      assert (L : d / 10 ^ (5 - x) < 10 ^ Z.of_nat n).
      { apply Z.div_lt_upper_bound; [apply Z.pow_pos_nonneg; lia|]. rewrite <- Z.pow_add_r by lia. unfold n. rewrite Z2Nat.id by lia.
        apply Z.lt_le_trans with (10 ^ 6); [cbn; lia|]. apply Z.pow_le_mono_r; lia. }
      pose proof (atof_body neg (fixed_digits n (d / 10 ^ (5 - x))) (fraction s) EmptyString fp kf 0) as A.
      unfold body in A. rewrite app_nil' in A. rewrite A; clear A.
      2: apply fixed_digits_digits. 2: apply fixed_nonempty; unfold n; lia. 2: exact F1. 2: exact F2. 2: exact F6. 2-3: exact Logic.I. 2: discriminate. 2: reflexivity.
      eexists. split; [reflexivity|]. cbv zeta. pose proof (digits_value d x ltac:(lia) ltac:(lia) n L) as V. fold s in V. rewrite <- F5 in V.
      unfold s in F3. rewrite fixed_length, Z2Nat.id in F3 by lia.
      pose proof (scaled _ fp kf z (5 - x) d 0 F2 F4 F3 V) as Sc. replace (0 - (5 - x)) with (x - 5) in Sc by lia. destruct neg; rewrite Sc; reflexivity.
    - set (s := fixed_digits 5 (d mod 10 ^ 5)). set (xp := append (if x <? 0 then "e-" else "e+") (fixed_digits (Nat.max 2 (ndigits (Z.abs x))) (Z.abs x))).
      destruct (fraction_part s (fixed_digits_digits _ _)) as (fp & kf & z & F1 & F2 & F3 & F4 & F5 & F6).
      assert (Ex : exponent_of xp = x).
      { unfold xp. rewrite exponent_value; [destruct (Z.ltb_spec x 0); lia| |lia]. split; [lia|]. apply Z.lt_le_trans with (10 ^ Z.of_nat (ndigits (Z.abs x))); [apply ndigits_above; lia|].
        apply Z.pow_le_mono_r; lia. }
      pose proof (atof_body neg (fixed_digits 1 (d / 10 ^ 5)) (fraction s) xp fp kf x) as A. unfold body in A. rewrite A; clear A.
      2: apply fixed_digits_digits. 2: apply fixed_nonempty; lia. 2: exact F1. 2: exact F2. 2: exact F6.
      2-4: unfold xp; destruct (x <? 0). 2-3: reflexivity. 2-3: split; discriminate. 2-3: intros c u E; cbn in E; injection E as <- _; discriminate. 2: exact Ex.
      eexists. split; [reflexivity|]. cbv zeta. pose proof (digits_value d 0 ltac:(lia) ltac:(lia) 1) as V. change (5 - 0) with 5 in V. change (Z.to_nat 5) with 5%nat in V. fold s in V. rewrite <- F5 in V.
      assert (L : d / 10 ^ 5 < 10 ^ Z.of_nat 1) by (apply Z.div_lt_upper_bound; cbn; lia). specialize (V L).
      unfold s in F3. rewrite fixed_length in F3.
      pose proof (scaled _ fp kf z 5 d x F2 F4 F3 V) as Sc. destruct neg; rewrite Sc; reflexivity. }
  destruct (G (Qnum q <? 0)) as (r & R1 & R2). exists r. split; [|exact R2]. rewrite <- R1. unfold signed. destruct (Qnum q <? 0); reflexivity.
Qed.
Lemma qabs_sign q : (Qabs q == if (Qnum q <? 0)%Z then - q else q)%Q.
Proof.
  destruct (Z.ltb_spec (Qnum q) 0) as [H|H]; [apply Qabs_neg|apply Qabs_pos]; unfold Qle; cbn; lia.
Qed.
(** A printed double is read back with a relative error of at most 5e-6, and exactly
    if it has at most six significant decimal digits. *)
Lemma double_reads_back q : exists r, atof (print_double q) = Some r /\ (Qabs (r - q) <= Qabs q * (1 # 200000))%Q /\
  (forall k e, (q == inject_Z k * pow10 e)%Q -> Z.abs k < 1000000 -> (r == q)%Q).
Proof.
  destruct (Qeq_dec q 0) as [E|E].
  - assert (N0 : Qnum q = 0) by (destruct q as [a b]; unfold Qeq in E; cbn in *; lia). exists 0%Q. unfold print_double. rewrite N0. split; [reflexivity|].
    split; [rewrite E; vm_compute; discriminate|]. intros. now rewrite E.
  - pose proof (double_value q E) as V. assert (Pq : (0 < Qabs q)%Q) by (apply Qabs_case; intros; lra). pose proof (mantissa_spec _ Pq) as M.
    destruct (mantissa (Qabs q)) as [d x]. destruct V as (r & R1 & R2). destruct M as (_ & M2 & M3). exists r. split; [exact R1|].
    pose proof (qabs_sign q) as Sg. destruct (Qnum q <? 0); split.
    + rewrite R2. setoid_replace (- (inject_Z d * pow10 (x - 5)) - q)%Q with (- (inject_Z d * pow10 (x - 5) - Qabs q))%Q by (rewrite Sg; ring). rewrite Qabs_opp. exact M2.
    + intros k e H K. rewrite R2. rewrite (M3 (- k) e); [rewrite Sg; ring|rewrite Sg, H, inject_Z_opp; ring|lia].
    + rewrite R2. setoid_replace (inject_Z d * pow10 (x - 5) - q)%Q with (inject_Z d * pow10 (x - 5) - Qabs q)%Q by (rewrite Sg; ring). exact M2.
    + intros k e H K. rewrite R2. rewrite (M3 k e); [exact Sg|rewrite Sg; exact H|exact K].
Qed.

(** ** Printed numbers are words *)
Lemma digits_word s : digits s = true -> all_chars (fun c => negb (is_space c)) s = true.
Proof.
  induction s as [|c s IH]; intros D; [reflexivity|]. unfold digits in D. cbn in D. apply andb_prop in D. destruct D as [D1 D2]. cbn [all_chars].
  destruct (digit_facts c D1) as (_ & _ & _ & _ & _ & _ & _ & _ & _ & _ & _ & E). rewrite E. cbn. now apply IH.
Qed.
Lemma strip_chars p s : all_chars p s = true -> all_chars p (strip_zeros s) = true.
Proof. intros H. destruct (strip_split s) as [n E]. rewrite E, all_app in H. apply andb_prop in H. tauto. Qed.
Lemma fraction_word s : digits s = true -> all_chars (fun c => negb (is_space c)) (fraction s) = true.
Proof.
  intros D. unfold fraction. pose proof (strip_chars _ s (digits_word s D)) as H. destruct (strip_zeros s); [reflexivity|]. rewrite all_app, H. reflexivity.
Qed.
Lemma print_int_word z : word (print_int z).
Proof.
  unfold print_int. destruct (z <? 0); split.
  - discriminate.
  - rewrite all_app. cbn [all_chars]. rewrite digits_word by apply fixed_digits_digits. reflexivity.
  - apply fixed_nonempty, ndigits_pos.
  - apply digits_word, fixed_digits_digits.
Qed.
Lemma print_double_word q : word (print_double q).
Proof.
  unfold print_double. destruct (Qnum q =? 0); [split; [discriminate|reflexivity]|]. destruct (mantissa (Qabs q)) as [d x].
  set (b := if (-4 <=? x) && (x <? 6) then _ else _).
  assert (W : word b).
  { unfold b. destruct ((-4 <=? x) && (x <? 6)); split.
    - intros E. apply (f_equal String.length) in E. rewrite length_app', fixed_length in E. cbn in E. lia.
    - rewrite all_app, digits_word, fraction_word by apply fixed_digits_digits. reflexivity.
    - intros E. apply (f_equal String.length) in E. rewrite length_app', fixed_length in E. cbn in E. lia.
    - rewrite !all_app, (digits_word (fixed_digits 1 _)), fraction_word, (digits_word (fixed_digits (Nat.max _ _) _)) by apply fixed_digits_digits. destruct (x <? 0); reflexivity. }
  destruct (Qnum q <? 0); [|exact W]. destruct W as [W1 W2]. split; [discriminate|]. rewrite all_app, W2. reflexivity.
Qed.
