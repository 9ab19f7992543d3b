From Coq Require Import ZArith QArith Qabs Bool Lia Lqa.
From Verif Require Import StepModel.
Local Open Scope Z_scope.

Lemma int_ok_true z : INT32_MIN <= z <= INT32_MAX -> int_ok z = true.
Proof. intros [A B]. unfold int_ok. apply andb_true_intro. split; apply Z.leb_le; assumption. Qed.
Lemma better_true f t b : better f t b = true -> (f t < b)%Q.
Proof. unfold better. destruct (Qlt_le_dec (f t) b); [trivial|discriminate]. Qed.

Lemma quot_between lo hi : lo + 1 < hi -> lo < Z.quot (lo + hi) 2 < hi /\
  2 * (hi - Z.quot (lo + hi) 2) <= hi - lo + 1 /\ 2 * (Z.quot (lo + hi) 2 - lo) <= hi - lo + 1.
Proof.
  intros H. pose proof (Z.quot_rem' (lo + hi) 2) as Q.
  assert (R : -1 <= Z.rem (lo + hi) 2 <= 1).
  { pose proof (Z.rem_bound_abs (lo + hi) 2 ltac:(lia)) as R. lia. }
  lia.
Qed.

(** Everything the result has to satisfy, relative to the start of the search. *)
Definition good (f : Z -> Q) (up : bool) (vlo vhi orig init cand : Z) (best : Q) : Prop :=
  vlo <= cand <= vhi /\ (if up then orig < cand else cand < orig) /\ best = f cand /\ (cand = init \/ (f cand < f init)%Q).

Definition HALF : Z := 1073741824.

Lemma good_again f up vlo vhi orig init cand best : good f up vlo vhi orig init cand best -> good f up vlo vhi orig init cand (f cand).
Proof. intros (A & B & _ & D). split; [exact A|]. split; [exact B|]. split; [reflexivity|exact D]. Qed.
Lemma good_step f up vlo vhi orig init cand best t : good f up vlo vhi orig init cand best -> (f t < best)%Q ->
  vlo <= t <= vhi -> (if up then orig < t else t < orig) -> good f up vlo vhi orig init t (f t).
Proof.
  intros (A & B & -> & D) H R O. split; [exact R|]. split; [exact O|]. split; [reflexivity|]. right.
  destruct D as [->|D]; lra.
Qed.

Lemma bisect_good f up vlo vhi orig init : vlo <= orig <= vhi -> - HALF < vlo -> vhi < HALF -> forall n lo hi cand best,
  good f up vlo vhi orig init cand best -> vlo <= lo <= vhi -> vlo <= hi <= vhi -> (if up then orig <= lo else hi <= orig) ->
  hi - lo <= 2 ^ Z.of_nat n ->
  exists t, bisect (S n) f up lo hi cand best = Target t /\ good f up vlo vhi orig init t (f t).
Proof.
  intros O L U. unfold HALF in *. induction n as [|n IH]; intros lo hi cand best G A B D W.
  - change (2 ^ Z.of_nat 0) with 1 in W. cbn [bisect].
    rewrite (int_ok_true (hi - lo)) by (unfold INT32_MIN, INT32_MAX; lia).
    replace (hi - lo >? 1) with false by (symmetry; rewrite Z.gtb_ltb; apply Z.ltb_ge; lia).
    exists cand. split; [reflexivity|exact (good_again _ _ _ _ _ _ _ _ G)].
  - remember (S n) as k eqn:K. cbn [bisect].
    rewrite (int_ok_true (hi - lo)) by (unfold INT32_MIN, INT32_MAX; lia).
    destruct (hi - lo >? 1) eqn:E; [|exists cand; split; [reflexivity|exact (good_again _ _ _ _ _ _ _ _ G)]].
    rewrite Z.gtb_ltb in E. apply Z.ltb_lt in E.
    rewrite (int_ok_true (lo + hi)) by (unfold INT32_MIN, INT32_MAX; lia).
    destruct (quot_between lo hi ltac:(lia)) as (Q1 & Q2 & Q3). cbv zeta.
    generalize dependent (Z.quot (lo + hi) 2). intros t Q1 Q2 Q3. subst k.
    assert (P : 2 ^ Z.of_nat (S n) = 2 * 2 ^ Z.of_nat n) by (rewrite Nat2Z.inj_succ, Z.pow_succ_r by lia; reflexivity).
    rewrite P in W. clear P.
    destruct (better f t best) eqn:F.
    + apply better_true in F. destruct up.
      * apply IH; [apply (good_step f true vlo vhi orig init cand best); [exact G|exact F|lia|lia]|lia|lia|lia|lia].
      * apply IH; [apply (good_step f false vlo vhi orig init cand best); [exact G|exact F|lia|lia]|lia|lia|lia|lia].
    + destruct up; apply IH; try exact G; lia.
Qed.

Lemma expand_good f up vlo vhi orig init m : vlo <= orig <= vhi -> - HALF < vlo -> vhi < HALF -> vhi - vlo < HALF ->
  vhi - vlo <= 2 ^ Z.of_nat m -> forall n step lo hi cand best,
  good f up vlo vhi orig init cand best -> 0 < step -> vlo <= (if up then orig + step else orig - step) <= vhi ->
  (if up then orig <= lo <= orig + step else lo = orig) -> (if up then hi = orig else orig - step <= hi <= orig) ->
  vhi - vlo < step * 2 ^ Z.of_nat (S n) ->
  exists t, expand (S n) (S m) f up vlo vhi orig step lo hi cand best = Target t /\ good f up vlo vhi orig init t (f t).
Proof.
  intros O L U R M. unfold HALF in *. induction n as [|n IH]; intros step lo hi cand best G S T A B W.
  - change (2 ^ Z.of_nat 1) with 2 in W.
    remember (Datatypes.S m) as mm eqn:K. cbn [expand]. subst mm. cbv zeta.
    destruct (better f (if up then orig + step else orig - step) best) eqn:F.
    + apply better_true in F. destruct up.
      * rewrite !(int_ok_true _) by (unfold INT32_MIN, INT32_MAX; lia). cbn [andb].
        replace (orig + step * 2 <=? vlo) with false by (symmetry; apply Z.leb_gt; lia).
        replace (orig + step * 2 >=? vhi) with true by (symmetry; rewrite Z.geb_leb; apply Z.leb_le; lia).
        apply (bisect_good f true vlo vhi orig init O L U m); [|lia|lia|lia|lia].
        apply (good_step f true vlo vhi orig init cand best); [exact G|exact F|lia|lia].
      * rewrite !(int_ok_true _) by (unfold INT32_MIN, INT32_MAX; lia). cbn [andb].
        replace (orig - step * 2 <=? vlo) with true by (symmetry; apply Z.leb_le; lia).
        apply (bisect_good f false vlo vhi orig init O L U m); [|lia|lia|lia|lia].
        apply (good_step f false vlo vhi orig init cand best); [exact G|exact F|lia|lia].
    + destruct up; apply (bisect_good f _ vlo vhi orig init O L U m); try exact G; lia.
  - assert (P : 2 ^ Z.of_nat (Datatypes.S (Datatypes.S n)) = 2 * 2 ^ Z.of_nat (Datatypes.S n)) by (rewrite (Nat2Z.inj_succ (Datatypes.S n)), Z.pow_succ_r by lia; reflexivity).
    rewrite P in W. clear P.
    remember (Datatypes.S m) as mm eqn:K. remember (Datatypes.S n) as nn eqn:K2. cbn [expand]. subst mm nn. cbv zeta.
    destruct (better f (if up then orig + step else orig - step) best) eqn:F.
    + apply better_true in F. destruct up.
      * rewrite !(int_ok_true _) by (unfold INT32_MIN, INT32_MAX; lia). cbn [andb].
        replace (orig + step * 2 <=? vlo) with false by (symmetry; apply Z.leb_gt; lia).
        assert (G' : good f true vlo vhi orig init (orig + step) (f (orig + step))) by (apply (good_step f true vlo vhi orig init cand best); [exact G|exact F|lia|lia]).
        destruct (orig + step * 2 >=? vhi) eqn:E.
        -- apply (bisect_good f true vlo vhi orig init O L U m); [exact G'|lia|lia|lia|lia].
        -- rewrite Z.geb_leb in E. apply Z.leb_gt in E. apply IH; [exact G'|lia|lia|lia|lia|lia].
      * rewrite !(int_ok_true _) by (unfold INT32_MIN, INT32_MAX; lia). cbn [andb].
        assert (G' : good f false vlo vhi orig init (orig - step) (f (orig - step))) by (apply (good_step f false vlo vhi orig init cand best); [exact G|exact F|lia|lia]).
        destruct (orig - step * 2 <=? vlo) eqn:E.
        -- apply (bisect_good f false vlo vhi orig init O L U m); [exact G'|lia|lia|lia|lia].
        -- apply Z.leb_gt in E.
           replace (orig - step * 2 >=? vhi) with false by (symmetry; rewrite Z.geb_leb; apply Z.leb_gt; lia).
           apply IH; [exact G'|lia|lia|lia|lia|lia].
    + destruct up; apply (bisect_good f _ vlo vhi orig init O L U m); try exact G; lia.
Qed.

Lemma adjust_good f vlo vhi orig init : vlo <= orig <= vhi -> vlo <= init <= vhi -> init <> orig ->
  - HALF < vlo -> vhi < HALF -> vhi - vlo < HALF ->
  exists t, adjust 31 f vlo vhi orig init = Target t /\ vlo <= t <= vhi /\ t <> orig /\ (orig < init <-> orig < t) /\ (t = init \/ (f t < f init)%Q).
Proof.
  intros O I N L U R. unfold adjust. unfold HALF in *.
  rewrite (int_ok_true (init - orig)) by (unfold INT32_MIN, INT32_MAX; lia). cbv zeta.
  destruct (init - orig >? 0) eqn:E; rewrite Z.gtb_ltb in E.
  - apply Z.ltb_lt in E. cbn [andb negb]. destruct (Z.eqb_spec init vhi) as [->|D].
    + exists vhi. split; [reflexivity|]. split; [lia|]. split; [lia|]. split; [lia|left; reflexivity].
    + rewrite (int_ok_true (orig + 2)) by (unfold INT32_MIN, INT32_MAX; lia).
      destruct (expand_good f true vlo vhi orig init 30 O L U R ltac:(change (2 ^ Z.of_nat 30) with 1073741824; lia) 30 2 orig orig init (f init)) as (t & T1 & T2); try lia.
      * split; [lia|]. split; [lia|]. split; [reflexivity|left; reflexivity].
      * destruct T2 as (T2 & T3 & _ & T4). exists t. split; [exact T1|]. split; [exact T2|]. split; [lia|]. split; [lia|exact T4].
  - apply Z.ltb_ge in E. cbn [andb negb]. destruct (Z.eqb_spec init vlo) as [->|D].
    + exists vlo. split; [reflexivity|]. split; [lia|]. split; [lia|]. split; [lia|left; reflexivity].
    + rewrite (int_ok_true (orig - 2)) by (unfold INT32_MIN, INT32_MAX; lia).
      destruct (expand_good f false vlo vhi orig init 30 O L U R ltac:(change (2 ^ Z.of_nat 30) with 1073741824; lia) 30 2 orig orig init (f init)) as (t & T1 & T2); try lia.
      * split; [lia|]. split; [lia|]. split; [reflexivity|left; reflexivity].
      * destruct T2 as (T2 & T3 & _ & T4). exists t. split; [exact T1|]. split; [exact T2|]. split; [lia|]. split; [lia|exact T4].
Qed.
