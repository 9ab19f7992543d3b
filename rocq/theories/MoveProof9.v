(** Proofs for C34: exactly which stored moves are offered. *)
From Coq Require Import List ZArith NArith QArith Bool Lia.
From Verif Require Import ExprModel ConstraintModel VariableModel TypeModel PresolveModel MoveModel MoveSpec.
Import ListNotations.
Local Open Scope Z_scope.

Lemma fixed_iff vs m : has_fixed vs m = true <-> writes_fixed vs m.
Proof.
  unfold has_fixed, writes_fixed. rewrite existsb_exists. split; [intros ([v a] & H & E); eauto|intros (v & a & H & E); exists (v, a); auto].
Qed.
Lemma selection_iff vs m : has_selection vs m = true <-> writes_selection vs m.
Proof.
  unfold has_selection, writes_selection. rewrite existsb_exists. split.
  - intros ([v a] & H & E). exists v, a. split; [exact H|]. cbn [fst] in E. destruct (va_sense (vs v)); try discriminate E. reflexivity.
  - intros (v & a & H & E). exists (v, a). split; [exact H|]. cbn [fst]. rewrite E. reflexivity.
Qed.
Lemma bounds_iff vs m : has_bound_violation vs m = true <-> leaves_bounds vs m.
Proof.
  unfold has_bound_violation, leaves_bounds. rewrite existsb_exists. split.
  - intros ([v a] & H & E). exists v, a. split; [exact H|]. cbn [fst snd] in E. apply orb_true_iff in E. destruct E as [E|E]; apply Z.ltb_lt in E; auto.
  - intros (v & a & H & E). exists (v, a). split; [exact H|]. cbn [fst snd]. apply orb_true_iff. destruct E as [E|E]; apply Z.ltb_lt in E; auto.
Qed.
Lemma same_iff vs m : has_same vs m = true <-> keeps_a_value vs m.
Proof.
  unfold has_same, keeps_a_value. rewrite existsb_exists. split.
  - intros ([v a] & H & E). exists v, a. split; [exact H|]. now apply Z.eqb_eq.
  - intros (v & a & H & E). exists (v, a). split; [exact H|]. now apply Z.eqb_eq.
Qed.
Lemma flagged_iff f m : has_flagged f m = true <-> exists v a, In (v, a) m /\ f v = true.
Proof. unfold has_flagged. rewrite existsb_exists. split; [intros ([v a] & H & E); eauto|intros (v & a & H & E); exists (v, a); auto]. Qed.

Definition ruled_out (r : rule) (vs : vars) (b : bool) (m : alterations) : Prop :=
  (ru_available r = true /\ b = false) \/ (ru_selection r = true /\ writes_selection vs m) \/ writes_fixed vs m \/
  (ru_bounds r = true /\ leaves_bounds vs m) \/ (ru_same r = true /\ keeps_a_value vs m).
Lemma flag_exact r vs ac b m : move_flag r vs ac b m <> 0 <-> ~ ruled_out r vs b m /\ wanted ac m.
Proof.
  unfold ruled_out, wanted. rewrite <- selection_iff, <- fixed_iff, <- bounds_iff, <- same_iff, <- (flagged_iff (im_obj ac)), <- (flagged_iff (im_feas ac)). unfold move_flag.
  destruct (ru_available r && negb b) eqn:E1.
  { apply andb_true_iff in E1. destruct E1 as [A B]. apply negb_true_iff in B. split; [intros H; now destruct H|]. intros [H _]. exfalso. apply H. auto. }
  destruct (ru_selection r && has_selection vs m) eqn:E2.
  { apply andb_true_iff in E2. split; [intros H; now destruct H|]. intros [H _]. exfalso. apply H. auto. }
  destruct (has_fixed vs m) eqn:E3.
  { split; [intros H; now destruct H|]. intros [H _]. exfalso. apply H. auto. }
  destruct (ru_bounds r && has_bound_violation vs m) eqn:E4.
  { apply andb_true_iff in E4. split; [intros H; now destruct H|]. intros [H _]. exfalso. apply H. auto. }
  destruct (ru_same r && has_same vs m) eqn:E5.
  { apply andb_true_iff in E5. split; [intros H; now destruct H|]. intros [H _]. exfalso. apply H. auto 6. }
  assert (K : ~ ((ru_available r = true /\ b = false) \/ (ru_selection r = true /\ has_selection vs m = true) \/ false = true \/
    (ru_bounds r = true /\ has_bound_violation vs m = true) \/ (ru_same r = true /\ has_same vs m = true))).
  { intros [[A B]|[[A B]|[A|[[A B]|[A B]]]]]; [rewrite A, B in E1; discriminate E1|rewrite A, B in E2; discriminate E2|discriminate A|rewrite A, B in E4; discriminate E4|rewrite A, B in E5; discriminate E5]. }
  split.
  - intros H. split; [exact K|]. clear K E1 E2 E3 E4 E5. destruct (ac_all ac); [auto|]. right.
    destruct (ac_obj ac && has_flagged (im_obj ac) m) eqn:E; [left; now apply andb_true_iff in E|]. right.
    destruct (ac_feas ac && has_flagged (im_feas ac) m) eqn:F; [now apply andb_true_iff in F|now destruct H].
  - intros [_ W]. clear K E1 E2 E3 E4 E5. destruct (ac_all ac); [discriminate|]. destruct W as [W|[[W1 W2]|[W1 W2]]]; [discriminate W|rewrite W1, W2; discriminate|].
    rewrite W1, W2. destruct (_ && _); discriminate.
Qed.
Lemma yes P : (true = true /\ P) <-> P. Proof. split; [intros [_ H]; exact H|auto]. Qed.
Lemma no P : (false = true /\ P) <-> False. Proof. split; [intros [H _]; discriminate H|intros []]. Qed.
Lemma nth_flag_all r vs ac av ms i m f : nth_error (flag_all r vs ac av ms) i = Some (m, f) -> nth_error ms i = Some m /\ f = move_flag r vs ac (av i) m.
Proof.
  unfold flag_all. assert (G : forall ms k i, nth_error (map (fun p => (snd p, move_flag r vs ac (av (fst p)) (snd p))) (combine (seq k (length ms)) ms)) i = Some (m, f) ->
    nth_error ms i = Some m /\ f = move_flag r vs ac (av (k + i)%nat) m).
  { clear. induction ms as [|a tl IH]; intros k [|i] H; cbn in H; try discriminate.
    - injection H as -> <-. rewrite Nat.add_0_r. auto.
    - destruct (IH (S k) i H) as [A B]. cbn [nth_error]. split; [exact A|]. rewrite B. do 2 f_equal. lia. }
  intros H. exact (G ms 0%nat i H).
Qed.
Lemma stored_offer addr vs ac g l i m f : (forall k, g <> GBinary k) -> (forall k, g <> GInteger k) ->
  gen_update addr vs ac g = Some l -> nth_error l i = Some (m, f) -> (f <> 0 <-> ~ left_out vs g i m /\ wanted ac m).
Proof.
  intros NB NI U N. destruct g as [k|k|t items av|ms av|pairs av|ms]; cbn [gen_update left_out] in *.
  - now destruct (NB k).
  - now destruct (NI k).
  - destruct (concat_options _) as [ms|]; [|discriminate]. cbn [option_map] in U. injection U as <-. apply nth_flag_all in N. destruct N as [_ ->]. rewrite flag_exact.
    assert (K : ruled_out (rule_of t) vs (av i) m <-> writes_fixed vs m \/ av i = false \/ (t <> SoftSelection /\ leaves_bounds vs m) \/
      (In t [ExclusiveOR; ExclusiveNOR; TrinomialExclusiveNOR; SoftSelection] /\ keeps_a_value vs m)).
    { unfold ruled_out. assert (B : ru_bounds (rule_of t) = true <-> t <> SoftSelection) by (destruct t; cbn; split; intros; congruence).
      assert (V : ru_same (rule_of t) = true <-> In t [ExclusiveOR; ExclusiveNOR; TrinomialExclusiveNOR; SoftSelection]).
      { destruct t; cbn; split; intros H; try discriminate H; try reflexivity; try (destruct H as [H|[H|[H|[H|[]]]]]; discriminate H); auto. }
      assert (L : ru_selection (rule_of t) = false) by (destruct t; reflexivity). assert (A : ru_available (rule_of t) = true) by (destruct t; reflexivity).
      rewrite L, A, B, V, yes, no. tauto. }
    rewrite K. unfold left_out. reflexivity.
  - injection U as <-. apply nth_flag_all in N. destruct N as [_ ->]. rewrite flag_exact.
    match goal with |- (~ ?A /\ _) <-> (~ ?B /\ _) => assert (K : A <-> B) by (unfold ruled_out, left_out; cbn [rule_chain ru_available ru_selection ru_bounds ru_same]; rewrite ?yes, ?no; tauto) end.
    rewrite K. reflexivity.
  - injection U as <-. apply nth_flag_all in N. destruct N as [_ ->]. rewrite flag_exact.
    match goal with |- (~ ?A /\ _) <-> (~ ?B /\ _) => assert (K : A <-> B) by (unfold ruled_out, left_out; cbn [rule_two_flip ru_available ru_selection ru_bounds ru_same]; rewrite ?yes, ?no; tauto) end.
    rewrite K. reflexivity.
  - injection U as <-. apply nth_flag_all in N. destruct N as [_ ->]. rewrite flag_exact.
    match goal with |- (~ ?A /\ _) <-> (~ ?B /\ _) => assert (K : A <-> B) by (unfold ruled_out, left_out; cbn [rule_user ru_available ru_selection ru_bounds ru_same]; rewrite ?yes, ?no; tauto) end.
    rewrite K. reflexivity.
Qed.

Lemma two_flip_list addr vs ac pairs av l i p : gen_update addr vs ac (GTwoFlip pairs av) = Some l -> nth_error pairs i = Some p ->
  length l = (2 * length pairs)%nat /\ option_map fst (nth_error l (2 * i)) = Some [(fst p, 1); (snd p, 0)] /\
  option_map fst (nth_error l (2 * i + 1)) = Some [(fst p, 0); (snd p, 1)].
Proof.
  intros U. cbn [gen_update] in U. assert (E : map fst l = flat_map two_flip_moves pairs).
  { injection U as <-. unfold flag_all. rewrite map_map. cbn [fst]. generalize (flat_map two_flip_moves pairs) as ms. intros ms. generalize 0%nat as k. induction ms as [|m tl IH]; intros k; [reflexivity|].
    cbn [length seq combine map snd]. now rewrite IH. }
  clear U. rewrite <- !nth_error_map, E. rewrite <- (map_length fst l), E. clear E l. revert i. induction pairs as [|[u v] tl IH]; intros [|i] H; try discriminate H.
  - cbn in H. injection H as <-. cbn [flat_map two_flip_moves app length]. split; [|split; reflexivity].
    assert (L : forall q, length (flat_map two_flip_moves q) = (2 * length q)%nat) by (clear; induction q as [|? q IH]; [reflexivity|cbn [flat_map two_flip_moves app length]; lia]).
    rewrite L. lia.
  - cbn [nth_error] in H. destruct (IH i H) as (A & B & C). cbn [flat_map two_flip_moves app length]. split; [lia|].
    replace (2 * S i)%nat with (S (S (2 * i))) by lia. replace (S (S (2 * i)) + 1)%nat with (S (S (2 * i + 1))) by lia. split; [exact B|exact C].
Qed.
