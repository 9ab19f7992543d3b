(** Proofs for C34 and C35. *)
From Coq Require Import List ZArith NArith QArith Qabs Qround Bool Lia Lqa Permutation.
From Verif Require Import ExprModel ExprSpec ExprProof ConstraintModel ConstraintSpec VariableModel TypeModel TypeSpec TypeProof
  PresolveModel MoveModel MoveSpec.
Import ListNotations.
Local Open Scope Q_scope.

(** * C34 *)
Lemma flag_nonzero r vs ac b m : move_flag r vs ac b m <> 0%Z ->
  has_fixed vs m = false /\ (ru_bounds r = true -> has_bound_violation vs m = false) /\
  (ru_same r = true -> has_same vs m = false) /\ (ru_selection r = true -> has_selection vs m = false) /\
  (ru_available r = true -> b = true).
Proof.
  unfold move_flag. destruct (ru_available r), b, (ru_selection r), (has_selection vs m), (has_fixed vs m), (ru_bounds r), (has_bound_violation vs m), (ru_same r), (has_same vs m);
    cbn [andb negb]; intros H; repeat split; intros; try discriminate; try reflexivity; exfalso; apply H; reflexivity.
Qed.
Lemma existsb_false_in {A} (f : A -> bool) l a : existsb f l = false -> In a l -> f a = false.
Proof.
  intros H I. destruct (f a) eqn:E; auto. rewrite <- H. symmetry. apply existsb_exists. eauto.
Qed.
Lemma flag_bounds r vs ac b m : ru_bounds r = true -> move_flag r vs ac b m <> 0%Z -> respects vs m.
Proof.
  intros R H. apply flag_nonzero in H. destruct H as [H1 [H2 _]]. specialize (H2 R).
  intros v a I. pose proof (existsb_false_in _ _ _ H1 I) as F. pose proof (existsb_false_in _ _ _ H2 I) as G. cbn [fst snd] in *.
  split; [exact F|]. apply orb_false_iff in G. destruct G as [G1 G2]. apply Z.ltb_ge in G1. apply Z.ltb_ge in G2. lia.
Qed.
Lemma in_flag_all r vs ac av ms m f : In (m, f) (flag_all r vs ac av ms) -> In m ms /\ exists b, f = move_flag r vs ac b m.
Proof.
  unfold flag_all. intros I. apply in_map_iff in I. destruct I as [[i m'] [E I]]. cbn [fst snd] in E. injection E as <- <-.
  split; [eapply in_combine_r; exact I|eauto].
Qed.
Lemma in_concat_options {A} (l : list (option (list A))) r a : concat_options l = Some r -> In a r -> exists s, In (Some s) l /\ In a s.
Proof.
  revert r. induction l as [|[s|] l IH]; intros r E I; cbn [concat_options] in E; try discriminate.
  - injection E as <-. destruct I.
  - destruct (concat_options l) as [r'|]; [|discriminate]. injection E as <-. apply in_app_or in I. destruct I as [I|I].
    + exists s. split; [left; reflexivity|exact I].
    + destruct (IH _ eq_refl I) as [s' [I1 I2]]. exists s'. split; [right; exact I1|exact I2].
Qed.
Lemma quot_half z : (0 <= z)%Z -> (0 <= Z.quot z 2 <= z /\ (2 <= z -> 1 <= Z.quot z 2))%Z.
Proof. intros H. rewrite Z.quot_div_nonneg by lia. pose proof (Z.div_mod z 2 ltac:(lia)). pose proof (Z.mod_pos_bound z 2 ltac:(lia)). lia. Qed.
Lemma quot_half_neg z : (z <= 0)%Z -> (z <= Z.quot z 2 <= 0 /\ (z <= -2 -> Z.quot z 2 <= -1))%Z.
Proof. intros H. replace z with (- - z)%Z by lia. rewrite Z.quot_opp_l by lia. pose proof (quot_half (- z) ltac:(lia)). lia. Qed.

Lemma integer_moves_ok vs ac v m f : va_fixed (vs v) = false -> (va_lower (vs v) <= va_value (vs v) <= va_upper (vs v))%Z ->
  In (m, f) (integer_moves vs ac v) -> f <> 0%Z -> respects vs m /\ exists a, m = [(v, a)] /\ a <> va_value (vs v).
Proof.
  intros F B I N. unfold integer_moves in I. cbv zeta in I.
  set (x := va_value (vs v)) in *. set (lo := va_lower (vs v)) in *. set (hi := va_upper (vs v)) in *.
  set (ok := ac_all ac || _ || _) in *.
  assert (G : forall a, (lo <= a <= hi)%Z -> a <> x -> respects vs [(v, a)] /\ exists a0, [(v, a)] = [(v, a0)] /\ a0 <> x).
  { intros a A1 A2. split; [|eauto]. intros w b [E|[]]. injection E as <- <-. split; [exact F|exact A1]. }
  destruct I as [E|[E|[E|[E|[]]]]]; injection E as <- <-; apply G;
    match type of N with (if ok && negb ?b then _ else _) <> _ => destruct ok; cbn [andb] in N; [|exfalso; apply N; reflexivity]; destruct b eqn:Eb; cbn [negb] in N; [exfalso; apply N; reflexivity|] end.
  - apply Z.eqb_neq in Eb. lia.
  - lia.
  - apply Z.eqb_neq in Eb. lia.
  - lia.
  - apply orb_false_iff in Eb. destruct Eb as [E1 _]. apply Z.leb_gt in E1. pose proof (quot_half (hi - x) ltac:(lia)). unfold DELTA_MAX. lia.
  - apply orb_false_iff in Eb. destruct Eb as [E1 _]. apply Z.leb_gt in E1. pose proof (quot_half (hi - x) ltac:(lia)). unfold DELTA_MAX. lia.
  - apply orb_false_iff in Eb. destruct Eb as [E1 _]. apply Z.leb_gt in E1. pose proof (quot_half_neg (lo - x) ltac:(lia)). unfold DELTA_MAX. lia.
  - apply orb_false_iff in Eb. destruct Eb as [E1 _]. apply Z.leb_gt in E1. pose proof (quot_half_neg (lo - x) ltac:(lia)). unfold DELTA_MAX. lia.
Qed.

Lemma special_soft addr key c val l m : special_moves addr SoftSelection key c val = Some l -> In m l ->
  exists u k, key = Some k /\ In u (variables c) /\ u <> k /\ (m = [(u, 0%Z); (k, 0%Z)] \/ m = [(u, 1%Z); (k, 1%Z)]).
Proof.
  cbn [special_moves]. destruct key as [k|]; [|discriminate]. intros E I. injection E as <-.
  apply in_flat_map in I. destruct I as [[u a] [I1 I2]]. cbn [fst] in I2. destruct (Nat.eqb_spec u k) as [Q|Q]; [destruct I2|].
  exists u, k. split; [reflexivity|]. split; [apply in_map_iff; exists (u, a); auto|]. split; [exact Q|].
  destruct I2 as [<-|[<-|[]]]; auto.
Qed.

Lemma respects_flag01 r vs ac b m : move_flag r vs ac b m <> 0%Z ->
  (forall v a, In (v, a) m -> va_lower (vs v) = 0 /\ va_upper (vs v) = 1 /\ 0 <= a <= 1)%Z -> respects vs m.
Proof.
  intros H B v a I. apply flag_nonzero in H. destruct H as [H _]. pose proof (existsb_false_in _ _ _ H I) as F. cbn [fst] in F.
  split; [exact F|]. destruct (B v a I) as [-> [-> L]]. exact L.
Qed.

Lemma offered_respects addr vs ac g m : data_ok vs g -> offered addr vs ac g m -> respects vs m.
Proof.
  intros D [l [f [E [I N]]]]. destruct g as [bs|is|t items av|ms av|ps av|ms]; cbn [gen_update data_ok] in *.
  - injection E as <-. apply in_map_iff in I. destruct I as [v [E I]]. unfold binary_move in E.
    destruct (D v I) as [F [L [U B]]]. assert (Z1 : (0 <= 1 - va_value (vs v) <= 1)%Z) by lia. revert E Z1. generalize (1 - va_value (vs v))%Z. intros z E Z1. injection E as <- _. intros w a [Q|[]]. injection Q as <- <-. split; [exact F|]. rewrite L, U. exact Z1.
  - injection E as <-. apply in_flat_map in I. destruct I as [v [I1 I2]]. destruct (D v I1) as [F B].
    now destruct (integer_moves_ok _ _ _ _ _ F B I2 N).
  - destruct (concat_options _) as [ms|] eqn:Ec; [|discriminate]. cbn [option_map] in E. injection E as <-.
    apply in_flag_all in I. destruct I as [I [b ->]].
    destruct (in_concat_options _ _ _ Ec I) as [s [I1 I2]]. apply in_map_iff in I1. destruct I1 as [[c key] [E1 I1]]. cbn [fst snd] in E1.
    destruct t; try (eapply flag_bounds; [|exact N]; reflexivity).
    destruct (special_soft _ _ _ _ _ _ E1 I2) as [u [k [-> [Iu [Nu M]]]]].
    apply (respects_flag01 _ _ _ _ _ N). intros v a Iv.
    assert (V : v = u \/ v = k) by (destruct M as [-> | ->]; destruct Iv as [Q|[Q|[]]]; injection Q as <- _; auto).
    assert (A : (0 <= a <= 1)%Z) by (destruct M as [-> | ->]; destruct Iv as [Q|[Q|[]]]; injection Q as _ <-; lia).
    destruct (D c (Some k) v I1) as [D1 D2]; [destruct V as [-> | ->]; auto|]. auto.
  - injection E as <-. apply in_flag_all in I. destruct I as [I [b ->]]. apply (respects_flag01 _ _ _ _ _ N). intros v a Iv. exact (D m v a I Iv).
  - injection E as <-. apply in_flag_all in I. destruct I as [I [b ->]]. apply (respects_flag01 _ _ _ _ _ N). intros v a Iv.
    apply in_flat_map in I. destruct I as [[p q] [I1 I2]]. destruct (D p q I1) as [D1 [D2 [D3 D4]]].
    cbn [two_flip_moves fst snd] in I2. destruct I2 as [<-|[<-|[]]]; destruct Iv as [Q|[Q|[]]]; injection Q as <- <-; (split; [assumption|split; [assumption|lia]]).
  - injection E as <-. apply in_flag_all in I. destruct I as [I [b ->]]. eapply flag_bounds; [|exact N]. reflexivity.
Qed.

Lemma setup_mutable vs l : forall v, In v (mutable_vars vs l) -> In v l /\ va_fixed (vs v) = false.
Proof. intros v I. apply filter_In in I. destruct I as [I F]. apply negb_true_iff in F. auto. Qed.

(** Every single step allowed by the bounds is offered. *)
Lemma integer_steps addr vs ac l v a : ac_all ac = true -> In v l -> (va_lower (vs v) <= a <= va_upper (vs v))%Z ->
  (a = va_value (vs v) + 1 \/ a = va_value (vs v) - 1)%Z -> offered addr vs ac (GInteger l) [(v, a)].
Proof.
  intros A I B S. exists (flat_map (integer_moves vs ac) l), 1%Z. split; [reflexivity|]. split; [|discriminate].
  apply in_flat_map. exists v. split; [exact I|]. unfold integer_moves. cbv zeta. rewrite A. cbn [orb andb].
  destruct S as [-> | ->].
  - left. destruct (Z.eqb_spec (va_value (vs v)) (va_upper (vs v))); [lia|reflexivity].
  - right; left. destruct (Z.eqb_spec (va_value (vs v)) (va_lower (vs v))); [lia|reflexivity].
Qed.
Lemma binary_step addr vs ac l v : ac_all ac = true -> In v l -> offered addr vs ac (GBinary l) [(v, (1 - va_value (vs v))%Z)].
Proof.
  intros A I. exists (map (binary_move vs ac) l), 1%Z. split; [reflexivity|]. split; [|discriminate].
  apply in_map_iff. exists v. split; [|exact I]. unfold binary_move. now rewrite A.
Qed.

(** * C35 *)
Lemma classify_pair x c t key : classify x c = (t, key) ->
  In t [ExclusiveOR; ExclusiveNOR; InvertedIntegers; BalancedIntegers; ConstantSumIntegers; ConstantDifferenceIntegers;
        ConstantRatioIntegers; Aggregation] -> b_pair_equal x c = Some (t, key).
Proof.
  unfold classify. intros E T. cbn [first_verdict] in E.
  destruct (b_singleton c) as [[t1 k1]|] eqn:E1.
  { exfalso. unfold b_singleton in E1. destruct (_ =? _)%nat; [|discriminate]. injection E1 as <- <-. injection E as <- <-. cbn [In] in T. intuition discriminate. }
  destruct (b_pair_equal x c) as [[t2 k2]|] eqn:E2; [injection E as <- <-; reflexivity|exfalso].
  destruct (b_pair_inequality x c) as [[t3 k3]|] eqn:E3.
  { unfold b_pair_inequality in E3. injection E as <- <-.
    repeat match type of E3 with (match ?q with _ => _ end) = _ => destruct q end; try discriminate; injection E3 as <- <-; cbn [In] in T; intuition discriminate. }
  destruct (b_trinomial x c) as [[t4 k4]|] eqn:E4.
  { unfold b_trinomial in E4. injection E as <- <-.
    repeat match type of E4 with (match ?q with _ => _ end) = _ => destruct q end; try discriminate; injection E4 as <- <-; cbn [In] in T; intuition discriminate. }
  destruct (b_set c) as [[t5 k5]|] eqn:E5.
  { unfold b_set in E5. injection E as <- <-.
    repeat match type of E5 with (match ?q with _ => _ end) = _ => destruct q end; try discriminate; injection E5 as <- <-; cbn [In] in T; intuition discriminate. }
  destruct (b_flow x c) as [[t6 k6]|] eqn:E6.
  { unfold b_flow in E6. cbv zeta in E6. injection E as <- <-.
    repeat match type of E6 with (match ?q with _ => _ end) = _ => destruct q end; try discriminate; injection E6 as <- <-; cbn [In] in T; intuition discriminate. }
  destruct (b_minmax x c) as [[t7 k7]|] eqn:E7.
  { unfold b_minmax in E7. cbv zeta in E7. injection E as <- <-.
    repeat match type of E7 with (match ?q with _ => _ end) = _ => destruct q end; try discriminate; injection E7 as <- <-; cbn [In] in T; intuition discriminate. }
  destruct (b_knapsack x c) as [[t8 k8]|] eqn:E8.
  { unfold b_knapsack in E8. cbv zeta in E8. injection E as <- <-.
    repeat match type of E8 with (match ?q with _ => _ end) = _ => destruct q end; try discriminate; injection E8 as <- <-; cbn [In] in T; intuition discriminate. }
  destruct (b_gf2 x c) as [[t9 k9]|] eqn:E9.
  { unfold b_gf2 in E9. cbv zeta in E9. injection E as <- <-.
    repeat match type of E9 with (match ?q with _ => _ end) = _ => destruct q end; try discriminate; injection E9 as <- <-; cbn [In] in T; intuition discriminate. }
  injection E as <- <-. cbn [In] in T. intuition discriminate.
Qed.
Lemma classify_inequality x c t key : classify x c = (t, key) -> In t [Precedence; VariableBound] -> b_pair_inequality x c = Some (t, key).
Proof.
  unfold classify. intros E T. cbn [first_verdict] in E.
  destruct (b_singleton c) as [[t1 k1]|] eqn:E1.
  { exfalso. unfold b_singleton in E1. destruct (_ =? _)%nat; [|discriminate]. injection E1 as <- <-. injection E as <- <-. cbn [In] in T. intuition discriminate. }
  destruct (b_pair_equal x c) as [[t2 k2]|] eqn:E2.
  { exfalso. unfold b_pair_equal in E2. cbv zeta in E2. injection E as <- <-.
    repeat match type of E2 with (match ?q with _ => _ end) = _ => destruct q end; try discriminate; injection E2 as <- <-; cbn [In] in T; intuition discriminate. }
  destruct (b_pair_inequality x c) as [[t3 k3]|] eqn:E3; [injection E as <- <-; reflexivity|exfalso].
  destruct (b_trinomial x c) as [[t4 k4]|] eqn:E4.
  { unfold b_trinomial in E4. injection E as <- <-.
    repeat match type of E4 with (match ?q with _ => _ end) = _ => destruct q end; try discriminate; injection E4 as <- <-; cbn [In] in T; intuition discriminate. }
  destruct (b_set c) as [[t5 k5]|] eqn:E5.
  { unfold b_set in E5. injection E as <- <-.
    repeat match type of E5 with (match ?q with _ => _ end) = _ => destruct q end; try discriminate; injection E5 as <- <-; cbn [In] in T; intuition discriminate. }
  destruct (b_flow x c) as [[t6 k6]|] eqn:E6.
  { unfold b_flow in E6. cbv zeta in E6. injection E as <- <-.
    repeat match type of E6 with (match ?q with _ => _ end) = _ => destruct q end; try discriminate; injection E6 as <- <-; cbn [In] in T; intuition discriminate. }
  destruct (b_minmax x c) as [[t7 k7]|] eqn:E7.
  { unfold b_minmax in E7. cbv zeta in E7. injection E as <- <-.
    repeat match type of E7 with (match ?q with _ => _ end) = _ => destruct q end; try discriminate; injection E7 as <- <-; cbn [In] in T; intuition discriminate. }
  destruct (b_knapsack x c) as [[t8 k8]|] eqn:E8.
  { unfold b_knapsack in E8. cbv zeta in E8. injection E as <- <-.
    repeat match type of E8 with (match ?q with _ => _ end) = _ => destruct q end; try discriminate; injection E8 as <- <-; cbn [In] in T; intuition discriminate. }
  destruct (b_gf2 x c) as [[t9 k9]|] eqn:E9.
  { unfold b_gf2 in E9. cbv zeta in E9. injection E as <- <-.
    repeat match type of E9 with (match ?q with _ => _ end) = _ => destruct q end; try discriminate; injection E9 as <- <-; cbn [In] in T; intuition discriminate. }
  injection E as <- <-. cbn [In] in T. intuition discriminate.
Qed.
