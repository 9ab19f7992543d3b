(** * No chain move is withheld, unless there are too many or it is a duplicate *)
From Coq Require Import List Bool Arith Permutation Lia.
From Verif Require Import SwitchModel SwitchSpec SwitchProof SwitchProof2 SwitchProof3.
Import ListNotations.

Section Run.
Variables (opt : kind -> bool) (im cap : nat).

Definition full_inv (s : state) : Prop :=
  st_built s = built (st_log s) /\
  length (ge_moves (st_nb s Chain)) <= st_built s /\
  (forall m after older, st_log s = after ++ Built m :: older -> unbroken after -> exists a, In (m, a) (ge_moves (st_nb s Chain))) /\
  (forall m recent old after older, stagnant (st_log s) recent old -> ~ In (Took Chain m) recent ->
     old = after ++ Built m :: older -> unbroken after ->
     ge_enabled (st_nb s Chain) = true /\ In (m, true) (ge_moves (st_nb s Chain))).

Lemma full_inv_plain : forall nb b log e,
  (forall i f, e <> Ended i f) -> (forall m, e <> Built m) ->
  full_inv (mkSt nb b log) -> full_inv (mkSt nb b (e :: log)).
Proof.
  intros nb b log e He Hb (H0 & H1 & H2 & H3); unfold full_inv; cbn [st_nb st_built st_log] in *.
  split; [|split; [exact H1|split]].
  - rewrite H0; unfold built; cbn [filter]. destruct e; try reflexivity. exfalso; eapply Hb; reflexivity.
  - intros m af ol E U. destruct af as [|x af]; cbn in E; injection E as E1 E2; subst; [exfalso; eapply Hb; reflexivity|].
    apply (H2 m af ol eq_refl). intros f X; apply (U f); right; exact X.
  - intros m r o af ol S N E U. destruct (stagnant_plain e log r o He S) as (r' & -> & S').
    apply (H3 m r' o af ol S'); [intro X; apply N; right; exact X | exact E | exact U].
Qed.

Lemma full_inv_ext : forall nb nb' b log,
  nb' Chain = nb Chain -> full_inv (mkSt nb b log) -> full_inv (mkSt nb' b log).
Proof. intros nb nb' b log E H; unfold full_inv in *; cbn [st_nb st_built st_log] in *; rewrite E; exact H. Qed.

Lemma full_inv_took : forall nb b log m,
  full_inv (mkSt nb b log) -> full_inv (mkSt (take Chain m nb) b (Took Chain m :: log)).
Proof.
  intros nb b log m (H0 & H1 & H2 & H3).
  assert (E : take Chain m nb Chain = mkGen (map (fun x => if Nat.eqb (fst x) m then (fst x, false) else x) (ge_moves (nb Chain))) (ge_enabled (nb Chain))).
  { unfold take; cbn [is_special]; unfold mark; apply put_same. }
  unfold full_inv; cbn [st_nb st_built st_log] in *; rewrite E; cbn [ge_moves ge_enabled].
  split; [|split; [rewrite map_length; exact H1|split]].
  - rewrite H0; reflexivity.
  - intros x af ol El U. destruct af as [|y af]; cbn in El; [discriminate|]. injection El as E1 E2.
    destruct (H2 x af ol E2) as (a & Ha); [intros f X; apply (U f); right; exact X|].
    exists (if Nat.eqb x m then false else a). apply in_map_iff; exists (x, a); split; [cbn; destruct (Nat.eqb x m); reflexivity | exact Ha].
  - intros x r o af ol S N El U. destruct (stagnant_plain (Took Chain m) log r o ltac:(intros; discriminate) S) as (r' & -> & S').
    destruct (H3 x r' o af ol S') as (A & B); [intro X; apply N; right; exact X | exact El | exact U|].
    split; [exact A|]. apply in_map_iff; exists (x, true); split; [|exact B]. cbn.
    destruct (Nat.eqb_spec x m); [exfalso; apply N; left; subst; reflexivity | reflexivity].
Qed.

Lemma full_inv_register : forall n s, full_inv s -> full_inv (register_all n s).
Proof.
  induction n as [|n IH]; intros s H; cbn; [exact H|]. apply IH. destruct s as [nb b log].
  destruct H as (H0 & H1 & H2 & H3); unfold register; cbn [st_nb st_built st_log] in *.
  unfold full_inv; cbn [st_nb st_built st_log]; rewrite put_same; cbn [ge_moves ge_enabled].
  split; [|split; [|split]].
  - rewrite H0; reflexivity.
  - rewrite app_length; cbn; lia.
  - intros m af ol E U. destruct af as [|x af]; cbn in E; injection E as E1 E2.
    + subst m; exists false; apply in_app_iff; right; left; reflexivity.
    + destruct (H2 m af ol E2) as (a & Ha); [intros f X; apply (U f); right; exact X|].
      exists a; apply in_app_iff; left; exact Ha.
  - intros m r o af ol S N E U. destruct (stagnant_plain (Built b) log r o ltac:(intros; discriminate) S) as (r' & -> & S').
    destruct (H3 m r' o af ol S') as (A & B); [intro X; apply N; right; exact X | exact E | exact U|].
    split; [exact A | apply in_app_iff; left; exact B].
Qed.

Lemma full_inv_iterate : forall flag pick chains s, opt Chain = true -> full_inv s -> full_inv (iterate opt flag pick chains s).
Proof.
  intros flag pick chains [nb b log] Ho H; unfold iterate; cbv zeta; cbn [st_nb st_built st_log].
  set (e := Offered flag (offers flag nb)).
  assert (H1 : full_inv (mkSt nb b (e :: log))) by (apply full_inv_plain; [intros; discriminate | intros; discriminate | exact H]).
  destruct (nth_error (offers flag nb) pick) as [[j m]|]; [|exact H1].
  rewrite Ho; apply full_inv_register. destruct (kind_eqb j Chain) eqn:E.
  - apply kind_eqb_spec in E; subst; apply full_inv_took; exact H1.
  - apply full_inv_plain; [intros; discriminate | intros; discriminate |].
    apply (full_inv_ext nb); [|exact H1]. apply take_other. intro X; apply kind_eqb_spec in X; congruence.
Qed.

Lemma full_inv_reorder : forall f nb b log, (forall l, Permutation l (f l)) ->
  full_inv (mkSt nb b log) -> full_inv (mkSt (set_chain f nb) b log).
Proof.
  intros f nb b log P (H0 & H1 & H2 & H3); unfold full_inv; cbn [st_nb st_built st_log] in *; rewrite set_chain_same; cbn [ge_moves ge_enabled].
  split; [exact H0|]; split; [rewrite <- (Permutation_length (P _)); exact H1|]; split.
  - intros m af ol E U; destruct (H2 m af ol E U) as (a & Ha); exists a; eapply Permutation_in; [apply P | exact Ha].
  - intros m r o af ol S N E U; destruct (H3 m r o af ol S N E U) as (A & B); split; [exact A|]; eapply Permutation_in; [apply P | exact B].
Qed.

Lemma full_inv_finish : forall ar sh improved it s,
  opt Chain = true -> st_built s <= cap -> (forall l, Permutation l (ar l)) ->
  full_inv s -> full_inv (finish opt im cap ar sh improved it s).
Proof.
  intros ar sh improved it [nb b log] Ho Hc Pa (H0 & H1 & H2 & H3); cbn [st_nb st_built st_log] in *.
  unfold finish; cbv zeta; cbn [st_nb st_built st_log].
  set (log' := Ended improved (Nat.eqb it im) :: log).
  set (nb2 := if improved && opt Chain then set_chain (fun _ => []) _ else _).
  assert (F2 : full_inv (mkSt nb2 b log')).
  { unfold nb2, log'; clear nb2 log'; rewrite Ho; destruct improved; cbn [andb].
    - unfold full_inv; cbn [st_nb st_built st_log]; rewrite set_chain_same; cbn [ge_moves ge_enabled].
      split; [rewrite H0; reflexivity|]; split; [cbn; lia|]; split.
      + intros m af ol E U. destruct af as [|x af]; cbn in E; injection E as E1 E2; [discriminate|].
        exfalso; subst x; eapply U; left; reflexivity.
      + intros m r o af ol S; exfalso; exact (stagnant_improved _ _ _ _ S).
    - destruct (Nat.eqb it im).
      + assert (M : map fst (ge_moves (enable_special opt nb Chain)) = map fst (ge_moves (nb Chain))).
        { destruct (enable_special_at opt nb Chain) as [E|E]; rewrite E; cbn [is_special]; unfold afresh; cbn [ge_moves]; rewrite ?map_map, on_moves; reflexivity. }
        assert (K : forall m af ol, Ended false true :: log = af ++ Built m :: ol -> unbroken af -> exists af', log = af' ++ Built m :: ol /\ unbroken af').
        { intros m af ol E U. destruct af as [|x af]; cbn in E; injection E as E1 E2; [discriminate|].
          exists af; split; [exact E2 | intros f X; apply (U f); right; exact X]. }
        unfold full_inv; cbn [st_nb st_built st_log]. split; [rewrite H0; reflexivity|]; split; [|split].
        * rewrite <- (map_length fst), M, map_length; exact H1.
        * intros m af ol E U. destruct (K m af ol E U) as (af' & E' & U'). destruct (H2 m af' ol E' U') as (a & Ha).
          assert (X : In m (map fst (ge_moves (enable_special opt nb Chain)))) by (rewrite M; apply in_map_iff; exists (m, a); split; [reflexivity | exact Ha]).
          apply in_map_iff in X; destruct X as ((y, c) & Y & X); cbn in Y; subst y; exists c; exact X.
        * intros m r o af ol S N E U. destruct (stagnant_full _ _ _ S) as (-> & ->).
          destruct (H2 m af ol E U) as (a & Ha).
          assert (En : ge_enabled (on (opt Chain) (nb Chain)) = true).
          { unfold on; rewrite Ho. destruct (ge_moves (nb Chain)); [destruct Ha | reflexivity]. }
          rewrite (enable_special_reset opt nb Chain eq_refl En); unfold afresh; cbn [ge_moves ge_enabled].
          split; [exact En|]. rewrite on_moves; apply in_map_iff; exists (m, a); split; [reflexivity | exact Ha].
      + unfold full_inv; cbn [st_nb st_built st_log]. split; [rewrite H0; reflexivity|]; split; [exact H1|]; split.
        * intros m af ol E U. destruct af as [|x af]; cbn in E; injection E as E1 E2; [discriminate|].
          apply (H2 m af ol E2). intros f X; apply (U f); right; exact X.
        * intros m r o af ol S N E U. destruct (stagnant_idle log r o S) as (r' & -> & S').
          apply (H3 m r' o af ol S'); [intro X; apply N; right; exact X | exact E | exact U]. }
  clearbody nb2. set (nb3 := if ge_enabled (nb2 Chain) && Nat.ltb 0 cap then set_chain ar nb2 else nb2).
  assert (F3 : full_inv (mkSt nb3 b log')).
  { unfold nb3; destruct (ge_enabled (nb2 Chain) && _); [apply full_inv_reorder; assumption | exact F2]. }
  clearbody nb3. destruct (Nat.ltb_spec cap (length (ge_moves (nb3 Chain)))) as [X|X]; [|exact F3].
  destruct F3 as (_ & L & _); cbn [st_nb st_built] in L; lia.
Qed.

Lemma register_built : forall n s, st_built s <= st_built (register_all n s).
Proof. induction n as [|n IH]; intro s; cbn; [lia|]. pose proof (IH (register s)); cbn in *; lia. Qed.

Lemma step_built : forall s i, st_built s <= st_built (step opt im cap s i).
Proof.
  intros s i; destruct i as [flag pick chains|ar sh improved it]; cbn [step].
  - unfold iterate; cbv zeta. destruct (nth_error _ pick) as [[j m]|]; [|cbn; lia].
    destruct (opt Chain); [|cbn; lia].
    match goal with |- _ <= st_built (register_all chains ?S) => pose proof (register_built chains S) as X end; cbn in X; exact X.
  - unfold finish; cbn; lia.
Qed.

Lemma full_kept : forall inputs s0, opt Chain = true -> full_inv s0 -> Forall reorders inputs ->
  st_built (fold_left (step opt im cap) inputs s0) <= cap ->
  full_inv (fold_left (step opt im cap) inputs s0).
Proof.
  intros inputs s0 Ho H; induction inputs as [|i inputs IH] using rev_ind; intros R B; [exact H|].
  rewrite fold_left_app in *; cbn [fold_left] in *. apply Forall_app in R; destruct R as (R1 & R2).
  pose proof (step_built (fold_left (step opt im cap) inputs s0) i) as M.
  assert (F : full_inv (fold_left (step opt im cap) inputs s0)) by (apply IH; [exact R1 | lia]).
  inversion R2 as [|? ? Ri _]; subst. destruct i as [flag pick chains|ar sh improved it]; cbn [step] in *.
  - apply full_inv_iterate; assumption.
  - destruct Ri as (Ra & _); apply full_inv_finish; [exact Ho | lia | exact Ra | exact F].
Qed.

Lemma fold_built : forall inputs s0, st_built s0 = built (st_log s0) ->
  st_built (fold_left (step opt im cap) inputs s0) = built (st_log (fold_left (step opt im cap) inputs s0)).
Proof.
  intros inputs s0 H; induction inputs as [|i inputs IH] using rev_ind; [exact H|].
  rewrite fold_left_app; cbn [fold_left]. set (s := fold_left (step opt im cap) inputs s0) in *. clearbody s.
  assert (G : forall n t, st_built t = built (st_log t) -> st_built (register_all n t) = built (st_log (register_all n t))).
  { induction n as [|n IHn]; intros t Ht; cbn; [exact Ht|]. apply IHn; unfold register; cbn [st_built st_log]; rewrite Ht; reflexivity. }
  destruct i as [flag pick chains|ar sh improved it]; cbn [step].
  - unfold iterate; cbv zeta. destruct (nth_error _ pick) as [[j m]|]; [|exact IH].
    destruct (opt Chain); [apply G|]; exact IH.
  - exact IH.
Qed.
End Run.

Lemma run_chain_all : forall wanted found im cap inputs later flag l past m recent old after older,
  Forall reorders inputs ->
  built (run wanted true found im cap inputs) <= cap ->
  run wanted true found im cap inputs = later ++ Offered flag l :: past ->
  wanted Chain = true -> flag Chain m = true ->
  stagnant past recent old -> ~ In (Took Chain m) recent ->
  old = after ++ Built m :: older -> (forall f, ~ In (Ended true f) after) ->
  In (Chain, m) l.
Proof.
  intros wanted found im cap inputs later flag l past m recent old after older R B E W F S N Eo U.
  set (opt := drop_chain wanted true). set (s0 := mkSt (enable_default opt (setup wanted found)) 0 []).
  assert (Ho : opt Chain = true) by (unfold opt, drop_chain; rewrite W; reflexivity).
  destruct (offered_origin opt im cap inputs s0 later flag l past eq_refl E) as (pre & post & Ei & Hp & ->).
  assert (I0 : full_inv s0).
  { unfold full_inv, s0; cbn [st_nb st_built st_log]. split; [reflexivity|]; split; [rewrite enable_default_at; cbn; lia|]; split.
    - intros x af ol X; destruct af; discriminate.
    - intros x r o af ol (X & _); destruct r; discriminate. }
  rewrite Ei in R; apply Forall_app in R; destruct R as (R & _).
  assert (Bp : st_built (fold_left (step opt im cap) pre s0) <= cap).
  { assert (Bi : st_built (fold_left (step opt im cap) inputs s0) <= cap) by (rewrite fold_built by reflexivity; exact B).
    rewrite Ei, fold_left_app in Bi. clear - Bi. revert Bi; generalize (fold_left (step opt im cap) pre s0) as t.
    induction post as [|i post IH]; intros t Bi; cbn in Bi; [exact Bi|].
    pose proof (IH _ Bi); pose proof (step_built opt im cap t i); lia. }
  destruct (full_kept opt im cap pre s0 Ho I0 R Bp) as (_ & _ & _ & H3). rewrite Hp in H3.
  destruct (H3 m recent old after older S N Eo U) as (A & X).
  apply offers_spec; split; [exact A|]; split; [exact F|]. exists true; split; [exact X | reflexivity].
Qed.
