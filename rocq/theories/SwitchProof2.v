(** * The invariants of the run *)
From Coq Require Import List Bool Arith Permutation Lia.
From Verif Require Import SwitchModel SwitchSpec SwitchProof.
Import ListNotations.

(** Stagnation and the next event. *)
Lemma stagnant_plain : forall e past recent old,
  (forall i f, e <> Ended i f) -> stagnant (e :: past) recent old ->
  exists recent', recent = e :: recent' /\ stagnant past recent' old.
Proof.
  intros e past recent old He (Heq & Hr). destruct recent as [|x r].
  - cbn in Heq; inversion Heq; subst; exfalso; eapply He; reflexivity.
  - cbn in Heq; inversion Heq; subst. exists r; split; [reflexivity|]; split; [reflexivity|].
    intros i f H; apply (Hr i f); right; exact H.
Qed.

Lemma stagnant_grow : forall e past recent old,
  (forall i f, e = Ended i f -> i = false /\ f = false) -> stagnant past recent old -> stagnant (e :: past) (e :: recent) old.
Proof.
  intros e past recent old He (Heq & Hr); split; [cbn; rewrite Heq; reflexivity|].
  intros i f [H|H]; [apply He; exact H | apply (Hr i f H)].
Qed.

Lemma stagnant_idle : forall past recent old,
  stagnant (Ended false false :: past) recent old ->
  exists recent', recent = Ended false false :: recent' /\ stagnant past recent' old.
Proof.
  intros past recent old (Heq & Hr). destruct recent as [|x r]; [cbn in Heq; inversion Heq|].
  cbn in Heq; inversion Heq; subst. exists r; split; [reflexivity|]; split; [reflexivity|].
  intros i f H; apply (Hr i f); right; exact H.
Qed.

Lemma stagnant_improved : forall f past recent old, ~ stagnant (Ended true f :: past) recent old.
Proof.
  intros f past recent old (Heq & Hr). destruct recent as [|x r]; [cbn in Heq; inversion Heq|].
  cbn in Heq; inversion Heq; subst. destruct (Hr true f (or_introl eq_refl)); discriminate.
Qed.

Lemma stagnant_full : forall past recent old,
  stagnant (Ended false true :: past) recent old -> recent = [] /\ old = past.
Proof.
  intros past recent old (Heq & Hr). destruct recent as [|x r].
  - cbn in Heq; inversion Heq; subst; split; reflexivity.
  - cbn in Heq; inversion Heq; subst. destruct (Hr false true (or_introl eq_refl)); discriminate.
Qed.

Lemma stagnant_now : forall past, stagnant (Ended false true :: past) [] past.
Proof. intro past; split; [reflexivity | intros i f []]. Qed.

Section Run.
Variables (opt : kind -> bool) (im cap : nat) (found : kind -> list nat).

(** A special kind other than Chain. *)
Definition special_inv (k : kind) (s : state) : Prop :=
  let g := st_nb s k in
  map fst (ge_moves g) = (if opt k then found k else []) /\
  (ge_enabled g = true <-> opt k = true /\ found k <> [] /\ exists recent old, stagnant (st_log s) recent old) /\
  (forall recent old m a, stagnant (st_log s) recent old -> In (m, a) (ge_moves g) -> (a = true <-> ~ In (Took k m) recent)).

Lemma special_inv_plain : forall k nb b log e,
  (forall i f, e <> Ended i f) -> (forall m, e <> Took k m) ->
  special_inv k (mkSt nb b log) -> special_inv k (mkSt nb b (e :: log)).
Proof.
  intros k nb b log e He Ht (H1 & H2 & H3); cbn in *; split; [exact H1|]; split.
  - rewrite H2; split; intros (A & B & r & o & C); split; try exact A; split; try exact B.
    + exists (e :: r), o; apply stagnant_grow; [|exact C]; intros i f Hx; exfalso; exact (He i f Hx).
    + destruct (stagnant_plain e log r o He C) as (r' & _ & C'); exists r', o; exact C'.
  - intros r o m a C Hi. destruct (stagnant_plain e log r o He C) as (r' & -> & C').
    rewrite (H3 r' o m a C' Hi); split; intros N I; apply N; [destruct I as [I|I]; [exfalso; exact (Ht m I) | exact I] | right; exact I].
Qed.

Lemma special_inv_ext : forall k nb nb' b b' log,
  nb' k = nb k -> special_inv k (mkSt nb b log) -> special_inv k (mkSt nb' b' log).
Proof. intros k nb nb' b b' log E H; unfold special_inv in *; cbn in *; rewrite E; exact H. Qed.

Lemma special_inv_took : forall k nb b log m,
  is_special k = true -> special_inv k (mkSt nb b log) -> special_inv k (mkSt (take k m nb) b (Took k m :: log)).
Proof.
  intros k nb b log m Hs (H1 & H2 & H3); unfold special_inv; cbn in *.
  unfold take; rewrite Hs; unfold mark; rewrite put_same; cbn.
  assert (He : forall i f, Took k m <> Ended i f) by (intros; discriminate).
  split; [|split].
  - rewrite map_map, <- H1; apply map_ext; intros (x, y); cbn; destruct (Nat.eqb x m); reflexivity.
  - rewrite H2; split; intros (A & B & r & o & C); split; try exact A; split; try exact B.
    + exists (Took k m :: r), o; apply stagnant_grow; [|exact C]; intros i f Hx; discriminate.
    + destruct (stagnant_plain _ log r o He C) as (r' & _ & C'); exists r', o; exact C'.
  - intros r o x a C Hi. destruct (stagnant_plain _ log r o He C) as (r' & -> & C').
    apply in_map_iff in Hi; destruct Hi as ((y, c) & E & Hi); cbn in E.
    destruct (Nat.eqb y m) eqn:Em.
    + apply Nat.eqb_eq in Em; inversion E; subst. split; [discriminate | intro N; exfalso; apply N; left; reflexivity].
    + apply Nat.eqb_neq in Em; inversion E; subst. rewrite (H3 r' o x a C' Hi).
      split; intros N I; apply N; [destruct I as [I|I]; [inversion I; subst; congruence | exact I] | right; exact I].
Qed.

Lemma take_other : forall j m nb k, j <> k -> take j m nb k = nb k.
Proof.
  intros j m nb k H; unfold take; destruct (is_special j); [|reflexivity]; unfold mark; apply put_other.
  destruct (kind_eqb k j) eqn:E; [apply kind_eqb_spec in E; congruence | reflexivity].
Qed.

Lemma special_inv_register : forall k n s, k <> Chain -> special_inv k s -> special_inv k (register_all n s).
Proof.
  intros k n; induction n as [|n IH]; intros s Hk H; cbn; [exact H|].
  apply IH; [exact Hk|]. unfold register. apply special_inv_plain; [intros; discriminate | intros; discriminate |].
  destruct s as [nb b log]; apply (special_inv_ext k nb _ b); [|exact H].
  cbn; apply put_other; destruct k; try reflexivity; congruence.
Qed.

Lemma special_inv_iterate : forall k flag pick chains s,
  is_special k = true -> k <> Chain -> special_inv k s -> special_inv k (iterate opt flag pick chains s).
Proof.
  intros k flag pick chains [nb b log] Hs Hk H; unfold iterate; cbv zeta; cbn [st_nb st_built st_log].
  assert (H1 : special_inv k (mkSt nb b (Offered flag (offers flag nb) :: log)))
    by (apply special_inv_plain; [intros; discriminate | intros; discriminate | exact H]).
  destruct (nth_error (offers flag nb) pick) as [[j m]|]; [|exact H1].
  assert (H2 : special_inv k (mkSt (take j m nb) b (Took j m :: Offered flag (offers flag nb) :: log))).
  { destruct (kind_eqb j k) eqn:E.
    - apply kind_eqb_spec in E; subst; apply special_inv_took; assumption.
    - assert (j <> k) by (intro X; apply kind_eqb_spec in X; congruence).
      apply special_inv_plain; [intros; discriminate | intros x Hx; inversion Hx; congruence |].
      apply (special_inv_ext k nb _ b); [apply take_other; assumption | exact H1]. }
  destruct (opt Chain); [apply special_inv_register; assumption | exact H2].
Qed.

Lemma on_moves : forall b g, ge_moves (on b g) = ge_moves g.
Proof. intros b g; unfold on; destruct (b && _); reflexivity. Qed.
Lemma off_moves : forall b g, ge_moves (off b g) = ge_moves g.
Proof. intros b g; unfold off; destruct b; reflexivity. Qed.

Lemma special_inv_finish : forall k ar sh improved it s,
  is_special k = true -> k <> Chain -> special_inv k s -> special_inv k (finish opt im cap ar sh improved it s).
Proof.
  intros k ar sh improved it s Hs Hk H.
  assert (Hlog : st_log (finish opt im cap ar sh improved it s) = Ended improved (Nat.eqb it im) :: st_log s) by reflexivity.
  unfold special_inv; cbv zeta; rewrite Hlog, (finish_other opt im cap ar sh improved it s k Hk).
  destruct s as [nb b log]; cbn [st_nb st_log] in *. destruct H as (H1 & H2 & H3); cbn in H1, H2, H3.
  destruct improved; [|destruct (Nat.eqb it im)].
  - rewrite disable_special_at, Hs. split; [rewrite off_moves; exact H1|]; split.
    + split; [|intros (_ & _ & r & o & C); exfalso; exact (stagnant_improved _ _ _ _ C)].
      unfold off; destruct (opt k) eqn:Ho; cbn; [discriminate|].
      intro E; apply H2 in E; destruct E as (A & _); discriminate.
    + intros r o m a C; exfalso; exact (stagnant_improved _ _ _ _ C).
  - assert (Hm : map fst (ge_moves (enable_special opt nb k)) = if opt k then found k else []).
    { destruct (enable_special_at opt nb k) as [E|E]; rewrite E, Hs; [rewrite on_moves; exact H1|].
      unfold afresh; cbn; rewrite map_map, on_moves; cbn; exact H1. }
    assert (He : ge_enabled (enable_special opt nb k) = ge_enabled (on (opt k) (nb k)))
      by (destruct (enable_special_at opt nb k) as [E|E]; rewrite E, Hs; reflexivity).
    assert (Hon : ge_enabled (on (opt k) (nb k)) = true <-> opt k = true /\ found k <> []).
    { unfold on. destruct (opt k) eqn:Ho; cbn [andb].
      - destruct (ge_moves (nb k)) as [|x l] eqn:El; cbn in H1; cbn.
        + rewrite H2; split; [intros (_ & B & _); rewrite <- H1 in B; exfalso; apply B; reflexivity | intros (_ & B); exfalso; apply B; symmetry; exact H1].
        + split; [intros _; split; [reflexivity | rewrite <- H1; discriminate] | reflexivity].
      - rewrite H2; split; [intros (A & _); discriminate | intros (A & _); discriminate]. }
    split; [exact Hm|]; split.
    + rewrite He, Hon; split; [intros (A & B); split; [exact A|]; split; [exact B|]; exists [], log; apply stagnant_now | intros (A & B & _); split; assumption].
    + intros r o m a C Hi. destruct (stagnant_full _ _ _ C) as (-> & ->).
      split; [intros _ [] | intros _].
      assert (Hen : ge_enabled (on (opt k) (nb k)) = true).
      { apply Hon. assert (In m (map fst (ge_moves (enable_special opt nb k)))) as Hf by (apply in_map_iff; exists (m, a); split; [reflexivity | exact Hi]).
        rewrite Hm in Hf. destruct (opt k); [split; [reflexivity|]; intro X; rewrite X in Hf; exact Hf | destruct Hf]. }
      rewrite (enable_special_reset opt nb k Hs Hen) in Hi; unfold afresh in Hi; cbn in Hi.
      apply in_map_iff in Hi; destruct Hi as (x & E & _); inversion E; reflexivity.
  - split; [exact H1|]; split.
    + rewrite H2; split; intros (A & B & r & o & C); split; try exact A; split; try exact B.
      * exists (Ended false false :: r), o; apply stagnant_grow; [|exact C]; intros i f Hx; inversion Hx; split; reflexivity.
      * destruct (stagnant_idle log r o C) as (r' & _ & C'); exists r', o; exact C'.
    + intros r o m a C Hi. destruct (stagnant_idle log r o C) as (r' & -> & C').
      rewrite (H3 r' o m a C' Hi); split; intros N I; apply N; [destruct I as [I|I]; [discriminate | exact I] | right; exact I].
Qed.

Lemma special_inv_step : forall k s i,
  is_special k = true -> k <> Chain -> special_inv k s -> special_inv k (step opt im cap s i).
Proof.
  intros k s i Hs Hk H; destruct i as [flag pick chains|ar sh improved it]; cbn [step];
    [apply special_inv_iterate | apply special_inv_finish]; assumption.
Qed.

(** An ordinary kind never changes. *)
Lemma ordinary_step : forall k s i, is_special k = false -> st_nb (step opt im cap s i) k = st_nb s k.
Proof.
  intros k s i Hs. assert (Hk : k <> Chain) by (intro E; subst; discriminate).
  destruct i as [flag pick chains|ar sh improved it]; cbn [step].
  - unfold iterate; cbv zeta. destruct (nth_error _ pick) as [[j m]|]; [|reflexivity].
    assert (T : forall n, take j m n k = n k).
    { intro n; destruct (kind_eqb j k) eqn:E; [apply kind_eqb_spec in E; subst; unfold take; rewrite Hs; reflexivity|].
      apply take_other; intro X; apply kind_eqb_spec in X; congruence. }
    destruct (opt Chain); [rewrite register_all_other by exact Hk|]; cbn; apply T.
  - rewrite (finish_other opt im cap ar sh improved it s k Hk).
    destruct improved; [rewrite disable_special_at, Hs; reflexivity|].
    destruct (Nat.eqb it im); [|reflexivity].
    destruct (enable_special_at opt (st_nb s) k) as [E|E]; rewrite E, Hs; reflexivity.
Qed.

(** The chain moves. *)
Definition unbroken (l : list event) : Prop := forall f, ~ In (Ended true f) l.

Definition chain_inv (s : state) : Prop :=
  (ge_moves (st_nb s Chain) <> [] -> opt Chain = true) /\
  (forall m a, In (m, a) (ge_moves (st_nb s Chain)) ->
     exists after older, st_log s = after ++ Built m :: older /\ unbroken after) /\
  (forall m, In (m, true) (ge_moves (st_nb s Chain)) ->
     exists recent old, stagnant (st_log s) recent old /\ ~ In (Took Chain m) recent /\
       exists after older, old = after ++ Built m :: older /\ unbroken after).

Lemma chain_inv_grow : forall nb b log e,
  (forall i f, e = Ended i f -> i = false /\ f = false) -> (forall m, e <> Took Chain m) ->
  chain_inv (mkSt nb b log) -> chain_inv (mkSt nb b (e :: log)).
Proof.
  intros nb b log e He Ht (H1 & H2 & H3); unfold chain_inv; cbn in *; split; [exact H1|]; split.
  - intros m a Hi; destruct (H2 m a Hi) as (af & ol & E & U). exists (e :: af), ol; split; [rewrite E; reflexivity|].
    intros f [X|X]; [destruct (He _ _ X); discriminate | exact (U f X)].
  - intros m Hi; destruct (H3 m Hi) as (r & o & S & N & R).
    exists (e :: r), o; split; [apply stagnant_grow; assumption|]; split; [|exact R].
    intros [X|X]; [exact (Ht m X) | exact (N X)].
Qed.

(** Fewer moves, or moves less available, keep it. *)
Lemma chain_inv_less : forall nb nb' b b' log,
  (forall m a, In (m, a) (ge_moves (nb' Chain)) -> exists c, In (m, c) (ge_moves (nb Chain)) /\ (a = true -> c = true)) ->
  chain_inv (mkSt nb b log) -> chain_inv (mkSt nb' b' log).
Proof.
  intros nb nb' b b' log L (H1 & H2 & H3); unfold chain_inv; cbn in *; split; [|split].
  - intro N; apply H1. destruct (ge_moves (nb' Chain)) as [|(m, a) l] eqn:E; [congruence|].
    destruct (L m a (or_introl eq_refl)) as (c & Hc & _); intro X; rewrite X in Hc; exact Hc.
  - intros m a Hi; destruct (L m a Hi) as (c & Hc & _); exact (H2 m c Hc).
  - intros m Hi; destruct (L m true Hi) as (c & Hc & Ht); rewrite (Ht eq_refl) in Hc; exact (H3 m Hc).
Qed.

Lemma chain_inv_register : forall n s, opt Chain = true -> chain_inv s -> chain_inv (register_all n s).
Proof.
  induction n as [|n IH]; intros s Ho H; cbn; [exact H|]. apply IH; [exact Ho|].
  destruct s as [nb b log].
  pose proof (chain_inv_grow nb b log (Built b) ltac:(intros; discriminate) ltac:(intros; discriminate) H) as (H1 & H2 & H3).
  unfold register, chain_inv; cbn in *; rewrite ?put_same; cbn. split; [intros _; exact Ho|]; split.
  - intros m a Hi; apply in_app_iff in Hi; destruct Hi as [Hi|[Hi|[]]]; [exact (H2 m a Hi)|].
    inversion Hi; subst; exists [], log; split; [reflexivity | intros f []].
  - intros m Hi; apply in_app_iff in Hi; destruct Hi as [Hi|[Hi|[]]]; [exact (H3 m Hi) | inversion Hi].
Qed.

Lemma chain_inv_iterate : forall flag pick chains s, chain_inv s -> chain_inv (iterate opt flag pick chains s).
Proof.
  intros flag pick chains [nb b log] H; unfold iterate; cbv zeta; cbn [st_nb st_built st_log].
  set (e := Offered flag (offers flag nb)).
  assert (H1 : chain_inv (mkSt nb b (e :: log))) by (apply chain_inv_grow; [intros; discriminate | intros; discriminate | exact H]).
  destruct (nth_error (offers flag nb) pick) as [[j m]|]; [|exact H1].
  assert (H2 : chain_inv (mkSt (take j m nb) b (Took j m :: e :: log))).
  { destruct (kind_eqb j Chain) eqn:E.
    - apply kind_eqb_spec in E; subst. destruct H1 as (A & B & C); unfold chain_inv; cbn in *.
      unfold mark; rewrite ?put_same; cbn. split; [|split].
      + intro N; apply A; intro X; rewrite X in N; apply N; reflexivity.
      + intros x a Hi; apply in_map_iff in Hi; destruct Hi as ((y, c) & Ey & Hi).
        assert (x = y) by (cbn in Ey; destruct (Nat.eqb y m); inversion Ey; reflexivity); subst.
        destruct (B y c Hi) as (af & ol & El & U). exists (Took Chain m :: af), ol; split; [rewrite El; reflexivity|].
        intros f [X|X]; [discriminate | exact (U f X)].
      + intros x Hi; apply in_map_iff in Hi; destruct Hi as ((y, c) & Ey & Hi); cbn in Ey.
        destruct (Nat.eqb y m) eqn:Em; [inversion Ey|]. inversion Ey; subst.
        destruct (C x Hi) as (r & o & S & N & R). apply Nat.eqb_neq in Em.
        exists (Took Chain m :: r), o; split; [apply stagnant_grow; [intros; discriminate | exact S]|]; split; [|exact R].
        intros [X|X]; [inversion X; congruence | exact (N X)].
    - assert (j <> Chain) by (intro X; apply kind_eqb_spec in X; congruence).
      apply chain_inv_grow; [intros; discriminate | intros x Hx; inversion Hx; congruence |].
      apply (chain_inv_less nb _ b); [|exact H1]. rewrite take_other by assumption.
      intros x a Hi; exists a; split; [exact Hi | intro T; exact T]. }
  destruct (opt Chain) eqn:Ho; [apply chain_inv_register; assumption | exact H2].
Qed.

Lemma selects_in : forall f l x, selects f -> In x (f l) -> In x l.
Proof.
  intros f l x S Hi; destruct (S l) as (rest & P). eapply Permutation_in; [apply Permutation_sym; exact P|].
  apply in_app_iff; left; exact Hi.
Qed.

Lemma firstn_in : forall (n : nat) (l : list (nat * bool)) x, In x (firstn n l) -> In x l.
Proof.
  induction n as [|n IH]; intros [|y l] x H; cbn in H; try contradiction.
  destruct H as [H|H]; [left; exact H | right; apply IH; exact H].
Qed.

Lemma chain_inv_set : forall f nb b log,
  (forall x, In x (f (ge_moves (nb Chain))) -> In x (ge_moves (nb Chain))) ->
  chain_inv (mkSt nb b log) -> chain_inv (mkSt (set_chain f nb) b log).
Proof.
  intros f nb b log L H; apply (chain_inv_less nb _ b); [|exact H].
  rewrite set_chain_same; cbn; intros m a Hi; exists a; split; [apply L; exact Hi | intro T; exact T].
Qed.

Lemma chain_inv_finish : forall ar sh improved it s,
  selects ar -> selects sh -> chain_inv s -> chain_inv (finish opt im cap ar sh improved it s).
Proof.
  intros ar sh improved it [nb b log] Sa Ss H; unfold finish; cbv zeta; cbn [st_nb st_built st_log].
  set (log' := Ended improved (Nat.eqb it im) :: log).
  set (nb2 := if improved && opt Chain then set_chain (fun _ => []) _ else _).
  assert (H2 : chain_inv (mkSt nb2 b log')).
  { unfold nb2, log'; clear nb2 log'. destruct improved; cbn [andb].
    - destruct (opt Chain) eqn:Ho.
      + unfold chain_inv; cbn [st_nb st_log]; rewrite set_chain_same; cbn. split; [congruence|]; split; intros m; [intros a []| intros []].
      + assert (E : ge_moves (disable_special opt nb Chain) = []).
        { rewrite disable_special_at; cbn [is_special]; rewrite off_moves.
          destruct (ge_moves (nb Chain)) eqn:E; [reflexivity|].
          destruct H as (H1 & _); cbn in H1; rewrite E in H1; specialize (H1 ltac:(discriminate)); congruence. }
        unfold chain_inv; cbn [st_nb st_log]; rewrite E. split; [congruence|]; split; intros m; [intros a []| intros []].
    - destruct (Nat.eqb it im).
      + destruct (ge_moves (nb Chain)) as [|x l] eqn:El.
        { assert (E : ge_moves (enable_special opt nb Chain) = []).
          { destruct (enable_special_at opt nb Chain) as [E|E]; rewrite E; cbn [is_special]; unfold afresh; cbn; rewrite on_moves, El; reflexivity. }
          unfold chain_inv; cbn [st_nb st_log]; rewrite E. split; [congruence|]; split; intros m; [intros a []| intros []]. }
        destruct H as (H1 & H2 & H3); cbn in *. rewrite El in H1; specialize (H1 ltac:(discriminate)).
        assert (Hen : ge_enabled (on (opt Chain) (nb Chain)) = true) by (unfold on; rewrite H1, El; reflexivity).
        unfold chain_inv; cbn [st_nb st_log]. rewrite (enable_special_reset opt nb Chain eq_refl Hen); unfold afresh; cbn; rewrite on_moves.
        split; [intros _; exact H1|]; split.
        * intros m a Hi; apply in_map_iff in Hi; destruct Hi as ((y, c) & Ey & Hi); cbn in Ey; inversion Ey; subst.
          destruct (H2 m c Hi) as (af & ol & E & U). exists (Ended false true :: af), ol; split; [rewrite E; reflexivity|].
          intros f [X|X]; [discriminate | exact (U f X)].
        * intros m Hi; apply in_map_iff in Hi; destruct Hi as ((y, c) & Ey & Hi); cbn in Ey; inversion Ey; subst.
          destruct (H2 m c Hi) as (af & ol & E & U).
          exists [], log; split; [apply stagnant_now|]; split; [intros []|]. exists af, ol; split; assumption.
      + apply chain_inv_grow; [intros i f X; inversion X; split; reflexivity | intros; discriminate | exact H]. }
  clearbody nb2. set (nb3 := if ge_enabled (nb2 Chain) && Nat.ltb 0 cap then set_chain ar nb2 else nb2).
  assert (H3 : chain_inv (mkSt nb3 b log')).
  { unfold nb3; destruct (ge_enabled (nb2 Chain) && _); [|exact H2]. apply chain_inv_set; [|exact H2].
    intros x Hx; exact (selects_in ar _ x Sa Hx). }
  clearbody nb3. destruct (Nat.ltb cap _); [|exact H3]. apply chain_inv_set; [|exact H3].
  intros x Hx; apply firstn_in in Hx; exact (selects_in sh _ x Ss Hx).
Qed.

Lemma chain_inv_step : forall s i, tidy i -> chain_inv s -> chain_inv (step opt im cap s i).
Proof.
  intros s i T H; destruct i as [flag pick chains|ar sh improved it]; cbn [step tidy] in *;
    [apply chain_inv_iterate; exact H | destruct T; apply chain_inv_finish; assumption].
Qed.
End Run.
