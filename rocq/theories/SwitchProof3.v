(** * The offers of a run *)
From Coq Require Import List Bool Arith Permutation Lia.
From Verif Require Import SwitchModel SwitchSpec SwitchProof SwitchProof2.
Import ListNotations.

Lemma register_all_log : forall n s, exists bs,
  st_log (register_all n s) = bs ++ st_log s /\ forall e, In e bs -> exists m, e = Built m.
Proof.
  induction n as [|n IH]; intros s; cbn; [exists []; split; [reflexivity | intros e []]|].
  destruct (IH (register s)) as (bs & E & H). exists (bs ++ [Built (st_built s)]). split.
  - rewrite E, <- app_assoc; reflexivity.
  - intros e Hi; apply in_app_iff in Hi; destruct Hi as [Hi|[Hi|[]]]; [exact (H e Hi) | exists (st_built s); symmetry; exact Hi].
Qed.

Lemma skip_builts : forall bs rest later e past,
  (forall x, In x bs -> exists m, x = Built m) -> (forall m, e <> Built m) ->
  bs ++ rest = later ++ e :: past -> exists later', rest = later' ++ e :: past.
Proof.
  induction bs as [|x bs IH]; intros rest later e past H He E; [exists later; exact E|].
  destruct later as [|y later]; cbn in E; inversion E; subst.
  - destruct (H e (or_introl eq_refl)) as (m & X); exfalso; exact (He m X).
  - apply (IH rest later e past); [intros z Hz; apply H; right; exact Hz | exact He | assumption].
Qed.

Section Run.
Variables (opt : kind -> bool) (im cap : nat).

Lemma step_log : forall s i, exists new,
  st_log (step opt im cap s i) = new ++ st_log s /\
  ((exists a b, new = [Ended a b]) \/
   (exists flag, new = [Offered flag (offers flag (st_nb s))]) \/
   (exists flag bs k m, new = bs ++ [Took k m; Offered flag (offers flag (st_nb s))] /\ In (k, m) (offers flag (st_nb s)) /\
      forall e, In e bs -> exists b, e = Built b)).
Proof.
  intros s i; destruct i as [flag pick chains|ar sh improved it]; cbn [step].
  - unfold iterate; cbv zeta; cbn [st_nb st_built st_log].
    destruct (nth_error (offers flag (st_nb s)) pick) as [[k m]|] eqn:N.
    + apply nth_error_In in N. destruct (opt Chain).
      * match goal with |- context[register_all chains ?S] => destruct (register_all_log chains S) as (bs & E & H) end.
        cbn [st_log] in E. exists (bs ++ [Took k m; Offered flag (offers flag (st_nb s))]). split.
        -- rewrite E, <- app_assoc; reflexivity.
        -- right; right; exists flag, bs, k, m; split; [reflexivity|]; split; assumption.
      * exists [Took k m; Offered flag (offers flag (st_nb s))]; split; [reflexivity|].
        right; right; exists flag, [], k, m; split; [reflexivity|]; split; [exact N | intros e []].
    + exists [Offered flag (offers flag (st_nb s))]; split; [reflexivity|]. right; left; exists flag; reflexivity.
  - exists [Ended improved (Nat.eqb it im)]; split; [reflexivity|]. left; exists improved, (Nat.eqb it im); reflexivity.
Qed.

Lemma offered_origin : forall inputs s0 later flag l past,
  st_log s0 = [] ->
  st_log (fold_left (step opt im cap) inputs s0) = later ++ Offered flag l :: past ->
  exists pre post, inputs = pre ++ post /\
    let s := fold_left (step opt im cap) pre s0 in st_log s = past /\ l = offers flag (st_nb s).
Proof.
  intros inputs s0; induction inputs as [|i inputs IH] using rev_ind; intros later flag l past H0 E.
  - cbn in E; rewrite H0 in E; destruct later; discriminate.
  - rewrite fold_left_app in E; cbn [fold_left] in E.
    set (s := fold_left (step opt im cap) inputs s0) in *.
    assert (Old : forall later', st_log s = later' ++ Offered flag l :: past ->
      exists pre post, inputs ++ [i] = pre ++ post /\
        let s' := fold_left (step opt im cap) pre s0 in st_log s' = past /\ l = offers flag (st_nb s')).
    { intros later' E'. destruct (IH later' flag l past H0 E') as (pre & post & Ei & R).
      exists pre, (post ++ [i]); split; [rewrite Ei, app_assoc; reflexivity | exact R]. }
    assert (New : forall later', Offered flag l :: past = later' -> Offered flag l = Offered flag (offers flag (st_nb s)) -> past = st_log s ->
      exists pre post, inputs ++ [i] = pre ++ post /\
        let s' := fold_left (step opt im cap) pre s0 in st_log s' = past /\ l = offers flag (st_nb s')).
    { intros _ _ X Y; exists inputs, [i]; split; [reflexivity|]; cbv zeta; fold s; split; [symmetry; exact Y | congruence]. }
    destruct (step_log s i) as (new & En & C); rewrite En in E.
    destruct C as [(a & b & ->)|[(fl & ->)|(fl & bs & k & m & -> & _ & Hb)]].
    + destruct later as [|x later]; cbn in E; inversion E; subst. eapply Old; eassumption.
    + destruct later as [|x later]; cbn in E; inversion E; subst; [eapply New; reflexivity | eapply Old; eassumption].
    + rewrite <- app_assoc in E.
      destruct (skip_builts bs _ later (Offered flag l) past Hb ltac:(intros; discriminate) E) as (later' & E').
      destruct later' as [|x later']; cbn in E'; [discriminate|]. injection E' as Ex E2; subst x.
      destruct later' as [|y later']; cbn in E2; inversion E2; subst; [eapply New; reflexivity | eapply Old; eassumption].
Qed.

Lemma taken_origin : forall inputs s0 later k m past,
  st_log s0 = [] ->
  st_log (fold_left (step opt im cap) inputs s0) = later ++ Took k m :: past ->
  exists flag l past', past = Offered flag l :: past' /\ In (k, m) l.
Proof.
  intros inputs s0; induction inputs as [|i inputs IH] using rev_ind; intros later k m past H0 E.
  - cbn in E; rewrite H0 in E; destruct later; discriminate.
  - rewrite fold_left_app in E; cbn [fold_left] in E.
    set (s := fold_left (step opt im cap) inputs s0) in *.
    destruct (step_log s i) as (new & En & C); rewrite En in E.
    destruct C as [(a & b & ->)|[(fl & ->)|(fl & bs & k' & m' & -> & Hi & Hb)]].
    + destruct later as [|x later]; cbn in E; inversion E; subst. eapply IH; eassumption.
    + destruct later as [|x later]; cbn in E; inversion E; subst. eapply IH; eassumption.
    + rewrite <- app_assoc in E.
      destruct (skip_builts bs _ later (Took k m) past Hb ltac:(intros; discriminate) E) as (later' & E').
      destruct later' as [|x later']; cbn in E'; injection E' as Ex E2.
      * inversion Ex; subst. exists fl, (offers fl (st_nb s)), (st_log s); split; [reflexivity | exact Hi].
      * destruct later' as [|y later']; cbn in E2; inversion E2; subst. eapply IH; eassumption.
Qed.
End Run.

Section Whole.
Variables (wanted : kind -> bool) (good : bool) (found : kind -> list nat) (im cap : nat).
Let opt := drop_chain wanted good.
Let s0 := mkSt (enable_default opt (setup wanted found)) 0 [].

Lemma opt_other : forall k, k <> Chain -> opt k = wanted k.
Proof. intros k H; unfold opt, drop_chain; destruct k; try reflexivity; congruence. Qed.

Lemma ordinary_kept : forall k inputs, is_special k = false ->
  st_nb (fold_left (step opt im cap) inputs s0) k = enable_default opt (setup wanted found) k.
Proof.
  intros k inputs Hs; induction inputs as [|i inputs IH] using rev_ind; [reflexivity|].
  rewrite fold_left_app; cbn [fold_left]; rewrite ordinary_step by exact Hs; exact IH.
Qed.

Lemma special_start : forall k, is_special k = true -> k <> Chain -> special_inv opt found k s0.
Proof.
  intros k Hs Hk; unfold special_inv, s0; cbn [st_nb st_log]; cbv zeta.
  assert (E : enable_default opt (setup wanted found) k = mkGen (if wanted k then map (fun m => (m, true)) (found k) else []) false).
  { rewrite enable_default_at; destruct k; try discriminate Hs; try reflexivity; congruence. }
  rewrite E, (opt_other k Hk); cbn [ge_moves ge_enabled].
  assert (N : forall r o, ~ stagnant [] r o) by (intros r o (X & _); destruct r; discriminate).
  split; [|split].
  - destruct (wanted k); [rewrite map_map; cbn; apply map_id | reflexivity].
  - split; [discriminate | intros (_ & _ & r & o & C); exfalso; exact (N r o C)].
  - intros r o m a C; exfalso; exact (N r o C).
Qed.

Lemma special_kept : forall k inputs, is_special k = true -> k <> Chain ->
  special_inv opt found k (fold_left (step opt im cap) inputs s0).
Proof.
  intros k inputs Hs Hk; induction inputs as [|i inputs IH] using rev_ind; [apply special_start; assumption|].
  rewrite fold_left_app; cbn [fold_left]; apply special_inv_step; assumption.
Qed.

Lemma chain_kept : forall inputs, Forall tidy inputs -> chain_inv opt (fold_left (step opt im cap) inputs s0).
Proof.
  intros inputs; induction inputs as [|i inputs IH] using rev_ind; intro T.
  - unfold chain_inv, s0; cbn [fold_left st_nb st_log]; rewrite enable_default_at; cbn.
    split; [congruence|]; split; intros m; [intros a [] | intros []].
  - apply Forall_app in T; destruct T as (T1 & T2). rewrite fold_left_app; cbn [fold_left].
    apply chain_inv_step; [inversion T2; assumption | apply IH; exact T1].
Qed.

Lemma run_ordinary : forall inputs later flag l past k m,
  run wanted good found im cap inputs = later ++ Offered flag l :: past ->
  ordinary k ->
  (In (k, m) l <-> wanted k = true /\ In m (found k) /\ flag k m = true).
Proof.
  intros inputs later flag l past k m E Ho.
  destruct (offered_origin opt im cap inputs s0 later flag l past eq_refl E) as (pre & _ & _ & _ & ->).
  assert (Hs : is_special k = false) by (destruct Ho as [->|[->|[->| ->]]]; reflexivity).
  rewrite offers_spec, (ordinary_kept k pre Hs), enable_default_at.
  assert (Hk : k <> Chain) by (intro X; subst; discriminate).
  assert (Hin : forall a, In (m, a) (map (fun x : nat => (x, true)) (found k)) -> In m (found k)).
  { intros a H; apply in_map_iff in H; destruct H as (x & X & H); inversion X; subst; exact H. }
  assert (Hin' : In m (found k) -> In (m, true) (map (fun x : nat => (x, true)) (found k))).
  { intro H; apply in_map_iff; exists m; split; [reflexivity | exact H]. }
  assert (M : ge_moves (setup wanted found k) = map (fun x => (x, true)) (found k) \/ (k = UserDefined /\ wanted k = false)).
  { destruct Ho as [->|[->|[->| ->]]]; try (left; reflexivity). cbn; destruct (wanted UserDefined); [left; reflexivity | right; split; reflexivity]. }
  assert (N : ge_enabled (setup wanted found k) = false) by (destruct Ho as [->|[->|[->| ->]]]; reflexivity).
  assert (G : forall g : generator, (ge_enabled g = true <-> wanted k = true /\ (k <> UserDefined -> found k <> [])) ->
     (wanted k = true -> ge_moves g = map (fun x => (x, true)) (found k)) ->
     (ge_enabled g = true /\ flag k m = true /\ (exists a, In (m, a) (ge_moves g) /\ (is_special k = true -> a = true)) <->
      wanted k = true /\ In m (found k) /\ flag k m = true)).
  { intros g G1 G2; split.
    - intros (A & B & a & C & _); apply G1 in A; destruct A as (A & _). rewrite (G2 A) in C. split; [exact A|]; split; [exact (Hin a C) | exact B].
    - intros (A & B & C); split; [apply G1; split; [exact A | intros _ X; rewrite X in B; exact B]|]; split; [exact C|].
      exists true; rewrite (G2 A); split; [exact (Hin' B) | reflexivity]. }
  assert (OnCase : ge_moves (setup wanted found k) = map (fun x => (x, true)) (found k) -> k <> UserDefined ->
     (ge_enabled (on (opt k) (setup wanted found k)) = true <-> wanted k = true /\ (k <> UserDefined -> found k <> [])) /\
     (wanted k = true -> ge_moves (on (opt k) (setup wanted found k)) = map (fun x => (x, true)) (found k))).
  { intros M' U. rewrite on_moves; split; [|intros _; exact M'].
    unfold on; rewrite M', (opt_other k Hk). destruct (wanted k); cbn [andb].
    - destruct (found k); cbn; [rewrite N; split; [discriminate | intros (_ & X); exfalso; exact (X U eq_refl)] | split; [intros _; split; [reflexivity | intros _ X; discriminate] | reflexivity]].
    - rewrite N; split; [discriminate | intros (X & _); discriminate]. }
  destruct Ho as [->|[->|[->| ->]]];
    try (destruct M as [M|(M & _)]; [|discriminate]; destruct (OnCase M ltac:(discriminate)) as (A & B); apply G; assumption).
  apply G.
  - rewrite (opt_other UserDefined Hk). destruct (wanted UserDefined); cbn; split; try discriminate; [intros _; split; [reflexivity | congruence] | intros _; reflexivity | intros (X & _); discriminate].
  - intro W; rewrite (opt_other UserDefined Hk), W; cbn; rewrite W; reflexivity.
Qed.

Lemma run_special : forall inputs later flag l past k m,
  run wanted good found im cap inputs = later ++ Offered flag l :: past ->
  ~ ordinary k -> k <> Chain ->
  (In (k, m) l <-> wanted k = true /\ In m (found k) /\ flag k m = true /\
     exists recent old, stagnant past recent old /\ ~ In (Took k m) recent).
Proof.
  intros inputs later flag l past k m E Ho Hk.
  destruct (offered_origin opt im cap inputs s0 later flag l past eq_refl E) as (pre & _ & _ & Hp & ->).
  assert (Hs : is_special k = true).
  { destruct k; try reflexivity; exfalso; apply Ho; unfold ordinary; tauto. }
  destruct (special_kept k pre Hs Hk) as (H1 & H2 & H3). rewrite Hp in H2, H3.
  rewrite offers_spec. rewrite (opt_other k Hk) in H1, H2. split.
  - intros (A & B & a & C & D); apply H2 in A; destruct A as (A & _ & r & o & S).
    split; [exact A|]; split; [|split; [exact B|]].
    + rewrite A in H1; rewrite <- H1; apply in_map_iff; exists (m, a); split; [reflexivity | exact C].
    + exists r, o; split; [exact S|]; apply (H3 r o m a S C); exact (D Hs).
  - intros (A & B & C & r & o & S & N); rewrite A in H1. rewrite <- H1 in B.
    apply in_map_iff in B; destruct B as ((m', a) & X & B); cbn in X; subst m'.
    split; [|split; [exact C|]].
    + apply H2; split; [exact A|]; split; [|exists r, o; exact S].
      intro X; rewrite X in H1; destruct (ge_moves (st_nb (fold_left (step opt im cap) pre s0) k)); [exact B | discriminate].
    + exists a; split; [exact B|]; intros _; apply (H3 r o m a S B); exact N.
Qed.

Lemma run_chain : forall inputs later flag l past m,
  Forall tidy inputs ->
  run wanted good found im cap inputs = later ++ Offered flag l :: past ->
  In (Chain, m) l ->
  wanted Chain = true /\ good = true /\ flag Chain m = true /\
  exists recent old, stagnant past recent old /\ ~ In (Took Chain m) recent /\
    exists after older, old = after ++ Built m :: older /\ forall f, ~ In (Ended true f) after.
Proof.
  intros inputs later flag l past m T E Hi.
  destruct (offered_origin opt im cap inputs s0 later flag l past eq_refl E) as (pre & post & Ei & Hp & ->).
  rewrite Ei in T; apply Forall_app in T; destruct T as (T & _).
  destruct (chain_kept pre T) as (H1 & _ & H3). rewrite Hp in H3.
  apply offers_spec in Hi; destruct Hi as (_ & F & a & Hi & A); rewrite (A eq_refl) in Hi.
  assert (O : opt Chain = true) by (apply H1; intro X; rewrite X in Hi; exact Hi).
  unfold opt, drop_chain in O; apply andb_true_iff in O; destruct O as (O1 & O2).
  split; [exact O1|]; split; [exact O2|]; split; [exact F | exact (H3 m Hi)].
Qed.

Lemma run_taken : forall inputs later k m past,
  run wanted good found im cap inputs = later ++ Took k m :: past ->
  exists flag l past', past = Offered flag l :: past' /\ In (k, m) l.
Proof. intros inputs later k m past E; exact (taken_origin opt im cap inputs s0 later k m past eq_refl E). Qed.

Lemma run_once : forall inputs later between past k m,
  Forall tidy inputs -> ~ ordinary k ->
  run wanted good found im cap inputs = later ++ Took k m :: between ++ Took k m :: past ->
  In (Ended false true) between.
Proof.
  intros inputs later between past k m T Ho E.
  destruct (run_taken inputs later k m _ E) as (flag & l & past' & Ep & Hi).
  destruct between as [|e between]; cbn in Ep; [discriminate|]. inversion Ep; subst e past'.
  assert (E' : run wanted good found im cap inputs = (later ++ [Took k m]) ++ Offered flag l :: between ++ Took k m :: past)
    by (rewrite E, <- app_assoc; reflexivity).
  assert (S : exists recent old, stagnant (between ++ Took k m :: past) recent old /\ ~ In (Took k m) recent).
  { destruct (kind_eqb k Chain) eqn:K.
    - apply kind_eqb_spec in K; subst. destruct (run_chain inputs _ flag l _ m T E' Hi) as (_ & _ & _ & r & o & S & N & _).
      exists r, o; split; assumption.
    - assert (K' : k <> Chain) by (intro X; apply kind_eqb_spec in X; congruence).
      apply (run_special inputs _ flag l _ k m E' Ho K') in Hi. destruct Hi as (_ & _ & _ & S); exact S. }
  right. destruct S as (r & o & (Es & _) & N). clear - Es N.
  revert between Es; induction r as [|x r IH]; intros between Es; destruct between as [|y between]; cbn in Es; inversion Es; subst.
  - left; reflexivity.
  - exfalso; apply N; left; reflexivity.
  - right; apply IH; [intro X; apply N; right; exact X | assumption].
Qed.
End Whole.
