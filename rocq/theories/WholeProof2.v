(** Proofs for C74: the answer. *)
From Coq Require Import List NArith ZArith QArith Qabs Bool Arith Lia Lqa.
From Verif Require Import ExprModel ExprSpec ExprProof ConstraintModel ConstraintSpec VariableModel TypeModel TypeSpec PresolveModel PresolveSpec
  DuplicateModel DependentModel DependentSpec SelectionModel SelectionSpec PrepareModel PrepareSpec EvalModel EvalSpec2 TabuModel LoopSpec SolverModel SolverSpec WholeModel WholeSpec.
From Verif Require DependentProof5.
From Verif Require Import PrepareProof PrepareProof5 WholeProof.
Import ListNotations.
Local Open Scope nat_scope.

Lemma defined_in s d k : coherent s -> (In (d, k) (defined_list s) <-> ds_dep s d = Some k).
Proof.
  intros Co. unfold defined_list. rewrite in_flat_map. split.
  - intros (v & _ & I). destruct (ds_dep s v) as [k'|] eqn:E; [|contradiction]. destruct I as [I|[]]. injection I as <- <-. exact E.
  - intros E. exists d. split.
    + apply in_seq. destruct (proj1 (co_dep s Co d)) as [L _]; [congruence|lia].
    + rewrite E. left. reflexivity.
Qed.
Lemma defined_key s d : coherent s -> In d (map fst (defined_list s)) -> ds_dep s d <> None /\ d < ds_number s /\ is_dependent (ds_vars s d).
Proof.
  intros Co I. apply in_map_iff in I as ([d' k] & <- & I). apply (defined_in s d' k Co) in I. cbn [fst]. assert (N : ds_dep s d' <> None) by congruence.
  split; [exact N|]. apply (co_dep s Co), N.
Qed.
Lemma defined_nodup s : NoDup (map fst (defined_list s)).
Proof.
  unfold defined_list. generalize (seq_NoDup (ds_number s) 0). generalize (seq 0 (ds_number s)). induction l as [|v l IH]; intros N; [constructor|].
  inversion N; subst. cbn [flat_map]. rewrite map_app. destruct (ds_dep s v); cbn [map app fst]; [|apply IH; assumption]. constructor; [|apply IH; assumption].
  intros I. apply in_map_iff in I as ([w k] & E & I). cbn [fst] in E. subst w. apply in_flat_map in I as (u & J & I). destruct (ds_dep s u); [|contradiction].
  destruct I as [I|[]]. injection I as -> _. contradiction.
Qed.

Lemma in_reset cs g c : In c (map (fun c => c_reset_penalty c g) cs) -> exists c0, In c0 cs /\ c = c_reset_penalty c0 g.
Proof. intros I. apply in_map_iff in I as (c0 & <- & I). eauto. Qed.

Section Start.
  Context (su : surroundings) (o : search_options) (m : bool) (s : dstate) (r : dstate * list sel).
  Hypothesis Rd : search_ready m s r.
  Hypothesis St : settled r.
  Let n := ds_number (fst r).
  Let vs := ds_vars (fst r).
  Let is01 := zero_one_in n vs.
  Let s0 := search_state o m r.
  Let p := search_problem su m r.

  Lemma chosen_binary v t : In t (snd r) -> In v (sl_vars t) -> (va_value (vs v) = 0 \/ va_value (vs v) = 1)%Z.
  Proof.
    intros It Iv. destruct (proj1 (sr_start _ _ _ Rd) t It) as (w & Iw & W & O). destruct (Nat.eq_dec v w) as [->|D]; [right; exact W|left; apply O; assumption].
  Qed.
  Lemma not_01 v : is_dependent (vs v) -> is01 v = false.
  Proof. intros [D|D]; unfold is01, zero_one_in; rewrite D; apply andb_false_r. Qed.
  Lemma is01_value v : is01 v = true -> (0 <= va_value (vs v) <= 1)%Z.
  Proof.
    unfold is01, zero_one_in. rewrite andb_true_iff. intros [L H]. apply Nat.ltb_lt in L. destruct (proj2 (sr_start _ _ _ Rd) v L) as [B I].
    fold vs in B, I. destruct (va_sense (vs v)) eqn:E; try discriminate.
    - destruct (B eq_refl); lia.
    - apply andb_true_iff in H as [H1 H2]. apply Z.leb_le in H1, H2. specialize (I eq_refl). lia.
    - destruct (st_selected r St v L E) as (t & It & Iv). destruct (chosen_binary v t It Iv); lia.
  Qed.

  Lemma search_prepared : SolverSpec.prepared is01 p s0 mem_setup.
  Proof.
    pose proof (sr_coherent _ _ _ Rd) as Co. pose proof (sr_clean _ _ _ Rd) as Cl. destruct (sr_ready _ _ _ Rd) as (Sr & So & Nd).
    split; [|split; [|split; [|split; [|split; [|split]]]]].
    - split; [|split; [|split; [|split]]].
      + split; [|split].
        * intros c I. apply in_reset in I as (c0 & I & ->). exact (proj1 (co_cons _ Co c0 I)).
        * exact (co_obj _ Co).
        * intros q I. apply in_map_iff in I as (e & <- & I). exact (proj1 (co_exprs _ Co e I)).
      + intros d I. destruct (defined_key _ d Co I) as (_ & L & D). split.
        * intros c J En. apply in_reset in J as (c0 & J & ->). exact (cl_cons _ Cl d c0 L D J En).
        * exact (cl_obj _ Cl d L D).
      + intros q I _ d J. apply in_map_iff in I as (e & <- & I). destruct (defined_key _ d Co J) as (_ & L & D). exact (cl_exprs _ Cl d e L D I).
      + intros c I En. apply in_reset in I as (c0 & I & ->). cbn [c_reset_penalty c_with_pen ct_expr ct_max_abs ct_only_binary_var ct_enabled] in *.
        destruct (st_remembers r St c0 I En) as (R1 & R2 & R3 & R4). split; [|split; [exact R3|split; [exact R2|exact R4]]].
        intros v a J. split; [|exact (R1 v a J)]. destruct (sr_tidy _ _ _ Rd c0 I En) as (_ & T & _). exact (T v a J).
      + exact is01_value.
    - intros d I. destruct (defined_key _ d Co I) as (N & L & D). split; [exact (not_01 d D)|exact (st_free r St d N)].
    - intros d i I. apply (defined_in _ d i Co) in I. pose proof (co_bound _ Co d i I) as L.
      destruct (nth_error (ds_exprs (fst r)) i) as [e|] eqn:E; [|apply nth_error_None in E; lia].
      exists (e, true, 0%Q). split; [exact (map_nth_error (fun e => (e, true, 0%Q)) i (ds_exprs (fst r)) E)|].
      intros d' J. destruct (defined_key _ d' Co J) as (_ & L' & D). exact (cl_exprs _ Cl d' e L' D (nth_error_In _ _ E)).
    - exact Sr.
    - intros v _. destruct (So v) as (S1 & S2 & _). split; [exact S1|]. intros E. apply S2. left. exact E.
    - intros v H. unfold is01, zero_one_in in H. apply andb_true_iff in H as [L H]. apply Nat.ltb_lt in L. split; [exact L|].
      fold vs. destruct (va_sense (vs v)) eqn:E; try discriminate.
      + left. exact E.
      + right. left. apply andb_true_iff in H as [H1 H2]. apply Z.leb_le in H1, H2. split; [exact E|split; assumption].
      + right. right. destruct (st_selected r St v L E) as (t & It & Iv). exists t. split; assumption.
    - intros i. cbn. lia.
  Qed.

  (** The values outside the model are of no interest; they are moved into their
      bounds. *)
  Definition inside (y : nat -> Z) (v : nat) : Z := if v <? n then y v else clip vs y v.
  Lemma inside_in y v : v < n -> inside y v = y v.
  Proof. intros L. unfold inside. apply Nat.ltb_lt in L. rewrite L. reflexivity. Qed.

  Lemma answer_meets y : valid_start n (placed p y) (snd r) -> (forall v, va_fixed (vs v) = true -> y v = va_value (vs v)) ->
    (forall d k, ds_dep (fst r) d = Some k -> y d = Qtrunc (e_eval (nth k (ds_exprs (fst r)) no_expr) y)) ->
    LoopSpec.satisfies (ms_model s0) y -> meets r (inside y).
  Proof.
    intros [V1 V2] Fx Df Sa. pose proof (sr_coherent _ _ _ Rd) as Co. destruct (sr_ready _ _ _ Rd) as (Sr & So & Nd).
    assert (On : forall t, In t (snd r) -> exists w, In w (sl_vars t) /\ y w = 1%Z /\ forall u, In u (sl_vars t) -> u <> w -> y u = 0%Z).
    { intros t It. exact (V1 t It). }
    assert (Ln : forall t v, In t (snd r) -> In v (sl_vars t) -> inside y v = y v).
    { intros t v It Iv. apply inside_in, (sr_members _ _ _ Rd t v It Iv). }
    assert (Ex : forall e, (forall v, In v (keys e) -> v < n) -> (e_eval e (inside y) == e_eval e y)%Q).
    { intros e K. apply eval_agree. intros v J. apply inside_in, K, J. }
    split; [constructor|].
    - intros v Dv. fold vs. destruct (Nat.ltb_spec v n) as [L|L].
      2:{ unfold inside. replace (v <? n) with false by (symmetry; apply Nat.ltb_ge, L). pose proof (clip_legal vs y So v) as [A B]. unfold within.
          destruct (va_fixed (vs v)); [apply A|apply B]; reflexivity. }
      rewrite (inside_in y v L). unfold within. destruct (va_fixed (vs v)) eqn:F; [apply Fx, F|].
      destruct (V2 v L) as [B I]. change (va_sense (placed p y v)) with (va_sense (vs v)) in B, I. change (va_value (placed p y v)) with (y v) in B, I.
      change (va_lower (placed p y v)) with (va_lower (vs v)) in I. change (va_upper (placed p y v)) with (va_upper (vs v)) in I.
      pose proof (st_range r St v L F) as Rg. fold vs in Rg. pose proof (proj2 (co_dep _ Co v)) as Cd. fold vs n in Cd. unfold is_dependent in Cd.
      destruct (va_sense (vs v)) eqn:E.
      + destruct Rg as [-> ->]; [auto|]. destruct (B eq_refl); lia.
      + exact (I eq_refl).
      + destruct Rg as [-> ->]; [auto|]. destruct (st_selected r St v L E) as (t & It & Iv). destruct (On t It) as (w & Iw & W & O).
        destruct (Nat.eq_dec v w) as [->|D]; [lia|rewrite (O v Iv D); lia].
      + exfalso. apply Cd; auto.
      + exfalso. apply Cd; auto.
    - intros c I En. pose proof (Sa (c_reset_penalty c (global_penalty o (fst r))) (in_map _ _ _ I) En) as X. unfold TypeSpec.satisfies.
      cbn [c_reset_penalty c_with_pen ct_expr ct_sense] in X. apply (satisfies_agree c y); [|exact X]. intros v J. symmetry. apply inside_in, (co_cons _ Co c I), J.
    - intros d k E. pose proof (Df d k E) as X. pose proof (co_bound _ Co d k E) as L.
      assert (Ie : In (nth k (ds_exprs (fst r)) no_expr) (ds_exprs (fst r))) by (apply nth_In, L).
      rewrite (inside_in y d) by (destruct (proj1 (co_dep _ Co d)) as [H _]; [congruence|exact H]).
      rewrite (Ex _ (proj2 (co_exprs _ Co _ Ie))). destruct (DependentProof5.whole_eval _ y (sr_whole _ _ _ Rd _ Ie)) as [z Z]. rewrite X, (Qtrunc_Z _ z Z). symmetry. exact Z.
    - intros t It. destruct (On t It) as (w & Iw & W & O). exists w. split; [exact Iw|]. rewrite (Ln t w It Iw). split; [exact W|].
      intros u Iu D. rewrite (Ln t u It Iu). apply O; assumption.
  Qed.

  Lemma right_meets (rn : run) (an : answer) : right_answer p s0 rn an -> an_feasible an = true -> meets r (inside (an_x an)) /\
    (wo_defined o = true -> (an_objective an == e_eval (ds_obj (fst r)) (inside (an_x an)))%Q).
  Proof.
    intros (V & Fx & Df & _ & Ob & _ & Fe & _) F. pose proof (sr_coherent _ _ _ Rd) as Co. split.
    - apply answer_meets; [exact V|exact Fx| |apply Fe, F]. intros d k E. pose proof (co_bound _ Co d k E) as L.
      apply (Df d k (nth k (ds_exprs (fst r)) no_expr, true, 0%Q)); [apply (defined_in _ _ _ Co), E| |apply defined_nodup].
      apply (map_nth_error (fun e => (e, true, 0%Q))). apply nth_error_nth'. exact L.
    - intros D. rewrite (Ob D). apply eval_agree. intros v I. symmetry. apply inside_in, (st_objective r St v I).
  Qed.
  Lemma right_solution (rn : run) (an : answer) : right_answer p s0 rn an -> an_feasible an = true -> solution_of s (wo_defined o) an.
  Proof.
    intros R F. destruct (right_meets rn an R F) as [M E]. destruct (proj1 (sr_keeps _ _ _ Rd) _ M) as [S Ob]. exists (inside (an_x an)). split; [|split; [exact S|]].
    - intros v L. apply inside_in. unfold n. rewrite (sr_number _ _ _ Rd). exact L.
    - intros D. rewrite (E D). exact Ob.
  Qed.
End Start.
