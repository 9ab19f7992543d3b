(** Proofs for C64: the loop ends, and what it leaves. *)
From Coq Require Import List ZArith QArith Qabs Bool Arith Lia Lqa.
From Verif Require Import ExprModel ExprSpec ExprProof ConstraintModel ConstraintSpec VariableModel TypeModel TypeSpec PresolveModel PresolveSpec
  PresolveProof4 DependentModel DependentSpec DependentProof DependentProof2 DependentProof3 DependentProof4 DependentProof5.
Import ListNotations.
Local Open Scope Q_scope.

(** ** What presolve does to senses and constraints *)
Definition touched (K : nat -> Prop) (vs vs' : vars) : Prop :=
  forall v, va_sense (vs' v) = va_sense (vs v) \/ (K v /\ ~ is_dependent (vs' v)).
Lemma touched_refl K vs : touched K vs vs. Proof. intros v. auto. Qed.
Lemma touched_trans K a b c : touched K a b -> touched K b c -> touched K a c.
Proof.
  intros A B v. destruct (B v) as [E|H]; [|right; exact H]. destruct (A v) as [F|[Kv H]]; [left; congruence|].
  right. split; [exact Kv|]. unfold is_dependent in *. rewrite E. exact H.
Qed.
Lemma touched_weak (K K' : nat -> Prop) a b : (forall v, K v -> K' v) -> touched K a b -> touched K' a b.
Proof. intros S A v. destruct (A v) as [E|[Kv H]]; auto. Qed.

Lemma set_bound_touched (K : nat -> Prop) vs v lo hi vs' : K v -> do_set_bound vs v lo hi = Ok vs' -> touched K vs vs'.
Proof.
  unfold do_set_bound. cbn [v_step]. destruct (hi <? lo)%Z; [discriminate|]. intros Kv E. injection E as <-. intros w.
  unfold set_var. destruct (Nat.eqb_spec w v) as [E|E]; [|left; reflexivity]. subst w. right. split; [exact Kv|].
  unfold is_dependent. cbn [v_margin va_sense]. unfold binary_or_integer. destruct (_ || _); intros [H|H]; discriminate.
Qed.
Lemma fix_by_touched (K : nat -> Prop) vs v a : touched K vs (do_fix_by vs v a).
Proof.
  unfold do_fix_by. cbn [v_step]. intros w. unfold set_var. destruct (Nat.eqb_spec w v) as [E|E]; [subst w|]; left; reflexivity.
Qed.
Lemma bind_ok {A B} (o : outcome A) (f : A -> outcome B) r : bind o f = Ok r -> exists a, o = Ok a /\ f a = Ok r.
Proof. destruct o; simpl; intros E; try discriminate. exists a. auto. Qed.
Lemma raise_touched (K : nat -> Prop) vs v q lb ub r : K v -> raise_lower vs v q lb ub = Ok r -> touched K vs (fst r).
Proof.
  unfold raise_lower. intros Kv E. apply bind_ok in E. destruct E as (z & _ & E).
  destruct (lb <? z)%Z; [|injection E as <-; apply touched_refl]. destruct (z =? INT_MIN)%Z; [discriminate|].
  destruct (Z.abs z <? BOUND_LIMIT)%Z; [|injection E as <-; apply touched_refl].
  apply bind_ok in E. destruct E as (vs' & E & F). injection F as <-. exact (set_bound_touched K _ _ _ _ _ Kv E).
Qed.
Lemma cut_touched (K : nat -> Prop) vs v q lb ub r : K v -> cut_upper vs v q lb ub = Ok r -> touched K vs (fst r).
Proof.
  unfold cut_upper. intros Kv E. apply bind_ok in E. destruct E as (z & _ & E).
  destruct (z <? ub)%Z; [|injection E as <-; apply touched_refl]. destruct (z =? INT_MIN)%Z; [discriminate|].
  destruct (Z.abs z <? BOUND_LIMIT)%Z; [|injection E as <-; apply touched_refl].
  apply bind_ok in E. destruct E as (vs' & E & F). injection F as <-. exact (set_bound_touched K _ _ _ _ _ Kv E).
Qed.
Lemma positive_touched (K : nat -> Prop) c L U st p st' : K (fst p) -> tighten_positive c L U st p = Ok st' -> touched K (fst st) (fst st').
Proof.
  destruct st as [vs u]. destruct p as [v a]. cbn [fst]. intros Kv. unfold tighten_positive. intros E.
  apply bind_ok in E. destruct E as (r & E1 & E). apply bind_ok in E. destruct E as (r' & E2 & E). injection E as <-. cbn [fst].
  apply touched_trans with (fst r).
  - destruct (ct_ge c); [exact (raise_touched K _ _ _ _ _ _ Kv E1)|injection E1 as <-; apply touched_refl].
  - destruct (ct_le c); [exact (cut_touched K _ _ _ _ _ _ Kv E2)|injection E2 as <-; apply touched_refl].
Qed.
Lemma negative_touched (K : nat -> Prop) c L U st p st' : K (fst p) -> tighten_negative c L U st p = Ok st' -> touched K (fst st) (fst st').
Proof.
  destruct st as [vs u]. destruct p as [v a]. cbn [fst]. intros Kv. unfold tighten_negative. destruct (Qeq_bool a 0); [discriminate|]. intros E.
  apply bind_ok in E. destruct E as (r & E1 & E). apply bind_ok in E. destruct E as (r' & E2 & E). injection E as <-. cbn [fst].
  apply touched_trans with (fst r).
  - destruct (ct_ge c); [exact (cut_touched K _ _ _ _ _ _ Kv E1)|injection E1 as <-; apply touched_refl].
  - destruct (ct_le c); [exact (raise_touched K _ _ _ _ _ _ Kv E2)|injection E2 as <-; apply touched_refl].
Qed.
Lemma each_touched (K : nat -> Prop) (f : vars * bool -> nat * Q -> outcome (vars * bool)) l :
  (forall st p st', K (fst p) -> f st p = Ok st' -> touched K (fst st) (fst st')) -> (forall p, In p l -> K (fst p)) ->
  forall st st', each f l st = Ok st' -> touched K (fst st) (fst st').
Proof.
  intros H. induction l as [|p l IH]; intros Kl st st' E; [injection E as <-; apply touched_refl|].
  cbn [each] in E. apply bind_ok in E. destruct E as (st1 & E1 & E). apply touched_trans with (fst st1).
  - apply (H st p st1); [apply Kl; left; reflexivity|exact E1].
  - apply IH; [|exact E]. intros q I. apply Kl. right. exact I.
Qed.
Lemma tighten_touched vs c vs' b u : tighten vs c = Ok (vs', b, u) -> touched (fun v => In v (keys (ct_expr c))) vs vs'.
Proof.
  set (K := fun v => In v (keys (ct_expr c))). unfold tighten.
  destruct (always_satisfied _ _ _); [intros E; injection E as <- _ _; apply touched_refl|].
  assert (Km : forall p, In p (mutables vs (ct_expr c)) -> K (fst p)).
  { intros p I. apply filter_In in I. unfold K, keys. apply in_map, I. }
  assert (G : forall st, bind (each (tighten_positive c (e_lower (ct_expr c) (vi_of vs)) (e_upper (ct_expr c) (vi_of vs)))
     (positive_mutables vs (ct_expr c)) (vs, false)) (fun s =>
     bind (each (tighten_negative c (e_lower (ct_expr c) (vi_of vs)) (e_upper (ct_expr c) (vi_of vs)))
     (negative_mutables vs (ct_expr c)) s) (fun s => Ok (fst s, false, snd s))) = Ok st -> touched K vs (fst (fst st))).
  { intros st E. apply bind_ok in E. destruct E as (s1 & E1 & E). apply bind_ok in E. destruct E as (s2 & E2 & E). injection E as <-. cbn [fst].
    apply touched_trans with (fst s1).
    - refine (each_touched K _ _ _ _ (vs, false) s1 E1); [intros ? ? ?; apply positive_touched|].
      intros p I. apply filter_In in I. apply Km, I.
    - refine (each_touched K _ _ _ _ s1 s2 E2); [intros ? ? ?; apply negative_touched|].
      intros p I. apply filter_In in I. apply Km, I. }
  destruct (mutables vs (ct_expr c)) as [|[v a] [|p l]] eqn:Em; intros E; try exact (G _ E).
  clear G. assert (Kv : K v) by (apply (Km (v, a)); left; reflexivity).
  unfold tighten_singleton in E. destruct (ct_sense c).
  - destruct (Qlt_le_dec 0 a); [|destruct (Qlt_le_dec a 0)].
    + apply bind_ok in E. destruct E as (r & E & F). injection F as <- _ _. exact (cut_touched K _ _ _ _ _ _ Kv E).
    + apply bind_ok in E. destruct E as (r & E & F). injection F as <- _ _. exact (raise_touched K _ _ _ _ _ _ Kv E).
    + injection E as <- _ _. apply touched_refl.
  - destruct (Qeq_bool a 0); [discriminate|]. apply bind_ok in E. destruct E as (z & _ & F). injection F as <- _ _. apply fix_by_touched.
  - destruct (Qlt_le_dec a 0); [|destruct (Qlt_le_dec 0 a)].
    + apply bind_ok in E. destruct E as (r & E & F). injection F as <- _ _. exact (cut_touched K _ _ _ _ _ _ Kv E).
    + apply bind_ok in E. destruct E as (r & E & F). injection F as <- _ _. exact (raise_touched K _ _ _ _ _ _ Kv E).
    + injection E as <- _ _. apply touched_refl.
Qed.

(** Constraints of the second list are those of the first, some of them disabled. *)
Definition lessened (cs cs' : list constr) : Prop := Forall2 (fun c c' => c' = c \/ c' = disable c) cs cs'.
Lemma lessened_refl cs : lessened cs cs. Proof. induction cs; constructor; auto. Qed.
Lemma lessened_trans a b c : lessened a b -> lessened b c -> lessened a c.
Proof.
  intros H. revert c. induction H as [|x y a b E H IH]; intros c G; inversion G as [|? z ? c' F G']; subst; constructor; [|apply IH, G'].
  destruct E as [->| ->]; destruct F as [->| ->]; auto.
Qed.
Lemma lessened_in a b d : lessened a b -> In d b -> exists c, In c a /\ (d = c \/ d = disable c).
Proof.
  induction 1 as [|x y a b E H IH]; intros I; [contradiction|]. destruct I as [<-|I].
  - exists x. split; [left; reflexivity|exact E].
  - destruct (IH I) as (c & J & F). exists c. split; [right; exact J|exact F].
Qed.
Definition used (cs : list constr) (v : nat) : Prop := exists c, In c cs /\ ct_enabled c = true /\ In v (keys (ct_expr c)).
Lemma lessened_used a b v : lessened a b -> used b v -> used a v.
Proof.
  intros H (d & I & E & K). destruct (lessened_in a b d H I) as (c & J & [->| ->]); [exists c; auto|discriminate].
Qed.
Lemma pass_touched cs : forall vs vs' cs' k, redundant_pass vs cs = Ok (vs', cs', k) -> touched (used cs) vs vs' /\ lessened cs cs'.
Proof.
  induction cs as [|c cs IH]; intros vs vs' cs' k E; cbn [redundant_pass] in E.
  - injection E as <- <- _. split; [apply touched_refl|constructor].
  - destruct (ct_enabled c) eqn:En.
    + apply bind_ok in E. destruct E as ([[vs1 off] u] & E1 & E). apply bind_ok in E. destruct E as ([[vs2 tl] m] & E2 & E). injection E as <- <- _.
      destruct (IH _ _ _ _ E2) as [A B]. split.
      * apply touched_trans with vs1.
        -- apply (touched_weak (fun v => In v (keys (ct_expr c)))); [|exact (tighten_touched _ _ _ _ _ E1)].
           intros v K. exists c. split; [left; reflexivity|]. auto.
        -- apply (touched_weak (used cs)); [|exact A]. intros v (d & I & K). exists d. split; [right; exact I|exact K].
      * constructor; [|exact B]. destruct off; auto.
    + apply bind_ok in E. destruct E as ([[vs2 tl] m] & E2 & E). injection E as <- <- _. destruct (IH _ _ _ _ E2) as [A B]. split.
      * apply (touched_weak (used cs)); [|exact A]. intros v (d & I & K). exists d. split; [right; exact I|exact K].
      * constructor; auto.
Qed.
Lemma implicit_touched (K : nat -> Prop) n vs : touched K vs (fst (implicit_pass n vs)).
Proof.
  unfold implicit_pass. generalize (seq 0 n) as l. intros l. assert (G : forall st, touched K (fst st) (fst (fold_left fix_implicit l st))).
  { induction l as [|v l IH]; intros [ws k]; [apply touched_refl|]. cbn [fold_left]. eapply touched_trans; [|apply IH].
    unfold fix_implicit. destruct (va_fixed (ws v)); [apply touched_refl|]. destruct (_ =? _)%Z; [apply fix_by_touched|apply touched_refl]. }
  exact (G (vs, O)).
Qed.
Lemma independent_touched (K : nat -> Prop) n cs mi obj vs : touched K vs (fst (independent_pass n cs mi obj vs)).
Proof.
  unfold independent_pass. generalize (seq 0 n) as l. intros l. assert (G : forall st, touched K (fst st) (fst (fold_left (fix_independent cs mi obj) l st))).
  { induction l as [|v l IH]; intros [ws k]; [apply touched_refl|]. cbn [fold_left]. eapply touched_trans; [|apply IH].
    unfold fix_independent. destruct (va_fixed (ws v)); [apply touched_refl|]. destruct (related cs v); [apply touched_refl|apply fix_by_touched]. }
  exact (G (vs, O)).
Qed.
Lemma reduce_touched fuel : forall p p', reduce_loop fuel p = Some (Ok p') ->
  touched (used (ps_cons p)) (ps_vars p) (ps_vars p') /\ lessened (ps_cons p) (ps_cons p').
Proof.
  induction fuel as [|f IH]; intros [n vs cs] p' E; [discriminate|]. cbn [reduce_loop ps_vars ps_cons ps_number] in *.
  destruct (redundant_pass vs cs) as [[[vs1 cs1] k]| |] eqn:E1; try discriminate.
  destruct (pass_touched _ _ _ _ _ E1) as [A B]. pose proof (implicit_touched (used cs) n vs1) as C.
  destruct (implicit_pass n vs1) as [vs2 k2]. cbn [fst] in C. pose proof (touched_trans _ _ _ _ A C) as AC.
  destruct (Nat.eqb k 0 && Nat.eqb k2 0).
  - injection E as <-. cbn [ps_vars ps_cons]. auto.
  - destruct (IH _ _ E) as [A' B']. cbn [ps_vars ps_cons] in *. split; [|exact (lessened_trans _ _ _ B B')].
    apply (touched_trans _ _ vs2); [exact AC|]. apply (touched_weak (used cs1)); [|exact A']. intros v. apply lessened_used, B.
Qed.
Lemma size_touched fuel mi obj p p' : reduce_problem_size fuel mi obj p = Some (Ok p') ->
  touched (used (ps_cons p)) (ps_vars p) (ps_vars p') /\ lessened (ps_cons p) (ps_cons p').
Proof.
  unfold reduce_problem_size. intros E. pose proof (independent_touched (used (ps_cons p)) (ps_number p) (ps_cons p) mi obj (ps_vars p)) as A.
  destruct (independent_pass (ps_number p) (ps_cons p) mi obj (ps_vars p)) as [vs k]. cbn [fst] in A.
  destruct (reduce_touched _ _ _ E) as [B C]. cbn [ps_vars ps_cons] in *. split; [|exact C]. exact (touched_trans _ _ _ _ A B).
Qed.

Definition after (s : dstate) (p : pstate) : dstate := mkD (ds_number s) (ps_vars p) (ps_cons p) (ds_obj s) (ds_exprs s) (ds_dep s).
Lemma size_coherent fuel mi obj s p : coherent s -> clean s ->
  reduce_problem_size fuel mi obj (mkP (ds_number s) (ds_vars s) (ds_cons s)) = Some (Ok p) -> coherent (after s p) /\ clean (after s p).
Proof.
  intros Co Cl E. destruct (size_touched _ _ _ _ _ E) as [T L]. cbn [ps_vars ps_cons] in *.
  assert (D : forall v, (v < ds_number s)%nat -> (is_dependent (ps_vars p v) <-> is_dependent (ds_vars s v))).
  { intros v Lv. destruct (T v) as [H|[(c & I & En & K) H]].
    - unfold is_dependent. rewrite H. reflexivity.
    - split; [contradiction|]. intros Dv. exfalso. exact (cl_cons s Cl v c Lv Dv I En K). }
  assert (In' : forall d, In d (ps_cons p) -> exists c, In c (ds_cons s) /\ (d = c \/ d = disable c)) by (intros d; apply lessened_in, L).
  split; constructor; cbn [after ds_obj ds_cons ds_exprs ds_dep ds_number ds_vars].
  - apply Co.
  - intros d I. destruct (In' d I) as (c & J & [->| ->]); [|cbn [disable ct_expr]]; apply Co, J.
  - apply Co.
  - intros v. rewrite (co_dep s Co v). split; intros [A B]; (split; [exact A|]); apply (D v A), B.
  - apply Co.
  - apply Co.
  - intros v Lv Dv. apply (cl_obj s Cl v Lv). apply D; assumption.
  - intros v d Lv Dv I En. destruct (In' d I) as (c & J & [->| ->]); [|discriminate]. apply (cl_cons s Cl v c Lv); [apply D; assumption|exact J|exact En].
  - intros v e Lv Dv. apply (cl_exprs s Cl v e Lv). apply D; assumption.
Qed.

(** ** The loop keeps the model consistent and free of defined variables *)
Lemma loop_coherent fuel : forall s s', coherent s -> eliminate_loop fuel s = Some s' -> coherent s'.
Proof.
  induction fuel as [|f IH]; intros s s' C E; [discriminate|]. cbn [eliminate_loop] in E. pose proof (eliminate_coherent s C) as C1.
  destruct (Nat.eqb _ _); [injection E as <-; exact C1|exact (IH _ _ C1 E)].
Qed.
Lemma loop_clean fuel : forall s s', eliminate_loop fuel s = Some s' -> clean s'.
Proof.
  induction fuel as [|f IH]; intros s s' E; [discriminate|]. cbn [eliminate_loop] in E.
  destruct (Nat.eqb_spec (snd (eliminate s)) 0) as [Z|Z]; [|exact (IH _ _ E)]. injection E as <-.
  destruct (zero_unchanged s Z) as (A & B & C & D). eapply clean_same; eauto.
Qed.
Lemma extract_zero opt names s s' : coherent s -> clean s -> extract opt names s = Some (O, s') -> clean s'.
Proof.
  intros Co Cl Ex. destruct (extract_es _ _ _ _ _ Ex) as [es He].
  destruct (extract_shape opt names s O s' Ex) as (es' & He' & K & Hn & Hv & _ & Hx & Ho & Hc).
  assert (P : picks opt names s = []) by (destruct (picks opt names s); [reflexivity|discriminate]).
  rewrite P in *. cbn [map all_some] in He'. injection He' as <-. cbn [fold_left] in Hv. rewrite app_nil_r in Hx.
  assert (C : ds_cons s' = ds_cons s).
  { rewrite Hc. cbn [combine flat_map existsb]. rewrite app_nil_r. unfold numbered. clear. generalize 0%nat as i.
    induction (ds_cons s) as [|c l IH]; intros i; [reflexivity|]. cbn [length seq combine map snd]. f_equal. apply IH. }
  eapply clean_same; eauto.
Qed.
Lemma loop_invariant opt names mi fuel : forall s s', coherent s -> clean s -> dependent_loop fuel opt names mi s = Some (Ok s') -> coherent s' /\ clean s'.
Proof.
  induction fuel as [|f IH]; intros s s' Co Cl E; [discriminate|]. cbn [dependent_loop] in E.
  destruct (extract opt names s) as [[[|k] s1]|] eqn:Ex; [| |discriminate].
  - injection E as <-. split; [apply (extract_keeps opt names s O s1 Co Cl Ex)|exact (extract_zero opt names s s1 Co Cl Ex)].
  - destruct (extract_keeps opt names s (S k) s1 Co Cl Ex) as (Co1 & _).
    destruct (eliminate_loop (S f) s1) as [s2|] eqn:El; [|discriminate].
    pose proof (loop_coherent _ _ _ Co1 El) as Co2. pose proof (loop_clean _ _ _ El) as Cl2.
    destruct (reduce_problem_size (S f) mi (coef (ex_sens (ds_obj s2))) (mkP (ds_number s2) (ds_vars s2) (ds_cons s2))) as [[p| |]|] eqn:R; try discriminate.
    destruct (size_coherent _ _ _ _ _ Co2 Cl2 R) as [Co3 Cl3]. exact (IH _ _ Co3 Cl3 E).
Qed.

(** ** Termination *)
Definition is_equation (c : constr) : bool := ct_enabled c && csense_eqb (ct_sense c) Equal.
Definition equations (cs : list constr) : nat := length (filter is_equation cs).

Lemma filter_none {A} (f : A -> bool) l : (forall d, In d l -> f d = false) -> filter f l = [].
Proof. induction l as [|d l IH]; intros H; [reflexivity|]. cbn [filter]. rewrite (H d (or_introl eq_refl)). apply IH. intros e I. apply H. right. exact I. Qed.
Lemma lessened_equations a b : lessened a b -> (equations b <= equations a)%nat.
Proof.
  unfold equations. induction 1 as [|c d a b E H IH]; [reflexivity|]. cbn [filter].
  destruct E as [->| ->].
  - destruct (is_equation c); cbn [length]; lia.
  - unfold is_equation at 1. cbn [disable ct_enabled andb]. destruct (is_equation c); cbn [length]; lia.
Qed.
Lemma lessened_strict (f : nat * constr -> constr) l i c : (forall p, f p = snd p \/ f p = disable (snd p)) ->
  In (i, c) l -> f (i, c) = disable c -> is_equation c = true -> (equations (map f l) < equations (map snd l))%nat.
Proof.
  intros F. assert (G : forall l, lessened (map snd l) (map f l)).
  { induction l0 as [|p l0 IH]; constructor; [apply F|exact IH]. }
  induction l as [|p l IH]; intros I D E; [contradiction|]. cbn [map]. unfold equations in *. destruct I as [->|I].
  - cbn [snd filter]. rewrite D, E. unfold is_equation at 1. cbn [disable ct_enabled andb length].
    pose proof (lessened_equations _ _ (G l)) as L. unfold equations in L. lia.
  - specialize (IH I D E). cbn [filter]. destruct (F p) as [-> | ->].
    + destruct (is_equation (snd p)); cbn [length]; lia.
    + unfold is_equation at 1. cbn [disable ct_enabled andb]. destruct (is_equation (snd p)); cbn [length]; lia.
Qed.
Lemma extract_equations opt names s k s' : coherent s -> extract opt names s = Some (S k, s') -> (equations (ds_cons s') < equations (ds_cons s))%nat.
Proof.
  intros Co Ex. destruct (extract_shape opt names s _ s' Ex) as (es & He & K & _ & _ & _ & _ & _ & Hc).
  set (ps := picks opt names s) in *. destruct ps as [|p ps'] eqn:P; [discriminate|]. rewrite <- P in *.
  assert (Ip : In p ps) by (rewrite P; left; reflexivity).
  destruct (pick_facts opt names s p Ip) as (Np & En & (Eq & _) & _).
  rewrite Hc. unfold equations. rewrite filter_app, app_length.
  replace (filter is_equation (flat_map _ (combine ps es))) with (@nil constr).
  2:{ symmetry. apply filter_none. intros d I. apply in_flat_map in I. destruct I as (ce & _ & I).
      apply bound_constraints_facts in I. destruct I as (_ & _ & Ne & _). unfold is_equation. destruct (ct_sense d); [|contradiction|]; apply andb_false_r. }
  cbn [length]. rewrite Nat.add_0_r.
  assert (Sn : map snd (numbered (ds_cons s)) = ds_cons s).
  { unfold numbered. clear. generalize 0%nat as i. induction (ds_cons s) as [|c l IH]; intros i; [reflexivity|]. cbn [length seq combine map snd]. f_equal. apply IH. }
  rewrite <- Sn at 2. apply lessened_strict with (i := ca_index p) (c := ca_con p).
  - intros q. destruct (existsb _ ps); auto.
  - apply numbered_in, Np.
  - cbn [fst snd]. replace (existsb _ ps) with true; [reflexivity|]. symmetry. apply existsb_exists. exists p. split; [exact Ip|apply Nat.eqb_refl].
  - unfold is_equation. rewrite En, Eq. reflexivity.
Qed.

(** More fuel does not change an answer. *)
Lemma eliminate_more f : forall g s t, eliminate_loop f s = Some t -> (f <= g)%nat -> eliminate_loop g s = Some t.
Proof.
  induction f as [|f IH]; intros g s t E L; [discriminate|]. destruct g as [|g]; [lia|]. cbn [eliminate_loop] in *.
  destruct (Nat.eqb _ _); [exact E|]. apply IH; [exact E|lia].
Qed.
Lemma reduce_more f : forall g p r, reduce_loop f p = Some r -> (f <= g)%nat -> reduce_loop g p = Some r.
Proof.
  induction f as [|f IH]; intros g p r E L; [discriminate|]. destruct g as [|g]; [lia|]. cbn [reduce_loop] in *.
  destruct (redundant_pass _ _) as [[[vs cs] k]| |]; [|exact E|exact E]. destruct (implicit_pass _ _) as [vs' k'].
  destruct (_ && _); [exact E|]. apply IH; [exact E|lia].
Qed.
Lemma size_ends mi obj p : exists F r, forall fuel, (F <= fuel)%nat -> reduce_problem_size fuel mi obj p = Some r.
Proof.
  unfold reduce_problem_size. destruct (independent_pass (ps_number p) (ps_cons p) mi obj (ps_vars p)) as [vs k].
  set (q := mkP (ps_number p) vs (ps_cons p)). set (F := S (number_enabled (ps_cons q) + number_mutable (ps_number q) (ps_vars q))).
  destruct (reduce_loop F q) as [r|] eqn:E.
  - exists F, r. intros fuel L. exact (reduce_more _ _ _ _ E L).
  - exfalso. revert E. apply reduce_terminates. unfold F. lia.
Qed.
Lemma eliminate_equations s : equations (ds_cons (fst (eliminate s))) = equations (ds_cons s).
Proof.
  cbn [eliminate fst ds_cons]. unfold equations. induction (ds_cons s) as [|c l IH]; [reflexivity|]. cbn [map filter].
  assert (E : is_equation (fst (eliminate_con s c)) = is_equation c) by (unfold is_equation; rewrite con_enabled, con_sense; reflexivity).
  rewrite E. destruct (is_equation c); cbn [length]; rewrite IH; reflexivity.
Qed.
Lemma eliminates_equations f : forall s t, eliminate_loop f s = Some t -> equations (ds_cons t) = equations (ds_cons s).
Proof.
  induction f as [|f IH]; intros s t E; [discriminate|]. cbn [eliminate_loop] in E. rewrite <- (eliminate_equations s).
  destruct (Nat.eqb _ _); [injection E as <-; reflexivity|exact (IH _ _ E)].
Qed.

(** The outer loop ends, whatever the definitions look like. *)
Lemma outer_ends opt names mi : forall m s, (equations (ds_cons s) < m)%nat -> coherent s -> clean s ->
  exists F r, forall fuel, (F <= fuel)%nat -> dependent_loop fuel opt names mi s = Some r.
Proof.
  induction m as [|m IH]; intros s L Co Cl; [lia|].
  destruct (extract opt names s) as [[[|k] s1]|] eqn:Ex.
  - exists 1%nat, (Ok s1). intros [|f] Lf; [lia|]. cbn [dependent_loop]. rewrite Ex. reflexivity.
  - pose proof (extract_equations opt names s k s1 Co Ex) as L1.
    destruct (extract_keeps opt names s (S k) s1 Co Cl Ex) as (Co1 & _).
    destruct (loop_ends s1 3 (coherent_tidy s1 Co1) (Nat.le_refl 3)) as (s2 & E2 & Cl2).
    pose proof (loop_coherent _ _ _ Co1 E2) as Co2. pose proof (eliminates_equations _ _ _ E2) as Q2.
    destruct (size_ends mi (coef (ex_sens (ds_obj s2))) (mkP (ds_number s2) (ds_vars s2) (ds_cons s2))) as (B & r & R).
    assert (G : forall f, (3 <= S f)%nat -> (B <= S f)%nat -> dependent_loop (S f) opt names mi s =
      match r with Throw => Some Throw | UB => Some UB | Ok p => dependent_loop f opt names mi (after s2 p) end).
    { intros f L3 LB. cbn [dependent_loop]. rewrite Ex, (eliminate_more _ _ _ _ E2 L3), (R _ LB). destruct r; reflexivity. }
    destruct r as [p| |].
    + destruct (size_coherent _ _ _ _ _ Co2 Cl2 (R B (Nat.le_refl B))) as [Co3 Cl3].
      destruct (size_touched _ _ _ _ _ (R B (Nat.le_refl B))) as [_ Le]. apply lessened_equations in Le. cbn [ps_cons] in Le.
      destruct (IH (after s2 p)) as (F & r & H); [cbn [after ds_cons]; lia|exact Co3|exact Cl3|].
      exists (S (F + 3 + B)), r. intros [|f] Lf; [lia|]. rewrite G by lia. apply H. lia.
    + exists (S (3 + B)), Throw. intros [|f] Lf; [lia|]. rewrite G by lia. reflexivity.
    + exists (S (3 + B)), UB. intros [|f] Lf; [lia|]. rewrite G by lia. reflexivity.
  - exists 1%nat, Throw. intros [|f] Lf; [lia|]. cbn [dependent_loop]. rewrite Ex. reflexivity.
Qed.
