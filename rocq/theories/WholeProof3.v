(** Proofs for C74: without elimination the prepared problem is in order. *)
From Coq Require Import List NArith ZArith QArith Qabs Bool Arith Permutation Lia Lqa.
From Verif Require Import ExprModel ExprSpec ExprProof ConstraintModel ConstraintSpec VariableModel TypeModel TypeSpec PresolveModel PresolveSpec
  DuplicateModel DependentModel DependentSpec SelectionModel SelectionSpec PrepareModel PrepareSpec WholeModel WholeSpec.
From Verif Require Import DuplicateProof DuplicateProof2 SelectionProof2 SelectionProof3 DependentProof6 PrepareProof PrepareProof2 PrepareProof3 PrepareProof4 PrepareProof5 PrepareProof6 WholeProof.
From Verif Require PrepareProof7.
Import ListNotations.
Local Open Scope nat_scope.

(** ** Variables *)
Definition simple (Z : nat -> Prop) (vs : vars) : Prop := forall v,
  (va_sense (vs v) = VBinary \/ va_sense (vs v) = VInteger) /\ (Z v -> 0 <= va_lower (vs v) /\ va_upper (vs v) <= 1)%Z.
Lemma simple_bound Z vs v lo hi vs' : simple Z vs -> (Z v -> 0 <= lo /\ hi <= 1)%Z -> do_set_bound vs v lo hi = Ok vs' -> simple Z vs'.
Proof.
  unfold do_set_bound. cbn [v_step]. destruct (hi <? lo)%Z; [discriminate|]. intros S B E. injection E as <-. intros w. unfold set_var.
  destruct (Nat.eqb_spec w v) as [->|D]; [|apply S]. unfold v_margin. cbn [va_sense va_lower va_upper]. split; [|exact B].
  unfold binary_or_integer. destruct (_ || _); auto.
Qed.
Lemma simple_fixing Z vs vs' : simple Z vs -> fixing vs vs' -> simple Z vs'.
Proof. intros S F v. destruct (F v) as (-> & -> & -> & _). apply S. Qed.
Lemma simple_fix Z vs v a : simple Z vs -> simple Z (do_fix_by vs v a).
Proof. intros S. exact (simple_fixing _ _ _ S (fixing_fix vs v a)). Qed.
Lemma simple_raise Z vs v q lb ub r : simple Z vs -> (Z v -> 0 <= lb /\ ub <= 1)%Z -> raise_lower vs v q lb ub = Ok r -> simple Z (fst r).
Proof.
  intros S B. unfold raise_lower. intros E. apply bind_ok in E as (z & _ & E). destruct (Z.ltb_spec lb z); [|injection E as <-; exact S].
  destruct (z =? INT_MIN)%Z; [discriminate|]. destruct (Z.abs z <? BOUND_LIMIT)%Z; [|injection E as <-; exact S].
  apply bind_ok in E as (vs' & E & F). injection F as <-. cbn [fst]. apply (simple_bound _ _ _ _ _ _ S) in E; [exact E|]. intros H0. specialize (B H0). lia.
Qed.
Lemma simple_cut Z vs v q lb ub r : simple Z vs -> (Z v -> 0 <= lb /\ ub <= 1)%Z -> cut_upper vs v q lb ub = Ok r -> simple Z (fst r).
Proof.
  intros S B. unfold cut_upper. intros E. apply bind_ok in E as (z & _ & E). destruct (Z.ltb_spec z ub); [|injection E as <-; exact S].
  destruct (z =? INT_MIN)%Z; [discriminate|]. destruct (Z.abs z <? BOUND_LIMIT)%Z; [|injection E as <-; exact S].
  apply bind_ok in E as (vs' & E & F). injection F as <-. cbn [fst]. apply (simple_bound _ _ _ _ _ _ S) in E; [exact E|]. intros H0. specialize (B H0). lia.
Qed.
Lemma simple_positive Z c L U st p st' : simple Z (fst st) -> tighten_positive c L U st p = Ok st' -> simple Z (fst st').
Proof.
  destruct st as [vs u]. destruct p as [v a]. cbn [fst]. intros C. unfold tighten_positive. intros E. pose proof (proj2 (C v)) as B.
  apply bind_ok in E as (r & E1 & E). apply bind_ok in E as (r' & E2 & E). injection E as <-. cbn [fst].
  assert (C1 : simple Z (fst r)) by (destruct (ct_ge c); [exact (simple_raise _ _ _ _ _ _ _ C B E1)|injection E1 as <-; exact C]).
  destruct (ct_le c); [exact (simple_cut _ _ _ _ _ _ _ C1 B E2)|injection E2 as <-; exact C1].
Qed.
Lemma simple_negative Z c L U st p st' : simple Z (fst st) -> tighten_negative c L U st p = Ok st' -> simple Z (fst st').
Proof.
  destruct st as [vs u]. destruct p as [v a]. cbn [fst]. intros C. unfold tighten_negative. destruct (Qeq_bool a 0); [discriminate|]. intros E. pose proof (proj2 (C v)) as B.
  apply bind_ok in E as (r & E1 & E). apply bind_ok in E as (r' & E2 & E). injection E as <-. cbn [fst].
  assert (C1 : simple Z (fst r)) by (destruct (ct_ge c); [exact (simple_cut _ _ _ _ _ _ _ C B E1)|injection E1 as <-; exact C]).
  destruct (ct_le c); [exact (simple_raise _ _ _ _ _ _ _ C1 B E2)|injection E2 as <-; exact C1].
Qed.
Lemma simple_each Z (f : vars * bool -> nat * Q -> outcome (vars * bool)) l :
  (forall st p st', simple Z (fst st) -> f st p = Ok st' -> simple Z (fst st')) ->
  forall st st', simple Z (fst st) -> each f l st = Ok st' -> simple Z (fst st').
Proof.
  intros H. induction l as [|p l IH]; intros st st' C E; [injection E as <-; exact C|].
  cbn [each] in E. apply bind_ok in E as (st1 & E1 & E). apply (IH st1); [|exact E]. exact (H _ _ _ C E1).
Qed.
Lemma simple_tighten Z vs c r : simple Z vs -> tighten vs c = Ok r -> simple Z (fst (fst r)).
Proof.
  intros S. unfold tighten. destruct (always_satisfied _ _ _); [intros E; injection E as <-; exact S|].
  set (L := e_lower _ _). set (U := e_upper _ _).
  assert (G : bind (each (tighten_positive c L U) (positive_mutables vs (ct_expr c)) (vs, false)) (fun s =>
     bind (each (tighten_negative c L U) (negative_mutables vs (ct_expr c)) s) (fun s => Ok (fst s, false, snd s))) = Ok r -> simple Z (fst (fst r))).
  { intros E. apply bind_ok in E as (s1 & E1 & E). apply bind_ok in E as (s2 & E2 & E). injection E as <-. cbn [fst].
    apply (simple_each Z _ (negative_mutables vs (ct_expr c)) (simple_negative Z c L U) s1 s2); [|exact E2]. exact (simple_each Z _ _ (simple_positive Z c L U) (vs, false) s1 S E1). }
  destruct (mutables vs (ct_expr c)) as [|[v a] [|p l]]; intros E; try exact (G E). clear G. pose proof (proj2 (S v)) as B.
  unfold tighten_singleton in E. destruct (ct_sense c).
  - destruct (Qlt_le_dec 0 a); [|destruct (Qlt_le_dec a 0)].
    + apply bind_ok in E as (qq & E & F). injection F as <-. exact (simple_cut _ _ _ _ _ _ _ S B E).
    + apply bind_ok in E as (qq & E & F). injection F as <-. exact (simple_raise _ _ _ _ _ _ _ S B E).
    + injection E as <-. exact S.
  - destruct (Qeq_bool a 0); [discriminate|]. apply bind_ok in E as (z & _ & F). injection F as <-. apply simple_fix, S.
  - destruct (Qlt_le_dec a 0); [|destruct (Qlt_le_dec 0 a)].
    + apply bind_ok in E as (qq & E & F). injection F as <-. exact (simple_cut _ _ _ _ _ _ _ S B E).
    + apply bind_ok in E as (qq & E & F). injection F as <-. exact (simple_raise _ _ _ _ _ _ _ S B E).
    + injection E as <-. exact S.
Qed.
Lemma simple_pass Z cs : forall vs vs' cs' k, simple Z vs -> redundant_pass vs cs = Ok (vs', cs', k) -> simple Z vs'.
Proof.
  induction cs as [|c cs IH]; intros vs vs' cs' k S E; cbn [redundant_pass] in E; [injection E as <- _ _; exact S|]. destruct (ct_enabled c).
  - apply bind_ok in E as ([[vs1 off] u] & E1 & E). apply bind_ok in E as ([[vs2 tl] q] & E2 & E). injection E as <- _ _.
    apply (IH vs1 vs2 tl q); [|exact E2]. exact (simple_tighten _ _ _ _ S E1).
  - apply bind_ok in E as ([[vs2 tl] q] & E2 & E). injection E as <- _ _. exact (IH _ _ _ _ S E2).
Qed.
Lemma implicit_fixing n vs : fixing vs (fst (implicit_pass n vs)).
Proof.
  unfold implicit_pass. generalize (seq 0 n) as l. intros l. assert (G : forall st, fixing (fst st) (fst (fold_left fix_implicit l st))).
  { induction l as [|v l IH]; intros [ws k]; [apply fixing_refl|]. cbn [fold_left]. eapply fixing_trans; [|apply IH].
    unfold fix_implicit. destruct (va_fixed (ws v)); [apply fixing_refl|]. destruct (_ =? _)%Z; [apply fixing_fix|apply fixing_refl]. }
  exact (G (vs, O)).
Qed.
Lemma independent_fixing n cs mi obj vs : fixing vs (fst (independent_pass n cs mi obj vs)).
Proof.
  unfold independent_pass. generalize (seq 0 n) as l. intros l. assert (G : forall st, fixing (fst st) (fst (fold_left (fix_independent cs mi obj) l st))).
  { induction l as [|v l IH]; intros [ws k]; [apply fixing_refl|]. cbn [fold_left]. eapply fixing_trans; [|apply IH].
    unfold fix_independent. destruct (va_fixed (ws v)); [apply fixing_refl|]. destruct (related cs v); [apply fixing_refl|apply fixing_fix]. }
  exact (G (vs, O)).
Qed.
(** Nothing to fix: no variable that is not fixed has equal bounds. *)
Lemma implicit_none n vs vs' : implicit_pass n vs = (vs', O) -> forall v, v < n -> va_fixed (vs' v) = false -> va_lower (vs' v) <> va_upper (vs' v).
Proof.
  unfold implicit_pass. intros E. assert (G : forall l ws k r, fold_left fix_implicit l (ws, k) = (r, O) ->
    k = O /\ r = ws /\ forall v, In v l -> va_fixed (ws v) = false -> va_lower (ws v) <> va_upper (ws v)).
  { clear. induction l as [|v l IH]; intros ws k r E; cbn [fold_left] in E; [injection E as -> ->; repeat split; intros v []|].
    unfold fix_implicit at 2 in E. destruct (va_fixed (ws v)) eqn:F.
    - destruct (IH _ _ _ E) as (-> & -> & H). split; [reflexivity|]. split; [reflexivity|]. intros w [<-|I]; [congruence|exact (H w I)].
    - destruct (Z.eqb_spec (va_lower (ws v)) (va_upper (ws v))) as [Q|Q]; [destruct (IH _ _ _ E) as (X & _); discriminate|].
      destruct (IH _ _ _ E) as (-> & -> & H). split; [reflexivity|]. split; [reflexivity|]. intros w [<-|I]; [intros _; exact Q|exact (H w I)]. }
  destruct (G _ _ _ _ E) as (_ & -> & H). intros v L. apply H. apply in_seq. lia.
Qed.
Definition apart (n : nat) (vs : vars) : Prop := forall v, v < n -> va_fixed (vs v) = false -> va_lower (vs v) <> va_upper (vs v).
Lemma reduce_end Z fuel : forall p p', simple Z (ps_vars p) -> reduce_loop fuel p = Some (Ok p') -> simple Z (ps_vars p') /\ apart (ps_number p) (ps_vars p').
Proof.
  induction fuel as [|f IH]; intros [n vs cs] p' S E; [discriminate|]. cbn [reduce_loop ps_vars ps_cons ps_number] in *.
  destruct (redundant_pass vs cs) as [[[vs1 cs1] k]| |] eqn:E1; try discriminate. pose proof (simple_pass _ _ _ _ _ _ S E1) as S1.
  pose proof (simple_fixing _ _ _ S1 (implicit_fixing n vs1)) as S2. destruct (implicit_pass n vs1) as [vs2 k2] eqn:E2. cbn [fst] in S2.
  destruct (Nat.eqb k 0 && Nat.eqb k2 0) eqn:K.
  - injection E as <-. cbn [ps_vars]. split; [exact S2|]. apply andb_true_iff in K as [_ K]. apply Nat.eqb_eq in K. subst k2. exact (implicit_none n vs1 vs2 E2).
  - exact (IH (mkP n vs2 cs1) p' S2 E).
Qed.
Lemma size_end Z fuel mi obj p p' : simple Z (ps_vars p) -> reduce_problem_size fuel mi obj p = Some (Ok p') -> simple Z (ps_vars p') /\ apart (ps_number p) (ps_vars p').
Proof.
  unfold reduce_problem_size. intros S E. pose proof (simple_fixing _ _ _ S (independent_fixing (ps_number p) (ps_cons p) mi obj (ps_vars p))) as S1.
  destruct (independent_pass (ps_number p) (ps_cons p) mi obj (ps_vars p)) as [vs k]. exact (reduce_end Z fuel (mkP (ps_number p) vs (ps_cons p)) p' S1 E).
Qed.

(** ** Constraints *)
Definition memo (Z : nat -> Prop) (c : constr) : Prop := ct_enabled c = true ->
  (forall v a, In (v, a) (ex_sens (ct_expr c)) -> (Qabs a <= ct_max_abs c)%Q) /\ (exists z, (ct_max_abs c == inject_Z z)%Q) /\
  (exists z, (ex_const (ct_expr c) == inject_Z z)%Q) /\ (ct_only_binary_var c = true -> forall v, In v (keys (ct_expr c)) -> Z v).
Lemma max_abs_spec l : forall m, (m <= fold_left (fun m (p : nat * Q) => qmax m (Qabs (snd p))) l m)%Q /\
  (forall v a, In (v, a) l -> (Qabs a <= fold_left (fun m (p : nat * Q) => qmax m (Qabs (snd p))) l m)%Q) /\
  ((exists z, (m == inject_Z z)%Q) -> (forall v a, In (v, a) l -> exists z, (a == inject_Z z)%Q) -> exists z, (fold_left (fun m (p : nat * Q) => qmax m (Qabs (snd p))) l m == inject_Z z)%Q).
Proof.
  induction l as [|[w b] l IH]; intros m; cbn [fold_left snd].
  - split; [lra|]. split; [intros v a []|auto].
  - destruct (IH (qmax m (Qabs b))) as (A & B & C). assert (M : (m <= qmax m (Qabs b) /\ Qabs b <= qmax m (Qabs b))%Q) by (unfold qmax; destruct (Qlt_le_dec _ _); lra).
    split; [lra|]. split.
    + intros v a [E|I]; [injection E as _ <-; lra|exact (B v a I)].
    + intros [z Hz] Hl. apply C; [|intros v a I; apply (Hl v a); now right]. destruct (Hl w b (or_introl eq_refl)) as [y Hy].
      unfold qmax. destruct (Qlt_le_dec _ _); [|eauto]. exists (Z.abs y). rewrite Hy. reflexivity.
Qed.
Lemma memo_setup (Z : nat -> Prop) is01 e k : (forall v, is01 v = true -> Z v) -> integral e -> (exists z, (ex_const e == inject_Z z)%Q) -> memo Z (c_setup e k is01).
Proof.
  intros HZ I Cz _. cbn [c_setup ct_expr ct_max_abs ct_only_binary_var]. destruct (max_abs_spec (ex_sens e) 0) as (_ & B & C).
  split; [exact B|]. split; [apply C; [exists 0%Z; reflexivity|exact I]|]. split; [exact Cz|]. intros F v J. apply HZ. rewrite forallb_forall in F.
  unfold keys in J. apply in_map_iff in J as (p & <- & J). exact (F p J).
Qed.
Lemma memo_lessened Z cs cs' : (forall c, In c cs -> memo Z c) -> lessened cs cs' -> forall c, In c cs' -> memo Z c.
Proof. intros H L c I. destruct (lessened_in _ _ _ L I) as (d & J & [->| ->]); [apply H, J|intros X; discriminate]. Qed.
Lemma memo_implicit (Z : nat -> Prop) addr is01 refs cs : (forall v, is01 v = true -> Z v) -> tidy cs -> (forall c, In c cs -> memo Z c) ->
  forall c, In c (extract_implicit_equalities addr is01 refs cs) -> memo Z c.
Proof.
  intros HZ T M. unfold extract_implicit_equalities. cbv zeta. destruct (Nat.leb _ 1); [exact M|].
  match goal with |- context [equality_scan addr is01 ?l O cs []] => pose proof (equality_shape addr is01 l O cs []) as H; destruct (equality_scan addr is01 l O cs []) as [cs1 added] end.
  cbv zeta in H. cbn [fst snd] in H. destruct H as (Le & _ & more & -> & Add). cbn [app].
  intros c I. apply in_app_or in I as [I|I]; [exact (memo_lessened _ _ _ M Le c I)|]. destruct (Add c I) as (d & J & En & ->).
  apply memo_setup; [exact HZ|apply (T d J En)|]. apply (M d J En).
Qed.

(** ** Together *)
Section Plain.
  Context (fuel : nat) (sw : switches) (su : surroundings) (m : bool) (s : dstate).
  Hypothesis P : plain_model s.
  Hypothesis Ae : as_entered s.
  Hypothesis Fr : sw_presolve sw = true \/ free_binaries s.
  Let Z v := is01_of (ds_vars s) v = true.
  Definition spare (n : nat) (vs : vars) : Prop := forall v, v < n -> va_fixed (vs v) = false -> va_sense (vs v) = VBinary -> va_lower (vs v) = 0%Z /\ va_upper (vs v) = 1%Z.

  Lemma start_simple : simple Z (ds_vars s).
  Proof.
    intros v. split; [apply Ae|]. unfold Z, is01_of. intros H. destruct (pl_sound s P v) as (_ & B & _). apply B. destruct (va_sense (ds_vars s v)); try discriminate H; auto.
  Qed.
  Lemma start_memo : forall c, In c (ds_cons s) -> memo Z c.
  Proof.
    intros c I. destruct (ae_setup s Ae c I) as (e & k & -> & Cz). apply memo_setup; [intros v H; exact H| |exact Cz].
    exact (proj1 (pl_integral s P _ I)).
  Qed.
  Lemma fixing_spare n vs vs' : fixing vs vs' -> spare n vs -> spare n vs'.
  Proof.
    intros F S v L Fx. destruct (F v) as (-> & -> & -> & [E|E]); [|congruence]. rewrite E in Fx. exact (S v L Fx).
  Qed.

  Lemma reduce_plain s1 : slim s1 -> prepare_reduce fuel sw su m s = Some (Ok s1) ->
    simple Z (ds_vars s1) /\ (forall c, In c (ds_cons s1) -> memo Z c) /\ spare (ds_number s1) (ds_vars s1) /\ ds_obj s1 = ds_obj s /\ ds_dep s1 = ds_dep s /\ ds_number s1 = ds_number s.
  Proof.
    intros Ft. unfold prepare_reduce. destruct (sw_presolve sw).
    2:{ intros E. injection E as <-. destruct Fr as [X|Fb]; [discriminate|]. exact (conj start_simple (conj start_memo (conj Fb (conj eq_refl (conj eq_refl eq_refl))))). }
    cbv zeta. set (refs := type_refs _ _). set (cs1 := if sw_implicit sw then _ else _). set (q := if sw_set_cons sw then _ else _).
    destruct (reduce_problem_size _ _ _ _) as [[p| |]|] eqn:E; try discriminate. intros X. injection X as <-. cbn [ds_vars ds_cons ds_number ds_obj ds_dep] in *.
    assert (M1 : forall c, In c cs1 -> memo Z c).
    { unfold cs1. destruct (sw_implicit sw); [|exact start_memo]. apply memo_implicit; [intros v H; exact H|exact (sm_tidy s (plain_slim s P))|exact start_memo]. }
    assert (Q : fixing (ds_vars s) (fst q) /\ lessened cs1 (snd q)).
    { unfold q. destruct (sw_set_cons sw); [|split; [apply fixing_refl|apply lessened_refl]]. apply set_scan_fixing. }
    destruct Q as [Q1 Q2]. destruct (size_end Z _ _ _ (mkP (ds_number s) (fst q) (snd q)) _ (simple_fixing _ _ _ start_simple Q1) E) as [S A]. cbn [ps_number] in A.
    destruct (size_touched _ _ _ _ _ E) as [_ Le]. cbn [ps_cons] in Le.
    split; [exact S|]. split; [exact (memo_lessened _ _ _ (memo_lessened _ _ _ M1 Q2) Le)|]. split; [|auto].
    intros v L F B. specialize (A v L F). destruct (sm_sound _ Ft v) as (S1 & S2 & _). cbn [ds_vars] in *. specialize (S2 (or_introl B)). lia.
  Qed.

  Lemma selected_in s0 v : va_sense (ds_vars s0 v) = VBinary \/ va_sense (ds_vars s0 v) = VInteger -> let r := prepare_selections sw su s0 in
    (va_sense (ds_vars (fst r) v) = VSelection -> exists t, In t (snd r) /\ In v (sl_vars t)) /\
    va_lower (ds_vars (fst r) v) = va_lower (ds_vars s0 v) /\ va_upper (ds_vars (fst r) v) = va_upper (ds_vars s0 v) /\ va_fixed (ds_vars (fst r) v) = va_fixed (ds_vars s0 v).
  Proof.
    intros Si r. unfold prepare_selections in r. destruct (_ && _); [|subst r; cbn [fst]; repeat split; intros X; destruct Si; congruence]. subst r. rewrite extract_eq.
    set (vn := su_name su). set (cn := su_cname su). set (md := sw_mode sw). set (us := su_user su). set (cx := vctx vn (ds_vars s0)).
    pose proof (extracted_senses vn cn md us cx (ds_vars s0) (ds_cons s0)) as HS.
    set (vs' := fun v => if existsb _ _ then _ else _) in *. set (sels := map (setup_related vn cn (ds_cons s0)) _) in *. cbv zeta in HS. cbn [fst snd ds_vars].
    split.
    - intros X. destruct (HS v) as [_ H2]. destruct (existsb (fun t => existsb (Nat.eqb v) (sl_vars t)) sels) eqn:E.
      + apply existsb_exists in E as (t & It & Ev). apply mem_iff in Ev. eauto.
      + exfalso. rewrite H2 in X; [destruct Si; congruence|]. intros (t & It & Iv). assert (Y : existsb (fun t => existsb (Nat.eqb v) (sl_vars t)) sels = true); [|congruence].
        apply existsb_exists. exists t. split; [exact It|apply mem_iff, Iv].
    - unfold vs'. destruct (existsb _ _); auto.
  Qed.

  Lemma settled_rest s1 r : slim s1 -> slim (prepare_sets sw su m s1) -> prepare_reduce fuel sw su m s = Some (Ok s1) ->
    prepare_start sw su (prepare_selections sw su (prepare_sets sw su m s1)) = Ok r -> settled r.
  Proof.
    intros Ft1 Ft3 E1 Pr. destruct (reduce_plain s1 Ft1 E1) as (S1 & M1 & Sp1 & O1 & D1 & N1).
    assert (Fx : fixing (ds_vars s1) (ds_vars (prepare_sets sw su m s1))).
    { unfold prepare_sets. cbv zeta. cbn [ds_vars]. destruct (sw_presolve sw && sw_set_vars sw); [apply variables_fixing|apply fixing_refl]. }
    assert (Le : lessened (ds_cons s1) (ds_cons (prepare_sets sw su m s1))).
    { unfold prepare_sets. cbv zeta. cbn [ds_cons]. destruct (sw_presolve sw && sw_duplicates sw); [apply duplicates_lessened|apply lessened_refl]. }
    assert (Re : ds_number (prepare_sets sw su m s1) = ds_number s1 /\ ds_obj (prepare_sets sw su m s1) = ds_obj s1 /\ ds_dep (prepare_sets sw su m s1) = ds_dep s1) by auto.
    destruct Re as (N3 & O3 & D3). set (s3 := prepare_sets sw su m s1) in *.
    pose proof (simple_fixing _ _ _ S1 Fx) as S3. pose proof (memo_lessened _ _ _ M1 Le) as M3. pose proof (fixing_spare (ds_number s1) _ _ Fx Sp1) as Sp3.
    destruct (selections_slim sw su s3 Ft3) as (Ob & _ & Rd & Mt). destruct (rest_selections sw su s3) as (Q1 & Q2 & Q3 & Q4 & Q5).
    pose proof (fun v => sense_selections sw su s3 v) as Se. cbv zeta in Se. pose proof (fun v => selected_in s3 v (proj1 (S3 v))) as Sl. cbv zeta in Sl. destruct (prepare_selections sw su s3) as [q1 q2] eqn:Eq. set (q := (q1, q2)) in *.
    destruct (start_done sw su q r Rd Pr) as (_ & T1 & T2 & T3 & T4 & T5 & T6 & T7 & T8).
    assert (Nr : ds_number (fst r) = ds_number s) by (rewrite T2, Q1, N3; exact N1).
    assert (Fields : forall v, va_lower (ds_vars (fst r) v) = va_lower (ds_vars s3 v) /\ va_upper (ds_vars (fst r) v) = va_upper (ds_vars s3 v) /\ va_fixed (ds_vars (fst r) v) = va_fixed (ds_vars s3 v)).
    { intros v. destruct (T6 v) as (A & B & C & _). destruct (Sl v) as (_ & A' & B' & C'). repeat split; congruence. }
    assert (Senses : forall v, va_sense (ds_vars (fst r) v) = va_sense (ds_vars (fst q) v)) by (intros v; apply T6).
    assert (Two : forall v, Z v -> v < ds_number s -> zero_one_in (ds_number (fst r)) (ds_vars (fst r)) v = true).
    { intros v Hz L. unfold zero_one_in. rewrite Nr, (proj2 (Nat.ltb_lt _ _) L), Senses. cbn [andb]. destruct (Fields v) as (-> & -> & _). destruct (S3 v) as [Si Hb]. specialize (Hb Hz).
      destruct (Se v) as [-> |[-> _]]; [|reflexivity]. destruct Si as [-> | ->]; [reflexivity|]. apply andb_true_iff. split; apply Z.leb_le; lia. }
    constructor.
    - rewrite T3. intros c I En. assert (Mc : memo Z c) by exact (memo_lessened _ _ _ M3 Q5 c I). destruct (Mc En) as (A & B & C & D).
      split; [exact A|]. split; [exact B|]. split; [exact C|]. intros Ob' v J. apply Two; [exact (D Ob' v J)|].
      destruct (lessened_in _ _ _ Q5 I) as (d & Jd & X). assert (Kd : ct_expr c = ct_expr d) by (destruct X as [->| ->]; reflexivity).
      rewrite Kd in J. rewrite <- N1, <- N3. exact (proj2 (co_cons s3 (sm_coherent _ Ft3) d Jd) v J).
    - intros v L F Si. destruct (Fields v) as (-> & -> & Ef). rewrite Ef in F. apply Sp3; [rewrite <- N3, <- Q1, <- T2; exact L|exact F|].
      rewrite Senses in Si. destruct (Se v) as [X|[X Y]]; [|exact Y]. rewrite X in Si. destruct Si as [Y|Y]; [exact Y|]. destruct (S3 v) as [[U|U] _]; congruence.
    - intros v. rewrite T5, Q4, D3, D1. intros H. exfalso. apply H, (pl_no_dependents s P).
    - intros v L Si. rewrite Senses in Si. destruct (proj1 (Sl v) Si) as (t & It & Iv).
      assert (J : In (sl_vars t) (map sl_vars (snd r))) by (rewrite T7; now apply in_map). apply in_map_iff in J as (t' & X & J). exists t'. split; [exact J|]. rewrite X. exact Iv.
    - rewrite T1, Q2, O3, O1, Nr. apply Ae.
  Qed.
  Lemma off_settled r : sw_presolve sw = false -> prepare fuel sw su m s = Some (Ok r) -> settled r.
  Proof.
    intros Of Pr. unfold prepare in Pr. rewrite (PrepareProof7.presolve_off fuel sw su m s Of) in Pr. cbn [bind] in Pr. injection Pr as Pr.
    assert (E : prepare_sets sw su m s = s) by (apply PrepareProof7.sets_off; left; exact Of).
    apply (settled_rest s r (plain_slim s P)); [rewrite E; apply plain_slim, P|unfold prepare_reduce; rewrite Of; reflexivity|rewrite E; exact Pr].
  Qed.
End Plain.
Lemma plain_settled fuel sw su m s : proper_model s -> as_entered s -> wants_dependents sw = false -> sw_presolve sw = true \/ free_binaries s ->
  forall r, (exists x, solves s x) -> calm_sets sw su m s -> prepare fuel sw su m s = Some (Ok r) -> settled r.
Proof.
  intros P Ae W Fr r Fe C2 Pr. pose proof (ft_coherent _ (proper_fit s P)) as Co0. unfold prepare in Pr. destruct (prepare_problem fuel sw su m s) as [[q| |]|] eqn:Eq; try discriminate. cbn [bind] in Pr. injection Pr as Pr.
  unfold prepare_problem in Eq. destruct (prepare_reduce fuel sw su m s) as [[s1| |]|] eqn:E1; try discriminate.
  assert (E2 : prepare_dependents fuel sw su m s1 = Some (Ok s1)) by (unfold prepare_dependents; rewrite W, andb_false_r; reflexivity).
  rewrite E2 in Eq. injection Eq as Eq.
  destruct (reduce_phase sw su m s P Fe) as [F1 H1]. destruct (H1 (F1 + fuel) ltac:(lia)) as (s1' & E1' & Ft1 & R1).
  rewrite (reduce_more_fuel fuel (F1 + fuel) _ _ _ _ _ E1 ltac:(lia)) in E1'. injection E1' as <-.
  destruct (sets_phase sw su m s1 Ft1 (refines_feasible _ _ _ R1 Fe) (C2 fuel s1 s1 E1 E2)) as [Ft3 R3].
  apply (settled_rest fuel sw su m s (proper_plain s P) Ae Fr s1 r (fit_slim _ Ft1) (fit_slim _ Ft3) E1). rewrite Eq. exact Pr.
Qed.
