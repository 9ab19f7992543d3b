(** Proofs for C64: concrete models on which the conditions fail. *)
From Coq Require Import List ZArith QArith Qabs Bool Arith Lia Lqa.
From Verif Require Import ExprModel ExprSpec ExprProof ConstraintModel ConstraintSpec VariableModel TypeModel TypeSpec PresolveModel PresolveSpec
  DependentModel DependentSpec.
Import ListNotations.
Local Open Scope Q_scope.

(** The default options (option/preprocess_option.h). *)
Definition default_types (t : ctype) : bool := match t with ExclusiveNOR | BalancedIntegers => false | _ => true end.
Definition bounded (lo hi : Z) : var := match v_step v_init (VSetBound lo hi) with Some a => a | None => v_init end.
Definition int01 (v : nat) : bool := false.
Definition bin01 (v : nat) : bool := true.
Definition same (v : nat) : nat := v.
Definition plain (n : nat) (a : var) (cs : list constr) (o : expr) : dstate := mkD n (fun _ => a) cs o [] (fun _ => None).
Definition extracted (s : dstate) : dstate := match extract default_types same s with Some (_, t) => t | None => s end.
Definition eliminated (s : dstate) : dstate := match eliminate_loop 3 s with Some t => t | None => s end.

(** x = 2y + 1, y = 2z + 1, z = 2x + 1 *)
Definition ring : dstate := plain 3 v_init
  [c_setup (mkExpr [(0%nat, 1); (1%nat, -(2))] (-(1))) Equal int01;
   c_setup (mkExpr [(1%nat, 1); (2%nat, -(2))] (-(1))) Equal int01;
   c_setup (mkExpr [(2%nat, 1); (0%nat, -(2))] (-(1))) Equal int01] (mkExpr [(0%nat, 1)] 0).
(** x + y = 1/2 *)
Definition half : dstate := plain 2 (bounded (-5) 5)
  [c_setup (mkExpr [(0%nat, 1); (1%nat, 1)] (-1#2)) Equal int01] (mkExpr [(1%nat, 1)] 0).
(** x + w = 1, x + y + z = 2 over 0/1 *)
Definition typed : dstate := plain 4 (bounded 0 1)
  [c_setup (mkExpr [(0%nat, 1); (3%nat, 1)] (-(1))) Equal bin01;
   c_setup (mkExpr [(0%nat, 1); (1%nat, 1); (2%nat, 1)] (-(2))) Equal bin01] (mkExpr [(1%nat, 1)] 0).
(** x + w = 1, y + w = 1, x + y + z <= 2 over 0/1 *)
Definition slack : dstate := plain 4 (bounded 0 1)
  [c_setup (mkExpr [(0%nat, 1); (3%nat, 1)] (-(1))) Equal bin01;
   c_setup (mkExpr [(1%nat, 1); (3%nat, 1)] (-(1))) Equal bin01;
   c_setup (mkExpr [(0%nat, 1); (1%nat, 1); (2%nat, 1)] (-(2))) Less bin01] (mkExpr [(1%nat, 1)] 0).
(** d = x + y, d - x + z >= 1 over 0..10 *)
Definition cancel : dstate := plain 4 (bounded 0 10)
  [c_setup (mkExpr [(0%nat, 1); (1%nat, -(1)); (2%nat, -(1))] 0) Equal int01;
   c_setup (mkExpr [(0%nat, 1); (1%nat, -(1)); (3%nat, 1)] (-(1))) Greater int01] (mkExpr [(1%nat, 1)] 0).

Ltac nodup := unfold wf, keys; cbn; repeat constructor; cbn; intuition discriminate.
Lemma plain_coherent n a cs o : ~ is_dependent a -> wf o ->
  (forall c, In c cs -> wf (ct_expr c) /\ forall v, In v (keys (ct_expr c)) -> (v < n)%nat) -> coherent (plain n a cs o) /\ clean (plain n a cs o).
Proof.
  intros D W H. split; constructor; cbn [plain ds_obj ds_cons ds_exprs ds_dep ds_number ds_vars]; auto; try discriminate; try contradiction.
  intros v. split; [contradiction|]. intros [_ E]. contradiction.
Qed.
Ltac start := apply plain_coherent; [intros [E|E]; discriminate|nodup|
  intros c I; cbn in I; repeat destruct I as [<-|I]; try contradiction; (split; [nodup|]); intros v K; cbn in K; lia].
Lemma ring_ok : coherent ring /\ clean ring. Proof. start. Qed.
Lemma half_ok : coherent half /\ clean half. Proof. start. Qed.
Lemma typed_ok : coherent typed /\ clean typed. Proof. start. Qed.
Lemma slack_ok : coherent slack /\ clean slack. Proof. start. Qed.
Lemma cancel_ok : coherent cancel /\ clean cancel. Proof. start. Qed.

Lemma ring_extract : extract default_types same ring = Some (3%nat, extracted ring). Proof. vm_compute. reflexivity. Qed.
Lemma ring_eliminate : eliminate_loop 3 (extracted ring) = Some (eliminated (extracted ring)). Proof. vm_compute. reflexivity. Qed.
Lemma half_extract : extract default_types same half = Some (1%nat, extracted half). Proof. vm_compute. reflexivity. Qed.
Lemma half_eliminate : eliminate_loop 3 (extracted half) = Some (eliminated (extracted half)). Proof. vm_compute. reflexivity. Qed.
Lemma typed_extract : extract default_types same typed = Some (1%nat, extracted typed). Proof. vm_compute. reflexivity. Qed.
Lemma typed_eliminate : eliminate_loop 3 (extracted typed) = Some (eliminated (extracted typed)). Proof. vm_compute. reflexivity. Qed.
Lemma slack_extract : extract default_types same slack = Some (2%nat, extracted slack). Proof. vm_compute. reflexivity. Qed.
Lemma slack_eliminate : eliminate_loop 3 (extracted slack) = Some (eliminated (extracted slack)). Proof. vm_compute. reflexivity. Qed.

(** Definitions in a ring: the only solution is lost and another assignment is accepted. *)
Lemma ring_lost : exists s s' s'' x, coherent s /\ clean s /\ extract default_types same s = Some (3%nat, s') /\
  eliminate_loop 3 s' = Some s'' /\ clean s'' /\ ordinary x /\ solves s x /\ ~ solves s'' x /\ exists y, ordinary y /\ solves s'' y /\ ~ solves s y.
Proof.
  exists ring, (extracted ring), (eliminated (extracted ring)), (fun _ => (-1)%Z).
  split; [apply ring_ok|]. split; [apply ring_ok|]. split; [apply ring_extract|]. split; [apply ring_eliminate|].
  split.
  { constructor.
    - intros v L _ I. vm_compute in I. exact I.
    - intros v c L _ I En. vm_compute in I. repeat destruct I as [<-|I]; try contradiction; discriminate.
    - intros v e L _ I. vm_compute in I. repeat destruct I as [<-|I]; try contradiction; intros []. }
  split. { intros v. unfold INT_HALF_MIN, INT_HALF_MAX. vm_compute. split; discriminate. }
  split.
  { constructor.
    - intros v _. vm_compute. split; discriminate.
    - intros c I _. cbn in I. repeat destruct I as [<-|I]; try contradiction; vm_compute; reflexivity.
    - intros v k E. discriminate. }
  split.
  { intros [_ _ D]. specialize (D 0%nat 0%nat). vm_compute in D. specialize (D eq_refl). discriminate. }
  exists (fun v => match v with 0%nat => 31 | 1%nat => 15 | 2%nat => 63 | _ => 0 end)%Z. split.
  { intros v. destruct v as [|[|[|v]]]; vm_compute; split; discriminate. }
  split.
  - constructor.
    + intros v E. destruct v as [|[|[|v]]]; vm_compute in E; try discriminate E. vm_compute. split; discriminate.
    + intros c I En. vm_compute in I. repeat destruct I as [<-|I]; try contradiction; discriminate.
    + intros v k E. destruct v as [|[|[|v]]]; vm_compute in E; try discriminate; injection E as <-; vm_compute; reflexivity.
  - intros [_ C _]. specialize (C _ (or_intror (or_introl eq_refl)) eq_refl). vm_compute in C. discriminate.
Qed.

(** A fractional definition: a problem without solutions gets one, because the
    variable takes the truncated value of its definition. *)
Lemma half_accepted : exists s s' s'' x, coherent s /\ clean s /\ extract default_types same s = Some (1%nat, s') /\
  eliminate_loop 3 s' = Some s'' /\ (forall y, ~ solves s y) /\
  (forall v, ds_dep s'' v = None -> within (ds_vars s'' v) (x v)) /\
  (forall c, In c (ds_cons s'') -> ct_enabled c = true -> satisfies c x) /\
  (forall v k, ds_dep s'' v = Some k -> x v = Qtrunc (e_eval (nth k (ds_exprs s'') no_expr) x)).
Proof.
  exists half, (extracted half), (eliminated (extracted half)), (fun _ => 0%Z).
  split; [apply half_ok|]. split; [apply half_ok|]. split; [apply half_extract|]. split; [apply half_eliminate|].
  split.
  { intros y [_ C _]. specialize (C _ (or_introl eq_refl) eq_refl). unfold satisfies in C.
    cbn [c_setup ct_expr ct_sense] in C. unfold e_eval in C. cbn [ex_sens ex_const fold_left fst snd] in C. unfold holds in C.
    assert (E : inject_Z (2 * (y 0%nat + y 1%nat)) == inject_Z 1).
    { rewrite inject_Z_mult, inject_Z_plus. change (inject_Z 2) with (2#1). change (inject_Z 1) with (1#1). revert C. generalize (inject_Z (y 0%nat)) (inject_Z (y 1%nat)). intros. lra. }
    apply (proj1 (inject_Z_injective _ _)) in E. clear C. lia. }
  split; [|split].
  - intros v E. unfold within. replace (ds_vars _ v) with (bounded (-5) 5).
    + cbn. lia.
    + destruct v as [|v]; [vm_compute in E; discriminate E|]. vm_compute. reflexivity.
  - intros c I En. vm_compute in I. repeat destruct I as [<-|I]; try contradiction; try discriminate; vm_compute; discriminate.
  - intros v k E. destruct v as [|v]; vm_compute in E; [|discriminate E]. injection E as <-. vm_compute. reflexivity.
Qed.

(** A constraint keeps the flags it was set up with, and is classified by them. *)
Lemma typed_wrong : exists s s' s'' c, coherent s /\ clean s /\ extract default_types same s = Some (1%nat, s') /\
  eliminate_loop 3 s' = Some s'' /\ In c (ds_cons s'') /\ ct_enabled c = true /\
  classify (context same (ds_vars s'')) c = (SetPartitioning, None) /\ ~ type_meaning (context same (ds_vars s'')) c SetPartitioning None.
Proof.
  exists typed, (extracted typed), (eliminated (extracted typed)), (nth 1 (ds_cons (eliminated (extracted typed))) (c_setup no_expr Equal int01)).
  split; [apply typed_ok|]. split; [apply typed_ok|]. split; [apply typed_extract|]. split; [apply typed_eliminate|].
  split. { vm_compute. right. left. reflexivity. }
  split; [vm_compute; reflexivity|]. split; [vm_compute; reflexivity|].
  set (y := fun v => match v with 1%nat | 2%nat | 3%nat => 1 | _ => 0 end%Z). intros M.
  assert (A : admissible (tx_vi (context same (ds_vars (eliminated (extracted typed))))) y).
  { intros v. destruct v as [|[|[|[|v]]]]; vm_compute; repeat split; try discriminate. }
  apply (M y) in A. destruct A as [A _]. vm_compute in A. specialize (A eq_refl). discriminate.
Qed.

(** It keeps its largest coefficient as well: a step of one variable by one breaks a
    constraint that is skipped for having enough margin. *)
Lemma slack_wrong : exists s s' s'' c x y v, coherent s /\ clean s /\ extract default_types same s = Some (2%nat, s') /\
  eliminate_loop 3 s' = Some s'' /\ In c (ds_cons s'') /\ c_ignorable (c_update c x) = true /\
  (forall w, (0 <= x w <= 1)%Z /\ (0 <= y w <= 1)%Z) /\ (forall w, w <> v -> y w = x w) /\ satisfies c x /\ ~ satisfies c y.
Proof.
  exists slack, (extracted slack), (eliminated (extracted slack)), (nth 2 (ds_cons (eliminated (extracted slack))) (c_setup no_expr Equal int01)),
    (fun _ => 1%Z), (fun w => if Nat.eqb w 3 then 0 else 1)%Z, 3%nat.
  split; [apply slack_ok|]. split; [apply slack_ok|]. split; [apply slack_extract|]. split; [apply slack_eliminate|].
  split. { vm_compute. right. right. left. reflexivity. }
  split; [vm_compute; reflexivity|]. split. { intros w. destruct (Nat.eqb w 3); lia. }
  split. { intros w N. apply Nat.eqb_neq in N. rewrite N. reflexivity. }
  split; [vm_compute; discriminate|]. intros H. vm_compute in H. apply H. reflexivity.
Qed.

(** Substitution leaves a zero coefficient behind; the bound tightening that follows divides by it. *)
Lemma cancel_undefined : exists s, coherent s /\ clean s /\ dependent_loop 5 default_types same true s = Some UB.
Proof. exists cancel. split; [apply cancel_ok|]. split; [apply cancel_ok|]. vm_compute. reflexivity. Qed.
