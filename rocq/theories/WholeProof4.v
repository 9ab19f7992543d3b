(** Proofs for C74: the whole, and the models of the examples. *)
From Coq Require Import List NArith ZArith QArith Qabs Bool Arith Lia Lqa.
From Verif Require Import ExprModel ExprSpec ConstraintModel ConstraintSpec VariableModel TypeModel TypeSpec PresolveModel PresolveSpec
  DuplicateModel DependentModel DependentSpec SelectionModel SelectionSpec PrepareModel PrepareSpec EvalModel EvalSpec EvalSpec2 TabuModel LoopModel LoopSpec LocalModel LocalSpec
  ControllerModel SolverModel SolverSpec WholeModel WholeSpec.
From Verif Require ScreenModel.
From Verif Require Import PrepareProof PrepareProof5 PrepareProof6 SolverProof3 SolverProof4 WholeProof WholeProof2 WholeProof3.
Import ListNotations.
Local Open Scope nat_scope.

Section Answer.
  Context (fuel : nat) (sw : switches) (su : surroundings) (o : search_options) (lg : Z -> Q) (root : Q -> Q) (m : bool) (a : inputs) (s : dstate) (r : dstate * list sel).
  Hypothesis Rd : search_ready m s r.
  Hypothesis St : settled r.
  Hypothesis Pr : prepare fuel sw su m s = Some (Ok r).
  Hypothesis Ad : admissible (zero_one_in (ds_number (fst r)) (ds_vars (fst r))) (search_state o m r) a.
  Let p := search_problem su m r.
  Let s0 := search_state o m r.
  Let a' := with_naive (ScreenModel.naive_dual_bound m (ds_obj (fst r)) (ds_vars (fst r))) a.

  Lemma solve_model_eq : solve_model fuel sw su o lg root m a s = Some (Ok (solve lg root p a' s0 mem_setup)).
  Proof. unfold solve_model. rewrite Pr. reflexivity. Qed.

  Lemma whole_answer : match solve lg root p a' s0 mem_setup with
    | Done (an, rn) => orderly (in_limit a) rn /\ right_answer p s0 rn an /\ (an_feasible an = true -> solution_of s (wo_defined o) an)
    | Rejected rn y => orderly (in_limit a) rn /\ In y (visited rn) /\ ~ valid_start (pb_n p) (placed p y) (pb_sels p)
    | NotANumber rn => orderly (in_limit a) rn /\ (ControllerSpec.log_like lg -> unpriceable s0 rn)
    end.
  Proof.
    pose proof (solve_ok lg root p a' s0 mem_setup _ (fun _ => True) (search_prepared su o m s r Rd St) Ad ltac:(auto) Logic.I ltac:(auto) ltac:(auto) ltac:(auto)) as H. cbv zeta in H.
    destruct (solve lg root p a' s0 mem_setup) as [[an rn]|rn y|rn]; destruct H as ((H1 & _) & H2); (split; [exact H1|]); try exact H2.
    split; [exact H2|]. exact (right_solution su o m s r Rd St rn an H2).
  Qed.

  Lemma whole_inside : offers_inside p s0 a -> match solve lg root p a' s0 mem_setup with
    | Done (_, rn) | NotANumber rn => forall y, In y (visited rn) -> valid_start (pb_n p) (placed p y) (pb_sels p)
    | Rejected _ _ => False
    end.
  Proof.
    intros (O1 & O2 & O3). apply (solve_inside lg root p a' s0 mem_setup _ (search_prepared su o m s r Rd St) Ad). split; [|split; [|split; [exact O1|split; [exact O2|exact O3]]]].
    - exact (sr_start _ _ _ Rd).
    - intros d I. destruct (defined_key _ d (sr_coherent _ _ _ Rd) I) as (_ & L & D). unfold p. cbn [search_problem pb_vars pb_sels].
      split; [destruct D; congruence|]. split; [destruct D; congruence|]. intros t It Iv.
      destruct (sr_ready _ _ _ Rd) as ((_ & S) & _ & _). destruct (S t It) as [_ X]. specialize (X d Iv). destruct D; congruence.
  Qed.
End Answer.

(** ** Checks by computation *)
Definition remembers_b (n : nat) (vs : vars) (c : constr) : bool :=
  forallb (fun p => Qle_bool (Qabs (snd p)) (ct_max_abs c)) (ex_sens (ct_expr c)) && int_b (ct_max_abs c) && int_b (ex_const (ct_expr c)) &&
  (negb (ct_only_binary_var c) || forallb (zero_one_in n vs) (keys (ct_expr c))).
Lemma remembers_b_ok n vs c : remembers_b n vs c = true -> remembers n vs c.
Proof.
  unfold remembers_b. rewrite !andb_true_iff. intros (((A & B) & C) & D). rewrite forallb_forall in A. split; [|split; [exact (int_b_ok _ B)|split; [exact (int_b_ok _ C)|]]].
  - intros v a I. exact (proj1 (Qle_bool_iff _ _) (A _ I)).
  - intros F v I. rewrite F in D. cbn [negb orb] in D. rewrite forallb_forall in D. exact (D v I).
Qed.
Definition below_b (n : nat) (f : nat -> bool) : bool := forallb f (seq 0 n).
Lemma below_b_ok n f : below_b n f = true -> forall v, v < n -> f v = true.
Proof. unfold below_b. rewrite forallb_forall. intros H v L. apply H, in_seq. lia. Qed.
Definition zo (s : vsense) : bool := match s with VBinary | VSelection => true | _ => false end.
Definition settled_b (r : dstate * list sel) : bool :=
  let n := ds_number (fst r) in let vs := ds_vars (fst r) in
  forallb (fun c => negb (ct_enabled c) || remembers_b n vs c) (ds_cons (fst r)) &&
  below_b n (fun v => va_fixed (vs v) || negb (zo (va_sense (vs v))) || (va_lower (vs v) =? 0)%Z && (va_upper (vs v) =? 1)%Z) &&
  below_b n (fun v => match ds_dep (fst r) v with Some _ => negb (va_fixed (vs v)) | None => true end) &&
  below_b n (fun v => match va_sense (vs v) with VSelection => existsb (fun t => existsb (Nat.eqb v) (sl_vars t)) (snd r) | _ => true end) &&
  forallb (fun v => v <? n) (keys (ds_obj (fst r))).
Lemma settled_b_ok r : (forall v, ds_number (fst r) <= v -> ds_dep (fst r) v = None) -> settled_b r = true -> settled r.
Proof.
  intros Out H. unfold settled_b in H. cbv zeta in H. apply andb_true_iff in H as [H E]. apply andb_true_iff in H as [H D]. apply andb_true_iff in H as [H C]. apply andb_true_iff in H as [A B].
  rewrite forallb_forall in A, E. pose proof (below_b_ok _ _ B) as B'. pose proof (below_b_ok _ _ C) as C'. pose proof (below_b_ok _ _ D) as D'. constructor.
  - intros c I En. specialize (A c I). rewrite En in A. exact (remembers_b_ok _ _ _ A).
  - intros v L F S. specialize (B' v L). cbv beta in B'. rewrite F in B'. assert (Z : zo (va_sense (ds_vars (fst r) v)) = true) by (destruct S as [-> | ->]; reflexivity).
    rewrite Z in B'. cbn [negb orb] in B'. apply andb_true_iff in B' as [X Y]. apply Z.eqb_eq in X, Y. split; assumption.
  - intros v N. destruct (Nat.lt_ge_cases v (ds_number (fst r))) as [L|L]; [|destruct (N (Out v L))]. specialize (C' v L). cbv beta in C'.
    destruct (ds_dep (fst r) v); [|congruence]. apply negb_true_iff in C'. exact C'.
  - intros v L S. specialize (D' v L). cbv beta in D'. rewrite S in D'. apply existsb_exists in D' as (t & It & X). apply existsb_exists in X as (w & Iw & Q). apply Nat.eqb_eq in Q. subst w. eauto.
  - intros v I. apply Nat.ltb_lt. exact (E v I).
Qed.

(** A flip or shift of one variable. *)
Definition shift (v : nat) (n : Z) (related : list nat) : tmove := mkTm (KSingle (v, n)) related false false false 0.
Definition shift_b (is01 : nat -> bool) (s : mstate) (v : nat) (n : Z) (related : list nat) : bool :=
  negb (ms_fixed s v) && (negb (is01 v) || (0 <=? n)%Z && (n <=? 1)%Z) && nodup_b related &&
  forallb (fun i => match nth_error (md_cons (ms_model s)) i with
    | Some c => negb (ct_enabled c) || negb (existsb (Nat.eqb v) (keys (ct_expr c))) || existsb (Nat.eqb i) related
    | None => true end) (seq 0 (length (md_cons (ms_model s)))).
Lemma shift_ok is01 s v n related : shift_b is01 s v n related = true -> trial_ok is01 s (shift v n related).
Proof.
  unfold shift_b. intros H. apply andb_true_iff in H as [H D]. apply andb_true_iff in H as [H C]. apply andb_true_iff in H as [A B]. apply negb_true_iff in A. rewrite forallb_forall in D.
  split; [|split; [|split; [exact (nodup_b_ok _ C)|split; [|split; [exact Logic.I|discriminate]]]]].
  - apply NoDup_cons; [intros []|apply NoDup_nil].
  - intros w k [E|[]]. injection E as <- <-. split; [exact A|]. intros Z. rewrite Z in B. cbn [negb orb] in B. apply andb_true_iff in B as [X Y]. apply Z.leb_le in X, Y. lia.
  - intros i c w Ei En [<-|[]] J. assert (Li : i < length (md_cons (ms_model s))) by (apply nth_error_Some; congruence).
    specialize (D i ltac:(apply in_seq; lia)). rewrite Ei, En in D. cbn [negb orb fst] in *. cbn [shift tm_related].
    assert (K : existsb (Nat.eqb v) (keys (ct_expr c)) = true) by (apply existsb_exists; exists v; split; [exact J|apply Nat.eqb_refl]).
    rewrite K in D. cbn [negb orb] in D. apply existsb_exists in D as (i' & I & Q). apply Nat.eqb_eq in Q. subst i'. exact I.
Qed.
Definition anchored_b (s : mstate) (v : nat) : bool := existsb (fun c => ct_enabled c && existsb (Nat.eqb v) (keys (ct_expr c))) (md_cons (ms_model s)).
Lemma anchored_ok s v n related : anchored_b s v = true -> anchored (ms_model s) (shift v n related).
Proof.
  intros H w k [E|[]]. injection E as <- <-. apply existsb_exists in H as (c & I & X). apply andb_true_iff in X as [En X].
  apply existsb_exists in X as (u & J & Q). apply Nat.eqb_eq in Q. subst u. eauto.
Qed.

(** ** Searching in the model of C73 *)
Definition w_options : search_options := mkWo 1000 true true false.
Definition w_lg (n : Z) : Q := inject_Z n.
Definition w_control : copt := mkCo true 100 (9 # 10) (3 # 10) (95 # 100) (1 # 2) (9 # 10) 1 0 5 7 true true false (fun _ => 0%nat) 1 true true (3 # 10) 0 true 2 1 1.
Definition w_loptions : loptions := mkLo 2 (-(100))%Q 1 true false (1 # 10) 0 (fun _ => 0%Q) (1 # 2) 0 0 true true true true 2 3.
Definition p_moves : list tmove := [shift 6 1 [4]; shift 6 0 [4]; shift 4 1 [4]].
Definition p_round : tround := mkTd false w_loptions [] (repeat (mkEnv false p_moves true 0%Z (fun _ => 1%Z)) 3) 1 1 1 0.
Definition p_inputs : inputs := mkIn 0 None None (Some (mkGloc (mkSo 1 (-(100))%Q true true) false [mkSe false p_moves true (fun _ => 0%Z)])) w_control 2 (-(100))%Q [p_round; p_round].
Definition p_is01 : nat -> bool := zero_one_in (ds_number (fst p_result)) (ds_vars (fst p_result)).
Lemma p_out v : ds_number (fst p_result) <= v -> ds_dep (fst p_result) v = None.
Proof. replace (ds_number (fst p_result)) with 7 by (vm_compute; reflexivity). intros L. do 7 (destruct v as [|v]; [exfalso; lia|]). vm_compute. reflexivity. Qed.
Lemma p_settled : settled p_result.
Proof. apply settled_b_ok; [exact p_out|]. vm_compute. reflexivity. Qed.
Lemma p_trial t : In t p_moves -> trial_ok p_is01 (search_state w_options true p_result) t.
Proof. intros I. cbn [p_moves In] in I. destruct I as [<-|[<-|[<-|[]]]]; apply shift_ok; vm_compute; reflexivity. Qed.
Lemma p_admissible : admissible p_is01 (search_state w_options true p_result) p_inputs.
Proof.
  split; [discriminate|]. split; [|split; [discriminate|]].
  - intros g E e t He Ht. injection E as <-. destruct He as [<-|[]]. split; [exact (p_trial t Ht)|]. cbn [se_moves p_moves In] in Ht. destruct Ht as [<-|[<-|[<-|[]]]]; apply anchored_ok; vm_compute; reflexivity.
  - intros d Hd. assert (d = p_round) as -> by (cbn in Hd; intuition congruence). split; [discriminate|]. split; [intros t []|].
    intros e t He Ht. apply repeat_spec in He. subst e. exact (p_trial t Ht).
Qed.
Lemma p_allowed v n k : (v = 6 /\ (0 <= n <= 3)%Z) \/ (v = 4 /\ (n = 0 \/ n = 1)%Z) -> move_allowed (search_problem p_around true p_result) (search_state w_options true p_result) (shift v n [4]) k.
Proof.
  intros H. split; [|discriminate]. intros w z [E|[]]. injection E as <- <-.
  assert (Sl : forall t, In t (pb_sels (search_problem p_around true p_result)) -> SelectionModel.sl_vars t = [2; 0; 1]).
  { intros t I. assert (M : map SelectionModel.sl_vars (pb_sels (search_problem p_around true p_result)) = [[2; 0; 1]]) by (vm_compute; reflexivity).
    pose proof (in_map SelectionModel.sl_vars _ t I) as J. rewrite M in J. destruct J as [<-|[]]. reflexivity. }
  split; [|split].
  - intros _ B. destruct H as [[-> _]|[-> H]]; [vm_compute in B; discriminate|exact H].
  - intros _ B. destruct H as [[-> H]|[-> _]]; [|vm_compute in B; discriminate].
    assert (X : va_lower (pb_vars (search_problem p_around true p_result) 6) = 0%Z /\ va_upper (pb_vars (search_problem p_around true p_result) 6) = 3%Z) by (vm_compute; split; reflexivity).
    destruct X as [-> ->]. exact H.
  - intros (t & I & J). rewrite (Sl t I) in J. destruct H as [[-> _]|[-> _]]; cbn in J; intuition discriminate.
Qed.
Lemma p_offers : offers_inside (search_problem p_around true p_result) (search_state w_options true p_result) p_inputs.
Proof.
  assert (M : forall t k, In t p_moves -> move_allowed (search_problem p_around true p_result) (search_state w_options true p_result) t k).
  { intros t k I. cbn [p_moves In] in I. destruct I as [<-|[<-|[<-|[]]]]; apply p_allowed; lia. }
  split; [discriminate|]. split.
  - intros g e t E He Ht. injection E as <-. destruct He as [<-|[]]. exact (M t _ Ht).
  - intros d Hd. assert (d = p_round) as -> by (cbn in Hd; intuition congruence). split; [intros t v n []|]. intros e t He Ht. apply repeat_spec in He. subst e. exact (M t _ Ht).
Qed.
Definition shown (n : nat) (o : option (PresolveModel.outcome (SolverModel.outcome (answer * run)))) :=
  match o with
  | Some (Ok (Done (an, rn))) => Some (map (an_x an) (seq 0 n), Qred (an_objective an), Qred (an_violation an), an_feasible an, length (visited rn))
  | _ => None
  end.
Lemma p_shown : shown 7 (solve_model 10 p_switches p_around w_options w_lg (fun q => q) true p_inputs p_model) = Some ([0; 0; 1; 0; 0; 2; 1]%Z, 0%Q, 0%Q, true, 9).
Proof. vm_compute. reflexivity. Qed.
