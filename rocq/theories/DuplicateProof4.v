(** Completeness and counterexamples for C28, C29, C30 and C49. *)
From Coq Require Import List ZArith NArith QArith Bool Lia Lqa Permutation Sorted.
From Verif Require Import ExprModel ExprSpec ExprProof ConstraintModel ConstraintSpec VariableModel TypeModel TypeSpec TypeProof TypeProof2 TypeProof3
  PresolveModel PresolveSpec PresolveProof PresolveProof2 PresolveProof5 DuplicateModel DuplicateSpec DuplicateProof DuplicateProof2 DuplicateProof3.
Import ListNotations.
Local Open Scope nat_scope.

(** * The hash does not depend on the order *)
Definition add64 (h a : N) : N := ((h + a) mod 2 ^ 64)%N.
Lemma add64_comm h a b : add64 (add64 h a) b = add64 (add64 h b) a.
Proof.
  unfold add64. rewrite !N.add_mod_idemp_l by discriminate. f_equal. lia.
Qed.
Lemma hash_fold_perm (addr : nat -> N) l m : Permutation l m -> forall h,
  fold_left (fun h (p : nat * Q) => add64 h (addr (fst p))) l h = fold_left (fun h p => add64 h (addr (fst p))) m h.
Proof.
  induction 1; intros h; cbn [fold_left]; auto; [|now rewrite IHPermutation1].
  now rewrite add64_comm.
Qed.
Lemma hash_perm addr e f : Permutation (ex_sens e) (ex_sens f) -> expr_hash addr e = expr_hash addr f.
Proof. intros P. apply (hash_fold_perm addr _ _ P). Qed.
Lemma rewritten_equal addr c d : wf (ct_expr d) -> rewritten c d -> e_equal addr (ct_expr c) (ct_expr d) = true.
Proof.
  intros W (_ & P & K). unfold e_equal, sens_equal. rewrite (hash_perm addr _ _ P), N.eqb_refl, (Permutation_length P), Nat.eqb_refl, K.
  cbn [andb]. rewrite (proj2 (Qeq_bool_iff _ _) (Qeq_refl _)). cbn [andb]. apply forallb_forall. intros [v a] I. cbn [fst snd].
  apply (Permutation_in _ P) in I. rewrite (in_find _ v a W I). apply Qeq_bool_iff. reflexivity.
Qed.
Lemma csense_refl s : csense_eqb s s = true. Proof. now destruct s. Qed.
Lemma rewritten_duplicates addr cs i j c d : wf (ct_expr d) -> nth_error cs i = Some c -> nth_error cs j = Some d -> rewritten c d ->
  duplicates addr cs i j = true.
Proof.
  intros W Ei Ej R. unfold duplicates. rewrite Ei, Ej. rewrite (rewritten_equal addr c d W R). destruct R as (-> & _). now rewrite csense_refl.
Qed.

(** One list of one type: nothing but collisions hides a duplicate. *)
Lemma no_rewritten_left addr cs l : NoDup l -> well_formed cs ->
  (forall i j c d, In i l -> In j l -> nth_error cs i = Some c -> nth_error cs j = Some d ->
     expr_hash addr (ct_expr c) = expr_hash addr (ct_expr d) -> rewritten c d) ->
  (forall i, In i l -> i < length cs) ->
  let cs' := remove_duplicates_in addr cs l in
  forall i j c d, In i l -> In j l -> i <> j -> nth_error cs' i = Some c -> nth_error cs' j = Some d ->
    ct_enabled c = true -> ct_enabled d = true -> ~ rewritten c d.
Proof.
  intros N W H B cs' i j c d Ii Ij D Ei Ej Ec Ed R.
  destruct (remove_in_spec addr cs l N W) as [O _]. fold cs' in O.
  assert (At : forall k e, In k l -> nth_error cs' k = Some e -> exists e0, nth_error cs k = Some e0 /\ ct_expr e = ct_expr e0 /\ ct_sense e = ct_sense e0).
  { intros k e Ik Ek. destruct (nth_error cs k) as [e0|] eqn:E0; [|apply nth_error_None in E0; specialize (B k Ik); lia].
    exists e0. split; [reflexivity|]. destruct O as [_ O]. destruct (O k e0 e E0 Ek) as (A1 & A2 & _). auto. }
  destruct (At i c Ii Ei) as (c0 & Ei0 & Xc & Sc). destruct (At j d Ij Ej) as (d0 & Ej0 & Xd & Sd).
  assert (R0 : rewritten c0 d0) by (unfold rewritten in *; rewrite <- Xc, <- Xd, <- Sc, <- Sd; exact R).
  assert (F : duplicates addr cs i j = false).
  { apply (remove_in_complete addr cs l N W); auto.
    - intros p q Ip Iq Hh.
      destruct (nth_error cs p) as [u|] eqn:Ep; [|apply nth_error_None in Ep; specialize (B p Ip); lia].
      destruct (nth_error cs q) as [w|] eqn:Eq; [|apply nth_error_None in Eq; specialize (B q Iq); lia].
      apply (rewritten_duplicates addr cs p q u w); auto.
      + apply W. eapply nth_error_In; eauto.
      + apply (H p q u w Ip Iq Ep Eq). unfold hash_at in Hh. now rewrite Ep, Eq in Hh.
    - unfold is_on. fold cs'. now rewrite Ei.
    - unfold is_on. fold cs'. now rewrite Ej. }
  rewrite (rewritten_duplicates addr cs i j c0 d0) in F; auto; [discriminate|]. apply W. eapply nth_error_In; eauto.
Qed.


(** A pair of opposite inequalities, alone in the lists, becomes an equality. *)
Lemma opposite_hash addr c d : opposite addr c d = true -> expr_hash addr (ct_expr c) = expr_hash addr (ct_expr d).
Proof.
  unfold opposite, e_equal. intros H. apply orb_true_iff in H as [H|H]; apply andb_true_iff in H as [_ H];
  repeat (apply andb_true_iff in H as [H _]); apply N.eqb_eq in H; [exact H|]. rewrite H. unfold expr_hash, e_neg. cbn [ex_sens].
  generalize 0%N. generalize (ex_sens (ct_expr d)). induction s as [|p tl IH]; intros h; [reflexivity|]. cbn. apply IH.
Qed.
Lemma pair_extracted addr is01 refs cs i j c d : well_formed cs ->
  flat_map refs equality_types ++ filter (an_inequality cs) (refs GeneralLinear) = [i; j] ->
  nth_error cs i = Some c -> nth_error cs j = Some d -> ct_enabled c = true -> ct_enabled d = true ->
  ct_sense c <> Equal -> opposite addr c d = true ->
  extract_implicit_equalities addr is01 refs cs = disable_at (disable_at cs i) j ++ [c_setup (ct_expr c) Equal is01].
Proof.
  intros W R Ei Ej Ec Ed NE Op. unfold extract_implicit_equalities. cbv zeta.
  rewrite (filter_ext _ (an_inequality cs)), R; [cbn [app length Nat.leb]|intros k; unfold an_inequality; destruct (nth_error cs k) as [e|]; [destruct (ct_sense e)|]; reflexivity].
  pose proof (opposite_hash addr c d Op) as Hh.
  assert (S : stable_sort (by_hash addr cs) [i; j] = [i; j]).
  { unfold stable_sort. cbn [fold_right insert_sorted]. unfold by_hash, hash_at. rewrite Ei, Ej, Hh, N.ltb_irrefl. reflexivity. }
  rewrite S. cbn [equality_types]. rewrite (pair_merged addr is01 cs i j c d W Ei Ej Ec Ed NE Op Hh). reflexivity.
Qed.

(** * Counterexamples *)
Definition bin (fixed : bool) (value : Z) : var := mkVar value 0 1 true fixed VBinary (0 <? value)%Z (value <? 1)%Z.
Definition plain (l : list (nat * Q)) (k : Q) (s : csense) : constr := c_setup (mkExpr l k) s (fun _ => true).

(** x + y <= 1 and twice x + 2 y <= 3: the group's first member shields the pair. *)
Definition shield : list constr :=
  [plain [(0, 1%Q); (1, 1%Q)] (-(1)) Less; plain [(0, 1%Q); (1, 2%Q)] (-(3)) Less; plain [(0, 1%Q); (1, 2%Q)] (-(3)) Less].
Lemma shielded_duplicate : forall addr, remove_duplicates_in addr shield [0; 1; 2] = shield.
Proof.
  intros addr.
  assert (H : forall i, i < 3 -> hash_at addr shield i = hash_at addr shield 0).
  { intros [|[|[|i]]] L; try reflexivity. lia. }
  assert (Bh : forall i j, i < 3 -> j < 3 -> by_hash addr shield i j = false).
  { intros i j Li Lj. unfold by_hash. rewrite (H i Li), (H j Lj). apply N.ltb_irrefl. }
  unfold remove_duplicates_in. cbn [length Nat.leb stable_sort fold_right insert_sorted].
  rewrite (Bh 2 1) by lia. cbn [insert_sorted]. rewrite (Bh 1 0) by lia. 
  assert (D1 : duplicates addr shield 0 1 = false).
  { unfold duplicates. cbn [shield nth_error]. unfold e_equal. cbn [plain c_setup ct_expr ex_const]. rewrite (andb_comm (_ && _)).  reflexivity. }
  assert (D2 : duplicates addr shield 0 2 = false).
  { unfold duplicates. cbn [shield nth_error]. unfold e_equal. cbn [plain c_setup ct_expr ex_const]. rewrite (andb_comm (_ && _)).  reflexivity. }
  cbn [duplicate_scan]. change (is_on shield 0) with true. cbv iota. rewrite (H 1), N.eqb_refl, D1, andb_false_r by lia.
  rewrite (H 2), N.eqb_refl, D2, andb_false_r by lia. reflexivity.
Qed.

(** x0 fixed at 1; x0 + x1 + x2 = 1 and x1 + x2 = 1. *)
Definition overrule_vars : vars := fun v => match v with 0 => bin true 1 | _ => bin false 0 end.
Definition overrule : list constr := [plain [(0, 1%Q); (1, 1%Q); (2, 1%Q)] (-(1)) Equal; plain [(1, 1%Q); (2, 1%Q)] (-(1)) Equal].
(** The smaller constraint switched off by the user. *)
Definition ghost_vars : vars := fun _ => bin false 0.
Definition ghost : list constr := [plain [(0, 1%Q); (1, 1%Q); (2, 1%Q)] (-(1)) Equal; disable (plain [(1, 1%Q); (2, 1%Q)] (-(1)) Equal)].

Lemma sum_eval l : forall y, e_eval (mkExpr (map (fun v => (v, 1%Q)) l) (-(1))) y == inject_Z (total l y - 1).
Proof.
  intros y. rewrite eval_lin. cbn [ex_sens ex_const]. assert (E : (lin (map (fun v => (v, 1%Q)) l) y == inject_Z (total l y))%Q).
  { induction l as [|v tl IH]; cbn [map lin total]; [reflexivity|]. unfold lin in *. cbn. rewrite inject_Z_plus. rewrite <- IH. ring. }
  rewrite E. unfold Z.sub. rewrite inject_Z_plus. change (inject_Z (-(1))) with (-(1))%Q. ring.
Qed.
Lemma sum_sat l s y : satisfies (plain (map (fun v => (v, 1%Q)) l) (-(1)) s) y <->
  match s with Less => total l y <= 1 | Equal => total l y = 1 | Greater => 1 <= total l y end%Z.
Proof.
  unfold satisfies, plain, c_setup. cbn [ct_expr ct_sense]. unfold holds. destruct s; rewrite (sum_eval l y).
  - change 0%Q with (inject_Z 0). rewrite <- Zle_Qle. lia.
  - change 0%Q with (inject_Z 0). rewrite (inject_Z_injective). lia.
  - change 0%Q with (inject_Z 0). rewrite <- Zle_Qle. lia.
Qed.
Lemma unit_plain vs l s : NoDup l -> (forall v, In v l -> (va_fixed (vs v) = false -> va_lower (vs v) = 0 /\ va_upper (vs v) = 1)%Z /\
    (va_fixed (vs v) = true -> 0 <= va_value (vs v) <= 1)%Z) ->
  match s with Less => at_most_one | Equal => exactly_one | Greater => at_least_one end vs (plain (map (fun v => (v, 1%Q)) l) (-(1)) s).
Proof.
  intros N B. assert (V : variables (plain (map (fun v => (v, 1%Q)) l) (-(1)) s) = l).
  { unfold variables, keys, plain, c_setup. cbn [ct_expr ex_sens]. rewrite map_map. cbn [fst]. now rewrite map_id. }
  assert (Y : forall y, legal vs y -> forall v, In v l -> (0 <= y v <= 1)%Z).
  { intros y L v I. destruct (B v I) as [B1 B2]. destruct (L v) as [L1 L2]. destruct (va_fixed (vs v)).
    - rewrite (L1 eq_refl). auto.
    - specialize (L2 eq_refl). destruct (B1 eq_refl). lia. }
  destruct s; (split; [now rewrite V|]); intros y L; rewrite V; (split; [now apply Y|]); apply sum_sat.
Qed.

Definition rank (v : nat) : nat := v.
Lemma overrule_gains : let r := remove_redundant_set_constraints (type_refs (vctx rank overrule_vars) overrule) overrule_vars overrule in
  (forall y, ~ solution (mkP 3 overrule_vars overrule) y) /\ exists y, solution (mkP 3 (fst r) (snd r)) y.
Proof.
  cbv zeta. split.
  - intros y [L S]. cbn [ps_vars ps_cons] in *.
    pose proof (S _ (or_introl eq_refl) eq_refl) as A. pose proof (S _ (or_intror (or_introl eq_refl)) eq_refl) as B.
    change (satisfies (plain (map (fun v => (v, 1%Q)) [0; 1; 2]) (-(1)) Equal) y) in A.
    change (satisfies (plain (map (fun v => (v, 1%Q)) [1; 2]) (-(1)) Equal) y) in B.
    apply sum_sat in A, B. cbn [total] in A, B. destruct (L 0) as [L0 _]. specialize (L0 eq_refl). cbn in L0. lia.
  - assert (E : remove_redundant_set_constraints (type_refs (vctx rank overrule_vars) overrule) overrule_vars overrule
       = (fix_zero overrule_vars [0], disable_at overrule 0)) by (vm_compute; reflexivity).
    rewrite E. exists (fun v => if v =? 1 then 1%Z else 0%Z). split; cbn [ps_vars ps_cons fst snd].
    + intros [|[|v]]; (split; [first [discriminate|reflexivity]|]); intros F; try discriminate F; cbn; lia.
    + intros c [<-|[<-|[]]] En; [discriminate En|].
      change (satisfies (plain (map (fun v => (v, 1%Q)) [1; 2]) (-(1)) Equal) (fun v => if v =? 1 then 1%Z else 0%Z)).
      apply sum_sat. reflexivity.
Qed.
Lemma ghost_gains : let r := remove_redundant_set_constraints (type_refs (vctx rank ghost_vars) ghost) ghost_vars ghost in
  (exists y, solution (mkP 3 ghost_vars ghost) y) /\
  exists y, solution (mkP 3 (fst r) (snd r)) y /\ ~ solution (mkP 3 ghost_vars ghost) y.
Proof.
  cbv zeta. split.
  - exists (fun v => if v =? 1 then 1%Z else 0%Z). split; cbn [ps_vars ps_cons].
    + intros v. split; [discriminate|]. intros _. cbn. destruct (v =? 1); lia.
    + intros c [<-|[<-|[]]] En; [|discriminate En].
      change (satisfies (plain (map (fun v => (v, 1%Q)) [0; 1; 2]) (-(1)) Equal) (fun v => if v =? 1 then 1%Z else 0%Z)).
      apply sum_sat. reflexivity.
  - assert (E : remove_redundant_set_constraints (type_refs (vctx rank ghost_vars) ghost) ghost_vars ghost
       = (fix_zero ghost_vars [0], disable_at ghost 0)) by (vm_compute; reflexivity).
    rewrite E. exists (fun v => 0%Z). split; [split; cbn [ps_vars ps_cons fst snd]|].
    + intros [|v]; (split; [first [discriminate|reflexivity]|]); intros F; try discriminate F; cbn; lia.
    + intros c [<-|[<-|[]]] En; discriminate En.
    + intros [_ S]. specialize (S _ (or_introl eq_refl) eq_refl).
      change (satisfies (plain (map (fun v => (v, 1%Q)) [0; 1; 2]) (-(1)) Equal) (fun v => 0%Z)) in S. apply sum_sat in S. cbn in S. lia.
Qed.

(** minimize - x0 - x1 subject to x0 + x1 + x2 >= 1. *)
Definition gain : expr := mkExpr [(0, (-(1))%Q); (1, (-(1))%Q)] 0.
Definition cover : list constr := [plain [(0, 1%Q); (1, 1%Q); (2, 1%Q)] (-(1)) Greater].
Lemma covering_loses : forall caddr, exists y,
  legal ghost_vars y /\ satisfies_all cover y /\
  forall y', legal (remove_redundant_set_variables caddr (type_refs (vctx rank ghost_vars) cover) true (coef (ex_sens gain)) rank 3 cover ghost_vars) y' ->
    ~ as_good true (e_eval gain y') (e_eval gain y).
Proof.
  intros caddr. exists (fun _ => 1%Z). split; [intros v; split; [discriminate|]; intros _; cbn; lia|].
  split.
  { intros c [<-|[]] _. change (satisfies (plain (map (fun v => (v, 1%Q)) [0; 1; 2]) (-(1)) Greater) (fun v => 1%Z)). apply sum_sat. cbn. lia. }
  intros y' L.
  assert (T : type_refs (vctx rank ghost_vars) cover SetPartitioning = [] /\ type_refs (vctx rank ghost_vars) cover SetCovering = [0] /\
    type_refs (vctx rank ghost_vars) cover SetPacking = []) by (repeat split; vm_compute; reflexivity).
  destruct T as (T1 & T2 & T3). unfold remove_redundant_set_variables in L. rewrite T1, T2, T3 in L.
  cbn [length Nat.eqb Nat.add negb cover] in L.
  assert (H : forall v, v < 3 -> var_hash caddr cover v = var_hash caddr cover 0) by (intros [|[|[|v]]] X; try reflexivity; lia).
  unfold cover in H, L. set (cs := [plain [(0, 1%Q); (1, 1%Q); (2, 1%Q)] (-(1)) Greater]) in *.
  assert (D : forall a b, a < 3 -> b < 3 -> dominates caddr cs true (coef (ex_sens gain)) rank ghost_vars a b
     = if negb (Qeq_bool (coef (ex_sens gain) a) (coef (ex_sens gain) b)) then negb (Qle_bool (coef (ex_sens gain) b) (coef (ex_sens gain) a)) else (a <? b)).
  { intros a b La Lb. unfold dominates. rewrite (H a La), (H b Lb), N.eqb_refl. reflexivity. }
  assert (E : stable_sort (dominates caddr cs true (coef (ex_sens gain)) rank ghost_vars) (seq 0 3) = [0; 1; 2]).
  { unfold stable_sort. cbn [seq fold_right insert_sorted]. rewrite (D 2 1) by lia.
    change (if negb (Qeq_bool (coef (ex_sens gain) 2) (coef (ex_sens gain) 1)) then negb (Qle_bool (coef (ex_sens gain) 1) (coef (ex_sens gain) 2)) else 2 <? 1) with false.
    cbn [insert_sorted]. rewrite (D 1 0) by lia. reflexivity. }
  rewrite E in L. cbn [domination_scan] in L. change (va_fixed (ghost_vars 0)) with false in L. cbv iota in L.
  assert (F : dominated_scan caddr cs 0 [1; 2] ghost_vars = (do_fix_by (do_fix_by ghost_vars 1 0) 2 0, true)).
  { cbn [dominated_scan]. rewrite (H 1), (H 2), N.eqb_refl by lia. reflexivity. }
  rewrite F in L. destruct (L 1) as [L1 _]. specialize (L1 eq_refl). cbn in L1. destruct (L 0) as [_ L0]. specialize (L0 eq_refl). cbn in L0.
  unfold as_good. rewrite !eval_lin. unfold gain. cbn [ex_const ex_sens lin].
  rewrite L1. assert (Y : y' 0 = 0%Z \/ y' 0 = 1%Z) by lia. change (inject_Z 1) with 1%Q; change (inject_Z 0) with 0%Q. destruct Y as [-> | ->]; [change (inject_Z 0) with 0%Q|change (inject_Z 1) with 1%Q]; lra.
Qed.
(** x1 fixed at 1 by the user, x0 free and cheaper, x0 + x1 = 1. *)
Definition settled : vars := fun v => match v with 1 => bin true 1 | _ => bin false 0 end.
Definition pair_cs : list constr := [plain [(0, 1%Q); (1, 1%Q)] (-(1)) Equal].
Lemma settled_overwritten : forall caddr, 
  let vs := remove_redundant_set_variables caddr (type_refs (vctx rank settled) pair_cs) true (fun v => inject_Z (Z.of_nat v)) rank 2 pair_cs settled in
  (va_fixed (settled 1) = true /\ va_value (settled 1) = 1%Z) /\ (va_fixed (vs 1) = true /\ va_value (vs 1) = 0%Z).
Proof.
  intros caddr. cbv zeta. split; [split; reflexivity|].
  assert (T : length pair_cs = length (type_refs (vctx rank settled) pair_cs SetPartitioning) + length (type_refs (vctx rank settled) pair_cs SetCovering)
     + length (type_refs (vctx rank settled) pair_cs SetPacking)) by (vm_compute; reflexivity).
  unfold remove_redundant_set_variables. rewrite <- T. unfold pair_cs. set (cs := [plain [(0, 1%Q); (1, 1%Q)] (-(1)) Equal]). change (length cs) with 1. cbn [Nat.eqb negb].
  assert (H : var_hash caddr cs 1 = var_hash caddr cs 0) by reflexivity.
  assert (E : stable_sort (dominates caddr cs true (fun v => inject_Z (Z.of_nat v)) rank settled) (seq 0 2) = [0; 1]).
  { unfold stable_sort. cbn [seq fold_right insert_sorted]. unfold dominates. rewrite H, N.eqb_refl. reflexivity. }
  rewrite E. cbn [domination_scan]. change (va_fixed (settled 0)) with false. cbv iota.
  assert (F : dominated_scan caddr cs 0 [1] settled = (do_fix_by settled 1 0, true)).
  { cbn [dominated_scan]. rewrite H, N.eqb_refl. reflexivity. }
  rewrite F. split; reflexivity.
Qed.
(** Two equal knapsack constraints both stay. *)
Definition sack : list constr := [plain [(0, 2%Q); (1, 3%Q); (2, 3%Q)] (-(4)) Less; plain [(0, 2%Q); (1, 3%Q); (2, 3%Q)] (-(4)) Less].
Lemma sack_kept : forall addr, remove_duplicated_constraints addr (type_refs (vctx rank ghost_vars) sack) sack = sack.
Proof.
  intros addr. unfold remove_duplicated_constraints.
  assert (E : forall t, In t duplicate_types -> type_refs (vctx rank ghost_vars) sack t = []).
  { intros t I. unfold duplicate_types in I. repeat (destruct I as [<-|I]; [vm_compute; reflexivity|]). destruct I. }
  assert (G : forall ts cs, (forall t, In t ts -> type_refs (vctx rank ghost_vars) sack t = []) ->
    fold_left (fun cs t => remove_duplicates_in addr cs (type_refs (vctx rank ghost_vars) sack t)) ts cs = cs).
  { induction ts as [|t ts IH]; intros cs H; cbn [fold_left]; [reflexivity|]. rewrite (H t (or_introl eq_refl)). cbn [remove_duplicates_in].
    apply IH. intros u I. apply H. now right. }
  now apply G.
Qed.
