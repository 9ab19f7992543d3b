(** Proofs for C64: extract keeps the solutions. *)
From Coq Require Import List ZArith QArith Qabs Bool Arith Lia Lqa Wf_nat.
From Verif Require Import ExprModel ExprSpec ExprProof ConstraintModel ConstraintSpec VariableModel TypeModel TypeSpec PresolveModel
  DependentModel DependentSpec DependentProof DependentProof2 DependentProof3.
Import ListNotations.
Local Open Scope Q_scope.

(** ** The parts of the new model *)
Definition dep_of (ps : list cand) (start : nat) (f : nat -> option nat) : nat -> option nat :=
  fold_left (fun f ck v => if Nat.eqb v (ca_key (fst ck)) then Some (snd ck) else f v) (combine ps (seq start (length ps))) f.

Lemma dep_of_other ps : forall start f v, ~ In v (map ca_key ps) -> dep_of ps start f v = f v.
Proof.
  induction ps as [|c ps IH]; intros start f v N; [reflexivity|].
  unfold dep_of. cbn [length seq combine fold_left fst snd]. fold (dep_of ps (S start) (fun w => if Nat.eqb w (ca_key c) then Some start else f w)).
  rewrite IH by (intros I; apply N; right; exact I).
  destruct (Nat.eqb_spec v (ca_key c)) as [E|E]; [|reflexivity]. exfalso. apply N. left. auto.
Qed.
Lemma dep_of_key ps : forall start f j c, NoDup (map ca_key ps) -> nth_error ps j = Some c -> dep_of ps start f (ca_key c) = Some (start + j)%nat.
Proof.
  induction ps as [|d ps IH]; intros start f j c N E; [destruct j; discriminate|].
  unfold dep_of. cbn [length seq combine fold_left fst snd]. fold (dep_of ps (S start) (fun w => if Nat.eqb w (ca_key d) then Some start else f w)).
  cbn [map] in N. inversion N as [|? ? N1 N2]; subst. destruct j as [|j].
  - injection E as ->. rewrite dep_of_other by exact N1. rewrite Nat.eqb_refl. f_equal. lia.
  - cbn [nth_error] in E. rewrite (IH _ _ j c N2 E). f_equal. lia.
Qed.
Lemma in_keys_nth (ps : list cand) v : In v (map ca_key ps) -> exists j c, nth_error ps j = Some c /\ ca_key c = v.
Proof.
  intros I. apply in_map_iff in I. destruct I as (c & E & I). apply In_nth_error in I. destruct I as [j I]. exists j, c. auto.
Qed.
Lemma all_some_nth {A} (l : list (option A)) : forall r, all_some l = Some r ->
  length r = length l /\ forall j o, nth_error l j = Some o -> exists a, o = Some a /\ nth_error r j = Some a.
Proof.
  induction l as [|[a|] l IH]; intros r E; simpl in E; try discriminate.
  - injection E as <-. split; [reflexivity|]. intros [|j] o F; discriminate.
  - destruct (all_some l) as [r'|]; [|discriminate]. injection E as <-. destruct (IH r' eq_refl) as [L N].
    split; [simpl; lia|]. intros [|j] o F; simpl in F.
    + injection F as <-. exists a. auto.
    + exact (N j o F).
Qed.
Lemma all_some_total {A} (l : list (option A)) : (forall o, In o l -> o <> None) -> all_some l <> None.
Proof.
  induction l as [|[a|] l IH]; intros H; simpl; [discriminate| |].
  - destruct (all_some l); [discriminate|]. apply IH. intros o I. apply H. right. exact I.
  - exfalso. apply (H None); [left; reflexivity|reflexivity].
Qed.

Definition same_data (a b : var) : Prop :=
  va_lower a = va_lower b /\ va_upper a = va_upper b /\ va_fixed a = va_fixed b /\ va_value a = va_value b.
Lemma make_dependent_facts vs v w : same_data (make_dependent vs v w) (vs w) /\
  (is_dependent (make_dependent vs v w) <-> is_dependent (vs w) \/ w = v).
Proof.
  unfold make_dependent. cbn [v_step]. unfold set_var. destruct (Nat.eqb_spec w v) as [E|E].
  - subst w. split; [repeat split|]. split; [auto|]. intros _.
    unfold is_dependent. simpl. destruct (binary_or_integer _ _); auto.
  - split; [repeat split|]. tauto.
Qed.
Lemma new_vars ps : forall vs w, same_data (fold_left (fun vs c => make_dependent vs (ca_key c)) ps vs w) (vs w) /\
  (is_dependent (fold_left (fun vs c => make_dependent vs (ca_key c)) ps vs w) <-> is_dependent (vs w) \/ In w (map ca_key ps)).
Proof.
  induction ps as [|c ps IH]; intros vs w; cbn [fold_left map In].
  - split; [repeat split|]. tauto.
  - destruct (IH (make_dependent vs (ca_key c)) w) as [A B]. destruct (make_dependent_facts vs (ca_key c) w) as [A' B'].
    split; [unfold same_data in *; intuition congruence|]. rewrite B, B'. intuition.
Qed.
Lemma within_same a b z : same_data a b -> (within a z <-> within b z).
Proof. unfold within. intros (A & B & C & D). rewrite A, B, C, D. reflexivity. Qed.

Lemma solve_keys e v f w : e_solve e v = Some f -> In w (keys f) -> In w (keys e).
Proof.
  unfold e_solve. destruct (sens_find (ex_sens e) v); [|discriminate]. destruct (Qeq_bool q 0); [discriminate|].
  intros E. injection E as <-. unfold keys. cbn [ex_sens]. rewrite keys_map. apply in_erase.
Qed.

(** The bound test on the variables of the expression only. *)
Lemma fold_local (s : sens) (g h : Q -> nat * Q -> Q) : (forall a p, In p s -> g a p = h a p) -> forall a, fold_left g s a = fold_left h s a.
Proof.
  induction s as [|p s IH]; intros H a; [reflexivity|]. cbn [fold_left]. rewrite (H a p (or_introl eq_refl)). apply IH.
  intros b q I. apply H. right. exact I.
Qed.
Lemma local_bounds e vs x : (forall w, In w (keys e) -> within (vs w) (x w)) ->
  e_lower e (vi_of vs) <= e_eval e x /\ e_eval e x <= e_upper e (vi_of vs).
Proof.
  intros H.
  set (vi := fun v => if in_dec Nat.eq_dec v (keys e) then vi_of vs v else mkVinfo 0 0 true (x v)).
  assert (A : admissible vi x).
  { intros v. unfold vi. destruct (in_dec Nat.eq_dec v (keys e)) as [I|I].
    - specialize (H v I). unfold within in H. cbn [vi_of vi_fixed vi_value vi_lower vi_upper].
      destruct (va_fixed (vs v)); split; intros; congruence || assumption.
    - cbn [vi_fixed vi_value]. split; [reflexivity|discriminate]. }
  assert (K : forall p, In p (ex_sens e) -> vi (fst p) = vi_of vs (fst p)).
  { intros p I. unfold vi. destruct (in_dec Nat.eq_dec (fst p) (keys e)) as [J|J]; [reflexivity|].
    exfalso. apply J. unfold keys. apply in_map, I. }
  split.
  - apply Qle_trans with (e_lower e vi); [|apply lower_bound_valid, A]. unfold e_lower.
    rewrite (fold_local _ _ (fun acc p => let i := vi (fst p) in
      if vi_fixed i then acc + snd p * inject_Z (vi_value i)
      else acc + snd p * inject_Z (if Qlt_le_dec 0 (snd p) then vi_lower i else vi_upper i))); [apply Qle_refl|].
    intros a p I. cbv zeta. rewrite (K p I). reflexivity.
  - apply Qle_trans with (e_upper e vi); [apply upper_bound_valid, A|]. unfold e_upper.
    rewrite (fold_local _ _ (fun acc p => let i := vi_of vs (fst p) in
      if vi_fixed i then acc + snd p * inject_Z (vi_value i)
      else acc + snd p * inject_Z (if Qlt_le_dec 0 (snd p) then vi_upper i else vi_lower i))); [apply Qle_refl|].
    intros a p I. cbv zeta. rewrite (K p I). reflexivity.
Qed.
Lemma ltq_true a b : ltq a b = true <-> a < b.
Proof. unfold ltq. destruct (Qlt_le_dec a b) as [L|L]; split; intros H; try reflexivity; try discriminate; [exact L|lra]. Qed.
Lemma ltq_false a b : ltq a b = false <-> b <= a.
Proof. unfold ltq. destruct (Qlt_le_dec a b) as [L|L]; split; intros H; try reflexivity; try discriminate; [lra|exact L]. Qed.

Lemma bound_constraints_facts vs is01 v e d : In d (bound_constraints vs is01 v e) ->
  ct_enabled d = true /\ keys (ct_expr d) = keys e /\ ct_sense d <> Equal /\
  forall x, satisfies d x <-> (ct_sense d = Greater /\ inject_Z (va_lower (vs v)) <= e_eval e x) \/
                              (ct_sense d = Less /\ e_eval e x <= inject_Z (va_upper (vs v))).
Proof.
  unfold bound_constraints. intros I. apply in_app_iff in I. destruct I as [I|I].
  - destruct (negb (va_lower (vs v) =? INT_HALF_MIN)%Z && ltq (e_lower e (vi_of vs)) (inject_Z (va_lower (vs v)))); [|contradiction].
    destruct I as [<-|[]]. split; [reflexivity|]. split; [reflexivity|]. split; [discriminate|]. intros x.
    unfold satisfies. cbn [c_setup ct_expr ct_sense holds]. rewrite eval_sub_value. split.
    + intros H. left. split; [reflexivity|lra].
    + intros [[_ H]|[H _]]; [lra|discriminate].
  - destruct (negb (va_upper (vs v) =? INT_HALF_MAX)%Z && ltq (inject_Z (va_upper (vs v))) (e_upper e (vi_of vs))); [|contradiction].
    destruct I as [<-|[]]. split; [reflexivity|]. split; [reflexivity|]. split; [discriminate|]. intros x.
    unfold satisfies. cbn [c_setup ct_expr ct_sense holds]. rewrite eval_sub_value. split.
    + intros H. right. split; [reflexivity|lra].
    + intros [[H _]|[_ H]]; [discriminate|lra].
Qed.
(** x respects the bounds that stand for "no bound given" of the free variables. *)
Definition covered (vs : vars) (x : nat -> Z) : Prop := forall v, va_fixed (vs v) = false ->
  (va_lower (vs v) = INT_HALF_MIN -> INT_HALF_MIN <= x v)%Z /\ (va_upper (vs v) = INT_HALF_MAX -> x v <= INT_HALF_MAX)%Z.
Lemma bound_constraints_lower vs is01 v e x z : (forall d, In d (bound_constraints vs is01 v e) -> satisfies d x) ->
  (forall w, In w (keys e) -> within (vs w) (x w)) -> inject_Z z == e_eval e x ->
  (va_lower (vs v) = INT_HALF_MIN -> INT_HALF_MIN <= z)%Z -> (va_upper (vs v) = INT_HALF_MAX -> z <= INT_HALF_MAX)%Z ->
  (va_lower (vs v) <= z <= va_upper (vs v))%Z.
Proof.
  intros S W E O1 O2. destruct (local_bounds e vs x W) as [Lo Up]. unfold bound_constraints in S.
  split.
  - destruct (Z.eqb_spec (va_lower (vs v)) INT_HALF_MIN) as [H|H]; [lia|]. cbn [negb andb] in S.
    destruct (ltq (e_lower e (vi_of vs)) (inject_Z (va_lower (vs v)))) eqn:L.
    + assert (G : satisfies (c_setup (e_sub_value e (inject_Z (va_lower (vs v)))) Greater is01) x) by (apply S, in_or_app; left; left; reflexivity). unfold satisfies in G. cbn [c_setup ct_expr ct_sense holds] in G.
      rewrite eval_sub_value in G. rewrite Zle_Qle. lra.
    + apply ltq_false in L. rewrite Zle_Qle. lra.
  - destruct (Z.eqb_spec (va_upper (vs v)) INT_HALF_MAX) as [H|H]; [lia|]. cbn [negb andb] in S.
    destruct (ltq (inject_Z (va_upper (vs v))) (e_upper e (vi_of vs))) eqn:L.
    + assert (G : satisfies (c_setup (e_sub_value e (inject_Z (va_upper (vs v)))) Less is01) x) by (apply S, in_or_app; right; left; reflexivity). unfold satisfies in G. cbn [c_setup ct_expr ct_sense holds] in G.
      rewrite eval_sub_value in G. rewrite Zle_Qle. lra.
    + apply ltq_false in L. rewrite Zle_Qle. lra.
Qed.

(** ** extract *)
Section Extract.
Variable opt : ctype -> bool.
Variable names : nat -> nat.
Variable s : dstate.
Hypothesis Co : coherent s.
Hypothesis Cl : clean s.
Let ps := picks opt names s.

Lemma pick_solves c : In c ps -> exists f, e_solve (ct_expr (ca_con c)) (ca_key c) = Some f /\ wf f /\ ~ In (ca_key c) (keys f) /\
  In (ca_con c) (ds_cons s) /\ In (ca_key c) (keys (ct_expr (ca_con c))) /\ ct_sense (ca_con c) = Equal /\ ct_enabled (ca_con c) = true /\
  va_fixed (ds_vars s (ca_key c)) = false /\
  (forall x, satisfies (ca_con c) x <-> inject_Z (x (ca_key c)) == e_eval f x).
Proof.
  intros I. destruct (pick_facts opt names s c I) as (Nth & En & (Eq & Fx & a & Ia & U) & _).
  pose proof (nth_error_In _ _ Nth) as Ic. pose proof (proj1 (co_cons s Co _ Ic)) as W.
  assert (F : sens_find (ex_sens (ct_expr (ca_con c))) (ca_key c) = Some a) by (apply in_find; [exact W|exact Ia]).
  assert (Nz : ~ a == 0) by (destruct U; lra).
  destruct (solve_correct _ _ W a F Nz) as (f & E & Wf & N & S). exists f.
  split; [exact E|]. split; [exact Wf|]. split; [exact N|]. split; [exact Ic|].
  split; [unfold keys; apply in_map_iff; exists (ca_key c, a); auto|]. split; [exact Eq|]. split; [exact En|].
  split; [exact Fx|]. intros x. unfold satisfies. rewrite Eq. apply S.
Qed.
Lemma extract_total : extract opt names s <> None.
Proof.
  unfold extract. fold ps.
  destruct (all_some (map (fun c => e_solve (ct_expr (ca_con c)) (ca_key c)) ps)) as [es|] eqn:E; [discriminate|].
  exfalso. revert E. apply all_some_total. intros o I. apply in_map_iff in I. destruct I as (c & <- & I).
  destruct (pick_solves c I) as (f & F & _). congruence.
Qed.

Variable k : nat.
Variable s' : dstate.
Hypothesis Ex : extract opt names s = Some (k, s').

Lemma extract_shape : exists es, all_some (map (fun c => e_solve (ct_expr (ca_con c)) (ca_key c)) ps) = Some es /\
  k = length ps /\ ds_number s' = ds_number s /\
  ds_vars s' = fold_left (fun vs c => make_dependent vs (ca_key c)) ps (ds_vars s) /\
  ds_dep s' = dep_of ps (length (ds_exprs s)) (ds_dep s) /\ ds_exprs s' = ds_exprs s ++ es /\ ds_obj s' = ds_obj s /\
  ds_cons s' = map (fun ic => if existsb (fun c => Nat.eqb (ca_index c) (fst ic)) ps then disable (snd ic) else snd ic) (numbered (ds_cons s)) ++
    flat_map (fun ce => bound_constraints (ds_vars s) (is01_of (ds_vars s')) (ca_key (fst ce)) (snd ce)) (combine ps es).
Proof.
  unfold extract in Ex. fold ps in Ex. destruct (all_some _) as [es|] eqn:E in Ex; [|discriminate].
  exists es. assert (A : k = length ps) by congruence. injection Ex as _ <-.
  split; [exact E|]. split; [exact A|]. repeat split; reflexivity.
Qed.

Variable es : list expr.
Hypothesis Hes : all_some (map (fun c => e_solve (ct_expr (ca_con c)) (ca_key c)) ps) = Some es.
Lemma es_length : length es = length ps.
Proof. destruct (all_some_nth _ _ Hes) as [L _]. rewrite map_length in L. exact L. Qed.
Lemma es_nth j c : nth_error ps j = Some c -> exists e, nth_error es j = Some e /\ e_solve (ct_expr (ca_con c)) (ca_key c) = Some e.
Proof.
  intros E. destruct (all_some_nth _ _ Hes) as [_ N].
  destruct (N j (e_solve (ct_expr (ca_con c)) (ca_key c))) as (e & A & B).
  - rewrite nth_error_map, E. reflexivity.
  - exists e. auto.
Qed.
Lemma in_pairs c e : In (c, e) (combine ps es) -> exists j, nth_error ps j = Some c /\ nth_error es j = Some e.
Proof.
  clear. revert ps es. intros l m. revert m. induction l as [|d l IH]; intros [|f m] I; simpl in I; try contradiction.
  destruct I as [I|I]; [injection I as <- <-; exists 0%nat; auto|]. destruct (IH m I) as (j & A & B). exists (S j). auto.
Qed.
Lemma pairs_in j c e : nth_error ps j = Some c -> nth_error es j = Some e -> In (c, e) (combine ps es).
Proof.
  clear. revert ps es j. intros l m. revert m. induction l as [|d l IH]; intros [|f m] [|j] A B; simpl in *; try discriminate.
  - left. congruence.
  - right. exact (IH m j A B).
Qed.
Lemma old_dep v : In v (map ca_key ps) -> ds_dep s v = None.
Proof.
  intros I. apply in_map_iff in I. destruct I as (c & <- & I). destruct (pick_solves c I) as (f & _ & _ & _ & Ic & Ik & _ & En & _).
  destruct (ds_dep s (ca_key c)) as [m|] eqn:E; [|reflexivity]. exfalso.
  assert (D : ds_dep s (ca_key c) <> None) by congruence. apply (co_dep s Co) in D. destruct D as [L D].
  exact (cl_cons s Cl _ _ L D Ic En Ik).
Qed.
Lemma con_not_old v c : In c (ds_cons s) -> ct_enabled c = true -> In v (keys (ct_expr c)) -> ds_dep s v = None.
Proof.
  intros Ic En Ik. destruct (ds_dep s v) as [m|] eqn:E; [|reflexivity]. exfalso.
  assert (D : ds_dep s v <> None) by congruence. apply (co_dep s Co) in D. destruct D as [L D].
  exact (cl_cons s Cl _ _ L D Ic En Ik).
Qed.
Lemma dep_cases v m : ds_dep s' v = Some m ->
  (ds_dep s v = Some m /\ ~ In v (map ca_key ps) /\ (m < length (ds_exprs s))%nat /\ nth m (ds_exprs s') no_expr = nth m (ds_exprs s) no_expr) \/
  (exists j c e, nth_error ps j = Some c /\ ca_key c = v /\ m = (length (ds_exprs s) + j)%nat /\ nth_error es j = Some e /\
     nth m (ds_exprs s') no_expr = e /\ e_solve (ct_expr (ca_con c)) (ca_key c) = Some e).
Proof.
  destruct extract_shape as (es' & He & _ & _ & _ & Hd & Hx & _). assert (es' = es) by congruence. subst es'.
  rewrite Hd, Hx. destruct (in_dec Nat.eq_dec v (map ca_key ps)) as [I|I].
  - intros E. right. destruct (in_keys_nth ps v I) as (j & c & A & B). exists j, c.
    destruct (es_nth j c A) as (e & C & D). exists e. rewrite <- B in E.
    rewrite (dep_of_key ps _ _ j c (picks_nodup opt names s) A) in E. assert (m = (length (ds_exprs s) + j)%nat) by congruence. subst m.
    split; [exact A|]. split; [exact B|]. split; [reflexivity|]. split; [exact C|]. split; [|exact D].
    rewrite app_nth2 by lia. replace (length (ds_exprs s) + j - length (ds_exprs s))%nat with j by lia. apply nth_error_nth, C.
  - rewrite dep_of_other by exact I. intros E. left. pose proof (co_bound s Co v m E) as L.
    split; [exact E|]. split; [exact I|]. split; [exact L|]. apply app_nth1, L.
Qed.
Lemma dep_none v : ds_dep s' v = None <-> ds_dep s v = None /\ ~ In v (map ca_key ps).
Proof.
  destruct extract_shape as (es' & He & _ & _ & _ & Hd & Hx & _). rewrite Hd.
  destruct (in_dec Nat.eq_dec v (map ca_key ps)) as [I|I].
  - split; [|tauto]. destruct (in_keys_nth ps v I) as (j & c & A & B). rewrite <- B.
    rewrite (dep_of_key ps _ _ j c (picks_nodup opt names s) A). discriminate.
  - rewrite dep_of_other by exact I. tauto.
Qed.
Lemma con_old i c : nth_error (ds_cons s) i = Some c -> ct_enabled c = true ->
  (exists p, In p ps /\ ca_con p = c) \/ In c (ds_cons s').
Proof.
  intros N En. destruct extract_shape as (es' & He & _ & _ & _ & _ & _ & _ & Hc).
  destruct (existsb (fun c => Nat.eqb (ca_index c) i) ps) eqn:E.
  - left. apply existsb_exists in E. destruct E as (p & I & E). apply Nat.eqb_eq in E. exists p. split; [exact I|].
    destruct (pick_facts opt names s p I) as (Np & _). rewrite E in Np. congruence.
  - right. rewrite Hc. apply in_app_iff. left. apply in_map_iff. exists (i, c). cbn [fst snd]. rewrite E. split; [reflexivity|].
    apply numbered_in, N.
Qed.
Lemma con_new d : In d (ds_cons s') -> (exists c, In c (ds_cons s) /\ (d = c \/ d = disable c)) \/
  (exists j c e, nth_error ps j = Some c /\ nth_error es j = Some e /\ In d (bound_constraints (ds_vars s) (is01_of (ds_vars s')) (ca_key c) e)).
Proof.
  intros I. destruct extract_shape as (es' & He & _ & _ & _ & _ & _ & _ & Hc). assert (es' = es) by congruence. subst es'.
  rewrite Hc in I. apply in_app_iff in I. destruct I as [I|I].
  - left. apply in_map_iff in I. destruct I as ([i c] & E & I). cbn [fst snd] in E. apply in_numbered, nth_error_In in I.
    exists c. split; [exact I|]. destruct (existsb _ ps); auto.
  - right. apply in_flat_map in I. destruct I as ([c e] & P & I). destruct (in_pairs c e P) as (j & A & B). exists j, c, e. auto.
Qed.
Lemma bounds_in j c e d : nth_error ps j = Some c -> nth_error es j = Some e ->
  In d (bound_constraints (ds_vars s) (is01_of (ds_vars s')) (ca_key c) e) -> In d (ds_cons s').
Proof.
  intros A B I. destruct extract_shape as (es' & He & _ & _ & _ & _ & _ & _ & Hc). assert (es' = es) by congruence. subst es'.
  rewrite Hc. apply in_app_iff. right. apply in_flat_map. exists (c, e). split; [exact (pairs_in j c e A B)|exact I].
Qed.
Lemma var_same v : same_data (ds_vars s' v) (ds_vars s v) /\ (is_dependent (ds_vars s' v) <-> is_dependent (ds_vars s v) \/ In v (map ca_key ps)).
Proof. destruct extract_shape as (es' & _ & _ & _ & Hv & _). rewrite Hv. apply new_vars. Qed.

Lemma extract_coherent : coherent s'.
Proof.
  destruct extract_shape as (es' & He & _ & Hn & _ & Hd & Hx & Ho & _). assert (es' = es) by congruence. subst es'.
  assert (New : forall j c e, nth_error ps j = Some c -> nth_error es j = Some e -> wf e /\ forall v, In v (keys e) -> (v < ds_number s)%nat).
  { intros j c e A B. pose proof (nth_error_In _ _ A) as I. destruct (pick_solves c I) as (f & F & Wf & _ & Ic & _).
    destruct (es_nth j c A) as (e' & B' & F'). assert (e = f) by congruence. subst e. split; [exact Wf|].
    intros v K. apply (proj2 (co_cons s Co _ Ic)). exact (solve_keys _ _ _ _ F K). }
  constructor.
  - rewrite Ho. apply Co.
  - intros d I. rewrite Hn. apply con_new in I. destruct I as [(c & I & [->| ->])|(j & c & e & A & B & I)].
    + apply Co, I.
    + cbn [disable ct_expr]. apply Co, I.
    + apply bound_constraints_facts in I. destruct I as (_ & K & _). unfold wf. rewrite K. exact (New j c e A B).
  - intros e I. rewrite Hn. rewrite Hx in I. apply in_app_iff in I. destruct I as [I|I]; [apply Co, I|].
    apply In_nth_error in I. destruct I as [j B]. assert (L : (j < length ps)%nat).
    { rewrite <- es_length. apply nth_error_Some. congruence. }
    destruct (nth_error ps j) as [c|] eqn:A; [|apply nth_error_None in A; lia]. exact (New j c e A B).
  - intros v. rewrite dep_none, Hn. destruct (var_same v) as [_ D]. rewrite D. pose proof (co_dep s Co v) as C.
    destruct (in_dec Nat.eq_dec v (map ca_key ps)) as [I|I].
    + split; [|intros _ [_ H]; contradiction]. intros _. split; [|auto]. apply in_map_iff in I. destruct I as (c & <- & I).
      destruct (pick_solves c I) as (f & _ & _ & _ & Ic & Ik & _). exact (proj2 (co_cons s Co _ Ic) _ Ik).
    + destruct (ds_dep s v) as [m|]; split; intros H.
      * destruct (proj1 C ltac:(discriminate)). auto.
      * intros [? _]. discriminate.
      * exfalso. apply H. auto.
      * exfalso. destruct H as [L [H|H]]; [|contradiction]. apply (proj2 C); auto.
  - intros v m E. rewrite Hx, app_length, es_length. destruct (dep_cases v m E) as [(_ & _ & L & _)|(j & c & e & A & _ & -> & _)]; [lia|].
    assert (j < length ps)%nat by (apply nth_error_Some; congruence). lia.
  - intros v w m E F. destruct (dep_cases v m E) as [(E' & _ & L & _)|(j & c & e & A & B & M & _)];
    destruct (dep_cases w m F) as [(F' & _ & L' & _)|(j' & c' & e' & A' & B' & M' & _)]; try lia.
    + exact (co_apart s Co v w m E' F').
    + assert (j' = j) by lia. subst j'. congruence.
Qed.

Lemma extract_forward x : solves s x -> solves s' x.
Proof.
  intros [R C D]. constructor.
  - intros v E. apply dep_none in E. destruct E as [E _]. apply (within_same _ _ _ (proj1 (var_same v))). apply R, E.
  - intros d I En. apply con_new in I. destruct I as [(c & I & [->| ->])|(j & c & e & A & B & I)].
    + apply C; assumption.
    + discriminate.
    + pose proof (nth_error_In _ _ A) as Ip. destruct (pick_solves c Ip) as (f & F & _ & _ & Ic & _ & _ & Ec & Fx & S).
      destruct (es_nth j c A) as (e' & B' & F'). assert (e = f) by congruence. subst e.
      pose proof (proj1 (S x) (C _ Ic Ec)) as V.
      assert (W : within (ds_vars s (ca_key c)) (x (ca_key c))) by (apply R, old_dep; apply in_map, Ip).
      unfold within in W. rewrite Fx in W. apply bound_constraints_facts in I. destruct I as (_ & _ & Ne & Sat).
      apply Sat. destruct W as [W1 W2]. rewrite Zle_Qle in W1, W2. destruct (ct_sense d) eqn:Es; [right|contradiction|left]; split; try reflexivity; lra.
  - intros v m E. destruct (dep_cases v m E) as [(E' & _ & _ & N)|(j & c & e & A & B & M & Be & N & F)]; rewrite N.
    + apply D, E'.
    + pose proof (nth_error_In _ _ A) as Ip. destruct (pick_solves c Ip) as (f & F' & _ & _ & Ic & _ & _ & Ec & _ & S).
      assert (H : nth m (ds_exprs s') no_expr = f) by congruence. rewrite <- B, <- N, H. apply S. apply C; assumption.
Qed.

Lemma extract_backward rank x : ranked rank (ds_dep s') (ds_exprs s') -> covered (ds_vars s) x -> solves s' x -> solves s x.
Proof.
  intros Rk O [R C D].
  assert (Def : forall j c e, nth_error ps j = Some c -> nth_error es j = Some e -> inject_Z (x (ca_key c)) == e_eval e x).
  { intros j c e A B. assert (E : ds_dep s' (ca_key c) = Some (length (ds_exprs s) + j)%nat).
    { destruct extract_shape as (es' & _ & _ & _ & _ & Hd & _). rewrite Hd. apply dep_of_key; [apply picks_nodup|exact A]. }
    rewrite (D _ _ E). destruct extract_shape as (es' & He & _ & _ & _ & _ & Hx & _). assert (es' = es) by congruence. subst es'.
    rewrite Hx, app_nth2 by lia. replace (length (ds_exprs s) + j - length (ds_exprs s))%nat with j by lia.
    rewrite (nth_error_nth _ _ _ B). reflexivity. }
  assert (Rng : forall n v, (rank v < n)%nat -> ds_dep s v = None -> within (ds_vars s v) (x v)).
  { induction n as [|n IH]; intros v Ln E; [lia|].
    destruct (in_dec Nat.eq_dec v (map ca_key ps)) as [I|I].
    - destruct (in_keys_nth ps v I) as (j & c & A & B). destruct (es_nth j c A) as (e & Be & F).
      pose proof (nth_error_In _ _ A) as Ip. destruct (pick_solves c Ip) as (f & F' & _ & _ & Ic & _ & _ & Ec & Fx & _).
      unfold within. rewrite <- B. rewrite Fx.
      apply (bound_constraints_lower (ds_vars s) (is01_of (ds_vars s')) (ca_key c) e x).
      + intros d J. apply C; [exact (bounds_in j c e d A Be J)|]. apply bound_constraints_facts in J. apply J.
      + intros w K. pose proof (con_not_old w _ Ic Ec (solve_keys _ _ _ _ F K)) as Dw.
        destruct (in_dec Nat.eq_dec w (map ca_key ps)) as [J|J].
        * apply IH; [|exact Dw]. assert (E' : ds_dep s' (ca_key c) = Some (length (ds_exprs s) + j)%nat).
          { destruct extract_shape as (es' & _ & _ & _ & _ & Hd & _). rewrite Hd. apply dep_of_key; [apply picks_nodup|exact A]. }
          assert (rank w < rank (ca_key c))%nat; [|subst v; lia].
          apply (Rk _ _ w E').
          -- destruct extract_shape as (es' & He & _ & _ & _ & _ & Hx & _). assert (es' = es) by congruence. subst es'.
             rewrite Hx, app_nth2 by lia. replace (length (ds_exprs s) + j - length (ds_exprs s))%nat with j by lia.
             rewrite (nth_error_nth _ _ _ Be). exact K.
          -- intros H. apply dep_none in H. destruct H. contradiction.
        * apply (within_same _ _ _ (proj1 (var_same w))). apply R. apply dep_none. auto.
      + exact (Def j c e A Be).
      + exact (proj1 (O _ Fx)).
      + exact (proj2 (O _ Fx)).
    - apply (within_same _ _ _ (proj1 (var_same v))). apply R. apply dep_none. auto. }
  constructor.
  - intros v E. exact (Rng (S (rank v)) v (Nat.lt_succ_diag_r _) E).
  - intros c I En. apply In_nth_error in I. destruct I as [i N]. destruct (con_old i c N En) as [(p & Ip & Ep)|I].
    + subst c. destruct (pick_solves p Ip) as (f & F' & _ & _ & Ic & _ & _ & Ec & _ & S). apply S.
      apply In_nth_error in Ip. destruct Ip as [j A]. destruct (es_nth j p A) as (e & Be & F). assert (e = f) by congruence. subst e.
      exact (Def j p f A Be).
    + apply C; assumption.
  - intros v m E. assert (N : ~ In v (map ca_key ps)) by (intros I; rewrite (old_dep v I) in E; discriminate).
    destruct extract_shape as (es' & _ & _ & _ & _ & Hd & Hx & _).
    assert (E' : ds_dep s' v = Some m) by (rewrite Hd, dep_of_other by exact N; exact E).
    rewrite (D v m E'), Hx, app_nth1 by exact (co_bound s Co v m E). reflexivity.
Qed.
End Extract.
