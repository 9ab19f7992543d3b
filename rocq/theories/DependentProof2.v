(** Proofs for C64: elimination keeps the solutions when no definition is circular. *)
From Coq Require Import List ZArith QArith Bool Arith Lia Lqa.
From Verif Require Import ExprModel ExprSpec ExprProof ConstraintModel ConstraintSpec VariableModel TypeModel TypeSpec PresolveModel
  DependentModel DependentSpec DependentProof.
Import ListNotations.
Local Open Scope Q_scope.

Definition ranked (rank : nat -> nat) (dep : nat -> option nat) (es : list expr) : Prop := forall v k w,
  dep v = Some k -> In w (keys (nth k es no_expr)) -> dep w <> None -> (rank w < rank v)%nat.
Definition defs_hold (dep : nat -> option nat) (es : list expr) (x : nat -> Z) : Prop := forall v k,
  dep v = Some k -> inject_Z (x v) == e_eval (nth k es no_expr) x.

Definition gone (v : nat) (f e : expr) : expr := if occurs v e then e_substitute e v f else e.
Lemma gone_self v f : ~ In v (keys f) -> gone v f f = f.
Proof. intros N. unfold gone. rewrite (proj2 (occurs_not v f) N). reflexivity. Qed.
Lemma gone_wf v f e : wf e -> wf (gone v f e).
Proof. intros W. unfold gone. destruct (occurs v e); [apply wf_substitute|]; exact W. Qed.
Lemma gone_eval v f e x : wf e -> wf f -> ~ In v (keys f) -> inject_Z (x v) == e_eval f x -> e_eval (gone v f e) x == e_eval e x.
Proof.
  intros W Wf N E. unfold gone. destruct (occurs v e); [|reflexivity].
  apply substitute_correct; assumption.
Qed.
Lemma gone_keys v f e w : wf e -> In w (keys (gone v f e)) -> In w (keys e) \/ In w (keys f) /\ In v (keys e).
Proof.
  intros W. unfold gone. destruct (occurs v e) eqn:O; [|auto]. intros K.
  destruct (keys_substitute _ _ _ _ W K) as [_ [A|A]]; [auto|right]. split; [exact A|apply occurs_in, O].
Qed.

Lemma puts_map dep v es f : definition dep es v = f -> ~ In v (keys f) -> forall k n, (n <= length es)%nat -> 
  length (fst (fold_left (put_at dep v) (seq 0 n) (es, k))) = length es /\
  forall i, nth i (fst (fold_left (put_at dep v) (seq 0 n) (es, k))) no_expr =
            if (i <? n)%nat then gone v f (nth i es no_expr) else nth i es no_expr.
Proof.
  intros D N k. induction n as [|n IH]; intros L.
  - split; [reflexivity|]. intros i. reflexivity.
  - rewrite seq_S, fold_left_app. cbn [fold_left plus]. destruct (IH ltac:(lia)) as [IL IN]. clear IH.
    set (r := fold_left (put_at dep v) (seq 0 n) (es, k)) in *.
    split; [rewrite put_at_length; exact IL|]. intros i.
    assert (Df : definition dep (fst r) v = f).
    { rewrite <- D. unfold definition in *. destruct (dep v) as [kv|]; [|reflexivity]. rewrite IN.
      destruct (kv <? n)%nat; [|reflexivity]. rewrite D. apply gone_self, N. }
    unfold put_at. rewrite Df. rewrite (IN n). rewrite Nat.ltb_irrefl.
    destruct (occurs v (nth n es no_expr)) eqn:O.
    + cbn [fst]. rewrite nth_set_nth by lia. destruct (Nat.eqb_spec i n) as [E|E].
      * subst i. rewrite (proj2 (Nat.ltb_lt n (S n))) by lia. unfold gone. rewrite O. reflexivity.
      * rewrite IN. destruct (Nat.ltb_spec i n); destruct (Nat.ltb_spec i (S n)); try lia; reflexivity.
    + rewrite IN. destruct (Nat.ltb_spec i n); destruct (Nat.ltb_spec i (S n)); try lia; try reflexivity.
      assert (i = n) by lia. subst i. unfold gone. rewrite O. reflexivity.
Qed.
Lemma var_map dep v es k : ~ In v (keys (definition dep es v)) -> forall i,
  nth i (fst (eliminate_var dep (es, k) v)) no_expr = gone v (definition dep es v) (nth i es no_expr).
Proof.
  intros N i. unfold eliminate_var. cbn [fst].
  destruct (puts_map dep v es _ eq_refl N k (length es) (Nat.le_refl _)) as [L P]. rewrite P.
  destruct (Nat.ltb_spec i (length es)) as [H|H]; [reflexivity|].
  rewrite (nth_overflow es) by exact H. reflexivity.
Qed.

Lemma ranked_self rank dep es v : ranked rank dep es -> dep v <> None -> ~ In v (keys (definition dep es v)).
Proof.
  intros R D K. unfold definition in K. destruct (dep v) as [k|] eqn:E; [|contradiction].
  pose proof (R v k v E K). rewrite E in H. specialize (H D). lia.
Qed.
Lemma var_step rank dep es k v : all_wf es -> ranked rank dep es -> dep v <> None ->
  let es' := fst (eliminate_var dep (es, k) v) in
  ranked rank dep es' /\ forall x, (defs_hold dep es x <-> defs_hold dep es' x) /\
  (defs_hold dep es x -> forall i, e_eval (nth i es' no_expr) x == e_eval (nth i es no_expr) x).
Proof.
  intros W R D es'. pose proof (ranked_self _ _ _ _ R D) as N. pose proof (var_map dep v es k N) as M. fold es' in M.
  destruct (dep v) as [kv|] eqn:Ev; [|contradiction]. clear D.
  assert (Df : definition dep es v = nth kv es no_expr) by (unfold definition; rewrite Ev; reflexivity).
  rewrite Df in *. set (f := nth kv es no_expr) in *.
  assert (Val : forall x, inject_Z (x v) == e_eval f x -> forall i, e_eval (nth i es' no_expr) x == e_eval (nth i es no_expr) x).
  { intros x E i. rewrite M. apply gone_eval; [apply nth_wf, W|apply nth_wf, W|exact N|exact E]. }
  split; [|intros x; split; [split|]].
  - intros u ku w Eu K Dw. rewrite M in K. apply gone_keys in K; [|apply nth_wf, W].
    destruct K as [K|[K K']]; [exact (R u ku w Eu K Dw)|].
    pose proof (R u ku v Eu K') as A. rewrite Ev in A. specialize (A ltac:(discriminate)).
    pose proof (R v kv w Ev K Dw). lia.
  - intros H u ku Eu. rewrite (Val x (H v kv Ev)). apply H, Eu.
  - intros H u ku Eu. assert (E : inject_Z (x v) == e_eval f x).
    { rewrite (H v kv Ev). rewrite M. fold f. rewrite gone_self by exact N. reflexivity. }
    rewrite <- (Val x E). apply H, Eu.
  - intros H. apply Val, (H v kv Ev).
Qed.
Lemma vars_step rank dep l : forall r, all_wf (fst r) -> ranked rank dep (fst r) -> (forall v, In v l -> dep v <> None) ->
  let es' := fst (fold_left (eliminate_var dep) l r) in
  ranked rank dep es' /\ forall x, (defs_hold dep (fst r) x <-> defs_hold dep es' x) /\
  (defs_hold dep (fst r) x -> forall i, e_eval (nth i es' no_expr) x == e_eval (nth i (fst r) no_expr) x).
Proof.
  induction l as [|v l IH]; intros [es k] W R D es'.
  - split; [exact R|]. intros x. split; [reflexivity|intros; reflexivity].
  - cbn [fold_left] in es'. cbn [fst] in *.
    destruct (var_step rank dep es k v W R (D v (or_introl eq_refl))) as [R1 S1].
    destruct (IH (eliminate_var dep (es, k) v)) as [R2 S2].
    + apply var_wf. exact W.
    + exact R1.
    + intros u I. apply D. right. exact I.
    + split; [exact R2|]. intros x. destruct (S1 x) as [A B]. destruct (S2 x) as [A' B']. split.
      * rewrite A. exact A'.
      * intros H i. unfold es'. rewrite B' by (apply A, H). apply B, H.
Qed.

(** A chain keeps the value where the definitions hold. *)
Lemma chain_value test def l x : (forall v, In v l -> wf (def v) /\ ~ In v (keys (def v)) /\ inject_Z (x v) == e_eval (def v) x) ->
  forall r, wf (fst r) -> e_eval (fst (chain test def l r)) x == e_eval (fst r) x.
Proof.
  induction l as [|v l IH]; intros H r W; [reflexivity|].
  cbn [chain fold_left]. fold (chain test def l (put (test v (fst r)) (def v) v r)).
  destruct (H v (or_introl eq_refl)) as (A & B & C).
  rewrite IH.
  - unfold put. destruct (test v (fst r)); [|reflexivity]. cbn [fst]. apply substitute_correct; assumption.
  - intros u I. apply H. right. exact I.
  - unfold put. destruct (test v (fst r)); [apply wf_substitute|]; exact W.
Qed.

Lemma coherent_tidy s : coherent s -> tidy s.
Proof. intros C. constructor; [apply C|intros c I; apply C, I|intros e I; apply C, I]. Qed.

Lemma definition_holds s x rank v : coherent s -> ranked rank (ds_dep s) (ds_exprs s) -> defs_hold (ds_dep s) (ds_exprs s) x ->
  In v (dependents s) ->
  let f := definition (ds_dep s) (ds_exprs s) v in wf f /\ ~ In v (keys f) /\ inject_Z (x v) == e_eval f x.
Proof.
  intros C R H I f. assert (D : ds_dep s v <> None) by (apply (co_dep s C), in_dependents, I).
  split; [|split].
  - unfold f, definition. destruct (ds_dep s v); [apply nth_wf; intros e J; apply C, J|constructor].
  - exact (ranked_self _ _ _ _ R D).
  - unfold f, definition. destruct (ds_dep s v) as [k|] eqn:E; [|contradiction]. apply H, E.
Qed.
Lemma obj_value s x rank : coherent s -> ranked rank (ds_dep s) (ds_exprs s) -> defs_hold (ds_dep s) (ds_exprs s) x ->
  e_eval (ds_obj (fst (eliminate s))) x == e_eval (ds_obj s) x.
Proof.
  intros C R H. cbn [eliminate fst ds_obj].
  apply (chain_value (fun v e => occurs v e) (definition (ds_dep s) (ds_exprs s)) (dependents s) x) with (r := (ds_obj s, O)).
  - intros v I. exact (definition_holds s x rank v C R H I).
  - apply C.
Qed.
Lemma con_value s x rank c : coherent s -> ranked rank (ds_dep s) (ds_exprs s) -> defs_hold (ds_dep s) (ds_exprs s) x -> In c (ds_cons s) ->
  e_eval (ct_expr (fst (eliminate_con s c))) x == e_eval (ct_expr c) x.
Proof.
  intros C R H I. destruct (ct_enabled c) eqn:E; [rewrite con_chain by exact E|rewrite con_off by exact E; reflexivity].
  cbn [fst ct_expr with_expr].
  apply (chain_value _ _ _ x) with (r := (ct_expr c, O)).
  - intros v J. exact (definition_holds s x rank v C R H J).
  - apply C, I.
Qed.
Lemma con_sense s c : ct_sense (fst (eliminate_con s c)) = ct_sense c.
Proof. unfold eliminate_con. destruct (ct_enabled c); reflexivity. Qed.

(** Variables introduced by substitutions are variables of the model. *)
Definition known (n : nat) (es : list expr) : Prop := forall e v, In e es -> In v (keys e) -> (v < n)%nat.
Lemma chain_keys test def l w : forall r, wf (fst r) -> In w (keys (fst (chain test def l r))) ->
  In w (keys (fst r)) \/ exists v, In v l /\ In w (keys (def v)).
Proof.
  induction l as [|v l IH]; intros r W K; [left; exact K|].
  cbn [chain fold_left] in K. fold (chain test def l (put (test v (fst r)) (def v) v r)) in K.
  apply IH in K.
  - destruct K as [K|(u & I & K)]; [|right; exists u; split; [right; exact I|exact K]].
    unfold put in K. destruct (test v (fst r)); [|left; exact K]. cbn [fst] in K.
    destruct (keys_substitute _ _ _ _ W K) as [_ [A|A]]; [left; exact A|right; exists v; split; [left; reflexivity|exact A]].
  - unfold put. destruct (test v (fst r)); [apply wf_substitute|]; exact W.
Qed.

Lemma holds_eval a b s : a == b -> (holds a s 0 <-> holds b s 0).
Proof. intros E. destruct s; simpl; rewrite E; reflexivity. Qed.

Lemma puts_known dep v n l : forall r, all_wf (fst r) -> known n (fst r) -> known n (fst (fold_left (put_at dep v) l r)).
Proof.
  induction l as [|j l IH]; intros r W K; [exact K|]. cbn [fold_left]. apply IH; [apply put_at_wf, W|].
  unfold put_at. destruct (occurs v (nth j (fst r) no_expr)); [|exact K]. cbn [fst].
  assert (Kn : forall i w, In w (keys (nth i (fst r) no_expr)) -> (w < n)%nat).
  { intros i w H. destruct (Nat.lt_ge_cases i (length (fst r))) as [L|L].
    - apply (K (nth i (fst r) no_expr)); [apply nth_In, L|exact H].
    - rewrite nth_overflow in H by exact L. destruct H. }
  intros e w I H. apply in_set_nth in I. destruct I as [->|I]; [|exact (K e w I H)].
  destruct (keys_substitute _ _ _ _ (nth_wf _ _ W) H) as [_ [A|A]]; [exact (Kn _ _ A)|].
  unfold definition in A. destruct (dep v); [exact (Kn _ _ A)|destruct A].
Qed.
Lemma vars_known dep n l : forall r, all_wf (fst r) -> known n (fst r) -> known n (fst (fold_left (eliminate_var dep) l r)).
Proof.
  induction l as [|v l IH]; intros r W K; [exact K|]. cbn [fold_left].
  apply IH; [apply var_wf, W|apply puts_known; assumption].
Qed.
Lemma definition_known s v w : coherent s -> In w (keys (definition (ds_dep s) (ds_exprs s) v)) -> (w < ds_number s)%nat.
Proof.
  intros C K. unfold definition in K. destruct (ds_dep s v) as [k|]; [|destruct K].
  destruct (Nat.lt_ge_cases k (length (ds_exprs s))) as [L|L].
  - exact (proj2 (co_exprs s C _ (nth_In _ _ L)) w K).
  - rewrite nth_overflow in K by exact L. destruct K.
Qed.

Lemma eliminate_coherent s : coherent s -> coherent (fst (eliminate s)).
Proof.
  intros C. pose proof (coherent_tidy s C) as T. pose proof (eliminate_tidy s T) as T'.
  constructor; [apply T'| | |exact (co_dep s C)| |exact (co_apart s C)].
  - intros c I. split; [apply T', I|]. intros v K. cbn [eliminate fst ds_cons ds_number] in *.
    rewrite map_map in I. apply in_map_iff in I. destruct I as (d & <- & I).
    destruct (ct_enabled d) eqn:E; [rewrite con_chain in K by exact E|rewrite con_off in K by exact E; exact (proj2 (co_cons s C d I) v K)].
    cbn [fst ct_expr with_expr] in K. apply chain_keys in K; [|apply T, I].
    destruct K as [K|(u & J & K)]; [exact (proj2 (co_cons s C d I) v K)|]. exact (definition_known s u v C K).
  - intros e I. split; [apply T', I|]. intros v K. cbn [eliminate fst ds_exprs ds_number] in *.
    revert e v I K. apply (vars_known (ds_dep s) (ds_number s) (dependents s) (ds_exprs s, O)); [apply T|].
    intros e v I K. exact (proj2 (co_exprs s C e I) v K).
  - intros v k E. cbn [eliminate fst ds_exprs ds_dep] in *. unfold eliminate_exprs. rewrite vars_length.
    exact (co_bound s C v k E).
Qed.

Lemma eliminate_kept rank s : coherent s -> ranked rank (ds_dep s) (ds_exprs s) ->
  ranked rank (ds_dep s) (ds_exprs (fst (eliminate s))) /\
  forall x, (solves s x <-> solves (fst (eliminate s)) x) /\
  (solves s x -> e_eval (ds_obj (fst (eliminate s))) x == e_eval (ds_obj s) x /\
                 forall i, e_eval (nth i (ds_exprs (fst (eliminate s))) no_expr) x == e_eval (nth i (ds_exprs s) no_expr) x).
Proof.
  intros C R. pose proof (coherent_tidy s C) as T.
  assert (V : let es' := ds_exprs (fst (eliminate s)) in
    ranked rank (ds_dep s) es' /\ forall x, (defs_hold (ds_dep s) (ds_exprs s) x <-> defs_hold (ds_dep s) es' x) /\
    (defs_hold (ds_dep s) (ds_exprs s) x -> forall i, e_eval (nth i es' no_expr) x == e_eval (nth i (ds_exprs s) no_expr) x)).
  { apply (vars_step rank (ds_dep s) (dependents s) (ds_exprs s, O)); [apply T|exact R|].
    intros v I. apply (co_dep s C), in_dependents, I. }
  cbv zeta in V. destruct V as [V1 V2]. split; [exact V1|]. intros x. destruct (V2 x) as [A B].
  split; [split|].
  - intros [S1 S2 S3]. constructor; [exact S1| |].
    + intros c I E. cbn [eliminate fst ds_cons] in I. rewrite map_map in I. apply in_map_iff in I.
      destruct I as (d & <- & I). rewrite con_enabled in E. unfold satisfies. rewrite con_sense.
      apply (holds_eval _ _ _ (con_value s x rank d C R S3 I)). exact (S2 d I E).
    + apply A. exact S3.
  - intros [S1 S2 S3]. assert (D : defs_hold (ds_dep s) (ds_exprs s) x) by (apply A; exact S3).
    constructor; [exact S1| |exact D].
    intros d I E. apply (holds_eval _ _ _ (con_value s x rank d C R D I)).
    pose proof (S2 (fst (eliminate_con s d))) as H. unfold satisfies in H. rewrite con_sense in H. apply H.
    + cbn [eliminate fst ds_cons]. rewrite map_map. apply in_map_iff. exists d. auto.
    + rewrite con_enabled. exact E.
  - intros [S1 S2 S3]. split; [exact (obj_value s x rank C R S3)|exact (B S3)].
Qed.

Lemma loop_kept rank fuel : forall s s', coherent s -> ranked rank (ds_dep s) (ds_exprs s) -> eliminate_loop fuel s = Some s' ->
  coherent s' /\ (ds_number s' = ds_number s /\ ds_vars s' = ds_vars s /\ ds_dep s' = ds_dep s /\ length (ds_exprs s') = length (ds_exprs s)) /\
  ranked rank (ds_dep s') (ds_exprs s') /\
  forall x, (solves s x <-> solves s' x) /\
  (solves s x -> e_eval (ds_obj s') x == e_eval (ds_obj s) x /\
                 forall i, e_eval (nth i (ds_exprs s') no_expr) x == e_eval (nth i (ds_exprs s) no_expr) x).
Proof.
  induction fuel as [|f IH]; intros s s' C R E; [discriminate|]. cbn [eliminate_loop] in E.
  destruct (eliminate_kept rank s C R) as [R1 K1]. pose proof (eliminate_coherent s C) as C1.
  assert (L : length (ds_exprs (fst (eliminate s))) = length (ds_exprs s)).
  { cbn [eliminate fst ds_exprs]. unfold eliminate_exprs. apply vars_length. }
  destruct (Nat.eqb (snd (eliminate s)) 0).
  - injection E as <-. split; [exact C1|]. split; [auto|]. split; [exact R1|exact K1].
  - destruct (IH (fst (eliminate s)) s' C1 R1 E) as (C2 & (N2 & V2 & D2 & L2) & R2 & K2). split; [exact C2|].
    split; [|split; [exact R2|]].
    { rewrite N2, V2, D2, L2. auto. }
    intros x. destruct (K1 x) as [A B]. destruct (K2 x) as [A' B']. split; [rewrite A; exact A'|].
    intros S. destruct (B S) as [B1 B2]. destruct (B' (proj1 A S)) as [B1' B2']. split.
    + rewrite B1'. exact B1.
    + intros i. rewrite B2'. apply B2.
Qed.
