(** Proofs about arrays: names, histories, counterexamples. *)
From Coq Require Import List ZArith QArith Bool Lia Lqa String.
From Verif Require Import PresolveModel ExprModel ExprProof VariableModel VariableSpec VariableProof NamesModel ArrayModel ArraySpec ArrayProof ArrayProof2.
Import ListNotations.
Local Open Scope Z_scope.

(** No two elements share an extension. *)
Definition distinct (w : world) : Prop := forall a i b j c d, cell w a i = Some c -> cell w b j = Some d -> snd c = snd d -> a = b /\ i = j.
Lemma cell_set w a i c c0 b j : cell w a i = Some c0 -> cell (set_cell w a i c) b j = if (Nat.eqb b a && Nat.eqb j i)%bool then Some c else cell w b j.
Proof.
  unfold cell, set_cell. intros H. destruct (nth_error (w_arrays w) a) as [r|] eqn:R; [|discriminate]. cbn [w_arrays]. rewrite update_nth, R. destruct (Nat.eqb_spec b a) as [-> |D]; cbn [andb]; [|reflexivity].
  cbn [ar_cells]. rewrite update_nth, H, R. reflexivity.
Qed.
Lemma cell_exts w e b j : cell (mkWorld e (w_arrays w)) b j = cell w b j. Proof. reflexivity. Qed.
Lemma distinct_set w a i c c0 : distinct w -> cell w a i = Some c0 -> (forall b j d, cell w b j = Some d -> snd d = snd c -> b = a /\ j = i) -> distinct (set_cell w a i c).
Proof.
  intros D H K b j b' j' d d' H1 H2 E. rewrite (cell_set w a i c c0) in H1, H2 by exact H.
  destruct (Nat.eqb b a && Nat.eqb j i)%bool eqn:E1; destruct (Nat.eqb b' a && Nat.eqb j' i)%bool eqn:E2.
  - apply andb_prop in E1, E2. destruct E1 as [A1 A2], E2 as [A3 A4]. apply Nat.eqb_eq in A1, A2, A3, A4. split; congruence.
  - apply andb_prop in E1. destruct E1 as [A1 A2]. apply Nat.eqb_eq in A1, A2. injection H1 as <-. destruct (K b' j' d' H2 (eq_sym E)). split; congruence.
  - apply andb_prop in E2. destruct E2 as [A1 A2]. apply Nat.eqb_eq in A1, A2. injection H2 as <-. destruct (K b j d H1 E). split; congruence.
  - exact (D _ _ _ _ _ _ H1 H2 E).
Qed.
Lemma cell_valid w a i c : valid_exts w -> cell w a i = Some c -> (snd c < List.length (w_exts w))%nat.
Proof. unfold cell. intros V H. destruct (nth_error (w_arrays w) a) as [r|] eqn:R; [|discriminate]. exact (V a r c R (nth_error_In _ _ H)). Qed.
Lemma on_cell_distinct w a i f w' : distinct w -> on_cell w a i f = Ok w' -> distinct w'.
Proof.
  unfold on_cell. intros D H. destruct (cell w a i) as [[e x]|] eqn:C; [|discriminate]. destruct (f e) as [e'| |]; try discriminate. injection H as <-. apply (distinct_set w a i _ _ D C). intros b j d Hb E. exact (D _ _ _ _ _ _ Hb C E).
Qed.
Lemma step_distinct w o w' : valid_exts w -> distinct w -> no_copy o -> a_step w o = Ok w' -> distinct w'.
Proof.
  intros V D N H. destruct o as [name shape|a i e|a i b j|a i s|a i q|a i e|a i e|a i e|a i q|a i q|a i q|a i q]; cbn [a_step no_copy] in *; try (now apply (on_cell_distinct _ _ _ _ _ D H)).
  - injection H as <-. assert (K : forall b j c, cell (mkWorld (w_exts w ++ map (fun idx => mkExt idx EmptyString) (stored shape)) (w_arrays w ++ [mkArr name shape (map (fun i => (mkExpr [] 0, (List.length (w_exts w) + i)%nat)) (seq 0 (Z.to_nat (number_of_elements shape))))])) b j = Some c ->
        cell w b j = Some c /\ (snd c < List.length (w_exts w))%nat \/ b = List.length (w_arrays w) /\ snd c = (List.length (w_exts w) + j)%nat).
    { intros b j c Hc. unfold cell in Hc. cbn [w_arrays] in Hc. destruct (Nat.lt_ge_cases b (List.length (w_arrays w))) as [Lb|Lb].
      - rewrite nth_error_app1 in Hc by exact Lb. left. split; [exact Hc|]. exact (cell_valid w b j c V Hc).
      - rewrite nth_error_app2 in Hc by exact Lb. destruct (b - List.length (w_arrays w))%nat as [|k] eqn:Eb; [|destruct k; discriminate]. right. split; [lia|]. cbn [nth_error ar_cells] in Hc. rewrite nth_map in Hc.
        destruct (nth_error (seq 0 (Z.to_nat (number_of_elements shape))) j) as [m|] eqn:Em; [|discriminate]. injection Hc as <-. cbn [snd]. f_equal.
        assert (Lj : (j < Z.to_nat (number_of_elements shape))%nat) by (rewrite <- (seq_length (Z.to_nat (number_of_elements shape)) 0); apply nth_error_Some; congruence). apply (nth_error_nth _ _ 0%nat) in Em. rewrite seq_nth in Em by exact Lj. lia. }
    intros b j b' j' c d H1 H2 E. apply K in H1, H2. destruct H1 as [[H1 L1]|[-> L1]], H2 as [[H2 L2]|[-> L2]]; [exact (D _ _ _ _ _ _ H1 H2 E)|lia|lia|split; [reflexivity|lia]].
  - destruct (cell w a i) as [c0|] eqn:C; [|discriminate]. injection H as <-. apply (distinct_set (mkWorld _ (w_arrays w)) a i _ c0); [exact D|exact C|]. intros b j d Hb E. cbn [snd] in E. pose proof (cell_valid w b j d V Hb). lia.
  - contradiction.
  - destruct (cell w a i) as [[e x]|] eqn:C; [|discriminate]. destruct (nth_error (w_exts w) x) as [t|] eqn:X; [|discriminate]. injection H as <-. exact D.
Qed.
Lemma run_distinct os : forall w w', valid_exts w -> distinct w -> Forall no_copy os -> a_run w os = Ok w' -> distinct w' /\ valid_exts w'.
Proof.
  induction os as [|o os IH]; intros w w' V D F H; cbn [a_run] in H; [injection H as <-; now split|]. destruct (a_step w o) as [w1| |] eqn:E; try discriminate. cbn [bind] in H. inversion F as [|? ? F1 F2]; subst.
  apply (IH w1 w'); [apply (step_own w o w1 V E)|now apply (step_distinct w o)|exact F2|exact H].
Qed.
Lemma empty_ok : valid_exts empty_world /\ distinct empty_world.
Proof. split; [intros a r c Ha; destruct a; discriminate|]. intros a i b j c d H. unfold cell in H. destruct a; discriminate. Qed.

(** Naming one element names no other. *)
Lemma name_one os w a i s w' : Forall no_copy os -> a_run empty_world os = Ok w -> a_step w (AName a i s) = Ok w' ->
  (forall c, cell w a i = Some c -> cell_name w' c = s) /\ forall b j c, cell w b j = Some c -> (b, j) <> (a, i) -> cell_name w' c = cell_name w c.
Proof.
  intros F H E. destruct empty_ok as [V0 D0]. destruct (run_distinct os _ _ V0 D0 F H) as [D V]. cbn [a_step] in E. destruct (cell w a i) as [[e x]|] eqn:C; [|discriminate]. destruct (nth_error (w_exts w) x) as [t|] eqn:X; [|discriminate]. injection E as <-. split.
  - intros c Hc. injection Hc as <-. unfold cell_name. cbn [w_exts snd]. rewrite update_nth, Nat.eqb_refl, X. reflexivity.
  - intros b j c Hc Ne. unfold cell_name. cbn [w_exts]. rewrite update_nth. destruct (Nat.eqb_spec (snd c) x) as [Ex|]; [|reflexivity]. exfalso. destruct (D b j a i c (e, x) Hc C Ex) as [-> ->]. now apply Ne.
Qed.
(** Default names. *)
Lemma name_cells_other name shape x : forall cells exts i, ~ In x (map snd cells) -> nth_error (name_cells exts name shape cells i) x = nth_error exts x.
Proof.
  induction cells as [|[e y] cells IH]; intros exts i H; [reflexivity|]. cbn [name_cells]. rewrite IH by (intros I; apply H; now right). destruct (nth_error exts y) as [t|]; [|reflexivity]. destruct (xt_name t); [|reflexivity]. rewrite update_nth.
  destruct (Nat.eqb_spec x y) as [-> |]; [|reflexivity]. exfalso. apply H. now left.
Qed.
Lemma name_cells_self name shape x : forall cells exts i k e t, NoDup (map snd cells) -> nth_error cells k = Some (e, x) -> nth_error exts x = Some t ->
  nth_error (name_cells exts name shape cells i) x = Some (mkExt (xt_index t) (given (xt_name t) (append name (indices_label shape (Z.of_nat (i + k)))))).
Proof.
  induction cells as [|[e' y] cells IH]; intros exts i k e t N H X; [destruct k; discriminate|]. inversion N as [|? ? N1 N2]; subst. cbn [map snd] in N1. cbn [name_cells]. destruct k as [|k].
  - injection H as -> ->. rewrite name_cells_other by exact N1. rewrite X. unfold given. rewrite Nat.add_0_r. destruct (xt_name t) eqn:En.
    + rewrite update_nth, Nat.eqb_refl, X. reflexivity.
    + rewrite X. f_equal. rewrite <- En. now destruct t.
  - cbn [nth_error] in H. assert (Ne : x <> y) by (intros ->; apply N1; apply nth_error_In in H; apply (in_map snd) in H; exact H).
    rewrite (IH _ (S i) k e t N2 H).
    + replace (S i + k)%nat with (i + S k)%nat by lia. reflexivity.
    + destruct (nth_error exts y) as [u|]; [|exact X]. destruct (xt_name u); [|exact X]. rewrite update_nth, (proj2 (Nat.eqb_neq _ _) Ne). exact X.
Qed.
Lemma distinct_nodup w a r : distinct w -> nth_error (w_arrays w) a = Some r -> NoDup (map snd (ar_cells r)).
Proof.
  intros D R. apply NoDup_nth_error. intros i j Hi E. rewrite map_length in Hi. rewrite !nth_map in E. destruct (nth_error (ar_cells r) i) as [c|] eqn:Ci; [|apply nth_error_None in Ci; lia]. destruct (nth_error (ar_cells r) j) as [d|] eqn:Cj; [|discriminate].
  cbn [option_map] in E. injection E as E. apply (D a i a j c d); [unfold cell; now rewrite R|unfold cell; now rewrite R|exact E].
Qed.
Lemma default_names os w a i c r : Forall no_copy os -> a_run empty_world os = Ok w -> nth_error (w_arrays w) a = Some r -> nth_error (ar_cells r) i = Some c ->
  cell_name (name_all w) c = given (cell_name w c) (append (ar_name r) (indices_label (ar_shape r) (Z.of_nat i))).
Proof.
  intros F H R C. destruct empty_ok as [V0 D0]. destruct (run_distinct os _ _ V0 D0 F H) as [D V]. pose proof (V a r c R (nth_error_In _ _ C)) as Lx. destruct (nth_error (w_exts w) (snd c)) as [t|] eqn:X; [|apply nth_error_None in X; lia].
  unfold cell_name at 2. rewrite X. unfold cell_name, name_all. cbn [w_exts].
  set (f := fun exts r => name_cells exts (ar_name r) (ar_shape r) (ar_cells r) 0). assert (Other : forall l exts, (forall q, In q l -> ~ In (snd c) (map snd (ar_cells q))) -> nth_error (fold_left f l exts) (snd c) = nth_error exts (snd c)).
  { induction l as [|q l IH]; intros exts K; [reflexivity|]. cbn [fold_left]. rewrite IH by (intros; apply K; now right). unfold f. apply name_cells_other. apply K. now left. }
  destruct (nth_error_split _ _ R) as (l1 & l2 & E & L). rewrite E, fold_left_app. cbn [fold_left].
  assert (K : forall k q, nth_error (w_arrays w) k = Some q -> k <> a -> ~ In (snd c) (map snd (ar_cells q))).
  { intros k q Hk Ne I. apply in_map_iff in I. destruct I as (d & Ed & I). apply In_nth_error in I. destruct I as [j Hj]. apply Ne. apply (D k j a i d c); [unfold cell; now rewrite Hk|unfold cell; now rewrite R|exact Ed]. }
  rewrite Other.
  2:{ intros q I. apply In_nth_error in I. destruct I as [j Hj]. apply (K (S (a + j)) q); [|lia]. rewrite E, nth_error_app2 by lia. replace (S (a + j) - List.length l1)%nat with (S j) by lia. exact Hj. }
  unfold f at 1. destruct c as [e x]. cbn [snd] in *. rewrite (name_cells_self (ar_name r) (ar_shape r) x (ar_cells r) _ 0 i e t); [reflexivity|now apply (distinct_nodup w a)|exact C|].
  rewrite Other; [exact X|]. intros q I. apply In_nth_error in I. destruct I as [j Hj]. assert (Lj : (j < List.length l1)%nat) by (apply nth_error_Some; congruence). apply (K j q); [|lia]. rewrite E, nth_error_app1 by exact Lj. exact Hj.
Qed.

(** ** Statements over histories *)
Lemma sum_history os1 os2 name shape w1 w pat : good_shape shape -> a_run empty_world os1 = Ok w1 -> a_run empty_world (os1 ++ ANew name shape :: os2) = Ok w ->
  Forall (fun o => ~ replaces (List.length (w_arrays w1)) o) os2 ->
  exists r, nth_error (w_arrays w) (List.length (w_arrays w1)) = Some r /\
  (List.length pat <> List.length shape -> x_sum w r pat = Throw) /\
  (List.length pat = List.length shape -> exists e es, x_sum w r pat = Ok e /\ map (x_at r) (slice shape pat) = map Ok es /\ forall x, (e_eval e x == total (map (fun f => e_eval f x) es))%Q).
Proof.
  intros G H1 H F. pose proof (history_own _ _ _ _ _ _ H1 H F) as O. destruct (own_get _ _ _ _ O) as (r & R & S & I & _). exists r. split; [exact R|]. now apply x_sum_spec.
Qed.
Lemma dot_history os1 os2 name shape w1 w pat coefs : good_shape shape -> a_run empty_world os1 = Ok w1 -> a_run empty_world (os1 ++ ANew name shape :: os2) = Ok w ->
  Forall (fun o => ~ replaces (List.length (w_arrays w1)) o) os2 ->
  exists r, nth_error (w_arrays w) (List.length (w_arrays w1)) = Some r /\
  (~ dot_ok shape pat coefs -> x_dot w r pat coefs = Throw) /\
  (dot_ok shape pat coefs -> exists e es, x_dot w r pat coefs = Ok e /\ map (x_at r) (slice shape pat) = map Ok es /\ forall x, (e_eval e x == weighted (map (fun f => e_eval f x) es) coefs)%Q).
Proof.
  intros G H1 H F. pose proof (history_own _ _ _ _ _ _ H1 H F) as O. destruct (own_get _ _ _ _ O) as (r & R & S & I & _). exists r. split; [exact R|]. now apply x_dot_spec.
Qed.

(** ** Sums over whole arrays need no index *)
Definition sized (w : world) : Prop := forall a r, nth_error (w_arrays w) a = Some r -> List.length (ar_cells r) = Z.to_nat (number_of_elements (ar_shape r)).
Lemma set_sized w a i c : sized w -> sized (set_cell w a i c).
Proof.
  intros H b r Hb. unfold set_cell in Hb. destruct (nth_error (w_arrays w) a) as [q|] eqn:R; [|exact (H b r Hb)]. cbn [w_arrays] in Hb. rewrite update_nth, R in Hb. destruct (Nat.eqb b a); [|exact (H b r Hb)]. injection Hb as <-. cbn [ar_cells ar_shape]. rewrite update_len. exact (H a q R).
Qed.
Lemma step_sized w o w' : sized w -> a_step w o = Ok w' -> sized w'.
Proof.
  intros H E. assert (On : forall a i f, on_cell w a i f = Ok w' -> sized w') by (intros a i f K; unfold on_cell in K; destruct (cell w a i) as [[e x]|]; [|discriminate]; destruct (f e); try discriminate; injection K as <-; now apply set_sized).
  destruct o as [name shape|a i e|a i b j|a i s|a i q|a i e|a i e|a i e|a i q|a i q|a i q|a i q]; cbn [a_step] in E; try (now apply (On _ _ _ E)).
  - injection E as <-. intros b r Hb. cbn [w_arrays] in Hb. destruct (Nat.lt_ge_cases b (List.length (w_arrays w))) as [Lb|Lb]; [rewrite nth_error_app1 in Hb by exact Lb; exact (H b r Hb)|].
    rewrite nth_error_app2 in Hb by exact Lb. destruct (b - List.length (w_arrays w))%nat as [|k]; [|destruct k; discriminate]. injection Hb as <-. cbn [ar_cells ar_shape]. now rewrite map_length, seq_length.
  - destruct (cell w a i); [|discriminate]. injection E as <-. apply set_sized. exact H.
  - destruct (cell w a i), (cell w b j); try discriminate. injection E as <-. now apply set_sized.
  - destruct (cell w a i) as [[e x]|]; [|discriminate]. destruct (nth_error (w_exts w) x); [|discriminate]. injection E as <-. exact H.
Qed.
Lemma run_sized os : forall w w', sized w -> a_run w os = Ok w' -> sized w'.
Proof. induction os as [|o os IH]; intros w w' H E; cbn [a_run] in E; [injection E as <-; exact H|]. destruct (a_step w o) as [w1| |] eqn:E1; try discriminate. apply (IH w1); [now apply (step_sized w o)|exact E]. Qed.
Lemma pick_all r : pick r (seq 0 (List.length (ar_cells r))) = map fst (ar_cells r).
Proof.
  unfold pick. generalize (ar_cells r) as l. intros l. assert (K : forall pre, map (fun i => match nth_error (pre ++ l) i with Some c => fst c | None => zero_expr end) (seq (List.length pre) (List.length l)) = map fst l); [|exact (K [])].
  induction l as [|c l IH]; intros pre; [reflexivity|]. cbn [List.length seq map]. f_equal; [rewrite nth_error_app2, Nat.sub_diag by lia; reflexivity|].
  specialize (IH (pre ++ [c])). rewrite <- app_assoc, app_length in IH. cbn [app List.length] in IH. rewrite Nat.add_1_r in IH. exact IH.
Qed.
Lemma whole os w a r : a_run empty_world os = Ok w -> nth_error (w_arrays w) a = Some r -> good_shape (ar_shape r) ->
  exists es, map (x_at r) (slice (ar_shape r) (map (fun _ => All) (ar_shape r))) = map Ok es /\ (forall x, (e_eval (x_sum_all r) x == total (map (fun f => e_eval f x) es))%Q) /\ forall coefs, (List.length (ar_shape r) = 1%nat /\ List.length coefs = List.length es -> exists e, x_dot_all r coefs = Ok e /\ forall x, (e_eval e x == weighted (map (fun f => e_eval f x) es) coefs)%Q) /\ (~ (List.length (ar_shape r) = 1%nat /\ List.length coefs = List.length es) -> x_dot_all r coefs = Throw).
Proof.
  intros H R G. assert (Z0 : sized empty_world) by (intros b q Hb; destruct b; discriminate). pose proof (run_sized os _ _ Z0 H a r R) as L. exists (map fst (ar_cells r)). split.
  - rewrite <- pick_all. apply x_at_positions; [intros p I; apply in_seq in I; lia|]. rewrite (all_positions _ G), L. reflexivity.
  - split; [intros x; rewrite x_sum_all_eval, map_map; reflexivity|]. intros coefs. unfold x_dot_all. rewrite map_length. destruct (Nat.eqb_spec (List.length (ar_shape r)) 1) as [E1|E1]; cbn [negb]; [|split; [intros [X _]; contradiction|reflexivity]].
    destruct (Nat.eqb_spec (List.length (ar_cells r)) (List.length coefs)) as [E2|E2]; cbn [negb]; split.
    + intros _. eexists. split; [reflexivity|]. intros x. rewrite adds_eval, zero_eval, scaled_eval. lra.
    + intros X. exfalso. apply X. split; [exact E1|congruence].
    + intros [_ X]. congruence.
    + reflexivity.
Qed.
(** Counterexamples. *)
Definition assigned : list a_op := [ANew "e" [2; 2]; AExpr 0 0 (e_var 0); AExpr 0 1 (e_var 1); AExpr 0 2 (e_var 2); AExpr 0 3 (e_var 3)].
Definition kept : list a_op := [ANew "e" [2; 2]; ALike 0 0 (e_var 0); AAdd 0 1 (e_var 1); ALike 0 2 (e_var 2); AAddV 0 2 3; AAdd 0 3 (e_var 3)].
Definition shared : list a_op := [ANew "e" [2]; ACopy 0 1 0 0].
