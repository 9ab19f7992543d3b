(** Proofs about arrays: sums and scalar products. *)
From Coq Require Import List ZArith QArith Bool Lia Lqa String.
From Verif Require Import PresolveModel ExprModel ExprProof VariableModel VariableSpec VariableProof NamesModel ArrayModel ArraySpec ArrayProof.
Import ListNotations.
Local Open Scope Z_scope.

Lemma set_new s v c : ~ In v (map fst s) -> sens_set s v c = s ++ [(v, c)].
Proof.
  induction s as [|[w d] s IH]; intros H; [reflexivity|]. cbn [sens_set app]. rewrite (proj2 (Nat.eqb_neq _ _)) by (intros E; apply H; left; exact E). rewrite IH; [reflexivity|]. intros I. apply H. now right.
Qed.
Lemma sets_app l : forall s, NoDup (map fst (s ++ l)) -> fold_left (fun s p => sens_set s (fst p) (snd p)) l s = s ++ l.
Proof.
  induction l as [|[v c] l IH]; intros s N; [now rewrite app_nil_r|]. cbn [fold_left fst snd]. rewrite set_new.
  - rewrite IH; rewrite <- app_assoc; [reflexivity|exact N].
  - rewrite map_app in N. cbn [map fst] in N. apply NoDup_remove_2 in N. intros I. apply N. apply in_or_app. now left.
Qed.
Lemma pairs_eval l x : NoDup (map fst l) -> (e_eval (from_pairs l) x == lin l x)%Q.
Proof. intros N. rewrite eval_lin. unfold from_pairs. cbn [ex_const ex_sens]. rewrite sets_app by exact N. cbn [app]. lra. Qed.
Lemma lin_ones vs x : (lin (map (fun v => (v, 1%Q)) vs) x == total (map (fun v => inject_Z (x v)) vs))%Q.
Proof. induction vs as [|v vs IH]; cbn [map lin total]; [reflexivity|]. rewrite IH. lra. Qed.
Lemma lin_combine x : forall vs cs, (lin (combine vs cs) x == weighted (map (fun v => inject_Z (x v)) vs) cs)%Q.
Proof. induction vs as [|v vs IH]; intros [|c cs]; cbn [combine map lin weighted]; try reflexivity. rewrite IH. lra. Qed.
Lemma combine_keys {A B} : forall (l : list A) (m : list B), List.length l = List.length m -> map fst (combine l m) = l.
Proof. induction l as [|a l IH]; intros [|b m] H; try discriminate; [reflexivity|]. cbn. f_equal. apply IH. now injection H. Qed.
Lemma nodup_shift b l : NoDup l -> NoDup (map (fun i => b + i)%nat l).
Proof. intros N. induction N as [|i l H N IH]; constructor; [|exact IH]. intros I. apply in_map_iff in I. destruct I as (j & E & I). assert (j = i) by lia. subst. contradiction. Qed.
Lemma at_positions b shape : forall (s : list (list Z)) l, map (position shape) s = map Ok l -> map (v_at b shape) s = map Ok (map (fun i => (b + i)%nat) l).
Proof.
  induction s as [|t s IH]; intros [|i l] H; try discriminate; [reflexivity|]. cbn [map] in *. injection H as H1 H2. rewrite (IH l H2). unfold v_at. rewrite H1. reflexivity.
Qed.

Lemma v_sum_spec base shape pat : good_shape shape ->
  (List.length pat <> List.length shape -> v_sum base shape pat = Throw) /\
  (List.length pat = List.length shape -> exists e vs, v_sum base shape pat = Ok e /\ map (v_at base shape) (slice shape pat) = map Ok vs /\ NoDup vs /\
     forall x, (e_eval e x == total (map (fun v => inject_Z (x v)) vs))%Q).
Proof.
  intros G. unfold v_sum, slice_of. split; intros L.
  - rewrite (proj2 (Nat.eqb_neq _ _)) by congruence. reflexivity.
  - rewrite (proj2 (Nat.eqb_eq _ _)) by congruence. cbn [negb]. destruct (slice_positions shape pat G L) as (l & E & N & R & M). rewrite E. cbn [bind].
    exists (from_pairs (map (fun i => ((base + i)%nat, 1%Q)) l)), (map (fun i => (base + i)%nat) l). split; [reflexivity|]. split; [now apply at_positions|]. split; [now apply nodup_shift|].
    intros x. rewrite <- lin_ones, map_map. apply pairs_eval. rewrite map_map. cbn [fst]. now apply nodup_shift.
Qed.
Lemma v_sum_all_spec base shape : good_shape shape ->
  exists vs, map (v_at base shape) (slice shape (map (fun _ => All) shape)) = map Ok vs /\ NoDup vs /\ List.length vs = Z.to_nat (number_of_elements shape) /\
  forall x, (e_eval (v_sum_all base shape) x == total (map (fun v => inject_Z (x v)) vs))%Q.
Proof.
  intros G. exists (map (fun i => (base + i)%nat) (seq 0 (Z.to_nat (number_of_elements shape)))). split; [apply at_positions; now apply all_positions|]. split; [apply nodup_shift, seq_NoDup|]. split; [now rewrite map_length, seq_length|].
  intros x. rewrite <- lin_ones, map_map. apply pairs_eval. rewrite map_map. cbn [fst]. apply nodup_shift, seq_NoDup.
Qed.
Lemma slice_dot_spec shape pat coefs : good_shape shape ->
  (~ dot_ok shape pat coefs -> slice_dot shape (stored shape) pat coefs = Throw) /\
  (dot_ok shape pat coefs -> exists l, slice_dot shape (stored shape) pat coefs = Ok l /\ List.length l = List.length coefs /\ NoDup l /\ (forall p, In p l -> p < List.length (stored shape))%nat /\ map (position shape) (slice shape pat) = map Ok l).
Proof.
  intros G. unfold slice_dot, dot_ok. destruct (Nat.eqb_spec (List.length shape) (List.length pat)) as [L|L]; cbn [negb]; [|split; [reflexivity|intros (H & _); congruence]].
  destruct (Nat.leb_spec 2 (count_occ Z.eq_dec pat All)) as [C|C]; [split; [reflexivity|intros (_ & H & _); lia]|]. destruct (slice_positions shape pat G (eq_sym L)) as (l & E & N & R & M). rewrite E. cbn [bind].
  assert (K : List.length (slice shape pat) = List.length l) by (rewrite <- (map_length (position shape)), M; apply map_length).
  destruct (Nat.eqb_spec (List.length l) (List.length coefs)) as [E2|E2]; cbn [negb]; split.
  - intros H. exfalso. apply H. split; [congruence|]. split; [lia|congruence].
  - intros _. exists l. repeat (split; [assumption || reflexivity|]). assumption.
  - reflexivity.
  - intros (_ & _ & H). congruence.
Qed.
Lemma v_dot_spec base shape pat coefs : good_shape shape ->
  (~ dot_ok shape pat coefs -> v_dot base shape pat coefs = Throw) /\
  (dot_ok shape pat coefs -> exists e vs, v_dot base shape pat coefs = Ok e /\ map (v_at base shape) (slice shape pat) = map Ok vs /\ NoDup vs /\
     forall x, (e_eval e x == weighted (map (fun v => inject_Z (x v)) vs) coefs)%Q).
Proof.
  intros G. unfold v_dot. destruct (slice_dot_spec shape pat coefs G) as [A B]. split; intros H; [now rewrite (A H)|]. destruct (B H) as (l & E & Ll & N & R & M). rewrite E. cbn [bind].
  exists (from_pairs (combine (map (fun i => (base + i)%nat) l) coefs)), (map (fun i => (base + i)%nat) l). split; [reflexivity|]. split; [now apply at_positions|]. split; [now apply nodup_shift|].
  intros x. rewrite <- lin_combine. apply pairs_eval. rewrite combine_keys by (now rewrite map_length). now apply nodup_shift.
Qed.
Lemma v_dot_all_spec base n coefs : 0 < n ->
  (List.length coefs <> Z.to_nat n -> v_dot_all base [n] coefs = Throw) /\
  (List.length coefs = Z.to_nat n -> exists e, v_dot_all base [n] coefs = Ok e /\ v_dot base [n] [All] coefs = Ok e) /\
  forall shape, List.length shape <> 1%nat -> v_dot_all base shape coefs = Throw.
Proof.
  intros Hn. assert (Ne : number_of_elements [n] = n) by (unfold number_of_elements; cbn [fold_left]; lia). split; [|split].
  - intros H. unfold v_dot_all. rewrite Ne. cbn [List.length Nat.eqb negb]. rewrite (proj2 (Nat.eqb_neq _ _)) by congruence. reflexivity.
  - intros H. unfold v_dot_all. rewrite Ne. cbn [List.length Nat.eqb negb]. rewrite (proj2 (Nat.eqb_eq _ _)) by congruence. cbn [negb]. eexists. split; [reflexivity|].
    assert (G : good_shape [n]) by (split; [discriminate|repeat constructor; lia]). pose proof (all_positions [n] G) as P. cbn [map] in P. rewrite Ne in P.
    destruct (slice_positions [n] [All] G eq_refl) as (l & E & N & R & M). unfold v_dot, slice_dot. cbn [List.length Nat.eqb negb]. change (2 <=? count_occ Z.eq_dec [All] All)%nat with false. cbv iota. rewrite E. cbn [bind].
    assert (El : l = seq 0 (Z.to_nat n)). { rewrite M in P. clear -P. revert P. generalize (seq 0 (Z.to_nat n)) as k. induction l as [|i l IH]; intros [|j k] H; try discriminate; [reflexivity|]. cbn [map] in H. injection H as -> H. f_equal. now apply IH. }
    rewrite El, seq_length. rewrite (proj2 (Nat.eqb_eq _ _)) by congruence. reflexivity.
  - intros shape H. unfold v_dot_all. rewrite (proj2 (Nat.eqb_neq _ _)) by exact H. reflexivity.
Qed.

(** ** Arrays of expressions *)
Lemma update_nth {A} (l : list A) : forall n x k, nth_error (update n x l) k = if Nat.eqb k n then match nth_error l n with Some _ => Some x | None => None end else nth_error l k.
Proof.
  induction l as [|a l IH]; intros n x k.
  - unfold update. rewrite firstn_nil, skipn_nil. cbn [app]. destruct (Nat.eqb k n), k, n; reflexivity.
  - destruct n as [|n].
    + unfold update. cbn [firstn skipn app]. destruct k; reflexivity.
    + assert (E : update (S n) x (a :: l) = a :: update n x l) by reflexivity. rewrite E. destruct k as [|k]; [reflexivity|]. cbn [nth_error Nat.eqb]. apply IH.
Qed.
Lemma update_len {A} (l : list A) n x : List.length (update n x l) = List.length l.
Proof. revert n. induction l as [|a l IH]; intros [|n]; [reflexivity|reflexivity|reflexivity|]. assert (E : update (S n) x (a :: l) = a :: update n x l) by reflexivity. rewrite E. cbn. now rewrite IH. Qed.

(** Every element of array [a] still has its own index. *)
Definition own (a : nat) (name : string) (shape : list Z) (w : world) : Prop :=
  exists cells, nth_error (w_arrays w) a = Some (mkArr name shape cells) /\ map (cell_index w) cells = stored shape.
Definition valid_exts (w : world) : Prop := forall a r c, nth_error (w_arrays w) a = Some r -> In c (ar_cells r) -> (snd c < List.length (w_exts w))%nat.
Lemma nth_map {A B} (f : A -> B) l k : nth_error (map f l) k = option_map f (nth_error l k).
Proof. revert k. induction l as [|a l IH]; intros [|k]; try reflexivity. apply IH. Qed.
Lemma in_update {A} (l : list A) n x y : In y (update n x l) -> y = x \/ In y l.
Proof.
  intros H. apply In_nth_error in H. destruct H as [k H]. rewrite update_nth in H. destruct (Nat.eqb k n); [destruct (nth_error l n); [injection H as <-; now left|discriminate]|]. right. eapply nth_error_In. exact H.
Qed.
Lemma map_update {A B} (f : A -> B) l n x : (forall y, nth_error l n = Some y -> f x = f y) -> map f (update n x l) = map f l.
Proof.
  revert n. induction l as [|a l IH]; intros [|n] H; [reflexivity|reflexivity| |].
  - cbn. f_equal. now apply H.
  - assert (E : update (S n) x (a :: l) = a :: update n x l) by reflexivity. rewrite E. cbn [map]. f_equal. now apply IH.
Qed.
Lemma on_cell_own w a i f w' : valid_exts w -> on_cell w a i f = Ok w' -> valid_exts w' /\ forall b name shape, own b name shape w -> own b name shape w'.
Proof.
  unfold on_cell. intros V H. destruct (cell w a i) as [[e x]|] eqn:C; [|discriminate]. destruct (f e) as [e'| |]; try discriminate. injection H as <-. unfold cell in C. unfold set_cell.
  destruct (nth_error (w_arrays w) a) as [r|] eqn:R; [|discriminate]. split.
  - intros b q c Hb Hc. cbn [w_arrays w_exts] in *. rewrite update_nth, R in Hb. destruct (Nat.eqb_spec b a) as [-> |D].
    + injection Hb as <-. cbn [ar_cells] in Hc. apply in_update in Hc. destruct Hc as [-> |Hc]; [|exact (V a r c R Hc)]. cbn [snd]. exact (V a r (e, x) R (nth_error_In _ _ C)).
    + exact (V b q c Hb Hc).
  - intros b name shape (cells & O1 & O2). unfold own. cbn [w_arrays w_exts]. destruct (Nat.eq_dec b a) as [-> |D].
    + rewrite R in O1. injection O1 as ->. cbn [ar_cells] in C. exists (update i (e', x) cells). split; [rewrite update_nth, Nat.eqb_refl, R; reflexivity|]. rewrite <- O2. apply map_update. intros y Hy. rewrite C in Hy. injection Hy as <-. reflexivity.
    + exists cells. split; [rewrite update_nth, (proj2 (Nat.eqb_neq _ _) D); exact O1|exact O2].
Qed.
Lemma step_own w o w' : valid_exts w -> a_step w o = Ok w' -> valid_exts w' /\ forall b name shape, ~ replaces b o -> own b name shape w -> own b name shape w'.
Proof.
  intros V H. destruct o as [name shape|a i e|a i b j|a i s|a i q|a i e|a i e|a i e|a i q|a i q|a i q|a i q]; cbn [a_step replaces] in *.
  - injection H as <-. split.
    + intros b r c Hb Hc. cbn [w_arrays w_exts] in *. rewrite app_length. destruct (Nat.lt_ge_cases b (List.length (w_arrays w))) as [Lb|Lb].
      * rewrite nth_error_app1 in Hb by exact Lb. specialize (V b r c Hb Hc). lia.
      * rewrite nth_error_app2 in Hb by exact Lb. destruct (b - List.length (w_arrays w))%nat as [|k]; [|destruct k; discriminate]. injection Hb as <-. cbn [ar_cells] in Hc. apply in_map_iff in Hc. destruct Hc as (k & <- & Hk). cbn [snd]. apply in_seq in Hk. rewrite map_length, stored_length. lia.
    + intros b nm sh _ (cells & O1 & O2). exists cells. cbn [w_arrays w_exts]. assert (Lb : (b < List.length (w_arrays w))%nat) by (apply nth_error_Some; congruence). split; [rewrite nth_error_app1; assumption|].
      rewrite <- O2. apply map_ext_in. intros c Hc. unfold cell_index. cbn [w_exts]. rewrite nth_error_app1; [reflexivity|]. exact (V b _ c O1 Hc).
  - destruct (cell w a i) as [c0|] eqn:C; [|discriminate]. injection H as <-. unfold set_cell. cbn [w_arrays w_exts]. unfold cell in C. destruct (nth_error (w_arrays w) a) as [r|] eqn:R; [|discriminate]. split.
    + intros b q c Hb Hc. cbn [w_arrays w_exts] in *. rewrite app_length. cbn [List.length]. rewrite update_nth, R in Hb. destruct (Nat.eqb_spec b a) as [-> |D].
      * injection Hb as <-. cbn [ar_cells] in Hc. apply in_update in Hc. destruct Hc as [-> |Hc]; [cbn [snd]; lia|]. specialize (V a r c R Hc). lia.
      * specialize (V b q c Hb Hc). lia.
    + intros b nm sh D (cells & O1 & O2). exists cells. cbn [w_arrays w_exts]. split; [rewrite update_nth, (proj2 (Nat.eqb_neq _ _)) by congruence; exact O1|].
      rewrite <- O2. apply map_ext_in. intros c Hc. unfold cell_index. cbn [w_exts]. rewrite nth_error_app1; [reflexivity|]. exact (V b _ c O1 Hc).
  - destruct (cell w a i) as [c0|] eqn:C; [|discriminate]. destruct (cell w b j) as [c1|] eqn:C1; [|discriminate]. injection H as <-. unfold set_cell. unfold cell in C, C1. destruct (nth_error (w_arrays w) a) as [r|] eqn:R; [|discriminate]. split.
    + intros b' q c Hb Hc. cbn [w_arrays w_exts] in *. rewrite update_nth, R in Hb. destruct (Nat.eqb_spec b' a) as [-> |D].
      * injection Hb as <-. cbn [ar_cells] in Hc. apply in_update in Hc. destruct Hc as [-> |Hc]; [|exact (V a r c R Hc)]. destruct (nth_error (w_arrays w) b) as [r1|] eqn:R1; [|discriminate]. exact (V b r1 c1 R1 (nth_error_In _ _ C1)).
      * exact (V b' q c Hb Hc).
    + intros b' nm sh D (cells & O1 & O2). exists cells. cbn [w_arrays w_exts]. split; [rewrite update_nth, (proj2 (Nat.eqb_neq _ _)) by congruence; exact O1|]. rewrite <- O2. apply map_ext_in. intros c Hc. reflexivity.
  - destruct (cell w a i) as [[e x]|] eqn:C; [|discriminate]. destruct (nth_error (w_exts w) x) as [t|] eqn:X; [|discriminate]. injection H as <-. split.
    + intros b r c Hb Hc. cbn [w_arrays w_exts] in *. rewrite update_len. exact (V b r c Hb Hc).
    + intros b nm sh _ (cells & O1 & O2). exists cells. cbn [w_arrays w_exts]. split; [exact O1|]. rewrite <- O2. apply map_ext_in. intros c Hc. unfold cell_index. cbn [w_exts]. rewrite update_nth. destruct (Nat.eqb_spec (snd c) x) as [-> |]; [rewrite X; reflexivity|reflexivity].
  - destruct (on_cell_own _ _ _ _ _ V H) as [A B]. split; [exact A|]. intros. now apply B.
  - destruct (on_cell_own _ _ _ _ _ V H) as [A B]. split; [exact A|]. intros. now apply B.
  - destruct (on_cell_own _ _ _ _ _ V H) as [A B]. split; [exact A|]. intros. now apply B.
  - destruct (on_cell_own _ _ _ _ _ V H) as [A B]. split; [exact A|]. intros. now apply B.
  - destruct (on_cell_own _ _ _ _ _ V H) as [A B]. split; [exact A|]. intros. now apply B.
  - destruct (on_cell_own _ _ _ _ _ V H) as [A B]. split; [exact A|]. intros. now apply B.
  - destruct (on_cell_own _ _ _ _ _ V H) as [A B]. split; [exact A|]. intros. now apply B.
  - destruct (on_cell_own _ _ _ _ _ V H) as [A B]. split; [exact A|]. intros. now apply B.
Qed.
Lemma run_valid os : forall w w', valid_exts w -> a_run w os = Ok w' -> valid_exts w' /\ forall b name shape, Forall (fun o => ~ replaces b o) os -> own b name shape w -> own b name shape w'.
Proof.
  induction os as [|o os IH]; intros w w' V H; cbn [a_run] in H; [injection H as <-; split; [exact V|auto]|]. destruct (a_step w o) as [w1| |] eqn:E; try discriminate. cbn [bind] in H.
  destruct (step_own w o w1 V E) as [V1 O1]. destruct (IH w1 w' V1 H) as [V2 O2]. split; [exact V2|]. intros b nm sh F O. inversion F; subst. apply O2; [assumption|]. now apply O1.
Qed.
Lemma new_own w name shape w' : a_step w (ANew name shape) = Ok w' -> own (List.length (w_arrays w)) name shape w'.
Proof.
  intros H. injection H as <-. eexists. cbn [w_arrays w_exts]. split; [rewrite nth_error_app2, Nat.sub_diag by lia; reflexivity|]. rewrite map_map. unfold cell_index. cbn [snd w_exts].
  rewrite <- (stored_length shape). generalize (w_exts w) as l. intros l. revert l. induction (stored shape) as [|t s IH]; intros l; [reflexivity|]. cbn [List.length seq map]. f_equal.
  - rewrite nth_error_app2, Nat.add_0_r, Nat.sub_diag by lia. reflexivity.
  - specialize (IH (l ++ [mkExt t EmptyString])). rewrite <- app_assoc in IH. cbn [app] in IH. etransitivity; [|exact IH]. rewrite <- seq_shift, map_map. apply map_ext. intros k. rewrite app_length. cbn [List.length]. replace (List.length l + S k)%nat with (List.length l + 1 + k)%nat by lia. reflexivity.
Qed.
Lemma history_own os1 os2 name shape w1 w : a_run empty_world os1 = Ok w1 -> a_run empty_world (os1 ++ ANew name shape :: os2) = Ok w -> Forall (fun o => ~ replaces (List.length (w_arrays w1)) o) os2 ->
  own (List.length (w_arrays w1)) name shape w.
Proof.
  intros H1 H F. assert (V0 : valid_exts empty_world) by (intros a r c Ha; destruct a; discriminate). destruct (run_valid os1 _ _ V0 H1) as [V1 _].
  assert (H2 : a_run w1 (ANew name shape :: os2) = Ok w).
  { clear -H1 H. revert H1 H. generalize empty_world as w0. induction os1 as [|o os IH]; intros w0 H1 H; [cbn [a_run app] in *; injection H1 as ->; exact H|]. cbn [a_run app] in *. destruct (a_step w0 o) as [w'| |]; try discriminate. cbn [bind] in *. exact (IH w' H1 H). }
  cbn [a_run] in H2. destruct (a_step w1 (ANew name shape)) as [w2| |] eqn:E; try discriminate. cbn [bind] in H2. pose proof (new_own _ _ _ _ E) as O. destruct (step_own _ _ _ V1 E) as [V2 _]. destruct (run_valid os2 _ _ V2 H2) as [_ K]. now apply K.
Qed.

(** Sums over slices of an array whose elements kept their indices. *)
Lemma adds_eval x : forall es e, (e_eval (fold_left e_add es e) x == e_eval e x + total (map (fun f => e_eval f x) es))%Q.
Proof. induction es as [|f es IH]; intros e; cbn [fold_left map total]; [lra|]. rewrite IH, eval_add. lra. Qed.
Lemma zero_eval x : (e_eval zero_expr x == 0)%Q. Proof. reflexivity. Qed.
Lemma scaled_eval x : forall es cs, (total (map (fun f => e_eval f x) (scaled es cs)) == weighted (map (fun f => e_eval f x) es) cs)%Q.
Proof. induction es as [|f es IH]; intros [|c cs]; cbn [scaled combine map total weighted]; try reflexivity. fold (scaled es cs). rewrite IH. cbn [fst snd]. rewrite eval_mul. reflexivity. Qed.
Lemma x_at_positions r : forall (s : list (list Z)) l, (forall p, In p l -> p < List.length (ar_cells r))%nat -> map (position (ar_shape r)) s = map Ok l -> map (x_at r) s = map Ok (pick r l).
Proof.
  induction s as [|t s IH]; intros [|i l] B H; try discriminate; [reflexivity|]. cbn [map pick] in *. injection H as H1 H2. fold (pick r l). rewrite (IH l) by (try (intros; apply B; now right); exact H2). f_equal. unfold x_at. rewrite H1. cbn [bind].
  destruct (nth_error (ar_cells r) i) eqn:E; [reflexivity|]. apply nth_error_None in E. specialize (B i (or_introl eq_refl)). lia.
Qed.
Lemma own_get a name shape w : own a name shape w -> exists r, nth_error (w_arrays w) a = Some r /\ ar_shape r = shape /\ map (cell_index w) (ar_cells r) = stored shape /\ List.length (ar_cells r) = List.length (stored shape).
Proof. intros (cells & O1 & O2). eexists. split; [exact O1|]. split; [reflexivity|]. cbn [ar_cells]. split; [exact O2|]. now rewrite <- O2, map_length. Qed.
Lemma x_sum_spec w r shape pat : good_shape shape -> ar_shape r = shape -> map (cell_index w) (ar_cells r) = stored shape ->
  (List.length pat <> List.length shape -> x_sum w r pat = Throw) /\
  (List.length pat = List.length shape -> exists e es, x_sum w r pat = Ok e /\ map (x_at r) (slice shape pat) = map Ok es /\
     forall x, (e_eval e x == total (map (fun f => e_eval f x) es))%Q).
Proof.
  intros G Hs Hi. unfold x_sum, slice_of. rewrite Hs, Hi. split; intros L.
  - rewrite (proj2 (Nat.eqb_neq _ _)) by congruence. reflexivity.
  - rewrite (proj2 (Nat.eqb_eq _ _)) by congruence. cbn [negb]. destruct (slice_positions shape pat G L) as (l & E & N & R & M). rewrite E. cbn [bind]. exists (fold_left e_add (pick r l) zero_expr), (pick r l). split; [reflexivity|]. split.
    + apply x_at_positions; [|now rewrite Hs]. rewrite <- (map_length (cell_index w)), Hi. exact R.
    + intros x. rewrite adds_eval, zero_eval. lra.
Qed.
Lemma x_dot_spec w r shape pat coefs : good_shape shape -> ar_shape r = shape -> map (cell_index w) (ar_cells r) = stored shape ->
  (~ dot_ok shape pat coefs -> x_dot w r pat coefs = Throw) /\
  (dot_ok shape pat coefs -> exists e es, x_dot w r pat coefs = Ok e /\ map (x_at r) (slice shape pat) = map Ok es /\
     forall x, (e_eval e x == weighted (map (fun f => e_eval f x) es) coefs)%Q).
Proof.
  intros G Hs Hi. unfold x_dot. rewrite Hs, Hi. destruct (slice_dot_spec shape pat coefs G) as [A B]. split; intros H; [now rewrite (A H)|]. destruct (B H) as (l & E & Ll & N & R & M). rewrite E. cbn [bind].
  eexists. exists (pick r l). split; [reflexivity|]. split.
  - apply x_at_positions; [|now rewrite Hs]. rewrite <- (map_length (cell_index w)), Hi. exact R.
  - intros x. rewrite adds_eval, zero_eval, scaled_eval. lra.
Qed.
Lemma x_sum_all_eval r x : (e_eval (x_sum_all r) x == total (map (fun c => e_eval (fst c) x) (ar_cells r)))%Q.
Proof. unfold x_sum_all. rewrite adds_eval, zero_eval, map_map. lra. Qed.
