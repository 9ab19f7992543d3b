(** C67: access, sums and scalar products of arrays. *)
From Coq Require Import List ZArith QArith Bool String Lia.
From Verif Require Import PresolveModel ExprModel ExprProof VariableModel VariableSpec NamesModel ArrayModel ArraySpec ArrayProof ArrayProof2 ArrayProof3 ArrayProof4.
Import ListNotations.
Local Open Scope Z_scope.

(** Access to an element: a wrong number of indices throws, an index within the shape
    finds an element. *)
Theorem C67_access : forall base shape idx,
  (List.length idx <> List.length shape -> v_at base shape idx = Throw) /\
  (good_shape shape -> in_range shape idx -> exists v, v_at base shape idx = Ok v /\ (base <= v < base + Z.to_nat (number_of_elements shape))%nat).
Proof.
  intros base shape idx. split; [intros H; unfold v_at; now rewrite (position_throws shape idx H)|].
  intros G R. destruct (position_in_range shape idx G R) as (p & E & L). exists (base + p)%nat. split; [unfold v_at; now rewrite E|lia].
Qed.
Print Assumptions C67_access.

(** Sum over a slice of an array of variables: the sum of the elements whose index
    matches the pattern, each once; a pattern of the wrong length throws. *)
Theorem C67_sum : forall base shape pat, good_shape shape ->
  (List.length pat <> List.length shape -> v_sum base shape pat = Throw) /\
  (List.length pat = List.length shape -> exists e vs, v_sum base shape pat = Ok e /\ map (v_at base shape) (slice shape pat) = map Ok vs /\ NoDup vs /\
     forall x, (e_eval e x == total (map (fun v => inject_Z (x v)) vs))%Q).
Proof. exact v_sum_spec. Qed.
Print Assumptions C67_sum.
Theorem C67_sum_all : forall base shape, good_shape shape ->
  exists vs, map (v_at base shape) (slice shape (map (fun _ => All) shape)) = map Ok vs /\ NoDup vs /\ List.length vs = Z.to_nat (number_of_elements shape) /\
  forall x, (e_eval (v_sum_all base shape) x == total (map (fun v => inject_Z (x v)) vs))%Q.
Proof. exact v_sum_all_spec. Qed.
Print Assumptions C67_sum_all.
Example C67_sum_example : good_shape [2; 3; 2] /\ slice [2; 3; 2] [1; All; 0] = [[1; 0; 0]; [1; 1; 0]; [1; 2; 0]] /\
  v_sum 10 [2; 3; 2] [1; All; 0] = Ok (mkExpr [(16, 1%Q); (18, 1%Q); (20, 1%Q)]%nat 0).
Proof. split; [split; [discriminate|repeat constructor; lia]|]. split; reflexivity. Qed.

(** Scalar product with a slice, in lexicographic order of the indices; it throws
    exactly when the arguments do not fit. *)
Theorem C67_dot : forall base shape pat coefs, good_shape shape ->
  (~ dot_ok shape pat coefs -> v_dot base shape pat coefs = Throw) /\
  (dot_ok shape pat coefs -> exists e vs, v_dot base shape pat coefs = Ok e /\ map (v_at base shape) (slice shape pat) = map Ok vs /\ NoDup vs /\
     forall x, (e_eval e x == weighted (map (fun v => inject_Z (x v)) vs) coefs)%Q).
Proof. exact v_dot_spec. Qed.
Print Assumptions C67_dot.
Theorem C67_dot_all : forall base n coefs, 0 < n ->
  (List.length coefs <> Z.to_nat n -> v_dot_all base [n] coefs = Throw) /\
  (List.length coefs = Z.to_nat n -> exists e, v_dot_all base [n] coefs = Ok e /\ v_dot base [n] [All] coefs = Ok e) /\
  forall shape, List.length shape <> 1%nat -> v_dot_all base shape coefs = Throw.
Proof. exact v_dot_all_spec. Qed.
Print Assumptions C67_dot_all.
Example C67_dot_example : dot_ok [2; 2] [All; 1] [3; 5]%Q /\ v_dot 0 [2; 2] [All; 1] [3; 5]%Q = Ok (mkExpr [(1, 3%Q); (3, 5%Q)]%nat 0) /\ v_dot 0 [2; 2] [All; All] [1; 1; 1; 1]%Q = Throw.
Proof. split; [repeat split; cbn; lia|]. split; reflexivity. Qed.

(** Arrays of expressions.  Sums over the whole array are right after every history of
    operations on arrays. *)
Theorem C67_whole : forall os w a r, a_run empty_world os = Ok w -> nth_error (w_arrays w) a = Some r -> good_shape (ar_shape r) ->
  exists es, map (x_at r) (slice (ar_shape r) (map (fun _ => All) (ar_shape r))) = map Ok es /\ (forall x, (e_eval (x_sum_all r) x == total (map (fun f => e_eval f x) es))%Q) /\
  forall coefs, (List.length (ar_shape r) = 1%nat /\ List.length coefs = List.length es -> exists e, x_dot_all r coefs = Ok e /\ forall x, (e_eval e x == weighted (map (fun f => e_eval f x) es) coefs)%Q) /\
                (~ (List.length (ar_shape r) = 1%nat /\ List.length coefs = List.length es) -> x_dot_all r coefs = Throw).
Proof. exact whole. Qed.
Print Assumptions C67_whole.
(** Sums and scalar products over slices are right as long as no element of the array
    was assigned a computed expression or another element. *)
Theorem C67_slice_sum : forall before after name shape w1 w pat, good_shape shape ->
  a_run empty_world before = Ok w1 -> a_run empty_world (before ++ ANew name shape :: after) = Ok w ->
  Forall (fun o => ~ replaces (List.length (w_arrays w1)) o) after ->
  exists r, nth_error (w_arrays w) (List.length (w_arrays w1)) = Some r /\
  (List.length pat <> List.length shape -> x_sum w r pat = Throw) /\
  (List.length pat = List.length shape -> exists e es, x_sum w r pat = Ok e /\ map (x_at r) (slice shape pat) = map Ok es /\ forall x, (e_eval e x == total (map (fun f => e_eval f x) es))%Q).
Proof. exact sum_history. Qed.
Print Assumptions C67_slice_sum.
Theorem C67_slice_dot : forall before after name shape w1 w pat coefs, good_shape shape ->
  a_run empty_world before = Ok w1 -> a_run empty_world (before ++ ANew name shape :: after) = Ok w ->
  Forall (fun o => ~ replaces (List.length (w_arrays w1)) o) after ->
  exists r, nth_error (w_arrays w) (List.length (w_arrays w1)) = Some r /\
  (~ dot_ok shape pat coefs -> x_dot w r pat coefs = Throw) /\
  (dot_ok shape pat coefs -> exists e es, x_dot w r pat coefs = Ok e /\ map (x_at r) (slice shape pat) = map Ok es /\ forall x, (e_eval e x == weighted (map (fun f => e_eval f x) es) coefs)%Q).
Proof. exact dot_history. Qed.
Print Assumptions C67_slice_dot.
Example C67_kept : exists w r, a_run empty_world kept = Ok w /\ nth_error (w_arrays w) 0 = Some r /\ Forall (fun o => ~ replaces 0 o) (tl kept) /\
  x_sum w r [1; All] = Ok (mkExpr [(2, 1%Q); (3, 1%Q)]%nat (0 + (0 + 3) + (0 + 0))%Q).
Proof. eexists. eexists. split; [reflexivity|]. split; [reflexivity|]. split; [repeat constructor; intros H; exact H|]. reflexivity. Qed.
(** After elements were assigned computed expressions the sum over a row misses all of
    them, the sum over another row takes all, and the sum over a column is undefined. *)
Theorem C67_slice_refuted : exists w r, a_run empty_world assigned = Ok w /\ nth_error (w_arrays w) 0 = Some r /\
  x_at r [1; 0] = Ok (e_var 2) /\ x_sum w r [1; All] = Ok zero_expr /\
  (exists e, x_sum w r [0; All] = Ok e /\ (e_eval e (fun _ => 1%Z) == 4)%Q) /\ x_sum w r [All; 0] = UB.
Proof. eexists. eexists. split; [reflexivity|]. split; [reflexivity|]. split; [reflexivity|]. split; [reflexivity|]. split; [eexists; split; reflexivity|reflexivity]. Qed.
Print Assumptions C67_slice_refuted.

(** Operations on elements: an element an operation is not meant for keeps its value and
    its identity; the other has the value the operation says. *)
Theorem C67_elements : forall w o w' x b j e n, a_step w o = Ok w' -> cell w b j = Some (e, n) ->
  exists g m, cell w' b j = Some (g, m) /\ (changes b j o = false -> (g, m) = (e, n)) /\
  (changes b j o = true -> forall other, (match o with ACopy _ _ c k => exists t, cell w c k = Some t /\ fst t = other | _ => True end) ->
     (e_eval g x == effect o (e_eval e x) other x)%Q).
Proof. exact element_step. Qed.
Print Assumptions C67_elements.
Example C67_elements_example : exists w w', a_run empty_world kept = Ok w /\ a_step w (ASub 0 2 (e_var 5)) = Ok w' /\
  (exists e n f m, cell w 0 2 = Some (e, n) /\ cell w' 0 2 = Some (f, m) /\ (e_eval e (fun _ => 10%Z) == 13)%Q /\ (e_eval f (fun _ => 10%Z) == 3)%Q).
Proof. do 2 eexists. split; [reflexivity|]. split; [reflexivity|]. do 4 eexists. split; [reflexivity|]. split; [reflexivity|]. split; reflexivity. Qed.
(** A scalar array of expressions loses its constant when it is assigned to an
    expression. *)
Theorem C67_assign_refuted : exists w e w' g n, a_run empty_world kept = Ok w /\ a_step w (ALike 0 0 e) = Ok w' /\ cell w' 0 0 = Some (g, n) /\
  ~ (e_eval g (fun _ => 1%Z) == e_eval e (fun _ => 1%Z))%Q.
Proof. eexists. exists (mkExpr [(0%nat, 1%Q)] 5%Q). do 3 eexists. split; [reflexivity|]. split; [reflexivity|]. split; [reflexivity|]. discriminate. Qed.
Print Assumptions C67_assign_refuted.

(** Names: without copies between elements, naming one element changes no other, and
    the elements without a name get the default name of their position. *)
Theorem C67_name : forall os w a i s w', Forall no_copy os -> a_run empty_world os = Ok w -> a_step w (AName a i s) = Ok w' ->
  (forall c, cell w a i = Some c -> cell_name w' c = s) /\ forall b j c, cell w b j = Some c -> (b, j) <> (a, i) -> cell_name w' c = cell_name w c.
Proof. exact name_one. Qed.
Print Assumptions C67_name.
Theorem C67_default_names : forall os w a i c r, Forall no_copy os -> a_run empty_world os = Ok w -> nth_error (w_arrays w) a = Some r -> nth_error (ar_cells r) i = Some c ->
  cell_name (name_all w) c = given (cell_name w c) (append (ar_name r) (indices_label (ar_shape r) (Z.of_nat i))).
Proof. exact default_names. Qed.
Print Assumptions C67_default_names.
Example C67_names_example : exists w r c d, a_run empty_world (assigned ++ [AName 0 1 "profit"]) = Ok w /\ nth_error (w_arrays w) 0 = Some r /\ Forall no_copy (assigned ++ [AName 0 1 "profit"]) /\
  nth_error (ar_cells r) 1 = Some c /\ nth_error (ar_cells r) 2 = Some d /\ cell_name (name_all w) c = "profit"%string /\ cell_name (name_all w) d = "e[1, 0]"%string.
Proof. do 4 eexists. split; [reflexivity|]. split; [reflexivity|]. split; [repeat constructor|]. repeat (split; [reflexivity|]). reflexivity. Qed.
(** After e(1) = e(0) the two elements share their name. *)
Theorem C67_copy_refuted : exists w r c d, a_run empty_world shared = Ok w /\ nth_error (w_arrays w) 0 = Some r /\ nth_error (ar_cells r) 0 = Some c /\ nth_error (ar_cells r) 1 = Some d /\
  cell_name (name_all w) c = "e[0]"%string /\ cell_name (name_all w) d = "e[0]"%string.
Proof. do 4 eexists. repeat (split; [reflexivity|]). reflexivity. Qed.
Print Assumptions C67_copy_refuted.
