(** C61: the sparse matrices behind the linear relaxation compute the algebra of the
    coefficients they were built from. *)
From Coq Require Import List ZArith QArith Qabs Bool Lia Lqa Sorting.Sorted.
From Verif Require Import PresolveModel SparseModel SparseSpec SparseProof4 SparseProof5.
Import ListNotations.
Local Open Scope Q_scope.

(** Building succeeds exactly on lists of equal length with indices in range and at
    least one column. *)
Theorem C61_built : forall values rows cols nr nc,
  (exists m, m_setup [] values rows cols nr nc = Ok m) <->
  length rows = length values /\ length cols = length values /\ (forall r, In r rows -> (r < nr)%nat) /\ (forall c, In c cols -> (c < nc)%nat) /\ (0 < nc)%nat.
Proof. exact built_iff. Qed.
Print Assumptions C61_built.

(** The norms: the largest column sum of absolute values, and the largest absolute value
    (0 if none is listed). *)
Theorem C61_norms : forall values rows cols nr nc m, m_setup [] values rows cols nr nc = Ok m ->
  (exists j, (j < nc)%nat /\ mt_one m == column_weight cols values j) /\
  (forall j, (j < nc)%nat -> column_weight cols values j <= mt_one m) /\
  (forall v, In v values -> Qabs v <= mt_infty m) /\
  (if values then mt_infty m == 0 else exists v, In v values /\ mt_infty m == Qabs v).
Proof. exact norms_stmt. Qed.
Print Assumptions C61_norms.

(** Products and linear combinations, for entries listed by rows: repeated entries add
    up, a vector of another size throws. *)
Theorem C61_product : forall values rows cols nr nc m x, m_setup [] values rows cols nr nc = Ok m -> by_rows rows ->
  (length x = nc -> exists y, m_dot m x = Ok y /\ is_product y nr nc (value_at rows cols values) x) /\
  (length x <> nc -> m_dot m x = Throw) /\
  forall y, is_product y nr nc (value_at rows cols values) x -> forall a b v c w i, (i < nr)%nat ->
    nth i (m_lin2 a m x b v) 0 == a * nth i y 0 + b * nth i v 0 /\
    nth i (m_lin3 a m x b v c w) 0 == a * nth i y 0 + b * nth i v 0 + c * nth i w 0.
Proof. exact product_stmt. Qed.
Print Assumptions C61_product.

(** The transpose, whatever the order in which the entries were listed. *)
Theorem C61_transpose : forall old values rows cols nr nc m, m_setup old values rows cols nr nc = Ok m -> (0 < nr)%nat ->
  exists mt, m_transpose m = Ok mt /\ mt_nrows mt = nc /\ mt_ncols mt = nr /\
    (forall i j, coefficient mt j i == value_at rows cols values i j) /\
    forall y, length y = nr -> exists z, m_dot mt y = Ok z /\ is_product z nc nr (fun j i => value_at rows cols values i j) y.
Proof. exact transpose_stmt. Qed.
Print Assumptions C61_transpose.

(** y . (A x) = (A' y) . x. *)
Theorem C61_adjoint : forall values rows cols nr nc m mt x y, m_setup [] values rows cols nr nc = Ok m -> by_rows rows -> m_transpose m = Ok mt ->
  length x = nc -> length y = nr ->
  exists ax aty p q, m_dot m x = Ok ax /\ m_dot mt y = Ok aty /\ v_dot y ax = Ok p /\ v_dot aty x = Ok q /\ p == q.
Proof. exact adjoint_stmt. Qed.
Print Assumptions C61_adjoint.

(** Any number of Ruiz rounds, with or without the Pock-Chambolle scaling after them:
    the matrix times its scalers is the original, and products are recovered by scaling
    back.  [sq] stands for the square root and need only be positive. *)
Theorem C61_scaling : forall sq k (pc : bool) values rows cols nr nc m, (forall q, 0 < q -> 0 < sq q) -> m_setup [] values rows cols nr nc = Ok m -> by_rows rows ->
  exists m1 m', ruiz sq k m = Ok m1 /\ (if pc then pock_chambolle sq m1 else Ok m1) = Ok m' /\
  (forall i, (i < nr)%nat -> 0 < nth i (mt_row_scaler m') 0) /\ (forall j, (j < nc)%nat -> 0 < nth j (mt_col_scaler m') 0) /\
  (forall i j, (i < nr)%nat -> (j < nc)%nat -> coefficient m' i j * nth i (mt_row_scaler m') 0 * nth j (mt_col_scaler m') 0 == value_at rows cols values i j) /\
  forall x, length x = nc -> exists y', m_dot m' (scale (mt_col_scaler m') x) = Ok y' /\ is_product (scale (mt_row_scaler m') y') nr nc (value_at rows cols values) x.
Proof. exact scaling_stmt. Qed.
Print Assumptions C61_scaling.

(** After at least one Ruiz round no entry exceeds 1, if the root is not rounded down. *)
Theorem C61_normalised : forall sq k values rows cols nr nc m m', (forall q, 0 < q -> 0 < sq q /\ q <= sq q * sq q) -> m_setup [] values rows cols nr nc = Ok m -> by_rows rows -> (0 < k)%nat ->
  ruiz sq k m = Ok m' -> forall v, In v (mt_values m') -> Qabs v <= 1.
Proof. exact normalised_stmt. Qed.
Print Assumptions C61_normalised.

(** Multiplication by a diagonal from the left and from the right. *)
Theorem C61_diagonal : forall values rows cols nr nc m, m_setup [] values rows cols nr nc = Ok m -> by_rows rows ->
  (forall d, length d = nr -> exists m', scale_row m d = Ok m' /\ (forall i j, coefficient m' i j == nth i d 0 * value_at rows cols values i j) /\
     forall x, length x = nc -> exists y, m_dot m' x = Ok y /\ is_product y nr nc (fun i j => nth i d 0 * value_at rows cols values i j) x) /\
  (forall d, length d = nc -> exists m', scale_column m d = Ok m' /\ (forall i j, coefficient m' i j == value_at rows cols values i j * nth j d 0) /\
     forall x, length x = nc -> exists y, m_dot m' x = Ok y /\ is_product y nr nc (fun i j => value_at rows cols values i j * nth j d 0) x).
Proof. exact diagonal_stmt. Qed.
Print Assumptions C61_diagonal.

(** ** A matrix that meets the hypotheses: (2 0 -1; 0 3+1 4), the entry (1,1) listed in
    two pieces, and what the functions make of it. *)
Definition ex_values : list Q := [2; -(1); 3; 1; 4].
Definition ex_rows : list nat := [0; 0; 1; 1; 1]%nat.
Definition ex_cols : list nat := [0; 2; 1; 1; 2]%nat.
Definition ex_sq (q : Q) : Q := if Qlt_le_dec q 1 then 1 else q.
Example C61_example : exists m mt m', m_setup [] ex_values ex_rows ex_cols 2 3 = Ok m /\ by_rows ex_rows /\
  m_dot m [1; 2; 3] = Ok [-(1); 20] /\ m_dot m [1; 2] = Throw /\ m_transpose m = Ok mt /\ m_dot mt [1; -(1)] = Ok [2; -(4); -(5)] /\
  (forall q, 0 < q -> 0 < ex_sq q /\ q <= ex_sq q * ex_sq q) /\ ruiz ex_sq 2 m = Ok m' /\ nth 4 (mt_values m') 0 == 1 # 64 /\
  mt_one m == 5 /\ mt_infty m == 4.
Proof.
  eexists. eexists. eexists. split; [vm_compute; reflexivity|]. split; [repeat constructor; auto|]. split; [vm_compute; reflexivity|]. split; [vm_compute; reflexivity|].
  split; [vm_compute; reflexivity|]. split; [vm_compute; reflexivity|]. split; [|split; [vm_compute; reflexivity|split; [vm_compute; reflexivity|split; vm_compute; reflexivity]]].
  intros q Hq. unfold ex_sq. destruct (Qlt_le_dec q 1) as [L|L]; split; try lra. nra.
Qed.

(** ** What fails without the hypotheses *)
(** Entries not listed by rows: the product is wrong, without an exception. *)
Theorem C61_unsorted_refuted :
  ~ (forall values rows cols nr nc m x y, m_setup [] values rows cols nr nc = Ok m -> m_dot m x = Ok y -> is_product y nr nc (value_at rows cols values) x).
Proof.
  intros H. destruct (H [2; 5] [1; 0]%nat [0; 0]%nat 2%nat 1%nat _ [1] _ ltac:(vm_compute; reflexivity) ltac:(vm_compute; reflexivity)) as [_ V].
  specialize (V 0%nat ltac:(lia)). vm_compute in V. discriminate.
Qed.
Print Assumptions C61_unsorted_refuted.
(** Setting up an object a second time: the row pointers keep the old counts. *)
Theorem C61_reuse_refuted :
  ~ (forall values rows cols nr nc m m' x y, m_setup [] values rows cols nr nc = Ok m -> by_rows rows ->
       m_setup (mt_ptrs m) values rows cols nr nc = Ok m' -> m_dot m' x = Ok y -> is_product y nr nc (value_at rows cols values) x).
Proof.
  intros H. destruct (H [1; 1] [0; 1]%nat [0; 1]%nat 2%nat 2%nat _ _ [1; 1] _ ltac:(vm_compute; reflexivity) ltac:(repeat constructor; auto) ltac:(vm_compute; reflexivity) ltac:(vm_compute; reflexivity)) as [_ V].
  specialize (V 0%nat ltac:(lia)). vm_compute in V. discriminate.
Qed.
Print Assumptions C61_reuse_refuted.
(** A matrix without rows cannot be transposed: the norm is the largest of no numbers. *)
Theorem C61_no_rows_refuted : forall values rows cols nc m, m_setup [] values rows cols 0 nc = Ok m -> m_transpose m = UB.
Proof.
  intros values rows cols nc m H. destruct (m_transpose m) as [mt| |] eqn:E; [|exfalso|reflexivity].
  - exfalso. destruct (SparseProof4.setup_fields _ _ _ _ _ _ _ H) as (_ & R & _). unfold m_transpose in E. apply SparseProof2.setup_columns in E. lia.
  - unfold m_transpose, m_setup in E. destruct (_ && _); [|discriminate]. destruct (largest _) eqn:L; [discriminate| |discriminate]. destruct (column_sums _ _); discriminate.
Qed.
Print Assumptions C61_no_rows_refuted.
Example C61_no_rows_example : exists m, m_setup [] [] [] [] 0 2 = Ok m.
Proof. eexists. vm_compute. reflexivity. Qed.
