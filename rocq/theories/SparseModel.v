(** Sparse linear algebra: utility/sparse/vector.h, diagonal.h, sparse_matrix.h and
    function.h.  Numbers are rationals; the OpenMP loops write each component once and
    are plain loops here.  Reading past the end of a vector gives 0 in [at_]; the
    theorems use vectors of the right size. *)
From Coq Require Import List ZArith QArith Qabs Bool.
From Verif Require Import ConstraintModel PresolveModel DuplicateModel.
Import ListNotations.
Local Open Scope Q_scope.

(** ** vector.h, diagonal.h *)
Definition vec := list Q.
(** operator[] (vector.h:39-46). *)
Definition at_ (v : vec) (i : nat) : Q := nth i v 0.
Fixpoint put (v : vec) (i : nat) (q : Q) : vec :=
  match v, i with
  | [], _ => []
  | _ :: tl, O => q :: tl
  | a :: tl, S k => a :: put tl k q
  end.
(** std::inner_product; dot (vector.h:215-224) throws when the sizes differ. *)
Definition inner (a b : vec) : Q := fold_left (fun s p => s + fst p * snd p) (combine a b) 0.
Definition v_dot (a b : vec) : outcome Q := if Nat.eqb (length a) (length b) then Ok (inner a b) else Throw.
(** linear_combination of two and of three vectors (function.h:50-84); sum and
    subtract (function.h:24-47) are instances. *)
Definition lin2 (a : Q) (x : vec) (b : Q) (y : vec) : vec := map (fun p => a * fst p + b * snd p) (combine x y).
Definition lin3 (a : Q) (x : vec) (b : Q) (y : vec) (c : Q) (z : vec) : vec :=
  map (fun p => a * fst (fst p) + b * snd (fst p) + c * snd p) (combine (combine x y) z).
(** learn (vector.h:234-250). *)
Definition learn (v w : vec) (rate : Q) : vec := lin2 (1 - rate) v rate w.
(** clamp (vector.h:174-190) with std::clamp; [None]: a bound of +-DBL_MAX. *)
Definition clamp1 (lo hi : option Q) (q : Q) : Q :=
  match lo with
  | Some l => if Qlt_le_dec q l then l else match hi with Some h => if Qlt_le_dec h q then h else q | None => q end
  | None => match hi with Some h => if Qlt_le_dec h q then h else q | None => q end
  end.
Definition clamp (v : vec) (lo hi : list (option Q)) : vec := map (fun p => clamp1 (snd (fst p)) (snd p) (fst (fst p))) (combine (combine v lo) hi).
(** Diagonal::inverse (diagonal.h:44-50) and Diagonal::dot (diagonal.h:83-124). *)
Definition inverse (d : vec) : vec := map (fun q => 1 / q) d.
Definition scale (d v : vec) : vec := map (fun p => fst p * snd p) (combine v d).
Definition square_sum (v : vec) : Q := inner v v.

(** ** sparse_matrix.h *)
Record matrix := mkMat {
  mt_values : list Q; mt_rows : list nat; mt_cols : list nat; mt_ptrs : list nat;
  mt_row_scaler : vec; mt_col_scaler : vec; mt_nrows : nat; mt_ncols : nat; mt_one : Q; mt_infty : Q }.

(** row_indices[i], column_indices[i], values[i] for i = 0, 1, ... *)
Definition triples (rows cols : list nat) (values : list Q) : list (nat * nat * Q) := combine (combine rows cols) values.
Definition entries (m : matrix) : list (nat * nat * Q) := triples (mt_rows m) (mt_cols m) (mt_values m).

(** setup_norm (sparse_matrix.h:82-96): norm_one is the largest element of c_temp,
    which does not exist when there is no column. *)
Definition column_sums (ts : list (nat * nat * Q)) (nc : nat) : vec :=
  fold_left (fun c t => put c (snd (fst t)) (at_ c (snd (fst t)) + Qabs (snd t))) ts (repeat 0 nc).
Definition largest (v : vec) : outcome Q := match v with [] => UB | a :: tl => Ok (fold_left qmax tl a) end.
Definition norm_infty (values : list Q) : Q := fold_left (fun q v => qmax q (Qabs v)) values 0.

(** row_ptrs.resize(n + 1, 0) (sparse_matrix.h:68; initialize, 41-51, does not clear it either) keeps what is there. *)
Definition resize (l : list nat) (n : nat) : list nat := firstn n l ++ repeat O (n - length l).
Fixpoint bump (l : list nat) (i : nat) : list nat :=
  match l, i with [], _ => [] | a :: tl, O => S a :: tl | a :: tl, S k => a :: bump tl k end.
(** The prefix sums (sparse_matrix.h:75-77): [acc] is row_ptrs[i]. *)
Fixpoint prefix (acc : nat) (l : list nat) : list nat :=
  match l with [] => [] | a :: tl => (a + acc)%nat :: prefix (a + acc) tl end.
Definition row_pointers (old : list nat) (rows : list nat) (nr : nat) : list nat :=
  match fold_left (fun l r => bump l (S r)) rows (resize old (S nr)) with [] => [] | a :: tl => a :: prefix a tl end.
(** setup (sparse_matrix.h:54-79) and the constructor (old row_ptrs: none).  [UB]: an
    index out of range, vectors of different lengths, no column. *)
Definition m_setup (old : list nat) (values : list Q) (rows cols : list nat) (nr nc : nat) : outcome matrix :=
  if Nat.eqb (length rows) (length values) && Nat.eqb (length cols) (length values)
     && forallb (fun r => Nat.ltb r nr) rows && forallb (fun c => Nat.ltb c nc) cols
  then bind (largest (column_sums (triples rows cols values) nc)) (fun one =>
       Ok (mkMat values rows cols (row_pointers old rows nr) (repeat 1 nr) (repeat 1 nc) nr nc one (norm_infty values)))
  else UB.

(** One division by scalers [rs], [cs] (sparse_matrix.h:124-133, 166-175). *)
Definition divide (rs cs : vec) (m : matrix) : outcome matrix :=
  let values := map (fun t => snd t / (at_ rs (fst (fst t)) * at_ cs (snd (fst t)))) (entries m) in
  bind (largest (column_sums (triples (mt_rows m) (mt_cols m) values) (mt_ncols m))) (fun one =>
  Ok (mkMat values (mt_rows m) (mt_cols m) (mt_ptrs m) (scale rs (mt_row_scaler m)) (scale cs (mt_col_scaler m))
        (mt_nrows m) (mt_ncols m) one (norm_infty values))).
(** [sq] is sqrt. *)
Definition root_all (sq : Q -> Q) (v : vec) : vec := map (fun q => if Qlt_le_dec q EPS10 then 1 else sq q) v.
Definition gather (f : Q -> Q -> Q) (pos : nat * nat * Q -> nat) (ts : list (nat * nat * Q)) (v : vec) : vec :=
  fold_left (fun s t => put s (pos t) (f (at_ s (pos t)) (Qabs (snd t)))) ts v.
(** pock_chambolle_scaling (sparse_matrix.h:99-134). *)
Definition pock_chambolle (sq : Q -> Q) (m : matrix) : outcome matrix :=
  divide (root_all sq (gather Qplus (fun t => fst (fst t)) (entries m) (repeat 1 (mt_nrows m))))
         (root_all sq (gather Qplus (fun t => snd (fst t)) (entries m) (repeat 1 (mt_ncols m)))) m.
(** ruiz_scaling (sparse_matrix.h:137-178): the scalers are not reset between rounds. *)
Fixpoint ruiz_rounds (sq : Q -> Q) (k : nat) (rs cs : vec) (m : matrix) : outcome matrix :=
  match k with
  | O => Ok m
  | S k =>
      let rs := root_all sq (gather qmax (fun t => fst (fst t)) (entries m) rs) in
      let cs := root_all sq (gather qmax (fun t => snd (fst t)) (entries m) cs) in
      bind (divide rs cs m) (ruiz_rounds sq k rs cs)
  end.
Definition ruiz (sq : Q -> Q) (k : nat) (m : matrix) : outcome matrix := ruiz_rounds sq k (repeat 1 (mt_nrows m)) (repeat 1 (mt_ncols m)) m.

(** transpose (sparse_matrix.h:181-209). *)
Definition m_transpose (m : matrix) : outcome matrix :=
  let r := fun i => nth i (mt_rows m) O in
  let c := fun i => nth i (mt_cols m) O in
  let perm := stable_sort (fun i j => Nat.ltb (c i) (c j)) (stable_sort (fun i j => Nat.ltb (r i) (r j)) (seq 0 (length (mt_values m)))) in
  m_setup [] (map (fun i => at_ (mt_values m) i) perm) (map c perm) (map r perm) (mt_ncols m) (mt_nrows m).

(** The positions of row i: ROW_PTRS[i], ..., ROW_PTRS[i + 1] - 1. *)
Definition row_range (m : matrix) (i : nat) : list nat :=
  let a := nth i (mt_ptrs m) O in seq a (nth (S i) (mt_ptrs m) O - a).
(** dot (sparse_matrix.h:211-231); [m_mul] is the loop. *)
Definition m_mul (m : matrix) (x : vec) : vec :=
  map (fun i => fold_left (fun s j => s + at_ (mt_values m) j * at_ x (nth j (mt_cols m) O)) (row_range m i) 0) (seq 0 (mt_nrows m)).
Definition m_dot (m : matrix) (x : vec) : outcome vec :=
  if Nat.eqb (mt_ncols m) (length x) then Ok (m_mul m x) else Throw.
(** linear_combination with a matrix (function.h:105-150). *)
Definition m_lin2 (a : Q) (m : matrix) (x : vec) (b : Q) (y : vec) : vec :=
  map (fun i => fold_left (fun s j => s + a * at_ (mt_values m) j * at_ x (nth j (mt_cols m) O)) (row_range m i) (b * at_ y i)) (seq 0 (mt_nrows m)).
Definition m_lin3 (a : Q) (m : matrix) (x : vec) (b : Q) (y : vec) (c : Q) (z : vec) : vec :=
  map (fun i => fold_left (fun s j => s + a * at_ (mt_values m) j * at_ x (nth j (mt_cols m) O)) (row_range m i) (b * at_ y i + c * at_ z i)) (seq 0 (mt_nrows m)).
(** scale_row and scale_column (sparse_matrix.h:241-288): values only; the norms of the
    result stay those of the matrix. *)
Definition with_values (m : matrix) (values : list Q) : matrix :=
  mkMat values (mt_rows m) (mt_cols m) (mt_ptrs m) (mt_row_scaler m) (mt_col_scaler m) (mt_nrows m) (mt_ncols m) (mt_one m) (mt_infty m).
Definition scale_row (m : matrix) (d : vec) : outcome matrix :=
  if Nat.eqb (mt_nrows m) (length d)
  then Ok (with_values m (fold_left (fun vs i => fold_left (fun vs j => put vs j (at_ vs j * at_ d i)) (row_range m i) vs) (seq 0 (mt_nrows m)) (mt_values m)))
  else Throw.
Definition scale_column (m : matrix) (d : vec) : outcome matrix :=
  if Nat.eqb (mt_ncols m) (length d)
  then Ok (with_values m (map (fun p => snd p * at_ d (fst p)) (combine (mt_cols m) (mt_values m))))
  else Throw.
