(** Arrays of variables and of expressions: access by index, sums and scalar products
    over slices, assignment to elements (model_component/variable_proxy.h,
    expression_proxy.h, range.h, multi_array/abstract_multi_array_element.h).  The
    arithmetic of expressions is ExprModel, that of indices VariableModel. *)
From Coq Require Import List ZArith QArith Bool String.
From Verif Require Import PresolveModel ExprModel VariableModel NamesModel.
Import ListNotations.
Local Open Scope Z_scope.

(** Range::All (range.h:11). *)
Definition All : Z := -1.

(** The loop over j in sum and dot (variable_proxy.h:387-397, expression_proxy.h:299-309):
    [idx] is the element's multi_dimensional_index; reading past its end is undefined. *)
Fixpoint covered (idx pat : list Z) (j : nat) : outcome bool :=
  match pat with
  | [] => Ok true
  | p :: pat' =>
      if p =? All then covered idx pat' (S j)
      else match nth_error idx j with
           | None => UB
           | Some k => if k =? p then covered idx pat' (S j) else Ok false
           end
  end.
(** The loop over i: the positions of the covered elements, in order. *)
Fixpoint collect (idxs : list (list Z)) (pat : list Z) (i : nat) : outcome (list nat) :=
  match idxs with
  | [] => Ok []
  | idx :: tl => bind (covered idx pat 0) (fun b => bind (collect tl pat (S i)) (fun l => Ok (if b then i :: l else l)))
  end.
(** The checks of sum (variable_proxy.h:366-373) and dot (448-466) and the collection;
    [idxs]: the indices stored in the elements. *)
Definition slice_of (shape : list Z) (idxs : list (list Z)) (pat : list Z) : outcome (list nat) :=
  if negb (Nat.eqb (List.length shape) (List.length pat)) then Throw else collect idxs pat 0.
Definition slice_dot (shape : list Z) (idxs : list (list Z)) (pat : list Z) (coefs : list Q) : outcome (list nat) :=
  if negb (Nat.eqb (List.length shape) (List.length pat)) then Throw
  else if (2 <=? count_occ Z.eq_dec pat All)%nat then Throw
  else bind (collect idxs pat 0) (fun l => if negb (Nat.eqb (List.length l) (List.length coefs)) then Throw else Ok l).

(** ** Arrays of variables: variable i of the array is number base + i.
    setup_variables stores the index of each element (variable_proxy.h:70-90); nothing
    overwrites it, since variables cannot be assigned to one another. *)
Definition stored (shape : list Z) : list (list Z) := map (fun i => multi_index shape (Z.of_nat i)) (seq 0 (Z.to_nat (number_of_elements shape))).
(** sensitivities[v] = c (operator[] of the map). *)
Fixpoint sens_set (s : sens) (v : nat) (c : Q) : sens :=
  match s with [] => [(v, c)] | (w, d) :: tl => if Nat.eqb w v then (w, c) :: tl else (w, d) :: sens_set tl v c end.
Definition from_pairs (l : list (nat * Q)) : expr := mkExpr (fold_left (fun s p => sens_set s (fst p) (snd p)) l []) 0.
(** sum() (variable_proxy.h:349-361) and sum(index) (364-413). *)
Definition v_sum_all (base : nat) (shape : list Z) : expr := from_pairs (map (fun i => ((base + i)%nat, 1%Q)) (seq 0 (Z.to_nat (number_of_elements shape)))).
Definition v_sum (base : nat) (shape pat : list Z) : outcome expr :=
  bind (slice_of shape (stored shape) pat) (fun l => Ok (from_pairs (map (fun i => ((base + i)%nat, 1%Q)) l))).
(** dot(coefficients) (416-444) and dot(index, coefficients) (447-510). *)
Definition v_dot_all (base : nat) (shape : list Z) (coefs : list Q) : outcome expr :=
  if negb (Nat.eqb (List.length shape) 1) then Throw
  else if negb (Nat.eqb (Z.to_nat (number_of_elements shape)) (List.length coefs)) then Throw
  else Ok (from_pairs (combine (map (fun i => (base + i)%nat) (seq 0 (Z.to_nat (number_of_elements shape)))) coefs)).
Definition v_dot (base : nat) (shape pat : list Z) (coefs : list Q) : outcome expr :=
  bind (slice_dot shape (stored shape) pat coefs) (fun l => Ok (from_pairs (combine (map (fun i => (base + i)%nat) l) coefs))).
(** operator() (variable_proxy.h:575-607).  A flat index outside the vector is undefined. *)
Definition position (shape idx : list Z) : outcome nat :=
  if negb (Nat.eqb (List.length shape) (List.length idx)) then Throw
  else match flat_index shape idx with
       | Some f => if (0 <=? f) && (f <? number_of_elements shape) then Ok (Z.to_nat f) else UB
       | None => UB
       end.
Definition v_at (base : nat) (shape idx : list Z) : outcome nat := bind (position shape idx) (fun f => Ok (base + f)%nat).

(** ** Arrays of expressions.  An element is an expression and a shared_ptr to an
    extension with its index and its name (abstract_multi_array_element.h:12-36); the
    extensions are numbered. *)
Record extension := mkExt { xt_index : list Z; xt_name : string }.
Record array := mkArr { ar_name : string; ar_shape : list Z; ar_cells : list (expr * nat) }.
Record world := mkWorld { w_exts : list extension; w_arrays : list array }.

(** What a user does with arrays.  The last group keeps the extension of the element. *)
Inductive a_op :=
| ANew (name : string) (shape : list Z)                     (* create_expressions *)
| AExpr (a i : nat) (e : expr)                              (* array[i] = a computed expression: move assignment *)
| ACopy (a i b j : nat)                                     (* array[i] = other[j]: copy assignment *)
| AName (a i : nat) (s : string)                            (* array[i].set_name(s) *)
| AValue (a i : nat) (q : Q)                                (* array[i] = number *)
| ALike (a i : nat) (e : expr)                              (* array[i] = variable or scalar array *)
| AAdd (a i : nat) (e : expr) | ASub (a i : nat) (e : expr) (* array[i] += expression ... *)
| AAddV (a i : nat) (q : Q) | ASubV (a i : nat) (q : Q) | AMul (a i : nat) (q : Q) | ADiv (a i : nat) (q : Q).

Definition update {A} (n : nat) (x : A) (l : list A) : list A := firstn n l ++ match skipn n l with [] => [] | _ :: tl => x :: tl end.
Definition cell (w : world) (a i : nat) : option (expr * nat) := match nth_error (w_arrays w) a with Some r => nth_error (ar_cells r) i | None => None end.
Definition set_cell (w : world) (a i : nat) (c : expr * nat) : world :=
  match nth_error (w_arrays w) a with
  | Some r => mkWorld (w_exts w) (update a (mkArr (ar_name r) (ar_shape r) (update i c (ar_cells r))) (w_arrays w))
  | None => w
  end.
(** An operation on the expression of element a[i]; outside the array: undefined. *)
Definition on_cell (w : world) (a i : nat) (f : expr -> outcome expr) : outcome world :=
  match cell w a i with None => UB | Some (e, x) => bind (f e) (fun e' => Ok (set_cell w a i (e', x))) end.
Definition a_step (w : world) (o : a_op) : outcome world :=
  match o with
  (* setup_expressions (expression_proxy.h:56-80) *)
  | ANew name shape =>
      let n := Z.to_nat (number_of_elements shape) in
      Ok (mkWorld (w_exts w ++ map (fun idx => mkExt idx EmptyString) (stored shape))
                  (w_arrays w ++ [mkArr name shape (map (fun i => (mkExpr [] 0, (List.length (w_exts w) + i)%nat)) (seq 0 n))]))
  (* the default move assignment (expression.h:118-120) replaces m_extension by that of a
     new expression, initialised in abstract_multi_array_element.h:31-36 *)
  | AExpr a i e =>
      match cell w a i with
      | None => UB
      | Some _ => Ok (set_cell (mkWorld (w_exts w ++ [mkExt [0] EmptyString]) (w_arrays w)) a i (e, List.length (w_exts w)))
      end
  (* the default copy assignment (expression.h:113-114) *)
  | ACopy a i b j => match cell w a i, cell w b j with Some _, Some c => Ok (set_cell w a i c) | _, _ => UB end
  | AName a i s =>
      match cell w a i with
      | None => UB
      | Some (_, x) => match nth_error (w_exts w) x with
                       | Some t => Ok (mkWorld (update x (mkExt (xt_index t) s) (w_exts w)) (w_arrays w))
                       | None => UB
                       end
      end
  | AValue a i q => on_cell w a i (fun _ => Ok (e_assign_value q))
  | ALike a i e => on_cell w a i (fun _ => Ok (e_assign_like e))
  | AAdd a i e => on_cell w a i (fun f => Ok (e_add f e))
  | ASub a i e => on_cell w a i (fun f => Ok (e_sub f e))
  | AAddV a i q => on_cell w a i (fun f => Ok (e_add_value f q))
  | ASubV a i q => on_cell w a i (fun f => Ok (e_sub_value f q))
  | AMul a i q => on_cell w a i (fun f => Ok (e_mul f q))
  | ADiv a i q => on_cell w a i (fun f => match e_div f q with Some g => Ok g | None => UB end)
  end.
Fixpoint a_run (w : world) (os : list a_op) : outcome world := match os with [] => Ok w | o :: tl => bind (a_step w o) (fun w' => a_run w' tl) end.
Definition empty_world : world := mkWorld [] [].

(** The index and the name an element answers. *)
Definition cell_index (w : world) (c : expr * nat) : list Z := match nth_error (w_exts w) (snd c) with Some t => xt_index t | None => [] end.
Definition cell_name (w : world) (c : expr * nat) : string := match nth_error (w_exts w) (snd c) with Some t => xt_name t | None => EmptyString end.
Definition zero_expr : expr := mkExpr [] 0.
Definition pick (r : array) (l : list nat) : list expr := map (fun i => match nth_error (ar_cells r) i with Some c => fst c | None => zero_expr end) l.
(** sum() (expression_proxy.h:268-274), sum(index) (277-325), dot(coefficients) (328-351),
    dot(index, coefficients) (354-406). *)
Definition x_sum_all (r : array) : expr := fold_left e_add (map fst (ar_cells r)) zero_expr.
Definition x_sum (w : world) (r : array) (pat : list Z) : outcome expr :=
  bind (slice_of (ar_shape r) (map (cell_index w) (ar_cells r)) pat) (fun l => Ok (fold_left e_add (pick r l) zero_expr)).
Definition scaled (es : list expr) (coefs : list Q) : list expr := map (fun p => e_mul (fst p) (snd p)) (combine es coefs).
Definition x_dot_all (r : array) (coefs : list Q) : outcome expr :=
  if negb (Nat.eqb (List.length (ar_shape r)) 1) then Throw
  else if negb (Nat.eqb (List.length (ar_cells r)) (List.length coefs)) then Throw
  else Ok (fold_left e_add (scaled (map fst (ar_cells r)) coefs) zero_expr).
Definition x_dot (w : world) (r : array) (pat : list Z) (coefs : list Q) : outcome expr :=
  bind (slice_dot (ar_shape r) (map (cell_index w) (ar_cells r)) pat coefs) (fun l => Ok (fold_left e_add (scaled (pick r l) coefs) zero_expr)).
(** operator() (expression_proxy.h:617-651). *)
Definition x_at (r : array) (idx : list Z) : outcome expr :=
  bind (position (ar_shape r) idx) (fun f => match nth_error (ar_cells r) f with Some c => Ok (fst c) | None => UB end).

(** setup_unique_names for expressions (model.h:889-904): an element without a name gets
    the name of the array and the label of its position. *)
Fixpoint name_cells (exts : list extension) (name : string) (shape : list Z) (cells : list (expr * nat)) (i : nat) : list extension :=
  match cells with
  | [] => exts
  | (_, x) :: tl =>
      let exts' := match nth_error exts x with
                   | Some t => match xt_name t with
                               | EmptyString => update x (mkExt (xt_index t) (append name (indices_label shape (Z.of_nat i)))) exts
                               | _ => exts
                               end
                   | None => exts
                   end in
      name_cells exts' name shape tl (S i)
  end.
Definition name_all (w : world) : world := mkWorld (fold_left (fun exts r => name_cells exts (ar_name r) (ar_shape r) (ar_cells r) 0) (w_arrays w) (w_exts w)) (w_arrays w).
