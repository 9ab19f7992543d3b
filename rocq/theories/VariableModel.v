(** The variable's state machine (model_component/variable.h) and index
    arithmetic of multi-dimensional arrays (multi_array/abstract_multi_array.h).
    T_Variable is [int] without overflow. *)
From Coq Require Import List ZArith Bool.
Import ListNotations.
Local Open Scope Z_scope.

(** constant.h: INT_HALF_MIN, INT_HALF_MAX. *)
Definition INT_HALF_MIN : Z := -1073741823.
Definition INT_HALF_MAX : Z := 1073741823.

Inductive vsense := VBinary | VInteger | VSelection | VDependentBinary | VDependentInteger.

(** The members used below (variable.h:30-75). *)
Record var := mkVar {
  va_value : Z; va_lower : Z; va_upper : Z; va_has_bounds : bool; va_fixed : bool;
  va_sense : vsense; va_lower_margin : bool; va_upper_margin : bool }.

(** initialize (variable.h:121-157). *)
Definition v_init : var := mkVar 0 INT_HALF_MIN INT_HALF_MAX false false VInteger true true.

(** update_margin (variable.h:400-403). *)
Definition v_margin (v : var) : var :=
  mkVar (va_value v) (va_lower v) (va_upper v) (va_has_bounds v) (va_fixed v) (va_sense v)
        (va_lower v <? va_value v) (va_value v <? va_upper v).
Definition v_with_value (v : var) (a : Z) : var :=
  mkVar a (va_lower v) (va_upper v) (va_has_bounds v) (va_fixed v) (va_sense v)
        (va_lower_margin v) (va_upper_margin v).
Definition v_with_fixed (v : var) (b : bool) : var :=
  mkVar (va_value v) (va_lower v) (va_upper v) (va_has_bounds v) b (va_sense v)
        (va_lower_margin v) (va_upper_margin v).
Definition v_with_sense (v : var) (s : vsense) : var :=
  mkVar (va_value v) (va_lower v) (va_upper v) (va_has_bounds v) (va_fixed v) s
        (va_lower_margin v) (va_upper_margin v).

(** setup_sense_binary_or_integer (variable.h:421-429). *)
Definition binary_or_integer (lo hi : Z) : vsense :=
  if ((lo =? 0) && (hi =? 1)) || ((lo =? 0) && (hi =? 0)) || ((lo =? 1) && (hi =? 1))
  then VBinary else VInteger.

(** Public operations; [None] is the thrown exception. *)
Inductive v_op :=
| VSetForce (a : Z)          (* set_value_force, variable.h:160-163 *)
| VSetIfMutable (a : Z)      (* set_value_if_mutable, 166-171 *)
| VSet (a : Z)               (* set_value, 179-187 *)
| VSetBound (lo hi : Z)      (* set_bound, 211-229 *)
| VResetBound                (* reset_bound, 232-239 *)
| VFix | VUnfix              (* fix, unfix, 315-322 *)
| VFixBy (a : Z)             (* fix_by, 330-334 *)
| VSelectionPtr              (* set_selection_ptr, 473-477 *)
| VSetupSense                (* setup_sense_binary_or_integer, 421-429 *)
| VDependent                 (* set_dependent_expression_ptr, 582-592 *)
| VResetDependent            (* reset_dependent_expression_ptr, 595-598 *)
| VUpdate (a : Z).           (* update, 490-492; a is the expression's value *)

Definition v_step (v : var) (o : v_op) : option var :=
  match o with
  | VSetForce a => Some (v_margin (v_with_value v a))
  | VSetIfMutable a => Some (if va_fixed v then v else v_margin (v_with_value v a))
  | VSet a => if negb (va_value v =? a) && va_fixed v then None else Some (v_margin (v_with_value v a))
  | VSetBound lo hi =>
      if hi <? lo then None
      else let a := Z.max (Z.min (va_value v) hi) lo in
           Some (v_margin (mkVar a lo hi true (va_fixed v) (binary_or_integer lo hi) false false))
  | VResetBound => Some (v_margin (mkVar (va_value v) INT_HALF_MIN INT_HALF_MAX false (va_fixed v) VInteger false false))
  | VFix => Some (v_with_fixed v true)
  | VUnfix => Some (v_with_fixed v false)
  | VFixBy a => Some (v_margin (v_with_fixed (v_with_value v a) true))
  | VSelectionPtr => Some (v_with_sense v VSelection)
  | VSetupSense | VResetDependent => Some (v_with_sense v (binary_or_integer (va_lower v) (va_upper v)))
  | VDependent => Some (v_with_sense v
      (match binary_or_integer (va_lower v) (va_upper v) with
       | VBinary => VDependentBinary | _ => VDependentInteger end))
  | VUpdate a => Some (v_with_value v a)
  end.
(** A caller that catches the exception goes on with the unchanged variable. *)
Definition v_run (v : var) (os : list v_op) : var :=
  fold_left (fun v o => match v_step v o with Some v' => v' | None => v end) os v.

(** ** Index arithmetic *)

(** std::partial_sum with multiplies. *)
Fixpoint partial_products (acc : Z) (l : list Z) : list Z :=
  match l with [] => [] | a :: tl => (acc * a) :: partial_products (acc * a) tl end.

(** compute_strides (abstract_multi_array.h:25-32): the last stride is 1, the
    others are partial products of the reversed shape without its last element. *)
Definition strides (shape : list Z) : list Z :=
  rev (1 :: partial_products 1 (removelast (rev shape))).

(** flat_index (abstract_multi_array.h:74-83): inner_product runs over the index
    vector; a longer index vector reads past the strides (None). *)
Fixpoint inner_product (idx st : list Z) (acc : Z) : option Z :=
  match idx, st with
  | [], _ => Some acc
  | i :: idx', s :: st' => inner_product idx' st' (acc + i * s)
  | _ :: _, [] => None
  end.
Definition flat_index (shape idx : list Z) : option Z := inner_product idx (strides shape) 0.

(** multi_dimensional_index (abstract_multi_array.h:86-100), int division. *)
Fixpoint unflatten (st : list Z) (remain : Z) : list Z :=
  match st with [] => [] | s :: st' => (Z.quot remain s) :: unflatten st' (Z.rem remain s) end.
Definition multi_index (shape : list Z) (flat : Z) : list Z := unflatten (strides shape) flat.

(** number_of_elements (abstract_multi_array.h:63-64). *)
Definition number_of_elements (shape : list Z) : Z := fold_left Z.mul shape 1.
