(** Model of model_component/expression.h, expression_binary_operator.h and of
    the expression part of variable.h. *)
From Coq Require Import List ZArith NArith QArith Bool.
From Verif Require Import HashMapModel.
Import ListNotations.
Local Open Scope Q_scope.

(** m_sensitivities (expression.h:61-62): unordered_map from variable pointer to
    coefficient.  Variables are identified by [nat]; the map is an association
    list (its order is the iteration order). *)
Definition sens := list (nat * Q).

(** Expression (expression.h:53-81), only the two members that define it. *)
Record expr := mkExpr { ex_sens : sens; ex_const : Q }.

(** unordered_map::find/operator[]/at; [None]: absent. *)
Fixpoint sens_find (s : sens) (v : nat) : option Q :=
  match s with
  | [] => None
  | (w, c) :: tl => if Nat.eqb w v then Some c else sens_find tl v
  end.

(** Coefficient of a variable, 0 when absent.  This is what the lookup table
    m_fixed_sensitivities answers (proved for the table itself in C03/C18). *)
Definition coef (s : sens) (v : nat) : Q := match sens_find s v with Some c => c | None => 0 end.

(** m_sensitivities[v] += c, or insertion of c (expression.h:537-541). *)
Fixpoint sens_add (s : sens) (v : nat) (c : Q) : sens :=
  match s with
  | [] => [(v, c)]
  | (w, d) :: tl => if Nat.eqb w v then (w, d + c) :: tl else (w, d) :: sens_add tl v c
  end.

(** unordered_map::erase (expression.h:347-349). *)
Fixpoint sens_erase (s : sens) (v : nat) : sens :=
  match s with
  | [] => []
  | (w, d) :: tl => if Nat.eqb w v then tl else (w, d) :: sens_erase tl v
  end.

(** multiplication / division of every coefficient (expression.h:573-591). *)
Definition sens_map (f : Q -> Q) (s : sens) : sens := map (fun p => (fst p, f (snd p))) s.

(** Variable::to_expression (variable.h:723-730). *)
Definition e_var (v : nat) : expr := mkExpr [(v, 1)] 0.

(** operator+=(value), operator-=(value) (expression.h:519-523,550-554). *)
Definition e_add_value (e : expr) (a : Q) : expr := mkExpr (ex_sens e) (ex_const e + a).
Definition e_sub_value (e : expr) (a : Q) : expr := mkExpr (ex_sens e) (ex_const e - a).

(** operator+=(Expression) (expression.h:534-546). *)
Definition e_add (e f : expr) : expr :=
  mkExpr (fold_left (fun s p => sens_add s (fst p) (snd p)) (ex_sens f) (ex_sens e))
         (ex_const e + ex_const f).

(** unary operator- (expression.h:479-488). *)
Definition e_neg (e : expr) : expr := mkExpr (sens_map (fun c => c * -1) (ex_sens e)) (ex_const e * -1).

(** operator-=(Expression) (expression.h:565-569). *)
Definition e_sub (e f : expr) : expr := e_add e (e_neg f).

(** operator*=(value) (expression.h:573-580). *)
Definition e_mul (e : expr) (a : Q) : expr := mkExpr (sens_map (fun c => c * a) (ex_sens e)) (ex_const e * a).

(** operator/=(value) (expression.h:584-591); division by zero (infinities or
    NaN in the code) is the outcome [None]. *)
Definition e_div (e : expr) (a : Q) : option expr :=
  if Qeq_bool a 0 then None
  else Some (mkExpr (sens_map (fun c => c / a) (ex_sens e)) (ex_const e / a)).

(** value - expression (expression_binary_operator.h:203-209). *)
Definition e_value_sub (a : Q) (e : expr) : expr := e_add_value (e_neg e) a.

(** Operator trees over variables and numbers as the user writes them, one
    constructor per overload of expression_binary_operator.h:23-249 and
    expression.h:474-488. *)
Inductive formula :=
| FVar (v : nat)
| FPos (f : formula) | FNeg (f : formula)
| FAdd (f g : formula) | FSub (f g : formula)
| FAddNum (f : formula) (a : Q) | FNumAdd (a : Q) (f : formula)
| FSubNum (f : formula) (a : Q) | FNumSub (a : Q) (f : formula)
| FMulNum (f : formula) (a : Q) | FNumMul (a : Q) (f : formula)
| FDivNum (f : formula) (a : Q).

(** The expression object the overloads build: each copies its left operand and
    applies the compound assignment (expression_binary_operator.h:23-249). *)
Fixpoint build (f : formula) : option expr :=
  match f with
  | FVar v => Some (e_var v)
  | FPos f => build f
  | FNeg f => option_map e_neg (build f)
  | FAdd f g => match build f, build g with Some e, Some h => Some (e_add e h) | _, _ => None end
  | FSub f g => match build f, build g with Some e, Some h => Some (e_sub e h) | _, _ => None end
  | FAddNum f a | FNumAdd a f => option_map (fun e => e_add_value e a) (build f)
  | FSubNum f a => option_map (fun e => e_sub_value e a) (build f)
  | FNumSub a f => option_map (fun e => e_value_sub a e) (build f)
  | FMulNum f a | FNumMul a f => option_map (fun e => e_mul e a) (build f)
  | FDivNum f a => match build f with Some e => e_div e a | None => None end
  end.

(** operator=(value) and operator=(ExpressionLike) (expression.h:492-506): the
    latter sets the constant to 0. *)
Definition e_assign_value (a : Q) : expr := mkExpr [] a.
Definition e_assign_like (e : expr) : expr := mkExpr (ex_sens e) 0.

(** evaluate() (expression.h:271-278); [x] gives the variables' values. *)
Definition e_eval (e : expr) (x : nat -> Z) : Q :=
  fold_left (fun acc p => acc + inject_Z (x (fst p)) * snd p) (ex_sens e) (ex_const e).

(** solve (expression.h:334-344).  [None]: at() throws (absent variable) or the
    coefficient is zero (division by zero). *)
Definition e_solve (e : expr) (v : nat) : option expr :=
  match sens_find (ex_sens e) v with
  | None => None
  | Some c =>
      if Qeq_bool c 0 then None
      else let r := 1 / c in
           Some (mkExpr (sens_map (fun d => d * - r) (sens_erase (ex_sens e) v)) (ex_const e * - r))
  end.

(** substitute (expression.h:352-357): operator[] inserts 0 for an absent
    variable before the multiplication. *)
Definition e_substitute (e : expr) (v : nat) (f : expr) : expr :=
  let s := match sens_find (ex_sens e) v with Some _ => ex_sens e | None => ex_sens e ++ [(v, 0)] end in
  let c := match sens_find s v with Some c => c | None => 0 end in
  let r := e_add (mkExpr s (ex_const e)) (e_mul f c) in
  mkExpr (sens_erase (ex_sens r) v) (ex_const r).

(** What the bound computations read from a variable (variable.h). *)
Record vinfo := mkVinfo { vi_lower : Z; vi_upper : Z; vi_fixed : bool; vi_value : Z }.

(** lower_bound / upper_bound (expression.h:360-391). *)
Definition e_lower (e : expr) (vi : nat -> vinfo) : Q :=
  fold_left (fun acc p =>
    let i := vi (fst p) in
    if vi_fixed i then acc + snd p * inject_Z (vi_value i)
    else acc + snd p * inject_Z (if Qlt_le_dec 0 (snd p) then vi_lower i else vi_upper i))
    (ex_sens e) (ex_const e).
Definition e_upper (e : expr) (vi : nat -> vinfo) : Q :=
  fold_left (fun acc p =>
    let i := vi (fst p) in
    if vi_fixed i then acc + snd p * inject_Z (vi_value i)
    else acc + snd p * inject_Z (if Qlt_le_dec 0 (snd p) then vi_upper i else vi_lower i))
    (ex_sens e) (ex_const e).

(** Conversion of a double to int: truncation towards zero. *)
Definition Qtrunc (q : Q) : Z := Z.quot (Qnum q) (Zpos (Qden q)).

(** fixed_term_value (expression.h:394-403): the accumulator is an int, every
    += truncates.  int overflow is not modelled. *)
Definition e_fixed_term (e : expr) (vi : nat -> vinfo) : Z :=
  fold_left (fun acc p =>
    let i := vi (fst p) in
    if vi_fixed i then Qtrunc (inject_Z acc + snd p * inject_Z (vi_value i)) else acc)
    (ex_sens e) 0%Z.

(** A move's alterations (neighborhood/move.h:40-41). *)
Definition alterations := list (nat * Z).

(** Expression as it is during the search: m_value and the hash table
    m_fixed_sensitivities (expression.h:57,76-78).  [addr] is the address of
    each variable. *)
Record expr_state := mkEs { es_expr : expr; es_table : hmap; es_value : Q }.

(** setup_fixed_sensitivities (expression.h:230-239). *)
Definition es_setup (addr : nat -> N) (key_size : N) (e : expr) : option expr_state :=
  match hm_setup (map (fun p => (addr (fst p), snd p)) (ex_sens e)) key_size with
  | None => None
  | Some h => Some (mkEs e h 0)
  end.

(** update() (expression.h:293-295). *)
Definition es_update (s : expr_state) (x : nat -> Z) : expr_state :=
  mkEs (es_expr s) (es_table s) (e_eval (es_expr s) x).

(** evaluate(move) (expression.h:281-290). *)
Fixpoint es_eval_loop (addr : nat -> N) (s : expr_state) (x : nat -> Z) (m : alterations) (acc : Q) : option Q :=
  match m with
  | [] => Some acc
  | (v, n) :: tl =>
      match hm_at (es_table s) (addr v) with
      | None => None
      | Some c => es_eval_loop addr s x tl (acc + c * inject_Z (n - x v))
      end
  end.
Definition es_eval_move (addr : nat -> N) (s : expr_state) (x : nat -> Z) (m : alterations) : option Q :=
  es_eval_loop addr s x m (es_value s).

(** The same, with the table lookup replaced by its meaning [coef]; [cached] is
    m_value (expression.h:281-290). *)
Definition e_eval_move (e : expr) (cached : Q) (x : nat -> Z) (m : alterations) : Q :=
  fold_left (fun acc a => acc + coef (ex_sens e) (fst a) * inject_Z (snd a - x (fst a))) m cached.

(** update(move) (expression.h:298-301). *)
Definition es_update_move (addr : nat -> N) (s : expr_state) (x : nat -> Z) (m : alterations) : option expr_state :=
  match es_eval_move addr s x m with
  | None => None
  | Some q => Some (mkEs (es_expr s) (es_table s) q)
  end.

(** Writing the alterations to the variables in order (model.h:2448-2453). *)
Definition set_val (x : nat -> Z) (v : nat) (n : Z) : nat -> Z := fun w => if Nat.eqb w v then n else x w.
Definition apply_move (x : nat -> Z) (m : alterations) : nat -> Z :=
  fold_left (fun y a => set_val y (fst a) (snd a)) m x.

(** The search's order of events for one expression: expressions are updated
    before the variables are written (model.h:2417-2460). *)
Fixpoint es_run (addr : nat -> N) (s : expr_state) (x : nat -> Z) (ms : list alterations)
  : option (expr_state * (nat -> Z)) :=
  match ms with
  | [] => Some (s, x)
  | m :: tl =>
      match es_update_move addr s x m with
      | None => None
      | Some s' => es_run addr s' (apply_move x m) tl
      end
  end.
