(** Model of the move generators (neighborhood/*_move_generator.h), of
    neighborhood/move.h and of Neighborhood::update_moves (neighborhood.h).
    Parallel loops write disjoint elements and are modelled sequentially.
    Conversions from double to int truncate; values out of the range of int
    (undefined behaviour) are not modelled. *)
From Coq Require Import List ZArith NArith QArith Qround Bool.
From Verif Require Import ExprModel ConstraintModel VariableModel TypeModel PresolveModel.
Import ListNotations.
Local Open Scope Z_scope.

(** extract_mutable_variable_ptrs (abstract_move_generator.h:119-131). *)
Definition mutable_vars (vs : vars) (l : list nat) : list nat := filter (fun v => negb (va_fixed (vs v))) l.
(** extract_effective_constraint_ptrs (134-162). *)
Definition is_selection (s : vsense) : bool := match s with VSelection => true | _ => false end.
Definition effective (vs : vars) (c : constr) : bool :=
  ct_enabled c && negb (existsb (fun p => va_fixed (vs (fst p)) || is_selection (va_sense (vs (fst p)))) (ex_sens (ct_expr c))).

(** BinomialConstraint and convert_to_binomial_constraints (165-199); [None] is
    std::logic_error.  [addr]: the addresses of the variables. *)
Record binomial := mkBin { bn_first : nat; bn_second : nat; bn_a1 : Q; bn_a2 : Q; bn_const : Q; bn_sense : csense }.
Definition to_binomial (addr : nat -> N) (c : constr) : option binomial :=
  match ex_sens (ct_expr c) with
  | [(u, a); (v, b)] =>
      Some (if (addr v <? addr u)%N then mkBin v u b a (ex_const (ct_expr c)) (ct_sense c)
            else mkBin u v a b (ex_const (ct_expr c)) (ct_sense c))
  | _ => None
  end.

(** A division whose divisor may be zero ([None]: infinity or NaN is converted to int). *)
Definition qdiv (a b : Q) : option Q := if Qeq_bool b 0 then None else Some (a / b)%Q.

(** The value that completes an aggregation (aggregation_move_generator.h:112-121):
    floor((-constant - a * target) / b + 0.5). *)
Definition aggregate (k a b : Q) (target : Z) : option Z :=
  match qdiv (- k - a * inject_Z target)%Q b with
  | None => None
  | Some q => Some (Qfloor (q + (1 # 2))%Q)
  end.
(** The value that completes a variable bound (variable_bound_move_generator.h:113-134). *)
Definition complete_bound (s : csense) (k a b : Q) (target : Z) : option Z :=
  match qdiv (- k - a * inject_Z target)%Q b with
  | None => None
  | Some q => Some (if (ltq 0 b && csense_eqb s Less) || (ltq b 0 && csense_eqb s Greater) then Qfloor q else Qceiling q)
  end.
Definition both {A B} (a : option A) (b : option B) : option (A * B) :=
  match a, b with Some x, Some y => Some (x, y) | _, _ => None end.

(** The moves of one constraint of type [t] with key variable [key], from the
    current values [val]: exclusive_or_move_generator.h:49-95,
    exclusive_nor_move_generator.h:49-95, inverted_integers_move_generator.h:105-122,
    balanced_integers_move_generator.h:104-121, constant_sum_integers_move_generator.h:110-129,
    constant_difference_integers_move_generator.h:110-129,
    constant_ratio_integers_move_generator.h:51-75,128-147, aggregation_move_generator.h:106-167,
    precedence_move_generator.h:105-124, variable_bound_move_generator.h:107-231,
    soft_selection_move_generator.h:36-84, trinomial_exclusive_nor_move_generator.h:49-95. *)
Definition special_moves (addr : nat -> N) (t : ctype) (key : option nat) (c : constr) (val : nat -> Z)
  : option (list alterations) :=
  match t with
  | TrinomialExclusiveNOR =>
      match ex_sens (ct_expr c) with
      | [(u, _); (v, _); (w, _)] => Some [[(u, 0); (v, 0); (w, 0)]; [(u, 1); (v, 1); (w, 1)]]
      | _ => None
      end
  | SoftSelection =>
      match key with
      | None => None
      | Some k => Some (flat_map (fun p => if Nat.eqb (fst p) k then [] else [[(fst p, 0); (k, 0)]; [(fst p, 1); (k, 1)]])
                                 (ex_sens (ct_expr c)))
      end
  | _ =>
      match to_binomial addr c with
      | None => None
      | Some b =>
          let u := bn_first b in let v := bn_second b in
          let up := val u + 1 in let dn := val u - 1 in
          let up2 := val v + 1 in let dn2 := val v - 1 in
          let a1 := bn_a1 b in let a2 := bn_a2 b in let k := bn_const b in
          match t with
          | ExclusiveOR => Some [[(u, 0); (v, 1)]; [(u, 1); (v, 0)]]
          | ExclusiveNOR => Some [[(u, 0); (v, 0)]; [(u, 1); (v, 1)]]
          | InvertedIntegers => Some [[(u, up); (v, - up)]; [(u, dn); (v, - dn)]]
          | BalancedIntegers => Some [[(u, up); (v, up)]; [(u, dn); (v, dn)]]
          | ConstantSumIntegers =>
              Some [[(u, up); (v, Qtrunc (- k - inject_Z up)%Q)]; [(u, dn); (v, Qtrunc (- k - inject_Z dn)%Q)]]
          | ConstantDifferenceIntegers =>
              Some [[(u, up); (v, Qtrunc (k + inject_Z up)%Q)]; [(u, dn); (v, Qtrunc (k + inject_Z dn)%Q)]]
          | ConstantRatioIntegers =>
              if (match key with Some w => Nat.eqb w u | None => false end) then
                match qdiv (- a2)%Q a1 with
                | None => None
                | Some r => Some [[(v, up); (u, Qtrunc (inject_Z up * r)%Q)]; [(v, dn); (u, Qtrunc (inject_Z dn * r)%Q)]]
                end
              else
                match qdiv (- a1)%Q a2 with
                | None => None
                | Some r => Some [[(u, up); (v, Qtrunc (inject_Z up * r)%Q)]; [(u, dn); (v, Qtrunc (inject_Z dn * r)%Q)]]
                end
          | Aggregation =>
              match both (both (aggregate k a1 a2 up) (aggregate k a1 a2 dn))
                         (both (aggregate k a2 a1 up2) (aggregate k a2 a1 dn2)) with
              | Some ((p, q), (r, s)) => Some [[(u, up); (v, p)]; [(u, dn); (v, q)]; [(u, r); (v, up2)]; [(u, s); (v, dn2)]]
              | None => None
              end
          | Precedence => Some [[(u, up); (v, up2)]; [(u, dn); (v, dn2)]]
          | VariableBound =>
              let cb := complete_bound (bn_sense b) in
              match both (both (cb k a1 a2 up) (cb k a1 a2 dn)) (both (cb k a2 a1 up2) (cb k a2 a1 dn2)) with
              | Some ((p, q), (r, s)) => Some [[(u, up); (v, p)]; [(u, dn); (v, q)]; [(u, r); (v, up2)]; [(u, s); (v, dn2)]]
              | None => None
              end
          | _ => None
          end
      end
  end.

(** What update_moves is told to accept, and the improvability flags of the
    variables. *)
Record accept := mkAccept { ac_all : bool; ac_obj : bool; ac_feas : bool; im_obj : nat -> bool; im_feas : nat -> bool }.

(** move.h:105-156. *)
Definition has_fixed (vs : vars) (m : alterations) : bool := existsb (fun a => va_fixed (vs (fst a))) m.
Definition has_selection (vs : vars) (m : alterations) : bool := existsb (fun a => is_selection (va_sense (vs (fst a)))) m.
Definition has_bound_violation (vs : vars) (m : alterations) : bool :=
  existsb (fun a => (snd a <? va_lower (vs (fst a))) || (va_upper (vs (fst a)) <? snd a)) m.
Definition has_same (vs : vars) (m : alterations) : bool := existsb (fun a => va_value (vs (fst a)) =? snd a) m.
Definition has_flagged (f : nat -> bool) (m : alterations) : bool := existsb (fun a => f (fst a)) m.
(** move.h:158-169. *)
Fixpoint has_duplicate (m : alterations) : bool :=
  match m with [] => false | a :: tl => existsb (fun b => Nat.eqb (fst a) (fst b)) tl || has_duplicate tl end.

(** The tests of the flag loops differ by generator; the fixed test is common. *)
Record rule := mkRule { ru_available : bool; ru_selection : bool; ru_bounds : bool; ru_same : bool }.
(** exclusive_or:107-152, exclusive_nor:108-153, trinomial_exclusive_nor:120-165 test
    availability, bounds and equality; soft_selection:110-145 availability and
    equality; the other constraint-based generators availability and bounds
    (e.g. balanced_integers:129-162). *)
Definition rule_of (t : ctype) : rule :=
  match t with
  | ExclusiveOR | ExclusiveNOR | TrinomialExclusiveNOR => mkRule true false true true
  | SoftSelection => mkRule true false false true
  | _ => mkRule true false true false
  end.
Definition rule_chain : rule := mkRule true false false true.     (* chain_move_generator.h:44-82 *)
Definition rule_two_flip : rule := mkRule true true false true.   (* two_flip_move_generator.h:100-140 *)
Definition rule_user : rule := mkRule false true true false.      (* user_defined_move_generator.h:62-95 *)

(** The flag written for one move. *)
Definition move_flag (r : rule) (vs : vars) (ac : accept) (available : bool) (m : alterations) : Z :=
  if ru_available r && negb available then 0
  else if ru_selection r && has_selection vs m then 0
  else if has_fixed vs m then 0
  else if ru_bounds r && has_bound_violation vs m then 0
  else if ru_same r && has_same vs m then 0
  else if ac_all ac then 1
  else if ac_obj ac && has_flagged (im_obj ac) m then 1
  else if ac_feas ac && has_flagged (im_feas ac) m then 1
  else 0.

(** binary_move_generator.h:79-146 for one variable. *)
Definition binary_move (vs : vars) (ac : accept) (v : nat) : alterations * Z :=
  ([(v, 1 - va_value (vs v))],
   if ac_all ac then 1
   else if ac_obj ac && negb (ac_feas ac) then (if im_obj ac v then 1 else 0)
   else if negb (ac_obj ac) && ac_feas ac then (if im_feas ac v then 1 else 0)
   else if im_obj ac v || im_feas ac v then 1 else 0).

(** integer_move_generator.h:93-150 for one variable.  A target that is not
    recomputed keeps an older value in the code; its flag is 0. *)
Definition DELTA_MAX : Z := 10000.
Definition integer_moves (vs : vars) (ac : accept) (v : nat) : list (alterations * Z) :=
  let x := va_value (vs v) in
  let lo := va_lower (vs v) in
  let hi := va_upper (vs v) in
  let ok := ac_all ac || (ac_obj ac && im_obj ac v) || (ac_feas ac && im_feas ac v) in
  let flag b := if ok && negb b then 1 else 0 in
  [ ([(v, x + 1)], flag (x =? hi));
    ([(v, x - 1)], flag (x =? lo));
    ([(v, x + Z.min DELTA_MAX (Z.quot (hi - x) 2))], flag ((hi - 4 <=? x) || (hi =? INT_HALF_MAX)));
    ([(v, x + Z.max (- DELTA_MAX) (Z.quot (lo - x) 2))], flag ((x <=? lo + 4) || (lo =? INT_HALF_MIN))) ].

(** The generators with the data their setup() stored; [avail i]: is_available of
    the i-th move.  The selection generator is modelled in SelectionModel. *)
Inductive gen :=
| GBinary (l : list nat)
| GInteger (l : list nat)
| GSpecial (t : ctype) (items : list (constr * option nat)) (avail : nat -> bool)
| GChain (ms : list alterations) (avail : nat -> bool)
| GTwoFlip (pairs : list (nat * nat)) (avail : nat -> bool)
| GUser (ms : list alterations).

(** setup() of the generators: binary_move_generator.h:25-60,
    integer_move_generator.h:25-66, and the special ones. *)
Definition setup_binary (vs : vars) (l : list nat) : gen := GBinary (mutable_vars vs l).
Definition setup_integer (vs : vars) (l : list nat) : gen := GInteger (mutable_vars vs l).
Definition setup_special (vs : vars) (t : ctype) (items : list (constr * option nat)) : gen :=
  GSpecial t (filter (fun p => effective vs (fst p)) items) (fun _ => true).
(** two_flip_move_generator.h:39-76. *)
Definition two_flip_moves (p : nat * nat) : list alterations :=
  [[(fst p, 1); (snd p, 0)]; [(fst p, 0); (snd p, 1)]].

Fixpoint concat_options {A} (l : list (option (list A))) : option (list A) :=
  match l with
  | [] => Some []
  | None :: _ => None
  | Some a :: tl => match concat_options tl with Some r => Some (a ++ r) | None => None end
  end.
Definition flag_all (r : rule) (vs : vars) (ac : accept) (avail : nat -> bool) (ms : list alterations) : list (alterations * Z) :=
  map (fun p => (snd p, move_flag r vs ac (avail (fst p)) (snd p))) (combine (seq 0 (length ms)) ms).

(** update_moves of one generator (abstract_move_generator.h:44-57): the moves and
    their flags.  [None]: exception or division by zero. *)
Definition gen_update (addr : nat -> N) (vs : vars) (ac : accept) (g : gen) : option (list (alterations * Z)) :=
  match g with
  | GBinary l => Some (map (binary_move vs ac) l)
  | GInteger l => Some (flat_map (integer_moves vs ac) l)
  | GSpecial t items avail =>
      option_map (flag_all (rule_of t) vs ac avail)
        (concat_options (map (fun p => special_moves addr t (snd p) (fst p) (fun v => va_value (vs v))) items))
  | GChain ms avail => Some (flag_all rule_chain vs ac avail ms)
  | GTwoFlip pairs avail => Some (flag_all rule_two_flip vs ac avail (flat_map two_flip_moves pairs))
  | GUser ms => Some (flag_all rule_user vs ac (fun _ => true) ms)
  end.

(** * Chain moves *)

(** ChainMoveGenerator's lists (chain_move_generator.h:86-198).  shuffle is an
    arbitrary reordering given by [f]; sort_moves likewise. *)
Record chain := mkChain { ch_moves : list alterations; ch_flags : list Z }.
Definition resize {A} (d : A) (n : nat) (l : list A) : list A := firstn n (l ++ repeat d (n - length l)).
Inductive chain_op :=
| ChRegister (m : alterations)     (* register_move *)
| ChClear                          (* clear_moves *)
| ChDeduplicate (same : alterations -> alterations -> bool)  (* deduplicate_moves *)
| ChReorder (f : list alterations -> list alterations)       (* sort_moves, shuffle_moves *)
| ChReduce (n : nat).              (* reduce_moves *)
(** std::unique: drops an element equal to the last one kept. *)
Fixpoint unique_from {A} (same : A -> A -> bool) (last : A) (l : list A) : list A :=
  match l with
  | [] => []
  | b :: tl => if same last b then unique_from same last tl else b :: unique_from same b tl
  end.
Definition unique {A} (same : A -> A -> bool) (l : list A) : list A :=
  match l with [] => [] | a :: tl => a :: unique_from same a tl end.
Definition chain_step (s : chain) (o : chain_op) : chain :=
  match o with
  | ChRegister m => let ms := ch_moves s ++ [m] in mkChain ms (resize 0 (length ms) (ch_flags s))
  | ChClear => mkChain [] []
  | ChDeduplicate same => let ms := unique same (ch_moves s) in mkChain ms (resize 0 (length ms) (ch_flags s))
  | ChReorder f => mkChain (f (ch_moves s)) (ch_flags s)
  | ChReduce n =>
      if (length (ch_moves s) <=? n)%nat then s
      else mkChain (firstn n (ch_moves s)) (resize 0 n (ch_flags s))
  end.

(** The moves registered after an iteration (tabu_search_core.h:533-564).
    [linkable]: the senses and values allow a chain; [overlap]: overlap_rate of
    the sum exceeds the threshold. *)
Definition complement (m : alterations) : alterations := map (fun a => (fst a, 1 - snd a)) m.
Definition front_addr (addr : nat -> N) (m : alterations) : N := match m with [] => 0%N | a :: _ => addr (fst a) end.
Definition chain_moves (addr : nat -> N) (linkable : bool) (overlap : alterations -> bool) (previous current : alterations)
  : list alterations :=
  if linkable then
    let m := if (front_addr addr previous <? front_addr addr current)%N then previous ++ current else current ++ previous in
    if overlap m && negb (has_duplicate m) then [m; complement m] else []
  else [].

(** * The list of candidate moves (neighborhood.h:121-161) *)

(** A generator after its own update: its moves and flags (short). *)
Record gview (M : Type) := mkGview { gv_enabled : bool; gv_moves : list M; gv_flags : list Z }.
Arguments mkGview {M}. Arguments gv_enabled {M}. Arguments gv_moves {M}. Arguments gv_flags {M}.

(** std::accumulate over the flags of the enabled generators (131-135). *)
Definition candidates {M} (gs : list (gview M)) : Z :=
  fold_left (fun n g => if gv_enabled g then n + fold_left Z.add (gv_flags g) 0 else n) gs 0.
(** move_ptrs[i] = p; [None]: the write is out of range. *)
Definition array_write {M} (l : list (option M)) (i : nat) (p : M) : option (list (option M)) :=
  if (i <? length l)%nat then Some (firstn i l ++ Some p :: skipn (S i) l) else None.
(** The inner loop (151-155); [None]: out of range. *)
Definition fill_one {M} (flags : list Z) (st : option (list (option M) * nat)) (p : nat * M) : option (list (option M) * nat) :=
  match st with
  | None => None
  | Some (arr, index) =>
      match nth_error flags (fst p) with
      | None => None
      | Some f => if f =? 0 then Some (arr, index)
                  else match array_write arr index (snd p) with
                       | None => None
                       | Some arr' => Some (arr', S index)
                       end
      end
  end.
Definition fill_gen {M} (st : option (list (option M) * nat)) (g : gview M) : option (list (option M) * nat) :=
  if gv_enabled g then fold_left (fill_one (gv_flags g)) (combine (seq 0 (length (gv_moves g))) (gv_moves g)) st else st.
(** Neighborhood::update_moves after the generators' updates: the new m_move_ptrs
    ([old]: its previous content; a null pointer is [None]) and
    m_number_of_updated_moves. *)
Definition collect {M} (old : list (option M)) (gs : list (gview M)) : option (list (option M) * Z) :=
  let arr := resize None (Z.to_nat (candidates gs)) old in
  match fold_left fill_gen gs (Some (arr, 0%nat)) with
  | None => None
  | Some (arr', _) =>
      Some (arr', fold_left (fun n g => if gv_enabled g then n + Z.of_nat (length (gv_moves g)) else n) gs 0)
  end.
