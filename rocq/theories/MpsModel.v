(** Reading MPS files (mps/mps.h), building the model from them
    (Model::import_mps, model/model.h:3459-3567) and writing them
    (Model::write_mps, model.h:3570-3704).  A file is its list of lines; opening and
    closing it is not modelled.  std::unordered_map<std::string, _> is an
    association list with one entry per key.  The continuous bounds, which import_mps
    does not use, the counters and the warnings are left out. *)
From Coq Require Import List ZArith QArith Qabs Bool String Ascii.
From Verif Require Import ExprModel ConstraintModel VariableModel PresolveModel TextModel.
Import ListNotations.
Local Open Scope Z_scope.
Local Open Scope string_scope.

Section Map.
Context {A : Type}.
(** find *)
Fixpoint lookup (m : list (string * A)) (k : string) : option A :=
  match m with [] => None | (k', a) :: tl => if String.eqb k k' then Some a else lookup tl k end.
(** operator[] = a *)
Fixpoint store (m : list (string * A)) (k : string) (a : A) : list (string * A) :=
  match m with
  | [] => [(k, a)]
  | (k', b) :: tl => if String.eqb k k' then (k', a) :: tl else (k', b) :: store tl k a
  end.
(** operator[] of a missing key inserts a default value. *)
Definition get (d : A) (m : list (string * A)) (k : string) : A := match lookup m k with Some a => a | None => d end.
End Map.

(** mps_variable.h:14-45, mps_constraint.h:14-34, mps_objective.h, mps.h:17-28. *)
Record mps_var := mkMv { mv_integer : bool; mv_lower : Z; mv_upper : Z; mv_fixed_value : Z; mv_defined : bool; mv_fixed : bool }.
Definition mv_init : mps_var := mkMv false 0 INT_HALF_MAX 0 false false.
Record mps_con := mkMc { mc_sense : csense; mc_sens : list (string * Q); mc_rhs : Q }.
Definition mc_init : mps_con := mkMc Less [] 0.
Record mps := mkMps { mp_name : string; mp_vars : list (string * mps_var); mp_cons : list (string * mps_con);
  mp_objective : string; mp_obj_sens : list (string * Q); mp_vnames : list string; mp_cnames : list string }.
Definition mps_init : mps := mkMps "" [] [] "" [] [] [].

(** mps_read_mode.h *)
Inductive mode := MInitial | MName | MRows | MColumns | MRhs | MRanges | MBounds.

Definition with_vars (m : mps) (vs : list (string * mps_var)) : mps :=
  mkMps (mp_name m) vs (mp_cons m) (mp_objective m) (mp_obj_sens m) (mp_vnames m) (mp_cnames m).
Definition with_cons (m : mps) (cs : list (string * mps_con)) : mps :=
  mkMps (mp_name m) (mp_vars m) cs (mp_objective m) (mp_obj_sens m) (mp_vnames m) (mp_cnames m).
Definition with_cname (m : mps) (n : string) : mps :=
  mkMps (mp_name m) (mp_vars m) (mp_cons m) (mp_objective m) (mp_obj_sens m) (mp_vnames m) (mp_cnames m ++ [n])%list.

(** NAME section (mps.h:130-140). *)
Definition read_name (m : mps) (items : list string) : outcome mps :=
  match items with
  | _ :: n :: _ => Ok (mkMps n (mp_vars m) (mp_cons m) (mp_objective m) (mp_obj_sens m) (mp_vnames m) (mp_cnames m))
  | _ => Throw
  end.
(** ROWS section (mps.h:141-173).  items[1] is read without a test of the size. *)
Definition add_row (m : mps) (n : string) (s : csense) : mps :=
  let c := get mc_init (mp_cons m) n in
  with_cname (with_cons m (store (mp_cons m) n (mkMc s (mc_sens c) (mc_rhs c)))) n.
Definition read_row (m : mps) (items : list string) : outcome mps :=
  match items with
  | k :: tl =>
      if (k =? "N") || (k =? "L") || (k =? "E") || (k =? "G") then
        match tl with
        | [] => UB
        | n :: _ =>
            if k =? "N" then Ok (mkMps (mp_name m) (mp_vars m) (mp_cons m) n (mp_obj_sens m) (mp_vnames m) (mp_cnames m))
            else Ok (add_row m n (if k =? "L" then Less else if k =? "E" then Equal else Greater))
        end
      else Throw
  | [] => Ok m
  end.
(** The pairs items[2 i + 1], items[2 i + 2] for i < (size - 1) / 2. *)
Fixpoint pairs_of (l : list string) : list (string * string) :=
  match l with a :: b :: tl => (a, b) :: pairs_of tl | _ => [] end.
(** A number that atof does not read as a decimal is outside the model. *)
Definition number (s : string) : outcome Q := match atof s with Some q => Ok q | None => UB end.
(** One pair of a COLUMNS line (mps.h:193-218). *)
Definition add_entry (v : string) (o : outcome mps) (p : string * string) : outcome mps :=
  bind o (fun m => bind (number (snd p)) (fun a =>
  if Qlt_le_dec EPS10 (Qabs a) then
    if fst p =? mp_objective m then
      Ok (mkMps (mp_name m) (mp_vars m) (mp_cons m) (mp_objective m) (store (mp_obj_sens m) v a) (mp_vnames m) (mp_cnames m))
    else match lookup (mp_cons m) (fst p) with
         | Some c => Ok (with_cons m (store (mp_cons m) (fst p) (mkMc (mc_sense c) (store (mc_sens c) v a) (mc_rhs c))))
         | None => Throw
         end
  else Ok m)).
(** The variable is registered at its first line (mps.h:219-224). *)
Definition add_variable (m : mps) (v : string) (int : bool) : mps :=
  match lookup (mp_vars m) v with
  | Some _ => m
  | None => mkMps (mp_name m) (store (mp_vars m) v (mkMv int 0 INT_HALF_MAX 0 false false)) (mp_cons m) (mp_objective m) (mp_obj_sens m)
                  (mp_vnames m ++ [v])%list (mp_cnames m)
  end.
(** COLUMNS section (mps.h:174-227); the flag says that a marker INTORG is open. *)
Definition read_column (m : mps) (int : bool) (items : list string) : outcome (mps * bool) :=
  match items with
  | v :: tl =>
      match tl with
      | _ :: k :: _ =>
          if k =? "'INTORG'" then Ok (m, true)
          else if k =? "'INTEND'" then Ok (m, false)
          else bind (fold_left (add_entry v) (pairs_of tl) (Ok m)) (fun m => Ok (add_variable m v int, int))
      | _ => Throw
      end
  | [] => Throw
  end.
(** RHS section (mps.h:228-244): the row is created if it does not exist. *)
Definition add_rhs (o : outcome mps) (p : string * string) : outcome mps :=
  bind o (fun m => bind (number (snd p)) (fun a =>
  let c := get mc_init (mp_cons m) (fst p) in
  Ok (with_cons m (store (mp_cons m) (fst p) (mkMc (mc_sense c) (mc_sens c) a))))).
Definition read_rhs (m : mps) (items : list string) : outcome mps :=
  match items with _ :: ((_ :: _ :: _) as tl) => fold_left add_rhs (pairs_of tl) (Ok m) | _ => Throw end.
(** RANGES section (mps.h:245-311): a second row NAME_range. *)
Definition add_range (o : outcome mps) (p : string * string) : outcome mps :=
  bind o (fun m => bind (number (snd p)) (fun a =>
  let n' := append (fst p) "_range" in
  let c := get mc_init (mp_cons m) (fst p) in
  let cs := store (mp_cons m) (fst p) c in
  let '(s, r) := match mc_sense c with
                 | Less => (Greater, (mc_rhs c + Qabs a)%Q)
                 | Greater => (Less, (mc_rhs c - Qabs a)%Q)
                 | Equal => if Qlt_le_dec 0 a then (Greater, (mc_rhs c + Qabs a)%Q) else (Less, (mc_rhs c - Qabs a)%Q)
                 end in
  Ok (with_cname (with_cons m (store cs n' (mkMc s (mc_sens c) r))) n'))).
Definition read_range (m : mps) (items : list string) : outcome mps :=
  match items with _ :: ((_ :: _ :: _) as tl) => fold_left add_range (pairs_of tl) (Ok m) | _ => Throw end.
(** BOUNDS section (mps.h:312-410). *)
Definition bound_3 (k : string) (v : mps_var) : mps_var :=
  if k =? "FR" then mkMv (mv_integer v) INT_HALF_MIN INT_HALF_MAX (mv_fixed_value v) true (mv_fixed v)
  else if k =? "BV" then mkMv true 0 1 (mv_fixed_value v) true (mv_fixed v)
  else if k =? "MI" then mkMv (mv_integer v) INT_HALF_MIN 0 (mv_fixed_value v) true (mv_fixed v)
  else if k =? "PL" then mkMv (mv_integer v) 0 INT_HALF_MAX (mv_fixed_value v) true (mv_fixed v)
  else v.
Definition bound_4 (k : string) (z : Z) (v : mps_var) : mps_var :=
  if k =? "LO" then mkMv (mv_integer v) z (mv_upper v) (mv_fixed_value v) true (mv_fixed v)
  else if k =? "LI" then mkMv true z (mv_upper v) (mv_fixed_value v) true (mv_fixed v)
  else if k =? "UP" then mkMv (mv_integer v) (mv_lower v) z (mv_fixed_value v) true (mv_fixed v)
  else if k =? "UI" then mkMv true (mv_lower v) z (mv_fixed_value v) true (mv_fixed v)
  else if k =? "FX" then mkMv (mv_integer v) z z z true true
  else v.
Definition read_bound (m : mps) (items : list string) : outcome mps :=
  match items with
  | k :: _ :: n :: tl =>
      match lookup (mp_vars m) n with
      | None => Throw
      | Some v =>
          match tl with
          | [] => Ok (with_vars m (store (mp_vars m) n (bound_3 k v)))
          | [a] => bind (number a) (fun q => bind (to_int (Qtrunc q)) (fun z => Ok (with_vars m (store (mp_vars m) n (bound_4 k z v)))))
          | _ => Ok m
          end
      end
  | _ => Throw
  end.

(** State of the loop over the lines: mode, marker flag, data, ENDATA seen. *)
Record reader := mkR { rd_mode : mode; rd_int : bool; rd_mps : mps; rd_end : bool }.
Definition rd_init : reader := mkR MInitial false mps_init false.
Definition rd_with (r : reader) (o : outcome mps) : outcome reader := bind o (fun m => Ok (mkR (rd_mode r) (rd_int r) m (rd_end r))).
Definition single (items : list string) (h : string) : bool := match items with [a] => a =? h | _ => false end.
(** The switch (mps.h:129-415). *)
Definition read_section (r : reader) (items : list string) : outcome reader :=
  match rd_mode r with
  | MInitial => Ok r
  | MName => rd_with r (read_name (rd_mps r) items)
  | MRows => rd_with r (read_row (rd_mps r) items)
  | MColumns => bind (read_column (rd_mps r) (rd_int r) items) (fun mi => Ok (mkR MColumns (snd mi) (fst mi) (rd_end r)))
  | MRhs => rd_with r (read_rhs (rd_mps r) items)
  | MRanges => rd_with r (read_range (rd_mps r) items)
  | MBounds => rd_with r (read_bound (rd_mps r) items)
  end.
(** One line (mps.h:94-416). *)
Definition set_mode (r : reader) (k : mode) : reader := mkR k (rd_int r) (rd_mps r) (rd_end r).
Definition read_line (r : reader) (items : list string) : outcome reader :=
  match items with
  | [] => Ok r
  | a :: _ =>
      if a =? "NAME" then read_section (set_mode r MName) items
      else if single items "ROWS" then Ok (set_mode r MRows)
      else if single items "COLUMNS" then Ok (set_mode r MColumns)
      else if single items "RHS" then Ok (set_mode r MRhs)
      else if single items "RANGES" then Ok (set_mode r MRanges)
      else if single items "BOUNDS" then Ok (set_mode r MBounds)
      else if single items "ENDATA" then Ok (mkR (rd_mode r) (rd_int r) (rd_mps r) true)
      else read_section r items
  end.
Fixpoint read_lines (r : reader) (ls : list (list string)) : outcome reader :=
  match ls with
  | [] => Ok r
  | l :: tl => bind (read_line r l) (fun r' => if rd_end r' then Ok r' else read_lines r' tl)
  end.
(** Default bounds of integer variables (mps.h:418-435). *)
Definition default_bounds (v : mps_var) : mps_var :=
  if negb (mv_defined v) && mv_integer v then mkMv true 0 1 (mv_fixed_value v) (mv_defined v) (mv_fixed v) else v.
(** read_mps (mps.h:58-437). *)
Definition read_mps (lines : list string) : outcome mps :=
  bind (read_lines rd_init (map items_of lines)) (fun r =>
  if rd_end r then Ok (with_vars (rd_mps r) (map (fun p => (fst p, default_bounds (snd p))) (mp_vars (rd_mps r)))) else Throw).

(** ** import_mps *)
(** The model that is built: variables and constraints with their names, objective to
    minimize. *)
Record imported := mkIm { im_vars : list (string * var); im_cons : list (string * constr); im_objective : expr }.
(** model.h:3474-3505; [accept]: continuous variables are taken as integer ones. *)
Definition import_var (accept : bool) (m : mps) (n : string) : outcome (string * var) :=
  match lookup (mp_vars m) n with
  | None => Throw
  | Some v =>
      if negb (mv_integer v) && negb accept then Throw
      else match v_step v_init (VSetBound (mv_lower v) (mv_upper v)) with
           | None => Throw
           | Some a => if mv_fixed v then match v_step a (VFixBy (mv_fixed_value v)) with Some b => Ok (n, b) | None => Throw end
                       else Ok (n, a)
           end
  end.
(** variable_ptrs[name]; a name that is missing would be a null pointer. *)
Fixpoint position (l : list string) (n : string) : option nat :=
  match l with [] => None | a :: tl => if n =? a then Some 0%nat else match position tl n with Some i => Some (S i) | None => None end end.
Fixpoint sens_of (names : list string) (l : list (string * Q)) : outcome sens :=
  match l with
  | [] => Ok []
  | (n, a) :: tl => match position names n with None => UB | Some i => bind (sens_of names tl) (fun s => Ok ((i, a) :: s)) end
  end.
(** model.h:3518-3551. *)
Definition import_con (m : mps) (is01 : nat -> bool) (n : string) : outcome (string * constr) :=
  match lookup (mp_cons m) n with
  | None => Throw
  | Some c => bind (sens_of (mp_vnames m) (mc_sens c)) (fun s =>
      match compare (OExpr (mkExpr s 0)) (mc_sense c) (ONum (mc_rhs c)) is01 with Some k => Ok (n, k) | None => Throw end)
  end.
Fixpoint collect {A B} (f : A -> outcome B) (l : list A) : outcome (list B) :=
  match l with [] => Ok [] | a :: tl => bind (f a) (fun b => bind (collect f tl) (fun bs => Ok (b :: bs))) end.
Definition import_mps (accept : bool) (m : mps) : outcome imported :=
  bind (collect (import_var accept m) (mp_vnames m)) (fun vs =>
  let is01 v := match nth_error vs v with Some (_, a) => match va_sense a with VBinary => true | _ => false end | None => false end in
  bind (collect (import_con m is01) (mp_cnames m)) (fun cs =>
  bind (sens_of (mp_vnames m) (mp_obj_sens m)) (fun s => Ok (mkIm vs cs (mkExpr s 0))))).

(** ** write_mps *)
(** string_utility.h:52-61. *)
Fixpoint delete_space (s : string) : string :=
  match s with EmptyString => EmptyString | String c tl => if Ascii.eqb c " " then delete_space tl else String c (delete_space tl) end.
(** What write_mps reads: name, minimization flag, variables with names, constraints
    with names and the objective.  Names have been set by setup_unique_names; the
    objective coefficients of the variables are those of the objective (they are only
    ever written by setup_variable_objective_sensitivities). *)
Record written := mkWr { wr_name : string; wr_minimize : bool; wr_vars : list (string * var); wr_cons : list (string * constr); wr_objective : expr }.
Definition row_line (nc : string * constr) : string :=
  append (match ct_sense (snd nc) with Equal => " E    " | Less => " L    " | Greater => " G    " end) (delete_space (fst nc)).
(** The constraints with the variable, sorted by name (variable.h:621-628): any order
    of the same entries, the parameter [sorted] below, is written by [column_lines]. *)
Definition entries_of (cs : list (string * constr)) (v : nat) : list (string * Q) :=
  flat_map (fun nc => match sens_find (ex_sens (ct_expr (snd nc))) v with Some a => [(fst nc, a)] | None => [] end) cs.
Definition objective_lines (w : written) (n : string) (v : nat) : list string :=
  let a := coef (ex_sens (wr_objective w)) v in
  if Qlt_le_dec EPS10 (Qabs a) then
    [append "    " (append n (append "     obj    " (print_double (if wr_minimize w then a else (- a)%Q))))]
  else [].
Definition entry_line (n : string) (e : string * Q) : string :=
  append "    " (append n (append "    " (append (delete_space (fst e)) (append "    " (print_double (snd e)))))).
Fixpoint column_lines (w : written) (sorted : nat -> list (string * Q)) (v : nat) (vs : list (string * var)) : list string :=
  match vs with
  | [] => []
  | (n, _) :: tl => let n := delete_space n in
      (objective_lines w n v ++ map (entry_line n) (sorted v) ++ column_lines w sorted (S v) tl)%list
  end.
Definition rhs_line (nc : string * constr) : string :=
  append "    rhs    " (append (delete_space (fst nc)) (append "    " (print_double (- ex_const (ct_expr (snd nc)))%Q))).
Definition bound_line (k n gap : string) (z : Z) : string :=
  append "    " (append k (append "    bnd    " (append n (append gap (print_int z))))).
Definition bound_lines (nv : string * var) : list string :=
  let n := delete_space (fst nv) in let v := snd nv in
  if va_fixed v then [bound_line "FX" n "     " (va_value v)]
  else ((if negb (va_lower v =? INT_HALF_MIN)%Z && negb (va_lower v =? 0)%Z then [bound_line "LO" n "    " (va_lower v)] else []) ++
        (if negb (va_upper v =? INT_HALF_MAX)%Z then [bound_line "UP" n "    " (va_upper v)] else []))%list.
(** [sorted v]: the entries of variable v in the order of their names. *)
Definition write_mps (w : written) (sorted : nat -> list (string * Q)) : list string :=
  ((if wr_name w =? "" then "NAME untitled" else append "NAME " (delete_space (wr_name w))) :: "ROWS" :: " N    obj" :: map row_line (wr_cons w) ++
   "COLUMNS" :: "    MARK0000    'MARKER'    'INTORG'" :: column_lines w sorted 0 (wr_vars w) ++
   "    MARK0001    'MARKER'    'INTEND'" :: "RHS" :: map rhs_line (wr_cons w) ++
   "BOUNDS" :: flat_map bound_lines (wr_vars w) ++ ["ENDATA"])%list.
