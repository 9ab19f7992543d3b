(** Specification for C83: from the command line to the answer. *)
From Coq Require Import List ZArith QArith Qabs Bool String.
From Verif Require Import ExprModel ConstraintModel VariableModel PresolveModel TextModel MpsModel MpsSpec NamesModel NamesSpec JsonModel OptionModel CommandModel CommandSpec.
Import ListNotations.
Local Open Scope Z_scope.

(** The coefficients of the rows (apart from the objective) and the right-hand sides are
    integers, of any size. *)
Definition integer_rows (f : content) (obj : string) : Prop :=
  (forall v r a, In (v, r, a) (triples (f_cols f)) -> r <> obj -> exists z, (a == inject_Z z)%Q) /\
  (forall r q, In (r, q) (f_rhs f) -> exists z, (q == inject_Z z)%Q).

(** The values the command line leaves to the variable n: those within its bounds, of
    which 0 if a file of mutable variables is given that does not list it, and the
    value given last by the file of fixed variables. *)
Definition left_to (fs : files) (s : settings) (f : content) (n : string) (z : Z) : Prop :=
  fst (interval f n) <= z <= snd (interval f n) /\
  (st_mutable s <> ""%string -> forall lines, opens fs (st_mutable s) lines -> ~ listed lines n -> z = 0) /\
  (st_fixed s <> ""%string -> forall lines text q, opens fs (st_fixed s) lines -> last_given lines n text -> atof text = Some q -> nearest q z).

(** Variables with the bounds [0, 0] or [1, 1] are fixed by a bound FX, no file of
    mutable variables is given, and the file of fixed variables agrees. *)
Definition thin_binaries (fs : files) (s : settings) (f : content) : Prop :=
  forall n, In n (columns f) -> interval f n = (0, 0) \/ interval f n = (1, 1) ->
  (exists z, In (BFx z) (bounds_of f n)) /\ st_mutable s = ""%string /\ exists z, left_to fs s f n z.

(** The option file switches presolve off. *)
Definition presolve_off (fuel : nat) (fs : files) (s : settings) : Prop :=
  st_option s <> ""%string /\ exists text o, fs (st_option s) = Some text /\ setup_file fuel text = Some (Ok o) /\
  param o "preprocess" "is_enabled_presolve" = Some (VBool false).

(** y is a solution of the file that respects the other files. *)
Definition file_solution (fs : files) (s : settings) (f : content) (y : string -> Z) : Prop :=
  feasible f y /\ forall n, In n (columns f) -> left_to fs s f n (y n).
