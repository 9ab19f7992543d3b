(** Specification for C86: MPS files with inequalities only, solved with presolve. *)
From Coq Require Import List ZArith QArith Qabs Bool String.
From Verif Require Import PresolveModel MpsSpec JsonModel OptionModel CommandModel CommandSpec FileSpec.
Import ListNotations.
Local Open Scope Z_scope.

(** The options in force: the defaults, or those of the option file. *)
Definition options_are (fuel : nat) (fs : files) (s : settings) (o : opts) : Prop :=
  (st_option s = ""%string /\ o = initialize) \/
  (st_option s <> ""%string /\ exists text, fs (st_option s) = Some text /\ setup_file fuel text = Some (Ok o)).
Definition switched (o : opts) (name : string) (b : bool) : Prop := param o "preprocess" name = Some (VBool b).

(** The other files leave every column a value. *)
Definition values_left (fs : files) (s : settings) (f : content) : Prop := forall n, In n (columns f) -> exists z, left_to fs s f n z.

(** The rows that are not the objective. *)
Definition constrains (f : content) (k : row_kind) (r : string) : Prop := In (k, r) (f_rows f) /\ k <> KN.
(** No row is an equality. *)
Definition inequalities (f : content) : Prop := forall k r, constrains f k r -> k <> KE.
(** A row less its right-hand side. *)
Definition excess (f : content) (y : string -> Z) (r : string) : Q := (row_value f y r - rhs_of f r)%Q.
(** No two rows (or one taken twice) bound the same expression from both sides. *)
Definition one_sided (f : content) : Prop := forall k r k' r', constrains f k r -> constrains f k' r' ->
  (k <> k' -> ~ forall y, (excess f y r == excess f y r')%Q) /\ (k = k' -> ~ forall y, (excess f y r == - excess f y r')%Q).

(** All bounds are within -99999..99999. *)
Definition narrow (f : content) : Prop := forall n, In n (columns f) -> -100000 < fst (interval f n) /\ snd (interval f n) < 100000.
(** The columns have at most the absolute values given. *)
Definition at_most (f : content) (w : string -> Z) (y : string -> Z) : Prop := forall n, In n (columns f) -> Z.abs (y n) <= w n.
Definition widest (f : content) (n : string) : Z := Z.max (Z.abs (fst (interval f n))) (Z.abs (snd (interval f n))).
(** No row gets further than 99999 from its right-hand side within the bounds, or
    further than an int can say with columns up to 100000. *)
Definition small (f : content) : Prop := forall k r y, constrains f k r ->
  (at_most f (widest f) y -> Qabs (excess f y r) <= 99999)%Q /\
  (at_most f (fun _ => 100000%Z) y -> Qabs (excess f y r) <= inject_Z 2147483647)%Q.

(** The coefficient of a column in a row. *)
Definition only (n : string) : string -> Z := fun m => if String.eqb m n then 1 else 0.
Definition entry (f : content) (n r : string) : Q := row_value f (only n) r.
(** Every column occurs in a row besides the objective, or its objective coefficient is
    at least 1e-10 or zero, with 0 between the bounds. *)
Definition placed (f : content) (obj : string) : Prop := forall n, In n (columns f) ->
  (exists k r, constrains f k r /\ ~ (entry f n r == 0)%Q) \/ (1 # 10000000000 <= Qabs (entry f n obj))%Q \/
  ((entry f n obj == 0)%Q /\ fst (interval f n) <= 0 <= snd (interval f n)).
(** Some row has a coefficient other than 1. *)
Definition weighted (f : content) : Prop := exists k r n, constrains f k r /\ In n (columns f) /\ ~ (entry f n r == 0)%Q /\ ~ (entry f n r == 1)%Q.
