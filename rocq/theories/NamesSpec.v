(** Vocabulary for the properties about names and auxiliary files. *)
From Coq Require Import List ZArith QArith Qround Bool String Ascii.
From Verif Require Import VariableModel TextModel NamesModel.
Import ListNotations.
Local Open Scope list_scope.

(** A name without white space. *)
Fixpoint blank_free (s : string) : Prop :=
  match s with EmptyString => True | String c tl => is_space c = false /\ blank_free tl end.
Definition plain_name (s : string) : Prop := s <> EmptyString /\ blank_free s.
(** A name without an opening bracket. *)
Fixpoint bracket_free (s : string) : Prop :=
  match s with EmptyString => True | String c tl => c <> "["%char /\ bracket_free tl end.

(** A line of a two-column file that gives [text] for [name]. *)
Definition gives (line name text : string) : Prop := exists rest, items_of line = name :: text :: rest.
(** The last line of the file that gives something for [name]. *)
Definition last_given (lines : list string) (name text : string) : Prop :=
  exists before line after, lines = before ++ line :: after /\ gives line name text /\
    forall l t, In l after -> ~ gives l name t.
Definition never_given (lines : list string) (name : string) : Prop := forall l t, In l lines -> ~ gives l name t.
(** The integer nearest to the number (halves go up). *)
Definition nearest (q : Q) (z : Z) : Prop := (inject_Z z - (1 # 2) <= q /\ q < inject_Z z + (1 # 2))%Q.
Definition is_int (z : Z) : Prop := (-2147483648 <= z <= 2147483647)%Z.
(** The value a file gives to a name: 0 if there is none. *)
Definition file_value (lines : list string) (n : string) (z : Z) : Prop :=
  (exists text q, last_given lines n text /\ atof text = Some q /\ nearest q z) \/ (never_given lines n /\ z = 0%Z).
(** Every number of the file is readable and fits an int. *)
Definition readable (lines : list string) : Prop :=
  forall l name text, In l lines -> gives l name text -> exists q z, atof text = Some q /\ nearest q z /\ is_int z.

(** The proxies have pairwise different names without brackets and blanks, positive
    dimensions, and as many elements as their shape says. *)
Definition proper_proxies (m : list proxy) : Prop :=
  NoDup (map px_name m) /\
  forall p, In p m -> bracket_free (px_name p) /\ px_shape p <> [] /\ Forall (fun n => (0 < n)%Z) (px_shape p) /\
    Z.of_nat (List.length (px_elems p)) = fold_left Z.mul (px_shape p) 1%Z.
(** The j-th element of the i-th proxy. *)
Definition element (m : list proxy) (i j : nat) : option (string * var) :=
  match nth_error m i with Some p => nth_error (px_elems p) j | None => None end.
(** All but value, fixing and margins. *)
Definition same_bounds (v w : var) : Prop :=
  va_lower v = va_lower w /\ va_upper v = va_upper w /\ va_has_bounds v = va_has_bounds w /\ va_sense v = va_sense w.
(** The pairs of positions that a file of name pairs describes, line by line: a line
    with two known names gives a pair, any other line gives none. *)
Inductive described (names : list string) : list string -> list (nat * nat) -> Prop :=
| described_nil : described names [] []
| described_pair : forall line a b i j lines r,
    gives line a b -> nth_error names i = Some a -> nth_error names j = Some b ->
    described names lines r -> described names (line :: lines) ((i, j) :: r)
| described_skip : forall line lines r,
    (forall a b, gives line a b -> ~ (In a names /\ In b names)) ->
    described names lines r -> described names (line :: lines) r.
