(** Specification for C84: the written solution file. *)
From Coq Require Import List ZArith QArith Bool String Ascii.
From Verif Require Import TextModel MpsModel MpsSpec NamesModel NamesSpec JsonModel CommandModel CommandSpec FileSpec.
Import ListNotations.

(** The first line says that no feasible solution was found. *)
Definition says_infeasible (lines : list string) : Prop := hd_error lines = Some "=infeas="%string.
(** The first line shows the number [q], with [show] for its digits. *)
Definition says_objective (show : Q -> string) (lines : list string) (q : Q) : Prop :=
  exists r, (r == q)%Q /\ hd_error lines = Some (append "=obj= " (show r)).
(** The file gives every column the value [y] has for it. *)
Definition gives_values (lines : list string) (f : content) (y : string -> Z) : Prop :=
  forall n, In n (columns f) -> file_value lines n (y n).
(** The files, with one more (or another) under [name]. *)
Definition with_file (fs : files) (name : string) (lines : list string) : files :=
  fun n => if String.eqb n name then Some (fold_right (fun l r => append l (String LF r)) EmptyString lines) else fs n.
(** The first line shows one word that is read as a number within the int range. *)
Definition readable_objective (lines : list string) : Prop :=
  exists t r z, hd_error lines = Some (append "=obj= " t) /\ plain_name t /\ atof t = Some r /\ nearest r z /\ is_int z.
(** The same for a number outside the int range. *)
Definition unreadable_objective (lines : list string) : Prop :=
  exists t r z, hd_error lines = Some (append "=obj= " t) /\ plain_name t /\ atof t = Some r /\ nearest r z /\ ~ is_int z.
