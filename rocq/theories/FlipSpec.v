(** Vocabulary for the property about flippable variable pairs. *)
From Coq Require Import List ZArith QArith Bool String.
From Verif Require Import FlipModel.
Import ListNotations.

(** Variable [v] is in constraint [k]. *)
Definition in_constraint (m : fmodel) (v k : nat) : Prop := exists c, nth_error (snd m) k = Some c /\ In v (fc_vars c).
(** The set of numbers with property P has n elements. *)
Definition has_size (P : nat -> Prop) (n : Z) : Prop := exists l, NoDup l /\ (forall k, In k l <-> P k) /\ Z.of_nat (List.length l) = n.
(** A binary variable that is not fixed and occurs in an enabled constraint. *)
Definition flippable (m : fmodel) (v : nat) : Prop :=
  (exists a, nth_error (fst m) v = Some a /\ fv_fixed a = false /\ fv_sense a <> FsOther) /\
  (exists k c, nth_error (snd m) k = Some c /\ fc_enabled c = true /\ In v (fc_vars c)).
