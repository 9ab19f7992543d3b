(** * Specification of the order of the chain moves *)
From Coq Require Import List Bool ZArith QArith Qabs Permutation.
From Verif Require Import ChainOrderModel.
Import ListNotations.
Open Scope Z_scope.

(** Overlap rates that are regarded as equal. *)
Definition near (a b : cmove) : Prop := (Qabs (cm_overlap a - cm_overlap b) <= 1 # 10000000000)%Q.

(** Two moves are duplicates: they change the same variables to the same values
    in the same order (and agree in what is computed from the variables). *)
Definition duplicate (a b : cmove) : Prop :=
  cm_alterations a = cm_alterations b /\ cm_related a = cm_related b /\ near a b.

(** The conditions: all variables lie within 2 GiB of memory, and overlap rates
    that are nearly equal fall into groups. *)
Definition compact (l : list cmove) : Prop :=
  exists base, forall m x, In m l -> In x (cm_alterations m) -> base <= fst x < base + 2 ^ 31.
Definition grouped (l : list cmove) : Prop :=
  forall a b c, In a l -> In b l -> In c l -> near a b -> near b c -> near a c.

(** What std::stable_sort asks of its comparison, on the moves of [l]. *)
Definition strict_weak_order (l : list cmove) (lt : cmove -> cmove -> bool) : Prop :=
  (forall a, In a l -> lt a a = false) /\
  (forall a b c, In a l -> In b l -> In c l -> lt a b = true -> lt b c = true -> lt a c = true) /\
  (forall a b c, In a l -> In b l -> In c l ->
     lt a b = false -> lt b a = false -> lt b c = false -> lt c b = false -> lt a c = false /\ lt c a = false).

(** What it gives: the same moves, none before an earlier one. *)
Definition sorted_by (lt : cmove -> cmove -> bool) (l l' : list cmove) : Prop :=
  Permutation l l' /\
  forall front a mid b back, l' = front ++ a :: mid ++ b :: back -> lt b a = false.
