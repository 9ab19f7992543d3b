(** * C97: the overlap rate of a chain move *)
From Coq Require Import List ZArith QArith Permutation.
From Verif Require Import OverlapModel OverlapSpec OverlapProof.
Import ListNotations.

(** The ratio is the number of constraints all variables occur in, divided by
    the number of those some variable occurs in. *)
Theorem C97_ratio : forall related vs common all,
  vs <> [] -> is_set_of (in_all related vs) common -> is_set_of (in_some related vs) all ->
  (overlap_ratio related vs == inject_Z (Z.of_nat (length common)) / inject_Z (Z.of_nat (length all)))%Q.
Proof. exact ratio_counts. Qed.
Print Assumptions C97_ratio.

(** The order of the alterations does not matter. *)
Theorem C97_order : forall related vs vs',
  Permutation vs vs' -> (overlap_ratio related vs == overlap_ratio related vs')%Q.
Proof. exact ratio_order. Qed.
Print Assumptions C97_order.

(** It lies between 0 and 1, and is 1 only if all variables occur in the same
    constraints, and in at least one. *)
Theorem C97_range : forall related vs,
  (0 <= overlap_ratio related vs <= 1)%Q /\
  ((overlap_ratio related vs == 1)%Q <->
   (exists c, in_some related vs c) /\ forall c, in_some related vs c -> in_all related vs c).
Proof. exact ratio_range. Qed.
Print Assumptions C97_range.

(** Three variables; the constraints 1 and 2 are common, of five. *)
Definition ex_related (v : nat) : list nat :=
  match v with 0 => [1; 2; 3; 2] | 1 => [2; 4; 1] | 2 => [5; 1; 2] | _ => [] end%nat.

Example C97_example :
  is_set_of (in_all ex_related [0; 1; 2]%nat) [1; 2]%nat /\
  is_set_of (in_some ex_related [0; 1; 2]%nat) [1; 2; 3; 4; 5]%nat /\
  (overlap_ratio ex_related [0; 1; 2]%nat == 2 # 5)%Q /\ (overlap_ratio ex_related [2; 0; 1]%nat == 2 # 5)%Q /\
  (overlap_ratio ex_related [0; 3]%nat == 0)%Q /\ (overlap_ratio ex_related [3; 0]%nat == 0)%Q.
Proof.
  split; [|split; [|repeat split; vm_compute; reflexivity]].
  - split; [repeat constructor; cbn; intuition discriminate|]. intro x; split.
    + intros [<-|[<-|[]]] v [<-|[<-|[<-|[]]]]; cbn; tauto.
    + intro H. assert (A := H 0%nat ltac:(cbn; tauto)). assert (B := H 1%nat ltac:(cbn; tauto)). cbn in A, B |- *. intuition congruence.
  - split; [repeat constructor; cbn; intuition discriminate|]. intro x; split.
    + intros [<-|[<-|[<-|[<-|[<-|[]]]]]]; [exists 0%nat | exists 0%nat | exists 0%nat | exists 1%nat | exists 2%nat]; cbn; tauto.
    + intros (v & [<-|[<-|[<-|[]]]] & H); cbn in H |- *; tauto.
Qed.
