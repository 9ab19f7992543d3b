(** C21 (fixed-size queue) and C22 (bidirectional map). *)
From Coq Require Import List ZArith QArith.
From Verif Require Import ContainerModel ContainerSpec ContainerProof.
Import ListNotations.

(** For every capacity n >= 1 and every push sequence, no undefined behaviour
    occurs and the queue holds exactly the last n pushed values, oldest first. *)
Theorem C21_queue_holds_last_n :
  forall (n : Z) (xs : list Q), (1 <= n)%Z ->
    fq_push_all (fq_setup n) xs = Some (mkFqueue n (last_n (Z.to_nat n) xs)).
Proof. exact queue_contents. Qed.
Print Assumptions C21_queue_holds_last_n.

(** min, max and average are those of the last n pushed values. *)
Theorem C21_queue_statistics :
  forall (n : Z) (xs : list Q), (1 <= n)%Z -> xs <> [] ->
  exists q mn mx av,
    fq_push_all (fq_setup n) xs = Some q /\
    fq_min q = Some mn /\ is_minimum mn (last_n (Z.to_nat n) xs) /\
    fq_max_value q = Some mx /\ is_maximum mx (last_n (Z.to_nat n) xs) /\
    fq_average q = Some av /\
    (av * inject_Z (Z.of_nat (length (last_n (Z.to_nat n) xs))) == sumQ (last_n (Z.to_nat n) xs))%Q.
Proof. exact queue_stats. Qed.
Print Assumptions C21_queue_statistics.

(** The precondition n >= 1 is needed: a queue that was never set up (capacity
    0) pops an empty deque on the first push. *)
Theorem C21_queue_capacity_zero_refuted : forall x xs, fq_push_all fq_init (x :: xs) = None.
Proof. exact queue_zero_ub. Qed.
Print Assumptions C21_queue_capacity_zero_refuted.

Example C21_example :
  fq_push_all (fq_setup 2) [1#1; 5#1; 3#1]%Q = Some (mkFqueue 2 [5#1; 3#1]%Q).
Proof. reflexivity. Qed.

(** For insertions with pairwise distinct first and pairwise distinct second
    components, both directions answer exactly the inserted pairs. *)
Theorem C22_bidirectional_map_inverse :
  forall (A B : Type) (eqA : forall x y : A, {x = y} + {x <> y}) (eqB : forall x y : B, {x = y} + {x <> y})
         (l : list (A * B)) (a : A) (b : B),
    NoDup (map fst l) -> NoDup (map snd l) ->
    let m := fold_left (bm_insert eqA eqB) l bm_init in
    (bm_forward_at eqA m a = Some b <-> In (a, b) l) /\
    (bm_reverse_at eqB m b = Some a <-> In (a, b) l) /\
    bm_size m = length l.
Proof. exact @bimap_correct. Qed.
Print Assumptions C22_bidirectional_map_inverse.

(** For arbitrary insertions, forward_at answers the partner given by the last insertion of that key. *)
Theorem C22_forward_returns_last_insert :
  forall (A B : Type) (eqA : forall x y : A, {x = y} + {x <> y}) (eqB : forall x y : B, {x = y} + {x <> y})
         (l : list (A * B)) (a : A) (b : B),
    bm_forward_at eqA (fold_left (bm_insert eqA eqB) l bm_init) a = Some b <->
    exists l1 l2, l = l1 ++ (a, b) :: l2 /\ ~ In a (map fst l2).
Proof. exact @bimap_forward_history. Qed.
Print Assumptions C22_forward_returns_last_insert.

(** Without distinctness the two directions can disagree (stale reverse entry). *)
Theorem C22_reinsertion_refuted :
  exists l : list (nat * nat),
    let m := fold_left (bm_insert Nat.eq_dec Nat.eq_dec) l bm_init in
    exists a b, bm_reverse_at Nat.eq_dec m b = Some a /\ bm_forward_at Nat.eq_dec m a <> Some b.
Proof. exact bimap_stale. Qed.
Print Assumptions C22_reinsertion_refuted.

Example C22_example :
  let l := [(1,10);(2,20);(3,5)]%nat in
  NoDup (map fst l) /\ NoDup (map snd l) /\
  bm_reverse_at Nat.eq_dec (fold_left (bm_insert Nat.eq_dec Nat.eq_dec) l bm_init) 20%nat = Some 2%nat.
Proof. repeat split; repeat constructor; simpl; intuition discriminate. Qed.
