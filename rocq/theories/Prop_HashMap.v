(** C18: the fixed-size hash map answers exactly like the map it was built from. *)
From Coq Require Import List NArith QArith Lia.
From Verif Require Import HashMapModel HashMapSpec HashMapProof.
Import ListNotations.

(** For every source map (distinct keys, any iteration order), every key-size
    hint and every key, [at] terminates within the table size and returns the
    mapped value, 0 for keys that are not in the map. *)
Theorem C18_hash_map_lookup :
  forall (m : list (N * Q)) (key_size : N),
    NoDup (map fst m) ->
    exists h, hm_setup m key_size = Some h /\
              forall k, hm_at h k = Some (value_or_zero m k).
Proof. exact hm_correct. Qed.
Print Assumptions C18_hash_map_lookup.

(** Non-vacuity: colliding keys (all start in slot 0) and an absent colliding key. *)
Example C18_example :
  let m := [(0%N, 3#2); (1024%N, -7#1); (2048%N, 5#1)]%Q in
  NoDup (map fst m) /\
  match hm_setup m 64 with
  | Some h => hm_at h 2048 = Some (5#1)%Q /\ hm_at h 1024 = Some (-7#1)%Q /\ hm_at h 4096 = Some 0%Q
  | None => False
  end.
Proof.
  split; [|vm_compute; auto].
  repeat constructor; simpl; intuition discriminate.
Qed.
