(** * C96: the chain moves are kept without duplicates, the best first *)
From Coq Require Import List Bool ZArith QArith Qabs Permutation Lia Lqa.
From Verif Require Import MoveModel ChainOrderModel ChainOrderSpec ChainOrderProof ChainOrderProof2.
Import ListNotations.
Open Scope Z_scope.

(** The comparison meets what std::stable_sort asks of it. *)
Theorem C96_order : forall l, compact l -> grouped l -> strict_weak_order l before.
Proof. exact before_order. Qed.
Print Assumptions C96_order.

(** So there is a list without inversions for it to give. *)
Theorem C96_sorted : forall l, compact l -> grouped l -> exists l', sorted_by before l l'.
Proof. intros l C G. exact (sorted_exists l before (before_order l C G)). Qed.
Print Assumptions C96_sorted.

(** After sorting, whatever the algorithm, and removing equal neighbours: only
    moves of the list, of every move exactly one of its duplicates, and the moves
    in the order of their overlap rates. *)
Theorem C96_duplicates : forall l l', compact l -> grouped l -> sorted_by before l l' ->
  (forall m, In m (deduplicate l') -> In m l) /\
  (forall m, In m l -> exists m', In m' (deduplicate l') /\ duplicate m' m) /\
  (forall front a mid b back, deduplicate l' = front ++ a :: mid ++ b :: back ->
     ~ duplicate a b /\ (cm_overlap b <= cm_overlap a + (1 # 10000000000))%Q).
Proof. intros l l' C G S. exact (dedup_all l C G l' S). Qed.
Print Assumptions C96_duplicates.

(** The capacity is kept, and it is the front of the list that stays. *)
Theorem C96_capacity : forall n l,
  (length (reduce n l) <= n)%nat /\
  exists rest, l = reduce n l ++ rest /\ (rest <> [] -> length (reduce n l) = n).
Proof. exact reduce_spec. Qed.
Print Assumptions C96_capacity.

(** Without the first condition the comparison goes round in a circle: three
    moves of two variables, all of the same overlap rate. *)
Theorem C96_address_refuted : exists a b c,
  grouped [a; b; c] /\
  before a b = true /\ before b c = true /\ before c a = true /\
  ~ strict_weak_order [a; b; c] before.
Proof.
  pose (f := fun p => mkCm [(p, 1); (p + 64, 0)] 3 (1 # 2)).
  assert (H1 : before (f 3000000000) (f 1500000000) = true) by (vm_compute; reflexivity).
  assert (H2 : before (f 1500000000) (f 0) = true) by (vm_compute; reflexivity).
  assert (H3 : before (f 0) (f 3000000000) = true) by (vm_compute; reflexivity).
  assert (N : forall p q, near (f p) (f q)) by (intros p q; vm_compute; discriminate).
  exists (f 3000000000), (f 1500000000), (f 0). split; [|split; [exact H1|]; split; [exact H2|]; split; [exact H3|]].
  - intros a b c Ia Ib Ic _ _. cbn in Ia, Ic. destruct Ia as [<-|[<-|[<-|[]]]], Ic as [<-|[<-|[<-|[]]]]; apply N.
  - intros (I & T & _).
    assert (X : before (f 3000000000) (f 0) = true)
      by (apply (T _ (f 1500000000)); [left | right; left | right; right; left | |]; try reflexivity; assumption).
    assert (Y : before (f 3000000000) (f 3000000000) = true)
      by (apply (T _ (f 0)); [left | right; right; left | left | |]; try reflexivity; assumption).
    rewrite I in Y by (left; reflexivity). discriminate.
Qed.
Print Assumptions C96_address_refuted.

(** Nor without the second one: overlap rates each 8e-11 above the last. *)
Theorem C96_overlap_refuted : exists a b c,
  compact [a; b; c] /\
  before a b = true /\ before b c = true /\ before c a = true /\
  ~ strict_weak_order [a; b; c] before.
Proof.
  pose (a := mkCm [(64, 1); (128, 0); (192, 1); (256, 0)] 3 (1 # 2)).
  pose (b := mkCm [(64, 1); (128, 0); (192, 1)] 3 (50000000008 # 100000000000)).
  pose (c := mkCm [(64, 1); (128, 0)] 3 (50000000016 # 100000000000)).
  assert (H1 : before a b = true) by (vm_compute; reflexivity).
  assert (H2 : before b c = true) by (vm_compute; reflexivity).
  assert (H3 : before c a = true) by (vm_compute; reflexivity).
  exists a, b, c. split; [|split; [exact H1|]; split; [exact H2|]; split; [exact H3|]].
  - exists 0. intros m x Im Ix. cbn in Im. destruct Im as [<-|[<-|[<-|[]]]]; cbn in Ix;
      repeat (destruct Ix as [<-|Ix]; [cbn [fst]; lia|]); destruct Ix.
  - intros (I & T & _).
    assert (X : before a c = true) by (apply (T _ b); [left | right; left | right; right; left | |]; try reflexivity; assumption).
    assert (Y : before a a = true) by (apply (T _ c); [left | right; right; left | left | |]; try reflexivity; assumption).
    rewrite I in Y by (left; reflexivity). discriminate.
Qed.
Print Assumptions C96_overlap_refuted.

(** Five moves, two of them duplicates; the overlap rates 1/2 and 1/3. *)
Definition ex_a : cmove := mkCm [(64, 1); (128, 0)] 3 (1 # 3).
Definition ex_b : cmove := mkCm [(64, 0); (128, 1)] 3 (1 # 3).
Definition ex_c : cmove := mkCm [(192, 1); (256, 0)] 3 (1 # 2).
Definition ex_d : cmove := mkCm [(64, 1); (128, 0); (192, 1); (256, 0)] 5 (1 # 3).
Definition ex_list : list cmove := [ex_a; ex_b; ex_c; ex_a; ex_d].
Definition ex_sorted : list cmove := [ex_c; ex_d; ex_a; ex_a; ex_b].

Example C96_example :
  compact ex_list /\ grouped ex_list /\ sorted_by before ex_list ex_sorted /\
  deduplicate ex_sorted = [ex_c; ex_d; ex_a; ex_b] /\ reduce 2 (deduplicate ex_sorted) = [ex_c; ex_d].
Proof.
  split; [|split; [|split; [|split; vm_compute; reflexivity]]].
  - exists 0. intros m x Im Ix. cbn in Im. destruct Im as [<-|[<-|[<-|[<-|[<-|[]]]]]]; cbn in Ix;
      repeat (destruct Ix as [<-|Ix]; [cbn [fst]; lia|]); destruct Ix.
  - intros a b c Ia Ib Ic. cbn in Ia, Ib, Ic.
    destruct Ia as [<-|[<-|[<-|[<-|[<-|[]]]]]], Ib as [<-|[<-|[<-|[<-|[<-|[]]]]]], Ic as [<-|[<-|[<-|[<-|[<-|[]]]]]];
      unfold near, Qle; cbn; intros; lia.
  - split.
    + unfold ex_list, ex_sorted. apply Permutation_sym.
      apply (Permutation_cons_app [ex_a; ex_b] [ex_a; ex_d]); cbn [app].
      apply (Permutation_cons_app [ex_a; ex_b; ex_a] []); cbn [app].
      apply perm_skip, perm_swap.
    + apply (pairs_sorted (fun a b => before b a = false)).
      unfold ex_sorted; repeat (apply FOP_cons; [repeat (apply Forall_cons; [vm_compute; reflexivity|]); apply Forall_nil|]); apply FOP_nil.
Qed.
