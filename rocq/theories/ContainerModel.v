(** Models of utility/fixed_size_queue.h and utility/bidirectional_map.h. *)
From Coq Require Import List ZArith QArith Bool.
Import ListNotations.

(** FixedSizeQueue (fixed_size_queue.h:14-15): m_max_size and m_queue (front first).
    The element type is instantiated with the rationals. *)
Record fqueue := mkFqueue { fq_max : Z; fq_items : list Q }.

(** initialize (fixed_size_queue.h:29-32). *)
Definition fq_init : fqueue := mkFqueue 0 [].

(** setup (fixed_size_queue.h:35-38). *)
Definition fq_setup (n : Z) : fqueue := mkFqueue n [].

(** push (fixed_size_queue.h:41-46).  [None]: pop_front on an empty deque
    (undefined behaviour).  The narrowing of size() to int is not modelled. *)
Definition fq_push (q : fqueue) (x : Q) : option fqueue :=
  if Z.eqb (Z.of_nat (length (fq_items q))) (fq_max q)
  then match fq_items q with
       | [] => None
       | _ :: tl => Some (mkFqueue (fq_max q) (tl ++ [x]))
       end
  else Some (mkFqueue (fq_max q) (fq_items q ++ [x])).

Fixpoint fq_push_all (q : fqueue) (xs : list Q) : option fqueue :=
  match xs with
  | [] => Some q
  | x :: tl => match fq_push q x with Some q' => fq_push_all q' tl | None => None end
  end.

(** std::min_element / std::max_element on the deque (fixed_size_queue.h:64-71):
    the first minimal (maximal) element; [None]: dereferencing end(). *)
Fixpoint min_elt (best : Q) (l : list Q) : Q :=
  match l with
  | [] => best
  | x :: tl => min_elt (if Qlt_le_dec x best then x else best) tl
  end.
Fixpoint max_elt (best : Q) (l : list Q) : Q :=
  match l with
  | [] => best
  | x :: tl => max_elt (if Qlt_le_dec best x then x else best) tl
  end.
Definition fq_min (q : fqueue) : option Q :=
  match fq_items q with [] => None | x :: tl => Some (min_elt x tl) end.
Definition fq_max_value (q : fqueue) : option Q :=
  match fq_items q with [] => None | x :: tl => Some (max_elt x tl) end.

(** average (fixed_size_queue.h:74-77): left fold from 0.0, divided by size();
    [None]: 0/0 (NaN). *)
Definition fq_average (q : fqueue) : option Q :=
  match fq_items q with
  | [] => None
  | l => Some (fold_left Qplus l 0 / inject_Z (Z.of_nat (length l)))%Q
  end.

(** BidirectionalMap (bidirectional_map.h:14-15).  An unordered_map is an
    association list; operator[]= replaces the entry in place or adds one. *)
Section BiMap.
  Context {A B : Type} (eqA : forall x y : A, {x = y} + {x <> y})
          (eqB : forall x y : B, {x = y} + {x <> y}).

  Fixpoint assoc_set {K V} (dec : forall x y : K, {x = y} + {x <> y}) (m : list (K * V)) (k : K) (v : V)
    : list (K * V) :=
    match m with
    | [] => [(k, v)]
    | (k', v') :: tl => if dec k' k then (k', v) :: tl else (k', v') :: assoc_set dec tl k v
    end.

  (** unordered_map::at; [None] = std::out_of_range. *)
  Fixpoint assoc_at {K V} (dec : forall x y : K, {x = y} + {x <> y}) (m : list (K * V)) (k : K) : option V :=
    match m with
    | [] => None
    | (k', v') :: tl => if dec k' k then Some v' else assoc_at dec tl k
    end.

  Record bimap := mkBimap { bm_forward : list (A * B); bm_reverse : list (B * A) }.

  (** initialize (bidirectional_map.h:24-27). *)
  Definition bm_init : bimap := mkBimap [] [].

  (** insert (bidirectional_map.h:40-43). *)
  Definition bm_insert (m : bimap) (ab : A * B) : bimap :=
    mkBimap (assoc_set eqA (bm_forward m) (fst ab) (snd ab))
            (assoc_set eqB (bm_reverse m) (snd ab) (fst ab)).

  (** forward_at, reverse_at, size (bidirectional_map.h:30-32,46-53). *)
  Definition bm_forward_at (m : bimap) (a : A) : option B := assoc_at eqA (bm_forward m) a.
  Definition bm_reverse_at (m : bimap) (b : B) : option A := assoc_at eqB (bm_reverse m) b.
  Definition bm_size (m : bimap) : nat := length (bm_forward m).
End BiMap.
