(** Specification for C16, C17 and C46. *)
From Coq Require Import List ZArith QArith Bool.
From Verif Require Import ConstraintModel EvalModel SolutionModel.
Import ListNotations.
Local Open Scope Q_scope.

(** The solutions offered in a history, and those offered since the last reset of
    the local incumbent. *)
Fixpoint offered {S} (es : list (h_event S)) : list (S * score) :=
  match es with
  | [] => []
  | Offer sol sc :: tl => (sol, sc) :: offered tl
  | _ :: tl => offered tl
  end.
Definition since_reset {S} (es : list (h_event S)) : list (S * score) :=
  fold_left (fun acc e => match e with Offer sol sc => acc ++ [(sol, sc)] | ResetLocal => [] | OfferDual _ => acc end) es [].

(** [sl] holds a best offer by [f], up to the tolerance: nothing if nothing was
    offered, otherwise one of the offers, together with its score, and no offer is
    better by more than EPS. *)
Definition holds_best {S} (f : score -> Q) (offers : list (S * score)) (sl : slot S) : Prop :=
  (offers = [] /\ sl_obj sl = None) \/
  (exists sol sc, In (sol, sc) offers /\ sl_obj sl = Some (f sc) /\ sl_stored sl = Some (sol, sc) /\
   forall sol' sc', In (sol', sc') offers -> f sc <= f sc' + EPS).

(** Order of the archive. *)
Definition rank (m : sort_mode) (s : ssol) : Q :=
  match m with Ascending => so_obj s | Descending => - so_obj s | SortOff => 0 end.
Fixpoint in_order (m : sort_mode) (l : list ssol) : Prop :=
  match l with
  | a :: ((b :: _) as tl) => rank m a <= rank m b /\ in_order m tl
  | _ => True
  end.
Fixpoint no_adjacent_duplicates (l : list ssol) : Prop :=
  match l with
  | a :: ((b :: _) as tl) => so_vars a <> so_vars b /\ no_adjacent_duplicates tl
  | _ => True
  end.

(** The last [n] elements of a list. *)
Definition last_n {A} (n : nat) (l : list A) : list A := skipn (length l - n) l.
(** The solutions that differ from the one immediately before them. *)
Definition without_repeats (l : list ssol) : list ssol :=
  map snd (filter (fun p : option (list (nat * Z)) * ssol =>
                     match fst p with Some v => negb (vars_eqb v (so_vars (snd p))) | None => true end)
                  (combine (None :: map (fun s => Some (so_vars s)) l) l)).

(** An incumbent objective o' at least as good as o (None: no incumbent yet). *)
Definition not_worse (o o' : option Q) : Prop :=
  match o, o' with Some q, Some q' => q' <= q | None, _ => True | Some _, None => False end.
