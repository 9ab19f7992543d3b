(** C78: no solution is out of reach of the moves on offer. *)
From Coq Require Import List NArith ZArith QArith Bool.
From Verif Require Import ExprModel ExprSpec ConstraintModel VariableModel TypeModel PresolveModel PresolveSpec DependentModel DependentSpec SelectionModel SelectionSpec
  PrepareModel PrepareSpec EvalModel MoveModel TabuModel LoopModel WholeModel WholeSpec OfferModel OfferSpec ReachSpec.
From Verif Require PrepareProof6 WholeProof WholeProof4 OfferProof6 ReachProof.
Import ListNotations.
Local Open Scope nat_scope.

(** C78: when all moves are accepted and the three basic neighborhoods are enabled, the offer in x contains the flip of
    every binary variable that is not fixed, both steps by one of every integer variable that is not fixed as far as
    its bounds allow them, and the change to every other variable of a selection that is not fixed. *)
Theorem C78_basic_moves (fuel : nat) (sw : switches) (su : surroundings) (on : ctype -> bool) (pairs : list (nat * nat)) (minimize : bool)
  (s : dstate) (r : dstate * list sel) (c : choice) (x : nat -> Z) :
  proper_model s -> (exists y, solves s y) -> calm_rounds sw su minimize s -> calm_sets sw su minimize s ->
  prepare fuel sw su minimize s = Some (Ok r) -> ac_all (ck_accept c) = true -> (forall k, k < 3 -> ck_enabled c k = true) ->
  let n := ds_number (fst r) in let vs := ds_vars (fst r) in
  let on_offer := fun x m => exists ms t, offer (setup_neighborhood on pairs su r) c x = Some ms /\ In t ms /\ tm_alts t = m in
  (forall v, v < n -> va_fixed (vs v) = false -> va_sense (vs v) = VBinary -> on_offer x [(v, (1 - x v)%Z)]) /\
  (forall v d, v < n -> va_fixed (vs v) = false -> va_sense (vs v) = VInteger -> (d = 1 \/ d = -1)%Z ->
     (va_lower (vs v) <= x v <= va_upper (vs v))%Z -> (va_lower (vs v) <= x v + d <= va_upper (vs v))%Z -> on_offer x [(v, (x v + d)%Z)]) /\
  (forall t u w, In t (snd r) -> In u (sl_vars t) -> In w (sl_vars t) -> va_fixed (vs w) = false -> w <> u ->
     x u = 1%Z -> (forall z, In z (sl_vars t) -> z <> u -> x z = 0%Z) -> on_offer x [(u, 0%Z); (w, 1%Z)]).
Proof.
  intros P Fe C1 C2 Pr All En. pose proof (WholeProof.prepare_search fuel sw su minimize s r P Fe C1 C2 Pr) as Rd. cbv zeta.
  split; [exact (ReachProof.flip_offered su minimize s r on pairs c Rd All En x)|].
  split; [exact (ReachProof.step_offered su minimize s r on pairs c Rd All En x)|exact (ReachProof.swap_offered su minimize s r on pairs c Rd All En x)].
Qed.
Print Assumptions C78_basic_moves.

(** C78: from every valid solution the moves on offer lead to every other one, in no more moves than the distance. *)
Theorem C78_reach (fuel : nat) (sw : switches) (su : surroundings) (on : ctype -> bool) (pairs : list (nat * nat)) (minimize : bool)
  (s : dstate) (r : dstate * list sel) (c : choice) (x y : nat -> Z) :
  proper_model s -> (exists y, solves s y) -> calm_rounds sw su minimize s -> calm_sets sw su minimize s ->
  prepare fuel sw su minimize s = Some (Ok r) -> settled r -> ac_all (ck_accept c) = true -> (forall k, k < 3 -> ck_enabled c k = true) ->
  valid r x -> keeps_fixed (fst r) x -> valid r y -> keeps_fixed (fst r) y ->
  exists ms, walk (fun x m => exists ts t, offer (setup_neighborhood on pairs su r) c x = Some ts /\ In t ts /\ tm_alts t = m) x ms /\
             same_choice (fst r) (arrival x ms) y /\ (Z.of_nat (length ms) <= distance (fst r) (ds_number (fst r)) x y)%Z.
Proof.
  intros P Fe C1 C2 Pr St All En V F V' F'.
  exact (ReachProof.reach su minimize s r on pairs c (WholeProof.prepare_search fuel sw su minimize s r P Fe C1 C2 Pr) St All En x y (conj V F) (conj V' F')).
Qed.
Print Assumptions C78_reach.

(** C78: and so, from the start and from every valid solution, they lead to a solution of the user's model that is at
    least as good as any given one. *)
Theorem C78_solutions (fuel : nat) (sw : switches) (su : surroundings) (on : ctype -> bool) (pairs : list (nat * nat)) (minimize : bool)
  (s : dstate) (r : dstate * list sel) (c : choice) (z : nat -> Z) :
  proper_model s -> calm_rounds sw su minimize s -> calm_sets sw su minimize s ->
  prepare fuel sw su minimize s = Some (Ok r) -> settled r -> ac_all (ck_accept c) = true -> (forall k, k < 3 -> ck_enabled c k = true) -> solves s z ->
  let start := fun v => va_value (ds_vars (fst r) v) in
  valid r start /\ keeps_fixed (fst r) start /\
  forall x, valid r x -> keeps_fixed (fst r) x ->
  exists ms y, walk (fun x m => exists ts t, offer (setup_neighborhood on pairs su r) c x = Some ts /\ In t ts /\ tm_alts t = m) x ms /\
               completed (fst r) (arrival x ms) y /\ solves s y /\ as_good minimize (e_eval (ds_obj s) y) (e_eval (ds_obj s) z).
Proof.
  intros P C1 C2 Pr St All En Sz. pose proof (WholeProof.prepare_search fuel sw su minimize s r P (ex_intro _ z Sz) C1 C2 Pr) as Rd. cbv zeta.
  split; [exact (WholeProof.sr_start _ _ _ Rd)|]. split; [intros v _; reflexivity|].
  intros x V F. exact (ReachProof.reach_solution su minimize s r on pairs c Rd St All En x z (conj V F) Sz).
Qed.
Print Assumptions C78_solutions.

(** The problem of C73, with moves on x3 (binary), x6 (integer) and the selection of x0, x1, x2. *)
Definition r_choice : choice := mkCk (mkAccept true true true (fun _ => false) (fun _ => false)) (fun _ => true) [] [].
Definition r_from : nat -> Z := fun v => match v with 3 | 2 | 6 => 1%Z | 5 => 2%Z | _ => 0%Z end.
Definition r_moves : list alterations := [[(3, 0%Z)]; [(6, 2%Z)]; [(2, 0%Z); (0, 1%Z)]; [(6, 3%Z)]].
Example C78_example :
  walk (fun x m => exists ts t, offer (setup_neighborhood (fun _ => true) [] PrepareProof6.p_around PrepareProof6.p_result) r_choice x = Some ts /\ In t ts /\ tm_alts t = m) r_from r_moves /\
  map (arrival r_from r_moves) (seq 0 7) = [1; 0; 0; 0; 0; 2; 3]%Z.
Proof.
  split; [|reflexivity]. cbn [walk r_moves]. repeat (split; [apply ReachProof.presents_b_ok; vm_compute; reflexivity|]). exact Logic.I.
Qed.
Example C78_example_hypotheses :
  let r := PrepareProof6.p_result in
  valid r r_from /\ keeps_fixed (fst r) r_from /\ (forall k, k < 3 -> ck_enabled r_choice k = true) /\ proper_model PrepareProof6.p_model /\ solves PrepareProof6.p_model PrepareProof6.p_start /\ settled r /\ prepare 10 PrepareProof6.p_switches PrepareProof6.p_around true PrepareProof6.p_model = Some (Ok r).
Proof.
  cbv zeta. split; [exact (proj1 OfferProof6.p_good)|]. split; [exact (proj2 OfferProof6.p_good)|]. split; [reflexivity|]. split; [exact PrepareProof6.p_proper|].
  split; [exact PrepareProof6.p_feasible|]. split; [exact WholeProof4.p_settled|exact (proj1 PrepareProof6.p_result_eq)].
Qed.
