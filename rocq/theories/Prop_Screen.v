(** C39, C40, C41: improvability screening, the OPTIMAL status and the naive dual
    bound. *)
From Coq Require Import List ZArith NArith QArith Qabs Lia Bool.
From Verif Require Import ExprModel ExprSpec ConstraintModel ConstraintSpec EvalModel EvalSpec EvalSpec2
  VariableModel PresolveModel MoveModel MoveSpec ScreenModel ScreenSpec ScreenProof ScreenProof2.
Import ListNotations.
Local Open Scope Q_scope.

(** Maximize 3 x0 - x2 subject to x0 + x1 >= 5, x1 + x2 >= 1, all within 0..4,
    x3 fixed; the start is the origin. *)
Definition ex_screen (obj : expr) : mstate :=
  mkMs (mkM true (-1) obj 0 0
         [c_setup (mkExpr [(0%nat, 1); (1%nat, 1)] (-5)) Greater (fun _ => false);
          c_setup (mkExpr [(1%nat, 1); (2%nat, 1)] (-1)) Greater (fun _ => false)] 100)
       [] [] (fun _ => 0%Z) (fun v => Nat.eqb v 3) false [] false.
Definition ex_obj : expr := mkExpr [(0%nat, 3); (2%nat, -1); (3%nat, 7)] 0.
Definition ex_run : list (alterations * list nat) :=
  [([(0%nat, 4%Z); (2%nat, 1%Z)], [0; 1]%nat); ([(1%nat, 1%Z)], [0; 1]%nat); ([(2%nat, 0%Z)], [1]%nat)].
Definition ex_lo : nat -> Z := fun _ => 0%Z.
Definition ex_hi : nat -> Z := fun _ => 4%Z.
Lemma ex_ok : start_ok [0; 1; 2]%nat (ex_screen ex_obj) /\ Forall (search_move (ex_screen ex_obj)) ex_run.
Proof.
  split.
  - split; [|split].
    + split; [intros c [<-|[<-|[]]]; repeat (apply NoDup_cons; [cbn; intuition discriminate|]); apply NoDup_nil|].
      split; [repeat (apply NoDup_cons; [cbn; intuition discriminate|]); apply NoDup_nil|intros p []].
    + intros p [].
    + intros v [<-|[<-|[<-|[]]]]; cbn; auto; discriminate.
  - assert (C : forall vs L, incl vs [0; 1; 2]%nat -> (In 0%nat vs -> In 0%nat L) -> (In 1%nat vs -> In 0%nat L /\ In 1%nat L) -> (In 2%nat vs -> In 1%nat L) ->
      covers (md_cons (ms_model (ex_screen ex_obj))) vs L).
    { intros vs L HI H0 H1 H2 [|[|i]] c v Hn _ Hv Hk; cbn in Hn; [| |destruct i; discriminate];
        (assert (c = ltac:(match type of Hn with Some ?d = _ => exact d end)) by congruence); subst c; cbn in Hk;
        destruct Hk as [<-|[<-|[]]]; tauto. }
    repeat apply Forall_cons; [| | |apply Forall_nil].
    all: split; [split; [repeat (apply NoDup_cons; [cbn; intuition discriminate|]); apply NoDup_nil|split; [intros v n Hin; cbn in Hin; intuition; match goal with H : _ = (v, n) |- _ => injection H as <- _ end; reflexivity|]]|].
    all: try (right; split; [repeat (apply NoDup_cons; [cbn; intuition discriminate|]); apply NoDup_nil|]).
    all: apply C; cbn; try (intros w Hw; cbn in Hw |- *); intuition discriminate.
Qed.

(** ** C39 *)

(** When the search stops because there is no move, and reports OPTIMAL, the
    current solution is feasible and no assignment within the bounds is better,
    feasible or not.  In every mode that computes flags, after every sequence of
    moves. *)
Theorem C39_optimal_without_moves : forall (md : mode) (mutables variables : list nat) (s0 : mstate) (lo hi : nat -> Z)
  (ms : list (alterations * list nat)) (gap : option (option Q * Q)) (n : Z),
  md <> ScreenOff -> start_ok mutables s0 -> Forall (search_move s0) ms ->
  incl (keys (md_obj (ms_model s0))) variables -> (n <= 0)%Z ->
  let s := fst (search md mutables (preprocess s0 lo hi) ms) in
  optimal_or_no_move gap n variables s = Some Optimal ->
  (forall c, In c (md_cons (ms_model (ss_ms s))) -> ct_enabled c = true -> viol c (ms_x (ss_ms s)) < EPS) /\
  forall y, reachable s y -> cost s (ms_x (ss_ms s)) <= cost s y.
Proof. exact optimal_claim. Qed.
Print Assumptions C39_optimal_without_moves.

(** While the solution is feasible, screening loses no improving move: whatever a
    generator offers without screening and improves the objective it offers with
    screening. *)
Theorem C39_no_improving_move_lost : forall (md : mode) (mutables : list nat) (s0 : mstate) (lo hi : nat -> Z)
  (ms : list (alterations * list nat)) (addr : nat -> N) (sense : nat -> vsense) (g : gen) (m : alterations),
  md <> ScreenOff -> start_ok mutables s0 -> Forall (search_move s0) ms ->
  let r := search md mutables (preprocess s0 lo hi) ms in
  ms_feasible (ss_ms (fst r)) = true -> allowed (fst r) m -> improves (fst r) m ->
  offered addr (seen (fst r) sense) everything g m -> offered addr (seen (fst r) sense) (acceptance r) g m.
Proof. exact improving_offered. Qed.
Print Assumptions C39_no_improving_move_lost.

(** Minimization: OPTIMAL by the gap to the naive dual bound is right up to EPS. *)
Theorem C39_gap_minimization : forall (f : Q) (obj : expr) (vs : vars) (n : Z) (variables : list nat) (s : sstate),
  (0 < n)%Z -> optimal_or_no_move (Some (Some f, naive_dual_bound true obj vs)) n variables s = Some Optimal ->
  forall y, admissible (vi_of vs) y -> f < e_eval obj y + EPS.
Proof. exact gap_claim. Qed.
Print Assumptions C39_gap_minimization.

Example C39_example : let s := fst (search Soft [0; 1; 2]%nat (preprocess (ex_screen ex_obj) ex_lo ex_hi) ex_run) in
  start_ok [0; 1; 2]%nat (ex_screen ex_obj) /\ Forall (search_move (ex_screen ex_obj)) ex_run /\
  map (ms_x (ss_ms s)) [0; 1; 2]%nat = [4; 1; 0]%Z /\ optimal_or_no_move None 0 [0; 1; 2; 3]%nat s = Some Optimal.
Proof. cbv zeta. split; [apply ex_ok|]. split; [apply ex_ok|]. split; vm_compute; reflexivity. Qed.
Example C39_example_offered : let r := search Aggressive [0; 1; 2]%nat (preprocess (ex_screen ex_obj) ex_lo ex_hi) (firstn 2 ex_run) in
  ms_feasible (ss_ms (fst r)) = true /\ improves (fst r) [(2%nat, 0%Z)] /\
  acceptance r = mkAccept false true false (ss_obj (fst r)) (ss_feas (fst r)) /\
  map (ss_obj (fst r)) [0; 1; 2; 3]%nat = [false; false; true; false].
Proof. cbv zeta. split; [vm_compute; reflexivity|]. split; [vm_compute; reflexivity|]. split; vm_compute; reflexivity. Qed.
Example C39_example_gap : optimal_or_no_move (Some (Some (-8), naive_dual_bound true (mkExpr [(0%nat, 1); (1%nat, -3)] 4)
    (fun _ => mkVar 0 0 4 true false VInteger false true))) 1 [] (preprocess (ex_screen ex_obj) ex_lo ex_hi) = Some Optimal.
Proof. vm_compute. reflexivity. Qed.

(** With screening switched off the flags are never computed and a search without
    moves reports OPTIMAL at a solution that is not. *)
Theorem C39_screening_off_refuted : exists (s0 : mstate) (lo hi : nat -> Z) (ms : list (alterations * list nat)),
  start_ok [0; 1; 2]%nat s0 /\ Forall (search_move s0) ms /\
  let s := fst (search ScreenOff [0; 1; 2]%nat (preprocess s0 lo hi) ms) in
  optimal_or_no_move None 0 [0; 1; 2; 3]%nat s = Some Optimal /\
  exists y, reachable s y /\ cost s y < cost s (ms_x (ss_ms s)).
Proof.
  exists (ex_screen ex_obj), ex_lo, ex_hi, (firstn 2 ex_run). split; [apply ex_ok|].
  split; [apply (Forall_app _ (firstn 2 ex_run) (skipn 2 ex_run)); apply ex_ok|]. cbv zeta. split; [vm_compute; reflexivity|].
  exists (fun v => match v with 0%nat => 4 | 1%nat => 1 | _ => 0 end)%Z. split; [|vm_compute; reflexivity].
  intros [|[|[|[|v]]]]; vm_compute; try reflexivity; repeat split; discriminate.
Qed.
Print Assumptions C39_screening_off_refuted.

(** Maximization: the incumbent is compared in the internal sign with a bound in
    the original sign; maximizing x in -5..5 the search reports OPTIMAL at x = -5. *)
Theorem C39_gap_maximization_refuted : exists (obj : expr) (vs : vars) (x y : nat -> Z) (s : sstate),
  admissible (vi_of vs) x /\ admissible (vi_of vs) y /\
  optimal_or_no_move (Some (Some (- e_eval obj x), naive_dual_bound false obj vs)) 1 [0%nat] s = Some Optimal /\
  e_eval obj x + 10 == e_eval obj y.
Proof.
  exists (mkExpr [(0%nat, 1)] 0), (fun _ => mkVar 0 (-5) 5 true false VInteger true true), (fun _ => -5)%Z, (fun _ => 5)%Z, (preprocess (ex_screen ex_obj) ex_lo ex_hi).
  split; [intros v; cbn; split; [discriminate|lia]|]. split; [intros v; cbn; split; [discriminate|lia]|].
  split; vm_compute; reflexivity.
Qed.
Print Assumptions C39_gap_maximization_refuted.

(** ** C40 *)

(** While the solution is infeasible, screening (soft and aggressive tabu search,
    local search) loses no move that reduces the violation of a violated
    constraint. *)
Theorem C40_no_repairing_move_lost : forall (md : mode) (mutables : list nat) (s0 : mstate) (lo hi : nat -> Z)
  (ms : list (alterations * list nat)) (addr : nat -> N) (sense : nat -> vsense) (g : gen) (m : alterations),
  md = Soft \/ md = Aggressive \/ md = Local -> start_ok mutables s0 -> Forall (search_move s0) ms ->
  let r := search md mutables (preprocess s0 lo hi) ms in
  ms_feasible (ss_ms (fst r)) = false -> allowed (fst r) m -> repairs (fst r) m ->
  offered addr (seen (fst r) sense) everything g m -> offered addr (seen (fst r) sense) (acceptance r) g m.
Proof. exact repairing_offered. Qed.
Print Assumptions C40_no_repairing_move_lost.

(** And every flagged variable has a step of one that helps a violated
    constraint (coefficients are not zero). *)
Theorem C40_flagged_variables_help : forall (md : mode) (mutables : list nat) (s0 : mstate) (lo hi : nat -> Z)
  (ms : list (alterations * list nat)) (v : nat),
  md = Soft \/ md = Aggressive \/ md = Local -> start_ok mutables s0 -> Forall (search_move s0) ms ->
  let s := fst (search md mutables (preprocess s0 lo hi) ms) in
  (forall c u a, In c (md_cons (ms_model (ss_ms s))) -> In (u, a) (ex_sens (ct_expr c)) -> ~ a == 0) ->
  (ss_lo s v <= ms_x (ss_ms s) v <= ss_hi s v)%Z ->
  ms_feasible (ss_ms s) = false -> ss_feas s v = true -> helps s v.
Proof. exact flagged_helps. Qed.
Print Assumptions C40_flagged_variables_help.

Example C40_example : let r := search Aggressive [0; 1; 2]%nat (preprocess (ex_screen ex_obj) ex_lo ex_hi) (firstn 1 ex_run) in
  ms_feasible (ss_ms (fst r)) = false /\ allowed (fst r) [(1%nat, 1%Z); (2%nat, 2%Z)] /\ repairs (fst r) [(1%nat, 1%Z); (2%nat, 2%Z)] /\
  map (ss_feas (fst r)) [0; 1; 2; 3]%nat = [false; true; false; false] /\
  offered (fun v => N.of_nat v) (seen (fst r) (fun _ => VInteger)) (acceptance r) (GInteger [0; 1; 2]%nat) [(1%nat, 1%Z)].
Proof.
  cbv zeta. split; [vm_compute; reflexivity|]. split; [|split; [|split]].
  - split; [repeat (apply NoDup_cons; [cbn; intuition discriminate|]); apply NoDup_nil|].
    intros v n [E|[E|[]]]; injection E as <- <-; vm_compute; repeat split; discriminate.
  - eexists. split; [split; [left; reflexivity|]; split; [reflexivity|vm_compute; discriminate]|vm_compute; reflexivity].
  - vm_compute. reflexivity.
  - do 2 eexists. split; [reflexivity|]. split; [vm_compute; do 4 right; left; reflexivity|discriminate].
Qed.

(** Intensive screening loses such moves: it lowers the flags of every variable of
    a constraint touched by the last move and raises only those that the touched
    constraints ask for. *)
Theorem C40_intensive_refuted : exists (s0 : mstate) (lo hi : nat -> Z) (ms : list (alterations * list nat)) (g : gen) (m : alterations),
  start_ok [0; 1; 2]%nat s0 /\ Forall (search_move s0) ms /\
  let r := search Intensive [0; 1; 2]%nat (preprocess s0 lo hi) ms in
  ms_feasible (ss_ms (fst r)) = false /\ allowed (fst r) m /\ repairs (fst r) m /\
  offered (fun v => N.of_nat v) (seen (fst r) (fun _ => VInteger)) everything g m /\
  ~ offered (fun v => N.of_nat v) (seen (fst r) (fun _ => VInteger)) (acceptance r) g m.
Proof.
  exists (ex_screen ex_obj), ex_lo, ex_hi, [([(2%nat, 1%Z)], [1]%nat)], (GInteger [1]%nat), [(1%nat, 1%Z)].
  split; [apply ex_ok|]. split.
  - apply Forall_cons; [|apply Forall_nil].
    destruct ex_ok as [_ F]. unfold ex_run in F. inversion F as [|? ? _ F1]; subst. inversion F1 as [|? ? _ F2]; subst.
    inversion F2 as [|? ? [M C] _]; subst. destruct M as (P & X & U). split; [split; [|split]|].
    + repeat (apply NoDup_cons; [cbn; intuition discriminate|]); apply NoDup_nil.
    + intros v n [E|[]]. injection E as <- _. reflexivity.
    + exact U.
    + exact C.
  - cbv zeta. split; [vm_compute; reflexivity|]. split; [|split; [|split]].
    + split; [repeat (apply NoDup_cons; [cbn; intuition discriminate|]); apply NoDup_nil|].
      intros v n [E|[]]; injection E as <- <-; vm_compute; repeat split; discriminate.
    + eexists. split; [split; [left; reflexivity|]; split; [reflexivity|vm_compute; discriminate]|vm_compute; reflexivity].
    + do 2 eexists. split; [reflexivity|]. split; [vm_compute; left; reflexivity|discriminate].
    + intros (l & f & Hg & Hin & Hf). vm_compute in Hg.
      match type of Hg with Some ?l0 = _ => assert (El : l = l0) by congruence end. subst l.
      cbn in Hin. destruct Hin as [E|[E|[E|[E|[]]]]]; apply Hf; congruence.
Qed.
Print Assumptions C40_intensive_refuted.

(** ** C41 *)

(** The naive dual bound bounds the objective over all assignments within the
    bounds, from below when minimizing, from above when maximizing, and is
    attained. *)
Theorem C41_naive_dual_bound : forall (obj : expr) (vs : vars),
  (forall y, admissible (vi_of vs) y ->
     naive_dual_bound true obj vs <= e_eval obj y /\ e_eval obj y <= naive_dual_bound false obj vs) /\
  (wf obj -> (forall v, va_fixed (vs v) = false -> (va_lower (vs v) <= va_upper (vs v))%Z) ->
   (exists y, admissible (vi_of vs) y /\ e_eval obj y == naive_dual_bound true obj vs) /\
   (exists y, admissible (vi_of vs) y /\ e_eval obj y == naive_dual_bound false obj vs)).
Proof. exact naive_bound. Qed.
Print Assumptions C41_naive_dual_bound.

Example C41_example :
  let vs v := mkVar 2 (-1) (Z.of_nat v + 3) true (Nat.eqb v 2) VInteger true true in
  naive_dual_bound true (mkExpr [(0%nat, 2); (1%nat, -3); (2%nat, 5)] 1) vs == -3 /\
  naive_dual_bound false (mkExpr [(0%nat, 2); (1%nat, -3); (2%nat, 5)] 1) vs == 20.
Proof. split; vm_compute; reflexivity. Qed.
