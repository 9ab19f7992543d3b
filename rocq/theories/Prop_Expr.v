(** C01-C04: linear expressions. *)
From Coq Require Import List ZArith NArith QArith.
From Verif Require Import HashMapModel ExprModel ExprSpec ExprProof.
Import ListNotations.
Local Open Scope Q_scope.

(** Every operator tree without a division by zero builds an expression whose
    value under every assignment is the value of the formula as written, and
    which lists every variable once. *)
Theorem C01_expression_denotes_formula :
  forall f : formula, divides_ok f ->
  exists e, build f = Some e /\ NoDup (map fst (ex_sens e)) /\
            forall x : nat -> Z, e_eval e x == meaning f x.
Proof. exact build_correct. Qed.
Print Assumptions C01_expression_denotes_formula.

(** 2*(x0 - x1) + x0/3 - (5 - x1) lists each variable once. *)
Example C01_example :
  let f := FSub (FAdd (FNumMul 2 (FSub (FVar 0) (FVar 1))) (FDivNum (FVar 0) 3)) (FNumSub 5 (FVar 1)) in
  divides_ok f /\ exists e, build f = Some e /\ map fst (ex_sens e) = [0%nat; 1%nat] /\
  e_eval e (fun v => if Nat.eqb v 0 then 3%Z else 4%Z) == -2.
Proof. cbn. split; [intuition discriminate|]. eexists; split; [reflexivity|]. split; vm_compute; reflexivity. Qed.

(** lower_bound() and upper_bound() enclose the value at every assignment that
    respects the bounds and the fixed values, and both are attained. *)
Theorem C02_bounds_enclose_and_attained :
  forall (e : expr) (vi : nat -> vinfo), NoDup (map fst (ex_sens e)) ->
  (forall x, admissible vi x -> e_lower e vi <= e_eval e x <= e_upper e vi) /\
  ((forall v, vi_fixed (vi v) = false -> (vi_lower (vi v) <= vi_upper (vi v))%Z) ->
   (exists x, admissible vi x /\ e_eval e x == e_lower e vi) /\
   (exists x, admissible vi x /\ e_eval e x == e_upper e vi)).
Proof.
  exact (fun e vi W => conj (fun x H => conj (lower_bound_valid e vi x H) (upper_bound_valid e vi x H))
                            (bounds_attained e vi W)).
Qed.
Print Assumptions C02_bounds_enclose_and_attained.

Example C02_example :
  let e := mkExpr [(0%nat, 2); (1%nat, -3); (2%nat, 1)] 1 in
  let vi := fun v => if Nat.eqb v 2 then mkVinfo 0 9 true 7 else mkVinfo (-1) 4 false 0 in
  e_lower e vi == -6 /\ e_upper e vi == 19.
Proof. vm_compute. split; reflexivity. Qed.

(** After update() and any sequence of moves, each naming a variable at most
    once, the cached value equals the value computed from scratch, for every
    placement of the variables in memory and every key size. *)
Theorem C03_incremental_value_after_any_history :
  forall (addr : nat -> N) (key_size : N) (e : expr) (x : nat -> Z) (ms : list alterations),
  (forall a b, addr a = addr b -> a = b) -> NoDup (map fst (ex_sens e)) -> Forall proper ms ->
  exists s s' x', es_setup addr key_size e = Some s /\
    es_run addr (es_update s x) x ms = Some (s', x') /\
    x' = fold_left apply_move ms x /\ es_value s' == e_eval e x'.
Proof. exact es_history. Qed.
Print Assumptions C03_incremental_value_after_any_history.

(** The restriction to moves naming a variable once is needed. *)
Theorem C03_repeated_variable_refuted : exists addr key_size e x m s s' x',
  (forall a b, addr a = addr b -> a = b) /\ wf e /\ es_setup addr key_size e = Some s /\
  es_run addr (es_update s x) x [m] = Some (s', x') /\ ~ es_value s' == e_eval e x'.
Proof. exact es_improper. Qed.
Print Assumptions C03_repeated_variable_refuted.

(** The table-based incremental evaluation computes what the coefficient map
    says; the later model files use the right-hand side. *)
Theorem C03_table_evaluation_is_coefficient_evaluation :
  forall addr key_size e s x m, (forall a b, addr a = addr b -> a = b) -> NoDup (map fst (ex_sens e)) ->
  es_setup addr key_size e = Some s -> forall cached,
  exists q, es_eval_move addr (mkEs e (es_table s) cached) x m = Some q /\ q == e_eval_move e cached x m.
Proof. exact table_move. Qed.
Print Assumptions C03_table_evaluation_is_coefficient_evaluation.

Example C03_example :
  let e := mkExpr [(0%nat, 2); (1%nat, -3)] 1 in
  exists s s' x', es_setup (fun v => N.of_nat (4096 + 64 * v)) 64 e = Some s /\
    es_run (fun v => N.of_nat (4096 + 64 * v)) (es_update s (fun _ => 0%Z)) (fun _ => 0%Z)
      [[(0%nat, 5%Z)]; [(1%nat, 2%Z); (0%nat, 1%Z); (7%nat, 1%Z)]] = Some (s', x') /\ es_value s' == -3.
Proof. cbn zeta. eexists _, _, _. split; [vm_compute; reflexivity|]. split; [vm_compute; reflexivity|]. vm_compute. reflexivity. Qed.

(** Solving e = 0 for a variable with nonzero coefficient gives an expression f
    without that variable such that e = 0 exactly where v = f; substituting f for
    v in any g removes v from g and does not change g's value where e = 0. *)
Theorem C04_solve_and_substitute :
  forall (e g : expr) (v : nat) (c : Q), NoDup (map fst (ex_sens e)) -> NoDup (map fst (ex_sens g)) ->
  sens_find (ex_sens e) v = Some c -> ~ c == 0 ->
  exists f, e_solve e v = Some f /\ wf f /\ ~ In v (keys f) /\
    wf (e_substitute g v f) /\ ~ In v (keys (e_substitute g v f)) /\
    forall x, (e_eval e x == 0 <-> inject_Z (x v) == e_eval f x) /\
              (e_eval e x == 0 -> e_eval (e_substitute g v f) x == e_eval g x).
Proof. exact (fun e g v c We Wg => solve_substitute e v c g We Wg). Qed.
Print Assumptions C04_solve_and_substitute.

(** Substituting an expression that itself mentions the variable is wrong, so
    the absence of v from f is needed. *)
Theorem C04_self_substitution_refuted : exists e v f x,
  wf e /\ wf f /\ inject_Z (x v) == e_eval f x /\ ~ e_eval (e_substitute e v f) x == e_eval e x.
Proof. exact substitute_self_refuted. Qed.
Print Assumptions C04_self_substitution_refuted.

Example C04_example :
  exists f, e_solve (mkExpr [(0%nat, 2); (1%nat, -4)] 6) 0 = Some f /\
  e_eval f (fun v => if Nat.eqb v 1 then 5%Z else 7%Z) == 7 /\
  e_eval (e_substitute (mkExpr [(0%nat, 1); (1%nat, 1)] 0) 0 f) (fun v => if Nat.eqb v 1 then 5%Z else 0%Z) == 12.
Proof. eexists. split; [vm_compute; reflexivity|]. split; vm_compute; reflexivity. Qed.
