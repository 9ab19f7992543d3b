(** C23-C25: linear algebra over GF(2), reachability, the GF(2) presolve. *)
From Coq Require Import List ZArith QArith Bool Arith Lia Permutation.
From Verif Require Import ExprModel BinMatModel BinMatSpec BinMatProof BinMatProof2.
Import ListNotations.
Local Open Scope nat_scope.

(** ** C23 *)

(** The returned number is the dimension of the row space. *)
Theorem C23_rank : forall (n : nat) (M : mat), has_rank n M (snd (inverse_and_rank n M)).
Proof. exact rank_correct. Qed.
Print Assumptions C23_rank.

(** With full rank the returned matrix is a two-sided inverse. *)
Theorem C23_inverse : forall (n : nat) (M : mat), snd (inverse_and_rank n M) = n ->
  product_is_identity n (fst (inverse_and_rank n M)) M /\
  product_is_identity n M (fst (inverse_and_rank n M)).
Proof. exact inverse_correct. Qed.
Print Assumptions C23_inverse.

(** Full rank is reported exactly for the invertible matrices. *)
Theorem C23_full_rank_iff_invertible : forall (n : nat) (M : mat),
  snd (inverse_and_rank n M) = n <-> exists X, product_is_identity n M X.
Proof. exact inverse_iff. Qed.
Print Assumptions C23_full_rank_iff_invertible.

(** A matrix from its rows. *)
Definition of_rows (l : list (list bool)) : mat := fun i j => nth j (nth i l []) false.

Example C23_example :
  let M := of_rows [[false; true; true]; [true; true; false]; [true; true; true]] in
  let N := of_rows [[true; true; false]; [false; true; true]; [true; false; true]] in
  snd (inverse_and_rank 3 M) = 3 /\ fst (inverse_and_rank 3 M) 0 1 = false /\
  fst (inverse_and_rank 3 M) 0 2 = true /\ snd (inverse_and_rank 3 N) = 2.
Proof. vm_compute. repeat split; reflexivity. Qed.

(** ** C24 *)

Theorem C24_reachability_is_transitive_closure : forall (n : nat) (M : mat) (i j : nat),
  i < n -> j < n -> (reachability n M i j = true <-> path n M i j).
Proof. exact reachability_correct. Qed.
Print Assumptions C24_reachability_is_transitive_closure.

Example C24_example :
  let M := of_rows [[false; false; false; false]; [true; false; false; false]; [false; true; false; false]; [false; false; true; false]] in
  reachability 4 M 3 0 = true /\ reachability 4 M 0 3 = false /\ reachability 4 M 3 3 = false.
Proof. vm_compute. repeat split; reflexivity. Qed.

(** ** C25 *)

(** When the solver succeeds on parity equations whose keys are not among the
    other variables, every equation holds, the other variables got 0 or 1, and no
    variable outside the equations changed -- whatever the order [bs] in which the
    set of variables is walked. *)
Theorem C25_gf2_solution_satisfies_equations :
  forall (cs : list gf2c) (bs : list nat) (x y : nat -> Z),
  Permutation bs (binary_variables cs) -> Forall parity_equation cs ->
  (forall c c', In c cs -> In c' cs -> ~ In (snd c) (nonkey c')) ->
  gf2_solve cs bs x = Some y ->
  (forall c, In c cs -> value_at (fst c) y == 0)%Q /\
  (forall v, In v bs -> y v = 0%Z \/ y v = 1%Z) /\
  (forall v, ~ In v bs -> ~ In v (map snd cs) -> y v = x v).
Proof. exact gf2_correct. Qed.
Print Assumptions C25_gf2_solution_satisfies_equations.

(** An equation from integer coefficients, constant and key. *)
Definition eqn (l : list (nat * Z)) (c : Z) (k : nat) : gf2c :=
  (mkExpr (map (fun p => (fst p, inject_Z (snd p))) l) (inject_Z c), k).
Ltac parity := split;
  [cbn [eqn fst snd map ex_sens]; repeat (constructor; [cbn [In]; intuition discriminate|]); constructor|split;
  [cbn [eqn fst snd map ex_sens]; first [left; cbn [In]; tauto|right; cbn [In]; tauto]|split;
  [cbn [eqn fst snd map ex_sens]; let v := fresh in let q := fresh in let Hin := fresh in let N := fresh in intros v q Hin N;
   repeat (destruct Hin as [Hin|Hin]; [injection Hin as <- <-; first [reflexivity|exfalso; apply N; reflexivity]|]); destruct Hin
  |cbn [eqn fst snd map ex_const]; first [left; reflexivity|right; left; reflexivity|right; right; reflexivity]]]].
(** x0 + x1 + 2 k3 = 0, x1 + x2 - 2 k4 + 1 = 0, x0 + x1 + x2 + 2 k5 = 0. *)
Definition ex_system : list gf2c :=
  [eqn [(0, 1%Z); (1, 1%Z); (3, 2%Z)] 0%Z 3; eqn [(1, 1%Z); (2, 1%Z); (4, (-2)%Z)] 1%Z 4;
   eqn [(0, 1%Z); (1, 1%Z); (2, 1%Z); (5, 2%Z)] 0%Z 5].
Example C25_example :
  Permutation [2; 0; 1] (binary_variables ex_system) /\ Forall parity_equation ex_system /\
  (forall c c', In c ex_system -> In c' ex_system -> ~ In (snd c) (nonkey c')) /\
  exists y, gf2_solve ex_system [2; 0; 1] (fun _ => 0%Z) = Some y /\ map y [0; 1; 2; 3; 4; 5] = [1; 1; 0; -1; 1; -1]%Z.
Proof.
  split.
  { apply NoDup_Permutation.
    - repeat constructor; cbn; intuition lia.
    - apply NoDup_nodup.
    - intros v. cbn. intuition. }
  split.
  { unfold ex_system. repeat (constructor; [parity|]). constructor. }
  split.
  { intros c c' H H'. cbn in H, H'.
    repeat (destruct H as [<-|H]; [repeat (destruct H' as [<-|H']; [cbn; intuition lia|]); destruct H'|]). destruct H. }
  assert (H : option_map (fun y => map y [0; 1; 2; 3; 4; 5]) (gf2_solve ex_system [2; 0; 1] (fun _ => 0%Z)) = Some [1; 1; 0; -1; 1; -1]%Z) by (vm_compute; reflexivity).
  destruct (gf2_solve ex_system [2; 0; 1] (fun _ => 0%Z)) as [y|]; [|discriminate H].
  exists y. split; [reflexivity|]. exact (f_equal (fun o => match o with Some l => l | None => [] end) H).
Qed.

(** Equations the type detection also accepts, but which the solver gets wrong.
    A coefficient -1: the key is computed as if it were +1. *)
Definition neg_system : list gf2c :=
  [eqn [(0, 1%Z); (1, (-1)%Z); (3, 2%Z)] 0%Z 3; eqn [(1, 1%Z); (2, 1%Z); (4, 2%Z)] 1%Z 4;
   eqn [(0, 1%Z); (1, 1%Z); (2, 1%Z); (5, 2%Z)] 0%Z 5].
Theorem C25_negative_coefficient_refuted : exists y,
  gf2_solve neg_system (binary_variables neg_system) (fun _ => 0%Z) = Some y /\
  exists c, In c neg_system /\ ~ (value_at (fst c) y == 0)%Q.
Proof.
  assert (H : option_map (fun y => Qeq_bool (value_at (fst (hd (eqn [] 0%Z 0) neg_system)) y) 0) (gf2_solve neg_system (binary_variables neg_system) (fun _ => 0%Z)) = Some false) by (vm_compute; reflexivity).
  destruct (gf2_solve neg_system (binary_variables neg_system) (fun _ => 0%Z)) as [y|]; [|discriminate H].
  exists y. split; [reflexivity|]. exists (hd (eqn [] 0%Z 0) neg_system). split; [left; reflexivity|]. apply Qeq_bool_neq. exact (f_equal (fun o => match o with Some b => b | None => false end) H).
Qed.
Print Assumptions C25_negative_coefficient_refuted.

(** A 0/1 key that also occurs with coefficient 1 in another equation: it is
    overwritten after the parities were solved. *)
Definition shared_system : list gf2c :=
  [eqn [(0, 1%Z); (1, 1%Z); (2, 1%Z); (3, (-2)%Z)] 0%Z 3; eqn [(3, 1%Z); (0, 1%Z); (4, 2%Z)] 1%Z 4;
   eqn [(3, 1%Z); (1, 1%Z); (5, 2%Z)] 1%Z 5; eqn [(3, 1%Z); (2, 1%Z); (6, 2%Z)] 0%Z 6].
Theorem C25_shared_key_refuted : exists y,
  gf2_solve shared_system (binary_variables shared_system) (fun _ => 0%Z) = Some y /\
  Forall parity_equation shared_system /\
  exists c, In c shared_system /\ ~ (value_at (fst c) y == 0)%Q.
Proof.
  assert (H : option_map (fun y => Qeq_bool (value_at (fst (nth 1 shared_system (eqn [] 0%Z 0))) y) 0) (gf2_solve shared_system (binary_variables shared_system) (fun _ => 0%Z)) = Some false) by (vm_compute; reflexivity).
  destruct (gf2_solve shared_system (binary_variables shared_system) (fun _ => 0%Z)) as [y|]; [|discriminate H].
  exists y. split; [reflexivity|]. split.
  - unfold shared_system. constructor; [parity|]. constructor; [parity|]. constructor; [parity|]. constructor; [parity|]. constructor.
  - exists (nth 1 shared_system (eqn [] 0%Z 0)). split; [right; left; reflexivity|]. apply Qeq_bool_neq. exact (f_equal (fun o => match o with Some b => b | None => false end) H).
Qed.
Print Assumptions C25_shared_key_refuted.
