(** C69: the number of threads of each round. *)
From Coq Require Import List ZArith QArith Qabs Bool Sorted Lia.
From Verif Require Import PresolveModel LearnerModel LearnerSpec LearnerProof LearnerProof2.
Import ListNotations.
Local Open Scope Q_scope.

(** With the automatic choice on: for every history of rounds, every non-negative
    confidence width and every decay factor between 0 and 1, nothing undefined happens;
    the candidates are tried in increasing order, each once; then each round is run with
    a candidate whose estimate, over the rates of its own past rounds, is largest, the
    smallest such candidate. *)
Theorem C69_choice : forall (width : nat -> nat -> Q) (d : Q) (wanted max : Z) (rounds : list (Z * Q)),
  (forall i n, 0 <= width i n) -> 0 <= d <= 1 -> (1 <= max)%Z -> (forall m e, In (m, e) rounds -> (0 <= m)%Z) ->
  exists pats t0 used t, candidates max pats /\ threads_setup true true d wanted max = Ok t0 /\
    threads_run width t0 0 rounds = Ok (used, t) /\ length used = length rounds /\
    forall i p, nth_error used i = Some p ->
      let guess q := estimate width d i (rates q (firstn i used) (firstn i rounds)) in
      ((i < length pats)%nat -> nth_error pats i = Some p) /\
      ((length pats <= i)%nat -> In p pats /\ forall q, In q pats -> guess q <= guess p /\ (guess q == guess p -> (p <= q)%Z)).
Proof. exact choice. Qed.
Print Assumptions C69_choice.

(** The number of threads is always between 1 and the maximum; what is reported of each
    candidate is the number of its rounds and their mean rate, which stays within the
    rates measured for it. *)
Theorem C69_records : forall (width : nat -> nat -> Q) (d : Q) (wanted max : Z) (rounds : list (Z * Q)) t0 used t,
  (forall i n, 0 <= width i n) -> 0 <= d <= 1 -> (1 <= max)%Z -> (forall m e, In (m, e) rounds -> (0 <= m)%Z) ->
  threads_setup true true d wanted max = Ok t0 -> threads_run width t0 0 rounds = Ok (used, t) ->
  Forall (fun p => (1 <= p <= max)%Z) used /\ (1 <= threads_used t <= max)%Z /\
  candidates max (map ac_body (le_actions (th_learner t))) /\
  forall a, In a (le_actions (th_learner t)) -> let own := rates (ac_body a) used rounds in
    ac_samples a = length own /\ ac_total a == fold_right Qplus 0 own /\
    (own <> [] -> ac_mean a = mean_of d own /\ forall lo hi, (forall s, In s own -> lo <= s <= hi) -> lo <= ac_mean a <= hi).
Proof. exact average_auto. Qed.
Print Assumptions C69_records.

(** In every mode the average reported is the average over the rounds of the number of
    threads they were run with. *)
Theorem C69_average : forall (width : nat -> nat -> Q) (option auto : bool) (d : Q) (wanted max : Z) (rounds : list (Z * Q)) t0 used t,
  threads_setup option auto d wanted max = Ok t0 -> threads_run width t0 0 rounds = Ok (used, t) -> rounds <> [] ->
  length used = length rounds /\ th_average t == inject_Z (sum_Z used) / inject_Z (Z.of_nat (length used)).
Proof. exact average. Qed.
Print Assumptions C69_average.

(** With the automatic choice off: one thread if the parallelization is off; else the
    number asked for in the first round, and the maximum in all others. *)
Theorem C69_manual : forall (width : nat -> nat -> Q) (option auto : bool) (d : Q) (wanted max : Z) (rounds : list (Z * Q)),
  option && auto = false ->
  exists t0 used t, threads_setup option auto d wanted max = Ok t0 /\ threads_run width t0 0 rounds = Ok (used, t) /\
    length used = length rounds /\
    forall i p, nth_error used i = Some p ->
      p = if option then (if Nat.eqb i 0 && (0 <? wanted)%Z then wanted else max) else 1%Z.
Proof. exact manual. Qed.
Print Assumptions C69_manual.

Example C69_example :
  let w := fun i n : nat => inject_Z (Z.of_nat i) / inject_Z (Z.of_nat (4 * n)) in
  let rounds := [(10%Z, 1); (30%Z, 1); (20%Z, 1); (25%Z, 1); (24%Z, 0)] in
  (forall i n, 0 <= w i n) /\ thread_patterns 6 = [1; 2; 4; 6]%Z /\
  exists t0 t, threads_setup true true (1 # 2) (-1) 6 = Ok t0 /\
    threads_run w t0 0 rounds = Ok ([1; 2; 4; 6; 2]%Z, t) /\ threads_used t = 2%Z /\ th_average t == 3.
Proof.
  cbv zeta. split; [|split; [reflexivity|]].
  - intros i n. unfold Qdiv. apply Qmult_le_0_compat; [|apply Qinv_le_0_compat];
      change 0 with (inject_Z 0); rewrite <- Zle_Qle; lia.
  - eexists. eexists. split; [reflexivity|]. split; [vm_compute; reflexivity|]. vm_compute. split; reflexivity.
Qed.

(** The number of threads the user asked for is not kept: with two threads asked for,
    eight available and the automatic choice off, the second round runs on eight. *)
Theorem C69_wanted_refuted : exists (rounds : list (Z * Q)) t0 used t, 
  threads_setup true false (1 # 2) 2 8 = Ok t0 /\ threads_run (fun _ _ => 0) t0 0 rounds = Ok (used, t) /\
  used = [2; 8; 8]%Z /\ th_average t == 6.
Proof.
  exists [(1%Z, 1); (1%Z, 1); (1%Z, 1)]. eexists. eexists. eexists.
  split; [reflexivity|]. split; [vm_compute; reflexivity|]. split; reflexivity.
Qed.
Print Assumptions C69_wanted_refuted.

(** The decay factor is not checked: with one above 1, no candidate may be left and the
    null pointer is used. *)
Theorem C69_decay_refuted : exists (d : Q) (rounds : list (Z * Q)) t0,
  0 <= d /\ d <= DBL_MAX /\ threads_setup true true d 1 1 = Ok t0 /\ threads_run (fun _ _ => 1) t0 0 rounds = UB.
Proof.
  exists DBL_MAX, [(0%Z, 1); (4%Z, 1)]. eexists.
  split; [unfold Qle; vm_compute; discriminate|]. split; [unfold Qle; vm_compute; discriminate|].
  split; [reflexivity|]. vm_compute. reflexivity.
Qed.
Print Assumptions C69_decay_refuted.
