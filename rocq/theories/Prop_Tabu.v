(** C42, C43, C51: search memory, tabu test, tabu tenure and choice of the move. *)
From Coq Require Import List ZArith QArith Bool Lia Lqa Permutation.
From Verif Require Import ExprModel ExprSpec ConstraintModel EvalModel SolutionModel TabuModel TabuSpec TabuProof TabuProof2.
Import ListNotations.
Local Open Scope Z_scope.

(** ** C42 *)
(** After every history of updates and resets a variable's update count is the
    number of its alterations and a constraint's violation count the number of
    updates that found it violated. *)
Theorem C42_counts : forall es v,
  mm_count (mem_run es) v = times (altered es) v /\ mm_vcount (mem_run es) v = times (violations es) v.
Proof. exact memory_counts. Qed.
Print Assumptions C42_counts.

(** The global stamp of a variable is the number of alterations of the whole history
    that precede its last one (resets do not matter); 0 if it was never altered. *)
Theorem C42_last_alteration : forall es v,
  (forall a b, altered es = a ++ v :: b -> ~ In v b -> mm_global (mem_run es) v = Z.of_nat (length a)) /\
  (~ In v (altered es) -> mm_global (mem_run es) v = 0).
Proof. exact last_alteration_value. Qed.
Print Assumptions C42_last_alteration.

(** Both intensities are the sum of squared counts over the squared number of
    alterations (violations), for every list of distinct variables (constraints)
    that contains those of the history; they lie between one over the length of
    that list and one, and are zero if nothing was altered (violated). *)
Theorem C42_intensity : forall es vs cs, NoDup vs -> incl (altered es) vs -> NoDup cs -> incl (violations es) cs ->
  let m := mem_run es in
  let n := Z.of_nat (length (altered es)) in let k := Z.of_nat (length (violations es)) in
  (altered es <> [] -> mm_primal m == inject_Z (squares (altered es) vs) / (inject_Z n * inject_Z n) /\
     1 / inject_Z (Z.of_nat (length vs)) <= mm_primal m /\ 0 < mm_primal m /\ mm_primal m <= 1)%Q /\
  (violations es <> [] -> mm_dual m == inject_Z (squares (violations es) cs) / (inject_Z k * inject_Z k) /\
     1 / inject_Z (Z.of_nat (length cs)) <= mm_dual m /\ 0 < mm_dual m /\ mm_dual m <= 1)%Q /\
  (altered es = [] -> mm_primal m == 0)%Q /\ (violations es = [] -> mm_dual m == 0)%Q.
Proof. exact intensity_value. Qed.
Print Assumptions C42_intensity.

(** The frequency penalty of a move is the coefficient times the share of the past
    alterations that hit the variables of the move; zero at iteration 0. *)
Theorem C42_frequency_penalty : forall es coefficient iteration mv, proper mv -> altered es <> [] ->
  let p := frequency_penalty coefficient (mem_run es) iteration mv in
  (p == if iteration =? 0 then 0 else coefficient * (inject_Z (Z.of_nat (length (hits (altered es) mv))) / inject_Z (Z.of_nat (length (altered es)))))%Q /\
  (0 <= coefficient -> 0 <= p /\ p <= coefficient)%Q.
Proof. exact penalty_share. Qed.
Print Assumptions C42_frequency_penalty.

(** The Lagrangian penalty, where the coefficients of the variables are those of a Lagrangian e: between two moves of
    the same variables it makes the difference that they make to the Lagrangian; so it does for a move of variables at
    zero, compared with no move. *)
Theorem C42_lagrangian_penalty : forall coefficient e g x mv mv', wf e -> (forall v q, In (v, q) (ex_sens e) -> (g v == q)%Q) ->
  proper mv -> incl (map fst mv) (keys e) ->
  (proper mv' -> Permutation (map fst mv) (map fst mv') ->
   (lagrangian_penalty coefficient g mv - lagrangian_penalty coefficient g mv' == coefficient * (e_eval e (apply_move x mv) - e_eval e (apply_move x mv')))%Q) /\
  ((forall v, In v (map fst mv) -> x v = 0) -> (lagrangian_penalty coefficient g mv == coefficient * (e_eval e (apply_move x mv) - e_eval e x))%Q).
Proof. intros c e g x m m' W G P I. split; [intros P' E; exact (penalty_differs c e g x m m' W P P' E G I)|exact (penalty_off c e g x m W P G I)]. Qed.
Print Assumptions C42_lagrangian_penalty.
(** It is wrong for moves of different variables: it counts the new values, not the changes.  With the Lagrangian
    -3 x0 - x1 at x0 = 1, x1 = 0, the flip of x0 makes the Lagrangian worse by 3 and costs nothing; both are compared with
    no move. *)
Theorem C42_lagrangian_refuted : exists e g x mv, wf e /\ (forall v q, In (v, q) (ex_sens e) -> (g v == q)%Q) /\ proper mv /\ incl (map fst mv) (keys e) /\
  (e_eval e (apply_move x mv) - e_eval e x == 3 /\ lagrangian_penalty 1 g mv == 0)%Q.
Proof.
  exists (mkExpr [(0%nat, -(3)); (1%nat, -(1))]%Q 0), (fun v => if Nat.eqb v 0 then -(3) else -(1))%Q, (fun v => if Nat.eqb v 0 then 1 else 0), [(0%nat, 0)].
  split; [repeat (apply NoDup_cons; [cbn; intuition congruence|]); apply NoDup_nil|]. split; [intros v q [E|[E|[]]]; injection E as <- <-; reflexivity|].
  split; [repeat (apply NoDup_cons; [cbn; intuition congruence|]); apply NoDup_nil|]. split; [intros v [<-|[]]; left; reflexivity|]. split; vm_compute; reflexivity.
Qed.
Print Assumptions C42_lagrangian_refuted.
Example C42_lagrangian_example : let e := mkExpr [(0%nat, -(3)); (1%nat, 2)]%Q 5 in wf e /\ proper [(0%nat, 1); (1%nat, 1)] /\ incl (map fst [(0%nat, 1); (1%nat, 1)]) (keys e) /\
  (lagrangian_penalty 10 (fun v => if Nat.eqb v 0 then -(3) else 2) [(0%nat, 1%Z); (1%nat, 1%Z)] == -(10))%Q.
Proof.
  cbv zeta. split; [repeat (apply NoDup_cons; [cbn; intuition congruence|]); apply NoDup_nil|]. split; [repeat (apply NoDup_cons; [cbn; intuition congruence|]); apply NoDup_nil|].
  split; [intros v I; exact I|]. vm_compute. reflexivity.
Qed.

(** Three updates and a reset: variable 1 three times, 2 twice, 3 once. *)
Definition ex_history : list mem_event :=
  [MUpdate 0 2 [(1%nat, 3); (2%nat, 0)] [5%nat]; MUpdate 1 2 [(1%nat, 1)] [5; 6]%nat; MReset; MUpdate 2 2 [(1%nat, 2); (2%nat, 5); (3%nat, 3)] []].
Example C42_example :
  NoDup [1; 2; 3]%nat /\ incl (altered ex_history) [1; 2; 3]%nat /\ (mm_primal (mem_run ex_history) == 14 # 36)%Q /\
  (mm_dual (mem_run ex_history) == 5 # 9)%Q /\
  (frequency_penalty 6 (mem_run ex_history) 3%Z [(2%nat, 0%Z); (3%nat, 1%Z)] == 3)%Q /\
  mm_global (mem_run ex_history) 2%nat = 4.
Proof.
  split; [repeat (apply NoDup_cons; [cbn; intuition congruence|]); apply NoDup_nil|].
  split; [intros v; cbn; intuition|]. vm_compute. auto.
Qed.

(** ** C43 *)
(** Mode All (not for selection moves): permissible iff some altered variable is no
    longer tabu.  Mode Any and selection moves: permissible iff none is tabu.  A
    variable is released when its last alteration since the last reset (iteration
    plus randomness) is at least the tenure ago; a variable not altered since then
    counts as altered at iteration -1000. *)
Theorem C43_permissible : forall es tenure iteration mv,
  (permissible true (mem_run es) (iteration - tenure) mv = true <-> exists v n, In (v, n) mv /\ released es tenure iteration v) /\
  (permissible false (mem_run es) (iteration - tenure) mv = true <-> forall v n, In (v, n) mv -> released es tenure iteration v).
Proof. exact permissible_spec. Qed.
Print Assumptions C43_permissible.

(** The randomness of the stamp is at most the width of the window: counted from the
    last alteration a variable is tabu for more than tenure - width - 1 iterations and
    free after tenure + width. *)
Theorem C43_window : forall es1 it w a v d b cs es2 tenure iteration n, ~ In v (map fst b) -> untouched v es2 -> 0 <= w ->
  let m := mem_run (es1 ++ MUpdate it w (a ++ (v, d) :: b) cs :: es2) in
  (it + tenure + w <= iteration -> forall all, permissible all m (iteration - tenure) [(v, n)] = true) /\
  (iteration < it + tenure - w -> forall all, permissible all m (iteration - tenure) [(v, n)] = false).
Proof. exact tabu_window. Qed.
Print Assumptions C43_window.

Example C43_stamps : stamped ex_history 1 2 /\ stamped ex_history 2 1 /\ stamped ex_history 3 3 /\ unstamped ex_history 4 /\
  permissible true (mem_run ex_history) (5 - 3) [(1%nat, 0); (3%nat, 1)] = true /\
  permissible false (mem_run ex_history) (5 - 3) [(1%nat, 0); (3%nat, 1)] = false.
Proof.
  split; [exists (firstn 3 ex_history), 2, 2, [], 2, [(2%nat, 5); (3%nat, 3)], [], []; split; [reflexivity|]; split; [cbn; intuition congruence|]; split; [apply Forall_nil|]; exists 0; split; [left; split; [lia|]; split; [lia|]; exists 0; lia|lia]|].
  split; [exists (firstn 3 ex_history), 2, 2, [(1%nat, 2)], 5, [(3%nat, 3)], [], []; split; [reflexivity|]; split; [cbn; intuition congruence|]; split; [apply Forall_nil|]; exists (-1); split; [left; split; [lia|]; split; [lia|]; exists 1; lia|lia]|].
  split; [exists (firstn 3 ex_history), 2, 2, [(1%nat, 2); (2%nat, 5)], 3, [], [], []; split; [reflexivity|]; split; [cbn; intuition congruence|]; split; [apply Forall_nil|]; exists 1; split; [left; split; [lia|]; split; [lia|]; exists 0; lia|lia]|].
  split; [|split; reflexivity].
  right. exists (firstn 2 ex_history), (skipn 3 ex_history). split; [reflexivity|]. cbn. apply Forall_cons; [cbn; intuition congruence|apply Forall_nil].
Qed.

(** The claim "a variable never altered is not tabu" fails for tenures above 1000,
    which the setup allows. *)
Theorem C43_never_altered_refuted : exists tenure, tn_tenure (tenure_setup tenure 5000 0) = tenure /\
  permissible false (mem_run []) (0 - tenure) [(0%nat, 1)] = false /\ permissible true (mem_run []) (0 - tenure) [(0%nat, 1)] = false.
Proof. exists 1001. vm_compute. auto. Qed.
Print Assumptions C43_never_altered_refuted.

(** After every history of tenure updates: no division by zero; the tenure is within
    0 and max(1, number of mutable variables), at least half the setup value, and
    each update changes it by at most one, except that improving the global
    incumbent brings it back to the setup value. *)
Theorem C43_tenure : forall inc dec nmut initial q0 es, 0 <= initial -> 0 <= nmut ->
  exists t, tenure_run inc dec nmut es (tenure_setup initial nmut q0) = Some t /\
    0 <= tn_tenure t <= Z.max 1 nmut /\
    (0 < initial -> 0 < nmut -> Z.max 1 (Z.min initial nmut / 2) <= tn_tenure t <= nmut) /\
    (forall g it q, exists t', tenure_run inc dec nmut (es ++ [(g, it, q)]) (tenure_setup initial nmut q0) = Some t' /\
       (g = true -> Z.min initial nmut < tn_tenure t -> tn_tenure t' = Z.min initial nmut) /\
       (~ (g = true /\ Z.min initial nmut < tn_tenure t) -> Z.abs (tn_tenure t' - tn_tenure t) <= 1)).
Proof. exact tenure_history. Qed.
Print Assumptions C43_tenure.

(** Thresholds 0: two rises, then the return to the setup value. *)
Example C43_tenure_example :
  option_map tn_tenure (tenure_run 0 0 100 [(false, 11, (1 # 5)%Q); (false, 23, (1 # 4)%Q)] (tenure_setup 10 100 0)) = Some 12 /\
  option_map tn_tenure (tenure_run 0 0 100 [(false, 11, (1 # 5)%Q); (false, 23, (1 # 4)%Q); (true, 24, (1 # 4)%Q)] (tenure_setup 10 100 0)) = Some 10 /\
  option_map tn_tenure (tenure_run 0 0 100 [(false, 11, (- (1))%Q); (false, 21, (- (2))%Q)] (tenure_setup 10 100 0)) = Some 8.
Proof. vm_compute. auto. Qed.

(** ** C51 *)
(** Of a non-empty list of trial moves one is always chosen.  Unless the aspiration
    rule applies it belongs to the best class present (free before tabu before
    useless special moves), has the least penalized score within it and is the
    first such; the aspiration rule applies exactly when the option is on and some
    trial solution improves the global incumbent, and then takes the trial with the
    least global objective and reports whether it was tabu. *)
Theorem C51_selected_move : forall (ignore : bool) inc ts, ts <> [] -> (forall t, In t ts -> small t) ->
  exists i t asp, select_move ignore inc ts = Some (i, asp) /\ nth_error ts i = Some t /\
  (((ignore = false \/ forall u, In u ts -> ~ beats inc u) /\ asp = false /\
    (forall u, In u ts -> class t <= class u) /\
    (forall u, In u ts -> class u = class t -> raw t <= raw u)%Q /\
    (forall k u, (k < i)%nat -> nth_error ts k = Some u -> class u = class t -> raw t < raw u)%Q) \/
   (ignore = true /\ beats inc t /\ asp = negb (tr_permissible t) /\
    (forall u, In u ts -> sc_global_aug (tr_score t) <= sc_global_aug (tr_score u))%Q)).
Proof. exact select_move_spec. Qed.
Print Assumptions C51_selected_move.

Definition ex_trial (q : Q) (perm : bool) : trial := mkTrial (mkScore 0 0 0 0 0 q q true false true) 0 0 perm false.
Example C51_example : let ts := [ex_trial 5 false; ex_trial 7 true; ex_trial 6 true; ex_trial 6 true] in
  (forall t, In t ts -> small t) /\ select_move true (Some (5 + EPS)%Q) ts = Some (2%nat, false) /\ select_move true (Some 6%Q) ts = Some (0%nat, true) /\
  select_move false None ts = Some (2%nat, false) /\ select_move true None [ex_trial 1 true] = Some (0%nat, false).
Proof. cbv zeta. split; [intros t H; cbn [In] in H; intuition subst; reflexivity|]. vm_compute. auto. Qed.
