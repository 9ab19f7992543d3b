(** Proofs for C87, continued: when the solver restarts and from where. *)
From Coq Require Import List ZArith QArith Qabs Bool Lia Lqa.
From Verif Require Import ExprModel ConstraintModel VariableModel PresolveModel SparseModel LpModel LpSpec RestartModel RestartSpec RestartProof.
Import ListNotations.
Local Open Scope Q_scope.

Lemma d_lt_iff a b : d_lt a b = true <-> less a b.
Proof. destruct a as [x| | |], b as [y| | |]; cbn; try (split; intros H; try discriminate H; try destruct H; reflexivity || exact Logic.I). destruct (Qlt_le_dec x y) as [H|H]; split; intros K; try reflexivity; try exact H; try discriminate K. exfalso. lra. Qed.
Lemma scaled_mul q d : 0 < q -> d_mul q d = scaled q d.
Proof. intros H. destruct d; cbn; try reflexivity; (destruct (Qlt_le_dec 0 q) as [K|K]; [reflexivity|exfalso; lra]). Qed.
Lemma reweights sq w p d w' : w' = (if Qlt_le_dec EPS p then if Qlt_le_dec EPS d then if Qlt_le_dec p (1 / EPS) then if Qlt_le_dec d (1 / EPS) then sq (d / p * w)
    else w else w else w else w) -> reweighted sq w p d w'.
Proof.
  intros ->. unfold reweighted, moderate. assert (E : 1 / EPS == 100000) by reflexivity.
  destruct (Qlt_le_dec EPS p) as [A|A], (Qlt_le_dec EPS d) as [B|B], (Qlt_le_dec p (1 / EPS)) as [C|C], (Qlt_le_dec d (1 / EPS)) as [D|D];
    rewrite E in C, D; unfold EPS in A, B; split; intros H; try reflexivity; exfalso; first [apply H; repeat split; assumption|destruct H as ((H1 & H2) & H3 & H4); lra].
Qed.
Section Decision.
  Context (nrm : vec -> Q) (red ext : nat -> Q) (sq : Q -> Q).
  Definition gap_at (l : lp) (s : rstate) (w : Q) (x y : vec) (odd : dbl) : dbl :=
    normalized_gap nrm sq l w x y (weighted sq w (distance nrm x (rs_bx s)) (distance nrm y (rs_by s))) odd.
  Lemma information_decides o l e s : 0 < ro_sufficient o -> 0 < ro_necessary o ->
    let k := rs_core s in
    let gc := gap_at l s (k_weight k) (k_x k) (k_y k) (re_current e) in
    let ga := gap_at l s (k_weight k) (k_xa k) (k_ya k) (re_average e) in
    exists c g, ((c = true /\ g = gc /\ less gc ga) \/ (c = false /\ g = ga /\ ~ less gc ga)) /\
      ((snd (information nrm sq o l e s) = Some c /\ rs_inner (fst (information nrm sq o l e s)) = g /\
        (k_total k mod po_restart (ro_base o) = O /\ (1 < k_inner k)%nat) /\ reason o s (k_outer k) (k_inner k) (k_total k) g) \/
       (snd (information nrm sq o l e s) = None /\ ~ ((k_total k mod po_restart (ro_base o) = O /\ (1 < k_inner k)%nat) /\ reason o s (k_outer k) (k_inner k) (k_total k) g))) /\
      rs_outer (fst (information nrm sq o l e s)) = rs_outer s /\ rs_outer_prev (fst (information nrm sq o l e s)) = rs_outer_prev s /\
      rs_inner (fst (information nrm sq o l e s)) = (if Nat.eqb (k_total k mod po_restart (ro_base o)) 0 && Nat.ltb 1 (k_inner k) then g else rs_inner s).
  Proof.
    intros S1 S2 k gc ga. exists (d_lt gc ga), (if d_lt gc ga then gc else ga). split.
    { pose proof (d_lt_iff gc ga) as D. destruct (d_lt gc ga); [left|right]; (split; [reflexivity|]; split; [reflexivity|]); [now apply D|intros H; apply D in H; discriminate]. }
    unfold information. fold k. destruct (Nat.leb_spec (k_inner k) 1) as [Hi|Hi].
    { assert (Nat.ltb 1 (k_inner k) = false) as -> by (apply Nat.ltb_ge; lia). rewrite andb_false_r. split; [|repeat split; reflexivity]. right. split; [reflexivity|]. intros [[_ H] _]. lia. }
    assert (Nat.ltb 1 (k_inner k) = true) as -> by (apply Nat.ltb_lt; lia). rewrite andb_true_r.
    destruct (Nat.eqb_spec (k_total k mod po_restart (ro_base o)) 0) as [Ht|Ht]; cbn [negb].
    2: { split; [|repeat split; reflexivity]. right. split; [reflexivity|]. intros [[H _] _]. contradiction. }
    cbv zeta. fold (gap_at l s (k_weight k) (k_x k) (k_y k) (re_current e)). fold (gap_at l s (k_weight k) (k_xa k) (k_ya k) (re_average e)). fold gc ga.
    set (g := if d_lt gc ga then gc else ga). unfold reason. rewrite <- !scaled_mul by assumption. rewrite <- !d_lt_iff.
    destruct (Nat.eqb_spec (k_outer k) 0) as [Ho|Ho]; cbn [negb andb].
    - destruct (Qlt_le_dec _ _) as [A|A]; cbn [fst snd rs_inner rs_outer rs_outer_prev]; (split; [|repeat split; reflexivity]); [left; repeat split; auto|right; split; [reflexivity|]].
      intros (_ & [[H _]|[[H _]|H]]); [contradiction|contradiction|lra].
    - destruct (d_lt g (d_mul (ro_sufficient o) (rs_outer_prev s))); cbn [andb].
      { cbn [fst snd rs_inner rs_outer rs_outer_prev]. split; [|repeat split; reflexivity]. left. repeat split; auto. }
      destruct (d_lt g (d_mul (ro_necessary o) (rs_outer_prev s))); cbn [andb].
      + destruct (d_lt (rs_inner s) g).
        { cbn [fst snd rs_inner rs_outer rs_outer_prev]. split; [|repeat split; reflexivity]. left. repeat split; auto. }
        destruct (Qlt_le_dec _ _) as [A|A]; cbn [fst snd rs_inner rs_outer rs_outer_prev]; (split; [|repeat split; reflexivity]); [left; repeat split; auto|right; split; [reflexivity|]].
        intros (_ & [[_ H]|[(_ & _ & H)|H]]); [discriminate H|discriminate H|lra].
      + destruct (Qlt_le_dec _ _) as [A|A]; cbn [fst snd rs_inner rs_outer rs_outer_prev]; (split; [|repeat split; reflexivity]); [left; repeat split; auto|right; split; [reflexivity|]].
        intros (_ & [[_ H]|[(_ & H & _)|H]]); [discriminate H|discriminate H|lra].
  Qed.
  Lemma check_if (b : bool) l k : let k' := if b then check nrm l k else k in
    k_x k' = k_x k /\ k_y k' = k_y k /\ k_xa k' = k_xa k /\ k_ya k' = k_ya k /\ k_inner k' = k_inner k /\ k_outer k' = k_outer k /\ k_total k' = k_total k /\ k_weight k' = k_weight k.
  Proof. destruct b; repeat split; reflexivity. Qed.
  Lemma decision o l e s s' k0 : 0 < ro_sufficient o -> 0 < ro_necessary o ->
    update_solution red ext (re_trials e) l (rs_core s) = Some k0 -> r_iterate nrm red ext sq o l e s = Some s' ->
    let k := update_averaged k0 in
    let gap x y := normalized_gap nrm sq l (k_weight k) x y (weighted sq (k_weight k) (distance nrm x (rs_bx s)) (distance nrm y (rs_by s))) in
    let gc := gap (k_x k) (k_y k) (re_current e) in
    let ga := gap (k_xa k) (k_ya k) (re_average e) in
    exists x y g, ((x = k_x k /\ y = k_y k /\ g = gc /\ less gc ga) \/ (x = k_xa k /\ y = k_ya k /\ g = ga /\ ~ less gc ga)) /\
      let due := (k_total k mod po_restart (ro_base o) = O /\ (1 < k_inner k)%nat) /\ reason o s (k_outer k) (k_inner k) (k_total k) g in
      k_total (rs_core s') = S (k_total k) /\
      ((due /\ k_x (rs_core s') = x /\ k_y (rs_core s') = y /\ rs_bx s' = x /\ rs_by s' = y /\
        k_inner (rs_core s') = O /\ k_outer (rs_core s') = S (k_outer k) /\ rs_outer s' = g /\ rs_outer_prev s' = rs_outer s /\ rs_inner s' = DBL_MAX /\
      reweighted sq (k_weight k) (distance nrm (k_xa k) (rs_bx s)) (distance nrm (k_ya k) (rs_by s)) (k_weight (rs_core s'))) \/
       (~ due /\ k_x (rs_core s') = k_x k /\ k_y (rs_core s') = k_y k /\ rs_bx s' = rs_bx s /\ rs_by s' = rs_by s /\
        k_inner (rs_core s') = S (k_inner k) /\ k_outer (rs_core s') = k_outer k /\ rs_outer s' = rs_outer s /\ rs_outer_prev s' = rs_outer_prev s /\
      rs_inner s' = (if Nat.eqb (k_total k mod po_restart (ro_base o)) 0 && Nat.ltb 1 (k_inner k) then g else rs_inner s) /\ k_weight (rs_core s') = k_weight k)).
  Proof.
    intros S1 S2 U It k gap gc ga. unfold r_iterate in It. rewrite U in It. cbv zeta in It. fold k in It.
    set (s1 := mkRs k (rs_bx s) (rs_by s) (rs_outer s) (rs_outer_prev s) (rs_inner s) (rs_inner_prev s)) in *.
    pose proof (information_decides o l e s1 S1 S2) as D. cbv zeta in D. change (rs_core s1) with k in D.
    change (gap_at l s1 (k_weight k) (k_x k) (k_y k) (re_current e)) with gc in D. change (gap_at l s1 (k_weight k) (k_xa k) (k_ya k) (re_average e)) with ga in D.
    destruct D as (c & g & B & D & Do & Dp & Di). change (rs_outer s1) with (rs_outer s) in Do. change (rs_outer_prev s1) with (rs_outer_prev s) in Dp. change (rs_inner s1) with (rs_inner s) in Di.
    exists (if c then k_x k else k_xa k), (if c then k_y k else k_ya k), g. split.
    { destruct B as [(-> & -> & B)|(-> & -> & B)]; [left|right]; repeat split; auto. }
    cbv zeta. destruct (information_same nrm sq o l e s1) as (E1 & E2 & E3).
    match type of It with context [if ?b then check nrm l ?kk else _] => pose proof (check_if b l kk) as Ck; cbv zeta in Ck; set (k2 := if b then check nrm l kk else kk) in * end.
    destruct Ck as (C1 & C2 & C3 & C4 & C5 & C6 & C7 & C8). clearbody k2.
    destruct (Nat.eqb_spec (k_total k mod po_restart (ro_base o)) 0) as [Ht|Ht].
    - destruct (information nrm sq o l e s1) as [s2 [b|]]; cbn [fst snd] in *.
      + destruct D as [(Ec & Eg & W & Re)|(H & _)]; [|discriminate H]. injection Ec as ->. injection It as <-. cbn [rs_core count k_total k_x k_y k_inner k_outer k_weight r_new_inner new_inner restart rs_bx rs_by rs_outer rs_outer_prev rs_inner].
        split; [now rewrite C7|]. left. split; [split; [exact W|exact Re]|]. rewrite C1, C2, C3, C4, C6. do 8 (split; [assumption || reflexivity|]). split; [reflexivity|].
        apply reweights. unfold new_weight. rewrite C3, C4, C8. change (rs_bx s) with (rs_bx s1). change (rs_by s) with (rs_by s1). rewrite <- E2, <- E3.
        reflexivity.
      + destruct D as [(H & _)|(_ & N)]; [discriminate H|]. injection It as <-. cbn [rs_core count k_total k_x k_y k_inner k_outer k_weight rs_bx rs_by rs_outer rs_outer_prev rs_inner].
        split; [now rewrite C7|]. right. split; [exact N|]. rewrite C1, C2, C5, C6, C8. repeat split; assumption || reflexivity.
    - injection It as <-. cbn [rs_core count k_total k_x k_y k_inner k_outer k_weight rs_bx rs_by rs_outer rs_outer_prev rs_inner s1].
      split; [now rewrite C7|]. right. split; [intros [[H _] _]; contradiction|]. rewrite C1, C2, C5, C6, C8. repeat split; reflexivity.
  Qed.
  (** ** The gap that is kept *)
  Lemma step_counts trials l k k' lhs n t : step_loop red ext trials l k lhs n t = Some k' -> k_outer k' = k_outer k.
  Proof.
    revert n t. induction trials as [|m IH]; intros n t; cbn [step_loop]; [discriminate|]. destruct (trial _ _ _ _) as [[x y] lim]. cbv zeta.
    repeat match goal with |- context [if ?b then _ else _] => destruct b end; try (intros H; injection H as <-; reflexivity); apply IH.
  Qed.
  Lemma kept_gap o l s : 0 < ro_sufficient o -> 0 < ro_necessary o -> reached nrm red ext sq o l s ->
    (k_outer (rs_core s) = O -> rs_outer s = DBL_MAX) /\ (k_outer (rs_core s) <= 1 -> rs_outer_prev s = DBL_MAX)%nat.
  Proof.
    intros S1 S2 R. induction R as [s E|e s s' R IH It].
    - unfold r_start in E. destruct (core_setup nrm l) as [k| |]; cbn [bind] in E; try discriminate. injection E as <-. split; reflexivity.
    - destruct (update_solution red ext (re_trials e) l (rs_core s)) as [k0|] eqn:U; [|unfold r_iterate in It; rewrite U in It; discriminate].
      pose proof (decision o l e s s' k0 S1 S2 U It) as D. cbv zeta in D. destruct D as (x & y & g & _ & _ & D). assert (Ek : k_outer (update_averaged k0) = k_outer (rs_core s)) by (cbn [update_averaged k_outer]; exact (step_counts _ _ _ _ _ _ _ U)).
      rewrite Ek in D. destruct D as [(_ & _ & _ & _ & _ & _ & Do & _ & Dp & _)|(_ & _ & _ & _ & _ & _ & Do & Dc & Dp & _)]; rewrite Do.
      + split; [discriminate|]. intros H. rewrite Dp. apply IH. lia.
      + rewrite Dc, Dp. exact IH.
  Qed.
  Lemma second o l e s s' k0 : 0 < ro_sufficient o -> 0 < ro_necessary o -> reached nrm red ext sq o l s -> k_outer (rs_core s) = 1%nat ->
    update_solution red ext (re_trials e) l (rs_core s) = Some k0 -> r_iterate nrm red ext sq o l e s = Some s' ->
    (k_total k0 mod po_restart (ro_base o) = 0 /\ 1 < k_inner k0)%nat ->
    let k := update_averaged k0 in
    let gap x y := normalized_gap nrm sq l (k_weight k) x y (weighted sq (k_weight k) (distance nrm x (rs_bx s)) (distance nrm y (rs_by s))) in
    less (gap (k_x k) (k_y k) (re_current e)) (scaled (ro_sufficient o) DBL_MAX) -> less (gap (k_xa k) (k_ya k) (re_average e)) (scaled (ro_sufficient o) DBL_MAX) ->
    k_outer (rs_core s') = 2%nat.
  Proof.
    intros S1 S2 R O1 U It W k gap Lc La. destruct (kept_gap o l s S1 S2 R) as [_ Kp]. specialize (Kp ltac:(lia)).
    pose proof (decision o l e s s' k0 S1 S2 U It) as D. cbv zeta in D. fold k in D. destruct D as (x & y & g & B & _ & D).
    assert (Ek : k_outer k = 1%nat) by (cbn [k update_averaged k_outer]; rewrite (step_counts _ _ _ _ _ _ _ U); exact O1).
    assert (Lg : less g (scaled (ro_sufficient o) (rs_outer_prev s))) by (rewrite Kp; destruct B as [(_ & _ & -> & _)|(_ & _ & -> & _)]; assumption).
    destruct D as [(_ & _ & _ & _ & _ & _ & Do & _)|(N & _)]; [rewrite Do, Ek; reflexivity|]. exfalso. apply N. split; [exact W|]. left. split; [rewrite Ek; discriminate|exact Lg].
  Qed.
End Decision.
(** ** An example: maximizing x0 + x1 within [0, 1] *)
Definition z_env : renv := mkRe false 20 (Fin 0) (Fin 0).
Definition z_row (v : nat) : constr := c_setup (mkExpr [(v, 1)] 0) Greater (fun _ => false).
Definition z_objective : expr := mkExpr [(0%nat, -(1)); (1%nat, -(1))] 0.
Definition z_lp : lp := ltac:(let v := eval vm_compute in (export true z_objective x_box [0%nat; 1%nat] [] [] [] [] [z_row 0; z_row 1]) in match v with Ok ?l => exact l end).
Lemma z_export : export true z_objective x_box [0%nat; 1%nat] [] [] [] [] [z_row 0; z_row 1] = Ok z_lp.
Proof. vm_compute. reflexivity. Qed.
Definition z_options : roption := mkRo (mkPo 9 (1 # 100) 1 1 1 0 false) (1 # 10) (9 # 10) (36 # 100).
Fixpoint z_go (n : nat) (s : rstate) : option rstate := match n with O => Some s | S m => match r_iterate top half half root2 z_options z_lp z_env s with None => None | Some s => z_go m s end end.
Lemma z_reached n : forall s s', reached top half half root2 z_options z_lp s -> z_go n s = Some s' -> reached top half half root2 z_options z_lp s'.
Proof.
  induction n as [|n IH]; intros s s' R; cbn [z_go]; [intros H; now injection H as <-|]. destruct (r_iterate _ _ _ _ _ _ _ _) as [s1|] eqn:E; [|discriminate].
  intros H. exact (IH s1 s' (later _ _ _ _ _ _ z_env s s1 R E) H).
Qed.
Definition z_at (n : nat) : option rstate := match r_start top z_lp with Ok s => z_go n s | _ => None end.
Definition z_gap (s : rstate) (k : core) (x y : vec) : dbl :=
  normalized_gap top root2 z_lp (k_weight k) x y (weighted root2 (k_weight k) (distance top x (rs_bx s)) (distance top y (rs_by s))) (Fin 0).
Definition z_check (n outer outer' : nat) (kept : dbl -> bool) : bool :=
  match z_at n with
  | Some s => match update_solution half half 20 z_lp (rs_core s), r_iterate top half half root2 z_options z_lp z_env s with
    | Some k0, Some s' => let k := update_averaged k0 in
        Nat.eqb (k_outer (rs_core s)) outer && Nat.eqb (k_outer (rs_core s')) outer' && Nat.eqb (k_total k0 mod 1) 0 && Nat.ltb 1 (k_inner k0) &&
        d_lt (z_gap s k (k_x k) (k_y k)) (scaled (1 # 10) DBL_MAX) && d_lt (z_gap s k (k_xa k) (k_ya k)) (scaled (1 # 10) DBL_MAX) && kept (rs_outer s)
    | _, _ => false
    end
  | None => false
  end.
Lemma z_checked n outer outer' kept : z_check n outer outer' kept = true ->
  exists s k0 s', reached top half half root2 z_options z_lp s /\ k_outer (rs_core s) = outer /\ k_outer (rs_core s') = outer' /\ kept (rs_outer s) = true /\
    update_solution half half (re_trials z_env) z_lp (rs_core s) = Some k0 /\ r_iterate top half half root2 z_options z_lp z_env s = Some s' /\
    (k_total k0 mod po_restart (ro_base z_options) = 0 /\ 1 < k_inner k0)%nat /\
    let k := update_averaged k0 in
    less (z_gap s k (k_x k) (k_y k)) (scaled (ro_sufficient z_options) DBL_MAX) /\ less (z_gap s k (k_xa k) (k_ya k)) (scaled (ro_sufficient z_options) DBL_MAX).
Proof.
  unfold z_check. destruct (z_at n) as [s|] eqn:A; [|discriminate]. destruct (update_solution half half 20 z_lp (rs_core s)) as [k0|] eqn:U; [|discriminate].
  destruct (r_iterate top half half root2 z_options z_lp z_env s) as [s'|] eqn:I; [|discriminate]. cbv zeta. intros H. repeat (apply andb_prop in H as [H ?]).
  exists s, k0, s'. split; [|split; [now apply Nat.eqb_eq|split; [now apply Nat.eqb_eq|split; [assumption|split; [exact U|split; [exact I|split; [split; [now apply Nat.eqb_eq|now apply Nat.ltb_lt]|split; now apply d_lt_iff]]]]]]].
  unfold z_at in A. destruct (r_start top z_lp) as [s0| |] eqn:S0; [|discriminate|discriminate]. exact (z_reached n s0 s (first _ _ _ _ _ _ s0 S0) A).
Qed.
