From Coq Require Import List ZArith QArith Qabs Qround Bool Lia Lqa.
From Verif Require Import ExprModel ExprSpec ExprProof ConstraintModel ConstraintSpec.
Import ListNotations.
Local Open Scope Q_scope.

Lemma qmax_spec a b : (a <= b /\ qmax a b == b) \/ (b <= a /\ qmax a b == a).
Proof. unfold qmax. destruct (Qlt_le_dec a b); [left|right]; split; lra. Qed.
Lemma qmin_spec a b : (a <= b /\ qmin a b == a) \/ (b <= a /\ qmin a b == b).
Proof. unfold qmin. destruct (Qlt_le_dec b a); [right|left]; split; lra. Qed.

Global Instance qmax_comp : Proper (Qeq ==> Qeq ==> Qeq) qmax.
Proof.
  intros a b H c d H'. destruct (qmax_spec a c) as [[? E]|[? E]], (qmax_spec b d) as [[? F]|[? F]]; rewrite E, F; lra.
Qed.
Global Instance qmin_comp : Proper (Qeq ==> Qeq ==> Qeq) qmin.
Proof.
  intros a b H c d H'. destruct (qmin_spec a c) as [[? E]|[? E]], (qmin_spec b d) as [[? F]|[? F]]; rewrite E, F; lra.
Qed.
Lemma qmax_nonneg v : 0 <= qmax v 0.
Proof. destruct (qmax_spec v 0) as [[? E]|[? E]]; rewrite E; lra. Qed.
Lemma neg_qmin v : - qmin v 0 == qmax (- v) 0.
Proof. destruct (qmin_spec v 0) as [[? E]|[? E]], (qmax_spec (- v) 0) as [[? F]|[? F]]; rewrite E, F; lra. Qed.

Global Instance e_eval_ext_proper e : Proper (pointwise_relation _ eq ==> Qeq) (e_eval e).
Proof.
  intros x y H. rewrite !eval_lin. apply Qplus_comp; [reflexivity|].
  induction (ex_sens e) as [|[v c] tl IH]; cbn [lin]; [reflexivity|]. rewrite IH, (H v). reflexivity.
Qed.

(** * C05 *)
Lemma compare_expr_value l r e x : compare_expr l r = Some e ->
  (exists f, r = OExpr f /\ (exists a, l = ONum a) /\ e_eval e x == operand_value l x - operand_value r x) \/
  (~ (exists a, l = ONum a) /\ e_eval e x == operand_value l x - operand_value r x).
Proof.
  destruct l as [f|a], r as [g|b]; cbn [compare_expr]; intros H; inversion H; subst; cbn [operand_value].
  - right. split; [intros [? E]; discriminate|]. apply eval_sub.
  - right. split; [intros [? E]; discriminate|]. apply eval_sub_value.
  - left. exists g. split; [reflexivity|]. split; [now exists a|].
    rewrite eval_add_value, eval_neg. lra.
Qed.
Lemma compare_expr_diff l r e x : compare_expr l r = Some e -> e_eval e x == operand_value l x - operand_value r x.
Proof. intros H. destruct (compare_expr_value l r e x H) as [(f & _ & _ & E)|[_ E]]; exact E. Qed.

Lemma refresh_distance c v ev t l s r :
  ct_sense c = s -> v == l - r -> distance l s r (ct_violation (c_refresh c v ev t)).
Proof.
  intros Hs Hv. unfold c_refresh. cbn [ct_violation]. rewrite Hs.
  assert (Hn := neg_qmin v).
  destruct s.
  - destruct (Qlt_le_dec r l).
    + apply dist_less; [assumption|]. destruct (qmax_spec v 0) as [[? E]|[? E]]; rewrite E; lra.
    + apply dist_sat; [assumption|]. destruct (qmax_spec v 0) as [[? E]|[? E]]; rewrite E; lra.
  - destruct (Qeq_dec l r) as [E0|N0].
    + apply dist_sat; [assumption|]. rewrite Hn.
      destruct (qmax_spec v 0) as [[? E]|[? E]], (qmax_spec (-v) 0) as [[? F]|[? F]]; rewrite E, F; lra.
    + apply dist_equal; [assumption|]. rewrite Hn. rewrite <- Hv.
      destruct (qmax_spec v 0) as [[? E]|[? E]], (qmax_spec (-v) 0) as [[? F]|[? F]]; rewrite E, F.
      * rewrite Qabs_neg by lra. lra.
      * rewrite Qabs_neg by lra. lra.
      * rewrite Qabs_pos by lra. lra.
      * rewrite Qabs_pos by lra. lra.
  - destruct (Qlt_le_dec l r).
    + apply dist_greater; [assumption|]. rewrite Hn. destruct (qmax_spec (-v) 0) as [[? E]|[? E]]; rewrite E; lra.
    + apply dist_sat; [assumption|]. rewrite Hn. destruct (qmax_spec (-v) 0) as [[? E]|[? E]]; rewrite E; lra.
Qed.

Lemma distance_zero l s r d : distance l s r d -> 0 <= d /\ (d == 0 <-> holds l s r).
Proof.
  intros H. destruct H; cbn [holds].
  - split; [lra|]. split; auto.
  - split; [lra|]. split; intros; lra.
  - split; [lra|]. split; intros; lra.
  - split; [rewrite H0; apply Qabs_nonneg|]. split; intros E.
    + exfalso. apply H. rewrite E in H0. symmetry in H0.
      destruct (Qlt_le_dec (l - r) 0).
      * rewrite Qabs_neg in H0 by lra. lra.
      * rewrite Qabs_pos in H0 by lra. lra.
    + contradiction.
Qed.

Lemma compare_correct l s r is01 : (exists e, l = OExpr e) \/ (exists e, r = OExpr e) ->
  exists c, compare l s r is01 = Some c /\ forall x,
    let d := ct_violation (c_update c x) in
    distance (operand_value l x) s (operand_value r x) d /\
    (d == 0 <-> holds (operand_value l x) s (operand_value r x)).
Proof.
  intros H. unfold compare.
  assert (He : exists e, compare_expr l r = Some e).
  { destruct l, r; cbn; eauto. destruct H as [[? E]|[? E]]; discriminate. }
  destruct He as [e He]. rewrite He. eexists; split; [reflexivity|]. intros x. cbv zeta.
  assert (D : distance (operand_value l x) s (operand_value r x) (ct_violation (c_update (c_setup e s is01) x))).
  { apply refresh_distance; [reflexivity|]. cbn [c_setup ct_expr]. now apply compare_expr_diff. }
  split; [exact D|]. now apply distance_zero in D.
Qed.

(** * C06 *)
Lemma refresh_agrees c v x t : v == e_eval (ct_expr c) x -> agrees (c_refresh c v v t) x.
Proof.
  intros Hv. unfold agrees. cbn [c_refresh ct_evalue ct_expr ct_value ct_positive ct_negative ct_sense].
  do 2 (split; [exact Hv|]). split; [now rewrite Hv|].
  split; [rewrite neg_qmin; now rewrite Hv|].
  apply refresh_distance; [reflexivity|]. rewrite Hv. lra.
Qed.

Lemma c_run_agrees es : Forall event_proper es -> forall c x, wf (ct_expr c) -> agrees c x ->
  let r := fold_left c_step es (c, x) in
  snd r = fold_left event_apply es x /\ agrees (fst r) (snd r) /\
  ct_expr (fst r) = ct_expr c /\ ct_sense (fst r) = ct_sense c.
Proof.
  induction es as [|e tl IH]; intros Hp c x Hwf Ha; cbn [fold_left].
  - auto.
  - inversion Hp as [|? ? He Htl]; subst.
    destruct e as [|m]; cbn [c_step event_apply fst snd event_proper] in *.
    + apply (IH Htl (c_update c x) x); [exact Hwf|]. apply refresh_agrees. reflexivity.
    + apply (IH Htl (c_update_move c x m) (apply_move x m)); [exact Hwf|].
      apply refresh_agrees. apply e_eval_move_correct; [exact Hwf|exact He|apply Ha].
Qed.

Lemma c_feasible_iff c : c_is_feasible c = true <-> ct_violation c < EPS.
Proof. unfold c_is_feasible. destruct (Qlt_le_dec _ _); split; intros; auto; [discriminate|lra]. Qed.

Lemma c_history c0 x0 es : wf (ct_expr c0) -> Forall event_proper es ->
  let r := fold_left c_step es (c_update c0 x0, x0) in
  let c := fst r in let x := fold_left event_apply es x0 in
  let v := e_eval (ct_expr c0) x in
  snd r = x /\ ct_value c == v /\ ct_positive c == qmax v 0 /\ ct_negative c == qmax (- v) 0 /\
  distance v (ct_sense c0) 0 (ct_violation c) /\ 0 <= ct_violation c /\
  (c_is_feasible c = true <-> ct_violation c < EPS).
Proof.
  intros Hwf Hp. cbv zeta.
  destruct (c_run_agrees es Hp (c_update c0 x0) x0) as (Hs & (A1 & A2 & A3 & A4 & A5) & E1 & E2).
  - exact Hwf.
  - apply refresh_agrees. reflexivity.
  - rewrite E1 in *. rewrite E2 in *. cbn [c_update c_refresh ct_expr ct_sense] in *.
    rewrite Hs in *. split; [reflexivity|]. repeat (split; [assumption|]). split.
    + exact (proj1 (distance_zero _ _ _ _ A5)).
    + apply c_feasible_iff.
Qed.

(** setup facts *)
Lemma fold_qmax_ge s : forall m, m <= fold_left (fun m p => qmax m (Qabs (@snd nat Q p))) s m /\
  forall v c, In (v, c) s -> Qabs c <= fold_left (fun m p => qmax m (Qabs (@snd nat Q p))) s m.
Proof.
  induction s as [|[w d] tl IH]; intros m; cbn [fold_left snd].
  - split; [lra|intros ? ? []].
  - destruct (IH (qmax m (Qabs d))) as [H1 H2].
    assert (m <= qmax m (Qabs d) /\ Qabs d <= qmax m (Qabs d)) as [G1 G2].
    { destruct (qmax_spec m (Qabs d)) as [[? E]|[? E]]; rewrite E; split; lra. }
    split; [lra|]. intros v c [E|H]; [injection E as -> ->; lra|eauto].
Qed.
Lemma setup_max_abs e s is01 v c : In (v, c) (ex_sens e) -> Qabs c <= ct_max_abs (c_setup e s is01).
Proof. intros H. cbn [c_setup ct_max_abs]. exact (proj2 (fold_qmax_ge (ex_sens e) 0) v c H). Qed.
