(** The effect of the operations on one element of an array. *)
From Coq Require Import List ZArith QArith Bool String Lia.
From Verif Require Import PresolveModel ExprModel ExprProof ArrayModel ArraySpec ArrayProof ArrayProof2 ArrayProof3.
Import ListNotations.
Local Open Scope Q_scope.

Lemma lin_div a s x : lin (sens_map (fun c => c / a) s) x == lin s x / a.
Proof. induction s as [|[v c] s IH]; cbn -[Qmult Qplus Qdiv Qinv]; [unfold Qdiv; ring|]. rewrite IH. unfold Qdiv. ring. Qed.
Lemma eval_div e a g x : e_div e a = Some g -> ~ a == 0 /\ e_eval g x == e_eval e x / a.
Proof.
  unfold e_div. destruct (Qeq_bool a 0) eqn:E; intros H; [discriminate|]. injection H as <-. split.
  - intros Z. apply Qeq_eq_bool in Z. congruence.
  - rewrite !eval_lin. cbn [ex_const ex_sens]. rewrite lin_div. unfold Qdiv. ring.
Qed.
Lemma lin_zero s : lin s (fun _ => 0%Z) == 0.
Proof. induction s as [|[v c] s IH]; cbn -[Qmult Qplus inject_Z]; [reflexivity|]. rewrite IH. change (inject_Z 0) with 0. ring. Qed.
Lemma on_cell_other w a i f w' b j : on_cell w a i f = Ok w' -> (b, j) <> (a, i) -> cell w' b j = cell w b j.
Proof.
  unfold on_cell. destruct (cell w a i) as [[e n]|] eqn:C; [|discriminate]. destruct (f e) as [e'| |]; cbn [bind]; try discriminate.
  intros H N. injection H as <-. rewrite (cell_set w a i (e', n) (e, n) b j C).
  destruct (Nat.eqb b a && Nat.eqb j i)%bool eqn:E; [|reflexivity]. apply andb_prop in E. destruct E as [E1 E2]. apply Nat.eqb_eq in E1, E2. congruence.
Qed.
Lemma on_cell_self w a i f w' e n : on_cell w a i f = Ok w' -> cell w a i = Some (e, n) -> exists g, f e = Ok g /\ cell w' a i = Some (g, n).
Proof.
  unfold on_cell. intros H C. rewrite C in H. destruct (f e) as [e'| |]; cbn [bind] in H; try discriminate. injection H as <-. exists e'. split; [reflexivity|].
  rewrite (cell_set w a i (e', n) (e, n) a i C), !Nat.eqb_refl. reflexivity.
Qed.
Lemma element_step w o w' x b j e n : a_step w o = Ok w' -> cell w b j = Some (e, n) ->
  exists g m, cell w' b j = Some (g, m) /\ (changes b j o = false -> (g, m) = (e, n)) /\
  (changes b j o = true -> forall other, (match o with ACopy _ _ c k => exists t, cell w c k = Some t /\ fst t = other | _ => True end) -> e_eval g x == effect o (e_eval e x) other x).
Proof.
  assert (OC : forall a i f, on_cell w a i f = Ok w' -> cell w b j = Some (e, n) ->
     exists g m, cell w' b j = Some (g, m) /\ ((Nat.eqb b a && Nat.eqb j i)%bool = false -> (g, m) = (e, n)) /\ ((Nat.eqb b a && Nat.eqb j i)%bool = true -> f e = Ok g)).
  { intros a i f H C. destruct (Nat.eqb b a && Nat.eqb j i)%bool eqn:E.
    - apply andb_prop in E. destruct E as [E1 E2]. apply Nat.eqb_eq in E1, E2. subst. destruct (on_cell_self w a i f w' e n H C) as (g & F & G).
      exists g, n. split; [exact G|]. split; [discriminate|intros _; exact F].
    - exists e, n. split; [|split; [reflexivity|discriminate]]. rewrite <- C. apply (on_cell_other w a i f w' b j H). intros X. injection X as <- <-. rewrite !Nat.eqb_refl in E. discriminate. }
  intros H C. destruct o; cbn [a_step changes effect] in *; try (destruct (OC _ _ _ H C) as (g & m & G1 & G2 & G3); exists g, m; split; [exact G1|]; split; [exact G2|]; intros E other _; specialize (G3 E)).
  - injection H as <-. exists e, n. split; [|split; [reflexivity|discriminate]].
    unfold cell in *. cbn [w_arrays]. destruct (nth_error (w_arrays w) b) as [r|] eqn:N; [|discriminate]. rewrite nth_error_app1 by (apply nth_error_Some; congruence). rewrite N. exact C.
  - destruct (cell w a i) as [c0|] eqn:D; [|discriminate]. injection H as <-.
    rewrite (cell_set (mkWorld (w_exts w ++ [mkExt [0%Z] EmptyString]) (w_arrays w)) a i (e0, List.length (w_exts w)) c0 b j D), cell_exts.
    destruct (Nat.eqb b a && Nat.eqb j i)%bool eqn:E.
    + eexists. eexists. split; [reflexivity|]. split; [discriminate|]. intros _ other _. reflexivity.
    + exists e, n. split; [exact C|]. split; [reflexivity|discriminate].
  - destruct (cell w a i) as [c0|] eqn:D; [|discriminate]. destruct (cell w b0 j0) as [c1|] eqn:D1; [|discriminate]. injection H as <-.
    rewrite (cell_set w a i c1 c0 b j D). destruct (Nat.eqb b a && Nat.eqb j i)%bool eqn:E.
    + destruct c1 as [g m]. exists g, m. split; [reflexivity|]. split; [discriminate|]. intros _ other (t & T & U). injection T as <-. cbn [fst] in U. subst. reflexivity.
    + exists e, n. split; [exact C|]. split; [reflexivity|discriminate].
  - exists e, n. split; [|split; [reflexivity|discriminate]]. destruct (cell w a i) as [[c0 y]|]; [|discriminate]. destruct (nth_error (w_exts w) y); [|discriminate]. injection H as <-. exact C.
  - injection G3 as <-. unfold e_assign_value, e_eval. cbn. ring.
  - injection G3 as <-. rewrite !eval_lin. unfold e_assign_like. cbn [ex_const ex_sens]. rewrite lin_zero. ring.
  - injection G3 as <-. apply eval_add.
  - injection G3 as <-. apply eval_sub.
  - injection G3 as <-. apply eval_add_value.
  - injection G3 as <-. apply eval_sub_value.
  - injection G3 as <-. apply eval_mul.
  - destruct (e_div e q) as [g'|] eqn:F; [|discriminate]. injection G3 as <-. apply (eval_div _ _ _ x F).
Qed.
