(** The Lagrangian term in the choice of the next move. *)
From Coq Require Import List ZArith QArith Lqa Permutation Lia.
From Verif Require Import ExprModel ExprSpec TabuModel ExprProof.
Import ListNotations.
Local Open Scope Q_scope.

Fixpoint targets (g : nat -> Q) (m : alterations) : Q := match m with [] => 0 | (v, n) :: tl => g v * inject_Z n + targets g tl end.
Fixpoint befores (g : nat -> Q) (x : nat -> Z) (l : list nat) : Q := match l with [] => 0 | v :: tl => g v * inject_Z (x v) + befores g x tl end.
Lemma penalty_targets c g m : lagrangian_penalty c g m == c * targets g m.
Proof.
  unfold lagrangian_penalty. assert (H : forall q, fold_left (fun q a => q + g (fst a) * inject_Z (snd a)) m q == q + targets g m).
  { induction m as [|[v n] tl IH]; intros q; cbn [fold_left targets fst snd]; [lra|]. rewrite IH. lra. }
  rewrite H. lra.
Qed.
Lemma befores_perm g x l l' : Permutation l l' -> befores g x l == befores g x l'.
Proof. induction 1; cbn [befores]; lra. Qed.
Lemma coef_in s v q : NoDup (map fst s) -> In (v, q) s -> coef s v = q.
Proof.
  unfold coef. induction s as [|[w a] tl IH]; intros N I; [destruct I|]. cbn [sens_find fst snd] in *. inversion N as [|? ? N1 N2]; subst.
  destruct I as [E|I]; [injection E as -> ->; now rewrite Nat.eqb_refl|]. destruct (Nat.eqb_spec w v) as [->|_]; [destruct N1; apply (in_map fst) in I; exact I|]. exact (IH N2 I).
Qed.
Lemma delta_targets s g x m : (forall v, In v (map fst m) -> coef s v == g v) -> delta s x m == targets g m - befores g x (map fst m).
Proof.
  induction m as [|[v n] tl IH]; cbn [delta targets befores map fst]; intros H; [lra|]. rewrite IH by (intros w I; apply H; right; exact I).
  rewrite (H v (or_introl eq_refl)). replace (n - x v)%Z with (n + - x v)%Z by lia. rewrite inject_Z_plus, inject_Z_opp. lra.
Qed.
Lemma penalty_change c e g x m : wf e -> proper m -> (forall v q, In (v, q) (ex_sens e) -> g v == q) -> incl (map fst m) (keys e) ->
  lagrangian_penalty c g m == c * (e_eval e (apply_move x m) - e_eval e x + befores g x (map fst m)).
Proof.
  intros W P G I. rewrite penalty_targets. assert (D : delta (ex_sens e) x m == targets g m - befores g x (map fst m)).
  { apply delta_targets. intros v V. apply I in V. unfold keys in V. apply in_map_iff in V as ([w q] & <- & V). cbn [fst]. rewrite (coef_in _ _ _ W V). symmetry. exact (G _ _ V). }
  rewrite !eval_lin, (lin_apply _ _ W _ P). rewrite D. lra.
Qed.
Lemma penalty_differs c e g x m m' : wf e -> proper m -> proper m' -> Permutation (map fst m) (map fst m') ->
  (forall v q, In (v, q) (ex_sens e) -> g v == q) -> incl (map fst m) (keys e) ->
  lagrangian_penalty c g m - lagrangian_penalty c g m' == c * (e_eval e (apply_move x m) - e_eval e (apply_move x m')).
Proof.
  intros W P P' E G I. assert (I' : incl (map fst m') (keys e)) by (intros v V; apply I; exact (Permutation_in _ (Permutation_sym E) V)).
  rewrite (penalty_change c e g x m W P G I), (penalty_change c e g x m' W P' G I'), (befores_perm g x _ _ E). lra.
Qed.
Lemma penalty_off c e g x m : wf e -> proper m -> (forall v q, In (v, q) (ex_sens e) -> g v == q) -> incl (map fst m) (keys e) ->
  (forall v, In v (map fst m) -> x v = 0%Z) -> lagrangian_penalty c g m == c * (e_eval e (apply_move x m) - e_eval e x).
Proof.
  intros W P G I Z. rewrite (penalty_change c e g x m W P G I). assert (B : befores g x (map fst m) == 0).
  { clear -Z. induction (map fst m) as [|v l IH]; cbn [befores]; [lra|]. rewrite (Z v (or_introl eq_refl)), IH by (intros w V; apply Z; right; exact V). change (inject_Z 0) with 0. lra. }
  rewrite B. lra.
Qed.
