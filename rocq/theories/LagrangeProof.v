(** Proofs for C57: the Lagrangian is a lower bound. *)
From Coq Require Import List ZArith QArith Qabs Permutation Lia Lqa Bool.
From Verif Require Import ExprModel ExprSpec ExprProof ConstraintModel ConstraintSpec ConstraintProof EvalModel EvalSpec EvalSpec2
  EvalProof EvalProof2 EvalProof3 SolutionModel ContainerModel LoopModel LoopSpec LoopProof LoopProof2 LagrangeModel LagrangeSpec.
Import ListNotations.
Local Open Scope Q_scope.

(** ** Grouping the terms of a linear form by variable *)
Fixpoint csum (es : sens) (v : nat) : Q :=
  match es with [] => 0 | (w, q) :: tl => (if Nat.eqb w v then q else 0) + csum tl v end.
Fixpoint vsum (f : nat -> Q) (vars : list nat) : Q := match vars with [] => 0 | v :: tl => f v + vsum f tl end.
Lemma vsum_ext f g vars : (forall v, In v vars -> f v == g v) -> vsum f vars == vsum g vars.
Proof.
  induction vars as [|v l IH]; intros H; cbn [vsum]; [reflexivity|]. rewrite IH by (intros; apply H; now right).
  rewrite (H v (or_introl eq_refl)). reflexivity.
Qed.
Lemma vsum_zero f vars : (forall v, In v vars -> f v == 0) -> vsum f vars == 0.
Proof.
  induction vars as [|v l IH]; intros H; cbn [vsum]; [reflexivity|]. rewrite IH by (intros; apply H; now right).
  rewrite (H v (or_introl eq_refl)). lra.
Qed.
Lemma vsum_nonneg f vars : (forall v, In v vars -> 0 <= f v) -> 0 <= vsum f vars.
Proof.
  induction vars as [|v l IH]; intros H; cbn [vsum]; [lra|]. pose proof (H v (or_introl eq_refl)).
  assert (0 <= vsum f l) by (apply IH; intros; apply H; now right). lra.
Qed.
Lemma vsum_add f g vars : vsum (fun v => f v + g v) vars == vsum f vars + vsum g vars.
Proof. induction vars as [|v l IH]; cbn [vsum]; [lra|]. rewrite IH. lra. Qed.
Lemma vsum_one w q d vars : NoDup vars -> In w vars -> vsum (fun v => (if Nat.eqb w v then q else 0) * d v) vars == q * d w.
Proof.
  induction 1 as [|v l Hn Hd IH]; intros Hin; [destruct Hin|]. cbn [vsum]. destruct Hin as [->|Hin].
  - rewrite Nat.eqb_refl, vsum_zero; [lra|]. intros u Hu. destruct (Nat.eqb_spec w u) as [->|]; [contradiction|lra].
  - rewrite (IH Hin). destruct (Nat.eqb_spec w v) as [->|]; [contradiction|lra].
Qed.
Lemma group es (x y : nat -> Z) vars : NoDup vars -> (forall v, In v (map fst es) -> In v vars) ->
  lin es y - lin es x == vsum (fun v => csum es v * (inject_Z (y v) - inject_Z (x v))) vars.
Proof.
  intros N. induction es as [|[w q] es IH]; intros H; cbn [lin csum].
  - rewrite vsum_zero; [lra|]. intros; lra.
  - assert (IH' := IH (fun v Hv => H v (or_intror Hv))).
    rewrite (vsum_ext _ (fun v => (if Nat.eqb w v then q else 0) * (inject_Z (y v) - inject_Z (x v)) + csum es v * (inject_Z (y v) - inject_Z (x v)))) by (intros; lra).
    rewrite vsum_add, <- IH', (vsum_one w q (fun v => inject_Z (y v) - inject_Z (x v)) vars N (H w (or_introl eq_refl))). lra.
Qed.
Lemma csum_app s t v : csum (s ++ t) v == csum s v + csum t v.
Proof. induction s as [|[w q] s IH]; cbn [app csum]; [lra|]. rewrite IH. lra. Qed.
Lemma csum_absent s v : ~ In v (map fst s) -> csum s v == 0.
Proof.
  induction s as [|[w q] s IH]; intros H; cbn [csum]; [reflexivity|]. cbn [map fst In] in H.
  destruct (Nat.eqb_spec w v) as [->|]; [tauto|]. rewrite IH by tauto. lra.
Qed.
Lemma csum_coef s v : NoDup (map fst s) -> coef s v == csum s v.
Proof.
  unfold coef. induction s as [|[w q] s IH]; intros N; cbn [sens_find csum]; [reflexivity|]. inversion N as [|? ? Hn Hd]; subst.
  destruct (Nat.eqb_spec w v) as [->|]; [rewrite (csum_absent s v Hn); lra|]. rewrite (IH Hd). lra.
Qed.

(** ** The Lagrangian as a function of the assignment *)
Definition scaled (dual : nat -> Q) (ics : list (nat * constr)) : sens :=
  flat_map (fun ic : nat * constr => map (fun p : nat * Q => (fst p, dual (fst ic) * snd p)) (ex_sens (ct_expr (snd ic)))) ics.
Fixpoint weigh (dual : nat -> Q) (f : constr -> Q) (ics : list (nat * constr)) : Q :=
  match ics with [] => 0 | ic :: tl => dual (fst ic) * f (snd ic) + weigh dual f tl end.
Lemma lin_scale k s x : lin (map (fun p : nat * Q => (fst p, k * snd p)) s) x == k * lin s x.
Proof. induction s as [|[v c] s IH]; cbn [map lin fst snd]; [lra|]. rewrite IH. lra. Qed.
Lemma weigh_lin dual x ics : weigh dual (fun c => e_eval (ct_expr c) x) ics == weigh dual (fun c => ex_const (ct_expr c)) ics + lin (scaled dual ics) x.
Proof.
  induction ics as [|ic ics IH]; cbn [weigh scaled flat_map lin]; [lra|]. fold (scaled dual ics). rewrite lin_app, lin_scale, IH, eval_lin. lra.
Qed.
Lemma csum_scaled_one (dual : nat -> Q) (i : nat) (s : sens) (v : nat) : csum (map (fun p : nat * Q => (fst p, dual i * snd p)) s) v ==
  fold_left (fun acc (p : nat * Q) => acc + dual (fst p) * snd p * 1) (map (fun p : nat * Q => (i, snd p)) (filter (fun p : nat * Q => Nat.eqb (fst p) v) s)) 0.
Proof.
  assert (G : forall l a, fold_left (fun acc (p : nat * Q) => acc + dual (fst p) * snd p * 1) l a == a + fold_left (fun acc (p : nat * Q) => acc + dual (fst p) * snd p * 1) l 0).
  { induction l as [|p l IH]; intros a; cbn [fold_left]; [lra|]. rewrite IH, (IH (0 + _)). lra. }
  induction s as [|[w q] s IH]; cbn [map csum filter fold_left fst snd]; [reflexivity|].
  destruct (Nat.eqb w v); cbn [map fold_left fst snd]; [rewrite G, <- IH; lra|rewrite IH; lra].
Qed.
Lemma fold_coefficient (dual : nat -> Q) (l : list (nat * Q)) (a : Q) : fold_left (fun acc (p : nat * Q) => acc + dual (fst p) * snd p * 1) l a == a + fold_left (fun acc (p : nat * Q) => acc + dual (fst p) * snd p * 1) l 0.
Proof.
  revert a. induction l as [|p l IH]; intros a; cbn [fold_left]; [lra|]. rewrite IH, (IH (0 + _)). lra.
Qed.
Lemma coefficient_csum md dual v : wf (md_obj md) ->
  lagrangian_coefficient true md dual v ==
  csum (ex_sens (md_obj md) ++ scaled dual (combine (seq 0 (length (md_cons md))) (md_cons md))) v.
Proof.
  intros W. unfold lagrangian_coefficient, constraint_sensitivities. cbn [dsign]. rewrite fold_coefficient, csum_app, (csum_coef _ _ W).
  apply Qplus_comp; [reflexivity|]. generalize (combine (seq 0 (length (md_cons md))) (md_cons md)) as ics. unfold scaled.
  induction ics as [|ic ics IH]; cbn [flat_map]; [reflexivity|].
  rewrite fold_left_app, fold_coefficient, IH, csum_app, csum_scaled_one. reflexivity.
Qed.

Definition lag (md : model) (dual : nat -> Q) (x : nat -> Z) : Q :=
  e_eval (md_obj md) x + weigh dual (fun c => e_eval (ct_expr c) x) (combine (seq 0 (length (md_cons md))) (md_cons md)).
Lemma in_combine_nth {A} (l : list A) : forall n i a, In (i, a) (combine (seq n (length l)) l) -> nth_error l (i - n) = Some a /\ (n <= i)%nat.
Proof.
  induction l as [|b l IH]; intros n i a H; cbn [length seq combine] in H; [destruct H|]. destruct H as [E|H].
  - assert (i = n /\ a = b) as [-> ->] by (split; congruence). rewrite Nat.sub_diag. split; [reflexivity|lia].
  - destruct (IH (S n) i a H) as [E L]. split; [|lia]. replace (i - n)%nat with (S (i - S n)) by lia. exact E.
Qed.
Lemma scaled_keys dual ics v : In v (map fst (scaled dual ics)) -> exists ic, In ic ics /\ In v (keys (ct_expr (snd ic))).
Proof.
  unfold scaled. intros H. apply in_map_iff in H as ([w q] & <- & H). apply in_flat_map in H as (ic & Hic & H).
  apply in_map_iff in H as (p & E & Hp). exists ic. split; [exact Hic|]. unfold keys. apply in_map_iff. exists p. split; [|exact Hp]. cbn [fst]. congruence.
Qed.
Lemma lag_diff vars s dual x y : lists_variables vars s -> wf (md_obj (ms_model s)) ->
  lag (ms_model s) dual y - lag (ms_model s) dual x ==
  vsum (fun v => lagrangian_coefficient true (ms_model s) dual v * (inject_Z (y v) - inject_Z (x v))) vars.
Proof.
  intros (N & Ho & Hc) W. unfold lag. rewrite !weigh_lin, !eval_lin.
  set (ics := combine _ _). set (es := ex_sens (md_obj (ms_model s)) ++ scaled dual ics).
  assert (G := group es x y vars N). rewrite (vsum_ext _ (fun v => csum es v * (inject_Z (y v) - inject_Z (x v)))).
  - rewrite <- G; [unfold es; rewrite !lin_app; lra|]. intros v Hv. unfold es in Hv. rewrite map_app in Hv. apply in_app_or in Hv as [Hv|Hv]; [now apply Ho|].
    apply scaled_keys in Hv as ([i c] & Hic & Hk). cbn [snd] in Hk. apply (Hc c v); [|exact Hk]. exact (in_combine_r _ _ _ _ Hic).
  - intros v _. rewrite (coefficient_csum (ms_model s) dual v W). reflexivity.
Qed.

(** The chosen assignment minimizes the Lagrangian. *)
Lemma primal_minimizes vars lo hi s0 s dual y : dual_problem vars s -> ms_fixed s = ms_fixed s0 ->
  (forall v, ms_fixed s0 v = true -> ms_x s v = ms_x s0 v) -> attainable vars lo hi s0 y ->
  lag (ms_model s) dual (primal_step true vars lo hi s dual) <= lag (ms_model s) dual y.
Proof.
  intros (V & _ & _ & W) Ef Ex A. set (x := primal_step true vars lo hi s dual).
  assert (D := lag_diff vars s dual x y V W).
  assert (P : 0 <= vsum (fun v => lagrangian_coefficient true (ms_model s) dual v * (inject_Z (y v) - inject_Z (x v))) vars); [|lra].
  apply vsum_nonneg. intros v Hv. destruct (A v Hv) as [A1 A2]. unfold x, primal_step. rewrite Ef.
  assert (E : existsb (Nat.eqb v) vars = true) by (apply existsb_exists; exists v; split; [exact Hv|apply Nat.eqb_refl]). rewrite E. cbn [andb].
  destruct (ms_fixed s0 v) eqn:F; cbn [negb].
  - rewrite (Ex v F), (A1 eq_refl). lra.
  - destruct (A2 eq_refl) as [A3 A4]. rewrite Zle_Qle in A3, A4.
    destruct (Qlt_le_dec 0 (lagrangian_coefficient true (ms_model s) dual v)) as [L|L]; cbn [Bool.eqb]; nra.
Qed.

(** Signs of the dual values. *)
Definition sign_ok (sense : csense) (d : Q) : Prop :=
  match sense with Less => 0 <= d | Greater => d <= 0 | Equal => True end.
Definition dual_ok (cons : list constr) (dual : nat -> Q) : Prop := forall i c, nth_error cons i = Some c -> sign_ok (ct_sense c) (dual i).
Lemma clamp_ok c d : sign_ok (ct_sense c) (clamp c d).
Proof. unfold clamp, sign_ok, qmax, qmin. destruct (ct_sense c); [destruct (Qlt_le_dec d 0); lra|exact Logic.I|destruct (Qlt_le_dec 0 d); lra]. Qed.
Lemma update_dual_ok cons step dual : dual_ok cons (update_dual cons step dual).
Proof. intros i c E. unfold update_dual. rewrite E. apply clamp_ok. Qed.
Lemma zero_dual_ok cons : dual_ok cons (zero_dual cons).
Proof. intros i c E. unfold zero_dual. rewrite E. apply clamp_ok. Qed.
Lemma lag_below md dual y : dual_ok (md_cons md) dual -> satisfies_all md y -> lag md dual y <= e_eval (md_obj md) y.
Proof.
  intros D S. unfold lag. assert (K : weigh dual (fun c => e_eval (ct_expr c) y) (combine (seq 0 (length (md_cons md))) (md_cons md)) <= 0); [|lra].
  assert (H : forall ic, In ic (combine (seq 0 (length (md_cons md))) (md_cons md)) -> dual (fst ic) * e_eval (ct_expr (snd ic)) y <= 0).
  { intros [i c] Hi. cbn [fst snd]. pose proof (in_combine_nth _ _ _ _ Hi) as [E _]. rewrite Nat.sub_0_r in E.
    pose proof (D i c E) as Sg. pose proof (S c (nth_error_In _ _ E)) as Ho. unfold sign_ok, holds in *. destruct (ct_sense c); nra. }
  revert H. generalize (combine (seq 0 (length (md_cons md))) (md_cons md)) as ics. induction ics as [|ic ics IH]; intros H; cbn [weigh]; [lra|].
  pose proof (H ic (or_introl eq_refl)). assert (weigh dual (fun c => e_eval (ct_expr c) y) ics <= 0) by (apply IH; intros; apply H; now right). lra.
Qed.
