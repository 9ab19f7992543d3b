(** The harm of a candidate (C82). *)
From Coq Require Import List ZArith QArith Qabs Bool Lia Lqa Permutation.
From Verif Require Import ExprModel ExprSpec ConstraintModel ConstraintSpec VariableModel TypeModel EvalModel PresolveModel
  DuplicateModel SelectionModel SelectionSpec CorrectSpec.
From Verif Require Import ExprProof EvalProof.
Import ListNotations.
Local Open Scope Q_scope.

(** * Changing one variable from 0 to 1 *)
Definition raised (y : nat -> Z) (v : nat) (y' : nat -> Z) : Prop := y v = 0%Z /\ y' v = 1%Z /\ forall w, w <> v -> y' w = y w.
Lemma lin_absent (s : sens) y v y' : raised y v y' -> ~ In v (map fst s) -> lin s y' == lin s y.
Proof.
  intros (_ & _ & O). induction s as [|[w a] s IH]; cbn [lin map fst]; intros N; [reflexivity|].
  rewrite IH by (intros X; apply N; now right). rewrite O by (intros ->; apply N; now left). reflexivity.
Qed.
Lemma lin_present (s : sens) y v y' a : raised y v y' -> NoDup (map fst s) -> In (v, a) s -> lin s y' == lin s y + a.
Proof.
  intros R. pose proof R as (Y0 & Y1 & O). induction s as [|[w b] s IH]; cbn [lin map fst]; intros N I; [destruct I|].
  inversion N as [|? ? Nw N']; subst. destruct I as [E|I].
  - injection E as -> ->. rewrite (lin_absent s y v y' R Nw), Y0, Y1. change (inject_Z 1) with 1. change (inject_Z 0) with 0. lra.
  - rewrite (IH N' I). rewrite O; [lra|]. intros ->. apply Nw, in_map_iff. exists (v, a). auto.
Qed.

(** * The tally of the constraints *)
Definition matches (cs : list constr) (vals : nat -> Q) (y : nat -> Z) : Prop :=
  forall i c, nth_error cs i = Some c -> vals i + ex_const (ct_expr c) == e_eval (ct_expr c) y.
Definition listed (cs : list constr) (sens : nat -> list (nat * Q)) : Prop := forall v, Permutation (sens v) (constraint_sensitivities cs v).

Lemma listed_in cs sens v i a : listed cs sens -> (In (i, a) (sens v) <-> exists c, nth_error cs i = Some c /\ In (v, a) (ex_sens (ct_expr c))).
Proof.
  intros L. rewrite <- sens_entry0. split; intros X; [exact (Permutation_in _ (L v) X)|exact (Permutation_in _ (Permutation_sym (L v)) X)].
Qed.
Lemma add_fold l : forall vals i, NoDup (map fst l) ->
  let r := fold_left (fun vals (p : nat * Q) => fun i => if Nat.eqb i (fst p) then (vals i + snd p)%Q else vals i) l vals in
  (forall a, In (i, a) l -> r i == vals i + a) /\ (~ In i (map fst l) -> r i == vals i).
Proof.
  induction l as [|[j b] l IH]; intros vals i N; cbn [fold_left map fst snd]; [split; [intros a []|reflexivity]|].
  inversion N as [|? ? Nj N']; subst. destruct (IH (fun i => if Nat.eqb i j then (vals i + b)%Q else vals i) i N') as [A B]. cbn beta in *.
  split.
  - intros a [E|I].
    + injection E as -> ->. rewrite (B Nj), Nat.eqb_refl. reflexivity.
    + rewrite (A a I). assert (D : i <> j) by (intros ->; apply Nj, in_map_iff; exists (j, a); auto).
      rewrite (proj2 (Nat.eqb_neq i j) D). reflexivity.
  - intros X. rewrite B by (intros Y; apply X; now right). assert (D : i <> j) by (intros ->; apply X; now left).
    rewrite (proj2 (Nat.eqb_neq i j) D). reflexivity.
Qed.
Lemma add_matches cs sens vals y v y' : (forall c, In c cs -> wf (ct_expr c)) -> listed cs sens -> matches cs vals y -> raised y v y' ->
  matches cs (add_sens sens vals v) y'.
Proof.
  intros W L M R i c E. unfold add_sens.
  assert (ND : NoDup (map fst (sens v))).
  { apply (Permutation_NoDup (Permutation_map fst (Permutation_sym (L v)))). now apply sens_nodup. }
  destruct (add_fold (sens v) vals i ND) as [A B]. cbv zeta in A, B. specialize (M i c E).
  assert (Wc : wf (ct_expr c)) by (apply W; eapply nth_error_In; eauto). rewrite eval_lin in M. rewrite eval_lin.
  destruct (in_dec Nat.eq_dec v (map fst (ex_sens (ct_expr c)))) as [I|I].
  - apply in_map_iff in I as ((v' & a) & Ev & I). cbn in Ev. subst v'.
    rewrite (A a) by (apply (listed_in cs sens v i a L); eauto). rewrite (lin_present _ _ _ _ a R Wc I). lra.
  - rewrite B. 2:{ intros X. apply in_map_iff in X as ((i' & a) & Ei & X). cbn in Ei. subst i'. apply (listed_in cs sens v i a L) in X as (d & Ed & X).
      assert (d = c) by congruence. subst d. apply I, in_map_iff. exists (v, a). auto. }
    rewrite (lin_absent _ _ _ _ R I). exact M.
Qed.

(** * The violations a candidate is charged with *)
Definition excess (s : csense) (x : Q) : Q := match s with Less => qmax x 0 | Equal => Qabs x | Greater => qmax (- x) 0 end.
Definition charge (cs : list constr) (vals : nat -> Q) (p : nat * Q) : Q :=
  match nth_error cs (fst p) with None => 0 | Some c => excess (ct_sense c) (vals (fst p) + snd p + ex_const (ct_expr c)) end.
Definition qsum (l : list Q) : Q := fold_right Qplus 0 l.
Lemma qmax_eq a b : qmax a b == a /\ b <= a \/ qmax a b == b /\ a <= b.
Proof. unfold qmax. destruct (Qlt_le_dec a b) as [L|L]; [right; split; [reflexivity|lra]|left; split; [reflexivity|lra]]. Qed.
Lemma excess_distance s x e : x == e -> distance e s 0 (excess s x).
Proof.
  intros E. destruct s; cbn [excess].
  - destruct (qmax_eq x 0) as [[A B]|[A B]].
    + destruct (Qlt_le_dec 0 x) as [L|L]; [apply dist_less; lra|apply dist_sat; [cbn; lra|lra]].
    + apply dist_sat; [cbn; lra|exact A].
  - destruct (Qeq_dec e 0) as [Z|Z].
    + apply dist_sat; [exact Z|]. rewrite E, Z. reflexivity.
    + apply dist_equal; [exact Z|]. setoid_replace (e - 0) with x by lra. reflexivity.
  - destruct (qmax_eq (- x) 0) as [[A B]|[A B]].
    + destruct (Qlt_le_dec x 0) as [L|L]; [apply dist_greater; lra|apply dist_sat; [cbn; lra|lra]].
    + apply dist_sat; [cbn; lra|exact A].
Qed.
Lemma distance_unique e s d d' : distance e s 0 d -> distance e s 0 d' -> d == d'.
Proof.
  intros A B. inversion A; inversion B; subst; try discriminate; cbn [holds] in *; try lra; try contradiction; try congruence.
Qed.
Lemma excess_integral s x z : x == inject_Z z -> exists k, excess s x == inject_Z k.
Proof.
  intros E. destruct s; cbn [excess].
  - destruct (qmax_eq x 0) as [[A _]|[A _]]; [exists z|exists 0%Z]; rewrite A; auto; reflexivity.
  - exists (Z.abs z). rewrite E. unfold Qabs, inject_Z. cbn. reflexivity.
  - destruct (qmax_eq (- x) 0) as [[A _]|[A _]]; [exists (- z)%Z|exists 0%Z]; rewrite A; [rewrite E, <- inject_Z_opp; reflexivity|reflexivity].
Qed.

Lemma violation_sum cs vals l : forall acc, (forall p, In p l -> exists k, charge cs vals p == inject_Z k) ->
  inject_Z (fold_left (fun acc p =>
      match nth_error cs (fst p) with
      | None => acc
      | Some c =>
          let x := (vals (fst p) + snd p + ex_const (ct_expr c))%Q in
          let d := match ct_sense c with Less => qmax x 0 | Equal => Qabs x | Greater => qmax (- x) 0 end in
          Qtrunc (inject_Z acc + d)
      end) l acc) == inject_Z acc + qsum (map (charge cs vals) l).
Proof.
  induction l as [|p l IH]; intros acc H; cbn [fold_left map qsum fold_right]; [lra|].
  rewrite IH by (intros q Q; apply H; now right). destruct (H p (or_introl eq_refl)) as [k K]. unfold qsum.
  set (t := fold_right Qplus 0 (map (charge cs vals) l)). clearbody t. unfold charge in *. destruct (nth_error cs (fst p)) as [c|]; [|lra].
  cbv zeta. unfold excess in *. rewrite (Qtrunc_Z _ (acc + k)); [|rewrite inject_Z_plus, K; reflexivity].
  rewrite inject_Z_plus, K. lra.
Qed.
Lemma qsum_perm l m : Permutation l m -> qsum l == qsum m.
Proof. induction 1; cbn [qsum fold_right] in *; unfold qsum in *; try reflexivity; lra. Qed.

Lemma charges D v y cs : forall k, (forall c, In c cs -> wf (ct_expr c)) ->
  (forall j c a, nth_error cs j = Some c -> In (v, a) (ex_sens (ct_expr c)) -> distance (e_eval (ct_expr c) y) (ct_sense c) 0 (D ((k + j)%nat, a))) ->
  harm cs v y (qsum (map D (flat_map (fun ic => map (fun p => (fst ic, snd p)) (filter (fun p => Nat.eqb (fst p) v) (ex_sens (ct_expr (snd ic)))))
    (combine (seq k (length cs)) cs)))).
Proof.
  induction cs as [|c cs IH]; intros k W H.
  { exists []. split; [constructor|reflexivity]. }
  destruct (IH (S k) (fun d X => W d (or_intror X))) as (ds & F & E).
  { intros j d a Ed I. replace (S k + j)%nat with (k + S j)%nat by lia. now apply (H (S j) d a). }
  cbn [length seq combine flat_map fst snd]. rewrite map_app. pose proof (W c (or_introl eq_refl)) as Wc.
  pose proof (filter_key_le1 (ex_sens (ct_expr c)) v Wc) as Hl.
  assert (Hi : forall p, In p (filter (fun p => Nat.eqb (fst p) v) (ex_sens (ct_expr c))) <-> In p (ex_sens (ct_expr c)) /\ fst p = v).
  { intros p. rewrite filter_In, Nat.eqb_eq. reflexivity. }
  destruct (filter (fun p => Nat.eqb (fst p) v) (ex_sens (ct_expr c))) as [|[u a] [|q r]]; cbn [map app length fst snd] in *; [| |lia].
  - exists (0 :: ds). split; [|rewrite E; cbn [fold_right]; lra]. constructor; [right; split; [|reflexivity]|exact F].
    intros X. apply in_map_iff in X as (p & P1 & P2). exact (proj2 (Hi p) (conj P2 P1)).
  - destruct (proj1 (Hi (u, a)) (or_introl eq_refl)) as [I U]. cbn in U. subst u.
    exists (D (k, a) :: ds). split; [|cbn [qsum fold_right]; unfold qsum in E; rewrite E; reflexivity]. constructor; [left|exact F].
    split; [apply in_map_iff; exists (v, a); auto|]. specialize (H 0%nat c a eq_refl I). now rewrite Nat.add_0_r in H.
Qed.
Lemma harm_unique cs v y h h' : harm cs v y h -> harm cs v y h' -> h == h'.
Proof.
  intros (ds & F & E) (ds' & F' & E'). rewrite E, E'. clear E E' h h'. revert ds' F'. induction F as [|c d cs ds P F IH]; intros ds' F'; inversion F' as [|? d' ? ds2 P' F2]; subst.
  - reflexivity.
  - cbn [fold_right]. rewrite (IH _ F2). assert (X : d == d'); [|rewrite X; reflexivity].
    destruct P as [[P1 P2]|[P1 P2]], P' as [[Q1 Q2]|[Q1 Q2]]; try contradiction; [eapply distance_unique; eauto|lra].
Qed.

Lemma lin_integral s y : (forall p, In p s -> exists z, snd p == inject_Z z) -> exists z, lin s y == inject_Z z.
Proof.
  induction s as [|[w a] s IH]; cbn [lin]; intros H; [exists 0%Z; reflexivity|].
  destruct IH as [z Z]; [intros p P; apply H; now right|]. destruct (H (w, a) (or_introl eq_refl)) as [b B]. cbn in B.
  exists (b * y w + z)%Z. rewrite Z, B, inject_Z_plus, inject_Z_mult. reflexivity.
Qed.
Lemma violation_harm cs sens vals y0 v y : (forall c, In c cs -> wf (ct_expr c) /\ integer_data c) -> listed cs sens -> matches cs vals y0 -> raised y0 v y ->
  harm cs v y (inject_Z (candidate_violation cs sens vals v)).
Proof.
  intros W L M R.
  assert (X : forall i c a, nth_error cs i = Some c -> In (v, a) (ex_sens (ct_expr c)) -> vals i + a + ex_const (ct_expr c) == e_eval (ct_expr c) y).
  { intros i c a E I. specialize (M i c E). rewrite eval_lin in M. rewrite eval_lin.
    rewrite (lin_present _ _ _ _ a R (proj1 (W c (nth_error_In _ _ E))) I). lra. }
  assert (Hc : harm cs v y (qsum (map (charge cs vals) (constraint_sensitivities cs v)))).
  { unfold constraint_sensitivities. apply charges; [intros c I; apply W, I|]. intros j c a E I. unfold charge. cbn [fst snd plus]. rewrite E.
    apply excess_distance. now apply X. }
  destruct Hc as (ds & F & E). exists ds. split; [exact F|]. rewrite <- E. unfold candidate_violation. rewrite violation_sum.
  - rewrite (qsum_perm _ _ (Permutation_map (charge cs vals) (L v))). change (inject_Z 0) with 0. lra.
  - intros [i a] I. apply (listed_in cs sens v i a L) in I as (c & Ec & I). unfold charge. cbn [fst snd]. rewrite Ec.
    destruct (W c (nth_error_In _ _ Ec)) as [_ [I1 [z Z]]]. destruct (lin_integral _ y I1) as [k K].
    apply (excess_integral _ _ (z + k)). rewrite (X i c a Ec I), eval_lin, Z, K, inject_Z_plus. reflexivity.
Qed.
