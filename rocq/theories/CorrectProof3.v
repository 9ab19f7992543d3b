(** The correction over all selections (C82). *)
From Coq Require Import List ZArith QArith Bool Lia Lqa Permutation.
From Verif Require Import ExprModel ExprSpec ConstraintModel ConstraintSpec VariableModel TypeModel EvalModel PresolveModel
  DuplicateModel SelectionModel SelectionSpec CorrectSpec.
From Verif Require Import SelectionProof3 CorrectProof CorrectProof2.
Import ListNotations.
Local Open Scope nat_scope.

Lemma kept_ext vs vs' s : (forall w, In w (sl_vars s) -> vs' w = vs w) -> kept vs s -> kept vs' s.
Proof.
  intros E (v & A & B & C & D). exists v. rewrite (E v A). split; [exact A|]. split; [exact B|]. split; [exact C|].
  intros w W X. apply D; [exact W|]. now rewrite <- (E w W).
Qed.
Lemma kept_dec vs s : kept vs s \/ ~ kept vs s.
Proof.
  destruct (filter (fun v => Z.eqb (va_value (vs v)) 1) (sl_vars s)) as [|v r] eqn:Es.
  - right. intros (v & A & B & _). assert (X : In v (filter (fun v => Z.eqb (va_value (vs v)) 1) (sl_vars s))) by (apply filter_In; rewrite B; auto).
    rewrite Es in X. destruct X.
  - assert (Iv : In v (sl_vars s) /\ va_value (vs v) = 1%Z).
    { assert (X : In v (filter (fun v => Z.eqb (va_value (vs v)) 1) (sl_vars s))) by (rewrite Es; now left). apply filter_In in X as [X Y]. apply Z.eqb_eq in Y. auto. }
    destruct Iv as [Iv Ev]. destruct (va_fixed (vs v)) eqn:F.
    + right. intros (u & A & B & C & D). rewrite (D v Iv Ev) in F. congruence.
    + destruct (forallb (fun w => Nat.eqb w v) r) eqn:G.
      * left. exists v. split; [exact Iv|]. split; [exact Ev|]. split; [exact F|]. intros w W X.
        assert (Y : In w (filter (fun v => Z.eqb (va_value (vs v)) 1) (sl_vars s))) by (apply filter_In; rewrite X; auto).
        rewrite Es in Y. destruct Y as [<-|Y]; [reflexivity|]. rewrite forallb_forall in G. now apply Nat.eqb_eq, G.
      * right. intros (u & A & B & C & D). assert (X : forallb (fun w => Nat.eqb w v) r = true); [|congruence].
        apply forallb_forall. intros w W. apply Nat.eqb_eq. assert (Y : In w (filter (fun v => Z.eqb (va_value (vs v)) 1) (sl_vars s))) by (rewrite Es; now right).
        apply filter_In in Y as [Y1 Y2]. apply Z.eqb_eq in Y2. rewrite (D w Y1 Y2), (D v Iv Ev). reflexivity.
Qed.
Lemma candidate_ext vs vs' s v : (forall w, In w (sl_vars s) -> vs' w = vs w) -> candidate vs s v -> candidate vs' s v.
Proof.
  intros E (A & B & C). split; [exact A|]. rewrite (E v A). split; [exact B|]. destruct C as [C|C]; [now left|right]. intros w W. rewrite (E w W). now apply C.
Qed.

(** The ones counted so far. *)
Definition ones (counted : sel -> Prop) (vs' : vars) (y0 y : nat -> Z) : Prop := forall w,
  (y w = 0 \/ y w = 1)%Z /\ (y w = 1%Z <-> y0 w = 1%Z \/ exists t, counted t /\ In w (sl_vars t) /\ va_value (vs' w) = 1%Z).

Lemma walk cs sens : (forall c, In c cs -> wf (ct_expr c) /\ integer_data c) -> listed cs sens ->
  forall sels vs vals y0 vs' sels', verify_selections true cs sens (vs, vals) sels = Some (vs', sels') ->
  disjoint_selections sels -> (forall s, In s sels -> NoDup (sl_vars s)) ->
  matches cs vals y0 -> (forall w, y0 w = 0 \/ y0 w = 1)%Z -> (forall s w, In s sels -> In w (sl_vars s) -> y0 w = 0%Z) ->
  forall pre s post, sels = pre ++ s :: post ->
  exists vals1 y1 v, matches cs vals1 y1 /\ ones (fun t => In t pre /\ ~ kept vs t) vs' y0 y1 /\ chosen vs' (sl_vars s) v /\
    ((forall u, In u (sl_vars s) -> va_fixed (vs u) = true -> va_value (vs u) <> 1%Z) -> ~ kept vs s ->
     candidate vs s v /\ forall w, candidate vs s w ->
       (candidate_violation cs sens vals1 v <= candidate_violation cs sens vals1 w)%Z /\
       (before (sl_vars s) w v -> (candidate_violation cs sens vals1 v < candidate_violation cs sens vals1 w)%Z)).
Proof.
  intros W L. induction sels as [|t sels IH]; intros vs vals y0 vs' sels' H D N M B Z pre s post E; [destruct pre; discriminate E|].
  cbn [verify_selections] in H.
  destruct (verify_selection true cs sens (vs, vals) t) as [[[vs1 vals1] s1]|] eqn:E1; [|discriminate].
  destruct (verify_selections true cs sens (vs1, vals1) sels) as [[vs2 tl2]|] eqn:E2; [|discriminate]. injection H as <- <-.
  assert (Nt : NoDup (sl_vars t)) by (apply N; now left).
  pose proof (verify_selection_spec _ _ _ _ _ _ _ _ _ E1 Nt) as (_ & O1 & _).
  pose proof (verify_selections_spec _ _ _ _ _ _ _ _ E2 (disjoint_tail _ _ D) (fun s I => N s (or_intror I))) as (_ & O2 & _).
  assert (Late : forall w, In w (sl_vars t) -> vs2 w = vs1 w) by (intros w I; apply O2; intros x X; eapply disjoint_head; eauto).
  destruct (one_step _ _ _ _ _ _ _ _ E1 Nt) as (v & Cv & Sv & Bv).
  assert (Cv2 : chosen vs2 (sl_vars t) v) by (apply (chosen_ext vs1); [intros w I; now rewrite Late|exact Cv]).
  destruct pre as [|p pre]; cbn [app] in E; injection E as <- E.
  - exists vals, y0, v. split; [exact M|]. split.
    { intros w. split; [apply B|]. split; [now left|]. intros [X|(x & [[] _] & _)]. exact X. }
    split; [exact Cv2|exact Bv].
  - assert (Is : In s sels) by (rewrite E; apply in_or_app; right; now left).
    assert (Early : forall x w, In x sels -> In w (sl_vars x) -> vs1 w = vs w).
    { intros x w X I. apply O1. intros J. exact (disjoint_head _ _ x w D X J I). }
    assert (Kx : forall x, In x sels -> (kept vs1 x <-> kept vs x)).
    { intros x X. split; apply kept_ext; intros w I; [symmetry|]; now apply (Early x). }
    destruct (kept_dec vs t) as [K|K].
    + destruct Sv as [[_ ->]|[K' _]]; [|contradiction].
      destruct (IH vs1 vals y0 vs2 tl2 E2 (disjoint_tail _ _ D) (fun s I => N s (or_intror I)) M B (fun s w I => Z s w (or_intror I)) pre s post E)
        as (va & ya & u & P1 & P2 & P3 & P4).
      exists va, ya, u. split; [exact P1|]. split; [|split; [exact P3|]].
      * intros w. destruct (P2 w) as [Q1 Q2]. split; [exact Q1|]. rewrite Q2. split; (intros [X|(x & [X1 X2] & X3)]; [now left|right; exists x]).
        -- split; [|exact X3]. split; [now right|]. intros Y. apply X2, Kx; [rewrite E; apply in_or_app; now left|exact Y].
        -- split; [|exact X3]. destruct X1 as [<-|X1]; [contradiction|]. split; [exact X1|]. intros Y. apply X2, Kx; [rewrite E; apply in_or_app; now left|exact Y].
      * intros F NK. destruct P4 as [P4 P5]; [intros x X; rewrite (Early s x Is X); now apply F|rewrite (Kx s Is); exact NK|].
        split; [apply (candidate_ext vs1); [intros x X; symmetry; now apply (Early s)|exact P4]|].
        intros x X. apply P5, (candidate_ext vs); [intros z Iz; now apply (Early s)|exact X].
    + set (y1 := fun w => if Nat.eqb w v then 1%Z else y0 w).
      destruct Sv as [[K' _]|[_ ->]]; [contradiction|].
      assert (R : raised y0 v y1).
      { unfold y1. split; [apply (Z t); [now left|apply Cv]|]. split; [now rewrite Nat.eqb_refl|]. intros w X. now rewrite (proj2 (Nat.eqb_neq w v) X). }
      destruct (IH vs1 (add_sens sens vals v) y1 vs2 tl2 E2 (disjoint_tail _ _ D) (fun s I => N s (or_intror I))) with (pre := pre) (s := s) (post := post)
        as (va & ya & u & P1 & P2 & P3 & P4).
      { apply (add_matches cs sens vals y0); auto. intros c I. apply W, I. }
      { intros w. unfold y1. destruct (w =? v); [now right|apply B]. }
      { intros x w X I. unfold y1. destruct (Nat.eqb_spec w v) as [->|_]; [|apply (Z x); [now right|exact I]]. exfalso. exact (disjoint_head _ _ x v D X (proj1 Cv) I). }
      { exact E. }
      exists va, ya, u. split; [exact P1|]. split; [|split; [exact P3|]].
      * intros w. destruct (P2 w) as [Q1 Q2]. split; [exact Q1|]. rewrite Q2. unfold y1. split.
        -- intros [X|(x & [X1 X2] & X3)].
           ++ destruct (Nat.eqb_spec w v) as [->|_]; [|now left]. right. exists t. split; [split; [now left|exact K]|]. split; [apply Cv|apply Cv2].
           ++ right. exists x. split; [|exact X3]. split; [now right|]. intros Y. apply X2, Kx; [rewrite E; apply in_or_app; now left|exact Y].
        -- intros [X|(x & [X1 X2] & X3 & X4)].
           ++ left. destruct (w =? v); auto.
           ++ destruct X1 as [<-|X1].
              ** left. destruct (Nat.eqb_spec w v) as [|Dw]; [reflexivity|]. rewrite (proj2 (proj2 Cv2) w X3 Dw) in X4. discriminate X4.
              ** right. exists x. split; [|auto]. split; [exact X1|]. intros Y. apply X2, Kx; [rewrite E; apply in_or_app; now left|exact Y].
      * intros F NK. destruct P4 as [P4 P5]; [intros x X; rewrite (Early s x Is X); now apply F|rewrite (Kx s Is); exact NK|].
        split; [apply (candidate_ext vs1); [intros x X; symmetry; now apply (Early s)|exact P4]|].
        intros x X. apply P5, (candidate_ext vs); [intros z Iz; now apply (Early s)|exact X].
Qed.

Lemma least_harm n cs sens vs sels vs' sels' pre s post :
  selections_ready vs sels -> (forall c, In c cs -> NoDup (map fst (ex_sens (ct_expr c))) /\ integer_data c) ->
  (forall v, Permutation (sens v) (constraint_sensitivities cs v)) ->
  verify true n cs sens vs sels = Some (vs', sels') -> sels = pre ++ s :: post ->
  (forall u, In u (sl_vars s) -> va_fixed (vs u) = true -> va_value (vs u) <> 1%Z) -> ~ kept vs s ->
  exists v, chosen vs' (sl_vars s) v /\ candidate vs s v /\
    let counted t := In t pre /\ ~ kept vs t in
    forall w y z h k, candidate vs s w -> judged counted vs' v y -> harm cs v y h -> judged counted vs' w z -> harm cs w z k ->
    (h <= k)%Q /\ (before (sl_vars s) w v -> (h < k)%Q).
Proof.
  intros [Dj Rd] W L H E F NK. unfold verify in H.
  destruct (verify_selections true cs sens (vs, fun _ => 0%Q) sels) as [[vs1 s1]|] eqn:E1; [|discriminate].
  destruct (verify_values fine_binary true vs1 (of_sense VBinary n vs)) as [vs2|] eqn:E2; [|discriminate].
  destruct (verify_values fine_integer true vs2 (of_sense VInteger n vs)) as [vs3|] eqn:E3; [|discriminate]. injection H as <- <-.
  apply verify_values_spec in E2 as (_ & O2 & _); [|apply of_sense_nodup].
  apply verify_values_spec in E3 as (_ & O3 & _); [|apply of_sense_nodup].
  assert (Sel : forall s v, In s sels -> In v (sl_vars s) -> vs3 v = vs1 v).
  { intros t v I V. destruct (Rd t I) as [_ R]. specialize (R v V). rewrite O3, O2; [reflexivity| |]; rewrite of_sense_in; intros [_ X]; congruence. }
  assert (Is : In s sels) by (rewrite E; apply in_or_app; right; now left).
  assert (Ip : forall t, In t pre -> In t sels) by (intros t T; rewrite E; apply in_or_app; now left).
  destruct (walk cs sens W L sels vs (fun _ => 0%Q) (fun _ => 0%Z) vs1 s1 E1 Dj (fun s I => proj1 (Rd s I))) with (pre := pre) (s := s) (post := post)
    as (vals & y1 & v & P1 & P2 & P3 & P4); try assumption.
  { intros i c _. rewrite ExprProof.eval_lin. assert (X : (ExprProof.lin (ex_sens (ct_expr c)) (fun _ => 0%Z) == 0)%Q).
    { induction (ex_sens (ct_expr c)) as [|[w a] l IH]; cbn [ExprProof.lin]; [reflexivity|]. rewrite IH. change (inject_Z 0) with 0%Q. lra. }
    rewrite X. lra. }
  { intros w. now left. }
  { reflexivity. }
  destruct (P4 F NK) as [Cv P5]. exists v. split; [apply (chosen_ext vs1); [intros w I; now rewrite (Sel s w Is I)|exact P3]|]. split; [exact Cv|].
  cbv zeta. intros w y z h k Cw Jy Hy Jz Hz.
  assert (Zero : forall w, In w (sl_vars s) -> y1 w = 0%Z).
  { intros x Ix. destruct (P2 x) as [[X|X] Y]; [exact X|]. exfalso. apply Y in X as [X|(t & [T1 _] & T2 & _)]; [discriminate X|].
    apply in_split in T1 as (p1 & p2 & ->). assert (E' : sels = (p1 ++ t :: p2) ++ s :: post) by exact E.
    apply (Dj (length p1) (length (p1 ++ t :: p2)) t s) with (v := x); auto.
    - rewrite app_length. cbn [length]. lia.
    - rewrite E', <- app_assoc, nth_error_app2 by lia. rewrite Nat.sub_diag. reflexivity.
    - rewrite E', nth_error_app2 by lia. rewrite Nat.sub_diag. reflexivity. }
  assert (Ex : forall x q, In x (sl_vars s) -> judged (fun t => In t pre /\ ~ kept vs t) vs3 x q -> raised y1 x q).
  { intros x q Ix J. split; [now apply Zero|]. split; [apply (J x); now left|]. intros u U. destruct (P2 u) as [Q1 Q2].
    destruct (Z.eq_dec (y1 u) 1) as [Y|Y].
    - rewrite Y. apply (J u). apply Q2 in Y as [Y|(t & T1 & T2 & T3)]; [discriminate Y|]. right. exists t. split; [exact T1|]. split; [exact T2|].
      now rewrite (Sel t u (Ip t (proj1 T1)) T2).
    - destruct Q1 as [Q1|Q1]; [|contradiction]. rewrite Q1. apply (J u). intros [X|(t & T1 & T2 & T3)]; [contradiction|]. apply Y, Q2. right. exists t.
      split; [exact T1|]. split; [exact T2|]. now rewrite <- (Sel t u (Ip t (proj1 T1)) T2). }
  pose proof (violation_harm cs sens vals y1 v y W L P1 (Ex v y (proj1 Cv) Jy)) as Hv.
  pose proof (violation_harm cs sens vals y1 w z W L P1 (Ex w z (proj1 Cw) Jz)) as Hw.
  rewrite (harm_unique _ _ _ _ _ Hy Hv), (harm_unique _ _ _ _ _ Hz Hw). destruct (P5 w Cw) as [B1 B2].
  split; [rewrite <- Zle_Qle; exact B1|]. intros X. rewrite <- Zlt_Qlt. now apply B2.
Qed.
Lemma least_harm_chosen n cs sens vs sels vs' sels' pre s post v :
  selections_ready vs sels -> (forall c, In c cs -> NoDup (map fst (ex_sens (ct_expr c))) /\ integer_data c) ->
  (forall v, Permutation (sens v) (constraint_sensitivities cs v)) ->
  verify true n cs sens vs sels = Some (vs', sels') -> sels = pre ++ s :: post ->
  (forall u, In u (sl_vars s) -> va_fixed (vs u) = true -> va_value (vs u) <> 1%Z) -> ~ kept vs s ->
  chosen vs' (sl_vars s) v -> candidate vs s v /\
    let counted t := In t pre /\ ~ kept vs t in
    forall w y z h k, candidate vs s w -> judged counted vs' v y -> harm cs v y h -> judged counted vs' w z -> harm cs w z k ->
    (h <= k)%Q /\ (before (sl_vars s) w v -> (h < k)%Q).
Proof.
  intros R W L H E F NK C. destruct (least_harm n cs sens vs sels vs' sels' pre s post R W L H E F NK) as (u & Cu & X).
  assert (u = v); [|subst u; exact X]. destruct (Nat.eq_dec u v) as [|D]; [assumption|].
  assert (Y : va_value (vs' u) = 0%Z) by (apply C; [apply Cu|exact D]). rewrite (proj1 (proj2 Cu)) in Y. discriminate Y.
Qed.
