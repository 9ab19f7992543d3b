(** Redundant set constraints (C30). *)
From Coq Require Import List ZArith NArith QArith Bool Lia Lqa Permutation Sorted.
From Verif Require Import ExprModel ExprSpec ExprProof ConstraintModel ConstraintSpec VariableModel TypeModel TypeSpec TypeProof TypeProof2 TypeProof3
  PresolveModel PresolveSpec PresolveProof PresolveProof2 PresolveProof5 DuplicateModel DuplicateSpec DuplicateProof.
Import ListNotations.
Local Open Scope nat_scope.

(** * Sums over sets *)
Lemma total_app a b y : total (a ++ b) y = (total a y + total b y)%Z.
Proof. induction a as [|v tl IH]; cbn [app total]; [reflexivity|]. rewrite IH. lia. Qed.
Lemma total_perm a b y : Permutation a b -> total a y = total b y.
Proof. induction 1; cbn [total]; lia. Qed.
Lemma total_zero l y : (forall v, In v l -> y v = 0%Z) -> total l y = 0%Z.
Proof. induction l as [|v tl IH]; intros H; cbn [total]; [reflexivity|]. rewrite (H v), IH; [reflexivity| |now left]. intros w I. apply H. now right. Qed.
Lemma total_nonneg l y : (forall v, In v l -> 0 <= y v)%Z -> (0 <= total l y)%Z.
Proof.
  induction l as [|v tl IH]; intros H; cbn [total]; [lia|]. specialize (H v (or_introl eq_refl)) as Hv.
  assert (0 <= total tl y)%Z by (apply IH; intros w I; apply H; now right). lia.
Qed.
Lemma zero_total l y : (forall v, In v l -> 0 <= y v)%Z -> total l y = 0%Z -> forall v, In v l -> y v = 0%Z.
Proof.
  induction l as [|v tl IH]; intros H E w I; [destruct I|]. cbn [total] in E.
  pose proof (H v (or_introl eq_refl)). assert (Htl : forall w, In w tl -> (0 <= y w)%Z) by (intros u Iu; apply H; now right).
  pose proof (total_nonneg tl y Htl). destruct I as [<-|I]; [lia|]. apply IH; auto; lia.
Qed.
Lemma included_incl l m : included l m = true <-> incl l m.
Proof.
  unfold included, incl. rewrite forallb_forall. split; intros H v I; specialize (H v I).
  - apply existsb_exists in H as (w & Iw & E). apply Nat.eqb_eq in E. now subst.
  - apply existsb_exists. exists v. split; [exact H|apply Nat.eqb_refl].
Qed.
Lemma mem_iff v m : existsb (Nat.eqb v) m = true <-> In v m.
Proof.
  rewrite existsb_exists. split.
  - intros (w & I & E). apply Nat.eqb_eq in E. now subst.
  - intros I. exists v. split; [exact I|apply Nat.eqb_refl].
Qed.
Definition surplus (m l : list nat) : list nat := filter (fun v => negb (existsb (Nat.eqb v) l)) m.
Lemma in_surplus m l v : In v (surplus m l) <-> In v m /\ ~ In v l.
Proof.
  unfold surplus. rewrite filter_In, negb_true_iff. destruct (existsb (Nat.eqb v) l) eqn:E.
  - apply mem_iff in E. split; [intros [_ X]; discriminate|tauto].
  - split; [|tauto]. intros [A _]. split; [exact A|]. intros I. apply mem_iff in I. congruence.
Qed.
Lemma nodup_app (a b : list nat) : NoDup a -> NoDup b -> (forall v, In v a -> ~ In v b) -> NoDup (a ++ b).
Proof.
  induction a as [|v tl IH]; intros A B D; cbn [app]; [exact B|]. inversion A; subst. constructor.
  - rewrite in_app_iff. intros [I|I]; [contradiction|]. apply (D v (or_introl eq_refl) I).
  - apply IH; auto. intros w I. apply D. now right.
Qed.
Lemma total_split m l y : NoDup m -> NoDup l -> incl l m -> total m y = (total l y + total (surplus m l) y)%Z.
Proof.
  intros Nm Nl I. rewrite <- total_app. apply total_perm. apply NoDup_Permutation; [exact Nm| |].
  - apply nodup_app; [exact Nl|apply NoDup_filter, Nm|]. intros v Hl Hs. apply in_surplus in Hs. tauto.
  - intros v. rewrite in_app_iff, in_surplus. split.
    + intros Hv. destruct (in_dec Nat.eq_dec v l); tauto.
    + intros [H|H]; [now apply I|tauto].
Qed.

(** * Fixing a list of variables at 0 *)
Definition fix_zero (vs : vars) (l : list nat) : vars := fold_left (fun vs v => do_fix_by vs v 0) l vs.
Lemma fix_zero_facts l : forall vs w,
  va_lower (fix_zero vs l w) = va_lower (vs w) /\ va_upper (fix_zero vs l w) = va_upper (vs w) /\
  (In w l -> va_fixed (fix_zero vs l w) = true /\ va_value (fix_zero vs l w) = 0%Z) /\
  (va_fixed (vs w) = true /\ va_value (vs w) = 0%Z -> va_fixed (fix_zero vs l w) = true /\ va_value (fix_zero vs l w) = 0%Z) /\
  (~ In w l -> fix_zero vs l w = vs w).
Proof.
  induction l as [|v tl IH]; intros vs w; cbn [fix_zero fold_left].
  - repeat split; auto; try contradiction; tauto.
  - destruct (fix_by_facts vs v 0 w) as (F1 & F2 & F3 & F4 & F5). destruct (IH (do_fix_by vs v 0) w) as (G1 & G2 & G3 & G4 & G5).
    unfold fix_zero in *. rewrite G1, G2, F3, F4. split; [reflexivity|]. split; [reflexivity|].
    assert (Z : va_fixed (do_fix_by vs v 0 w) = true /\ va_value (do_fix_by vs v 0 w) = 0%Z ->
       va_fixed (fold_left (fun vs v => do_fix_by vs v 0) tl (do_fix_by vs v 0) w) = true /\
       va_value (fold_left (fun vs v => do_fix_by vs v 0) tl (do_fix_by vs v 0) w) = 0%Z) by auto.
    split; [|split].
    + intros [->|I]; [|now apply G3]. apply Z. rewrite F1, F2, Nat.eqb_refl. auto.
    + intros [A B]. apply Z. rewrite F1, F2. destruct (Nat.eqb w v); auto.
    + intros N. rewrite G5 by (intros I; apply N; now right). apply F5. intros ->. apply N. now left.
Qed.
Lemma fix_zero_legal vs l y : legal vs y -> (forall v, In v l -> y v = 0%Z) -> legal (fix_zero vs l) y.
Proof.
  intros L H w. destruct (fix_zero_facts l vs w) as (_ & _ & F3 & _ & F5). destruct (in_dec Nat.eq_dec w l) as [I|N].
  - destruct (F3 I) as [-> ->]. split; [intros _; auto|discriminate].
  - rewrite (F5 N). apply L.
Qed.

(** * The scan *)
Definition exact_at (cs : list constr) (y : nat -> Z) (k : nat) : Prop :=
  NoDup (members cs k) /\ (forall v, In v (members cs k) -> (0 <= y v <= 1)%Z) /\ total (members cs k) y = 1%Z.

Lemma members_only cs cs' k : only_disables cs cs' -> members cs' k = members cs k.
Proof.
  intros O. unfold members. destruct (nth_error cs k) as [c|] eqn:E.
  - destruct (only_find _ _ _ _ O E) as (c' & -> & -> & _). reflexivity.
  - destruct O as [L _]. apply nth_error_None in E. rewrite <- L in E. apply nth_error_None in E. now rewrite E.
Qed.
Lemma exact_only cs cs' y k : only_disables cs cs' -> exact_at cs y k -> exact_at cs' y k.
Proof. intros O. unfold exact_at. now rewrite (members_only cs cs' k O). Qed.

(** What the scan does to the variables and flags. *)
Lemma set_scan_shape l : forall vs cs,
  let r := set_scan l (vs, cs) in
  only_disables cs (snd r) /\ (forall k, ~ In k l -> nth_error (snd r) k = nth_error cs k) /\
  (forall w, va_lower (fst r w) = va_lower (vs w) /\ va_upper (fst r w) = va_upper (vs w) /\
     (fst r w = vs w \/ va_fixed (fst r w) = true /\ va_value (fst r w) = 0%Z) /\
     (va_fixed (vs w) = true /\ va_value (vs w) = 0%Z -> va_fixed (fst r w) = true /\ va_value (fst r w) = 0%Z)).
Proof.
  induction l as [|i tl IH]; intros vs cs; cbn [set_scan fst snd].
  { split; [apply only_refl|]. split; [reflexivity|]. intros w. tauto. }
  destruct (find _ tl) as [j|].
  - fold (surplus (members cs i) (members cs j)). fold (fix_zero vs (surplus (members cs i) (members cs j))).
    set (vs1 := fix_zero _ _). destruct (IH vs1 (disable_at cs i)) as (A & B & C). split; [|split].
    + eapply only_trans; [apply only_disable|exact A].
    + intros k N. rewrite B by (intros I; apply N; now right). rewrite nth_disable.
      destruct (Nat.eqb_spec k i) as [->|_]; [exfalso; apply N; now left|reflexivity].
    + intros w. destruct (C w) as (C1 & C2 & C3 & C4). destruct (fix_zero_facts (surplus (members cs i) (members cs j)) vs w) as (F1 & F2 & F3 & F4 & F5).
      fold vs1 in F1, F2, F3, F4, F5. rewrite C1, C2, F1, F2. split; [reflexivity|]. split; [reflexivity|]. split.
      * destruct (in_dec Nat.eq_dec w (surplus (members cs i) (members cs j))) as [I|N]; [right; apply C4, F3, I|].
        destruct C3 as [C3|C3]; [left; rewrite C3; now apply F5|now right].
      * intros H. apply C4, F4, H.
  - destruct (IH vs cs) as (A & B & C). split; [exact A|]. split; [|exact C]. intros k N. apply B. intros I. apply N. now right.
Qed.

Lemma set_scan_forward l y : forall vs cs, legal vs y -> (forall k, In k l -> exact_at cs y k) -> legal (fst (set_scan l (vs, cs))) y.
Proof.
  induction l as [|i tl IH]; intros vs cs L H; cbn [set_scan fst snd]; [exact L|].
  destruct (find _ tl) as [j|] eqn:E.
  - apply find_some in E as [Ij E]. apply included_incl in E.
    fold (surplus (members cs i) (members cs j)). fold (fix_zero vs (surplus (members cs i) (members cs j))). apply IH.
    + apply fix_zero_legal; [exact L|]. destruct (H i (or_introl eq_refl)) as (N1 & B1 & T1), (H j (or_intror Ij)) as (N2 & B2 & T2).
      pose proof (total_split _ _ y N1 N2 E) as Sp. apply zero_total; [|lia].
      intros v I. apply in_surplus in I as [I _]. apply B1 in I. lia.
    + intros k Ik. eapply exact_only; [apply only_disable|]. apply H. now right.
  - apply IH; auto. intros k Ik. apply H. now right.
Qed.

(** Going back: the sums are 1 again. *)
Lemma set_scan_backward l y : forall vs cs, NoDup l -> let r := set_scan l (vs, cs) in
  (forall k, In k l -> NoDup (members cs k)) -> legal (fst r) y ->
  (forall k, In k l -> is_on (snd r) k = true -> total (members cs k) y = 1%Z) ->
  (forall k, In k l -> is_on cs k = true) ->
  forall k, In k l -> total (members cs k) y = 1%Z.
Proof.
  induction l as [|i tl IH]; intros vs cs N r ND L S On; [intros k []|]. inversion N as [|? ? Ni Ntl]; subst. revert L S. unfold r. clear r.
  cbn [set_scan fst snd]. destruct (find _ tl) as [j|] eqn:E.
  - fold (surplus (members cs i) (members cs j)). fold (fix_zero vs (surplus (members cs i) (members cs j))).
    set (vs1 := fix_zero vs _). intros L S.
    assert (M : forall k, members (disable_at cs i) k = members cs k) by (intros k; apply members_only, only_disable).
    assert (Tl : forall k, In k tl -> total (members cs k) y = 1%Z).
    { intros k Ik. rewrite <- M. apply (IH vs1 (disable_at cs i)); auto.
      - intros q Iq. rewrite M. apply ND. now right.
      - intros q Iq Oq. rewrite M. apply S; [now right|exact Oq].
      - intros q Iq. unfold is_on. rewrite nth_disable. destruct (Nat.eqb_spec q i) as [->|_]; [contradiction|]. apply (On q). now right. }
    apply find_some in E as [Ij E]. apply included_incl in E.
    intros k [<-|Ik]; [|auto]. rewrite (total_split (members cs i) (members cs j) y); [|apply ND; now left|apply ND; now right|exact E].
    rewrite (Tl j Ij), total_zero; [reflexivity|]. intros v Iv.
    destruct (set_scan_shape tl vs1 (disable_at cs i)) as (_ & _ & C). destruct (C v) as (_ & _ & _ & C4).
    destruct (fix_zero_facts (surplus (members cs i) (members cs j)) vs v) as (_ & _ & F3 & _). destruct (C4 (F3 Iv)) as [Q1 Q2].
    destruct (L v) as [L1 _]. rewrite (L1 Q1). exact Q2.
  - intros L S. intros k [<-|Ik].
    + apply S; [now left|]. destruct (set_scan_shape tl vs cs) as (_ & B & _). unfold is_on. rewrite (B i Ni). apply (On i). now left.
    + apply (IH vs cs); auto.
      * intros q Iq. apply ND. now right.
      * intros q Iq. apply S. now right.
      * intros q Iq. apply On. now right.
Qed.

Definition set_ready (vs : vars) (cs : list constr) (l : list nat) : Prop :=
  forall i, In i l -> exists c, nth_error cs i = Some c /\ ct_enabled c = true /\ exactly_one vs c.

Lemma ready_exact vs cs l y : set_ready vs cs l -> legal vs y -> satisfies_all cs y -> forall k, In k l -> exact_at cs y k.
Proof.
  intros R L S k Ik. destruct (R k Ik) as (c & E & En & N & H). unfold exact_at, members. rewrite E. split; [exact N|].
  destruct (H y L) as [B T]. split; [exact B|]. apply T, S; [|exact En]. eapply nth_error_In; eauto.
Qed.
Lemma set_scan_solutions vs cs l n : NoDup l -> set_ready vs cs l ->
  let r := set_scan l (vs, cs) in
  (forall y, solution (mkP n vs cs) y -> solution (mkP n (fst r) (snd r)) y) /\
  ((exists y0, solution (mkP n vs cs) y0) -> forall y, solution (mkP n vs cs) y <-> solution (mkP n (fst r) (snd r)) y).
Proof.
  intros N R r. destruct (set_scan_shape l vs cs) as (O & K & V). fold r in O, K, V.
  assert (Fwd : forall y, solution (mkP n vs cs) y -> solution (mkP n (fst r) (snd r)) y).
  { intros y [L S]. cbn [ps_vars ps_cons] in *. split; cbn [ps_vars ps_cons].
    - apply set_scan_forward; [exact L|]. now apply (ready_exact vs cs l y R L S).
    - intros c' I En. apply In_nth_error in I as [k Ek]. destruct (nth_error cs k) as [c|] eqn:Ec.
      + destruct O as [_ O]. destruct (O k c c' Ec Ek) as (A1 & A2 & A3). unfold satisfies. rewrite A1, A2. apply S; [|auto]. eapply nth_error_In; eauto.
      + destruct O as [Le _]. apply nth_error_None in Ec. assert (nth_error (snd r) k <> None) as X by congruence. apply nth_error_Some in X. lia. }
  split; [exact Fwd|]. intros [y0 S0] y. split; [apply Fwd|]. intros [L S]. cbn [ps_vars ps_cons] in *.
  assert (L0 : legal vs y).
  { intros w. destruct (V w) as (V1 & V2 & V3 & _). specialize (L w). destruct V3 as [V3|[V3 V4]]; [now rewrite V3 in L|].
    destruct L as [L _]. specialize (L V3). rewrite V4 in L. rewrite L.
    destruct (Fwd y0 S0) as [L' _]. cbn [ps_vars] in L'. destruct (L' w) as [L2 _]. specialize (L2 V3). rewrite V4 in L2.
    destruct S0 as [S0 _]. cbn [ps_vars] in S0. specialize (S0 w). now rewrite L2 in S0. }
  split; cbn [ps_vars ps_cons]; [exact L0|].
  assert (T : forall k, In k l -> total (members cs k) y = 1%Z).
  { apply (set_scan_backward l y vs cs N).
    - intros k Ik. destruct (R k Ik) as (c & E & _ & ND & _). unfold members. rewrite E. exact ND.
    - exact L.
    - intros k Ik Ok. fold r in Ok. destruct (R k Ik) as (c & E & En & ND & H). unfold members. rewrite E. apply (H y L0).
      destruct (only_find _ _ _ _ O E) as (c' & E' & A1 & A2 & _). unfold is_on in Ok. rewrite E' in Ok.
      unfold satisfies. rewrite <- A1, <- A2. apply S; [eapply nth_error_In; eauto|exact Ok].
    - intros k Ik. destruct (R k Ik) as (c & E & En & _). unfold is_on. now rewrite E. }
  intros c I En. apply In_nth_error in I as [k Ek]. destruct (in_dec Nat.eq_dec k l) as [Ik|Nk].
  - destruct (R k Ik) as (c1 & E1 & _ & ND & H). rewrite Ek in E1. injection E1 as <-. apply (H y L0). specialize (T k Ik).
    unfold members in T. rewrite Ek in T. exact T.
  - apply S; [|exact En]. rewrite <- (K k Nk) in Ek. eapply nth_error_In; eauto.
Qed.

Lemma redundant_set_spec refs vs cs n : NoDup (refs ExclusiveOR ++ refs SetPartitioning) ->
  (forall i, In i (refs ExclusiveOR ++ refs SetPartitioning) -> exists c, nth_error cs i = Some c /\ ct_enabled c = true /\ exactly_one vs c) ->
  let r := remove_redundant_set_constraints refs vs cs in
  (forall y, solution (mkP n vs cs) y -> solution (mkP n (fst r) (snd r)) y) /\
  ((exists y0, solution (mkP n vs cs) y0) -> forall y, solution (mkP n vs cs) y <-> solution (mkP n (fst r) (snd r)) y).
Proof.
  intros N R. unfold remove_redundant_set_constraints.
  assert (P : Permutation (stable_sort (by_size cs) (refs ExclusiveOR ++ refs SetPartitioning)) (refs ExclusiveOR ++ refs SetPartitioning)) by apply sort_perm.
  apply set_scan_solutions.
  - eapply Permutation_NoDup; [symmetry; exact P|exact N].
  - intros i I. apply R. eapply Permutation_in; eauto.
Qed.

(** The structural types have the meaning asked for. *)
Definition unit_type (t : ctype) : bool :=
  match t with ExclusiveOR | SetPartitioning | SetPacking | SetCovering => true | _ => false end.
Lemma unit_type_binary x c : proper_senses x -> truthful_flags x c -> unit_type (fst (classify x c)) = true ->
  forall v, In v (variables c) -> tx_sense x v = VBinary \/ tx_sense x v = VSelection \/ tx_sense x v = VDependentBinary.
Proof.
  intros PS [T1 T2]. unfold classify, first_verdict.
  destruct (b_singleton c) as [[t key]|] eqn:E1.
  { unfold b_singleton in E1. destruct (_ =? _); [|discriminate]. injection E1 as <- <-. discriminate. }
  destruct (b_pair_equal x c) as [[t key]|] eqn:E2.
  { unfold b_pair_equal in E2. unfold variables, keys. destruct (ex_sens (ct_expr c)) as [|[v0 c0] [|[v1 c1] [|]]]; try discriminate E2.
    destruct (_ && _) in E2; [|discriminate]. cbv zeta in E2.
    destruct (binaryish (tx_sense x v0) && binaryish (tx_sense x v1)) eqn:B.
    - apply andb_true_iff in B as [B1 B2]. intros _ v [<-|[<-|[]]]; cbn [fst]; now apply binaryish_cases.
    - cbn [andb] in E2. repeat match type of E2 with (if ?q then _ else _) = _ => destruct q end; injection E2 as <- <-; discriminate. }
  destruct (b_pair_inequality x c) as [[t key]|] eqn:E3.
  { unfold b_pair_inequality in E3. destruct (ex_sens (ct_expr c)) as [|[v0 c0] [|[v1 c1] [|]]]; try discriminate E3.
    repeat match type of E3 with (if ?q then _ else _) = _ => destruct q end; try discriminate E3; injection E3 as <- <-; discriminate. }
  destruct (b_trinomial x c) as [[t key]|] eqn:E4.
  { unfold b_trinomial in E4. destruct (_ && _) in E4; [|discriminate].
    repeat match type of E4 with match ?q with _ => _ end = _ => destruct q end; try discriminate E4; injection E4 as <- <-; discriminate. }
  destruct (b_set c) as [[t key]|] eqn:E5.
  { unfold b_set in E5. destruct (_ && _) eqn:B in E5; [|discriminate]. apply andb_true_iff in B as [_ B]. intros _ v I.
    destruct (T2 B v I); auto. }
  destruct (b_flow x c) as [[t key]|] eqn:E6.
  { unfold b_flow in E6. repeat match type of E6 with context [match ?q with _ => _ end] => destruct q end; try discriminate E6; injection E6 as <- <-; discriminate. }
  destruct (b_minmax x c) as [[t key]|] eqn:E7.
  { unfold b_minmax in E7. repeat match type of E7 with context [match ?q with _ => _ end] => destruct q end; try discriminate E7; injection E7 as <- <-; discriminate. }
  destruct (b_knapsack x c) as [[t key]|] eqn:E8.
  { unfold b_knapsack in E8. cbv zeta in E8.
    repeat match type of E8 with (if ?q then _ else _) = _ => destruct q end; try discriminate E8; injection E8 as <- <-; discriminate. }
  destruct (b_gf2 x c) as [[t key]|] eqn:E9.
  { unfold b_gf2 in E9. destruct (_ && _) in E9; [|discriminate]. destruct (filter _ _) as [|[q a] [|]]; try discriminate E9.
    cbv zeta in E9. destruct (ltq 0 a) in E9; destruct (_ || _) in E9; try discriminate E9; injection E9 as <- <-; discriminate. }
  discriminate.
Qed.
Lemma ones_total l y : (forall v, In v l -> 0 <= y v <= 1)%Z -> ones l y = total l y.
Proof.
  induction l as [|v tl IH]; intros H; [reflexivity|]. cbn [total]. rewrite <- IH by (intros w I; apply H; now right).
  unfold ones. cbn [filter]. specialize (H v (or_introl eq_refl)). destruct (Z.eqb_spec (y v) 1) as [E|E]; [rewrite E; cbn [length]; lia|].
  assert (y v = 0)%Z by lia. lia.
Qed.

Lemma unit_type_meaning name vs c : proper_senses (vctx name vs) -> truthful_flags (vctx name vs) c -> NoDup (variables c) ->
  match fst (classify (vctx name vs) c) with
  | ExclusiveOR | SetPartitioning => exactly_one vs c
  | SetPacking => at_most_one vs c
  | SetCovering => at_least_one vs c
  | _ => True
  end.
Proof.
  intros PS TF N. pose proof (classify_meaning _ c PS TF N) as M. pose proof (unit_type_binary _ c PS TF) as B.
  destruct (classify (vctx name vs) c) as [t key]. cbn [fst snd] in *.
  assert (B01 : unit_type t = true -> forall y, legal vs y -> forall v, In v (variables c) -> (0 <= y v <= 1)%Z).
  { intros U y L v I. destruct (legal01 _ y v PS L (B U v I)); lia. }
  destruct t; try exact Logic.I; specialize (B01 eq_refl); (split; [exact N|]); intros y L; (split; [now apply B01|]); cbn [type_meaning] in M.
  - destruct M as (u & v & E & _ & M). rewrite (M y L). specialize (B01 y L). rewrite E in *. cbn [total].
    pose proof (B01 u (or_introl eq_refl)). pose proof (B01 v (or_intror (or_introl eq_refl))). lia.
  - rewrite <- ones_total by now apply B01. exact (M y L).
  - rewrite <- ones_total by now apply B01. exact (M y L).
  - rewrite <- ones_total by now apply B01. exact (M y L).
Qed.

Lemma in_type_refs x cs t i : In i (type_refs x cs t) <-> exists c, nth_error cs i = Some c /\ fst (classify x c) = t.
Proof.
  unfold type_refs. rewrite filter_In, in_seq. split.
  - intros [_ H]. destruct (nth_error cs i) as [c|]; [|discriminate]. exists c. split; [reflexivity|]. destruct (ctype_eq_dec _ _); [assumption|discriminate].
  - intros (c & E & T). split; [assert (i < length cs) by (apply nth_error_Some; congruence); lia|]. rewrite E. destruct (ctype_eq_dec _ _); [reflexivity|contradiction].
Qed.
Lemma type_refs_nodup x cs t : NoDup (type_refs x cs t).
Proof. apply NoDup_filter, seq_NoDup. Qed.

Lemma redundant_set_typed name vs cs n : proper_senses (vctx name vs) ->
  (forall c, In c cs -> ct_enabled c = true /\ truthful_flags (vctx name vs) c /\ NoDup (variables c)) ->
  let r := remove_redundant_set_constraints (type_refs (vctx name vs) cs) vs cs in
  (forall y, solution (mkP n vs cs) y -> solution (mkP n (fst r) (snd r)) y) /\
  ((exists y0, solution (mkP n vs cs) y0) -> forall y, solution (mkP n vs cs) y <-> solution (mkP n (fst r) (snd r)) y).
Proof.
  intros PS H. apply redundant_set_spec.
  - apply nodup_app; [apply type_refs_nodup|apply type_refs_nodup|]. intros i A B.
    apply in_type_refs in A as (c & E & A), B as (d & F & B). rewrite E in F. injection F as <-. congruence.
  - intros i I. apply in_app_iff in I. assert (X : exists c, nth_error cs i = Some c /\ (fst (classify (vctx name vs) c) = ExclusiveOR \/ fst (classify (vctx name vs) c) = SetPartitioning)).
    { destruct I as [I|I]; apply in_type_refs in I as (c & E & T); exists c; auto. }
    destruct X as (c & E & T). exists c. destruct (H c (nth_error_In _ _ E)) as (En & TF & N). split; [exact E|]. split; [exact En|].
    pose proof (unit_type_meaning name vs c PS TF N) as M. destruct T as [T|T]; rewrite T in M; exact M.
Qed.
