(** Proofs for C83: what import_mps leaves. *)
From Coq Require Import List NArith ZArith QArith Qabs Bool Arith String Lia Lqa.
From Verif Require Import ExprModel ExprSpec ExprProof ConstraintModel ConstraintSpec VariableModel PresolveModel PresolveSpec TextModel MpsModel MpsSpec MpsProof MpsProof2 MpsProof3 MpsProof8.
Import ListNotations.
Local Open Scope Z_scope.

(** ** Names *)
Lemma column_names_nodup cs : forall seen, NoDup seen -> NoDup (column_names cs seen).
Proof.
  induction cs as [|[b|v es] cs IH]; intros seen N; cbn [column_names]; [exact N|apply IH, N|]. apply IH.
  destruct (existsb (String.eqb v) seen) eqn:E; [exact N|]. apply NoDup_rev in N. rewrite <- (rev_involutive (seen ++ [v])). apply NoDup_rev. rewrite rev_app_distr. cbn [rev app].
  constructor; [|exact N]. intros I. apply in_rev in I. assert (X : existsb (String.eqb v) seen = true); [|congruence]. apply existsb_exists. exists v. split; [exact I|apply String.eqb_refl].
Qed.
Lemma columns_nodup f : NoDup (columns f).
Proof. apply column_names_nodup. constructor. Qed.
Lemma position_at names n i : position names n = Some i -> nth_error names i = Some n.
Proof.
  revert i. induction names as [|a names IH]; intros i P; cbn [position] in P; [discriminate|]. destruct (String.eqb_spec n a) as [->|D]; [injection P as <-; reflexivity|].
  destruct (position names n) as [k|]; [|discriminate]. injection P as <-. cbn. apply IH. reflexivity.
Qed.
Lemma position_of names n i : NoDup names -> nth_error names i = Some n -> position names n = Some i.
Proof.
  intros N E. destruct (position_in names n (nth_error_In _ _ E)) as (k & P & _ & Q). rewrite P. f_equal.
  apply (proj1 (NoDup_nth_error names) N); [apply nth_error_Some; congruence|congruence].
Qed.

(** ** Terms *)
Lemma sens_terms names l : forall s, sens_of names l = Ok s -> forall i a, In (i, a) s -> exists n, In (n, a) l /\ position names n = Some i.
Proof.
  induction l as [|[n a] l IH]; intros s E; cbn [sens_of] in E; [injection E as <-; intros i b []|].
  destruct (position names n) as [k|] eqn:P; [|discriminate]. destruct (sens_of names l) as [s'| |] eqn:E'; cbn [bind] in E; try discriminate. injection E as <-.
  intros i b [X|X]; [injection X as <- <-; exists n; split; [now left|exact P]|]. destruct (IH s' eq_refl i b X) as (n' & A & B). exists n'. split; [now right|exact B].
Qed.
Lemma sens_has names l : forall s, sens_of names l = Ok s -> forall n a, In (n, a) l -> exists i, position names n = Some i /\ In (i, a) s.
Proof.
  induction l as [|[n a] l IH]; intros s E; cbn [sens_of] in E; [intros n a []|].
  destruct (position names n) as [k|] eqn:P; [|discriminate]. destruct (sens_of names l) as [s'| |] eqn:E'; cbn [bind] in E; try discriminate. injection E as <-.
  intros n' b [X|X]; [injection X as <- <-; exists k; split; [exact P|now left]|]. destruct (IH s' eq_refl n' b X) as (i & A & B). exists i. split; [exact A|now right].
Qed.
Lemma sens_once_each names l : forall s, NoDup (map fst l) -> sens_of names l = Ok s -> NoDup (map fst s).
Proof.
  induction l as [|[n a] l IH]; intros s N E; cbn [sens_of] in E; [injection E as <-; constructor|].
  destruct (position names n) as [k|] eqn:P; [|discriminate]. destruct (sens_of names l) as [s'| |] eqn:E'; cbn [bind] in E; try discriminate. injection E as <-.
  cbn [map fst] in *. inversion N as [|n0 l0 N1 N2]; subst. constructor; [|exact (IH s' N2 eq_refl)]. intros I. apply in_map_iff in I as ([i b] & X & I). cbn in X. subst i.
  destruct (sens_terms names l s' E' k b I) as (n' & A & B). apply position_at in P, B. assert (n' = n) by congruence. subst n'. apply N1. apply in_map_iff. exists (n, b). split; [reflexivity|exact A].
Qed.
Lemma entries_once ts r : NoDup (map fst ts) -> NoDup (map fst (row_entries ts r)).
Proof.
  unfold row_entries. rewrite map_map. cbn [fst]. induction ts as [|[[v r'] a] ts IH]; intros N; cbn [filter map fst snd] in *; [constructor|].
  inversion N as [|x l N1 N2]; subst. specialize (IH N2). destruct (String.eqb_spec r' r) as [->|D]; cbn [andb]; [|exact IH]. destruct (big a); [|exact IH].
  cbn [map fst]. constructor; [|exact IH]. intros I. apply in_map_iff in I as ([[v' r'] b] & X & I). cbn in X. subst v'. apply filter_In in I as [I K]. cbn [fst snd] in K.
  apply andb_prop in K as [K _]. apply String.eqb_eq in K. subst r'. apply N1. apply in_map_iff. exists (v, r, b). split; [reflexivity|exact I].
Qed.
Lemma entries_in ts r n a : In (n, a) (row_entries ts r) -> In (n, r, a) ts /\ (1 # 10000000000 < Qabs a)%Q.
Proof.
  unfold row_entries. intros I. apply in_map_iff in I as ([[v r'] b] & X & I). cbn [fst snd] in X. injection X as -> ->. apply filter_In in I as [I K]. cbn [fst snd] in K.
  apply andb_prop in K as [K B]. apply String.eqb_eq in K. subst r'. split; [exact I|]. unfold big in B. destruct (Qlt_le_dec EPS10 (Qabs a)) as [L|L]; [exact L|discriminate].
Qed.

(** ** Variables *)
Lemma import_var_facts f obj m accept n nv : well_formed f obj -> mps_of f obj m -> In n (columns f) -> import_var accept m n = Ok nv ->
  fst nv = n /\ (va_lower (snd nv), va_upper (snd nv)) = interval f n /\ va_lower (snd nv) <= va_upper (snd nv) /\
  va_sense (snd nv) = binary_or_integer (va_lower (snd nv)) (va_upper (snd nv)) /\
  (va_fixed (snd nv) = true -> va_lower (snd nv) <= va_value (snd nv) <= va_upper (snd nv)) /\ (accept = true \/ integer f n = true).
Proof.
  intros W (_ & _ & _ & _ & M5) Hn. unfold import_var. rewrite (M5 n Hn). pose proof (default_interval f n) as D. cbv zeta in D.
  set (w := default_bounds _) in *. destruct D as (D1 & D2 & D3). destruct W as (_ & _ & _ & _ & _ & _ & _ & _ & W9). specialize (D3 (W9 n)).
  destruct (negb (mv_integer w) && negb accept) eqn:Acc; [discriminate|]. cbn [v_step]. destruct (mv_upper w <? mv_lower w) eqn:Lt; [discriminate|]. apply Z.ltb_ge in Lt.
  assert (Ac : accept = true \/ integer f n = true). { rewrite <- D2. destruct accept; [now left|]. destruct (mv_integer w); [now right|discriminate]. }
  destruct (mv_fixed w) eqn:Fx; intros E; injection E as <-; cbn [fst snd v_margin v_with_fixed v_with_value va_fixed va_value va_lower va_upper va_sense v_init].
  - split; [reflexivity|]. split; [exact D1|]. split; [exact Lt|]. split; [reflexivity|]. split; [|exact Ac]. intros _. rewrite <- D1 in D3. injection D3 as A B. lia.
  - split; [reflexivity|]. split; [exact D1|]. split; [exact Lt|]. split; [reflexivity|]. split; [discriminate|exact Ac].
Qed.
Lemma collect_forall2 {A B} (f : A -> outcome B) l : forall bs, collect f l = Ok bs -> Forall2 (fun a b => f a = Ok b) l bs.
Proof.
  induction l as [|a l IH]; intros bs E; cbn [collect] in E; [injection E as <-; constructor|].
  destruct (f a) as [b| |] eqn:Ea; cbn [bind] in E; try discriminate. destruct (collect f l) as [bs'| |] eqn:El; cbn [bind] in E; try discriminate. injection E as <-.
  constructor; [exact Ea|apply IH; reflexivity].
Qed.

(** ** The model *)
Definition is01_in (vs : list (string * var)) (v : nat) : bool := match nth_error vs v with Some (_, a) => match va_sense a with VBinary => true | _ => false end | None => false end.
Record imported_from (f : content) (obj : string) (accept : bool) (im : imported) : Prop := mkFrom {
  if_vars : forall j n v, nth_error (im_vars im) j = Some (n, v) -> nth_error (columns f) j = Some n /\ In n (columns f) /\
    (va_lower v, va_upper v) = interval f n /\ va_lower v <= va_upper v /\ va_sense v = binary_or_integer (va_lower v) (va_upper v) /\
    (va_fixed v = true -> va_lower v <= va_value v <= va_upper v) /\ (va_fixed v = true <-> exists z, In (BFx z) (bounds_of f n));
  if_names : map fst (im_vars im) = columns f;
  if_cons : forall n c, In (n, c) (im_cons im) -> exists e k, c = c_setup e k (is01_in (im_vars im)) /\ wf e /\
    (forall v a, In (v, a) (ex_sens e) -> (v < List.length (columns f))%nat /\ ~ (a == 0)%Q /\ exists w, In (w, n, a) (triples (f_cols f))) /\
    (ex_const e == - rhs_of f n)%Q /\ n <> obj;
  if_obj : wf (im_objective im) /\ forall v, In v (keys (im_objective im)) -> (v < List.length (columns f))%nat;
  if_means : forall y, let x := fun i => y (nth i (columns f) EmptyString) in
    (admits (im_vars im) (im_cons im) x <-> feasible f y) /\ (e_eval (im_objective im) x == row_value f y obj)%Q }.
Lemma import_from lines f obj accept m im : well_formed f obj -> contains lines f -> read_mps lines = Ok m -> import_mps accept m = Ok im -> imported_from f obj accept im.
Proof.
  intros W C R I. pose proof (import_fixed_iff lines f obj accept m im W C R I) as Fi. destruct (file_read lines f obj W C) as (m' & R' & M). assert (m' = m) as -> by congruence. clear R'.
  pose proof M as (M1 & M2 & M3 & M4 & M5). pose proof I as I0. unfold import_mps in I. rewrite M1, M2, M3 in I.
  destruct (collect (import_var accept m) (columns f)) as [vs| |] eqn:Cv; cbn [bind] in I; try discriminate.
  change (fun v : nat => match nth_error vs v with Some (_, a) => match va_sense a with VBinary => true | _ => false end | None => false end) with (is01_in vs) in I.
  destruct (collect (import_con m (is01_in vs)) (constraint_rows f)) as [cs| |] eqn:Cc; cbn [bind] in I; try discriminate.
  destruct (sens_of (columns f) (row_entries (triples (f_cols f)) obj)) as [so| |] eqn:So; cbn [bind] in I; try discriminate. injection I as <-. cbn [im_vars im_cons im_objective] in *.
  apply collect_forall2 in Cv, Cc.
  assert (Facts : forall j n v, nth_error vs j = Some (n, v) -> nth_error (columns f) j = Some n /\ In n (columns f) /\
    (va_lower v, va_upper v) = interval f n /\ va_lower v <= va_upper v /\ va_sense v = binary_or_integer (va_lower v) (va_upper v) /\
    (va_fixed v = true -> va_lower v <= va_value v <= va_upper v) /\ (accept = true \/ integer f n = true)).
  { intros j n v E. destruct (forall2_nth _ _ _ Cv j _ E) as (n' & A & B). pose proof (nth_error_In _ _ A) as In'. destruct (import_var_facts f obj m accept n' _ W M In' B) as (F1 & F2).
    cbn [fst snd] in *. subst n'. split; [exact A|]. split; [exact In'|exact F2]. }
  assert (Hn : forall n, In n (columns f) -> exists j v, nth_error vs j = Some (n, v)).
  { intros n J. destruct (In_nth_error _ _ J) as [j E]. destruct (forall2_nth' _ _ _ Cv j n E) as ([n' v] & A & B). destruct (Facts j n' v A) as (X & _). assert (n' = n) by congruence. subst. eauto. }
  destruct (import_ok lines f obj accept W C) as (m' & im' & R' & I' & Nm & _ & Me).
  { intros v Hv. destruct (Hn v Hv) as (j & a & E). destruct (Facts j v a E) as (_ & _ & F & L & _). rewrite <- F. exact L. }
  { destruct accept; [now left|]. right. intros v Hv. destruct (Hn v Hv) as (j & a & E). destruct (Facts j v a E) as (_ & _ & _ & _ & _ & _ & [X|X]); [discriminate|exact X]. }
  assert (m' = m) by congruence. subst m'. rewrite I0 in I'. injection I' as <-. cbn [im_vars im_cons im_objective] in *.
  pose proof W as (W1 & W2 & W3 & W4 & _).
  constructor; cbn [im_vars im_cons im_objective].
  - intros j n v E. destruct (Facts j n v E) as (A1 & A2 & A3 & A4 & A5 & A6 & _). do 6 (split; [assumption|]). exact (Fi n v (nth_error_In _ _ E)).
  - exact Nm.
  - intros n c J. destruct (In_nth_error _ _ J) as [j E]. destruct (forall2_nth _ _ _ Cc j _ E) as (n' & A & B). apply nth_error_In in A. pose proof A as A'.
    unfold constraint_rows in A. apply in_map_iff in A as ([k r] & X & A). cbn [snd] in X. subst r. apply filter_In in A as [A K]. cbn [fst] in K.
    assert (Kn : k <> KN) by (intros ->; discriminate). unfold import_con in B. rewrite (M4 k n' A Kn), M2 in B. cbn [mc_sens mc_sense mc_rhs] in B.
    destruct (sens_of (columns f) (row_entries (triples (f_cols f)) n')) as [s| |] eqn:S; cbn [bind] in B; try discriminate. cbn [compare compare_expr] in B. injection B as -> <-.
    eexists. eexists. split; [reflexivity|]. cbn [e_sub_value ex_sens ex_const]. split; [|split; [|split]].
    + unfold wf, keys. cbn [ex_sens]. exact (sens_once_each _ _ _ (entries_once _ _ W3) S).
    + intros v a Iv. destruct (sens_terms _ _ _ S v a Iv) as (w & P & Q). apply position_at in Q. destruct (entries_in _ _ _ _ P) as [P1 P2]. split; [apply nth_error_Some; congruence|]. split; [|now exists w].
      intros Z. rewrite Z in P2. discriminate.
    + ring.
    + intros ->. assert (O : In (KN, obj) (f_rows f)).
      { assert (H : In obj (map snd (filter (fun p : row_kind * string => match fst p with KN => true | _ => false end) (f_rows f)))) by (rewrite W1; now left).
        apply in_map_iff in H as ([k' r'] & X & H). cbn [snd] in X. subst r'. apply filter_In in H as [H H']. cbn [fst] in H'. destruct k'; [exact H|discriminate..]. }
      exact (Kn (once _ _ _ _ W2 A O)).
  - split; [exact (sens_once_each _ _ _ (entries_once _ _ W3) So)|]. intros v Iv. unfold keys in Iv. cbn [ex_sens] in Iv. apply in_map_iff in Iv as ([v' a] & X & Iv). cbn in X. subst v'.
    destruct (sens_terms _ _ _ So v a Iv) as (w & _ & Q). apply position_at in Q. apply nth_error_Some. congruence.
  - exact Me.
Qed.
