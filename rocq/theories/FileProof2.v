(** Proofs for C83: from the instance to the answer. *)
From Coq Require Import List NArith ZArith QArith Qabs Bool Arith String Lia Lqa.
From Verif Require Import ExprModel ExprSpec ExprProof ConstraintModel ConstraintSpec VariableModel TypeModel TypeSpec PresolveModel PresolveSpec DuplicateModel
  DependentModel DependentSpec SelectionModel PrepareModel PrepareSpec TextModel MpsModel MpsSpec NamesModel NamesSpec NamesProof JsonModel OptionModel CommandModel CommandSpec
  WholeModel WholeSpec RelaxModel OfferModel ParityModel FileModel FileSpec FileProof.
From Verif Require CommandProof4 ParityProof4 InfeasibleProof SolverModel.
Import ListNotations.
Local Open Scope Z_scope.

Lemma c_setup_ext e k p q : (forall v a, In (v, a) (ex_sens e) -> p v = q v) -> c_setup e k p = c_setup e k q.
Proof.
  intros H. unfold c_setup. assert (E : forallb (fun t => p (fst t)) (ex_sens e) = forallb (fun t => q (fst t)) (ex_sens e)); [|rewrite E; reflexivity].
  revert H. generalize (ex_sens e). intros l. induction l as [|[v a] l IH]; intros H; [reflexivity|]. cbn [forallb fst].
  rewrite (H v a (or_introl eq_refl)), IH; [reflexivity|]. intros w b I. exact (H w b (or_intror I)).
Qed.
Lemma eval_agree e x y : (forall v, In v (keys e) -> x v = y v) -> (e_eval e x == e_eval e y)%Q.
Proof.
  intros H. rewrite !eval_lin. unfold keys in H. revert H. generalize (ex_sens e). intros l. induction l as [|[v a] l IH]; intros H; cbn [lin]; [reflexivity|].
  rewrite (H v (or_introl eq_refl)). assert (IH' := IH (fun w I => H w (or_intror I))). lra.
Qed.
Lemma nearest_once q z z' : nearest q z -> nearest q z' -> z = z'.
Proof. intros A B. apply nearest_floor in A, B. congruence. Qed.

Section Instance.
  Context (fuel : nat) (fs : files) (items : list item) (s : settings) (i : instance) (lines : list string) (f : content) (obj : string).
  Hypothesis N1 : Forall well_named items.
  Hypothesis N2 : Forall well_numbered items.
  Hypothesis De : describes items s.
  Hypothesis Op : opens fs (st_mps s) lines.
  Hypothesis Co : contains lines f.
  Hypothesis Wf : well_formed f obj.
  Hypothesis Ir : integer_rows f obj.
  Hypothesis Th : thin_binaries fs s f.
  Hypothesis Rd : CommandModel.setup fuel fs (flat_map words items) = Some (Ok (Ready i)).

  (** The variables of the instance. *)
  Definition files_leave (n : string) (z : Z) : Prop :=
    (st_mutable s <> EmptyString -> forall ls, opens fs (st_mutable s) ls -> ~ listed ls n -> z = 0) /\
    (st_fixed s <> EmptyString -> forall ls text q, opens fs (st_fixed s) ls -> last_given ls n text -> atof text = Some q -> nearest q z).
  Definition thin (w : var) : Prop := (va_lower w, va_upper w) = (0, 0) \/ (va_lower w, va_upper w) = (1, 1).
  Definition var_of (n : string) (w : var) : Prop :=
    In n (columns f) /\ (va_lower w, va_upper w) = interval f n /\ va_lower w <= va_upper w /\ va_sense w = binary_or_integer (va_lower w) (va_upper w) /\
    (thin w -> va_fixed w = true /\ va_lower w <= va_value w <= va_upper w) /\
    (forall z, (if va_fixed w then z = va_value w else True) -> files_leave n z).
  Lemma opened name a b : opens fs name a -> opens fs name b -> a = b.
  Proof. intros (t & A & ->) (t' & B & ->). congruence. Qed.
  Lemma never_last ls n t : never_given ls n -> ~ last_given ls n t.
  Proof. intros G (b & l & a & E & Gv & _). apply (G l t); [rewrite E; apply in_or_app; right; now left|exact Gv]. Qed.
  Lemma instance_var n v w : In n (columns f) -> (va_lower v, va_upper v) = interval f n -> va_lower v <= va_upper v -> va_sense v = binary_or_integer (va_lower v) (va_upper v) ->
    (va_fixed v = true -> va_lower v <= va_value v <= va_upper v) -> (va_fixed v = true <-> exists z, In (BFx z) (bounds_of f n)) ->
    st_mutable s = EmptyString \/ st_fixed s = EmptyString -> prepared fs s n v w -> var_of n w.
  Proof.
    intros In' B L Se Va Fx Ex ((P1 & P2 & _ & P4) & Pm & Pf & Pn & _). assert (Bw : (va_lower w, va_upper w) = interval f n) by (rewrite <- P1, <- P2; exact B).
    split; [exact In'|]. split; [exact Bw|]. split; [rewrite <- P1, <- P2; exact L|]. split; [rewrite <- P1, <- P2, <- P4; exact Se|]. split.
    - unfold thin. rewrite Bw. intros T. destruct (Th n In' T) as (Y & Em & z0 & Z1 & _ & Z3). apply Fx in Y. rewrite <- Bw in Z1. cbn [fst snd] in Z1.
      destruct (string_dec (st_fixed s) EmptyString) as [Ef|Ef].
      + destruct (Pn Em Ef) as [Q1 Q2]. split; [congruence|]. rewrite (Q2 (or_introl Y)), <- P1, <- P2. exact (Va Y).
      + destruct (Pf Ef) as (ls & O & Q1 & Q2 & Q3). split; [apply Q1; now left|]. destruct (given_dec ls n) as [[t G]|G].
        * destruct (Q2 t G) as (q & A & Ne). rewrite <- (nearest_once q _ _ (Z3 Ef ls t q O G A) Ne). exact Z1.
        * rewrite (Q3 G (or_introl Y)), <- P1, <- P2. exact (Va Y).
    - intros z Wz. split.
      + intros Em ls O Nl. destruct (Pm Em) as (ls' & O' & Q1 & Q2). rewrite (opened _ _ _ O O') in Nl. destruct (va_fixed w) eqn:F; [rewrite Wz; apply Q2; now left|].
        exfalso. apply Nl, Q1. reflexivity.
      + intros Ef ls t q O G A. destruct (Pf Ef) as (ls' & O' & Q1 & Q2 & _). rewrite (opened _ _ _ O O') in G. assert (F : va_fixed w = true) by (apply Q1; eauto). rewrite F in Wz. subst z.
        destruct (Q2 t G) as (q' & A' & Ne). assert (q' = q) as <- by congruence. exact Ne.
  Qed.

  Lemma instance_facts : exists im, imported_from f obj (st_accept s) im /\ in_cons i = im_cons im /\ in_objective i = im_objective im /\
    map fst (elements (in_vars i)) = columns f /\ (forall j n w, nth_error (elements (in_vars i)) j = Some (n, w) -> nth_error (columns f) j = Some n /\ var_of n w) /\
    (forall j, is01_of (entered_vars (elements (in_vars i))) j = is01_in (im_vars im) j).
  Proof.
    destruct (CommandProof4.result fuel fs items s i N1 N2 De Rd) as (Ex & ls & m & im & o & O & R & I & _ & Ic & Io & Iv & _).
    rewrite (opened _ _ _ O Op) in R. exists im. pose proof (import_from lines f obj (st_accept s) m im Wf Co R I) as Im. split; [exact Im|]. split; [exact Ic|]. split; [exact Io|].
    assert (Each : forall j n w, nth_error (elements (in_vars i)) j = Some (n, w) -> exists v, nth_error (im_vars im) j = Some (n, v) /\ prepared fs s n v w).
    { intros j n w E. specialize (Iv j). destruct (nth_error (im_vars im) j) as [[n' v]|]; [|congruence]. destruct Iv as (w' & E' & P). rewrite E in E'. injection E' as -> ->. eauto. }
    split; [|split].
    - rewrite <- (if_names _ _ _ _ Im). apply (nth_ext _ _ EmptyString EmptyString).
      + rewrite !map_length. destruct (Nat.lt_trichotomy (List.length (elements (in_vars i))) (List.length (im_vars im))) as [H|[H|H]]; [|exact H|]; exfalso.
        * pose proof (Iv (List.length (elements (in_vars i)))) as X. destruct (nth_error (im_vars im) _) as [[n v]|] eqn:E; [|apply nth_error_None in E; lia].
          destruct X as (w & X & _). assert (Y : nth_error (elements (in_vars i)) (List.length (elements (in_vars i))) = None) by (apply nth_error_None; lia). congruence.
        * pose proof (Iv (List.length (im_vars im))) as X. assert (Y : nth_error (im_vars im) (List.length (im_vars im)) = None) by (apply nth_error_None; lia). rewrite Y in X. apply nth_error_None in X. lia.
      + intros j Hj. rewrite map_length in Hj. destruct (nth_error (elements (in_vars i)) j) as [[n w]|] eqn:E; [|apply nth_error_None in E; lia]. destruct (Each j n w E) as (v & E' & _).
        rewrite (nth_error_nth _ _ EmptyString (map_nth_error fst _ _ E)), (nth_error_nth _ _ EmptyString (map_nth_error fst _ _ E')). reflexivity.
    - intros j n w E. destruct (Each j n w E) as (v & E' & P). destruct (if_vars _ _ _ _ Im j n v E') as (A1 & A2 & A3 & A4 & A5 & A6 & A7). split; [exact A1|].
      exact (instance_var n v w A2 A3 A4 A5 A6 A7 Ex P).
    - intros j. unfold is01_of, entered_vars, is01_in. destruct (nth_error (elements (in_vars i)) j) as [[n w]|] eqn:E.
      + destruct (Each j n w E) as (v & E' & (P & _)). destruct P as (_ & _ & _ & P). rewrite E', P. destruct (if_vars _ _ _ _ Im j n v E') as (_ & _ & _ & _ & A5 & _). rewrite <- P, A5.
        unfold binary_or_integer. destruct (_ || _ || _); reflexivity.
      + specialize (Iv j). destruct (nth_error (im_vars im) j) as [[n v]|]; [|reflexivity]. destruct Iv as (w & X & _). congruence.
  Qed.

  Lemma entered_var j : (exists n, nth_error (columns f) j = Some n /\ var_of n (ds_vars (enter i) j)) \/ (nth_error (columns f) j = None /\ ds_vars (enter i) j = no_variable).
  Proof.
    destruct instance_facts as (im & _ & _ & _ & Nm & Va & _). cbn [enter ds_vars]. unfold entered_vars. destruct (nth_error (elements (in_vars i)) j) as [[n w]|] eqn:E.
    - left. exists n. exact (Va j n w E).
    - right. split; [|reflexivity]. rewrite <- Nm. apply nth_error_None. rewrite map_length. now apply nth_error_None.
  Qed.
  Lemma entered_number : ds_number (enter i) = List.length (columns f).
  Proof. destruct instance_facts as (im & _ & _ & _ & Nm & _). cbn [enter ds_number]. rewrite <- Nm, map_length. reflexivity. Qed.
  Lemma senses v : va_sense (ds_vars (enter i) v) = VBinary \/ va_sense (ds_vars (enter i) v) = VInteger.
  Proof.
    destruct (entered_var v) as [(n & _ & (_ & _ & _ & Se & _))|[_ ->]]; [|right; reflexivity]. rewrite Se. unfold binary_or_integer. destruct (_ || _ || _); auto.
  Qed.
  Lemma rhs_integer n : exists z, (- rhs_of f n == inject_Z z)%Q.
  Proof.
    unfold rhs_of. destruct (find _ _) as [[r q]|] eqn:E; [|exists 0; reflexivity]. apply find_some in E as [E _]. destruct (proj2 Ir r q E) as [z H]. exists (- z). cbn [snd]. rewrite H, <- inject_Z_opp. reflexivity.
  Qed.
  Lemma entered_con c : In c (ds_cons (enter i)) -> exists n e k, In n (map fst (in_cons i)) /\ c = c_setup e k (is01_of (ds_vars (enter i))) /\ wf e /\ integral e /\ no_zero e /\ (exists z, (ex_const e == inject_Z z)%Q) /\
    forall v, In v (keys e) -> (v < ds_number (enter i))%nat.
  Proof.
    intros I. destruct instance_facts as (im & Im & Ic & _ & _ & _ & Sa). cbn [enter ds_cons] in I. apply in_map_iff in I as ([n c'] & X & I). cbn in X. subst c'. pose proof I as I0. rewrite Ic in I.
    destruct (if_cons _ _ _ _ Im n c I) as (e & k & -> & W & T & Cz & Ne). exists n, e, k. split; [apply in_map_iff; exists (n, c_setup e k (is01_in (im_vars im))); auto|]. split.
    - apply c_setup_ext. intros v a _. symmetry. apply Sa.
    - split; [exact W|]. split; [|split; [|split]].
      + intros v a J. destruct (T v a J) as (_ & _ & w & K). exact (proj1 Ir w n a K Ne).
      + intros v a J. destruct (T v a J) as (_ & Nz & _). exact Nz.
      + destruct (rhs_integer n) as [z H]. exists z. rewrite Cz. exact H.
      + intros v J. unfold keys in J. apply in_map_iff in J as ([v' a] & X & J). cbn in X. subst v'. rewrite entered_number. exact (proj1 (T v a J)).
  Qed.
  Lemma entered_coherent : coherent (enter i).
  Proof.
    constructor.
    - destruct instance_facts as (im & Im & _ & Io & _). cbn [enter ds_obj]. rewrite Io. exact (proj1 (if_obj _ _ _ _ Im)).
    - intros c I. destruct (entered_con c I) as (n & e & k & _ & -> & W & _ & _ & _ & K). cbn [c_setup ct_expr]. auto.
    - intros e [].
    - intros v. cbn [enter ds_dep]. split; [congruence|]. intros [_ [D|D]]; destruct (senses v) as [X|X]; congruence.
    - intros v k H. discriminate H.
    - intros v w k H. discriminate H.
  Qed.
  Lemma entered_bounds v : va_lower (ds_vars (enter i) v) <= va_upper (ds_vars (enter i) v) /\
    (va_sense (ds_vars (enter i) v) = VBinary -> 0 <= va_lower (ds_vars (enter i) v) /\ va_upper (ds_vars (enter i) v) <= 1).
  Proof.
    destruct (entered_var v) as [(n & _ & (_ & _ & L & Se & _))|[_ ->]]; [|cbn; split; [lia|intros X; discriminate]]. split; [exact L|]. rewrite Se. unfold binary_or_integer.
    destruct ((va_lower (ds_vars (enter i) v) =? 0) && (va_upper (ds_vars (enter i) v) =? 1) || (va_lower (ds_vars (enter i) v) =? 0) && (va_upper (ds_vars (enter i) v) =? 0) ||
                  (va_lower (ds_vars (enter i) v) =? 1) && (va_upper (ds_vars (enter i) v) =? 1)) eqn:E; [|intros X; discriminate].
    intros _. rewrite !orb_true_iff, !andb_true_iff, !Z.eqb_eq in E. lia.
  Qed.
  Lemma entered_as : as_entered (enter i).
  Proof.
    constructor.
    - intros c I. destruct (entered_con c I) as (n & e & k & _ & -> & _ & _ & _ & Z & _). exists e, k. auto.
    - exact senses.
    - intros v J. rewrite entered_number. destruct instance_facts as (im & Im & _ & Io & _). cbn [enter ds_obj] in J. rewrite Io in J. exact (proj2 (if_obj _ _ _ _ Im) v J).
  Qed.
  Lemma entered_free : free_binaries (enter i).
  Proof.
    intros v _ F B. destruct (entered_var v) as [(n & _ & (_ & _ & _ & Se & T & _))|[_ E]]; [|rewrite E in B; discriminate]. rewrite B in Se.
    assert (Nt : ~ thin (ds_vars (enter i) v)) by (intros X; destruct (T X) as [Y _]; congruence). unfold binary_or_integer in Se.
    destruct ((va_lower (ds_vars (enter i) v) =? 0) && (va_upper (ds_vars (enter i) v) =? 1)) eqn:E1.
    { apply andb_true_iff in E1 as [A1 A2]. apply Z.eqb_eq in A1, A2. auto. }
    destruct ((va_lower (ds_vars (enter i) v) =? 0) && (va_upper (ds_vars (enter i) v) =? 0)) eqn:E2.
    { apply andb_true_iff in E2 as [A1 A2]. apply Z.eqb_eq in A1, A2. exfalso. apply Nt. left. congruence. }
    destruct ((va_lower (ds_vars (enter i) v) =? 1) && (va_upper (ds_vars (enter i) v) =? 1)) eqn:E3; [|discriminate].
    apply andb_true_iff in E3 as [A1 A2]. apply Z.eqb_eq in A1, A2. exfalso. apply Nt. right. congruence.
  Qed.

  (** Fixed variables have a value within their bounds. *)
  Hypothesis Fi : forall v, va_fixed (ds_vars (enter i) v) = true -> va_lower (ds_vars (enter i) v) <= va_value (ds_vars (enter i) v) <= va_upper (ds_vars (enter i) v).
  Lemma entered_plain : plain_model (enter i).
  Proof.
    constructor.
    - exact entered_coherent.
    - reflexivity.
    - reflexivity.
    - intros c I. destruct (entered_con c I) as (n & e & k & _ & -> & _). reflexivity.
    - intros c I. destruct (entered_con c I) as (n & e & k & _ & -> & _ & A & B & _). auto.
    - intros v. destruct (entered_bounds v) as [L Bi]. split; [exact L|]. split; [|exact (Fi v)]. destruct (senses v) as [X|X]; rewrite X; [intros _; exact (Bi X)|intros [Y|[Y|Y]]; discriminate].
    - intros c I. destruct (entered_con c I) as (n & e & k & _ & -> & _). split; cbn [c_setup ct_expr ct_only_binary_coef ct_only_binary_var].
      + intros H v a J. rewrite forallb_forall in H. specialize (H _ J). cbn [snd] in H. apply Qeq_bool_iff, H.
      + intros H v J. rewrite forallb_forall in H. unfold variables in J. apply in_map_iff in J as ([v' a] & X & J). cbn in X. subst v'. specialize (H _ J). cbn [fst] in H. cbn [vctx tx_sense].
        unfold is01_of in H. destruct (senses v) as [S|S]; rewrite S in H; [now left|discriminate].
  Qed.

  (** A solution of the instance is one of the file. *)
  Lemma entered_solution x : solves (enter i) x -> exists y, (forall j n, nth_error (columns f) j = Some n -> y n = x j) /\ file_solution fs s f y /\
    (e_eval (ds_obj (enter i)) x == row_value f y obj)%Q.
  Proof.
    intros [R Cs _]. set (y := fun n => match position (columns f) n with Some j => x j | None => 0 end).
    assert (Y : forall j n, nth_error (columns f) j = Some n -> y n = x j) by (intros j n E; unfold y; now rewrite (position_of _ _ _ (columns_nodup f) E)).
    exists y. split; [exact Y|]. destruct instance_facts as (im & Im & Ic & Io & Nm & Va & _).
    assert (X : forall j, (j < List.length (columns f))%nat -> y (nth j (columns f) EmptyString) = x j).
    { intros j L. destruct (nth_error (columns f) j) as [n|] eqn:E; [|apply nth_error_None in E; lia]. rewrite (nth_error_nth _ _ EmptyString E). exact (Y j n E). }
    assert (Lt : forall n, In n (columns f) -> left_to fs s f n (y n)).
    { intros n J. destruct (In_nth_error _ _ J) as [j E]. rewrite (Y j n E). destruct (entered_var j) as [(n' & E' & V)|[E' _]]; [|congruence]. assert (n' = n) as -> by congruence.
      pose proof (R j eq_refl) as Wj. unfold within in Wj. destruct V as (_ & Bw & _ & _ & _ & Fl). split.
      - rewrite <- Bw. cbn [fst snd]. destruct (va_fixed (ds_vars (enter i) j)) eqn:F; [rewrite Wj; exact (Fi j F)|exact Wj].
      - apply (Fl (x j)). destruct (va_fixed (ds_vars (enter i) j)); [exact Wj|exact Logic.I]. }
    destruct (if_means _ _ _ _ Im y) as [Me Mo]. cbv zeta in Me, Mo. split.
    - split; [|exact Lt]. apply Me. split.
      + intros j n v E. destruct (if_vars _ _ _ _ Im j n v E) as (A1 & A2 & A3 & A4 & _ & A6 & A7). rewrite (nth_error_nth _ _ EmptyString A1). pose proof (Lt n A2) as (L & _). rewrite <- A3 in L. cbn [fst snd] in L.
        destruct (va_fixed v) eqn:F; [|exact L]. destruct (proj1 A7 eq_refl) as [z Iz]. destruct Wf as (_ & _ & _ & _ & _ & _ & _ & _ & W9).
        apply in_split in Iz as (l & l' & Sp). pose proof (W9 n l z l' Sp) as ->. assert (I : interval f n = (z, z)).
        { unfold interval. rewrite Sp. destruct (l ++ [BFx z]) as [|b bs] eqn:Eb; [destruct l; discriminate|]. rewrite <- Eb, fold_left_app. reflexivity. }
        rewrite I in A3. injection A3 as B1 B2. specialize (A6 eq_refl). lia.
      + intros n c J. assert (Jc : In c (ds_cons (enter i))). { cbn [enter ds_cons]. rewrite Ic. apply in_map_iff. exists (n, c). auto. }
        destruct (entered_con c Jc) as (_ & e & k & _ & E & _ & _ & _ & _ & K). assert (En : ct_enabled c = true) by (rewrite E; reflexivity). pose proof (Cs c Jc En) as Sc. unfold satisfies in Sc.
        assert (Ev : (e_eval (ct_expr c) (fun j => y (nth j (columns f) EmptyString)) == e_eval (ct_expr c) x)%Q).
        { apply eval_agree. intros v Jv. apply X. rewrite E in Jv. cbn [c_setup ct_expr] in Jv. rewrite <- entered_number. exact (K v Jv). }
        destruct (ct_sense c); cbn [holds] in *; rewrite Ev; exact Sc.
    - cbn [enter ds_obj]. rewrite Io, <- Mo. apply eval_agree. intros v J. symmetry. apply X. exact (proj2 (if_obj _ _ _ _ Im) v J).
  Qed.
End Instance.
