(** Proofs for C86: from the file to the model. *)
From Coq Require Import List NArith ZArith QArith Qabs Bool Arith String Permutation Lia Lqa.
From Verif Require Import ExprModel ExprSpec ExprProof ConstraintModel ConstraintSpec VariableModel TypeModel PresolveModel PresolveSpec
  DependentModel DependentSpec SelectionModel PrepareModel PrepareSpec TextModel MpsModel MpsSpec NamesModel NamesSpec JsonModel OptionModel CommandModel CommandSpec
  SolverModel WholeModel WholeSpec RelaxModel OfferModel ParityModel InfeasibleSpec FileModel FileSpec FileProof FileProof2 FileProof3 DefaultSpec DefaultProof.
From Verif Require CommandProof4 ParityProof4 InfeasibleProof3 NamesProof MpsProof2 MpsProof3 ScreenProof2.
From Verif Require Import MpsProof MpsProof2.
Import ListNotations.
Local Open Scope Z_scope.

Lemma import_means lines f obj accept m im : well_formed f obj -> contains lines f -> read_mps lines = Ok m -> import_mps accept m = Ok im ->
  (forall n c, In (n, c) (im_cons im) -> exists k, constrains f k n /\ ct_sense c = sense_of k /\
    forall y, (e_eval (ct_expr c) (fun j => y (nth j (columns f) EmptyString)) == excess f y n)%Q) /\
  (forall k r, constrains f k r -> exists c, In (r, c) (im_cons im)) /\ (ex_const (im_objective im) == 0)%Q.
Proof.
  intros W C R I. destruct (MpsProof2.file_read lines f obj W C) as (m' & R' & M). assert (m' = m) as -> by congruence. clear R'.
  pose proof M as (M1 & M2 & M3 & M4 & M5). unfold import_mps in I. rewrite M1, M2, M3 in I.
  destruct (collect (import_var accept m) (columns f)) as [vs| |] eqn:Cv; cbn [PresolveModel.bind] in I; try discriminate.
  change (fun v : nat => match nth_error vs v with Some (_, a) => match va_sense a with VBinary => true | _ => false end | None => false end) with (is01_in vs) in I.
  destruct (collect (import_con m (is01_in vs)) (constraint_rows f)) as [cs| |] eqn:Cc; cbn [PresolveModel.bind] in I; try discriminate.
  destruct (sens_of (columns f) (row_entries (triples (f_cols f)) obj)) as [so| |] eqn:So; cbn [PresolveModel.bind] in I; try discriminate. injection I as <-. cbn [im_vars im_cons im_objective] in *.
  apply collect_forall2 in Cc. split; [|split; [|reflexivity]].
  - intros n c J. destruct (In_nth_error _ _ J) as [j E]. destruct (MpsProof3.forall2_nth _ _ _ Cc j _ E) as (n' & A & B). apply nth_error_In in A.
    destruct (MpsProof3.import_con_ok f obj m (is01_in vs) n' W M A) as (nc & B' & K1 & K2). rewrite B in B'. injection B' as <-. cbn [fst snd] in K1, K2. subst n'.
    destruct (K2 (fun _ => 0)) as (k & K3 & K4 & K5 & _). exists k. split; [split; assumption|]. split; [exact K5|]. intros y. destruct (K2 y) as (_ & _ & _ & _ & K6). exact K6.
  - intros k r (Ik & Nk). assert (Hc : In r (constraint_rows f)) by (unfold constraint_rows; apply in_map_iff; exists (k, r); split; [reflexivity|apply filter_In; split; [exact Ik|destruct k; [congruence|reflexivity..]]]).
    destruct (In_nth_error _ _ Hc) as [j E]. destruct (MpsProof3.forall2_nth' _ _ _ Cc j r E) as ([n c] & A & B).
    destruct (MpsProof3.import_con_ok f obj m (is01_in vs) r W M Hc) as (nc & B' & K1 & _). rewrite B in B'. injection B' as <-. cbn [fst] in K1. subst n. exists c. exact (nth_error_In _ _ A).
Qed.
Lemma row_zero f r : (row_value f (fun _ => 0%Z) r == 0)%Q.
Proof.
  unfold row_value. generalize (filter (fun t : string * string * Q => (snd (fst t) =? r)%string) (triples (f_cols f))). intros l. induction l as [|t l IH]; [reflexivity|].
  cbn [map sum fold_right]. fold (sum (map (fun t : string * string * Q => (snd t * inject_Z 0)%Q) l)). rewrite IH. change (inject_Z 0) with 0%Q. ring.
Qed.

Section Instance.
  Context (fuel : nat) (fs : files) (items : list item) (s : settings) (i : instance) (lines : list string) (f : content) (obj : string).
  Hypothesis N1 : Forall well_named items.
  Hypothesis N2 : Forall well_numbered items.
  Hypothesis De : describes items s.
  Hypothesis Op : opens fs (st_mps s) lines.
  Hypothesis Co : contains lines f.
  Hypothesis Wf : well_formed f obj.
  Hypothesis Ir : integer_rows f obj.
  Hypothesis Th : thin_binaries fs s f.
  Hypothesis Rd : CommandModel.setup fuel fs (flat_map words items) = Some (Ok (Ready i)).

  Let Number := entered_number fuel fs items s i lines f obj N1 N2 De Op Co Wf Th Rd.
  Let Var := entered_var fuel fs items s i lines f obj N1 N2 De Op Co Wf Th Rd.

  Lemma entered_rows : (forall c, In c (ds_cons (enter i)) -> exists n k, constrains f k n /\ ct_sense c = sense_of k /\
      forall y, (e_eval (ct_expr c) (fun j => y (nth j (columns f) EmptyString)) == excess f y n)%Q) /\
    (forall k r, constrains f k r -> exists c, In c (ds_cons (enter i)) /\ forall y, (e_eval (ct_expr c) (fun j => y (nth j (columns f) EmptyString)) == excess f y r)%Q) /\
    (ex_const (ds_obj (enter i)) == 0)%Q /\ forall y, (e_eval (ds_obj (enter i)) (fun j => y (nth j (columns f) EmptyString)) == row_value f y obj)%Q.
  Proof.
    destruct (CommandProof4.result fuel fs items s i N1 N2 De Rd) as (Ex & ls & m & im & o & O & R & I & _ & Ic & Io & _ & _).
    rewrite (opened fs _ _ _ O Op) in R. destruct (import_means lines f obj (st_accept s) m im Wf Co R I) as (A & B & C).
    pose proof (import_from lines f obj (st_accept s) m im Wf Co R I) as Im. cbn [enter ds_cons ds_obj]. rewrite Ic, Io. split; [|split; [|split; [exact C|]]].
    - intros c J. apply in_map_iff in J as ([n c'] & X & J). cbn in X. subst c'. exists n. exact (A n c J).
    - intros k r K. destruct (B k r K) as [c J]. exists c. split; [apply in_map_iff; exists (r, c); auto|]. destruct (A r c J) as (_ & _ & _ & H). exact H.
    - intros y. exact (proj2 (if_means _ _ _ _ Im y)).
  Qed.
  Lemma from_numbers (x : nat -> Z) (w : nat -> Z) e : (forall v, In v (keys e) -> (v < List.length (columns f))%nat) ->
    exists y : string -> Z, (forall j n, nth_error (columns f) j = Some n -> y n = x j) /\ (e_eval e (fun j => y (nth j (columns f) EmptyString)) == e_eval e x)%Q.
  Proof.
    intros K. set (y := fun n => match position (columns f) n with Some j => x j | None => 0 end).
    assert (Y : forall j n, nth_error (columns f) j = Some n -> y n = x j) by (intros j n E; unfold y; now rewrite (position_of _ _ _ (columns_nodup f) E)).
    exists y. split; [exact Y|]. apply eval_agree. intros v J. specialize (K v J). destruct (nth_error (columns f) v) as [n|] eqn:E; [|apply nth_error_None in E; lia].
    rewrite (nth_error_nth _ _ EmptyString E). exact (Y v n E).
  Qed.
  Lemma only_number v n e : nth_error (columns f) v = Some n -> wf e -> (forall u, In u (keys e) -> (u < List.length (columns f))%nat) ->
    (e_eval e (fun j => only n (nth j (columns f) EmptyString)) == ex_const e + coef (ex_sens e) v)%Q.
  Proof.
    intros En We K. rewrite (eval_agree e _ (fun j => if Nat.eqb j v then 1 else 0)).
    - rewrite eval_lin, lin_unit by exact We. reflexivity.
    - intros u J. specialize (K u J). destruct (nth_error (columns f) u) as [n'|] eqn:E; [|apply nth_error_None in E; lia]. rewrite (nth_error_nth _ _ EmptyString E). unfold only.
      destruct (String.eqb_spec n' n) as [->|D].
      + assert (u = v) as -> by (apply (proj1 (NoDup_nth_error (columns f)) (columns_nodup f)); [exact K|congruence]). now rewrite Nat.eqb_refl.
      + destruct (Nat.eqb_spec u v) as [->|_]; [congruence|reflexivity].
  Qed.
  Lemma con_shape c : In c (ds_cons (enter i)) -> wf (ct_expr c) /\ integral (ct_expr c) /\ no_zero (ct_expr c) /\ ct_enabled c = true /\
    ct_only_binary_coef c = forallb (fun p => Qeq_bool (snd p) 1) (ex_sens (ct_expr c)) /\ forall v, In v (keys (ct_expr c)) -> (v < List.length (columns f))%nat.
  Proof.
    intros I. destruct (entered_con fuel fs items s i lines f obj N1 N2 De Op Co Wf Ir Th Rd c I) as (n & e & k & _ & -> & A & B & C & _ & K). rewrite Number in K. cbn [c_setup ct_expr ct_enabled ct_only_binary_coef]. auto 8.
  Qed.
  (** The coefficient in the constraint of a row is that of the file. *)
  Lemma con_entry c r v n : In c (ds_cons (enter i)) -> (forall y, (e_eval (ct_expr c) (fun j => y (nth j (columns f) EmptyString)) == excess f y r)%Q) ->
    nth_error (columns f) v = Some n -> (coef (ex_sens (ct_expr c)) v == entry f n r)%Q.
  Proof.
    intros I M En. destruct (con_shape c I) as (W & _ & _ & _ & _ & K). pose proof (only_number v n _ En W K) as A. rewrite (M (only n)) in A.
    pose proof (M (fun _ => 0)) as B. cbv beta in B. rewrite eval_lin, lin_zero in B. unfold excess in A, B. rewrite row_zero in B. unfold entry. lra.
  Qed.

  Hypothesis Fi : values_left fs s f.
  Hypothesis Na : narrow f.
  Hypothesis Ne : inequalities f.
  Hypothesis Sm : small f.
  Hypothesis Pl : placed f obj.

  Lemma fixed_inside v : va_fixed (ds_vars (enter i) v) = true -> va_lower (ds_vars (enter i) v) <= va_value (ds_vars (enter i) v) <= va_upper (ds_vars (enter i) v).
  Proof.
    intros Fx. destruct (CommandProof4.result fuel fs items s i N1 N2 De Rd) as (Ex & ls & m & im & o & O & R & I & _ & _ & _ & Iv & _).
    rewrite (opened fs _ _ _ O Op) in R. pose proof (import_from lines f obj (st_accept s) m im Wf Co R I) as Im. specialize (Iv v).
    cbn [enter ds_vars] in *. unfold entered_vars in *. destruct (nth_error (im_vars im) v) as [[n u]|] eqn:E; [|rewrite Iv in *; cbn; lia].
    destruct Iv as (w & Ew & ((P1 & P2 & _ & P4) & Pm & Pf & Pn & _)). rewrite Ew in *. destruct (if_vars _ _ _ _ Im v n u E) as (_ & A2 & A3 & A4 & _ & A6 & _).
    destruct (Fi n A2) as (z & Z1 & Z2 & Z3). rewrite <- A3 in Z1. cbn [fst snd] in Z1. rewrite P1, P2 in *.
    destruct (string_dec (st_fixed s) EmptyString) as [Ef|Ef].
    - destruct (string_dec (st_mutable s) EmptyString) as [Em|Em].
      + destruct (Pn Em Ef) as [Q1 Q2]. assert (Y : va_fixed u = true) by congruence. rewrite (Q2 (or_introl Y)). exact (A6 Y).
      + destruct (Pm Em) as (ls' & O' & Q1 & Q2). rewrite (Q2 (or_introl Fx)). rewrite <- (Z2 Em ls' O'); [exact Z1|]. intros L. apply Q1 in L. congruence.
    - destruct (Pf Ef) as (ls' & O' & Q1 & Q2 & Q3). destruct (NamesProof.given_dec ls' n) as [[t G]|G].
      + destruct (Q2 t G) as (q & A & Nr). rewrite <- (nearest_once q _ _ (Z3 Ef ls' t q O' G A) Nr). exact Z1.
      + assert (Y : va_fixed u = true). { apply Q1 in Fx as [Y|[t Y]]; [exact Y|]. exfalso. exact (never_last _ _ _ G Y). } rewrite (Q3 G (or_introl Y)). exact (A6 Y).
  Qed.
  Lemma proper_entered : proper_model (enter i).
  Proof.
    destruct (entered_plain fuel fs items s i lines f obj N1 N2 De Op Co Wf Ir Th Rd fixed_inside) as [A1 A2 A3 A4 A5 A6 A7].
    constructor; [exact A1|exact A2|exact A3|exact A4| | | |exact A6|exact A7|].
    - intros c I _. destruct (con_shape c I) as (W & Ii & Nz & _ & _ & K). split; [exact W|]. split; [exact Ii|]. split; [exact Nz|].
      unfold fits. rewrite abs_weighted. destruct (peak (ct_expr c) (fun _ => BOUND_LIMIT) W ltac:(intros; unfold BOUND_LIMIT; lia)) as (x & X1 & X2).
      destruct (from_numbers x (fun _ => 0) (ct_expr c) K) as (y & Y1 & Y2). destruct (proj1 entered_rows c I) as (n & k & Kn & _ & M).
      refine (Qle_trans _ _ _ X2 _). rewrite <- Y2, (M y). apply (proj2 (Sm k n y Kn)). intros n' J. destruct (In_nth_error _ _ J) as [j E]. rewrite (Y1 j n' E). apply X1.
    - intros v Fv. destruct (Var v) as [(n & E & (In' & Bw & _))|[_ E]]; [|rewrite E in Fv; discriminate]. destruct (Na n In') as [L U]. rewrite <- Bw in L, U. cbn [fst snd] in L, U. unfold BOUND_LIMIT. lia.
    - intros v Fv. pose proof (fixed_inside v Fv) as In0. destruct (Var v) as [(n & E & (In' & Bw & _))|[_ E]]; [|rewrite E; reflexivity].
      destruct (Na n In') as [L U]. rewrite <- Bw in L, U. cbn [fst snd] in L, U. unfold BOUND_LIMIT. lia.
    - intros v Fv Nc. destruct (Var v) as [(n & E & (In' & Bw & _))|[_ E]]; [|rewrite E in Fv; discriminate].
      assert (Wo : wf (ds_obj (enter i))) by apply A1. assert (Ko : forall u, In u (keys (ds_obj (enter i))) -> (u < List.length (columns f))%nat).
      { intros u J. rewrite <- Number. exact (ae_objective _ (entered_as fuel fs items s i lines f obj N1 N2 De Op Co Wf Ir Th Rd) u J). }
      destruct entered_rows as (_ & Rw & Oc & Ob). assert (Eo : (coef (ex_sens (ds_obj (enter i))) v == entry f n obj)%Q).
      { pose proof (only_number v n _ E Wo Ko) as A. rewrite (Ob (only n)) in A. unfold entry. lra. }
      destruct (Pl n In') as [(k & r & Kr & Nz)|[Bg|[Z0 B0]]].
      + exfalso. destruct (Rw k r Kr) as (c & Ic & M). apply Nz. rewrite <- (con_entry c r v n Ic M E). specialize (Nc c Ic).
        unfold coef. destruct (sens_find (ex_sens (ct_expr c)) v) as [q|] eqn:Sf; [|reflexivity]. exfalso. apply Nc.
        assert (Nq : In (v, q) (ex_sens (ct_expr c))).
        { revert Sf. generalize (ex_sens (ct_expr c)). intros l. induction l as [|[u b] l IH]; cbn [sens_find]; [discriminate|]. destruct (Nat.eqb_spec u v) as [->|_]; [intros X; injection X as ->; now left|intros X; right; exact (IH X)]. }
        unfold keys. apply in_map_iff. exists (v, q). auto.
      + left. rewrite Eo. exact Bg.
      + right. rewrite Eo. split; [exact Z0|]. rewrite <- Bw in B0. exact B0.
  Qed.
  Lemma inequalities_entered : only_inequalities (enter i).
  Proof. intros c I. destruct (proj1 entered_rows c I) as (n & k & Kn & -> & _). pose proof (Ne k n Kn). destruct k; cbn; congruence. Qed.
  Lemma small_entered : small_rows (enter i).
  Proof.
    intros c I. destruct (con_shape c I) as (W & _ & _ & _ & _ & K). rewrite reach_sum. set (w := fun v => Z.max (Z.abs (va_lower (ds_vars (enter i) v))) (Z.abs (va_upper (ds_vars (enter i) v)))).
    destruct (peak (ct_expr c) w W ltac:(intros; unfold w; lia)) as (x & X1 & X2). destruct (from_numbers x w (ct_expr c) K) as (y & Y1 & Y2). destruct (proj1 entered_rows c I) as (n & k & Kn & _ & M).
    refine (Qle_trans _ _ _ X2 _). rewrite <- Y2, (M y). apply (proj1 (Sm k n y Kn)). intros n' J. destruct (In_nth_error _ _ J) as [j E]. rewrite (Y1 j n' E). specialize (X1 j).
    destruct (Var j) as [(n2 & E2 & (_ & Bw & _))|[E2 _]]; [|congruence]. assert (n2 = n') as -> by congruence. unfold widest. rewrite <- Bw. cbn [fst snd]. exact X1.
  Qed.
  Lemma opposites_entered : one_sided f -> no_opposites (enter i).
  Proof.
    intros Os c d Ic Id. destruct (proj1 entered_rows c Ic) as (r & k & Kr & Sr & Mr). destruct (proj1 entered_rows d Id) as (r' & k' & Kr' & Sr' & Mr'). destruct (Os k r k' r' Kr Kr') as [A B]. rewrite Sr, Sr'. split.
    - intros Dk Eq. apply A; [congruence|]. intros y. rewrite <- (Mr y), <- (Mr' y). apply Eq.
    - intros Dk Eq. apply B; [|intros y; rewrite <- (Mr y), <- (Mr' y); apply Eq]. pose proof (proj2 Kr). pose proof (proj2 Kr'). destruct k, k'; cbn in Dk; congruence.
  Qed.
  Lemma weighted_entered : weighted f -> exists c, In c (ds_cons (enter i)) /\ ct_only_binary_coef c = false.
  Proof.
    intros (k & r & n & Kr & In' & Nz & N1'). destruct entered_rows as (_ & Rw & _). destruct (Rw k r Kr) as (c & Ic & M). exists c. split; [exact Ic|].
    destruct (In_nth_error _ _ In') as [v E]. pose proof (con_entry c r v n Ic M E) as Ee. destruct (con_shape c Ic) as (_ & _ & _ & _ & -> & _).
    apply not_true_is_false. intros H. rewrite forallb_forall in H. assert (J : In (v, coef (ex_sens (ct_expr c)) v) (ex_sens (ct_expr c))) by (apply ScreenProof2.coef_in; rewrite Ee; exact Nz).
    specialize (H _ J). cbn [snd] in H. apply Qeq_bool_iff in H. apply N1'. rewrite <- Ee. exact H.
  Qed.
End Instance.

Section Answer.
  Context (fuel : nat) (order : list nat -> list nat) (su : surroundings) (on : ctype -> bool) (penalty : Q) (shrink user : bool)
    (nrm : list Q -> Q) (red ext : nat -> Q) (sq : Q -> Q) (lg : Z -> Q) (root : Q -> Q) (x : relaxations) (a : ninputs)
    (fs : files) (items : list item) (s : settings) (lines : list string) (f : content) (obj : string) (o : opts) (an : answer) (rn : run).
  Hypothesis Pe : forall l, Permutation (order l) l.
  Hypothesis N1 : Forall well_named items.
  Hypothesis N2 : Forall well_numbered items.
  Hypothesis De : describes items s.
  Hypothesis Op : opens fs (st_mps s) lines.
  Hypothesis Co : contains lines f.
  Hypothesis Wf : well_formed f obj.
  Hypothesis Ir : integer_rows f obj.
  Hypothesis Th : thin_binaries fs s f.
  Hypothesis Oa : options_are fuel fs s o.
  Hypothesis On : switched o "is_enabled_presolve" true.
  Hypothesis Fi : values_left fs s f.
  Hypothesis Na : narrow f.
  Hypothesis Ne : inequalities f.
  Hypothesis Sm : small f.
  Hypothesis Pl : placed f obj.
  Hypothesis Im : switched o "is_enabled_extract_implicit_equality_constraints" false \/ one_sided f.
  Hypothesis Sv : switched o "is_enabled_remove_redundant_set_variables" false \/ weighted f.
  Hypothesis Rn : run_command fuel order su on penalty shrink user nrm red ext sq lg root x a fs (flat_map words items) = Some (Ok (Some (Done (an, rn)))).
  Hypothesis Fe : an_feasible an = true.

  Lemma switches i name b : CommandModel.setup fuel fs (flat_map words items) = Some (Ok (Ready i)) -> switched o name b -> preprocess_flag (in_options i) name = b.
  Proof.
    intros Se Sw. unfold preprocess_flag, flag. destruct (CommandProof4.result fuel fs items s i N1 N2 De Se) as (_ & ls & m & im & o' & _ & _ & _ & O & _ & _ & _ & _ & Pa & _).
    rewrite (Pa "preprocess"%string name) by (intros X; discriminate X). assert (o' = o) as ->; [|unfold switched in Sw; rewrite Sw; reflexivity].
    destruct Oa as [[A ->]|[A (t & T & S)]], O as [[B ->]|[B (t' & T' & S')]]; try contradiction; [reflexivity|congruence].
  Qed.
  Lemma default_answer : exists y, (forall j n, nth_error (columns f) j = Some n -> y n = an_x an j) /\ file_solution fs s f y /\ (an_objective an == row_value f y obj)%Q.
  Proof.
    destruct (run_parts fuel order su on penalty shrink user nrm red ext sq lg root x a fs items _ Rn) as (i & Se & E).
    pose proof (proper_entered fuel fs items s i lines f obj N1 N2 De Op Co Wf Ir Th Se Fi Na Sm Pl) as Pm.
    pose proof (inequalities_entered fuel fs items s i lines f obj N1 N2 De Op Co Wf Se Ne) as Oi.
    pose proof (small_entered fuel fs items s i lines f obj N1 N2 De Op Co Wf Ir Th Se Sm) as Sr.
    assert (Ae : as_entered (enter i)) by (eapply entered_as; eassumption). assert (Nu : ds_number (enter i) = List.length (columns f)) by (eapply entered_number; eassumption).
    assert (P1 : sw_presolve (switches_of (in_options i)) = true) by exact (switches i _ _ Se On).
    assert (P2 : sw_implicit (switches_of (in_options i)) = false \/ no_opposites (enter i)).
    { destruct Im as [X|X]; [left; exact (switches i _ _ Se X)|right; eapply opposites_entered; eassumption]. }
    destruct (ParityProof4.p_model_same _ _ _ _ _ _ _ _ _ _ _ _ _ _ _ _ _ _ E) as (a' & _ & E').
    assert (P3 : calm_sets (switches_of (in_options i)) (with_user su (in_selections i)) true (enter i)).
    { destruct Sv as [X|X].
      - intros g s1 s2 _ _ _ Y. assert (Z := switches i _ _ Se X). cbn [switches_of sw_set_vars] in Y. congruence.
      - destruct (weighted_entered fuel fs items s i lines f obj N1 N2 De Op Co Wf Ir Th Se X) as (c & Ic & Bc). exact (calm_weighted _ _ _ _ c Pm P1 Oi P2 Sr Ic Bc). }
    destruct (InfeasibleProof3.inequalities_solution _ _ _ _ _ _ _ _ _ _ _ _ _ _ _ _ _ Pe Pm Ae P1 Oi P2 Sr P3 E' Fe) as (z & Z1 & Z2 & Z3).
    assert (Es : exists y, (forall j n, nth_error (columns f) j = Some n -> y n = z j) /\ file_solution fs s f y /\ (e_eval (ds_obj (enter i)) z == row_value f y obj)%Q).
    { eapply entered_solution; try eassumption. eapply fixed_inside; eassumption. }
    destruct Es as (y & Y1 & Y2 & Y3). exists y. split; [|split; [exact Y2|]].
    - intros j n J. rewrite (Y1 j n J). apply Z1. rewrite Nu. apply nth_error_Some. congruence.
    - rewrite (Z3 eq_refl). exact Y3.
  Qed.
End Answer.
