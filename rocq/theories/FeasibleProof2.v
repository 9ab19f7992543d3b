(** Proofs for C92: the entries of feasible.json are solutions of the MPS file. *)
From Coq Require Import List NArith ZArith QArith Qabs Bool Arith String Ascii Lia Lqa Permutation Sorting.Sorted.
From Verif Require Import ExprModel ConstraintModel VariableModel TypeModel PresolveModel PresolveSpec SelectionModel SelectionSpec SelectionProof3 PrepareModel PrepareSpec PrepareProof3 PrepareProof5
  DependentModel DependentSpec TextModel MpsModel MpsSpec MpsProof3 NamesModel NamesSpec JsonModel JsonSpec OptionModel
  CommandModel CommandSpec SolutionModel LagrangeModel SolverModel WholeModel WholeSpec RelaxModel RelaxSpec OfferModel OfferSpec ParityModel FileModel FileSpec FileProof FileProof2 FileProof3 IncumbentProof
  ReportModel ReportSpec WrittenProof ArchiveModel ArchiveSpec ArchiveProof3 FeasibleModel FeasibleSpec FeasibleProof.
From Verif Require ParityProof4 InfeasibleProof OfferProof OfferProof3 PrepareProof7 WholeProof WholeProof3.
Import ListNotations.
Local Open Scope Z_scope.

(** ** Presolve off: the prepared problem *)
Lemma off_start fuel sw su m s r : sw_presolve sw = false -> prepare fuel sw su m s = Some (Ok r) -> prepare_start sw su (prepare_selections sw su s) = Ok r.
Proof.
  intros Of Pr. unfold prepare in Pr. rewrite (PrepareProof7.presolve_off fuel sw su m s Of) in Pr. cbn [PresolveModel.bind] in Pr. injection Pr as Pr. exact Pr.
Qed.
Lemma off_listed fuel sw su m s r : plain_model s -> sw_presolve sw = false -> prepare fuel sw su m s = Some (Ok r) -> forall t, In t (snd r) -> OfferProof3.listed (ds_cons (fst r)) t.
Proof.
  intros P Of Pr. apply off_start in Pr; [|exact Of]. destruct (selections_slim sw su s (plain_slim s P)) as (_ & _ & Rd & _). pose proof (OfferProof3.selection_listed sw su s) as So.
  set (q := prepare_selections sw su s) in *. destruct (start_done sw su q r Rd Pr) as (_ & _ & _ & T3 & _).
  assert (Cn : forall t, In t (snd r) -> exists t', In t' (snd q) /\ sl_con t' = sl_con t /\ sl_vars t' = sl_vars t /\ sl_related t' = sl_related t).
  { clear So T3. unfold prepare_start in Pr. destruct q as [sq sels]. cbn [fst snd] in *. destruct (verify _ _ _ _ _ _) as [[vs' sels']|] eqn:V; [|discriminate]. injection Pr as <-. cbn [snd].
    destruct Rd as (Rd & Sn & _). cbn [fst snd] in *.
    assert (Sa : sane_bounds (ds_number sq) (ds_vars sq)) by (intros v _; destruct (Sn v) as (S1 & S2 & _); split; [exact S1|intros X; apply S2; auto]).
    destruct (verify_spec _ _ _ _ _ _ _ _ Rd Sa V) as (_ & _ & Ca & _). clear -Ca. induction Ca as [|a b l l' H Ca IH]; intros t [].
    - subst t. exists a. split; [now left|]. destruct H as (A & B & C & _). auto.
    - destruct (IH t H0) as (t' & I & E). exists t'. split; [now right|exact E]. }
  intros t It. destruct (Cn t It) as (t' & It' & Ec & Ev & Er). destruct (So t' It') as [A B]. unfold OfferProof3.listed. rewrite T3, <- Ec, <- Ev, <- Er. split; [exact A|exact B].
Qed.
(** Bounds, senses and fixed variables. *)
Lemma off_vars fuel sw su m s r : plain_model s -> sw_presolve sw = false -> prepare fuel sw su m s = Some (Ok r) -> ds_number (fst r) = ds_number s /\
  forall v, let a := ds_vars s v in let b := ds_vars (fst r) v in va_lower b = va_lower a /\ va_upper b = va_upper a /\ va_fixed b = va_fixed a /\ (va_fixed a = true -> va_value b = va_value a) /\
    (va_sense b = va_sense a \/ va_sense b = VSelection /\ va_sense a = VBinary).
Proof.
  intros P Of Pr. apply off_start in Pr; [|exact Of]. destruct (selections_slim sw su s (plain_slim s P)) as (_ & _ & Rd & _). destruct (start_done sw su _ r Rd Pr) as (_ & _ & T2 & _ & _ & _ & T6 & _).
  destruct (PrepareProof7.selections_untouched sw su s) as (_ & _ & _ & Nn & Un & _). split; [congruence|]. intros v. cbv zeta. destruct (T6 v) as (A1 & A2 & A3 & A4 & A5). destruct (Un v) as (B1 & B2 & B3 & B4 & _). cbv zeta in *.
  pose proof (WholeProof.sense_selections sw su s v) as Se. cbv zeta in Se. rewrite A4, A1, A2, A3. split; [exact B1|]. split; [exact B2|]. split; [exact B3|]. split; [|exact Se]. intros F. rewrite <- B4. apply A5. congruence.
Qed.
Lemma off_no_selections fuel sw su m s r : plain_model s -> sw_presolve sw = false -> prepare fuel sw su m s = Some (Ok r) -> sw_mode sw = Off -> snd r = [].
Proof.
  intros P Of Pr Mo. apply off_start in Pr; [|exact Of]. destruct (selections_slim sw su s (plain_slim s P)) as (_ & _ & Rd & _). destruct (start_done sw su _ r Rd Pr) as (_ & _ & _ & _ & _ & _ & _ & T7 & _).
  destruct (PrepareProof7.selections_untouched sw su s) as (_ & _ & _ & _ & _ & _ & Un). rewrite (Un (or_introl Mo)) in T7. cbn [snd map] in T7. destruct (snd r); [reflexivity|discriminate].
Qed.

Section File.
  Context (nc : Z) (vio : ssol -> Q) (iter : list (string * Z) -> list (string * Z)) (fuel : nat) (order : list nat -> list nat) (su : surroundings) (on : ctype -> bool) (penalty : Q) (shrink user : bool)
    (nrm : list Q -> Q) (red ext : nat -> Q) (sq : Q -> Q) (lg : Z -> Q) (root : Q -> Q) (x : relaxations) (a : ninputs)
    (fs : files) (items : list item) (s : settings) (lines : list string) (f : content) (obj : string) (i : instance) (l : list ssol).
  Hypothesis Pe : forall l, Permutation (iter l) l.
  Hypothesis N1 : Forall well_named items.
  Hypothesis N2 : Forall well_numbered items.
  Hypothesis De : describes items s.
  Hypothesis Op : opens fs (st_mps s) lines.
  Hypothesis Co : contains lines f.
  Hypothesis Wf : well_formed f obj.
  Hypothesis Ir : integer_rows f obj.
  Hypothesis Th : thin_binaries fs s f.
  Hypothesis Se : CommandModel.setup fuel fs (flat_map words items) = Some (Ok (Ready i)).
  Hypothesis Fi : forall v, va_fixed (ds_vars (enter i) v) = true -> va_lower (ds_vars (enter i) v) <= va_value (ds_vars (enter i) v) <= va_upper (ds_vars (enter i) v).
  Hypothesis Tr : forall q, In q l -> true_record (enter i) true q.

  Lemma names_are : instance_names i = columns f.
  Proof.
    destruct (one_proxy fuel fs items s i N1 N2 De Se) as [p Ep]. destruct (instance_facts fuel fs items s i lines f obj N1 N2 De Op Co Wf Th Se) as (im & _ & _ & _ & Nm & _).
    unfold instance_names. rewrite Ep in *. cbn [setup_unique_names map elements flat_map px_elems] in *. rewrite app_nil_r in *. rewrite name_elements_same; [exact Nm|].
    intros e J. apply (in_map fst) in J. rewrite Nm in J. exact (proj1 (columns_plain lines f _ Co J)).
  Qed.
  (** The variables of a solution of the archive. *)
  Lemma record_vars q y z : lists (ds_number (enter i)) z q -> (forall j n, nth_error (columns f) j = Some n -> y n = z j) -> let vs := sr_vars (record_of (instance_names i) vio iter q) in
    NoDup (map fst vs) /\ forall n v, In (n, v) vs <-> In n (columns f) /\ y n <> 0 /\ v = y n.
  Proof.
    intros [L1 L2] Y. cbv zeta. cbn [record_of sr_vars]. rewrite names_are. set (raw := map (fun p => (nth (fst p) (columns f) EmptyString, snd p)) (so_vars q)).
    assert (Nu : ds_number (enter i) = List.length (columns f)) by (eapply entered_number; eassumption).
    assert (In' : forall n v, In (n, v) raw <-> In n (columns f) /\ y n <> 0 /\ v = y n).
    { intros n v. unfold raw. rewrite in_map_iff. split.
      - intros ([k b] & E & I). cbn [fst snd] in E. injection E as E <-. apply L1 in I as (I1 & I2 & I3). rewrite Nu in I1. assert (J : nth_error (columns f) k = Some n) by (rewrite <- E; apply nth_error_nth'; exact I1).
        split; [exact (nth_error_In _ _ J)|]. rewrite (Y k n J). split; congruence.
      - intros (I & Ne & ->). destruct (In_nth_error _ _ I) as [k J]. exists (k, y n). cbn [fst snd]. split; [f_equal; exact (nth_error_nth _ _ _ J)|]. apply L1. rewrite Nu.
        split; [apply nth_error_Some; congruence|]. split; [symmetry; exact (Y k n J)|exact Ne]. }
    assert (Nd : NoDup (map fst raw)).
    { unfold raw. rewrite map_map. cbn [fst]. assert (B : forall k, In k (map fst (so_vars q)) -> (k < List.length (columns f))%nat) by (intros k I; apply in_map_iff in I as ([k' b] & <- & I); apply L1 in I; cbn [fst]; lia).
      rewrite <- (map_map fst (fun k => nth k (columns f) EmptyString)). revert L2 B. generalize (map fst (so_vars q)). intros ks S B. induction S as [|k ks S IH F]; [constructor|]. cbn [map]. constructor; [|apply IH; intros k' I; apply B; now right].
      intros I. apply in_map_iff in I as (k' & E & I). rewrite Forall_forall in F. specialize (F k' I).
      assert (k' = k); [|lia]. apply (proj1 (NoDup_nth (columns f) EmptyString) (columns_nodup f)); [apply B; now right|apply B; now left|exact E]. }
    pose proof (Pe raw) as P. split.
    - apply (Permutation_NoDup (l := map fst raw)); [apply Permutation_map, Permutation_sym, P|exact Nd].
    - intros n v. rewrite <- In'. split; apply Permutation_in; [exact P|apply Permutation_sym, P].
  Qed.
  Lemma solution_told q : In q l -> exists y, file_solution fs s f y /\ (so_obj q == row_value f y obj)%Q /\ so_feasible q = true /\ let vs := sr_vars (record_of (instance_names i) vio iter q) in
    NoDup (map fst vs) /\ forall n v, In (n, v) vs <-> In n (columns f) /\ y n <> 0 /\ v = y n.
  Proof.
    intros I. destruct (Tr q I) as (z & Z1 & Z2 & Z3 & Z4).
    assert (Es : exists y, (forall j n, nth_error (columns f) j = Some n -> y n = z j) /\ file_solution fs s f y /\ (e_eval (ds_obj (enter i)) z == row_value f y obj)%Q)
      by (eapply entered_solution; eassumption).
    destruct Es as (y & Y1 & Y2 & Y3). exists y. split; [exact Y2|]. split; [rewrite (Z4 eq_refl); exact Y3|]. split; [exact Z3|]. exact (record_vars q y z Z2 Y1).
  Qed.
  Hypothesis Pn : plain (in_name i).
  Hypothesis Pc : Forall plain (columns f).
  Hypothesis Rv : Z.of_nat (List.length (columns f)) <= 2147483647.
  Hypothesis Rc : -2147483648 <= nc <= 2147483647.
  Hypothesis Sn : Forall (fun q => sound_real (so_obj q) /\ sound_real (vio q)) l.
  Lemma file_told : exists text ws, write_solutions (in_name i) (Z.of_nat (List.length (elements (in_vars i)))) nc (map (record_of (instance_names i) vio iter) l) = Ok text /\
    (exists steps, forall fuel, (steps <= fuel)%nat -> read_json_object fuel text =
      Some (Ok [("version", JStr "v2.5.0"); ("name", JStr (in_name i)); ("number_of_variables", JInt KInt (Z.of_nat (List.length (columns f)))); ("number_of_constraints", JInt KInt nc); ("solutions", JArr ws)]%string)) /\
    Forall2 (fun q w => exists y, file_solution fs s f y /\ tells f y (row_value f y obj) w) l ws.
  Proof.
    rewrite (elements_number fuel fs items s lines f obj N1 N2 De Op Co Wf Th i Se).
    destruct (feasible_file (in_name i) (Z.of_nat (List.length (columns f))) nc (map (record_of (instance_names i) vio iter) l) Pn) as (text & ws & W & K & R); [lia|exact Rc| |].
    - apply Forall_forall. intros t I. apply in_map_iff in I as (q & <- & I). rewrite Forall_forall in Sn, Pc. destruct (Sn q I) as [S1 S2]. split; [exact S1|]. split; [exact S2|]. apply Forall_forall. intros [n v] J. cbn [fst snd].
      destruct (solution_told q I) as (y & Y1 & _ & _ & Y0). cbv zeta in Y0. destruct Y0 as [_ Y2]. destruct (proj1 (Y2 n v) J) as (J1 & J2 & J3). rewrite J3. split; [exact (Pc n J1)|]. destruct (proj2 Y1 n J1) as (B & _). pose proof (interval_int lines f n Co) as [B1 B2]. unfold INT_MIN, INT_MAX in *. lia.
    - exists text, ws. split; [exact W|]. split; [exact R|]. clear - Tr K Pe N1 N2 De Op Co Wf Ir Th Se Fi Sn. remember (map (record_of (instance_names i) vio iter) l) as rs eqn:E.
      assert (G : forall q, In q l -> forall w, kept_record (record_of (instance_names i) vio iter q) w -> exists y, file_solution fs s f y /\ tells f y (row_value f y obj) w).
      { intros q I w (o & t & K1 & K2 & ->). destruct (solution_told q I) as (y & Y1 & Y2 & Y3 & Y0). cbv zeta in Y0. destruct Y0 as [Y4 Y5]. exists y. split; [exact Y1|].
        cbn [record_of sr_feasible sr_objective sr_violation] in *. rewrite Y3. do 2 eexists. split; [reflexivity|]. split; [reflexivity|]. split; [exists o; split; [reflexivity|exact (rounded_eq _ _ _ Y2 K1)]|]. split; [reflexivity|].
        split; [rewrite map_map; exact Y4|]. intros n v. rewrite in_map_iff. split.
        - intros ([n' b] & X & J). cbn [fst snd] in X. injection X as -> <-. destruct (proj1 (Y5 n b) J) as (J1 & J2 & J3). rewrite J3. auto.
        - intros (J1 & J2 & ->). exists (n, y n). split; [reflexivity|]. apply (proj2 (Y5 n (y n))). auto. }
      clear - G K E. revert E G. generalize l as l0. induction K as [|r w rs ws H K IH]; intros l0 E G; destruct l0 as [|q l0]; try discriminate; constructor; injection E as E1 E2.
      + subst r. exact (G q (or_introl eq_refl) w H).
      + apply IH; [exact E2|]. intros q' I. apply G. now right.
  Qed.
End File.

(** ** Presolve off *)
Section Run.
  Context (nc : Z) (vio : ssol -> Q) (iter : list (string * Z) -> list (string * Z)) (fuel : nat) (order : list nat -> list nat) (su : surroundings) (on : ctype -> bool) (penalty : Q) (shrink user : bool)
    (nrm : list Q -> Q) (red ext : nat -> Q) (sq : Q -> Q) (lg : Z -> Q) (root : Q -> Q) (x : relaxations) (a : ninputs)
    (fs : files) (items : list item) (s : settings) (lines : list string) (f : content) (obj : string) (i : instance) (l : list ssol).
  Hypothesis N1 : Forall well_named items.
  Hypothesis N2 : Forall well_numbered items.
  Hypothesis De : describes items s.
  Hypothesis Op : opens fs (st_mps s) lines.
  Hypothesis Co : contains lines f.
  Hypothesis Wf : well_formed f obj.
  Hypothesis Ir : integer_rows f obj.
  Hypothesis Th : thin_binaries fs s f.
  Hypothesis Of : presolve_off fuel fs s.
  Hypothesis Ar : archive_of fuel order su on penalty shrink user nrm red ext sq lg root x a fs (flat_map words items) = Some (i, l).
  Hypothesis H1 : forall j k, su_cname su j = su_cname su k -> j = k.
  Hypothesis H2 : mode_of (in_options i) = Off \/ forall n w, In (n, w) (elements (in_vars i)) -> va_fixed w = true -> va_value w <> 1.
  Hypothesis H3 : flippable_pairs (enter i, []) (in_pairs i).
  Hypothesis H4 : forall r, prepare fuel (switches_of (in_options i)) (with_user su (in_selections i)) true (enter i) = Some (Ok r) -> driven r a.
  Hypothesis H5 : forall go late clock, rx_lagrange x = Some (go, late, clock) -> 1 <= go_queue go.

  Lemma run_true : CommandModel.setup fuel fs (flat_map words items) = Some (Ok (Ready i)) /\
    (forall v, va_fixed (ds_vars (enter i) v) = true -> va_lower (ds_vars (enter i) v) <= va_value (ds_vars (enter i) v) <= va_upper (ds_vars (enter i) v)) /\
    forall q, In q l -> true_record (enter i) true q.
  Proof.
    unfold archive_of in Ar. destruct (CommandModel.setup fuel fs (flat_map words items)) as [[[|i']| |]|] eqn:Se; try discriminate.
    destruct (run_command fuel order su on penalty shrink user nrm red ext sq lg root x a fs (flat_map words items)) as [[[[an| |]|]| |]|] eqn:Rn; try discriminate.
    destruct (solve_archive _ _ _ _ _ _ _ _ _ _ _ _ _ _ _ _ _ _) as [[l'| |]|] eqn:So; try discriminate. injection Ar as -> ->. split; [reflexivity|].
    destruct (run_parts fuel order su on penalty shrink user nrm red ext sq lg root x a fs items _ Rn) as (i' & Se' & E). assert (i' = i) as -> by congruence.
    assert (Fi := values_inside fuel order su on penalty shrink user nrm red ext sq lg root x a fs items s lines f obj _ N1 N2 De Op Co Wf Ir Th Of i Se E). split; [exact Fi|].
    assert (Off : sw_presolve (switches_of (in_options i)) = false) by (eapply switched_off; eassumption).
    assert (Ae : as_entered (enter i)) by (eapply entered_as; eassumption). assert (Fr : free_binaries (enter i)) by (eapply entered_free; eassumption).
    assert (Pl : plain_model (enter i)) by (eapply entered_plain; eassumption).
    clear E Rn. unfold solve_archive in So. set (sw := switches_of (in_options i)) in *. set (su' := with_user su (in_selections i)) in *.
    destruct (prepare fuel sw su' true (enter i)) as [[r| |]|] eqn:Pr; cbn [PresolveModel.bind] in So; try discriminate. cbv zeta in So. rewrite (InfeasibleProof.off_idle order sw su' r Off) in So.
    destruct (pdlp_phase nrm red ext sq x true r) as [b| |]; cbn [PresolveModel.bind] in So; try discriminate. injection So as So. rewrite ParityProof4.stale_same in So.
    intros q I. rewrite <- So in I. apply archive_in in I as (l0 & Hl & Hq).
    destruct (off_vars fuel sw su' true (enter i) r Pl Off Pr) as (Nu & Va).
    assert (Sea : searchable su' r).
    { constructor.
      - intros v Lv Fv Sv. destruct (Va v) as (V1 & V2 & V3 & V4 & V5). cbv zeta in *. destruct V5 as [V5|[V5 _]]; [|congruence]. rewrite Sv in V5. rewrite V1, V2. clear - V5 N1 N2 De Op Co Wf Th Se Lv Nu.
        assert (Ev : (exists n, nth_error (columns f) v = Some n /\ var_of fs s f n (ds_vars (enter i) v)) \/ (nth_error (columns f) v = None /\ ds_vars (enter i) v = no_variable))
          by (eapply entered_var; eassumption).
        assert (Nb : ds_number (enter i) = List.length (columns f)) by (eapply entered_number; eassumption).
        destruct Ev as [(n & _ & (_ & _ & L & Sv & _))|[Nv _]]; [|apply nth_error_None in Nv; lia]. rewrite <- V5 in Sv. set (w := ds_vars (enter i) v) in *.
        assert (C : va_lower w < 0 \/ 1 < va_upper w \/ (0 <= va_lower w /\ va_upper w <= 1)) by lia. destruct C as [C|[C|[C1 C2]]]; [now left|now right|exfalso].
        assert (D : va_lower w = 0 /\ va_upper w = 0 \/ va_lower w = 0 /\ va_upper w = 1 \/ va_lower w = 1 /\ va_upper w = 1) by lia.
        unfold binary_or_integer in Sv. destruct D as [[D1 D2]|[[D1 D2]|[D1 D2]]]; rewrite D1, D2 in Sv; discriminate Sv.
      - intros t v It Iv Fv. destruct H2 as [Mo|Ne].
        + exfalso. rewrite (off_no_selections fuel sw su' true (enter i) r Pl Off Pr Mo) in It. destruct It.
        + destruct (Va v) as (_ & _ & V3 & V4 & _). cbv zeta in *. rewrite V3 in Fv. rewrite (V4 Fv). cbn [enter ds_vars] in *. unfold entered_vars in *. destruct (nth_error (elements (in_vars i)) v) as [[n w]|] eqn:J; [|discriminate].
          exact (Ne n w (nth_error_In _ _ J) Fv).
      - intros j k _ _ E. exact (H1 j k E). }
    assert (Fp : flippable_pairs r (in_pairs i)).
    { intros u v I. destruct (H3 u v I) as [D B]. split; [exact D|]. intros w Hw. destruct (B w Hw) as [B1 B2]. cbn [fst] in *. rewrite Nu. split; [exact B1|]. destruct (Va w) as (_ & _ & _ & _ & [V|[V _]]); cbv zeta in *; rewrite V; auto. }
    exact (own_stored su' (mkWo penalty shrink true user) true (enter i) r on (in_pairs i) (InfeasibleProof.off_ready fuel sw su' true (enter i) r Pl Off Pr)
      (WholeProof3.off_settled fuel sw su' true (enter i) Pl Ae (or_intror Fr) r Off Pr) Sea (off_listed fuel sw su' true (enter i) r Pl Off Pr) Fp lg root _ b x a H5 (H4 r eq_refl) l0 q Hl Hq).
  Qed.
End Run.
