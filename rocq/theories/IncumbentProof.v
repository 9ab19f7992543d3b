(** Proofs for C84: the written solution file. *)
From Coq Require Import List NArith ZArith QArith Qabs Bool Arith String Ascii Lia Lqa Permutation.
From Verif Require Import ConstraintModel VariableModel TypeModel PresolveModel SelectionModel PrepareModel TextModel TextProof TextProof2 MpsModel MpsSpec NamesModel NamesSpec NamesProof NamesProof3 JsonModel OptionModel
  CommandModel CommandSpec CommandProof2 CommandProof3 CommandProof4 SolverModel WholeModel RelaxModel OfferModel ParityModel FileModel FileSpec FileProof FileProof2 FileProof3 IncumbentModel IncumbentSpec.
From Verif Require CommandProof5.
Import ListNotations.
Local Open Scope Z_scope.

(** ** Items are plain words *)
Lemma blank_free_all s : blank_free s <-> all_chars (fun c => negb (is_space c)) s = true.
Proof.
  induction s as [|c s IH]; cbn; [tauto|]. rewrite andb_true_iff, negb_true_iff, IH. reflexivity.
Qed.
Lemma blank_free_snoc a c : blank_free a -> is_space c = false -> blank_free (append a (String c EmptyString)).
Proof. induction a as [|d a IH]; cbn; [auto|]. intros [H K] S. auto. Qed.
Lemma items_plain s : forall cur w, blank_free cur -> In w (split_items s cur) -> plain_name w.
Proof.
  induction s as [|c s IH]; intros cur w B I; cbn [split_items] in I.
  - destruct (is_empty cur) eqn:E; [destruct I|]. destruct I as [<-|[]]. split; [intros ->; discriminate|exact B].
  - destruct (is_space c) eqn:S.
    + destruct (is_empty cur) eqn:E; [exact (IH EmptyString w Logic.I I)|]. destruct I as [<-|I]; [split; [intros ->; discriminate|exact B]|exact (IH EmptyString w Logic.I I)].
    + exact (IH _ w (blank_free_snoc cur c B S) I).
Qed.
Lemma column_names_in cs : forall seen n, In n (column_names cs seen) -> In n seen \/ exists es, In (Column n es) cs.
Proof.
  induction cs as [|c cs IH]; intros seen n I; cbn [column_names] in I.
  - left. exact I.
  - destruct c as [b|w es]; [destruct (IH _ _ I) as [H|[e H]]; [now left|right; exists e; now right]|].
    destruct (IH _ _ I) as [H|[e H]]; [|right; exists e; now right].
    destruct (existsb (String.eqb w) seen) eqn:E; [now left|].
    apply in_app_iff in H as [H|[<-|[]]]; [now left|right; exists es; now left].
Qed.
Lemma columns_plain lines f n : contains lines f -> In n (columns f) -> plain_name n.
Proof.
  intros (name & rows & cols & rhs & bounds & rt & bt & rest & gs & E & _ & C & _) I. destruct (column_names_in _ _ _ I) as [[]|[es J]].
  assert (K : exists items, In items cols /\ column_items (Column n es) items).
  { clear E. revert J C. generalize (f_cols f). intros cs J C. induction C as [|c it cs cols H C IH]; [destruct J|]. destruct J as [->|J]; [exists it; split; [now left|exact H]|]. destruct (IH J) as (x & A & B). exists x. split; [now right|exact B]. }
  destruct K as (items & K & tl & -> & _). assert (L : In (n :: tl) (map TextModel.items_of lines)).
  { assert (X : In (n :: tl) (filter (fun l => match l with [] => false | _ => true end) (map TextModel.items_of lines))); [|apply filter_In in X; tauto].
    rewrite E. right. right. apply in_or_app. right. right. apply in_or_app. left. exact K. }
  apply in_map_iff in L as (line & L & _). apply (items_plain line EmptyString n Logic.I). unfold TextModel.items_of in L. rewrite L. now left.
Qed.
Lemma interval_int lines f n : contains lines f -> INT_MIN <= fst (interval f n) <= INT_MAX /\ INT_MIN <= snd (interval f n) <= INT_MAX.
Proof.
  intros (name & rows & cols & rhs & bounds & rt & bt & rest & gs & _ & _ & _ & _ & _ & _ & B & _).
  assert (Bi : forall b, In b (bounds_of f n) -> match b with BLo z | BLi z | BUp z | BUi z | BFx z => INT_MIN <= z <= INT_MAX | _ => True end).
  { intros b I. unfold bounds_of in I. apply in_map_iff in I as ([b' v] & X & I). cbn in X. subst b'. apply filter_In in I as [I _].
    revert I. generalize dependent bounds. generalize (f_bounds f). intros bs bounds F I. induction F as [|p it bs bounds H F IH]; [destruct I|]. destruct I as [->|I]; [|exact (IH I)].
    destruct H as (set & H). cbn [fst] in H. destruct b; try exact Logic.I; destruct H as (t & _ & (H & _)); exact H. }
  unfold interval. destruct (bounds_of f n) as [|b bs].
  - destruct (marked (f_cols f) false n); vm_compute; repeat split; discriminate.
  - generalize dependent (b :: bs). intros l H.
    assert (G : forall i, INT_MIN <= fst i <= INT_MAX /\ INT_MIN <= snd i <= INT_MAX -> INT_MIN <= fst (fold_left bound_effect l i) <= INT_MAX /\ INT_MIN <= snd (fold_left bound_effect l i) <= INT_MAX).
    { induction l as [|c l IH]; intros i Hi; [exact Hi|]. cbn [fold_left]. apply IH; [intros d J; apply H; now right|]. pose proof (H c (or_introl eq_refl)) as Hc.
      destruct c; cbn [bound_effect fst snd]; try tauto; vm_compute; repeat split; discriminate. }
    apply G. vm_compute. repeat split; discriminate.
Qed.

(** ** The lines *)
Lemma put_from_values x l : forall k, map (fun e => (fst e, va_value (snd e))) (put_from k x l) = combine (map fst l) (map x (seq k (List.length l))).
Proof. induction l as [|[n v] l IH]; intros k; [reflexivity|]. cbn [put_from map fst snd List.length seq combine]. rewrite IH. reflexivity. Qed.
Lemma name_elements_same name shape l : forall k, (forall e, In e l -> fst e <> EmptyString) -> name_elements name shape k l = l.
Proof.
  induction l as [|e l IH]; intros k H; [reflexivity|]. cbn [name_elements]. rewrite IH by (intros d J; apply H; now right). destruct (is_empty (fst e)) eqn:E; [|reflexivity].
  exfalso. apply (H e); [now left|]. destruct (fst e); [reflexivity|discriminate].
Qed.
Lemma put_from_names x l : forall k, map fst (put_from k x l) = map fst l.
Proof. induction l as [|[n v] l IH]; intros k; [reflexivity|]. cbn [put_from map fst]. now rewrite IH. Qed.
(** The instance has one group of variables. *)
Lemma one_proxy fuel fs items s i : Forall well_named items -> Forall well_numbered items -> describes items s ->
  CommandModel.setup fuel fs (flat_map words items) = Some (Ok (Ready i)) -> exists p, in_vars i = [p].
Proof.
  intros W N D H. destruct (setup_inv fuel fs _ s i (parse_described items s W N D) H) as (X & im & o & L & O & A).
  unfold apply_files in A. set (m0 := [mkProxy "variables" [Z.of_nat (List.length (im_vars im))] (im_vars im)]) in A.
  apply bind_ok in A. destruct A as (m1 & M1 & A). apply bind_ok in A. destruct A as (m2 & M2 & A). apply bind_ok in A. destruct A as (sels & Sel & A).
  apply bind_ok in A. destruct A as ([o' pairs] & Prs & A). apply bind_ok in A. destruct A as (m3 & M3 & A). injection A as <-. cbn [in_vars].
  assert (L1 : List.length m1 = 1%nat). { destruct (is_empty (st_mutable s)); [injection M1 as <-; reflexivity|]. apply bind_ok in M1. destruct M1 as (ls & _ & [= <-]). reflexivity. }
  assert (L2 : List.length m2 = 1%nat). { destruct (is_empty (st_fixed s)); [injection M2 as <-; exact L1|]. apply bind_ok in M2. destruct M2 as (ls & _ & M2). apply bind_ok in M2. destruct M2 as (tbl & _ & [= <-]). unfold fix_variables. rewrite each_length. exact L1. }
  assert (L3 : List.length m3 = 1%nat). { destruct (is_empty (st_initial s)); [injection M3 as <-; exact L2|]. apply bind_ok in M3. destruct M3 as (ls & _ & M3). apply bind_ok in M3. destruct M3 as (tbl & _ & M3). rewrite (import_solution_length _ _ _ M3). exact L2. }
  destruct m3 as [|p [|q m3]]; try discriminate. eauto.
Qed.

Definition value_lines (es : list (string * Z)) : list string := map (fun e => append (fst e) (append " " (print_int (snd e)))) es.
Lemma lines_shape show i an p : in_vars i = [p] -> (forall n, In n (map fst (px_elems p)) -> n <> EmptyString) ->
  incumbent_lines show i an = (if an_feasible an then append "=obj= " (show (an_objective an)) else "=infeas="%string) ::
    value_lines (combine (map fst (px_elems p)) (map (an_x an) (seq 0 (List.length (px_elems p))))).
Proof.
  intros E H. unfold incumbent_lines, solution_lines. rewrite E. cbn [put_proxies setup_unique_names map px_name px_shape px_elems].
  rewrite name_elements_same.
  2:{ intros e J. apply H. rewrite <- (put_from_names (an_x an) (px_elems p) 0). apply in_map, J. }
  unfold export_named. cbn [fold_left px_name]. unfold values_of. cbn [px_elems]. rewrite put_from_values. cbn [store flat_map snd]. rewrite app_nil_r. destruct (an_feasible an); reflexivity.
Qed.
Lemma value_line_gives n z m t : plain_name n -> gives (append n (append " " (print_int z))) m t <-> m = n /\ t = print_int z.
Proof.
  intros P. unfold gives. rewrite (value_line n z P). split; [intros (rest & E); injection E as <- <- _; auto|intros [-> ->]; exists []; reflexivity].
Qed.
(** The last line of a name decides; names differ. *)
Lemma listed_value head es n z : (forall e, In e es -> plain_name (fst e)) -> NoDup (map fst es) -> In (n, z) es -> file_value (head :: value_lines es) n z.
Proof.
  intros P Nd I. apply in_split in I as (l & l' & ->). left. destruct (int_nearest z) as (q & A & Ne). exists (print_int z), q. split; [|auto].
  exists (head :: value_lines l), (append n (append " " (print_int z))), (value_lines l'). split; [|split].
  - unfold value_lines. rewrite map_app. reflexivity.
  - apply value_line_gives; [apply (P (n, z)), in_or_app; right; now left|auto].
  - intros x t J G. unfold value_lines in J. apply in_map_iff in J as ([m u] & <- & J). cbn [fst snd] in G. apply value_line_gives in G as [-> _]; [|apply (P (m, u)), in_or_app; right; now right].
    rewrite map_app in Nd. cbn [map fst] in Nd. apply NoDup_remove_2 in Nd. apply Nd, in_or_app. right. apply in_map_iff. exists (m, u). auto.
Qed.
Lemma combine_in {A} (l : list string) (x : nat -> A) : forall k j n, nth_error l j = Some n -> In (n, x (k + j)%nat) (combine l (map x (seq k (List.length l)))).
Proof.
  induction l as [|m l IH]; intros k [|j] n E; try discriminate; cbn [nth_error List.length seq map combine] in *.
  - injection E as ->. left. now rewrite Nat.add_0_r.
  - right. replace (k + S j)%nat with (S k + j)%nat by lia. apply IH, E.
Qed.
Lemma combine_fst {A} (l : list string) (r : list A) : List.length l = List.length r -> map fst (combine l r) = l.
Proof. revert r. induction l as [|m l IH]; intros [|a r] E; try discriminate; [reflexivity|]. cbn. f_equal. apply IH. now injection E. Qed.
