(** Proofs for C93: the model as a JSON file. *)
From Coq Require Import List ZArith QArith Qabs Bool String Ascii Lia Permutation.
From Verif Require Import ExprModel ConstraintModel ConstraintSpec VariableModel PresolveModel TextModel TextProof MpsModel JsonModel JsonSpec JsonProof JsonProof2 JsonProof3 JsonProof5 JsonProof6 ReportSpec InstanceModel InstanceSpec.
Import ListNotations.
Local Open Scope Z_scope.
Local Opaque decimal.

Lemma delete_squeezed s : delete_space s = squeezed s.
Proof. unfold squeezed. induction s as [|c s IH]; [reflexivity|]. cbn [delete_space list_ascii_of_string filter]. destruct (Ascii.eqb c " "); cbn [negb]; [exact IH|]. cbn [string_of_list_ascii]. now f_equal. Qed.
Lemma delete_plain s : plain s -> plain (delete_space s).
Proof.
  rewrite !plain_chars. induction s as [|c s IH]; [reflexivity|]. cbn [all_chars delete_space]. intros H. apply andb_true_iff in H as [A B]. destruct (Ascii.eqb c " "); [now apply IH|]. cbn [all_chars]. now rewrite A, (IH B).
Qed.
Lemma opp_sound q : sound_real q -> sound_real (- q).
Proof. intros [E|E]; [left; rewrite E; reflexivity|right; now rewrite Qabs_opp]. Qed.

Section File.
Variables (iter : sens -> sens) (w : written) (digits : Q -> Prop).
Hypothesis (It : forall s, Permutation (iter s) s) (Di : forall q, digits q -> sound_real q) (Wr : writable digits w).
Let names := map fst (wr_vars w).
Definition listed_terms (s : sens) (ts : list json) : Prop := exists s', Permutation s' s /\ Forall2 (kept_term w) s' ts.

Lemma names_at i : (i < List.length (wr_vars w))%nat -> exists n v, nth_error (wr_vars w) i = Some (n, v) /\ nth i names EmptyString = n /\ plain n.
Proof.
  intros L. destruct (nth_error (wr_vars w) i) as [[n v]|] eqn:E; [|apply nth_error_None in E; lia]. exists n, v. split; [reflexivity|]. split.
  - apply nth_error_nth. unfold names. now rewrite nth_error_map, E.
  - destruct Wr as (_ & V & _). rewrite Forall_forall in V. exact (proj1 (V _ (nth_error_In _ _ E))).
Qed.
Lemma term_storable t : (fst t < List.length (wr_vars w))%nat -> digits (snd t) -> storable true (term_object names t).
Proof.
  intros L D. destruct (names_at _ L) as (n & v & _ & E & P). unfold term_object. rewrite E. apply ostore_iff. repeat (apply Forall_cons; [split; [vm_compute; reflexivity|]|]); try apply Forall_nil; cbn [snd fst]; [exact P|exact (Di _ D)].
Qed.
Lemma term_read t j : (fst t < List.length (wr_vars w))%nat -> read_back true (term_object names t) j -> kept_term w t j.
Proof.
  intros L R. destruct (names_at _ L) as (n & v & N & E & _). unfold term_object in R. rewrite E in R. destruct j as [| | | | | |m|]; try (destruct R as (? & X & _); discriminate X). apply obj_rel_iff in R. unfold obj_rel in R.
  repeat match goal with H : Forall2 _ (_ :: _) _ |- _ => let e := fresh "e" in let K := fresh "K" in let V := fresh "V" in inversion H as [|? [? e] ? ? [K V] ?]; subst; clear H; cbn [fst snd] in K, V; subst end.
  match goal with H : Forall2 _ [] _ |- _ => inversion H; subst end.
  repeat match goal with V : read_back false (JReal _) ?e |- _ => destruct V as (? & -> & ?) end.
  repeat match goal with V : read_back false _ ?e |- _ => cbn [read_back] in V; subst e end.
  do 3 eexists. split; [exact N|]. split; [eassumption|reflexivity].
Qed.
Lemma terms_storable s : writable_terms digits (List.length (wr_vars w)) s -> storable false (JArr (map (term_object names) (iter s))).
Proof.
  intros H. apply astore_iff. apply Forall_forall. intros j J. apply in_map_iff in J as ([i a] & <- & J). apply (Permutation_in _ (It s)) in J. destruct (H i a J) as [A B]. now apply term_storable.
Qed.
Lemma terms_read s ts : writable_terms digits (List.length (wr_vars w)) s -> read_back false (JArr (map (term_object names) (iter s))) (JArr ts) -> listed_terms s ts.
Proof.
  intros H R. apply arr_rel_iff in R. exists (iter s). split; [apply It|]. assert (G : forall t, In t (iter s) -> (fst t < List.length (wr_vars w))%nat).
  { intros [i a] J. apply (Permutation_in _ (It s)) in J. exact (proj1 (H i a J)). }
  revert ts R G. induction (iter s) as [|t l IH]; intros ts R G; cbn [map] in R; inversion R; subst; constructor.
  - apply term_read; [apply G; now left|assumption].
  - apply IH; [assumption|intros u J; apply G; now right].
Qed.
Lemma var_storable e : writable_var e -> storable true (variable_object e).
Proof.
  intros (A & B & C & D). unfold variable_object. apply ostore_iff. repeat (apply Forall_cons; [split; [vm_compute; reflexivity|]|]); try apply Forall_nil; cbn [snd fst]; try exact Logic.I.
  - exact A.
  - split; [exact B|discriminate].
  - split; [exact C|discriminate].
  - split; [exact D|discriminate].
  - apply plain_chars. destruct (va_sense (snd e)); reflexivity.
Qed.
Lemma var_read e j : read_back true (variable_object e) j -> kept_var e j.
Proof.
  intros R. destruct j as [| | | | | |m|]; try (destruct R as (? & X & _); discriminate X). unfold variable_object in R. apply obj_rel_iff in R. unfold obj_rel in R.
  repeat match goal with H : Forall2 _ (_ :: _) _ |- _ => let e := fresh "e" in let K := fresh "K" in let V := fresh "V" in inversion H as [|? [? e] ? ? [K V] ?]; subst; clear H; cbn [fst snd] in K, V; subst end.
  match goal with H : Forall2 _ [] _ |- _ => inversion H; subst end.
  repeat match goal with V : read_back false _ ?e |- _ => cbn [read_back] in V; subst e end.
  eexists. split; [|split; [|reflexivity]]; destruct (va_sense (snd e)); split; intros X; try reflexivity; try discriminate X; try discriminate; try (exfalso; now apply X).
Qed.
Lemma con_storable e : writable_con digits (List.length (wr_vars w)) e -> storable true (constraint_object names iter e).
Proof.
  intros (A & B & C). unfold constraint_object. apply ostore_iff. repeat (apply Forall_cons; [split; [vm_compute; reflexivity|]|]); try apply Forall_nil; cbn [snd fst]; try exact Logic.I.
  - exact A.
  - exact (opp_sound _ (Di _ B)).
  - apply plain_chars. destruct (ct_sense (snd e)); reflexivity.
  - now apply terms_storable.
Qed.
Lemma con_read e j : writable_con digits (List.length (wr_vars w)) e -> read_back true (constraint_object names iter e) j -> kept_con w listed_terms e j.
Proof.
  intros (_ & _ & C) R. destruct j as [| | | | | |m|]; try (destruct R as (? & X & _); discriminate X). unfold constraint_object in R. apply obj_rel_iff in R. unfold obj_rel in R.
  repeat match goal with H : Forall2 _ (_ :: _) _ |- _ => let e := fresh "e" in let K := fresh "K" in let V := fresh "V" in inversion H as [|? [? e] ? ? [K V] ?]; subst; clear H; cbn [fst snd] in K, V; subst end.
  match goal with H : Forall2 _ [] _ |- _ => inversion H; subst end.
  match goal with V : read_back false (JArr _) ?e |- _ => destruct e as [| | | | | | |ts]; try (destruct V as (? & X & _); discriminate X); apply (terms_read _ _ C) in V; rename V into Vs end.
  repeat match goal with V : read_back false (JReal _) ?e |- _ => destruct V as (? & -> & ?) end.
  repeat match goal with V : read_back false _ ?e |- _ => cbn [read_back] in V; subst e end.
  do 3 eexists. split; [eassumption|]. split; [|split; [exact Vs|reflexivity]]. destruct (ct_sense (snd e)); constructor.
Qed.
Lemma array_read {A} (f : A -> json) (P : A -> json -> Prop) (l : list A) js : (forall a j, In a l -> read_back true (f a) j -> P a j) -> arr_rel (map f l) js -> Forall2 P l js.
Proof.
  intros H. revert js. induction l as [|a l IH]; intros js R; cbn [map] in R; inversion R; subst; constructor; [apply H; [now left|assumption]|]. apply IH; [intros b j J; apply H; now right|assumption].
Qed.

Lemma instance_file : exists file vs cs ts, write_instance iter w = Ok file /\ Forall2 kept_var (wr_vars w) vs /\ Forall2 (kept_con w listed_terms) (wr_cons w) cs /\
  listed_terms (ex_sens (wr_objective w)) ts /\
  exists steps, forall fuel, (steps <= fuel)%nat -> read_json_object fuel file =
    Some (Ok [("name", if (wr_name w =? "")%string then JNull else JStr (squeezed (wr_name w))); ("is_minimization", JBool (wr_minimize w)); ("variables", JArr vs);
              ("objective", JObj [("sensitivities", JArr ts)]); ("constraints", JArr cs)]%string).
Proof.
  destruct Wr as (N & V & C & O). unfold write_instance.
  assert (St : storable false (JObj (instance_object iter w))).
  { apply ostore_iff. unfold instance_object. repeat (apply Forall_cons; [split; [vm_compute; reflexivity|]|]); try apply Forall_nil; cbn [snd fst]; try exact Logic.I.
    - unfold name_entry. destruct (wr_name w =? "")%string; [exact Logic.I|exact (delete_plain _ N)].
    - apply (astore_iff _ false). apply Forall_forall. intros j J. apply in_map_iff in J as (e & <- & J). rewrite Forall_forall in V. exact (var_storable e (V e J)).
    - apply (ostore_iff _ false). constructor; [split; [vm_compute; reflexivity|exact (terms_storable _ O)]|constructor].
    - apply (astore_iff _ false). apply Forall_forall. intros j J. apply in_map_iff in J as (e & <- & J). rewrite Forall_forall in C. exact (con_storable e (C e J)). }
  destruct (object_round_trip 0 _ St) as (file & m & W & R & T). exists file. apply obj_rel_iff in R. unfold instance_object, obj_rel in R.
  inversion R as [|? [k1 e1] ? ? [K1 V1] R1]; subst; clear R. inversion R1 as [|? [k2 e2] ? ? [K2 V2] R2]; subst; clear R1. inversion R2 as [|? [k3 e3] ? ? [K3 V3] R3]; subst; clear R2.
  inversion R3 as [|? [k4 e4] ? ? [K4 V4] R4]; subst; clear R3. inversion R4 as [|? [k5 e5] ? ? [K5 V5] R5]; subst; clear R4. inversion R5; subst; clear R5. cbn [fst snd] in *. subst.
  destruct e3 as [| | | | | | |vs]; try (destruct V3 as (? & X & _); discriminate X). destruct e5 as [| | | | | | |cs]; try (destruct V5 as (? & X & _); discriminate X).
  destruct e4 as [| | | | | |ob|]; try (destruct V4 as (? & X & _); discriminate X). apply obj_rel_iff in V4. inversion V4 as [|? [k6 e6] ? ? [K6 V6] R6]; subst; clear V4. inversion R6; subst; clear R6. cbn [fst snd] in *. subst.
  destruct e6 as [| | | | | | |ts]; try (destruct V6 as (? & X & _); discriminate X). cbn [read_back] in V2. subst e2.
  apply arr_rel_iff in V3. apply arr_rel_iff in V5. exists vs, cs, ts. split; [exact W|]. split; [|split; [|split]].
  - refine (array_read variable_object _ _ _ _ V3). intros a j _ H. exact (var_read a j H).
  - refine (array_read _ _ _ _ _ V5). intros a j J H. rewrite Forall_forall in C. exact (con_read a j (C a J) H).
  - exact (terms_read _ _ O V6).
  - destruct T as (steps & T). exists steps. intros fuel F. rewrite (T fuel F). repeat f_equal. unfold name_entry in V1. destruct (wr_name w =? "")%string; cbn [read_back] in V1; subst e1; [reflexivity|]. now rewrite delete_squeezed.
Qed.
End File.
