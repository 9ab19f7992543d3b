(** Proofs for C55: the solution file is read back as the same solution. *)
From Coq Require Import List ZArith QArith Qround Bool String Ascii Lia Lqa Permutation.
From Verif Require Import VariableModel PresolveModel TextModel TextProof TextProof2 MpsModel MpsProof NamesModel NamesSpec NamesProof.
Import ListNotations.
Local Open Scope string_scope.
Local Open Scope Z_scope.
Local Open Scope list_scope.

Lemma plain_word s : plain_name s -> word s.
Proof.
  intros [N B]. split; [exact N|]. clear N. induction s as [|c s IH]; [reflexivity|]. destruct B as [B1 B2]. cbn. rewrite B1. apply IH. exact B2.
Qed.
Lemma value_line n z : plain_name n -> items_of (append n (append " " (print_int z))) = [n; print_int z].
Proof.
  intros H. unfold items_of. cbn [append]. rewrite split_word_space by (auto using plain_word). rewrite split_word_end; [reflexivity|apply print_int_word].
Qed.
Lemma int_nearest z : exists q, atof (print_int z) = Some q /\ nearest q z.
Proof. destruct (int_reads_back z) as (r & A & R). exists r. split; [exact A|]. split; rewrite R; lra. Qed.

Definition entries (sol : list (string * list (string * Z))) : list (string * Z) := flat_map snd sol.
Lemma body_lines sol : flat_map (fun p : string * list (string * Z) => map (fun e => append (fst e) (append " " (print_int (snd e)))) (snd p)) sol
  = map (fun e => append (fst e) (append " " (print_int (snd e)))) (entries sol).
Proof. unfold entries. induction sol as [|p sol IH]; [reflexivity|]. cbn [flat_map]. rewrite map_app, IH. reflexivity. Qed.

Lemma read_entries es : (forall e, In e es -> plain_name (fst e) /\ is_int (snd e)) -> NoDup (map fst es) ->
  forall tbl, exists tbl', read_values (map (fun e => append (fst e) (append " " (print_int (snd e)))) es) tbl = Ok tbl' /\
  (forall e, In e es -> lookup tbl' (fst e) = Some (snd e)) /\ (forall n, ~ In n (map fst es) -> lookup tbl' n = lookup tbl n).
Proof.
  induction es as [|[n z] es IH]; intros H ND tbl; [exists tbl; cbn; split; [reflexivity|split; [contradiction|reflexivity]]|].
  cbn [map fst snd read_values] in *. inversion ND; subst. destruct (H (n, z) (or_introl eq_refl)) as [Hp Hi]. cbn [fst snd] in Hp, Hi.
  rewrite value_line by exact Hp. destruct (int_nearest z) as (q & A & Nq). rewrite (value_of_ok _ q z A Nq Hi). cbn [bind].
  destruct (IH (fun e He => H e (or_intror He)) H3 (store tbl n z)) as (tbl' & E & F1 & F2). exists tbl'. split; [exact E|]. split.
  - intros e [<-|He]; [|now apply F1]. cbn [fst snd]. rewrite F2 by assumption. apply lookup_same.
  - intros x Hx. cbn in Hx. rewrite F2 by tauto. apply lookup_other. intros ->. tauto.
Qed.

(** The export map. *)
Lemma export_fold m : forall acc, NoDup (map fst acc ++ map px_name m) ->
  fold_left (fun acc p => store acc (px_name p) (values_of p)) m acc = acc ++ map (fun p => (px_name p, values_of p)) m.
Proof.
  induction m as [|p m IH]; intros acc ND; cbn [fold_left map]; [now rewrite app_nil_r|].
  rewrite store_fresh; [|cbn [map] in ND; apply NoDup_remove_2 in ND; intros X; apply ND, in_app_iff; now left].
  rewrite IH; [now rewrite <- app_assoc|]. rewrite map_app, <- app_assoc. exact ND.
Qed.
Lemma export_entries m sol : NoDup (map px_name m) -> Permutation sol (export_named m) ->
  Permutation (entries sol) (map (fun e => (fst e, va_value (snd e))) (elements m)).
Proof.
  intros ND Pm. unfold export_named in Pm. rewrite export_fold in Pm by exact ND. cbn [app] in Pm.
  unfold entries. rewrite Pm. unfold elements. clear. induction m as [|p m IH]; [reflexivity|]. cbn [map flat_map snd]. rewrite map_app. apply Permutation_app_head. exact IH.
Qed.

Lemma round_trip m m0 sol objective :
  NoDup (map px_name m) -> NoDup (map fst (elements m)) ->
  (forall e, In e (elements m) -> plain_name (fst e) /\ is_int (va_value (snd e))) ->
  (forall t, objective = Some t -> plain_name t /\ exists q z, atof t = Some q /\ nearest q z /\ is_int z) ->
  Permutation sol (export_named m) ->
  Forall2 (fun e0 e => fst e0 = fst e /\ (va_fixed (snd e0) = true -> va_value (snd e0) = va_value (snd e))) (elements m0) (elements m) ->
  exists tbl m', read_names_and_values (solution_lines objective sol) = Ok tbl /\ import_solution tbl m0 = Ok m' /\
    map (fun e => (fst e, va_value (snd e))) (elements m') = map (fun e => (fst e, va_value (snd e))) (elements m).
Proof.
  intros NDp ND H HO Pm Nm. pose proof (export_entries m sol NDp Pm) as Pe.
  assert (Names : map fst (map (fun e : string * var => (fst e, va_value (snd e))) (elements m)) = map fst (elements m)) by (rewrite map_map; reflexivity).
  assert (ND' : NoDup (map fst (entries sol))).
  { apply Permutation_NoDup with (l := map fst (elements m)); [|exact ND]. rewrite <- Names. apply Permutation_map, Permutation_sym, Pe. }
  assert (H' : forall e, In e (entries sol) -> plain_name (fst e) /\ is_int (snd e)).
  { intros e He. apply (Permutation_in _ Pe) in He. apply in_map_iff in He. destruct He as (x & <- & Hx). exact (H x Hx). }
  assert (R : exists tbl, read_names_and_values (solution_lines objective sol) = Ok tbl /\ forall e, In e (entries sol) -> lookup tbl (fst e) = Some (snd e)).
  { unfold read_names_and_values, solution_lines. cbn [read_values]. rewrite body_lines. destruct objective as [t|].
    - destruct (HO t eq_refl) as (Pt & q & z & A & Nq & I).
      assert (It : items_of (append "=obj= " t) = ["=obj="%string; t]).
      { change (append "=obj= " t) with (append "=obj=" (String " "%char t)). unfold items_of. rewrite split_word_space; [|split; [discriminate|reflexivity]|reflexivity].
        rewrite split_word_end by (now apply plain_word). reflexivity. }
      rewrite It, (value_of_ok t q z A Nq I). cbn [bind]. destruct (read_entries (entries sol) H' ND' (store [] "=obj="%string z)) as (tbl & E & F1 & _). exists tbl. auto.
    - change (items_of "=infeas=") with ["=infeas="%string]. cbv iota. destruct (read_entries (entries sol) H' ND' []) as (tbl & E & F1 & _). exists tbl. auto. }
  destruct R as (tbl & E & L). exists tbl, (each (assigned tbl) m0). split; [exact E|].
  assert (T : forall e, In e (elements m) -> target tbl (fst e) = va_value (snd e)).
  { intros e He. unfold target. pose proof (L (fst e, va_value (snd e))) as Le. cbn [fst snd] in Le. rewrite Le; [reflexivity|].
    apply (Permutation_in _ (Permutation_sym Pe)). apply in_map_iff. exists e. auto. }
  assert (Ee : elements (each (assigned tbl) m0) = map (assigned tbl) (elements m0)).
  { unfold elements, each. clear. induction m0 as [|p m0 IH]; [reflexivity|]. cbn [map flat_map px_elems]. rewrite IH, map_app. reflexivity. }
  assert (G : existsb (clashes tbl) (elements m0) = false /\
     map (fun e => (fst e, va_value (snd e))) (map (assigned tbl) (elements m0)) = map (fun e => (fst e, va_value (snd e))) (elements m)).
  { clear - Nm T. induction Nm as [|e0 e l0 l [N F] Nm IH]; [auto|]. cbn [existsb map]. destruct IH as [I1 I2]; [intros x Hx; apply T; now right|].
    rewrite I1, I2. pose proof (T e (or_introl eq_refl)) as Te. unfold clashes. rewrite N, Te. split.
    - destruct (va_fixed (snd e0)); [|reflexivity]. rewrite (F eq_refl), Z.eqb_refl. reflexivity.
    - f_equal. unfold assigned. cbn [fst snd]. rewrite N, Te. reflexivity. }
  split; [rewrite import_facts, (proj1 G); reflexivity|]. rewrite Ee. apply G.
Qed.

(** ** Names with a space *)
Lemma has_space_iff s : has_space s = true <-> exists a b, s = (a ++ " " ++ b)%string.
Proof.
  split.
  - induction s as [|c s IH]; cbn [has_space]; [discriminate|]. destruct (Ascii.eqb_spec c " "%char) as [->|_].
    + intros _. exists ""%string, s. reflexivity.
    + intros H. destruct (IH H) as (a & b & ->). exists (String c a), b. reflexivity.
  - intros (a & b & ->). induction a as [|c a IH]; [reflexivity|]. cbn [append has_space]. destruct (Ascii.eqb c " "); [reflexivity|exact IH].
Qed.
Lemma create_throws m name shape : create_variables m name shape = Throw <-> exists a b, name = (a ++ " " ++ b)%string.
Proof.
  rewrite <- has_space_iff. unfold create_variables. destruct (has_space name); [split; reflexivity|]. split; [|discriminate].
  destruct shape as [|n l]; [discriminate|]. destruct (forallb _ _); discriminate.
Qed.
