From Coq Require Import List ZArith QArith Bool String Ascii Lia.
From Verif Require Import ExprModel ConstraintModel VariableModel PresolveModel TextModel MpsModel NamesModel NamesSpec JsonModel OptionModel CommandModel CommandSpec CommandProof CommandProof2 CommandProof3 CommandProof4.
Import ListNotations.
Local Open Scope string_scope.
Local Open Scope list_scope.

Lemma has_char_in p s : has_char p s = false <-> forall c, In c (list_ascii_of_string s) -> p c = false.
Proof.
  induction s as [|d s IH]; cbn [has_char list_ascii_of_string In]; [split; [intros _ c []|reflexivity]|].
  rewrite orb_false_iff, IH. split; [intros [A B] c [<-|I]; auto|intros H; auto].
Qed.
Lemma instance_name fuel fs items s i dir stem ext : Forall well_named items -> Forall well_numbered items -> describes items s ->
  setup fuel fs (flat_map words items) = Some (Ok (Ready i)) ->
  st_mps s = append dir (append stem (append "." ext)) -> (dir = "" \/ exists d, dir = append d "/" \/ dir = append d "\") ->
  ~ In "/"%char (list_ascii_of_string stem) -> ~ In "\"%char (list_ascii_of_string stem) -> ~ In "."%char (list_ascii_of_string ext) -> in_name i = stem.
Proof.
  intros W N D H E Dr S1 S2 Ex. destruct (setup_inv fuel fs _ s i (parse_described items s W N D) H) as (_ & im & o & _ & _ & A).
  assert (K : in_name i = base_name (st_mps s)).
  { unfold apply_files in A. repeat (apply bind_ok in A; destruct A as (? & _ & A)). injection A as <-. reflexivity. }
  rewrite K, E. change (append "." ext) with (String "."%char ext). apply base_of; [| |exact Dr].
  - apply has_char_in. intros c I. unfold is_dot. destruct (Ascii.eqb_spec c "."%char) as [->|]; [contradiction|reflexivity].
  - apply has_char_in. intros c I. unfold is_separator. destruct (Ascii.eqb_spec c "/"%char) as [->|]; [contradiction|].
    destruct (Ascii.eqb_spec c "\"%char) as [->|]; [contradiction|reflexivity].
Qed.
Lemma file_lines ls : (forall l, In l ls -> ~ In LF (list_ascii_of_string l)) -> lines_of (fold_right (fun l r => append l (String LF r)) "" ls) = ls.
Proof.
  intros H. apply lines_back. intros l I. apply has_char_in. intros c J. destruct (Ascii.eqb_spec c LF) as [->|]; [exfalso; exact (H l I J)|reflexivity].
Qed.
Lemma file_last_line ls l : (forall l, In l ls -> ~ In LF (list_ascii_of_string l)) -> ~ In LF (list_ascii_of_string l) -> l <> EmptyString ->
  lines_of (fold_right (fun l r => append l (String LF r)) l ls) = ls ++ [l].
Proof.
  intros H H' N. apply lines_last; [intros a I| |exact N]; apply has_char_in; intros c J; (destruct (Ascii.eqb_spec c LF) as [->|]; [exfalso|reflexivity]); [exact (H a I J)|exact (H' J)].
Qed.
Lemma no_arguments fuel fs args : setup fuel fs args = Some (Ok Usage) <-> args = [].
Proof.
  split; [|intros ->; reflexivity]. unfold setup. destruct args as [|a r]; [reflexivity|].
  destruct (parse (a :: r) st_init) as [s| |]; try discriminate. destruct (_ && _); [discriminate|].
  destruct (load_mps fs s) as [im| |]; try discriminate. destruct (load_options fuel fs s) as [[o| |]|]; try discriminate.
  destruct (apply_files fs s im o) as [i| |]; discriminate.
Qed.
