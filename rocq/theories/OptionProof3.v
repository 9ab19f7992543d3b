(** The default options are valid; counterexamples. *)
From Coq Require Import List ZArith QArith Qabs Bool String Ascii Lia Lqa.
From Verif Require Import TextModel TextProof PresolveModel JsonModel JsonSpec OptionModel OptionSpec OptionProof OptionProof2.
Import ListNotations.
Local Open Scope Z_scope.

Definition validb (k : kind) (v : oval) : bool :=
  match k, v with
  | FBool, VBool _ => true
  | FInt, VInt z => (-2147483648 <=? z) && (z <=? 2147483647)
  | FReal, VReal q => Qeq_bool q 0 || (Qle_bool (decimal (-300)) (Qabs q) && Qle_bool (Qabs q) (decimal 300))
  | FEnum names, VEnum z => (0 <=? z) && (z <? Z.of_nat (List.length names))
  | _, _ => false
  end.
Local Opaque decimal.
Lemma validb_ok k v : validb k v = true -> valid k v.
Proof.
  destruct k, v; cbn [validb valid]; try discriminate; auto.
  - intros H. apply andb_prop in H. lia.
  - intros H. apply orb_prop in H. destruct H as [H|H]; [left; now apply Qeq_bool_eq|right]. apply andb_prop in H. destruct H. split; now apply Qle_bool_iff.
  - intros H. apply andb_prop in H. lia.
Qed.
Fixpoint forall2b {A B} (p : A -> B -> bool) (l : list A) (m : list B) : bool :=
  match l, m with [], [] => true | a :: l', b :: m' => p a b && forall2b p l' m' | _, _ => false end.
Lemma forall2b_ok {A B} (p : A -> B -> bool) (P : A -> B -> Prop) : (forall a b, p a b = true -> P a b) -> forall l m, forall2b p l m = true -> Forall2 P l m.
Proof. intros H l. induction l as [|a l IH]; intros [|b m]; cbn; try discriminate; intros E; [constructor|]. apply andb_prop in E. destruct E. constructor; auto. Qed.
Definition valid_optionb (o : opts) : bool := forall2b (fun s vs => forall2b (fun f v => validb (f_kind f) v) (snd s) vs) schema o.
Lemma valid_optionb_ok o : valid_optionb o = true -> valid_option o.
Proof.
  unfold valid_option, valid_optionb. apply forall2b_ok. intros s vs. apply forall2b_ok. intros f v. apply validb_ok.
Qed.
Local Transparent decimal.
Lemma initialize_valid : valid_option initialize.
Proof. apply valid_optionb_ok. vm_compute. reflexivity. Qed.

(** A file a user may write. *)
Definition dq (s : string) : string := append (String (ascii_of_nat 34) EmptyString) (append s (String (ascii_of_nat 34) EmptyString)).
Fixpoint glue (l : list string) : string := match l with [] => EmptyString | s :: tl => append s (glue tl) end.
Definition user_file : string := glue
  ["{ "; dq "general"; " : { "; dq "iteration_max"; ": 7, "; dq "unknown"; ": [1, 2] },"; String (ascii_of_nat 10) EmptyString;
   dq "output"; ": {"; dq "verbose"; ": "; dq "Full"; "}, "; dq "general"; ": {"; dq "time_max"; ": 2.5 } }"]%string.
Definition threads (t : Z) : opts := map (fun s => map (fun f => if String.eqb (f_name f) "number_of_threads_move_update" then VInt t else f_default f) (snd s)) schema.
Definition bad_enum : list (string * json) := [("output", JObj [("verbose", JInt KInt 99)])]%string.
