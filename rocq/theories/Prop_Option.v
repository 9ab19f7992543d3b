(** C66: an option file sets the parameters it names and no others, and options survive
    being written to a file and read back. *)
From Coq Require Import List ZArith QArith Qabs Bool String Ascii Lia.
From Verif Require Import PresolveModel JsonModel JsonSpec OptionModel OptionSpec OptionSpec2 OptionProof4 OptionProof OptionProof2 OptionProof3.
Import ListNotations.
Local Open Scope Z_scope.

(** Without a file every parameter has its default. *)
Theorem C66_default : forall s n k d, declared s n k d -> param initialize s n = Some d.
Proof. exact default_at. Qed.
Print Assumptions C66_default.

(** The defaults as written to a file are those of the table, parameter by parameter;
    the table has every parameter; and reading the file gives the defaults again. *)
Theorem C66_default_values : exists obj, to_json initialize = Ok obj /\ setup_object obj = Ok initialize /\
  (forall s l n j, In (s, l) default_values -> In (n, j) l -> exists j', entry obj s n = Some j' /\ same_json j j') /\
  (forall s n k d, declared s n k d -> exists l j, In (s, l) default_values /\ In (n, j) l).
Proof. exact default_written. Qed.
Print Assumptions C66_default_values.

(** When a file is accepted, every parameter (but one) has the value that the file gives
    to it, or its default when the file does not name it. *)
Theorem C66_setup : forall obj o, setup_object obj = Ok o ->
  forall s n k d, declared s n k d -> ~ lost s n -> exists v, param o s n = Some v /\ means k d (entry obj s n) v.
Proof. exact setup_means. Qed.
Print Assumptions C66_setup.
Example C66_user_file : exists o, setup_file 100 user_file = Some (Ok o) /\
  param o "general" "iteration_max" = Some (VInt 100) /\ param o "general" "time_max" = Some (VReal (25 # 10)) /\ param o "output" "verbose" = Some (VEnum 4).
Proof. eexists. split; [vm_compute; reflexivity|]. split; [|split]; vm_compute; reflexivity. Qed.
Example C66_declared : declared "general" "iteration_max" FInt (VInt 100) /\ ~ lost "general" "iteration_max".
Proof. split; [|intros [E _]; discriminate E]. exists general_fields, (member "iteration_max" FInt (VInt 100)). split; [now left|]. split; [now left|]. repeat split. Qed.

(** A file is refused exactly when some section it names is not an object, or some
    parameter it names has a value of the wrong type or an unknown name; nothing else
    can go wrong. *)
Theorem C66_refuses : forall obj, setup_object obj <> UB /\
  (setup_object obj = Throw <-> exists s fs j, In (s, fs) schema /\ last_with s obj = Some j /\
     ((forall l, j <> JObj l) \/ exists l f w, j = JObj l /\ In f fs /\ last_with (f_read f) l = Some w /\ forall v, ~ means (f_kind f) (f_default f) (Some w) v)).
Proof. exact setup_throws. Qed.
Print Assumptions C66_refuses.
Example C66_refused : setup_object [("general", JObj [("iteration_max", JStr "7")])]%string = Throw /\ setup_object [("output", JObj [("verbose", JStr "full")])]%string = Throw /\ setup_object [("output", JNull)]%string = Throw.
Proof. split; [|split]; vm_compute; reflexivity. Qed.

(** Unknown keys and the order of the keys do not matter. *)
Theorem C66_order : forall obj obj',
  (forall s fs, In (s, fs) schema -> (exists l, last_with s obj = Some (JObj l)) /\ (exists l, last_with s obj' = Some (JObj l)) /\ forall f, In f fs -> entry obj s (f_read f) = entry obj' s (f_read f)) ->
  setup_object obj = setup_object obj'.
Proof. exact setup_agree. Qed.
Print Assumptions C66_order.
Example C66_order_example : exists obj obj', obj <> obj' /\ (forall s fs, In (s, fs) schema -> (exists l, last_with s obj = Some (JObj l)) /\ (exists l, last_with s obj' = Some (JObj l)) /\ forall f, In f fs -> entry obj s (f_read f) = entry obj' s (f_read f)).
Proof.
  exists (map (fun s => (fst s, JObj [])) schema), (("x"%string, JNull) :: map (fun s => (fst s, JObj [])) schema). split; [vm_compute; discriminate|].
  intros s fs H. assert (E : last_with s (map (fun s => (fst s, JObj [])) schema) = Some (JObj [])).
  { unfold schema in H. cbn [In] in H. repeat (destruct H as [H|H]; [injection H as <- <-; vm_compute; reflexivity|]). destruct H. }
  unfold entry. cbn [last_with]. rewrite E. split; [eauto|]. split; [eauto|]. intros f _. reflexivity.
Qed.

(** Writing valid options to a file and reading it back gives the same parameters, with
    doubles to seven digits, except for the one that reads another key. *)
Theorem C66_round_trip : forall indentation o, valid_option o ->
  exists obj file, to_json o = Ok obj /\ write_json indentation (JObj obj) = Ok file /\
  exists o', (exists steps, forall fuel, (steps <= fuel)%nat -> setup_file fuel file = Some (Ok o')) /\
  forall s n k d, declared s n k d -> exists v v', param o s n = Some v /\ param o' s n = Some v' /\
    (~ lost s n -> same_value v v') /\ (lost s n -> v' = d).
Proof. exact file_round. Qed.
Print Assumptions C66_round_trip.
Example C66_default_valid : valid_option initialize. Proof. exact initialize_valid. Qed.
Theorem C66_round_trip_refuted : exists o obj o', valid_option o /\ to_json o = Ok obj /\ setup_object obj = Ok o' /\
  param o "parallel" "number_of_threads_move_update" = Some (VInt 8) /\ param o' "parallel" "number_of_threads_move_update" <> Some (VInt 8).
Proof.
  exists (threads 8). eexists. eexists. split; [apply valid_optionb_ok; vm_compute; reflexivity|]. split; [vm_compute; reflexivity|]. split; [vm_compute; reflexivity|].
  split; [vm_compute; reflexivity|]. intros E. vm_compute in E. discriminate E.
Qed.
Print Assumptions C66_round_trip_refuted.
(** A number that names no enumerator is accepted, and the options can then not be
    written. *)
Theorem C66_enumerator_refuted : exists obj o, setup_object obj = Ok o /\ param o "output" "verbose" = Some (VEnum 99) /\ to_json o = Throw.
Proof. exists bad_enum. eexists. split; [vm_compute; reflexivity|]. split; vm_compute; reflexivity. Qed.
Print Assumptions C66_enumerator_refuted.
(** A value of the wrong type for an enumeration is ignored without an error. *)
Theorem C66_ignored_refuted : exists obj, obj <> [] /\ setup_object obj = setup_object [].
Proof. exists [("output", JObj [("verbose", JBool true)])]%string. split; [discriminate|vm_compute; reflexivity]. Qed.
Print Assumptions C66_ignored_refuted.
