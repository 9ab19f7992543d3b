(** C65: JSON files give back what was written to them. *)
From Coq Require Import List ZArith QArith Qabs Bool String Ascii Lia.
From Verif Require Import TextModel PresolveModel JsonModel JsonSpec JsonProof5 JsonProof6 JsonProof7 JsonProof8.
Import ListNotations.
Local Open Scope Z_scope.

(** Writing a storable object, at any indentation, succeeds, and reading the file ends
    and gives the object back: same keys in the same order, doubles to seven digits,
    booleans inside arrays as strings. *)
Theorem C65_object : forall indentation l, storable false (JObj l) ->
  exists file m, write_json indentation (JObj l) = Ok file /\ read_back false (JObj l) (JObj m) /\
  exists steps, forall fuel, (steps <= fuel)%nat -> read_json_object fuel file = Some (Ok m).
Proof. exact object_round_trip. Qed.
Print Assumptions C65_object.
Theorem C65_array : forall indentation l, storable false (JArr l) ->
  exists file m, write_json indentation (JArr l) = Ok file /\ read_back false (JArr l) (JArr m) /\
  exists steps, forall fuel, (steps <= fuel)%nat -> read_json_array fuel file = Some (Ok m).
Proof. exact array_round_trip. Qed.
Print Assumptions C65_array.
Example C65_sample : storable false (JObj sample). Proof. exact sample_storable. Qed.
Example C65_sample_read : exists m, read_json_object 100 (text 0 (JObj sample)) = Some (Ok m) /\ last_with "size" m = Some (JInt KInt 7) /\
  last_with "tags" m = Some (JArr [JStr "true"; JStr "x"; JObj []; JArr []]).
Proof. eexists. split; [vm_compute; reflexivity|split; reflexivity]. Qed.

(** Looking up a key finds the last element stored under it, and finds the same before
    writing and after reading. *)
Theorem C65_find : forall key l v, last_with key l = Some v <-> exists l1 l2, l = l1 ++ (key, v) :: l2 /\ ~ In key (map fst l2).
Proof. exact last_with_iff. Qed.
Print Assumptions C65_find.
Theorem C65_lookup : forall l m key, read_back false (JObj l) (JObj m) ->
  match last_with key l, last_with key m with Some v, Some w => read_back false v w | None, None => True | _, _ => False end.
Proof. exact lookup_read_back. Qed.
Print Assumptions C65_lookup.
Example C65_find_example : last_with "ok" [("ok", JBool true); ("ko", JNull); ("ok", JBool false)]%string = Some (JBool false). Proof. reflexivity. Qed.

(** Reading any file whose brackets close comes to an end. *)
Theorem C65_terminates : forall file, let ts := tokenize (join_lines file) in closes "{" "}" ts -> closes "[" "]" ts ->
  forall fuel, (List.length ts < fuel)%nat -> read_json_object fuel file <> None /\ read_json_array fuel file <> None.
Proof. exact reading_ends. Qed.
Print Assumptions C65_terminates.
Example C65_closes_example : closes "{" "}" (tokenize (join_lines (text 0 (JObj sample)))) /\ closes "[" "]" (tokenize (join_lines (text 0 (JObj sample)))).
Proof. exact sample_closes. Qed.
(** It is not enough that there are as many closing brackets as opening ones: reading
    this file never ends. *)
Theorem C65_terminates_refuted : exists file, well_closed (join_lines file) = true /\ forall fuel, read_json_object fuel file = None.
Proof. exists hanging. split; [reflexivity|exact hang]. Qed.
Print Assumptions C65_terminates_refuted.

(** Reading is undefined for exactly the files with nothing in them. *)
Theorem C65_undefined : forall fuel file, (read_json_object fuel file = Some UB <-> nothing file) /\ (read_json_array fuel file = Some UB <-> nothing file).
Proof. exact undefined_iff. Qed.
Print Assumptions C65_undefined.

(** Values that are not storable: punctuation inside a string is lost, a quotation mark
    makes the file unreadable, and so do an integer beyond int and a subnormal double;
    a long long in an array cannot be written. *)
Theorem C65_punctuation_refuted : exists s t, s <> t /\ read_json_object 10 (text 0 (JObj [("k"%string, JStr s)])) = Some (Ok [("k"%string, JStr t)]).
Proof. exists "10:30, [A]"%string, "10 30  [ A ]"%string. split; [discriminate|vm_compute; reflexivity]. Qed.
Print Assumptions C65_punctuation_refuted.
Theorem C65_quotation_refuted : exists s, forall fuel, read_json_object fuel (text 0 (JObj [("k"%string, JStr s)])) = Some Throw.
Proof. exists (String (ascii_of_nat 34) EmptyString). intros fuel. reflexivity. Qed.
Print Assumptions C65_quotation_refuted.
Theorem C65_integer_refuted : exists z, write_json 0 (JObj [("k"%string, JInt KLong z)]) = Ok (text 0 (JObj [("k"%string, JInt KLong z)])) /\
  read_json_object 10 (text 0 (JObj [("k"%string, JInt KLong z)])) = Some Throw.
Proof. exists 2147483648. split; vm_compute; reflexivity. Qed.
Print Assumptions C65_integer_refuted.
Theorem C65_subnormal_refuted : exists q, (0 < q)%Q /\ read_json_object 10 (text 0 (JObj [("k"%string, JReal q)])) = Some Throw.
Proof. exists (1 # 10 ^ 310)%Q. split; vm_compute; reflexivity. Qed.
Print Assumptions C65_subnormal_refuted.
Theorem C65_long_long_refuted : exists l, forall n, write_json n (JArr l) = Throw.
Proof. exists [JInt KLongLong 1]. intros n. reflexivity. Qed.
Print Assumptions C65_long_long_refuted.
(** A file with \r\n ends of line is read without error, but not as what it says. *)
Theorem C65_crlf_refuted : exists body, let lines e := append "{" (append e (append (quoted "k") (append body (append e "}")))) in
  read_json_object 10 (lines newline) = Some (Ok [("k"%string, JInt KInt 1)]) /\
  exists m, read_json_object 10 (lines (String CR newline)) = Some (Ok m) /\ last_with "k" m = None.
Proof. exists ": 1"%string. split; [vm_compute; reflexivity|]. eexists. split; vm_compute; reflexivity. Qed.
Print Assumptions C65_crlf_refuted.
(** In a text that is parsed without going through a file such line ends are skipped:
    lines joined by them are parsed as if they stood in one line. *)
Theorem C65_crlf_parse : forall lines fuel, Forall (fun l => ~ In CR (list_ascii_of_string l)) lines ->
  parse_json_object fuel (String.concat (String CR newline) lines) = parse_json_object fuel (String.concat EmptyString lines).
Proof. exact crlf_parse. Qed.
Print Assumptions C65_crlf_parse.
Example C65_crlf_parse_example : parse_json_object 10 (String.concat (String CR newline) ["{"; append (quoted "k") ": 1 "; "}"])%string = Some (Ok [("k"%string, JInt KInt 1)]).
Proof. vm_compute. reflexivity. Qed.
(** Parsing the written text itself, without going through a file, does not give the
    object back. *)
Theorem C65_parse_text_refuted : exists l m, storable false (JObj l) /\ parse_json_object 20 (text 0 (JObj l)) = Some (Ok m) /\ exists key v, last_with key l = Some v /\ last_with key m = None.
Proof.
  exists [("k", JInt KInt 1)]%string. eexists. split; [|split; [vm_compute; reflexivity|exists "k"%string; eexists; split; [reflexivity|vm_compute; reflexivity]]].
  cbn. split; [|split; [split; [lia|discriminate]|exact Logic.I]]. intros n c H. destruct n as [|[|n]]; cbn in H; try discriminate. injection H as <-. cbn. intuition discriminate.
Qed.
Print Assumptions C65_parse_text_refuted.
