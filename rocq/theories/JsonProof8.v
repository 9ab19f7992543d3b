(** Line ends in a text that is parsed directly. *)
From Coq Require Import List ZArith Bool String Ascii Lia.
From Verif Require Import TextModel PresolveModel JsonModel.
Import ListNotations.

Lemma strip_line l s : ~ In CR (list_ascii_of_string l) -> strip_crlf (append l s) = append l (strip_crlf s).
Proof.
  induction l as [|c l IH]; [reflexivity|]. cbn [list_ascii_of_string In append]. intros N. rewrite <- IH by tauto.
  assert (C : Ascii.eqb c CR = false) by (apply Ascii.eqb_neq; intros ->; tauto).
  cbn [strip_crlf]. destruct (append l s) as [|d t]; [reflexivity|]. rewrite C. reflexivity.
Qed.
Lemma strip_id l : ~ In CR (list_ascii_of_string l) -> strip_crlf l = l.
Proof.
  induction l as [|c l IH]; [reflexivity|]. cbn [list_ascii_of_string In]. intros N.
  assert (C : Ascii.eqb c CR = false) by (apply Ascii.eqb_neq; intros ->; tauto).
  cbn [strip_crlf]. destruct l as [|d t]; [reflexivity|]. rewrite C. cbn [andb]. rewrite IH by tauto. reflexivity.
Qed.
Lemma crlf_strip lines : Forall (fun l => ~ In CR (list_ascii_of_string l)) lines ->
  strip_crlf (String.concat (String CR newline) lines) = strip_crlf (String.concat EmptyString lines).
Proof.
  induction 1 as [|l lines L F IH]; [reflexivity|]. destruct lines as [|m lines]; [reflexivity|].
  change (strip_crlf (append l (append (String CR newline) (String.concat (String CR newline) (m :: lines)))) =
          strip_crlf (append l (append EmptyString (String.concat EmptyString (m :: lines))))).
  rewrite !(strip_line l) by exact L. f_equal. transitivity (strip_crlf (String.concat (String CR newline) (m :: lines))); [reflexivity|exact IH].
Qed.
Lemma crlf_parse lines fuel : Forall (fun l => ~ In CR (list_ascii_of_string l)) lines ->
  parse_json_object fuel (String.concat (String CR newline) lines) = parse_json_object fuel (String.concat EmptyString lines).
Proof. intros F. unfold parse_json_object, tokenize. rewrite (crlf_strip lines F). reflexivity. Qed.
