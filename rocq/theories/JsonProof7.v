(** Examples and counterexamples for JSON files. *)
From Coq Require Import List ZArith QArith Qabs Bool String Ascii Lia Lqa.
From Verif Require Import TextModel PresolveModel JsonModel JsonSpec TextProof JsonProof2 JsonProof3 JsonProof4 JsonProof6.
Import ListNotations.
Local Open Scope Z_scope.
Local Opaque decimal.

(** { "name": "knap sack", "bound": -12.5, "size": 7, "tags": [true, "x", {}, []], "nested": { "ok": true, "ok": false } } *)
Definition sample : list (string * json) :=
  [("name", JStr "knap sack"); ("bound", JReal (-25 # 2)); ("size", JInt KLong 7); ("tags", JArr [JBool true; JStr "x"; JObj []; JArr []]);
   ("nested", JObj [("ok", JBool true); ("ok", JBool false)]); ("limit", JSpecial "inf"); ("none", JNull)]%string.
Lemma plain_of s : all_chars (fun c => negb (bad_char c)) s = true -> plain s. Proof. apply plain_chars. Qed.
Lemma sample_bound : ((-25 # 2) == 0 \/ decimal (-300) <= Qabs (-25 # 2) <= decimal 300)%Q.
Proof. right. split; apply Qle_bool_imp_le; vm_compute; reflexivity. Qed.
Lemma sample_storable : storable false (JObj sample).
Proof.
  apply ostore_iff. unfold sample, ostore. repeat (apply Forall_cons; [split; [reflexivity|]|]); try apply Forall_nil; unfold snd.
  - apply plain_of. reflexivity.
  - exact sample_bound.
  - split; [split; discriminate|discriminate].
  - apply astore_iff. repeat (apply Forall_cons); try apply Forall_nil; try exact Logic.I. apply plain_of. reflexivity.
  - apply ostore_iff. repeat (apply Forall_cons; [split; [reflexivity|exact Logic.I]|]). apply Forall_nil.
  - left. reflexivity.
  - exact Logic.I.
Qed.
Ltac scan H p n := lazymatch n with O => cbn in H; destruct p; discriminate H | S ?m => destruct p as [|p]; [cbn in H; try discriminate H; clear H|scan H p m] end.
Lemma sample_closes : closes "{" "}" (tokenize (join_lines (text 0 (JObj sample)))) /\ closes "[" "]" (tokenize (join_lines (text 0 (JObj sample)))).
Proof.
  set (ts := tokenize _). vm_compute in ts. subst ts. split; intros p H.
  all: scan H p 28%nat.
  1: exists 28%nat. 2: exists 2%nat. 3: exists 6%nat. 4: exists 8%nat. 5: exists 2%nat.
  all: split; [lia|]; split; [cbn; lia|vm_compute; reflexivity].
Qed.
