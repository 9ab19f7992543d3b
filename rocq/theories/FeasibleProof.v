(** Proofs for C92: the format of feasible.json. *)
From Coq Require Import List ZArith QArith Qabs Bool String Ascii Lia.
From Verif Require Import TextModel TextProof PresolveModel JsonModel JsonSpec JsonProof JsonProof2 JsonProof3 JsonProof5 JsonProof6 ReportModel ReportSpec ReportProof4 FeasibleModel FeasibleSpec.
Import ListNotations.
Local Open Scope Z_scope.
Local Opaque decimal.

Lemma record_storable q : sound_record q -> storable true (solution_object q).
Proof.
  intros (A & B & C). unfold solution_object. apply ostore_iff. repeat (apply Forall_cons; [split; [vm_compute; reflexivity|]|]); try apply Forall_nil; cbn [snd fst]; try assumption; try exact Logic.I.
  apply (ostore_iff _ false). induction C as [|[k z] l [C1 C2] C IH]; [constructor|]. cbn [map fst snd]. constructor; [|exact IH]. cbn [fst snd] in *. split; [now apply plain_chars|]. split; [exact C2|discriminate].
Qed.
Lemma ints_read l : forall w, obj_rel (map (fun p : string * Z => (fst p, JInt KInt (snd p))) l) w -> w = map (fun p => (fst p, JInt KInt (snd p))) l.
Proof.
  induction l as [|[k z] l IH]; intros w R; inversion R as [|? [k' v'] ? w' [K V] R']; subst; [reflexivity|]. cbn [fst snd] in *. subst. cbn [read_back] in V. subst. cbn [map fst snd]. f_equal. exact (IH w' R').
Qed.
Lemma record_read q w : read_back true (solution_object q) w -> kept_record q w.
Proof.
  intros R. destruct w as [| | | | | |m|]; try (destruct R as (? & X & _); discriminate X). unfold solution_object in R. apply obj_rel_iff in R. unfold obj_rel in R.
  repeat match goal with H : Forall2 _ (_ :: _) _ |- _ => let e := fresh "e" in let K := fresh "K" in let V := fresh "V" in inversion H as [|? [? e] ? ? [K V] ?]; subst; clear H; cbn [fst snd] in K, V; subst end.
  match goal with H : Forall2 _ [] _ |- _ => inversion H; subst end.
  repeat match goal with V : read_back false (JObj _) ?e |- _ => destruct e; try (destruct V as (? & X & _); discriminate X); apply obj_rel_iff, ints_read in V; subst end.
  repeat match goal with V : read_back false (JReal _) ?e |- _ => destruct V as (? & -> & ?) end.
  repeat match goal with V : read_back false _ ?e |- _ => cbn [read_back] in V; subst e end.
  do 2 eexists. split; [eassumption|]. split; [eassumption|]. reflexivity.
Qed.
Lemma feasible_file name nv nc l : plain name -> -2147483648 <= nv <= 2147483647 -> -2147483648 <= nc <= 2147483647 -> Forall sound_record l ->
  exists file ws, write_solutions name nv nc l = Ok file /\ Forall2 kept_record l ws /\
  exists steps, forall fuel, (steps <= fuel)%nat -> read_json_object fuel file =
    Some (Ok [("version", JStr "v2.5.0"); ("name", JStr name); ("number_of_variables", JInt KInt nv); ("number_of_constraints", JInt KInt nc); ("solutions", JArr ws)]%string).
Proof.
  intros A B C D. unfold write_solutions. set (o := [_; _; _; _; _]).
  assert (St : storable false (JObj o)).
  { apply ostore_iff. unfold o. repeat (apply Forall_cons; [split; [vm_compute; reflexivity|]|]); try apply Forall_nil; cbn [snd fst]; try assumption.
    - apply plain_chars. vm_compute. reflexivity.
    - split; [exact B|discriminate].
    - split; [exact C|discriminate].
    - apply (astore_iff _ false). apply Forall_forall. intros v J. apply in_map_iff in J as (q & <- & J). rewrite Forall_forall in D. exact (record_storable q (D q J)). }
  destruct (object_round_trip 0 o St) as (file & m & W & R & T). exists file. apply obj_rel_iff in R. unfold o, obj_rel in R.
  repeat match goal with H : Forall2 _ (_ :: _) _ |- _ => let e := fresh "e" in let K := fresh "K" in let V := fresh "V" in inversion H as [|? [? e] ? ? [K V] ?]; subst; clear H; cbn [fst snd] in K, V; subst end.
  match goal with H : Forall2 _ [] _ |- _ => inversion H; subst end.
  match goal with V : read_back false (JArr _) ?e |- _ => destruct e as [| | | | | | |ws]; try (destruct V as (? & X & _); discriminate X); apply arr_rel_iff in V; rename V into Vs end.
  repeat match goal with V : read_back false _ ?e |- _ => cbn [read_back] in V; subst e end.
  exists ws. split; [exact W|]. split; [|exact T]. clear - Vs. remember (map solution_object l) as js eqn:E. revert l E. induction Vs as [|j w js ws H Vs IH]; intros l E; destruct l as [|q l]; try discriminate; constructor; injection E as E1 E2.
  - subst j. exact (record_read q w H).
  - exact (IH l E2).
Qed.
