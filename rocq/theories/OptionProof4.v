(** Proofs for C66: the default values. *)
From Coq Require Import List ZArith QArith Bool String.
From Verif Require Import PresolveModel JsonModel JsonSpec OptionModel OptionSpec OptionSpec2.
Import ListNotations.
Local Open Scope Z_scope.

Definition same_jsonb (a b : json) : bool :=
  match a, b with
  | JReal q, JReal r => Qeq_bool q r
  | JBool x, JBool y => Bool.eqb x y
  | JInt KInt x, JInt KInt y => x =? y
  | JStr x, JStr y => String.eqb x y
  | _, _ => false
  end.
Lemma same_jsonb_ok a b : same_jsonb a b = true -> same_json a b.
Proof.
  destruct a as [|[] x|q|t|x|x|l|l], b as [|[] y|r|u|y|y|m|m]; cbn; try discriminate; intros H.
  - f_equal. now apply Z.eqb_eq.
  - now apply Qeq_bool_eq.
  - f_equal. now apply eqb_prop.
  - f_equal. now apply String.eqb_eq.
Qed.
Definition listed_b (obj : list (string * json)) : bool :=
  forallb (fun sec => forallb (fun p => match entry obj (fst sec) (fst p) with Some j => same_jsonb (snd p) j | None => false end) (snd sec)) default_values.
Definition covers_b : bool :=
  forallb (fun sec => forallb (fun f => existsb (fun t => String.eqb (fst t) (fst sec) && existsb (fun p => String.eqb (fst p) (f_name f)) (snd t)) default_values) (snd sec)) schema.

Lemma default_written : exists obj, to_json initialize = Ok obj /\ setup_object obj = Ok initialize /\
  (forall s l n j, In (s, l) default_values -> In (n, j) l -> exists j', entry obj s n = Some j' /\ same_json j j') /\
  (forall s n k d, declared s n k d -> exists l j, In (s, l) default_values /\ In (n, j) l).
Proof.
  destruct (to_json initialize) as [obj| |] eqn:E; [|vm_compute in E; discriminate E|vm_compute in E; discriminate E]. exists obj. split; [reflexivity|].
  assert (L : match to_json initialize with Ok o => listed_b o | _ => false end = true) by (vm_compute; reflexivity). rewrite E in L.
  assert (I : match to_json initialize with Ok o => setup_object o | _ => Throw end = Ok initialize) by (vm_compute; reflexivity). rewrite E in I.
  split; [exact I|]. split.
  - intros s l n j Hs Hj. unfold listed_b in L. rewrite forallb_forall in L. specialize (L _ Hs). cbn [fst snd] in L. rewrite forallb_forall in L. specialize (L _ Hj). cbn [fst snd] in L.
    destruct (entry obj s n) as [j'|]; [|discriminate]. exists j'. split; [reflexivity|]. now apply same_jsonb_ok.
  - intros s n k d (fs & f & Hs & Hf & En & _). assert (C : covers_b = true) by (vm_compute; reflexivity). unfold covers_b in C.
    rewrite forallb_forall in C. specialize (C _ Hs). cbn [fst snd] in C. rewrite forallb_forall in C. specialize (C _ Hf). apply existsb_exists in C. destruct C as ([s' l] & Ht & C).
    cbn [fst snd] in C. apply andb_true_iff in C. destruct C as [C1 C2]. apply String.eqb_eq in C1. subst s'. apply existsb_exists in C2. destruct C2 as ([n' j] & Hj & C2).
    cbn [fst] in C2. apply String.eqb_eq in C2. subst n'. rewrite En in Hj. exists l, j. split; assumption.
Qed.
