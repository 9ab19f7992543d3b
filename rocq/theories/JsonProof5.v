(** Reading a written file. *)
From Coq Require Import List ZArith QArith Qabs Bool String Ascii Lia Lqa.
From Verif Require Import TextModel TextProof TextProof2 PresolveModel JsonModel JsonSpec JsonProof JsonProof2 JsonProof3 JsonProof4.
Import ListNotations.
Local Open Scope Z_scope.

Lemma scalar_quoted a s : scalar a (quoted s) = Ok (JStr s).
Proof. unfold scalar, quoted. change (Ascii.eqb QUOTE QUOTE) with true. cbv iota. fold (quoted s). now rewrite inner_quoted. Qed.
Lemma scalar_int a z : -2147483648 <= z <= 2147483647 -> scalar a (print_int z) = Ok (JInt KInt z).
Proof. intros R. rewrite scalar_number by apply int_start. rewrite int_is_integer, stoi_int by exact R. reflexivity. Qed.
Lemma scalar_sci a q : (q == 0 \/ decimal (-300) <= Qabs q <= decimal 300)%Q -> exists r, scalar a (print_sci q) = Ok (JReal r) /\ rounded q r.
Proof. intros R. rewrite scalar_number by apply sci_start. rewrite sci_not_integer. now apply stod_sci. Qed.
Lemma scalar_special a t : In t ["inf"; "-inf"; "nan"; "-nan"]%string -> scalar a t = Ok (JSpecial t).
Proof. intros H. cbn in H. repeat (destruct H as [<-|H]; [reflexivity|]). destruct H. Qed.
Lemma at_pre {A} (pre : list A) x post : nth_error (pre ++ x :: post) (List.length pre) = Some x.
Proof. induction pre as [|y pre IH]; [reflexivity|exact IH]. Qed.

Definition value_step (in_array : bool) (v w : json) : Prop :=
  forall pre post f e, let ts := pre ++ toks v ++ post in
  (List.length (toks v) <= f)%nat -> (List.length pre + List.length (toks v) <= e)%nat ->
  if in_array then forall acc, array_loop (S f) ts (List.length pre) e acc = array_loop f ts (List.length pre + List.length (toks v)) e (acc ++ [w])
  else forall k acc, object_loop (S f) ts (List.length pre) e (Some k) acc = object_loop f ts (List.length pre + List.length (toks v)) e None (acc ++ [(k, w)]).
Lemma scalar_step a t v w : toks v = [t] -> t <> "{"%string -> t <> "["%string -> scalar a t = Ok w -> value_step a v w.
Proof.
  intros T H1 H2 Sc pre post f e ts Hf He. subst ts. rewrite T in *. cbn [app List.length] in *. rewrite Nat.add_1_r. destruct a; intros; cbn [array_loop object_loop];
    rewrite (proj2 (Nat.ltb_lt _ _)) by lia; rewrite at_pre, (proj2 (String.eqb_neq _ _) H1), (proj2 (String.eqb_neq _ _) H2), Sc; reflexivity.
Qed.
Definition B (a : bool) (v : json) : Prop := storable a v -> exists w, read_back a v w /\ value_step a v w.
Definition obj_rel (l m : list (string * json)) : Prop := Forall2 (fun e e' => fst e' = fst e /\ read_back false (snd e) (snd e')) l m.
Definition arr_rel (l m : list json) : Prop := Forall2 (read_back true) l m.
Lemma obj_rel_iff a l m : read_back a (JObj l) (JObj m) <-> obj_rel l m.
Proof.
  cbn. split.
  - intros (m' & E & H). injection E as <-. revert m H. induction l as [|[k v] l IH]; intros [|[k' w] m] H; try destruct H; [constructor|]. destruct H0. constructor; [cbn; tauto|now apply IH].
  - intros H. exists m. split; [reflexivity|]. induction H as [|[k v] [k' w] l m [H1 H2] H IH]; [exact Logic.I|]. cbn in *. tauto.
Qed.
Lemma arr_rel_iff a l m : read_back a (JArr l) (JArr m) <-> arr_rel l m.
Proof.
  cbn. split.
  - intros (m' & E & H). injection E as <-. revert m H. induction l as [|v l IH]; intros [|w m] H; try destruct H; [constructor|]. constructor; [assumption|now apply IH].
  - intros H. exists m. split; [reflexivity|]. induction H as [|v w l m H1 H IH]; [exact Logic.I|]. tauto.
Qed.
Lemma obj_elements l : Forall (fun e => B false (snd e)) l -> ostore l -> exists m, obj_rel l m /\
  forall pre post f acc, (List.length (otoks l) < f)%nat ->
  object_loop f (pre ++ otoks l ++ post) (List.length pre) (List.length pre + List.length (otoks l)) None acc = Some (Ok (acc ++ m)).
Proof.
  induction l as [|[k v] l IH]; intros F St.
  { exists []. split; [constructor|]. intros pre post [|f] acc Hf; [cbn in Hf; lia|]. cbn [object_loop otoks flat_map List.length]. rewrite Nat.add_0_r, Nat.ltb_irrefl, app_nil_r. reflexivity. }
  inversion F as [|? ? F1 F2]; subst. inversion St as [|? ? [S1 S2] S3]; subst. cbn [fst snd] in *. destruct (IH F2 S3) as (m & M1 & M2). destruct (F1 S2) as (w & W1 & W2).
  exists ((k, w) :: m). split; [constructor; [split; [reflexivity|exact W1]|exact M1]|]. intros pre post f acc Hf.
  assert (Lv : (1 <= List.length (toks v))%nat) by (destruct v; cbn; lia).
  cbn [otoks flat_map fst snd app List.length] in *. fold (otoks l) in *. rewrite app_length in *. destruct f as [|[|f]]; [lia|lia|].
  cbn [object_loop]. rewrite (proj2 (Nat.ltb_lt _ _)) by lia. rewrite at_pre, inner_quoted.
  replace (S (List.length pre)) with (List.length (pre ++ [quoted k])) by (rewrite app_length; cbn; lia).
  replace (pre ++ quoted k :: (toks v ++ otoks l) ++ post) with ((pre ++ [quoted k]) ++ toks v ++ (otoks l ++ post)) by (rewrite <- !app_assoc; reflexivity).
  pose proof (W2 (pre ++ [quoted k]) (otoks l ++ post) f (List.length pre + S (List.length (toks v) + List.length (otoks l)))%nat ltac:(lia) ltac:(rewrite app_length; cbn; lia) k acc) as E.
  cbv zeta in E. change (object_loop (S f)) with (object_loop (S f)) in E. etransitivity; [exact E|]. clear E.
  rewrite !app_assoc, <- (app_assoc _ (otoks l)). rewrite <- (app_length (pre ++ [quoted k])).
  replace (List.length pre + S (List.length (toks v) + List.length (otoks l)))%nat with (List.length ((pre ++ [quoted k]) ++ toks v) + List.length (otoks l))%nat by (rewrite !app_length; cbn; lia).
  rewrite M2 by lia. now rewrite <- app_assoc.
Qed.
Lemma arr_elements l : Forall (B true) l -> astore l -> exists m, arr_rel l m /\
  forall pre post f acc, (List.length (atoks l) < f)%nat ->
  array_loop f (pre ++ atoks l ++ post) (List.length pre) (List.length pre + List.length (atoks l)) acc = Some (Ok (acc ++ m)).
Proof.
  induction l as [|v l IH]; intros F St.
  { exists []. split; [constructor|]. intros pre post [|f] acc Hf; [cbn in Hf; lia|]. cbn [array_loop atoks flat_map List.length]. rewrite Nat.add_0_r, Nat.ltb_irrefl, app_nil_r. reflexivity. }
  inversion F as [|? ? F1 F2]; subst. inversion St as [|? ? S2 S3]; subst. destruct (IH F2 S3) as (m & M1 & M2). destruct (F1 S2) as (w & W1 & W2).
  exists (w :: m). split; [now constructor|]. intros pre post f acc Hf.
  assert (Lv : (1 <= List.length (toks v))%nat) by (destruct v; cbn; lia).
  cbn [atoks flat_map] in *. fold (atoks l) in *. rewrite app_length in *. destruct f as [|f]; [lia|].
  pose proof (W2 pre (atoks l ++ post) f (List.length pre + (List.length (toks v) + List.length (atoks l)))%nat ltac:(lia) ltac:(lia) acc) as E.
  rewrite <- app_assoc. etransitivity; [exact E|]. clear E.
  rewrite !app_assoc, <- (app_assoc _ (atoks l)). rewrite <- (app_length pre).
  replace (List.length pre + (List.length (toks v) + List.length (atoks l)))%nat with (List.length (pre ++ toks v) + List.length (atoks l))%nat by (rewrite !app_length; cbn; lia).
  rewrite M2 by lia. now rewrite <- app_assoc.
Qed.
Lemma toks_obj l : toks (JObj l) = LT true :: otoks l ++ [RT true]. Proof. reflexivity. Qed.
Lemma toks_arr l : toks (JArr l) = LT false :: atoks l ++ [RT false]. Proof. reflexivity. Qed.
Lemma N_otoks l : ostore l -> N (otoks l).
Proof.
  intros H. induction H as [|[k v] l [H1 H2] H IH]; [intros b rest i c _; cbn; f_equal; lia|]. cbn [otoks flat_map fst snd app] in *. fold (otoks l) in *.
  apply (N_app [_]); [apply N_quoted|]. apply N_app; [exact (N_value v false H2)|exact IH].
Qed.
Lemma N_atoks l : astore l -> N (atoks l).
Proof.
  intros H. induction H as [|v l H2 H IH]; [intros b rest i c _; cbn; f_equal; lia|]. cbn [atoks flat_map] in *. fold (atoks l) in *. apply N_app; [exact (N_value v true H2)|exact IH].
Qed.
Lemma value_ok v : forall a, B a v.
Proof.
  induction v as [|k z|q|t|b|s|l IH|l IH] using json_ind'; intros a St.
  - exists JNull. split; [reflexivity|]. now apply (scalar_step a "null").
  - destruct St as [R _]. exists (JInt KInt z). split; [reflexivity|]. destruct (safe_not _ true (int_safe z)). destruct (safe_not _ false (int_safe z)). apply (scalar_step a (print_int z)); auto. now apply scalar_int.
  - destruct (scalar_sci a q St) as (r & R1 & R2). exists (JReal r). split; [now exists r|]. destruct (safe_not _ true (sci_safe q)). destruct (safe_not _ false (sci_safe q)). apply (scalar_step a (print_sci q)); auto.
  - exists (JSpecial t). split; [reflexivity|]. destruct (safe_not _ true (special_safe t St)). destruct (safe_not _ false (special_safe t St)). apply (scalar_step a t); auto. now apply scalar_special.
  - exists (if a then JStr (bool_text b) else JBool b). split; [destruct a, b; reflexivity|]. apply (scalar_step a (bool_text b)); [reflexivity| | |]; destruct b; try discriminate; destruct a; reflexivity.
  - exists (JStr s). split; [reflexivity|]. apply (scalar_step a (quoted s)); try discriminate; [reflexivity|]. apply scalar_quoted.
  - apply ostore_iff in St. destruct (obj_elements l) as (m & M1 & M2); [|exact St|].
    { eapply Forall_impl; [|exact IH]. intros e He. apply He. }
    exists (JObj m). split; [now apply obj_rel_iff|]. intros pre post f e ts Hf He. subst ts. rewrite toks_obj in *. pose proof (find_frame true pre (otoks l) post (N_otoks l St)) as Fe.
    cbn [List.length] in *. rewrite app_length in *. cbn [List.length] in *.
    assert (Sub : object_loop f (pre ++ (LT true :: otoks l ++ [RT true]) ++ post) (S (List.length pre)) (end_of (pre ++ (LT true :: otoks l ++ [RT true]) ++ post) (List.length pre + S (List.length (otoks l)))) None [] = Some (Ok m)).
    { unfold end_of. rewrite (proj2 (Nat.ltb_lt _ _)) by lia.
      replace (pre ++ (LT true :: otoks l ++ [RT true]) ++ post) with ((pre ++ [LT true]) ++ otoks l ++ ([RT true] ++ post)) by (cbn; rewrite <- !app_assoc; reflexivity).
      replace (S (List.length pre)) with (List.length (pre ++ [LT true])) by (rewrite app_length; cbn; lia).
      replace (List.length pre + S (List.length (otoks l)))%nat with (List.length (pre ++ [LT true]) + List.length (otoks l))%nat by (rewrite app_length; cbn; lia).
      rewrite M2 by lia. reflexivity. }
    set (ts := pre ++ (LT true :: otoks l ++ [RT true]) ++ post) in *.
    assert (At : nth_error ts (List.length pre) = Some "{"%string) by (unfold ts; cbn [app]; apply at_pre).
    replace (List.length pre + S (List.length (otoks l) + 1))%nat with (S (List.length pre + S (List.length (otoks l)))) by lia.
    change (LT true) with "{"%string in Fe. change (RT true) with "}"%string in Fe.
    destruct a; intros; cbn [array_loop object_loop]; rewrite (proj2 (Nat.ltb_lt _ _)) by lia; rewrite At; change (String.eqb "{" "{") with true; cbv iota zeta; rewrite Fe, Sub; reflexivity.
  - apply astore_iff in St. destruct (arr_elements l) as (m & M1 & M2); [|exact St|].
    { eapply Forall_impl; [|exact IH]. intros e He. apply He. }
    exists (JArr m). split; [now apply arr_rel_iff|]. intros pre post f e ts Hf He. subst ts. rewrite toks_arr in *. pose proof (find_frame false pre (atoks l) post (N_atoks l St)) as Fe.
    cbn [List.length] in *. rewrite app_length in *. cbn [List.length] in *.
    assert (Sub : array_loop f (pre ++ (LT false :: atoks l ++ [RT false]) ++ post) (S (List.length pre)) (end_of (pre ++ (LT false :: atoks l ++ [RT false]) ++ post) (List.length pre + S (List.length (atoks l)))) [] = Some (Ok m)).
    { unfold end_of. rewrite (proj2 (Nat.ltb_lt _ _)) by lia.
      replace (pre ++ (LT false :: atoks l ++ [RT false]) ++ post) with ((pre ++ [LT false]) ++ atoks l ++ ([RT false] ++ post)) by (cbn; rewrite <- !app_assoc; reflexivity).
      replace (S (List.length pre)) with (List.length (pre ++ [LT false])) by (rewrite app_length; cbn; lia).
      replace (List.length pre + S (List.length (atoks l)))%nat with (List.length (pre ++ [LT false]) + List.length (atoks l))%nat by (rewrite app_length; cbn; lia).
      rewrite M2 by lia. reflexivity. }
    set (ts := pre ++ (LT false :: atoks l ++ [RT false]) ++ post) in *.
    assert (At : nth_error ts (List.length pre) = Some "["%string) by (unfold ts; cbn [app]; apply at_pre).
    replace (List.length pre + S (List.length (atoks l) + 1))%nat with (S (List.length pre + S (List.length (atoks l)))) by lia.
    change (LT false) with "["%string in Fe. change (RT false) with "]"%string in Fe.
    destruct a; intros; cbn [array_loop object_loop]; rewrite (proj2 (Nat.ltb_lt _ _)) by lia; rewrite At; change (String.eqb "[" "{") with false; change (String.eqb "[" "[") with true; cbv iota zeta; rewrite Fe, Sub; reflexivity.
Qed.

(** ** The round trip *)
Lemma last_snoc l (x : string) : List.last (l ++ [x]) EmptyString = x.
Proof. induction l as [|y l IH]; [reflexivity|]. cbn. destruct (l ++ [x]) eqn:E; [destruct l; discriminate|exact IH]. Qed.
Lemma object_round_trip n l : storable false (JObj l) -> exists file m, write_json n (JObj l) = Ok file /\ read_back false (JObj l) (JObj m) /\
  exists steps, forall fuel, (steps <= fuel)%nat -> read_json_object fuel file = Some (Ok m).
Proof.
  intros St. pose proof (ostore_iff l false) as O. destruct (obj_elements l) as (m & M1 & M2); [|now apply O|].
  { rewrite Forall_forall. intros e _. apply value_ok. }
  exists (text n (JObj l)), m. split; [unfold write_json; now rewrite (no_bad_cast _ _ St)|]. split; [now apply obj_rel_iff|].
  exists (S (List.length (otoks l))). intros fuel Hf. unfold read_json_object. rewrite (written_closed false n _ St), (tokenize_text false n _ St), toks_obj. cbn [negb].
  unfold framed. rewrite app_comm_cons, last_snoc. cbn [app]. change (String.eqb (LT true) "{") with true. change (String.eqb (RT true) "}") with true. cbn [andb].
  unfold end_of. change (Nat.ltb 0 0) with false. cbv iota. replace (List.length (LT true :: otoks l ++ [RT true]) - 1)%nat with (List.length [LT true] + List.length (otoks l))%nat by (cbn [List.length]; rewrite app_length; cbn; lia).
  exact (M2 [LT true] [RT true] fuel [] Hf).
Qed.
Lemma array_round_trip n l : storable false (JArr l) -> exists file m, write_json n (JArr l) = Ok file /\ read_back false (JArr l) (JArr m) /\
  exists steps, forall fuel, (steps <= fuel)%nat -> read_json_array fuel file = Some (Ok m).
Proof.
  intros St. pose proof (astore_iff l false) as O. destruct (arr_elements l) as (m & M1 & M2); [|now apply O|].
  { rewrite Forall_forall. intros e _. apply value_ok. }
  exists (text n (JArr l)), m. split; [unfold write_json; now rewrite (no_bad_cast _ _ St)|]. split; [now apply arr_rel_iff|].
  exists (S (List.length (atoks l))). intros fuel Hf. unfold read_json_array. rewrite (written_closed false n _ St), (tokenize_text false n _ St), toks_arr. cbn [negb].
  unfold framed. rewrite app_comm_cons, last_snoc. cbn [app]. change (String.eqb (LT false) "[") with true. change (String.eqb (RT false) "]") with true. cbn [andb].
  unfold end_of. change (Nat.ltb 0 0) with false. cbv iota. replace (List.length (LT false :: atoks l ++ [RT false]) - 1)%nat with (List.length [LT false] + List.length (atoks l))%nat by (cbn [List.length]; rewrite app_length; cbn; lia).
  exact (M2 [LT false] [RT false] fuel [] Hf).
Qed.
