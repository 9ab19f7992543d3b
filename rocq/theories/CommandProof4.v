From Coq Require Import List ZArith QArith Bool String Ascii Lia.
From Verif Require Import ExprModel ConstraintModel VariableModel PresolveModel TextModel MpsModel NamesModel NamesSpec JsonModel OptionModel CommandModel CommandSpec NamesProof CommandProof CommandProof2 CommandProof3.
Import ListNotations.
Local Open Scope string_scope.
Local Open Scope list_scope.

Lemma setup_inv fuel fs args s i : parse args st_init = Ok s -> setup fuel fs args = Some (Ok (Ready i)) ->
  (st_mutable s = "" \/ st_fixed s = "") /\ exists im o, load_mps fs s = Ok im /\ load_options fuel fs s = Some (Ok o) /\ apply_files fs s im o = Ok i.
Proof.
  intros P. unfold setup. destruct args as [|a rest]; [discriminate|]. rewrite P.
  destruct (negb (is_empty (st_mutable s)) && negb (is_empty (st_fixed s))) eqn:E; [discriminate|].
  destruct (load_mps fs s) as [im| |]; try discriminate. destruct (load_options fuel fs s) as [[o| |]|]; try discriminate.
  intros [= H]. apply bind_ok in H. destruct H as (j & A & [= <-]). split.
  - destruct (is_empty (st_mutable s)) eqn:M; [left; apply empty_true; exact M|]. destruct (is_empty (st_fixed s)) eqn:F; [right; apply empty_true; exact F|discriminate].
  - exists im, o. auto.
Qed.
Lemma load_inv fs s im : load_mps fs s = Ok im <-> exists lines m, opens fs (st_mps s) lines /\ read_mps lines = Ok m /\ import_mps (st_accept s) m = Ok im.
Proof.
  unfold load_mps. split.
  - intros H. apply bind_ok in H. destruct H as (ls & O & H). apply bind_ok in H. destruct H as (m & R & H). exists ls, m. split; [apply open_ok; exact O|auto].
  - intros (ls & m & O & R & H). apply open_ok in O. rewrite O. cbn [bind]. rewrite R. cbn [bind]. exact H.
Qed.
Lemma options_inv fuel fs s o : load_options fuel fs s = Some (Ok o) <->
  (st_option s = "" /\ o = initialize) \/ (st_option s <> "" /\ exists text, fs (st_option s) = Some text /\ setup_file fuel text = Some (Ok o)).
Proof.
  unfold load_options. destruct (is_empty (st_option s)) eqn:E.
  - apply empty_true in E. split; [intros [= <-]; auto|intros [[_ ->]|[N _]]; [reflexivity|contradiction]].
  - apply empty_false in E. destruct (fs (st_option s)) as [t|]; split.
    + intros H. right. eauto.
    + intros [[N _]|[_ (u & [= <-] & H)]]; [contradiction|exact H].
    + discriminate.
    + intros [[N _]|[_ (u & H & _)]]; [contradiction|discriminate].
Qed.
Lemma element_one p i j : element [p] i j = match i with O => nth_error (px_elems p) j | _ => None end.
Proof. destruct i as [|[|i]]; reflexivity. Qed.
Lemma names_of_elements m m' : (forall i j, match element m i j with None => element m' i j = None | Some (n, v) => exists w, element m' i j = Some (n, w) end) ->
  List.length m = List.length m' -> map fst (elements m) = map fst (elements m').
Proof.
  revert m'. induction m as [|p tl IH]; intros [|p' tl'] H L; try discriminate; [reflexivity|].
  cbn [elements flat_map]. change (flat_map px_elems tl) with (elements tl). change (flat_map px_elems tl') with (elements tl'). rewrite !map_app. f_equal.
  - pose proof (fun j => H 0%nat j) as H0. unfold element in H0. cbn [nth_error] in H0.
    generalize dependent (px_elems p'). generalize (px_elems p). clear. intros l. induction l as [|e l IH]; intros l' H.
    + specialize (H 0%nat). cbn in H. destruct l'; [reflexivity|discriminate].
    + pose proof (H 0%nat) as H0. cbn in H0. destruct e as [n v]. destruct H0 as (w & E). destruct l' as [|e' l']; [discriminate|]. injection E as ->.
      cbn [map fst]. f_equal. apply IH. intros j. exact (H (S j)).
  - apply IH; [|cbn in L; lia]. intros i j. exact (H (S i) j).
Qed.
Lemma each_length f m : List.length (each f m) = List.length m. Proof. unfold each. apply map_length. Qed.
Lemma import_solution_length tbl m : forall m', import_solution tbl m = Ok m' -> List.length m' = List.length m.
Proof.
  induction m as [|p tl IH]; intros m'; cbn [import_solution]; [intros [= <-]; reflexivity|].
  intros H. apply bind_ok in H. destruct H as (l & _ & H). apply bind_ok in H. destruct H as (r & E & [= <-]). cbn. f_equal. apply IH. exact E.
Qed.
Lemma nth_user_selections names cs k n c : nth_error cs k = Some (n, c) -> nth_error (user_selections names cs) k = Some (existsb (String.eqb n) names).
Proof. intros H. unfold user_selections. rewrite (map_nth_error _ _ _ H). reflexivity. Qed.

Definition two_flip : string * string := ("neighborhood", "is_enabled_two_flip_move").

Lemma result fuel fs items s i : Forall well_named items -> Forall well_numbered items -> describes items s ->
  setup fuel fs (flat_map words items) = Some (Ok (Ready i)) ->
  (st_mutable s = "" \/ st_fixed s = "") /\
  exists lines m im o,
    opens fs (st_mps s) lines /\ read_mps lines = Ok m /\ import_mps (st_accept s) m = Ok im /\
    ((st_option s = "" /\ o = initialize) \/ (st_option s <> "" /\ exists text, fs (st_option s) = Some text /\ setup_file fuel text = Some (Ok o))) /\
    in_cons i = im_cons im /\ in_objective i = im_objective im /\
    (forall j, match nth_error (im_vars im) j with
               | None => nth_error (elements (in_vars i)) j = None
               | Some (n, v) => exists w, nth_error (elements (in_vars i)) j = Some (n, w) /\ prepared fs s n v w
               end) /\
    (forall k n c, nth_error (im_cons im) k = Some (n, c) -> exists b, nth_error (in_selections i) k = Some b /\
       (b = true <-> st_selection s <> "" /\ exists ls, opens fs (st_selection s) ls /\ listed ls n)) /\
    (forall section name, (section, name) <> ("neighborhood", "is_enabled_two_flip_move") -> param (in_options i) section name = param o section name) /\
    (st_pairs s = "" -> in_options i = o /\ in_pairs i = []) /\
    (st_pairs s <> "" -> param (in_options i) "neighborhood" "is_enabled_two_flip_move" = Some (VBool true) /\
       exists ls, opens fs (st_pairs s) ls /\ (NoDup (map fst (im_vars im)) -> described (map fst (im_vars im)) ls (in_pairs i))).
Proof.
  intros W N D H. destruct (setup_inv fuel fs _ s i (parse_described items s W N D) H) as (X & im & o & L & O & A).
  split; [exact X|]. apply load_inv in L. destruct L as (lines & m & L1 & L2 & L3). exists lines, m, im, o.
  split; [exact L1|]. split; [exact L2|]. split; [exact L3|]. pose proof (loaded_shapes _ _ _ _ O) as Sh. split; [apply options_inv; exact O|].
  unfold apply_files in A. set (m0 := [mkProxy "variables" [Z.of_nat (List.length (im_vars im))] (im_vars im)]) in A.
  apply bind_ok in A. destruct A as (m1 & M1 & A). apply bind_ok in A. destruct A as (m2 & M2 & A). apply bind_ok in A. destruct A as (sels & Sel & A).
  apply bind_ok in A. destruct A as ([o' pairs] & Prs & A). apply bind_ok in A. destruct A as (m3 & M3 & A). injection A as <-.
  cbn [in_cons in_objective in_vars in_selections in_options in_pairs fst snd].
  pose proof (prepared_all fs s m0 m1 m2 m3 M1 M2 M3 X) as P.
  assert (Len1 : List.length m1 = 1%nat).
  { destruct (is_empty (st_mutable s)); [injection M1 as <-; reflexivity|]. apply bind_ok in M1. destruct M1 as (ls & _ & [= <-]). reflexivity. }
  assert (Len2 : List.length m2 = 1%nat).
  { destruct (is_empty (st_fixed s)); [injection M2 as <-; exact Len1|]. apply bind_ok in M2. destruct M2 as (ls & _ & M2). apply bind_ok in M2. destruct M2 as (tbl & _ & [= <-]). unfold fix_variables. rewrite each_length. exact Len1. }
  assert (Len3 : List.length m3 = 1%nat).
  { destruct (is_empty (st_initial s)); [injection M3 as <-; exact Len2|]. apply bind_ok in M3. destruct M3 as (ls & _ & M3). apply bind_ok in M3. destruct M3 as (tbl & _ & M3). rewrite (import_solution_length _ _ _ M3). exact Len2. }
  split; [reflexivity|]. split; [reflexivity|]. split; [|split; [|split; [|split]]].
  - intros j. specialize (P 0%nat j). unfold m0 in P. rewrite element_one in P. cbn [px_elems] in P.
    destruct m3 as [|p [|]]; try discriminate. cbn [elements flat_map]. rewrite app_nil_r. rewrite element_one in P. exact P.
  - intros k n c E. destruct (is_empty (st_selection s)) eqn:Em.
    + injection Sel as <-. exists false. split; [rewrite (map_nth_error _ _ _ E); reflexivity|]. apply empty_true in Em. split; [discriminate|]. intros [F _]. contradiction.
    + apply bind_ok in Sel. destruct Sel as (ls & Op & [= <-]). apply open_ok in Op. apply empty_false in Em.
      exists (existsb (String.eqb n) (read_names ls)). split; [exact (nth_user_selections _ _ _ _ _ E)|].
      rewrite names_listed. split.
      * intros Li. split; [exact Em|]. exists ls. split; [exact Op|exact Li].
      * intros (_ & ls' & Op' & Li). rewrite (opens_unique _ _ _ _ Op Op'). exact Li.
  - intros section name Ne. destruct (is_empty (st_pairs s)); [injection Prs as <- <-; reflexivity|].
    apply bind_ok in Prs. destruct Prs as (ls & _ & [= <- <-]). unfold param, set_param. apply set_param_in_other. exact Ne.
  - intros E. rewrite E in Prs. injection Prs as <- <-. auto.
  - intros E. apply empty_false in E. rewrite E in Prs. apply bind_ok in Prs. destruct Prs as (ls & Op & [= <- <-]).
    split; [unfold param, set_param; apply set_param_in_same; apply two_flip_known; exact Sh|].
    exists ls. split; [apply open_ok; exact Op|].
    assert (Nm : map fst (elements m2) = map fst (im_vars im)).
    { transitivity (map fst (elements m0)); [|cbn [elements flat_map m0 px_elems]; rewrite app_nil_r; reflexivity].
      symmetry. apply names_of_elements; [|rewrite Len2; reflexivity]. intros a b.
      pose proof (stage_mutable fs s m0 m1 M1 a b) as S1. pose proof (stage_fixed fs s m1 m2 M2 a b) as S2.
      destruct (element m0 a b) as [[n v]|]; [|rewrite S1 in S2; exact S2]. destruct S1 as (w & E1 & _). rewrite E1 in S2. destruct S2 as (w' & E2 & _). eauto. }
    intros Nd. rewrite <- Nm. apply pairs_file. rewrite Nm. exact Nd.
Qed.

(** It does start. *)
Lemma fixed_agree fs s m m1 m2 init : 
  (if is_empty (st_mutable s) then Ok m else bind (open_lines fs (st_mutable s)) (fun ls => Ok (unfix_variables (read_names ls) m))) = Ok m1 ->
  (if is_empty (st_fixed s) then Ok m1 else bind (open_lines fs (st_fixed s)) (fun ls => bind (read_names_and_values ls) (fun tbl => Ok (fix_variables tbl m1)))) = Ok m2 ->
  st_mutable s = "" \/ st_fixed s = "" -> st_initial s <> "" -> opens fs (st_initial s) init ->
  (forall i j n v, element m i j = Some (n, v) -> agreeing fs s n v) ->
  forall i j n v z, element m2 i j = Some (n, v) -> va_fixed v = true -> file_value init n z -> va_value v = z.
Proof.
  intros M F X Ni Op Ag i j n b z E Fx Fv.
  pose proof (stage_mutable fs s m m1 M i j) as A. pose proof (stage_fixed fs s m1 m2 F i j) as B.
  destruct (element m i j) as [[n0 v]|] eqn:El; [|rewrite A in B; congruence].
  destruct A as (a & A0 & _ & A2 & A3). rewrite A0 in B. destruct B as (b' & B0 & _ & B2 & B3). rewrite E in B0. injection B0 as <- <-.
  destruct (Ag i j n v El Ni init Op) as (G1 & G2 & G3 & G4).
  apply (file_value_unique init n); [|exact Fv].
  destruct (string_dec (st_fixed s) "") as [Ef|Ef].
  - specialize (B2 Ef). subst b. destruct (string_dec (st_mutable s) "") as [Em|Em].
    + rewrite (A2 Em) in *. apply G4; assumption.
    + destruct (A3 Em) as (ls & O & V & L). rewrite V. apply (G1 ls Em O). intros Li. apply L in Li. congruence.
  - destruct X as [Em|]; [|contradiction]. rewrite (A2 Em) in *. destruct (B3 Ef) as (ls & O & G & V).
    destruct (given_dec ls n) as [(t & Gv)|Gv].
    + destruct (G t Gv) as (_ & q & Q1 & Q2). exact (G2 ls t q _ Ef O Gv Q1 Q2).
    + rewrite (V Gv) in *. exact (G3 ls Ef O Gv Fx).
Qed.
Lemma opens_dec fs name : (exists ls, opens fs name ls) \/ fs name = None.
Proof. destruct (fs name) as [t|] eqn:E; [left; exists (lines_of t), t; auto|right; reflexivity]. Qed.
Lemma apply_ok fs s im o :
  st_mutable s = "" \/ st_fixed s = "" ->
  (forall name, In name [st_mutable s; st_fixed s; st_selection s; st_pairs s; st_initial s] -> name <> "" -> exists ls, opens fs name ls) ->
  (forall ls, st_fixed s <> "" -> opens fs (st_fixed s) ls -> readable ls) -> (forall ls, st_initial s <> "" -> opens fs (st_initial s) ls -> readable ls) ->
  (forall j n v, nth_error (im_vars im) j = Some (n, v) -> agreeing fs s n v) ->
  exists i, apply_files fs s im o = Ok i.
Proof.
  intros X Op Rf Ri Ag. unfold apply_files. set (m0 := [mkProxy "variables" [Z.of_nat (List.length (im_vars im))] (im_vars im)]).
  assert (E1 : exists m1, (if is_empty (st_mutable s) then Ok m0 else bind (open_lines fs (st_mutable s)) (fun ls => Ok (unfix_variables (read_names ls) m0))) = Ok m1).
  { destruct (is_empty (st_mutable s)) eqn:E; [eauto|]. apply empty_false in E. destruct (Op (st_mutable s)) as (ls & O); [cbn; tauto|exact E|]. apply open_ok in O. rewrite O. cbn [bind]. eauto. }
  destruct E1 as (m1 & M1). rewrite M1. cbn [bind].
  assert (E2 : exists m2, (if is_empty (st_fixed s) then Ok m1 else bind (open_lines fs (st_fixed s)) (fun ls => bind (read_names_and_values ls) (fun tbl => Ok (fix_variables tbl m1)))) = Ok m2).
  { destruct (is_empty (st_fixed s)) eqn:E; [eauto|]. apply empty_false in E. destruct (Op (st_fixed s)) as (ls & O); [cbn; tauto|exact E|]. destruct (fix_file ls m1 (Rf ls E O)) as (tbl & R & _).
    apply open_ok in O. rewrite O. cbn [bind]. rewrite R. cbn [bind]. eauto. }
  destruct E2 as (m2 & M2). rewrite M2. cbn [bind].
  assert (E3 : exists sels, (if is_empty (st_selection s) then Ok (map (fun _ => false) (im_cons im)) else bind (open_lines fs (st_selection s)) (fun ls => Ok (user_selections (read_names ls) (im_cons im)))) = Ok sels).
  { destruct (is_empty (st_selection s)) eqn:E; [eauto|]. apply empty_false in E. destruct (Op (st_selection s)) as (ls & O); [cbn; tauto|exact E|]. apply open_ok in O. rewrite O. cbn [bind]. eauto. }
  destruct E3 as (sels & Sel). rewrite Sel. cbn [bind].
  assert (E4 : exists op, (if is_empty (st_pairs s) then Ok (o, []) else bind (open_lines fs (st_pairs s)) (fun ls =>
             Ok (set_param o "neighborhood" "is_enabled_two_flip_move" (VBool true), setup_flippable_pairs m2 (read_name_pairs ls)))) = Ok op).
  { destruct (is_empty (st_pairs s)) eqn:E; [eauto|]. apply empty_false in E. destruct (Op (st_pairs s)) as (ls & O); [cbn; tauto|exact E|]. apply open_ok in O. rewrite O. cbn [bind]. eauto. }
  destruct E4 as (op & Prs). rewrite Prs. cbn [bind].
  destruct (is_empty (st_initial s)) eqn:E; [cbn [bind]; eauto|]. apply empty_false in E. destruct (Op (st_initial s)) as (ls & O); [cbn; tauto|exact E|].
  pose proof O as O'. apply open_ok in O'. rewrite O'. cbn [bind]. destruct (initial_file ls m2 (Ri ls E O)) as (tbl & R & _ & I). rewrite R. cbn [bind].
  destruct I as (m3 & M3 & _).
  { apply (fixed_agree fs s m0 m1 m2 ls M1 M2 X E O). intros i j n v El. unfold m0 in El. rewrite element_one in El. destruct i; [|discriminate]. exact (Ag j n v El). }
  rewrite M3. cbn [bind]. eauto.
Qed.
Lemma ready fuel fs items s lines m im o : items <> [] -> Forall well_named items -> Forall well_numbered items -> describes items s ->
  st_mutable s = "" \/ st_fixed s = "" ->
  opens fs (st_mps s) lines -> read_mps lines = Ok m -> import_mps (st_accept s) m = Ok im ->
  ((st_option s = "" /\ o = initialize) \/ (st_option s <> "" /\ exists text, fs (st_option s) = Some text /\ setup_file fuel text = Some (Ok o))) ->
  (forall name, In name [st_mutable s; st_fixed s; st_selection s; st_pairs s; st_initial s] -> name <> "" -> exists ls, opens fs name ls) ->
  (forall ls, st_fixed s <> "" -> opens fs (st_fixed s) ls -> readable ls) -> (forall ls, st_initial s <> "" -> opens fs (st_initial s) ls -> readable ls) ->
  (forall j n v, nth_error (im_vars im) j = Some (n, v) -> agreeing fs s n v) ->
  exists i, setup fuel fs (flat_map words items) = Some (Ok (Ready i)).
Proof.
  intros Ne W N D X L1 L2 L3 O Op Rf Ri Ag. destruct (apply_ok fs s im o X Op Rf Ri Ag) as (i & A). exists i.
  unfold setup. rewrite (parse_described items s W N D).
  assert (L : load_mps fs s = Ok im) by (apply load_inv; eauto). apply options_inv in O. rewrite L, O, A.
  assert (B : negb (is_empty (st_mutable s)) && negb (is_empty (st_fixed s)) = false) by (destruct X as [E|E]; rewrite E; [reflexivity|apply andb_false_r]).
  rewrite B. destruct (flat_map words items) as [|a r] eqn:F; [|reflexivity].
  destruct items as [|it tl]; [contradiction|]. cbn in F. destruct it; discriminate.
Qed.
Lemma both_given fuel fs items s : Forall well_named items -> Forall well_numbered items -> describes items s ->
  st_mutable s <> "" -> st_fixed s <> "" -> setup fuel fs (flat_map words items) = Some Throw.
Proof.
  intros W N D M F. unfold setup. pose proof (parse_described items s W N D) as P.
  destruct (flat_map words items) as [|a r]; [injection P as <-; cbn in M; congruence|]. rewrite P.
  apply empty_false in M, F. rewrite M, F. reflexivity.
Qed.
(** Conflicting initial values are rejected. *)
Lemma ready_agrees fuel fs items s i : Forall well_named items -> Forall well_numbered items -> describes items s ->
  setup fuel fs (flat_map words items) = Some (Ok (Ready i)) ->
  forall lines m im, opens fs (st_mps s) lines -> read_mps lines = Ok m -> import_mps (st_accept s) m = Ok im ->
  forall j n v, nth_error (im_vars im) j = Some (n, v) -> agreeing fs s n v.
Proof.
  intros W N D H lines m im L1 L2 L3 j n v E. destruct (result fuel fs items s i W N D H) as (X & lines' & m' & im' & o & L1' & L2' & L3' & _ & _ & _ & P & _).
  rewrite (opens_unique _ _ _ _ L1 L1') in L2. rewrite L2 in L2'. injection L2' as <-. rewrite L3 in L3'. injection L3' as <-.
  specialize (P j). rewrite E in P. destruct P as (w & _ & _ & P1 & P2 & P3 & P4). intros Ni init Op. destruct (P4 Ni) as (init' & Op' & Fv). rewrite <- (opens_unique _ _ _ _ Op Op') in Fv.
  split; [|split; [|split]].
  - intros ls Nm O NL. destruct (P1 Nm) as (ls' & O' & Fx & V). rewrite (opens_unique _ _ _ _ O O') in NL.
    destruct (va_fixed w) eqn:Fw; [rewrite <- V; [exact Fv|left; reflexivity]|]. exfalso. apply NL. apply Fx. reflexivity.
  - intros ls t q z Nf O G A Nr. destruct (P2 Nf) as (ls' & O' & _ & V & _). rewrite <- (opens_unique _ _ _ _ O O') in V. destruct (V t G) as (q' & A' & Nr').
    rewrite A in A'. injection A' as <-. apply nearest_floor in Nr, Nr'. rewrite <- Nr, Nr'. exact Fv.
  - intros ls Nf O G Fx. destruct (P2 Nf) as (ls' & O' & _ & _ & V). rewrite <- (opens_unique _ _ _ _ O O') in V. rewrite <- (V G); [exact Fv|left; exact Fx].
  - intros Nm Nf Fx. destruct (P3 Nm Nf) as (_ & V). rewrite <- V; [exact Fv|left; exact Fx].
Qed.

(** ** The name of the instance *)
Lemma has_char_app p a b : has_char p (append a b) = has_char p a || has_char p b.
Proof. induction a as [|c a IH]; cbn [append has_char]; [reflexivity|]. rewrite IH, orb_assoc. reflexivity. Qed.
Lemma cut_before p c a b : p c = true -> has_char p b = false -> cut_before_last p (append a (String c b)) = a.
Proof.
  intros P H. induction a as [|d a IH]; cbn [append cut_before_last].
  - rewrite H, P. reflexivity.
  - rewrite has_char_app. cbn [has_char]. rewrite P, orb_true_r. cbn [orb]. rewrite IH. reflexivity.
Qed.
Lemma cut_after p c a b : p c = true -> has_char p b = false -> cut_after_last p (append a (String c b)) = b.
Proof.
  intros P H. induction a as [|d a IH]; cbn [append cut_after_last].
  - rewrite H, P. reflexivity.
  - rewrite has_char_app. cbn [has_char]. rewrite P, orb_true_r. cbn [orb]. exact IH.
Qed.
Lemma cut_after_none p b : has_char p b = false -> cut_after_last p b = b.
Proof. destruct b as [|c b]; [reflexivity|]. cbn [has_char cut_after_last]. destruct (p c); [discriminate|]. cbn [orb]. intros ->. reflexivity. Qed.
Lemma base_of dir stem ext : has_char is_dot ext = false -> has_char is_separator stem = false ->
  (dir = "" \/ exists d, dir = append d "/" \/ dir = append d "\") -> base_name (append dir (append stem (String "."%char ext))) = stem.
Proof.
  intros E S' D. unfold base_name. rewrite <- TextProof.app_assoc'. rewrite cut_before by (exact E || reflexivity).
  destruct D as [->|(d & [-> | ->])]; [apply cut_after_none; exact S'| |]; rewrite TextProof.app_assoc'; (apply cut_after; [reflexivity|exact S']).
Qed.
(** ** Lines *)
Lemma split_lines_app l rest : has_char (fun c => Ascii.eqb c LF) l = false -> forall cur, split_lines (append l (String LF rest)) cur = append cur l :: split_lines rest EmptyString.
Proof.
  induction l as [|c l IH]; cbn [append has_char split_lines]; intros H cur.
  - rewrite Ascii.eqb_refl. rewrite TextProof.app_nil'. reflexivity.
  - apply orb_false_iff in H. destruct H as [H H']. rewrite H. rewrite (IH H'). rewrite TextProof.app_assoc'. reflexivity.
Qed.
Lemma split_last l : has_char (fun c => Ascii.eqb c LF) l = false -> forall cur, split_lines l cur = if is_empty (append cur l) then [] else [append cur l].
Proof.
  induction l as [|c l IH]; cbn [has_char split_lines]; intros H cur; [rewrite TextProof.app_nil'; reflexivity|].
  apply orb_false_iff in H. destruct H as [H H']. rewrite H. rewrite (IH H'). rewrite TextProof.app_assoc'. reflexivity.
Qed.
Lemma lines_last ls l : (forall l, In l ls -> has_char (fun c => Ascii.eqb c LF) l = false) -> has_char (fun c => Ascii.eqb c LF) l = false -> l <> "" ->
  lines_of (fold_right (fun l r => append l (String LF r)) l ls) = (ls ++ [l])%list.
Proof.
  unfold lines_of. intros H H' N. induction ls as [|a tl IH]; cbn [fold_right app].
  - rewrite split_last by exact H'. destruct l; [congruence|reflexivity].
  - rewrite split_lines_app by (apply H; left; reflexivity). cbn [append]. f_equal. apply IH. intros x I. apply H. right. exact I.
Qed.
Lemma lines_back ls : (forall l, In l ls -> has_char (fun c => Ascii.eqb c LF) l = false) ->
  lines_of (fold_right (fun l r => append l (String LF r)) "" ls) = ls.
Proof.
  unfold lines_of. induction ls as [|l tl IH]; intros H; [reflexivity|]. cbn [fold_right].
  rewrite split_lines_app by (apply H; left; reflexivity). cbn [append]. f_equal. apply IH. intros x I. apply H. right. exact I.
Qed.
