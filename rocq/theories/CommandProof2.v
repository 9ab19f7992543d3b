From Coq Require Import List ZArith QArith Bool String Ascii Lia.
From Verif Require Import VariableModel PresolveModel TextModel MpsModel NamesModel NamesSpec JsonModel OptionModel CommandModel CommandSpec NamesProof2 CommandProof.
Import ListNotations.
Local Open Scope string_scope.
Local Open Scope list_scope.

(** One item changes one setting. *)
Definition put (s : settings) (it : item) : settings :=
  let '(mkSettings m p i u f c x n ac ex lt ej) := s in
  match it with
  | IFile FOption v => mkSettings m v i u f c x n ac ex lt ej
  | IFile FInitial v => mkSettings m p v u f c x n ac ex lt ej
  | IFile FMutable v => mkSettings m p i v f c x n ac ex lt ej
  | IFile FFixed v => mkSettings m p i u v c x n ac ex lt ej
  | IFile FSelection v => mkSettings m p i u f v x n ac ex lt ej
  | IFile FPairs v => mkSettings m p i u f c v n ac ex lt ej
  | ICommon t => mkSettings m p i u f c x (match atoi t with Ok z => z | _ => n end) ac ex lt ej
  | ISwitch WAccept => mkSettings m p i u f c x n true ex lt ej
  | ISwitch WExtract => mkSettings m p i u f c x n ac true lt ej
  | ISwitch WLoadingTime => mkSettings m p i u f c x n ac ex true ej
  | ISwitch WExport => mkSettings m p i u f c x n ac ex lt true
  | IMps v => mkSettings v p i u f c x n ac ex lt ej
  end.
Lemma neq_eqb a b : a <> b -> (a =? b)%string = false.
Proof. intros N. apply String.eqb_neq. exact N. Qed.
Lemma parse_item it rest s : well_named it -> well_numbered it -> parse (words it ++ rest) s = parse rest (put s it).
Proof.
  intros W N. destruct s as [m p i u f c x n ac ex lt ej]. destruct it as [k v|t|w|v].
  - destruct k; reflexivity.
  - destruct N as (z & -> & R). change (words (ICommon (print_int z))) with ["-c"; print_int z]. cbn [app parse put].
    change ("-c" =? "-p")%string with false. change ("-c" =? "-i")%string with false. change ("-c" =? "-m")%string with false.
    change ("-c" =? "-f")%string with false. change ("-c" =? "-s")%string with false. change ("-c" =? "-x")%string with false.
    change ("-c" =? "-c")%string with true. cbv iota. rewrite (atoi_print z R). reflexivity.
  - destruct w; reflexivity.
  - cbn [words app parse put].
    assert (K : forall r, In r reserved -> (v =? r)%string = false) by (intros r I; apply neq_eqb; intros ->; exact (W I)).
    rewrite !K by (cbn; tauto). reflexivity.
Qed.
Lemma parse_items items : forall s, Forall well_named items -> Forall well_numbered items ->
  parse (flat_map words items) s = Ok (fold_left put items s).
Proof.
  induction items as [|it tl IH]; intros s W N; [reflexivity|].
  inversion W; inversion N; subst. cbn [flat_map fold_left]. rewrite parse_item by assumption. apply IH; assumption.
Qed.

(** Choices made by folds. *)
Lemma fold_choice {A} (pick : item -> option A) (get : settings -> A) items :
  (forall s it, get (put s it) = match pick it with Some a => a | None => get s end) ->
  forall s, last_choice pick (get s) items (get (fold_left put items s)).
Proof.
  intros H. induction items as [|it tl IH]; intros s; [right; split; [intros x []|reflexivity]|].
  cbn [fold_left]. destruct (IH (put s it)) as [(b & x & a & E & P & L)|[L E]].
  - left. exists (it :: b), x, a. rewrite E at 1. auto.
  - rewrite E, H. destruct (pick it) as [a|] eqn:P.
    + left. exists [], it, tl. auto.
    + right. split; [|reflexivity]. intros x [<-|I]; auto.
Qed.
Lemma fold_switch (w : switch) (get : settings -> bool) items :
  (forall s it, get (put s it) = true <-> it = ISwitch w \/ get s = true) ->
  forall s, get (fold_left put items s) = true <-> In (ISwitch w) items \/ get s = true.
Proof.
  intros H. induction items as [|it tl IH]; intros s; [cbn; tauto|].
  cbn [fold_left]. rewrite IH, H. cbn [In]. split; [intros [I|[E|E]]|intros [[E|I]|E]]; auto.
Qed.
Lemma fold_common items : forall s, Forall well_numbered items ->
  exists t, last_choice (fun i => match i with ICommon t => Some t | _ => None end) (print_int (st_common s)) items t /\
            t = print_int (st_common (fold_left put items s)).
Proof.
  induction items as [|it tl IH]; intros s N; [exists (print_int (st_common s)); split; [right; split; [intros x []|]|]; reflexivity|].
  inversion N as [|? ? N1 N2]; subst. destruct (IH (put s it) N2) as (t & L & E). exists t. cbn [fold_left]. split; [|exact E].
  destruct L as [(b & x & a & E' & P & L)|[L E']].
  - left. exists (it :: b), x, a. rewrite E' at 1. auto.
  - destruct it as [k v|u|w|v].
    + right. split; [intros x [<-|I]; auto|]. rewrite E'. destruct s, k; reflexivity.
    + left. exists [], (ICommon u), tl. split; [reflexivity|]. split; [|exact L]. rewrite E'. destruct N1 as (z & -> & R).
      destruct s as [m p i u0 f c x n ac ex lt ej]. cbn [put st_common]. rewrite (atoi_print z R). reflexivity.
    + right. split; [intros x [<-|I]; auto|]. rewrite E'. destruct s, w; reflexivity.
    + right. split; [intros x [<-|I]; auto|]. rewrite E'. destruct s; reflexivity.
Qed.
Lemma fold_describes items : Forall well_numbered items -> describes items (fold_left put items st_init).
Proof.
  intros N. unfold describes.
  split; [apply (fold_choice pick_mps st_mps); intros [] [[] v|t|[]|v]; reflexivity|].
  split; [apply (fold_choice (pick_file FOption) st_option); intros [] [[] v|t|[]|v]; reflexivity|].
  split; [apply (fold_choice (pick_file FInitial) st_initial); intros [] [[] v|t|[]|v]; reflexivity|].
  split; [apply (fold_choice (pick_file FMutable) st_mutable); intros [] [[] v|t|[]|v]; reflexivity|].
  split; [apply (fold_choice (pick_file FFixed) st_fixed); intros [] [[] v|t|[]|v]; reflexivity|].
  split; [apply (fold_choice (pick_file FSelection) st_selection); intros [] [[] v|t|[]|v]; reflexivity|].
  split; [apply (fold_choice (pick_file FPairs) st_pairs); intros [] [[] v|t|[]|v]; reflexivity|].
  split; [exact (fold_common items st_init N)|].
  split; [|split; [|split]].
  - rewrite (fold_switch WAccept st_accept); [cbn; intuition discriminate|]. intros [] [[] v|t|[]|v]; cbn; intuition (try discriminate).
  - rewrite (fold_switch WExtract st_extract); [cbn; intuition discriminate|]. intros [] [[] v|t|[]|v]; cbn; intuition (try discriminate).
  - rewrite (fold_switch WLoadingTime st_loading_time); [cbn; intuition discriminate|]. intros [] [[] v|t|[]|v]; cbn; intuition (try discriminate).
  - rewrite (fold_switch WExport st_export); [cbn; intuition discriminate|]. intros [] [[] v|t|[]|v]; cbn; intuition (try discriminate).
Qed.
(** The settings are determined. *)
Lemma last_choice_unique {A} (pick : item -> option A) d items a b : last_choice pick d items a -> last_choice pick d items b -> a = b.
Proof.
  intros [(p & x & q & E & P & L)|[L E]] [(p' & x' & q' & E' & P' & L')|[L' E']].
  - subst items. revert p' E'. induction p as [|y p IH]; intros p' E'.
    + destruct p' as [|y' p']; injection E' as -> ->; [congruence|].
      exfalso. rewrite L in P'; [discriminate|]. apply in_or_app. right. left. reflexivity.
    + destruct p' as [|y' p']; injection E' as -> E'.
      * exfalso. rewrite L' in P; [discriminate|]. rewrite <- E'. apply in_or_app. right. left. reflexivity.
      * exact (IH p' E').
  - exfalso. rewrite L' in P; [discriminate|]. subst items. apply in_or_app. right. left. reflexivity.
  - exfalso. rewrite L in P'; [discriminate|]. subst items. apply in_or_app. right. left. reflexivity.
  - congruence.
Qed.
Lemma bool_iff_eq a b (P : Prop) : (a = true <-> P) -> (b = true <-> P) -> a = b.
Proof. intros H K. destruct a, b; try reflexivity; exfalso; intuition congruence. Qed.
Lemma describes_unique items s s' : describes items s -> describes items s' -> s = s'.
Proof.
  intros (A1 & A2 & A3 & A4 & A5 & A6 & A7 & (t & A8 & T) & A9 & A10 & A11 & A12) (B1 & B2 & B3 & B4 & B5 & B6 & B7 & (u & B8 & U) & B9 & B10 & B11 & B12).
  pose proof (last_choice_unique _ _ _ _ _ A8 B8) as E. rewrite T, U in E. apply NamesProof2.print_int_inj in E.
  destruct s, s'. cbn in *. f_equal; try (eapply last_choice_unique; eassumption); try (eapply bool_iff_eq; eassumption). exact E.
Qed.
Lemma arguments items : Forall well_named items -> Forall well_numbered items ->
  exists s, parse (flat_map words items) st_init = Ok s /\ describes items s /\ forall s', describes items s' -> s' = s.
Proof.
  intros W N. exists (fold_left put items st_init). split; [apply parse_items; assumption|].
  split; [apply fold_describes; exact N|]. intros s' D. exact (describes_unique items _ _ D (fold_describes items N)).
Qed.
Lemma parse_described items s : Forall well_named items -> Forall well_numbered items -> describes items s -> parse (flat_map words items) st_init = Ok s.
Proof. intros W N D. destruct (arguments items W N) as (s' & E & _ & U). rewrite E, (U s D). reflexivity. Qed.

(** Every command line is made of items, or ends in an option without its value. *)
Lemma reserved_cases a : In a reserved -> (exists k, a = file_letter k) \/ a = "-c" \/ (exists w, a = switch_text w).
Proof.
  intros I. cbn in I. repeat (destruct I as [<-|I]; [first [left; exists FOption; reflexivity|left; exists FInitial; reflexivity|left; exists FMutable; reflexivity|left; exists FFixed; reflexivity|left; exists FSelection; reflexivity|left; exists FPairs; reflexivity|right; left; reflexivity|right; right; exists WAccept; reflexivity|right; right; exists WExtract; reflexivity|right; right; exists WLoadingTime; reflexivity|right; right; exists WExport; reflexivity]|]).
  contradiction.
Qed.
Lemma classify n : forall args, (List.length args <= n)%nat -> exists items, Forall well_named items /\
  (args = flat_map words items \/ exists a, In a value_letters /\ args = flat_map words items ++ [a]).
Proof.
  induction n as [|n IH]; intros args L.
  - destruct args; [|cbn in L; lia]. exists []. split; [constructor|left; reflexivity].
  - destruct args as [|a rest]; [exists []; split; [constructor|left; reflexivity]|]. cbn [List.length] in L.
    destruct (in_dec string_dec a reserved) as [I|I].
    + destruct (reserved_cases a I) as [[k ->]|[->|[w ->]]].
      * destruct rest as [|v rest]; [exists []; split; [constructor|right; exists (file_letter k); split; [destruct k; cbn; tauto|reflexivity]]|].
        destruct (IH rest) as (items & W & C); [cbn in L; lia|]. exists (IFile k v :: items). split; [constructor; [exact Logic.I|exact W]|].
        destruct C as [->|(b & B & ->)]; [left; reflexivity|right; exists b; split; [exact B|reflexivity]].
      * destruct rest as [|v rest]; [exists []; split; [constructor|right; exists "-c"; split; [cbn; tauto|reflexivity]]|].
        destruct (IH rest) as (items & W & C); [cbn in L; lia|]. exists (ICommon v :: items). split; [constructor; [exact Logic.I|exact W]|].
        destruct C as [->|(b & B & ->)]; [left; reflexivity|right; exists b; split; [exact B|reflexivity]].
      * destruct (IH rest) as (items & W & C); [lia|]. exists (ISwitch w :: items). split; [constructor; [exact Logic.I|exact W]|].
        destruct C as [->|(b & B & ->)]; [left; reflexivity|right; exists b; split; [exact B|reflexivity]].
    + destruct (IH rest) as (items & W & C); [lia|]. exists (IMps a :: items). split; [constructor; [exact I|exact W]|].
      destruct C as [->|(b & B & ->)]; [left; reflexivity|right; exists b; split; [exact B|reflexivity]].
Qed.
Lemma parse_item_any it rest s : well_named it ->
  parse (words it ++ rest) s = parse rest (put s it) \/ (exists t, it = ICommon t /\ atoi t = UB /\ parse (words it ++ rest) s = UB).
Proof.
  intros W. destruct it as [k v|t|w|v]; try (left; apply parse_item; [exact W|exact Logic.I]).
  destruct s as [m p i u f c x n ac ex lt ej]. change (words (ICommon t)) with ["-c"; t]. cbn [app parse put].
  change ("-c" =? "-p")%string with false. change ("-c" =? "-i")%string with false. change ("-c" =? "-m")%string with false.
  change ("-c" =? "-f")%string with false. change ("-c" =? "-s")%string with false. change ("-c" =? "-x")%string with false.
  change ("-c" =? "-c")%string with true. cbv iota. destruct (atoi t) as [z| |] eqn:E; [left; reflexivity| |right; exists t; rewrite E; auto].
  exfalso. revert E. unfold atoi. destruct (split_sign (skip_blanks t)) as [neg b]. destruct (span_digits b 0 0) as [[v ?] ?].
  unfold to_int. destruct (_ && _); discriminate.
Qed.
Lemma incomplete items a : Forall well_named items -> In a value_letters -> forall s, parse (flat_map words items ++ [a]) s = UB.
Proof.
  intros W I. induction items as [|it tl IH]; intros s.
  - destruct s. cbn in I. repeat (destruct I as [<-|I]; [reflexivity|]). contradiction.
  - inversion W; subst. cbn [flat_map]. rewrite <- app_assoc. destruct (parse_item_any it (flat_map words tl ++ [a]) s) as [E|(t & _ & _ & E)]; [assumption| |exact E].
    rewrite E. apply IH. assumption.
Qed.
Lemma every_command_line args : exists items, Forall well_named items /\
  (args = flat_map words items \/ exists a, In a value_letters /\ args = flat_map words items ++ [a] /\ parse args st_init = UB).
Proof.
  destruct (classify (List.length args) args (Nat.le_refl _)) as (items & W & [E|(a & I & E)]); exists items; split; auto.
  right. exists a. split; [exact I|]. split; [exact E|]. rewrite E. apply incomplete; assumption.
Qed.
