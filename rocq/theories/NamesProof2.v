(** Proofs for C56: default names are unique. *)
From Coq Require Import List ZArith QArith Bool String Ascii Lia Lqa.
From Verif Require Import VariableModel VariableSpec VariableProof PresolveModel TextModel TextProof MpsModel NamesModel NamesSpec NamesProof.
Import ListNotations.
Local Open Scope string_scope.
Local Open Scope Z_scope.
Local Open Scope list_scope.

(** ** Printed integers *)
Lemma print_int_inj a b : print_int a = print_int b -> a = b.
Proof.
  intros E. destruct (int_reads_back a) as (r & A & R), (int_reads_back b) as (r' & A' & R'). rewrite E in A. rewrite A in A'. injection A' as <-.
  rewrite R in R'. unfold Qeq, inject_Z in R'. cbn in R'. lia.
Qed.
Definition no_comma (c : ascii) : bool := negb (Ascii.eqb c ","%char) && negb (Ascii.eqb c "]"%char).
Lemma digits_words s : digits s = true -> all_chars (fun c => negb (is_space c)) s = true /\ all_chars no_comma s = true.
Proof.
  unfold digits. induction s as [|c s IH]; cbn; [auto|]. intros H. apply andb_prop in H. destruct H as [H1 H2]. destruct (IH H2) as [I1 I2]. rewrite I1, I2.
  rewrite !andb_true_r. destruct c as [[] [] [] [] [] [] [] []]; vm_compute in H1 |- *; try discriminate; auto.
Qed.
Lemma print_int_chars z : 0 <= z -> all_chars (fun c => negb (is_space c)) (print_int z) = true /\ all_chars no_comma (print_int z) = true /\ print_int z <> EmptyString.
Proof.
  intros H. unfold print_int. rewrite (proj2 (Z.ltb_ge z 0) H). destruct (digits_words _ (fixed_digits_digits (ndigits z) z)) as [A B].
  split; [exact A|]. split; [exact B|]. apply fixed_nonempty, ndigits_pos.
Qed.
Lemma items_spaces n s : items_of (append (spaces n) s) = items_of s.
Proof. induction n as [|n IH]; [reflexivity|]. cbn [spaces append]. unfold items_of in *. cbn [split_items]. exact IH. Qed.
Lemma pad_inj n a b : 0 <= a -> 0 <= b -> pad n (print_int a) = pad n (print_int b) -> a = b.
Proof.
  intros Ha Hb E. apply (f_equal items_of) in E. unfold pad in E. rewrite !items_spaces in E.
  destruct (print_int_chars a Ha) as (A1 & _ & A2), (print_int_chars b Hb) as (B1 & _ & B2).
  unfold items_of in E. rewrite (split_word_end (print_int a)), (split_word_end (print_int b)) in E by (split; assumption).
  injection E as E. now apply print_int_inj.
Qed.
Lemma pad_chars n a : 0 <= a -> all_chars no_comma (pad n (print_int a)) = true.
Proof.
  intros H. unfold pad. rewrite all_app. destruct (print_int_chars a H) as (_ & B & _). rewrite B, andb_true_r.
  induction (n - String.length (print_int a))%nat as [|k IH]; [reflexivity|exact IH].
Qed.

(** ** Labels *)
(** Two strings without commas and brackets, each followed by one, are told apart. *)
Lemma cut_eq a : forall b x y, all_chars no_comma a = true -> all_chars no_comma b = true ->
  (exists c t, x = String c t /\ no_comma c = false) -> (exists c t, y = String c t /\ no_comma c = false) ->
  append a x = append b y -> a = b /\ x = y.
Proof.
  induction a as [|c a IH]; intros [|d b] x y Ha Hb X Y E; cbn [append] in E.
  - auto.
  - destruct X as (e & t & -> & He). inversion E; subst. cbn in Hb. apply andb_prop in Hb. destruct Hb as [Hb _]. congruence.
  - destruct Y as (e & t & -> & He). inversion E; subst. cbn in Ha. apply andb_prop in Ha. destruct Ha as [Ha _]. congruence.
  - inversion E; subst. cbn in Ha, Hb. apply andb_prop in Ha. apply andb_prop in Hb. destruct (IH b x y (proj2 Ha) (proj2 Hb) X Y H1) as [-> ->]. auto.
Qed.
Lemma join_inj n l : forall k, List.length l = List.length k -> Forall (fun i => 0 <= i) l -> Forall (fun i => 0 <= i) k ->
  append (join (map (fun i => pad n (print_int i)) l)) "]" = append (join (map (fun i => pad n (print_int i)) k)) "]" -> l = k.
Proof.
  induction l as [|a l IH]; intros [|b k] L P Q E; try discriminate; [reflexivity|]. inversion P; inversion Q; subst.
  destruct l as [|a' l], k as [|b' k]; try discriminate.
  - cbn [map join] in E. apply cut_eq in E; [|now apply pad_chars|now apply pad_chars|exists "]"%char, EmptyString; auto|exists "]"%char, EmptyString; auto].
    destruct E as [E _]. apply pad_inj in E; [now subst|assumption|assumption].
  - cbn [map] in E. change (join (pad n (print_int a) :: pad n (print_int a') :: map (fun i => pad n (print_int i)) l))
      with (append (pad n (print_int a)) (append ", " (join (map (fun i => pad n (print_int i)) (a' :: l))))) in E.
    change (join (pad n (print_int b) :: pad n (print_int b') :: map (fun i => pad n (print_int i)) k))
      with (append (pad n (print_int b)) (append ", " (join (map (fun i => pad n (print_int i)) (b' :: k))))) in E.
    rewrite !app_assoc' in E. apply cut_eq in E; [|apply pad_chars; assumption|apply pad_chars; assumption| |].
    + destruct E as [E1 E2]. apply pad_inj in E1; [|assumption|assumption]. subst b. f_equal. cbn [append] in E2. injection E2 as E2.
      apply IH; [cbn [List.length] in *; lia|assumption|assumption|]. exact E2.
    + eexists _, _. split; [reflexivity|reflexivity].
    + eexists _, _. split; [reflexivity|reflexivity].
Qed.
Lemma label_inj shape f g : shape <> [] -> Forall (fun n => 0 < n) shape -> 0 <= f < number_of_elements shape -> 0 <= g < number_of_elements shape ->
  indices_label shape f = indices_label shape g -> f = g.
Proof.
  intros N P Hf Hg E. unfold indices_label in E. destruct (Z.eqb_spec (number_of_elements shape) 1) as [O|O]; [lia|].
  destruct (index_bijection shape N P) as [_ B]. destruct (B f Hf) as [Rf Ff], (B g Hg) as [Rg Fg].
  cbn [append] in E. injection E as E. apply join_inj in E.
  - rewrite E in Ff. congruence.
  - assert (G : forall l k, Forall2 (fun n i => 0 <= i < n) l k -> List.length k = List.length l) by (induction 1; cbn [List.length]; lia).
    rewrite (G _ _ Rf), (G _ _ Rg). reflexivity.
  - clear - Rf. induction Rf; constructor; [lia|assumption].
  - clear - Rg. induction Rg; constructor; [lia|assumption].
Qed.
(** ** Names *)
Definition bracketed (s : string) : Prop := s = EmptyString \/ exists t, s = String "["%char t.
Lemma name_cut a : forall b x y, bracket_free a -> bracket_free b -> bracketed x -> bracketed y -> append a x = append b y -> a = b /\ x = y.
Proof.
  induction a as [|c a IH]; intros [|d b] x y Ha Hb X Y E; cbn [append] in E.
  - auto.
  - destruct X as [-> |[t ->]]; [discriminate|]. inversion E; subst. destruct Hb as [Hb _]. congruence.
  - destruct Y as [-> |[t ->]]; [discriminate|]. inversion E; subst. destruct Ha as [Ha _]. congruence.
  - inversion E; subst. destruct (IH b x y (proj2 Ha) (proj2 Hb) X Y H1) as [-> ->]. auto.
Qed.
Lemma label_bracketed shape f : bracketed (indices_label shape f).
Proof. unfold indices_label. destruct (_ =? 1); [now left|right; eexists; reflexivity]. Qed.

Lemma name_elements_nth name shape l : forall f j, nth_error (name_elements name shape f l) j =
  match nth_error l j with
  | Some e => Some (if is_empty (fst e) then (append name (indices_label shape (f + Z.of_nat j)), snd e) else e)
  | None => None
  end.
Proof.
  induction l as [|e l IH]; intros f [|j]; cbn [name_elements nth_error]; try reflexivity.
  - rewrite Z.add_0_r. reflexivity.
  - rewrite IH. destruct (nth_error l j); [|reflexivity]. replace (f + 1 + Z.of_nat j) with (f + Z.of_nat (S j)) by lia. reflexivity.
Qed.
Lemma setup_element m i j : element (setup_unique_names m) i j =
  match nth_error m i with
  | Some p => match nth_error (px_elems p) j with
      | Some e => Some (if is_empty (fst e) then (append (px_name p) (indices_label (px_shape p) (Z.of_nat j)), snd e) else e)
      | None => None end
  | None => None
  end.
Proof.
  unfold element, setup_unique_names. rewrite nth_error_map. destruct (nth_error m i) as [p|]; cbn [option_map]; [|reflexivity]. cbn [px_elems].
  rewrite name_elements_nth. reflexivity.
Qed.
Lemma names_kept m i j : 
  match element m i j with
  | None => element (setup_unique_names m) i j = None
  | Some (n, v) => exists n', element (setup_unique_names m) i j = Some (n', v) /\ (n <> EmptyString -> n' = n) 
  end.
Proof.
  rewrite setup_element. unfold element. destruct (nth_error m i) as [p|]; [|reflexivity]. destruct (nth_error (px_elems p) j) as [[n v]|]; [|reflexivity].
  cbn [fst snd]. destruct n as [|c n]; cbn [is_empty]; eexists; (split; [reflexivity|]); congruence.
Qed.
Lemma names_distinct m i j i' j' n v v' w w' : proper_proxies m ->
  element m i j = Some (EmptyString, v) -> element m i' j' = Some (EmptyString, v') ->
  element (setup_unique_names m) i j = Some (n, w) -> element (setup_unique_names m) i' j' = Some (n, w') -> i = i' /\ j = j'.
Proof.
  intros [ND P] E1 E2. rewrite !setup_element. unfold element in E1, E2.
  destruct (nth_error m i) as [p|] eqn:Ep; [|discriminate]. destruct (nth_error m i') as [p'|] eqn:Ep'; [|discriminate]. rewrite E1, E2. cbn [fst snd is_empty].
  intros F1 F2. assert (E : append (px_name p) (indices_label (px_shape p) (Z.of_nat j)) = append (px_name p') (indices_label (px_shape p') (Z.of_nat j'))) by congruence.
  pose proof (nth_error_In _ _ Ep) as Hp. pose proof (nth_error_In _ _ Ep') as Hp'.
  destruct (P p Hp) as (B & S & Ps & L), (P p' Hp') as (B' & S' & Ps' & L').
  apply name_cut in E; [|assumption|assumption|apply label_bracketed|apply label_bracketed]. destruct E as [En El].
  assert (i = i').
  { apply (proj1 (NoDup_nth_error (map px_name m)) ND).
    - rewrite map_length. apply nth_error_Some. congruence.
    - rewrite !nth_error_map, Ep, Ep'. cbn. congruence. }
  subst i'. rewrite Ep in Ep'. injection Ep' as <-. split; [reflexivity|].
  assert (Hj : (j < List.length (px_elems p))%nat) by (apply nth_error_Some; congruence).
  assert (Hj' : (j' < List.length (px_elems p))%nat) by (apply nth_error_Some; congruence).
  assert (Z.of_nat j = Z.of_nat j'); [|lia]. apply (label_inj (px_shape p)); auto; unfold number_of_elements; rewrite <- L; lia.
Qed.

(** Proxies made by create_variables are proper once their names are. *)
Lemma created_proper m name shape m' : proper_proxies m -> bracket_free name -> ~ In name (map px_name m) ->
  create_variables m name shape = Ok m' -> proper_proxies m'.
Proof.
  intros [ND P] B Nn H. unfold create_variables in H. destruct (has_space name); [discriminate|]. 
  assert (Sn : shape <> []) by (destruct shape; [discriminate|congruence]).
  assert (H' : (if forallb (fun n => 0 <? n) shape then Ok (m ++ [mkProxy name shape (repeat (EmptyString, v_init) (Z.to_nat (number_of_elements shape)))]) else UB) = Ok m') by (destruct shape; [congruence|exact H]).
  clear H. destruct (forallb (fun n => 0 <? n) shape) eqn:F; [|discriminate]. assert (m' = m ++ [mkProxy name shape (repeat (EmptyString, v_init) (Z.to_nat (number_of_elements shape)))]) as -> by congruence.
  assert (Fs : Forall (fun n => 0 < n) shape). { apply Forall_forall. intros x Hx. rewrite forallb_forall in F. apply Z.ltb_lt. auto. }
  split.
  - rewrite map_app. cbn [map px_name]. apply NoDup_Add with (a := name) (l := map px_name m); [|split; [exact ND|exact Nn]].
    pose proof (Add_app name (map px_name m) []) as A. rewrite app_nil_r in A. exact A.
  - intros p Hp. apply in_app_iff in Hp. destruct Hp as [Hp|[<-|[]]]; [now apply P|]. cbn [px_name px_shape px_elems].
    split; [exact B|]. split; [exact Sn|]. split; [exact Fs|]. rewrite repeat_length, Z2Nat.id; [reflexivity|].
    unfold number_of_elements. clear - Fs. assert (G : forall a, 0 <= a -> 0 <= fold_left Z.mul shape a); [|apply G; lia].
    induction Fs as [|n l Hn Hl IH]; intros a Ha; cbn [fold_left]; [exact Ha|]. apply IH. nia.
Qed.
