(** Termination of the parser, undefined behaviour, lookups and counterexamples. *)
From Coq Require Import List ZArith QArith Qabs Bool String Ascii Lia Lqa.
From Verif Require Import TextModel TextProof TextProof2 PresolveModel JsonModel JsonSpec JsonProof JsonProof2 JsonProof3 JsonProof4 JsonProof5.
Import ListNotations.
Local Open Scope Z_scope.

(** ** Lookups *)
Lemma last_with_iff key l v : last_with key l = Some v <-> exists l1 l2, l = l1 ++ (key, v) :: l2 /\ ~ In key (map fst l2).
Proof.
  induction l as [|[k w] l IH]; cbn.
  - split; [discriminate|]. intros ([|] & l2 & E & _); discriminate.
  - assert (Nn : last_with key l = None -> ~ In key (map fst l)).
    { clear. induction l as [|[k w] l IH]; cbn; [tauto|]. destruct (last_with key l); [discriminate|]. destruct (String.eqb_spec k key); [discriminate|]. intros _ [E|E]; [congruence|now apply IH]. }
    split.
    + destruct (last_with key l) as [u|] eqn:E.
      * intros H. apply IH in H. destruct H as (l1 & l2 & -> & H). now exists ((k, w) :: l1), l2.
      * destruct (String.eqb_spec k key) as [->|]; [|discriminate]. intros H. injection H as <-. exists [], l. split; [reflexivity|now apply Nn].
    + intros (l1 & l2 & E & H). destruct l1 as [|x l1].
      * injection E as -> -> ->. destruct (last_with key l2) as [u|] eqn:E2.
        -- exfalso. apply H. clear -E2. induction l2 as [|[k w] l IH]; cbn in *; [discriminate|]. destruct (last_with key l); [right; now apply IH|]. destruct (String.eqb_spec k key); [now left|discriminate].
        -- now rewrite String.eqb_refl.
      * injection E as _ E. assert (L : last_with key l = Some v) by (apply IH; now exists l1, l2). now rewrite L.
Qed.
Lemma lookup_read_back l m key : read_back false (JObj l) (JObj m) ->
  match last_with key l, last_with key m with Some v, Some w => read_back false v w | None, None => True | _, _ => False end.
Proof.
  intros H. apply obj_rel_iff in H. induction H as [|[k v] [k' w] l m [H1 H2] H IH]; [exact Logic.I|]. cbn [fst snd last_with] in *. subst k'.
  destruct (last_with key l), (last_with key m); try contradiction; try assumption. destruct (String.eqb k key); [exact H2|exact Logic.I].
Qed.

(** ** Termination *)
Lemma find_bound l r ts : forall i c, find_from l r ts i c = 0%nat \/ (i <= find_from l r ts i c < i + List.length ts)%nat.
Proof.
  induction ts as [|t ts IH]; intros i c; cbn [find_from List.length]; [now left|]. destruct (String.eqb t l); [destruct (IH (S i) (c + 1)); [now left|right; lia]|].
  destruct (String.eqb t r); [destruct (_ =? 0); [right; lia|destruct (IH (S i) (c - 1)); [now left|right; lia]]|]. destruct (IH (S i) c); [now left|right; lia].
Qed.
Lemma find_meets l r ts : l <> r -> forall i c n, 0 < c -> (n <= List.length ts)%nat -> c + Z.of_nat (occurrences l (firstn n ts)) - Z.of_nat (occurrences r (firstn n ts)) = 0 ->
  (i <= find_from l r ts i c)%nat.
Proof.
  intros D. unfold occurrences. induction ts as [|t ts IH]; intros i c n Hc Hn E; [cbn in Hn; destruct n; [cbn in E; lia|lia]|].
  destruct n as [|n]; [cbn in E; lia|]. cbn [firstn find_from List.length] in *. cbn [count_occ] in E. destruct (string_dec t l) as [-> | N1].
  - rewrite String.eqb_refl. destruct (string_dec l r) as [|N2]; [congruence|]. apply Nat.le_trans with (S i); [lia|]. apply (IH (S i) (c + 1) n); lia.
  - rewrite (proj2 (String.eqb_neq _ _) N1). destruct (string_dec t r) as [-> | N2].
    + rewrite String.eqb_refl. destruct (Z.eqb_spec (c - 1) 0); [lia|]. apply Nat.le_trans with (S i); [lia|]. apply (IH (S i) (c - 1) n); lia.
    + rewrite (proj2 (String.eqb_neq _ _) N2). apply Nat.le_trans with (S i); [lia|]. apply (IH (S i) c n); lia.
Qed.
Lemma nth_skip {A} (ts : list A) p x : nth_error ts p = Some x -> skipn p ts = x :: skipn (S p) ts.
Proof. revert p. induction ts as [|y ts IH]; intros [|p] H; try discriminate; [injection H as ->; reflexivity|]. exact (IH p H). Qed.
Lemma closes_end b ts p : closes (LT b) (RT b) ts -> nth_error ts p = Some (LT b) -> (p < find_end ts p (LT b) (RT b) < List.length ts)%nat.
Proof.
  intros C H. destruct (C p H) as (n & N1 & N2 & N3). unfold find_end, occurrences in *. rewrite (nth_skip _ _ _ H) in *. destruct n as [|n]; [lia|]. cbn [firstn find_from] in *.
  rewrite String.eqb_refl. assert (D : LT b <> RT b) by (destruct b; discriminate). cbn [count_occ] in N3. destruct (string_dec (LT b) (LT b)); [|congruence]. destruct (string_dec (LT b) (RT b)); [congruence|].
  assert (L : (p < List.length ts)%nat) by (apply nth_error_Some; congruence). assert (K : List.length (skipn (S p) ts) = (List.length ts - S p)%nat) by apply skipn_length.
  pose proof (find_meets (LT b) (RT b) (skipn (S p) ts) D (S p) (0 + 1) n ltac:(lia) ltac:(lia)) as M. unfold occurrences in M. specialize (M ltac:(lia)).
  destruct (find_bound (LT b) (RT b) (skipn (S p) ts) (S p) (0 + 1)); lia.
Qed.
Lemma end_bound ts e : (e <= List.length ts)%nat -> (end_of ts e <= List.length ts)%nat.
Proof. unfold end_of. destruct (Nat.ltb 0 e); lia. Qed.
Lemma find_end_bound ts p l r : (find_end ts p l r <= List.length ts)%nat.
Proof.
  unfold find_end. destruct (find_bound l r (skipn p ts) p 0) as [-> |H]; [lia|]. rewrite skipn_length in H. lia.
Qed.
Lemma loops_end ts : closes "{" "}" ts -> closes "[" "]" ts -> forall fuel,
  (forall p e key acc, (e <= List.length ts)%nat -> (List.length ts - p < fuel)%nat -> object_loop fuel ts p e key acc <> None) /\
  (forall p e acc, (e <= List.length ts)%nat -> (List.length ts - p < fuel)%nat -> array_loop fuel ts p e acc <> None).
Proof.
  intros C1 C2. induction fuel as [|f [IH1 IH2]]; [split; intros; lia|]. split.
  - intros p e key acc He Hf. cbn [object_loop]. destruct (Nat.ltb_spec p e) as [L|L]; [|discriminate]. destruct (nth_error ts p) as [t|] eqn:Et; [|discriminate].
    destruct key as [k|]; [|apply IH1; lia]. destruct (String.eqb_spec t "{") as [-> |_].
    { pose proof (closes_end true ts p C1 Et) as E. change (LT true) with "{"%string in E. change (RT true) with "}"%string in E. cbv zeta.
      pose proof (IH1 (S p) (end_of ts (find_end ts p "{" "}")) None [] (end_bound _ _ (find_end_bound _ _ _ _)) ltac:(lia)) as G. destruct (object_loop f ts (S p) _ None []) as [[m| |]|]; try discriminate; [|congruence]. apply IH1; lia. }
    destruct (String.eqb_spec t "[") as [-> |_].
    { pose proof (closes_end false ts p C2 Et) as E. change (LT false) with "["%string in E. change (RT false) with "]"%string in E. cbv zeta.
      pose proof (IH2 (S p) (end_of ts (find_end ts p "[" "]")) [] (end_bound _ _ (find_end_bound _ _ _ _)) ltac:(lia)) as G. destruct (array_loop f ts (S p) _ []) as [[m| |]|]; try discriminate; [|congruence]. apply IH1; lia. }
    destruct (scalar false t); try discriminate. apply IH1; lia.
  - intros p e acc He Hf. cbn [array_loop]. destruct (Nat.ltb_spec p e) as [L|L]; [|discriminate]. destruct (nth_error ts p) as [t|] eqn:Et; [|discriminate].
    destruct (String.eqb_spec t "{") as [-> |_].
    { pose proof (closes_end true ts p C1 Et) as E. change (LT true) with "{"%string in E. change (RT true) with "}"%string in E. cbv zeta.
      pose proof (IH1 (S p) (end_of ts (find_end ts p "{" "}")) None [] (end_bound _ _ (find_end_bound _ _ _ _)) ltac:(lia)) as G. destruct (object_loop f ts (S p) _ None []) as [[m| |]|]; try discriminate; [|congruence]. apply IH2; lia. }
    destruct (String.eqb_spec t "[") as [-> |_].
    { pose proof (closes_end false ts p C2 Et) as E. change (LT false) with "["%string in E. change (RT false) with "]"%string in E. cbv zeta.
      pose proof (IH2 (S p) (end_of ts (find_end ts p "[" "]")) [] (end_bound _ _ (find_end_bound _ _ _ _)) ltac:(lia)) as G. destruct (array_loop f ts (S p) _ []) as [[m| |]|]; try discriminate; [|congruence]. apply IH2; lia. }
    destruct (scalar true t); try discriminate. apply IH2; lia.
Qed.
Lemma reading_ends file : let ts := tokenize (join_lines file) in closes "{" "}" ts -> closes "[" "]" ts ->
  forall fuel, (List.length ts < fuel)%nat -> read_json_object fuel file <> None /\ read_json_array fuel file <> None.
Proof.
  intros ts C1 C2 fuel Hf. unfold read_json_object, read_json_array. fold ts. destruct (negb (well_closed (join_lines file))); [split; discriminate|].
  destruct (loops_end ts C1 C2 fuel) as [L1 L2]. split.
  - destruct (framed "{" "}" ts) as [[]| |]; try discriminate. apply L1; [apply end_bound; lia|lia].
  - destruct (framed "[" "]" ts) as [[]| |]; try discriminate. apply L2; [apply end_bound; lia|lia].
Qed.

(** ** Undefined behaviour *)
Lemma scalar_defined a t : t <> EmptyString -> scalar a t <> UB.
Proof.
  destruct t as [|c t]; [congruence|]. intros _. cbn [scalar]. destruct (Ascii.eqb c QUOTE); [discriminate|]. do 3 (destruct (String.eqb _ _); [discriminate|]).
  destruct (is_integer _).
  - unfold stoi. destruct (split_sign _) as [neg b]. destruct (span_digits b 0 0) as [[m k] r]. destruct (k =? 0); [discriminate|]. cbv zeta. destruct (_ && _); discriminate.
  - unfold stod. cbv zeta. destruct (split_sign _) as [neg b]. destruct (_ || _); [discriminate|]. destruct (span_digits b 0 0) as [[m k] r]. destruct (after_point r m) as [[m' kf] r']. destruct (_ =? 0); [discriminate|].
    destruct (atof _); [|discriminate]. destruct (Qeq_bool _ _); [discriminate|]. destruct (_ || _); discriminate.
Qed.
Lemma loops_defined ts : ~ In EmptyString ts -> forall fuel,
  (forall p e key acc, (e <= List.length ts)%nat -> object_loop fuel ts p e key acc <> Some UB) /\
  (forall p e acc, (e <= List.length ts)%nat -> array_loop fuel ts p e acc <> Some UB).
Proof.
  intros Ne. assert (Nt : forall a p t, nth_error ts p = Some t -> scalar a t <> UB).
  { intros a p t H. apply scalar_defined. intros ->. apply Ne. now apply nth_error_In with p. }
  induction fuel as [|f [IH1 IH2]]; [split; discriminate|]. split.
  - intros p e key acc He. cbn [object_loop]. destruct (Nat.ltb_spec p e) as [L|L]; [|discriminate]. destruct (nth_error ts p) as [t|] eqn:Et; [|apply nth_error_None in Et; lia].
    destruct key as [k|]; [|apply IH1; lia]. cbv zeta. destruct (String.eqb t "{").
    { pose proof (IH1 (S p) (end_of ts (find_end ts p "{" "}")) None [] (end_bound _ _ (find_end_bound _ _ _ _))) as G. destruct (object_loop f ts (S p) _ None []) as [[m| |]|]; try discriminate; [|congruence]. apply IH1; lia. }
    destruct (String.eqb t "[").
    { pose proof (IH2 (S p) (end_of ts (find_end ts p "[" "]")) [] (end_bound _ _ (find_end_bound _ _ _ _))) as G. destruct (array_loop f ts (S p) _ []) as [[m| |]|]; try discriminate; [|congruence]. apply IH1; lia. }
    pose proof (Nt false p t Et) as G. destruct (scalar false t); [apply IH1; lia|discriminate|congruence].
  - intros p e acc He. cbn [array_loop]. destruct (Nat.ltb_spec p e) as [L|L]; [|discriminate]. destruct (nth_error ts p) as [t|] eqn:Et; [|apply nth_error_None in Et; lia].
    cbv zeta. destruct (String.eqb t "{").
    { pose proof (IH1 (S p) (end_of ts (find_end ts p "{" "}")) None [] (end_bound _ _ (find_end_bound _ _ _ _))) as G. destruct (object_loop f ts (S p) _ None []) as [[m| |]|]; try discriminate; [|congruence]. apply IH2; lia. }
    destruct (String.eqb t "[").
    { pose proof (IH2 (S p) (end_of ts (find_end ts p "[" "]")) [] (end_bound _ _ (find_end_bound _ _ _ _))) as G. destruct (array_loop f ts (S p) _ []) as [[m| |]|]; try discriminate; [|congruence]. apply IH2; lia. }
    pose proof (Nt true p t Et) as G. destruct (scalar true t); [apply IH2; lia|discriminate|congruence].
Qed.
Lemma split_nonempty s : forall cur q, (forall w, cur = Some w -> w <> EmptyString) -> ~ In EmptyString (split_tokens s cur q).
Proof.
  induction s as [|c s IH]; intros cur q H; cbn [split_tokens].
  - destruct cur as [w|]; [|tauto]. intros [E|[]]. exact (H w eq_refl E).
  - cbv zeta. set (q' := if Ascii.eqb c QUOTE then negb q else q). clearbody q'.
    assert (A : forall w, append w (String c EmptyString) <> EmptyString) by (intros [|]; discriminate).
    destruct (Ascii.eqb c " " || Ascii.eqb c TAB).
    + destruct cur as [w|]; [|apply IH; discriminate]. destruct q'.
      * apply IH. intros v E. injection E as <-. apply A.
      * intros [E|E]; [exact (H w eq_refl E)|]. revert E. apply IH. discriminate.
    + apply IH. intros v E. injection E as <-. apply A.
Qed.
Lemma split_some s : forall w q, split_tokens s (Some w) q <> [].
Proof. induction s as [|c s IH]; intros w q; cbn [split_tokens]; [discriminate|]. cbv zeta. destruct (_ || _); [|apply IH]. destruct (if Ascii.eqb c QUOTE then _ else _); [apply IH|discriminate]. Qed.
Definition blank (c : ascii) : bool := Ascii.eqb c " "%char || Ascii.eqb c TAB.
Lemma split_nil s : forall q, split_tokens s None q = [] <-> all_chars blank s = true.
Proof.
  induction s as [|c s IH]; intros q; cbn [split_tokens all_chars]; [tauto|]. cbv zeta. fold (blank c). destruct (blank c); cbn [andb]; [apply IH|].
  split; [intros H; exfalso; revert H; apply split_some|discriminate].
Qed.
Definition skipped (c : ascii) : bool := existsb (Ascii.eqb c) [ascii_of_nat 10; ascii_of_nat 9; " "%char; ","%char; ":"%char].
Lemma nothing_iff s : nothing s <-> all_chars skipped s = true.
Proof.
  unfold nothing, skipped. induction s as [|c s IH]; [split; [reflexivity|intros _ n c H; destruct n; discriminate]|]. cbn [all_chars]. split.
  - intros H. apply andb_true_intro. split; [|apply IH; intros n d G; exact (H (S n) d G)]. apply existsb_exists. exists c. split; [exact (H 0%nat c eq_refl)|apply Ascii.eqb_refl].
  - intros H. apply andb_prop in H. destruct H as [H1 H2]. intros [|n] d G; [|exact (proj2 IH H2 n d G)]. injection G as <-. apply existsb_exists in H1. destruct H1 as (x & X1 & X2). apply Ascii.eqb_eq in X2. now subst.
Qed.
Lemma blank_expand s : all_chars blank (expand (join_lines s)) = all_chars skipped s.
Proof.
  induction s as [|c s IH]; [reflexivity|]. cbn [join_lines all_chars]. destruct (Ascii.eqb_spec c LF) as [-> |D]; [rewrite IH; reflexivity|].
  cbn [expand]. rewrite all_app, IH. f_equal. revert D. destruct c as [[] [] [] [] [] [] [] []]; vm_compute; congruence.
Qed.
Lemma tokenize_nil s : tokenize (join_lines s) = [] <-> nothing s.
Proof. unfold tokenize. rewrite crlf_none by apply join_no_lf. rewrite split_nil, blank_expand. symmetry. apply nothing_iff. Qed.
Lemma nothing_closed s : nothing s -> well_closed (join_lines s) = true.
Proof.
  intros H. apply nothing_iff in H. assert (G : forall b c, close_count (LB b) (RB b) (join_lines s) false c = c).
  { intros b. induction s as [|x s IH]; intros c; [reflexivity|]. cbn [all_chars] in H. apply andb_prop in H. destruct H as [H1 H2]. cbn [join_lines].
    destruct (Ascii.eqb x LF); [apply (IH H2)|]. cbn [close_count]. assert (F : Ascii.eqb x QUOTE = false /\ Ascii.eqb x (LB b) = false /\ Ascii.eqb x (RB b) = false).
    { unfold skipped in H1. apply existsb_exists in H1. destruct H1 as (y & Y1 & Y2). apply Ascii.eqb_eq in Y2. subst y. cbn in Y1.
      repeat (destruct Y1 as [<- |Y1]; [destruct b; repeat split; reflexivity|]). destruct Y1. }
    destruct F as (-> & -> & ->). apply (IH H2). }
  unfold well_closed. pose proof (G true 0) as G1. pose proof (G false 0) as G2. unfold LB, RB in *. rewrite G1, G2. reflexivity.
Qed.
Lemma undefined_iff fuel file : (read_json_object fuel file = Some UB <-> nothing file) /\ (read_json_array fuel file = Some UB <-> nothing file).
Proof.
  unfold read_json_object, read_json_array. rewrite <- tokenize_nil. set (ts := tokenize (join_lines file)).
  assert (Cl : ts = [] -> negb (well_closed (join_lines file)) = false) by (intros H; rewrite nothing_closed; [reflexivity|now apply tokenize_nil]).
  assert (Ne : ~ In EmptyString ts) by (apply split_nonempty; discriminate). destruct (loops_defined ts Ne fuel) as [L1 L2].
  assert (Fr : forall l r, framed l r ts = UB <-> ts = []) by (intros l r; destruct ts; cbn; split; congruence).
  split; split.
  - destruct (negb _); [discriminate|]. pose proof (Fr "{" "}")%string as F. destruct (framed "{" "}" ts) as [[]| |]; try discriminate; [|intros _; now apply F]. intros H. exfalso. revert H. apply L1, end_bound. lia.
  - intros H. rewrite (Cl H). cbn. now rewrite H.
  - destruct (negb _); [discriminate|]. pose proof (Fr "[" "]")%string as F. destruct (framed "[" "]" ts) as [[]| |]; try discriminate; [|intros _; now apply F]. intros H. exfalso. revert H. apply L2, end_bound. lia.
  - intros H. rewrite (Cl H). cbn. now rewrite H.
Qed.

(** ** A file that is never read to the end *)
Definition q_ (s : string) : string := quoted s.
Definition hanging : string := append "{ ] : 1, " (append (quoted "b") ": [ }").
Lemma hang fuel : read_json_object fuel hanging = None.
Proof.
  unfold read_json_object. change (negb (well_closed (join_lines hanging))) with false. cbv iota zeta.
  change (tokenize (join_lines hanging)) with (["{"; "]"; "1"; quoted "b"; "["; "}"]%string). change (framed "{" "}" _) with (@Ok bool true). cbv iota. change (end_of _ 0) with 5%nat.
  set (ts := ["{"; "]"; "1"; quoted "b"; "["; "}"]%string). generalize (@nil (string * json)) as acc. induction fuel as [fuel IH] using lt_wf_ind. intros acc.
  destruct fuel as [|[|[|[|[|f]]]]]; try reflexivity. cbn [object_loop]. change (Nat.ltb 1 5) with true. change (nth_error ts 1) with (Some "]"%string). cbv iota.
  change (Nat.ltb 2 5) with true. change (nth_error ts 2) with (Some "1"%string). cbv iota. change (String.eqb "1" "{") with false. change (String.eqb "1" "[") with false. change (scalar false "1") with (Ok (JInt KInt 1)). cbv iota.
  change (Nat.ltb 3 5) with true. change (nth_error ts 3) with (Some (quoted "b")). cbv iota. change (Nat.ltb 4 5) with true. change (nth_error ts 4) with (Some "["%string). cbv iota.
  change (String.eqb "[" "{") with false. change (String.eqb "[" "[") with true. cbv iota zeta. change (find_end ts 4 "[" "]") with 0%nat. change (end_of ts 0) with 5%nat.
  cbn [array_loop]. change (Nat.ltb 5 5) with false. cbv iota. apply (IH (S f)). lia.
Qed.
