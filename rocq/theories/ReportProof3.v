(** Parsing the text of create_json_array; the files. *)
From Coq Require Import List ZArith QArith Qabs Bool String Ascii Lia.
From Verif Require Import TextModel TextProof PresolveModel JsonModel JsonSpec JsonProof JsonProof2 JsonProof3 JsonProof4 JsonProof5 JsonProof6 VariableSpec ArraySpec ArrayProof ReportModel ReportSpec ReportProof ReportProof2.
Import ListNotations.
Local Open Scope Z_scope.
Local Notation "a +++ b" := (append a b) (at level 60, right associativity).

(** ** Tokens *)
Definition word (w : string) : Prop := safe w \/ (exists s, good s /\ w = quoted s) \/ w = "["%string \/ w = "]"%string.
Lemma expand_word w : word w -> forall rest, space_start rest -> split_tokens (expand w +++ rest) None false = w :: split_tokens rest None false.
Proof.
  intros [H | [(s & G & ->) | [-> | ->]]] rest R.
  - rewrite <- (split_word_token w rest H R). f_equal. f_equal. transitivity (X w); [unfold X|now apply X_safe, (proj2 H)]. f_equal. symmetry. apply join_id. apply (all_impl safe_char); [|exact (proj2 H)]. intros c Hc. destruct (safe_char_facts c Hc) as (_ & E & _); cbv beta; now rewrite E.
  - rewrite <- (split_quoted_token s rest G R). f_equal. f_equal. transitivity (X (quoted s)); [unfold X|now apply X_quoted]. f_equal. symmetry. apply join_id. unfold quoted. cbn [all_chars]. change (negb (Ascii.eqb QUOTE LF)) with true. cbn [andb]. rewrite all_app. change (all_chars _ (String QUOTE EmptyString)) with true. rewrite andb_true_r.
    apply (all_impl (fun c => negb (bad_char c))); [|exact G]. intros c Hc. destruct (bad_char_facts c Hc) as (_ & E & _); cbv beta; now rewrite E.
  - destruct rest as [|c rest]; [reflexivity|]. cbn in R. subst c. reflexivity.
  - destruct rest as [|c rest]; [reflexivity|]. cbn in R. subst c. reflexivity.
Qed.
Lemma split_space s : split_tokens (" " +++ s) None false = split_tokens s None false. Proof. reflexivity. Qed.
Lemma split_words ts : Forall word ts -> forall rest, split_tokens (expand (words ts) +++ rest) None false = (ts ++ split_tokens rest None false)%list.
Proof.
  intros H. induction H as [|w ts Hw H IH]; intros rest; [reflexivity|]. rewrite words_one, expand_app, expand_app, !str_assoc. change (expand " ") with " "%string. rewrite (expand_word w Hw) by reflexivity. cbn [app]. f_equal. rewrite split_space. apply IH.
Qed.
Definition linear (c : ascii) : bool := negb (Ascii.eqb c LF).
Lemma word_linear w : word w -> all_chars linear w = true.
Proof.
  intros [H | [(s & G & ->) | [-> | ->]]]; try reflexivity.
  - apply (all_impl safe_char); [|exact (proj2 H)]. intros c Hc. unfold linear. destruct (safe_char_facts c Hc) as (_ & E & _); cbv beta; now rewrite E.
  - unfold quoted. cbn [all_chars]. change (linear QUOTE) with true. cbn [andb]. rewrite all_app. change (all_chars _ (String QUOTE EmptyString)) with true. rewrite andb_true_r. apply (all_impl (fun c => negb (bad_char c))); [|exact G]. intros c Hc. unfold linear. destruct (bad_char_facts c Hc) as (_ & E & _); cbv beta; now rewrite E.
Qed.
Lemma words_linear ts : Forall word ts -> all_chars linear (words ts) = true.
Proof. intros H. induction H as [|w ts Hw H IH]; [reflexivity|]. rewrite words_one, !all_app, IH, (word_linear w Hw). reflexivity. Qed.
Lemma frame_tokens ts : Forall word ts -> tokenize (" { " +++ (words ts +++ "}")) = ("{" :: ts ++ ["}"])%string%list.
Proof.
  intros H. unfold tokenize. rewrite crlf_none.
  - rewrite expand_app, expand_app. change (expand " { ") with " {  "%string. change (expand "}") with " }"%string. change (split_tokens (" {  " +++ ?s) None false) with ("{"%string :: split_tokens s None false). f_equal. rewrite (split_words ts H). reflexivity.
  - change (all_chars linear (" { " +++ (words ts +++ "}")) = true). rewrite !all_app, (words_linear ts H). reflexivity.
Qed.

(** ** Parsing nested tokens *)
Definition step (tk : list string) (w : json) : Prop :=
  (1 <= List.length tk)%nat /\ N tk /\ forall pre post f e, (List.length tk <= f)%nat -> (List.length pre + List.length tk <= e)%nat ->
  (forall acc, array_loop (S f) (pre ++ tk ++ post) (List.length pre) e acc = array_loop f (pre ++ tk ++ post) (List.length pre + List.length tk) e (acc ++ [w])) /\
  (forall k acc, object_loop (S f) (pre ++ tk ++ post) (List.length pre) e (Some k) acc = object_loop f (pre ++ tk ++ post) (List.length pre + List.length tk) e None (acc ++ [(k, w)])).
Lemma step_scalar t w : safe t -> (forall a, scalar a t = Ok w) -> step [t] w.
Proof.
  intros S Sc. split; [cbn; lia|]. split; [now apply N_safe|]. intros pre post f e Hf He. cbn [app List.length] in *. rewrite Nat.add_1_r. destruct (safe_not t true S) as [H1 _], (safe_not t false S) as [H2 _]. cbn [LT] in H1, H2.
  split; intros; cbn [array_loop object_loop]; rewrite (proj2 (Nat.ltb_lt _ _)) by lia; rewrite at_pre, (proj2 (String.eqb_neq _ _) H1), (proj2 (String.eqb_neq _ _) H2), Sc; reflexivity.
Qed.
Lemma N_nil : N []. Proof. intros b rest i c _. cbn. f_equal. lia. Qed.
Lemma steps_array tks ws : Forall2 step tks ws ->
  N (List.concat tks) /\ forall pre post f acc, (List.length (List.concat tks) < f)%nat -> array_loop f (pre ++ List.concat tks ++ post) (List.length pre) (List.length pre + List.length (List.concat tks)) acc = Some (Ok (acc ++ ws)).
Proof.
  intros H. induction H as [|tk w tks ws (S1 & S2 & S3) H [IH1 IH2]].
  { split; [exact N_nil|]. intros pre post [|f] acc Hf; [cbn in Hf; lia|]. cbn [array_loop List.concat List.length]. rewrite Nat.add_0_r, Nat.ltb_irrefl, app_nil_r. reflexivity. }
  split; [cbn [List.concat]; now apply N_app|]. intros pre post f acc Hf. cbn [List.concat] in *. rewrite app_length in *. destruct f as [|f]; [lia|].
  destruct (S3 pre (List.concat tks ++ post) f (List.length pre + (List.length tk + List.length (List.concat tks)))%nat ltac:(lia) ltac:(lia)) as [E _]. rewrite <- app_assoc, E. clear E.
  rewrite app_assoc, <- (app_length pre). replace (List.length pre + (List.length tk + List.length (List.concat tks)))%nat with (List.length (pre ++ tk) + List.length (List.concat tks))%nat by (rewrite !app_length; lia).
  rewrite IH2 by lia. now rewrite <- app_assoc.
Qed.
Lemma step_frame tks ws : Forall2 step tks ws -> step ("["%string :: List.concat tks ++ ["]"%string]) (JArr ws).
Proof.
  intros H. destruct (steps_array tks ws H) as [Nc P]. split; [cbn; lia|]. split; [exact (N_frame false _ Nc)|]. intros pre post f e Hf He.
  pose proof (find_frame false pre (List.concat tks) post Nc) as Fe. change (LT false) with "["%string in Fe. change (RT false) with "]"%string in Fe. cbn [List.length] in *. rewrite app_length in *. cbn [List.length] in *.
  set (ts := pre ++ ("["%string :: List.concat tks ++ ["]"%string]) ++ post) in *.
  assert (Sub : array_loop f ts (S (List.length pre)) (end_of ts (List.length pre + S (List.length (List.concat tks)))) [] = Some (Ok ws)).
  { unfold end_of. rewrite (proj2 (Nat.ltb_lt _ _)) by lia. unfold ts.
    replace (pre ++ ("["%string :: List.concat tks ++ ["]"%string]) ++ post) with ((pre ++ ["["%string]) ++ List.concat tks ++ (["]"%string] ++ post)) by (cbn; rewrite <- !app_assoc; reflexivity).
    replace (S (List.length pre)) with (List.length (pre ++ ["["%string])) by (rewrite app_length; cbn; lia).
    replace (List.length pre + S (List.length (List.concat tks)))%nat with (List.length (pre ++ ["["%string]) + List.length (List.concat tks))%nat by (rewrite app_length; cbn; lia).
    rewrite P by lia. reflexivity. }
  assert (At : nth_error ts (List.length pre) = Some "["%string) by (unfold ts; cbn [app]; apply at_pre).
  replace (List.length pre + S (List.length (List.concat tks) + 1))%nat with (S (List.length pre + S (List.length (List.concat tks)))) by lia.
  split; intros; cbn [array_loop object_loop]; rewrite (proj2 (Nat.ltb_lt _ _)) by lia; rewrite At; change (String.eqb "[" "{") with false; change (String.eqb "[" "[") with true; cbv iota zeta; rewrite Fe, Sub; reflexivity.
Qed.
(** The nested arrays. *)
Fixpoint nest (s : list Z) (g : list Z -> json) : json :=
  match s with [] => g [] | n :: s' => JArr (map (fun k => nest s' (fun idx => g (k :: idx))) (upto (Z.to_nat n) 0)) end.
Lemma upto_in n : forall i k, In k (upto n i) <-> i <= k < i + Z.of_nat n.
Proof. induction n as [|n IH]; intros i k; cbn [upto In]; [lia|]. rewrite IH. lia. Qed.
Lemma step_nest s : forall g h, (forall idx, VariableSpec.in_range s idx -> step [g idx] (h idx)) -> step (btoks s g) (nest s h).
Proof.
  induction s as [|n s IH]; intros g h H; cbn [btoks nest]; [apply H; constructor|]. rewrite flat_map_concat_map. apply step_frame.
  assert (K : forall l, (forall k, In k l -> 0 <= k < n) -> Forall2 step (map (fun k => btoks s (fun idx => g (k :: idx))) l) (map (fun k => nest s (fun idx => h (k :: idx))) l)).
  { induction l as [|k l IHl]; intros Hl; cbn [map]; constructor; [|apply IHl; intros j Hj; apply Hl; now right]. apply IH. intros idx Hi. apply H. constructor; [apply Hl; now left|exact Hi]. }
  apply K. intros k Hk. apply upto_in in Hk. lia.
Qed.
Lemma nth_upto n : forall i k, (k < n)%nat -> nth_error (upto n i) k = Some (i + Z.of_nat k).
Proof. induction n as [|n IH]; intros i k Hk; [lia|]. destruct k as [|k]; cbn [upto nth_error]; [f_equal; lia|]. rewrite IH by lia. f_equal. lia. Qed.
Lemma follow_nest s : forall g idx, VariableSpec.in_range s idx -> follow (nest s g) idx = Some (g idx).
Proof.
  induction s as [|n s IH]; intros g idx H; inversion H as [|? k ? idx' Hk Hi]; subst; cbn [nest follow]; [reflexivity|].
  rewrite (map_nth_error _ (Z.to_nat k) (upto (Z.to_nat n) 0) (nth_upto (Z.to_nat n) 0 (Z.to_nat k) ltac:(lia))). rewrite IH by exact Hi. f_equal. f_equal. f_equal. lia.
Qed.
Lemma upto_length n : forall i, List.length (upto n i) = n. Proof. induction n as [|n IH]; intros i; cbn; [reflexivity|now rewrite IH]. Qed.
Lemma shaped_nest s : Forall (fun n => 0 < n) s -> forall g, shaped s (nest s g).
Proof.
  intros F. induction F as [|n s Hn F IH]; intros g; cbn [nest shaped]; [exact Logic.I|]. eexists. split; [reflexivity|]. split; [rewrite map_length, upto_length; lia|]. apply Forall_forall. intros w Hw. apply in_map_iff in Hw. destruct Hw as (k & <- & _). apply IH.
Qed.
Lemma storable_nest s : forall g, (forall idx, VariableSpec.in_range s idx -> storable true (g idx)) -> storable true (nest s g).
Proof.
  induction s as [|n s IH]; intros g H; cbn [nest]; [apply H; constructor|]. apply astore_iff. apply Forall_forall. intros w Hw. apply in_map_iff in Hw. destruct Hw as (k & <- & Hk). apply upto_in in Hk. apply IH. intros idx Hi. apply H. constructor; [lia|exact Hi].
Qed.
Lemma rank_bound s : Forall (fun n => 0 < n) s -> forall idx, VariableSpec.in_range s idx -> 0 <= rank s idx < volume s.
Proof.
  intros F. induction F as [|n s Hn F IH]; intros idx H; inversion H as [|? k ? idx' Hk Hi]; subst; cbn [rank volume]; [lia|]. specialize (IH idx' Hi). nia.
Qed.
Lemma item_in p idx : sound p -> VariableSpec.in_range (vp_shape p) idx -> nth_error (vp_values p) (Z.to_nat (rank (vp_shape p) idx)) = Some (item p idx) /\ sound_value (item p idx).
Proof.
  intros (G & L & _ & V) R. pose proof (rank_bound _ (proj2 G) idx R) as Bd. unfold item. split; [apply nth_error_nth'; lia|]. rewrite Forall_forall in V. apply V. apply nth_In. lia.
Qed.
(** One proxy: some value presents it, and its tokens are read as that value. *)
Lemma btoks_words s g : (forall idx, word (g idx)) -> Forall word (btoks s g).
Proof.
  revert g. induction s as [|n s IH]; intros g H; cbn [btoks]; [constructor; [apply H|constructor]|]. constructor; [right; right; now left|]. apply Forall_app. split; [|constructor; [right; right; now right|constructor]].
  apply Forall_forall. intros w Hw. apply in_flat_map in Hw. destruct Hw as (k & _ & Hw). pose proof (IH (fun idx => g (k :: idx)) (fun idx => H (k :: idx))) as Q. rewrite Forall_forall in Q. now apply Q.
Qed.
Definition value_json (v : value) : json := match scalar true (value_text v) with Ok w => w | _ => JNull end.
Lemma proxy_value p : sound p -> exists w, step (btoks (vp_shape p) (fun idx => value_text (item p idx))) w /\ presents shown p w /\ storable true w.
Proof.
  intros S. pose proof S as (G & L & _ & V). exists (nest (vp_shape p) (fun idx => value_json (item p idx))).
  assert (K : forall idx, VariableSpec.in_range (vp_shape p) idx -> (forall a, scalar a (value_text (item p idx)) = Ok (value_json (item p idx))) /\ shown (item p idx) (value_json (item p idx)) /\ storable true (value_json (item p idx))).
  { intros idx R. destruct (item_in p idx S R) as [_ Sv]. destruct (value_scalar _ Sv) as (w & W1 & W2 & W3). unfold value_json. rewrite (W1 true). now split. }
  split; [|split].
  - apply step_nest. intros idx R. apply step_scalar; [apply value_safe|apply (proj1 (K idx R))].
  - split; [apply shaped_nest; exact (proj2 G)|]. intros idx R. exists (item p idx), (value_json (item p idx)). split; [exact (proj1 (item_in p idx S R))|]. split; [now apply follow_nest|apply K; exact R].
  - apply storable_nest. intros idx R. apply K. exact R.
Qed.
Definition ptoks (p : string * vproxy) : list string := btoks (vp_shape (snd p)) (fun idx => value_text (item (snd p) idx)).
Lemma steps_object ps ws : Forall2 (fun p w => step (ptoks p) w) ps ws ->
  forall pre post f acc, (List.length (flat_map (fun p => quoted (fst p) :: ptoks p) ps) < f)%nat ->
  object_loop f (pre ++ flat_map (fun p => quoted (fst p) :: ptoks p) ps ++ post) (List.length pre) (List.length pre + List.length (flat_map (fun p => quoted (fst p) :: ptoks p) ps)) None acc = Some (Ok (acc ++ combine (map fst ps) ws)).
Proof.
  intros H. induction H as [|[k p] w ps ws (S1 & S2 & S3) H IH]; intros pre post f acc Hf.
  { destruct f as [|f]; [cbn in Hf; lia|]. cbn [object_loop flat_map List.length map combine]. rewrite Nat.add_0_r, Nat.ltb_irrefl, app_nil_r. reflexivity. }
  cbn [flat_map app fst List.length map combine] in *. set (tk := ptoks (k, p)) in *. set (tl := flat_map (fun p => quoted (fst p) :: ptoks p) ps) in *. rewrite app_length in *. destruct f as [|[|f]]; [lia|lia|].
  cbn [object_loop]. rewrite (proj2 (Nat.ltb_lt _ _)) by lia. rewrite at_pre, inner_quoted.
  replace (S (List.length pre)) with (List.length (pre ++ [quoted k])) by (rewrite app_length; cbn; lia).
  replace (pre ++ quoted k :: (tk ++ tl) ++ post) with ((pre ++ [quoted k]) ++ tk ++ (tl ++ post)) by (rewrite <- !app_assoc; reflexivity).
  destruct (S3 (pre ++ [quoted k]) (tl ++ post) f (List.length pre + S (List.length tk + List.length tl))%nat ltac:(lia) ltac:(rewrite app_length; cbn; lia)) as [_ E].
  etransitivity; [exact (E k acc)|]. clear E.
  rewrite !app_assoc, <- (app_assoc _ tl). rewrite <- (app_length (pre ++ [quoted k])).
  replace (List.length pre + S (List.length tk + List.length tl))%nat with (List.length ((pre ++ [quoted k]) ++ tk) + List.length tl)%nat by (rewrite !app_length; cbn; lia).
  rewrite IH by lia. now rewrite <- app_assoc.
Qed.
Lemma array_words ps : Forall (fun p => sound (snd p)) ps -> array_text ps = " { " +++ (words (flat_map (fun p => quoted (fst p) :: ptoks p) ps) +++ "}").
Proof.
  intros H. unfold array_text. f_equal. f_equal. induction H as [|[k p] ps (G & L & _) H IH]; [reflexivity|]. cbn [map fold_right flat_map fst snd] in *. rewrite IH, words_app, (proxy_words k p G L). reflexivity.
Qed.
Lemma created ps : Forall (fun p => plain (fst p) /\ sound (snd p)) ps ->
  exists m, Forall2 (fun p e => fst e = fst p /\ presents shown (snd p) (snd e) /\ storable true (snd e)) ps m /\
  exists steps, forall fuel, (steps <= fuel)%nat -> create_json_array fuel ps = Some (Ok m).
Proof.
  intros H. assert (W : exists ws, Forall2 (fun p w => step (ptoks p) w) ps ws /\ Forall2 (fun p w => presents shown (snd p) w /\ storable true w) ps ws).
  { induction H as [|p ps [Hn Hs] H (ws & W1 & W2)]; [exists []; split; constructor|]. destruct (proxy_value (snd p) Hs) as (w & P1 & P2 & P3). exists (w :: ws). split; constructor; auto. }
  destruct W as (ws & W1 & W2). exists (combine (map fst ps) ws). split.
  - clear - W2. induction W2 as [|p w ps ws [H1 H2] W2 IH]; cbn [map combine]; constructor; [cbn; auto|exact IH].
  - exists (S (List.length (flat_map (fun p => quoted (fst p) :: ptoks p) ps))). intros fuel Hf. unfold create_json_array, parse_json_object.
    rewrite (array_words ps) by (eapply Forall_impl; [|exact H]; cbn; tauto). set (ts := flat_map (fun p => quoted (fst p) :: ptoks p) ps) in *. rewrite (frame_tokens ts).
    + unfold end_of. change (Nat.ltb 0 0) with false. cbv iota. replace (List.length ("{"%string :: ts ++ ["}"%string]) - 1)%nat with (List.length ["{"%string] + List.length ts)%nat by (cbn [List.length]; rewrite app_length; cbn; lia).
      pose proof (steps_object ps ws W1 ["{"%string] ["}"%string] fuel [] Hf) as Q. exact Q.
    + unfold ts. clear - H. apply Forall_forall. intros w Hw. apply in_flat_map in Hw. destruct Hw as (p & Hp & Hw). rewrite Forall_forall in H. destruct (H p Hp) as [Hn _]. destruct Hw as [<- |Hw].
      * right. left. exists (fst p). split; [now apply plain_chars|reflexivity].
      * pose proof (btoks_words (vp_shape (snd p)) (fun idx => value_text (item (snd p) idx)) (fun idx => or_introl (value_safe _))) as Q. rewrite Forall_forall in Q. now apply Q.
Qed.
