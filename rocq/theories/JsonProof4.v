(** Written values are well closed, and the parser rebuilds them from their tokens. *)
From Coq Require Import List ZArith QArith Qabs Bool String Ascii Lia Lqa.
From Verif Require Import TextModel TextProof TextProof2 PresolveModel JsonModel JsonSpec JsonProof JsonProof2 JsonProof3.
Import ListNotations.
Local Open Scope Z_scope.
Local Notation "a +++ b" := (append a b) (at level 60, right associativity).

(** ** close_count *)
Definition LB (b : bool) : ascii := if b then "{"%char else "["%char.
Definition RB (b : bool) : ascii := if b then "}"%char else "]"%char.
Definition LT (b : bool) : string := if b then "{"%string else "["%string.
Definition RT (b : bool) : string := if b then "}"%string else "]"%string.
Definition level (s : string) : Prop := forall b rest c, close_count (LB b) (RB b) (join_lines s +++ rest) false c = close_count (LB b) (RB b) rest false c.
Lemma level_app s t : level s -> level t -> level (s +++ t).
Proof. intros H1 H2 b rest c. rewrite join_app, app_assoc', H1. apply H2. Qed.
Lemma eqb_part c d : existsb (Ascii.eqb c) [","; ":"; "{"; "}"; "["; "]"]%char = false -> In d [","; ":"; "{"; "}"; "["; "]"]%char -> Ascii.eqb c d = false.
Proof. intros H I. destruct (Ascii.eqb c d) eqn:E; [|reflexivity]. rewrite <- H. symmetry. apply existsb_exists. now exists d. Qed.
Lemma bracket_in b : In (LB b) [","; ":"; "{"; "}"; "["; "]"]%char /\ In (RB b) [","; ":"; "{"; "}"; "["; "]"]%char.
Proof. destruct b; cbn; tauto. Qed.
Lemma level_safe w : all_chars safe_char w = true -> level w.
Proof.
  intros H b rest c. rewrite join_id by (apply (all_impl safe_char); [|exact H]; intros d Hd; destruct (safe_char_facts d Hd) as (_ & -> & _); reflexivity).
  induction w as [|d w IH]; [reflexivity|]. cbn [all_chars] in H. apply andb_prop in H. destruct H as [H1 H2]. cbn [append close_count]. destruct (safe_char_facts d H1) as (F1 & _ & _ & _ & F).
  rewrite F1, !(eqb_part _ _ F) by apply bracket_in. exact (IH H2).
Qed.
Lemma level_quoted s : good s -> level (quoted s).
Proof.
  intros H b rest c. assert (J : join_lines (quoted s) = quoted s).
  { unfold quoted. change (String QUOTE (s +++ String QUOTE "")) with ((String QUOTE "") +++ (s +++ String QUOTE "")). rewrite !join_app. f_equal.
    rewrite (join_id s); [reflexivity|]. apply (all_impl (fun c => negb (bad_char c))); [|exact H]. intros d Hd. destruct (bad_char_facts d Hd) as (_ & -> & _). reflexivity. }
  rewrite J. unfold quoted. cbn [append close_count]. change (Ascii.eqb QUOTE QUOTE) with true. cbv iota. cbn [negb]. rewrite app_assoc'.
  induction s as [|d s IH]; [cbn [append close_count]; change (Ascii.eqb QUOTE QUOTE) with true; reflexivity|]. unfold good in *. cbn [all_chars] in H. apply andb_prop in H. destruct H as [H1 H2].
  destruct (bad_char_facts d H1) as (F1 & _). cbn [append close_count]. rewrite F1. apply (IH H2).
  assert (J' := J). clear -H2. unfold quoted. change (String QUOTE (s +++ String QUOTE "")) with ((String QUOTE "") +++ (s +++ String QUOTE "")). rewrite !join_app. f_equal.
  rewrite (join_id s); [reflexivity|]. apply (all_impl (fun c => negb (bad_char c))); [|exact H2]. intros d Hd. destruct (bad_char_facts d Hd) as (_ & -> & _). reflexivity.
Qed.
Lemma level_indent n : level (indent n).
Proof. induction n as [|n IH]; [intros b rest c; reflexivity|]. cbn [indent]. apply level_app; [|exact IH]. intros b rest c. destruct b; reflexivity. Qed.
Lemma level_frame o s e : (o = "{ " /\ e = "}" \/ o = "[ " /\ e = "]")%string -> level s -> level (o +++ (s +++ e)).
Proof.
  intros H L b rest c. rewrite !join_app, !app_assoc'. destruct H as [[-> ->]|[-> ->]]; destruct b.
  - change (join_lines "{ ") with "{ "%string. change (join_lines "}") with "}"%string. cbn [append LB RB close_count]. change (Ascii.eqb "{" QUOTE) with false. cbv iota. change (Ascii.eqb "{" "{") with true. cbv iota.
    change (Ascii.eqb " " QUOTE) with false. change (Ascii.eqb " " "{") with false. change (Ascii.eqb " " "}") with false. cbv iota.
    rewrite (L true). cbn. f_equal. lia.
  - change (join_lines "{ ") with "{ "%string. change (join_lines "}") with "}"%string. cbn [append]. 
    transitivity (close_count (LB false) (RB false) (join_lines s +++ String "}" rest) false c); [reflexivity|]. rewrite (L false). reflexivity.
  - change (join_lines "[ ") with "[ "%string. change (join_lines "]") with "]"%string. cbn [append]. 
    transitivity (close_count (LB true) (RB true) (join_lines s +++ String "]" rest) false c); [reflexivity|]. rewrite (L true). reflexivity.
  - change (join_lines "[ ") with "[ "%string. change (join_lines "]") with "]"%string. cbn [append]. 
    transitivity (close_count (LB false) (RB false) (join_lines s +++ String "]" rest) false (c + 1)); [reflexivity|]. rewrite (L false). cbn. f_equal. lia.
Qed.
Lemma level_const s : (s = EmptyString \/ s = ", " \/ s = ": " \/ s = newline)%string -> level s.
Proof. intros H b rest c. destruct H as [-> |[-> |[-> | ->]]]; destruct b; reflexivity. Qed.
Definition L' (v : json) : Prop := forall a n, storable a v -> level (text n v).
Lemma level_oelems n l : Forall (fun e => L' (snd e)) l -> ostore l -> forall sep, (sep = EmptyString \/ sep = ", "%string) -> level (oelems n sep l).
Proof.
  induction l as [|[k v] l IH]; intros F St sep Hs; [now apply level_const; left|]. inversion F as [|? ? F1 F2]; subst. inversion St as [|? ? [S1 S2] S3]; subst. cbn [fst snd] in *. cbn [oelems]. fold (oelems n).
  repeat apply level_app; [apply level_const; tauto|apply level_const; tauto|apply (level_indent 1)|apply level_indent|now apply level_quoted|apply level_const; tauto|exact (F1 false (S n) S2)|apply (IH F2 S3); now right].
Qed.
Lemma level_aelems n l : Forall L' l -> astore l -> forall sep, (sep = EmptyString \/ sep = ", "%string) -> level (aelems n sep l).
Proof.
  induction l as [|v l IH]; intros F St sep Hs; [now apply level_const; left|]. inversion F as [|? ? F1 F2]; subst. inversion St as [|? ? S2 S3]; subst. cbn [aelems]. fold (aelems n).
  repeat apply level_app; [apply level_const; tauto|apply level_const; tauto|apply (level_indent 1)|apply level_indent|exact (F1 true (S n) S2)|apply (IH F2 S3); now right].
Qed.
Lemma level_value v : L' v.
Proof.
  induction v as [|k z|q|t|b|s|l IH|l IH] using json_ind'; intros a n St.
  - now apply level_safe.
  - apply level_safe, int_safe.
  - apply level_safe, sci_safe.
  - apply level_safe, special_safe, St.
  - apply level_safe. destruct b; reflexivity.
  - apply level_quoted. now apply plain_chars.
  - apply ostore_iff in St. rewrite text_obj. destruct l as [|e l]; [intros b rest c; destruct b; cbn; f_equal; lia|].
    rewrite <- (app_assoc' newline), <- (app_assoc' (oelems _ _ _)). apply level_frame; [now left|]. apply level_app; [apply (level_oelems n _ IH St); now left|]. apply level_app; [apply level_const; tauto|apply level_indent].
  - apply astore_iff in St. rewrite text_arr. destruct l as [|e l]; [intros b rest c; destruct b; cbn; f_equal; lia|].
    rewrite <- (app_assoc' newline), <- (app_assoc' (aelems _ _ _)). apply level_frame; [now right|]. apply level_app; [apply (level_aelems n _ IH St); now left|]. apply level_app; [apply level_const; tauto|apply level_indent].
Qed.
Lemma written_closed a n v : storable a v -> well_closed (join_lines (text n v)) = true.
Proof.
  intros St. unfold well_closed. pose proof (level_value v a n St true EmptyString 0) as H1. pose proof (level_value v a n St false EmptyString 0) as H2.
  rewrite app_nil' in H1, H2. unfold LB, RB in *. rewrite H1, H2. reflexivity.
Qed.
Lemma no_bad_cast v : forall a, storable a v -> bad_cast v = false.
Proof.
  induction v as [|k z|q|t|b|s|l IH|l IH] using json_ind'; intros a St; try reflexivity.
  - apply ostore_iff in St. cbn [bad_cast]. apply not_true_is_false. intros E. apply existsb_exists in E. destruct E as (e & E1 & E2).
    unfold ostore in St. rewrite Forall_forall in IH, St. rewrite (IH e E1 false (proj2 (St e E1))) in E2. discriminate.
  - apply astore_iff in St. cbn [bad_cast]. apply not_true_is_false. intros E. apply existsb_exists in E. destruct E as (e & E1 & E2).
    unfold astore in St. rewrite Forall_forall in IH, St. rewrite (IH e E1 true (St e E1)), orb_false_r in E2. specialize (St e E1).
    destruct e as [|[] z| | | | | |]; try discriminate. destruct St as [_ St]. now apply St.
Qed.

(** ** find_end *)
Lemma find_word b w rest i c : w <> LT b -> w <> RT b -> find_from (LT b) (RT b) (w :: rest) i c = find_from (LT b) (RT b) rest (S i) c.
Proof. intros H1 H2. cbn [find_from]. rewrite (proj2 (String.eqb_neq _ _) H1), (proj2 (String.eqb_neq _ _) H2). reflexivity. Qed.
Definition N (ts : list string) : Prop := forall b rest i c, 1 <= c -> find_from (LT b) (RT b) (ts ++ rest) i c = find_from (LT b) (RT b) rest (i + List.length ts)%nat c.
Lemma N_app s t : N s -> N t -> N (s ++ t).
Proof. intros H1 H2 b rest i c Hc. rewrite <- app_assoc, (H1 b _ _ _ Hc), (H2 b _ _ _ Hc), app_length. f_equal. lia. Qed.
Lemma N_word w : (forall b, w <> LT b) -> (forall b, w <> RT b) -> N [w].
Proof. intros H1 H2 b rest i c Hc. cbn [app]. rewrite find_word by auto. f_equal. cbn. lia. Qed.
Lemma safe_not w b : safe w -> w <> LT b /\ w <> RT b.
Proof. intros [_ H]. split; intros ->; destruct b; discriminate H. Qed.
Lemma N_safe w : safe w -> N [w].
Proof. intros H. apply N_word; intros b; apply (safe_not w b H). Qed.
Lemma N_quoted s : N [quoted s].
Proof. apply N_word; intros b; destruct b; discriminate. Qed.
Lemma N_frame b ts : N ts -> N (LT b :: ts ++ [RT b]).
Proof.
  intros H b' rest i c Hc. cbn [app]. rewrite <- app_assoc. destruct (Bool.bool_dec b b') as [<- |D].
  - cbn [find_from]. rewrite String.eqb_refl. rewrite (H b _ _ _) by lia. cbn [app find_from]. rewrite (proj2 (String.eqb_neq (RT b) (LT b))) by (destruct b; discriminate).
    rewrite String.eqb_refl. destruct (Z.eqb_spec (c + 1 - 1) 0); [lia|]. f_equal; [|lia]. cbn [List.length]. rewrite app_length. cbn. lia.
  - rewrite find_word by (destruct b, b'; discriminate || congruence). rewrite (H b' _ _ _ Hc). cbn [app]. rewrite find_word by (destruct b, b'; discriminate || congruence).
    f_equal. cbn [List.length]. rewrite app_length. cbn. lia.
Qed.
Lemma N_value v : forall a, storable a v -> N (toks v).
Proof.
  induction v as [|k z|q|t|b|s|l IH|l IH] using json_ind'; intros a St; cbn [toks].
  - now apply N_safe.
  - apply N_safe, int_safe.
  - apply N_safe, sci_safe.
  - apply N_safe, special_safe, St.
  - apply N_safe. destruct b; now split.
  - apply N_quoted.
  - apply ostore_iff in St. apply (N_frame true). induction l as [|[k v] l G]; [intros b rest i c _; cbn; f_equal; lia|]. inversion IH; subst. inversion St as [|? ? [S1 S2] S3]; subst.
    cbn [flat_map fst snd app]. apply (N_app [_]); [apply N_quoted|]. apply N_app; [|now apply G]. eauto.
  - apply astore_iff in St. apply (N_frame false). induction l as [|v l G]; [intros b rest i c _; cbn; f_equal; lia|]. inversion IH; subst. inversion St; subst.
    cbn [flat_map]. apply N_app; [|now apply G]. eauto.
Qed.
Lemma skip_pre {A} (pre l : list A) : skipn (List.length pre) (pre ++ l) = l.
Proof. induction pre as [|x pre IH]; [reflexivity|exact IH]. Qed.
Lemma find_frame b pre ts post : N ts -> find_end (pre ++ (LT b :: ts ++ [RT b]) ++ post) (List.length pre) (LT b) (RT b) = (List.length pre + S (List.length ts))%nat.
Proof.
  intros H. unfold find_end. rewrite skip_pre. cbn [app find_from]. rewrite String.eqb_refl, <- app_assoc, (H b _ _ _) by lia. cbn [app find_from].
  rewrite (proj2 (String.eqb_neq (RT b) (LT b))) by (destruct b; discriminate). rewrite String.eqb_refl. cbn. lia.
Qed.
