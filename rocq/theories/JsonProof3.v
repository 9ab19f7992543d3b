(** The tokens of a written value, and what the parser makes of them. *)
From Coq Require Import List ZArith QArith Qabs Bool String Ascii Lia Lqa.
From Verif Require Import TextModel TextProof TextProof2 PresolveModel JsonModel JsonSpec JsonProof JsonProof2.
Import ListNotations.
Local Open Scope Z_scope.
Local Notation "a +++ b" := (append a b) (at level 60, right associativity).

Lemma json_ind' (P : json -> Prop) :
  P JNull -> (forall k z, P (JInt k z)) -> (forall q, P (JReal q)) -> (forall t, P (JSpecial t)) -> (forall b, P (JBool b)) -> (forall s, P (JStr s)) ->
  (forall l, Forall (fun e => P (snd e)) l -> P (JObj l)) -> (forall l, Forall P l -> P (JArr l)) -> forall v, P v.
Proof.
  intros H1 H2 H3 H4 H5 H6 H7 H8. fix IH 1. intros [|k z|q|t|b|s|l|l]; [exact H1|apply H2|apply H3|apply H4|apply H5|apply H6| |].
  - apply H7. induction l as [|[k v] l G]; constructor; [apply IH|exact G].
  - apply H8. induction l as [|v l G]; constructor; [apply IH|exact G].
Qed.

Fixpoint toks (v : json) : list string :=
  match v with
  | JNull => ["null"%string]
  | JInt _ z => [print_int z]
  | JReal q => [print_sci q]
  | JSpecial t => [t]
  | JBool b => [bool_text b]
  | JStr s => [quoted s]
  | JObj l => "{"%string :: flat_map (fun e => quoted (fst e) :: toks (snd e)) l ++ ["}"%string]
  | JArr l => "["%string :: flat_map toks l ++ ["]"%string]
  end.
Definition otoks (l : list (string * json)) : list string := flat_map (fun e => quoted (fst e) :: toks (snd e)) l.
Definition atoks (l : list json) : list string := flat_map toks l.
Definition good (s : string) : Prop := all_chars (fun c => negb (bad_char c)) s = true.
Definition ostore (l : list (string * json)) : Prop := Forall (fun e => good (fst e) /\ storable false (snd e)) l.
Definition astore (l : list json) : Prop := Forall (storable true) l.
Lemma ostore_iff l a : storable a (JObj l) <-> ostore l.
Proof.
  cbn. induction l as [|[k v] l IH]; [split; [constructor|exact (fun _ => Logic.I)]|]. split.
  - intros (H1 & H2 & H3). constructor; [split; [now apply plain_chars|exact H2]|now apply IH].
  - intros H. inversion H as [|x y [H1 H2] H3]; subst. split; [now apply plain_chars|]. split; [exact H2|now apply IH].
Qed.
Lemma astore_iff l a : storable a (JArr l) <-> astore l.
Proof.
  cbn. induction l as [|v l IH]; [split; [constructor|exact (fun _ => Logic.I)]|]. split.
  - intros (H1 & H2). constructor; [exact H1|now apply IH].
  - intros H. inversion H; subst. split; [assumption|now apply IH].
Qed.

(** ** Text of objects and arrays *)
Definition oelems (n : nat) : string -> list (string * json) -> string :=
  fix elements (separator : string) (l : list (string * json)) : string :=
    match l with
    | [] => EmptyString
    | (k, v) :: tl =>
        append separator (append newline (append (indent (S n)) (append (quoted k) (append ": " (append (text (S n) v) (elements ", "%string tl))))))
    end.
Definition aelems (n : nat) : string -> list json -> string :=
  fix elements (separator : string) (l : list json) : string :=
    match l with
    | [] => EmptyString
    | v :: tl => append separator (append newline (append (indent (S n)) (append (text (S n) v) (elements ", "%string tl))))
    end.
Lemma text_obj n l : text n (JObj l) = match l with [] => "{}"%string | _ => "{ " +++ (oelems n EmptyString l +++ (newline +++ (indent n +++ "}"))) end.
Proof. destruct l; reflexivity. Qed.
Lemma text_arr n l : text n (JArr l) = match l with [] => "[]"%string | _ => "[ " +++ (aelems n EmptyString l +++ (newline +++ (indent n +++ "]"))) end.
Proof. destruct l; reflexivity. Qed.

Definition X (s : string) : string := expand (join_lines s).
Lemma X_app a b : X (a +++ b) = X a +++ X b.
Proof. unfold X. now rewrite join_app, expand_app. Qed.
Lemma X_safe w : all_chars safe_char w = true -> X w = w.
Proof.
  intros H. unfold X. rewrite join_id, expand_id; [reflexivity| |].
  - apply (all_impl safe_char); [|exact H]. intros c Hc. destruct (safe_char_facts c Hc) as (_ & _ & _ & _ & ->). reflexivity.
  - apply (all_impl safe_char); [|exact H]. intros c Hc. destruct (safe_char_facts c Hc) as (_ & -> & _). reflexivity.
Qed.
Lemma X_good s : good s -> X s = s.
Proof.
  intros H. unfold X. rewrite join_id, expand_id; [reflexivity| |].
  - apply (all_impl (fun c => negb (bad_char c))); [|exact H]. intros c Hc. destruct (bad_char_facts c Hc) as (_ & _ & ->). reflexivity.
  - apply (all_impl (fun c => negb (bad_char c))); [|exact H]. intros c Hc. destruct (bad_char_facts c Hc) as (_ & -> & _). reflexivity.
Qed.
Lemma X_quoted s : good s -> X (quoted s) = quoted s.
Proof. intros H. unfold quoted. change (String QUOTE (s +++ String QUOTE "")) with ((String QUOTE "") +++ (s +++ String QUOTE "")). rewrite !X_app, (X_good s H). reflexivity. Qed.
Lemma X_indent n : X (indent n) = indent n.
Proof. induction n as [|n IH]; [reflexivity|]. cbn [indent]. rewrite X_app, IH. reflexivity. Qed.

Lemma special_safe t : In t ["inf"; "-inf"; "nan"; "-nan"]%string -> safe t.
Proof. intros H. cbn in H. repeat (destruct H as [<-|H]; [split; [discriminate|reflexivity]|]). destruct H. Qed.

Definition V (v : json) : Prop := forall a n rest, storable a v -> space_start rest -> split_tokens (X (text n v) +++ rest) None false = (toks v ++ split_tokens rest None false)%list.
Lemma safe_V w rest : safe w -> space_start rest -> split_tokens (X w +++ rest) None false = ([w] ++ split_tokens rest None false)%list.
Proof. intros W S. rewrite X_safe by apply W. now rewrite split_word_token. Qed.
Lemma start_app n sep l rest : (l = [] /\ space_start rest) \/ (l <> [] /\ sep = ", "%string) -> space_start (X (oelems n sep l) +++ rest).
Proof. intros [[-> H]|[H ->]]; [exact H|]. destruct l as [|[k v] l]; [congruence|]. cbn [oelems]. rewrite X_app. reflexivity. Qed.
Lemma start_app' n sep l rest : (l = [] /\ space_start rest) \/ (l <> [] /\ sep = ", "%string) -> space_start (X (aelems n sep l) +++ rest).
Proof. intros [[-> H]|[H ->]]; [exact H|]. destruct l as [|v l]; [congruence|]. cbn [aelems]. rewrite X_app. reflexivity. Qed.
Lemma nil_or {A} (l : list A) : l = [] \/ l <> []. Proof. destruct l; [now left|right; discriminate]. Qed.
Lemma oelems_tokens n l : Forall (fun e => V (snd e)) l -> ostore l -> forall sep rest, (sep = EmptyString \/ sep = ", "%string) -> space_start rest ->
  split_tokens (X (oelems n sep l) +++ rest) None false = (otoks l ++ split_tokens rest None false)%list.
Proof.
  induction l as [|[k v] l IH]; intros F St sep rest Hs Sr; [reflexivity|]. inversion F as [|? ? F1 F2]; subst. inversion St as [|? ? [S1 S2] S3]; subst. cbn [fst snd] in *.
  cbn [oelems]. fold (oelems n). rewrite !X_app, !app_assoc'. change (X newline) with EmptyString. cbn [append]. rewrite X_indent, (X_quoted k S1). change (X ": ") with "  "%string.
  assert (E0 : forall u, split_tokens (X sep +++ u) None false = split_tokens u None false) by (intros u; destruct Hs as [-> | ->]; reflexivity). rewrite E0, indent_spaces.
  rewrite split_quoted_token by (try exact S1; reflexivity). cbn [otoks flat_map app fst snd]. f_equal.
  change (split_tokens ("  " +++ ?u) None false) with (split_tokens u None false). rewrite <- app_assoc. 
  etransitivity; [exact (F1 false (S n) (X (oelems n ", " l) +++ rest) S2 ltac:(apply start_app; destruct (nil_or l); [left|right]; split; auto))|]. f_equal.
  apply (IH F2 S3); [now right|exact Sr].
Qed.
Lemma aelems_tokens n l : Forall V l -> astore l -> forall sep rest, (sep = EmptyString \/ sep = ", "%string) -> space_start rest ->
  split_tokens (X (aelems n sep l) +++ rest) None false = (atoks l ++ split_tokens rest None false)%list.
Proof.
  induction l as [|v l IH]; intros F St sep rest Hs Sr; [reflexivity|]. inversion F as [|? ? F1 F2]; subst. inversion St as [|? ? S2 S3]; subst.
  cbn [aelems]. fold (aelems n). rewrite !X_app, !app_assoc'. change (X newline) with EmptyString. cbn [append]. rewrite X_indent.
  assert (E0 : forall u, split_tokens (X sep +++ u) None false = split_tokens u None false) by (intros u; destruct Hs as [-> | ->]; reflexivity). rewrite E0, indent_spaces.
  cbn [atoks flat_map]. rewrite <- app_assoc.
  etransitivity; [exact (F1 true (S n) (X (aelems n ", " l) +++ rest) S2 ltac:(apply start_app'; destruct (nil_or l); [left|right]; split; auto))|]. f_equal.
  apply (IH F2 S3); [now right|exact Sr].
Qed.
Lemma close_obj n rest : space_start rest -> split_tokens ((indent n +++ " }") +++ rest) None false = "}"%string :: split_tokens rest None false.
Proof. intros S. rewrite app_assoc', indent_spaces. change (split_tokens (" }" +++ rest) None false) with (split_tokens ("}" +++ rest) None false). destruct rest as [|c r]; [reflexivity|]. cbn in S. subst c. reflexivity. Qed.
Lemma close_arr n rest : space_start rest -> split_tokens ((indent n +++ " ]") +++ rest) None false = "]"%string :: split_tokens rest None false.
Proof. intros S. rewrite app_assoc', indent_spaces. change (split_tokens (" ]" +++ rest) None false) with (split_tokens ("]" +++ rest) None false). destruct rest as [|c r]; [reflexivity|]. cbn in S. subst c. reflexivity. Qed.
Lemma close_start n b rest : (b = " }" \/ b = " ]")%string -> space_start ((indent n +++ b) +++ rest).
Proof. intros [-> | ->]; destruct n; reflexivity. Qed.
Lemma value_tokens v : V v.
Proof.
  induction v as [|k z|q|t|b|s|l IH|l IH] using json_ind'; intros a n rest St Sr.
  - apply safe_V; [split; [discriminate|reflexivity]|exact Sr].
  - apply safe_V; [apply int_safe|exact Sr].
  - apply safe_V; [apply sci_safe|exact Sr].
  - apply safe_V; [apply special_safe; exact St|exact Sr].
  - apply safe_V; [destruct b; (split; [discriminate|reflexivity])|exact Sr].
  - cbn [text toks]. apply plain_chars in St. rewrite X_quoted by exact St. now apply split_quoted_token.
  - apply ostore_iff in St. rewrite text_obj. destruct l as [|e l].
    + destruct rest as [|c r]; [reflexivity|]. cbn in Sr. subst c. reflexivity.
    + rewrite !X_app, !app_assoc'. change (X newline) with EmptyString. change (X "}") with " }"%string. change (X "{ ") with ("{  "%string). rewrite X_indent. cbn [append].
      change (split_tokens (String "{" (String " " (String " " ?u))) None false) with ("{"%string :: split_tokens u None false).
      change (String " " (String "}" rest)) with (" }" +++ rest).
      rewrite (oelems_tokens n (e :: l) IH St EmptyString _ (or_introl eq_refl)).
      * rewrite <- app_assoc', close_obj by exact Sr. cbn [toks app]. f_equal. fold (otoks (e :: l)). rewrite <- app_assoc. reflexivity.
      * rewrite <- app_assoc'. apply close_start. now left.
  - apply astore_iff in St. rewrite text_arr. destruct l as [|e l].
    + destruct rest as [|c r]; [reflexivity|]. cbn in Sr. subst c. reflexivity.
    + rewrite !X_app, !app_assoc'. change (X newline) with EmptyString. change (X "]") with " ]"%string. change (X "[ ") with ("[  "%string). rewrite X_indent. cbn [append].
      change (split_tokens (String "[" (String " " (String " " ?u))) None false) with ("["%string :: split_tokens u None false).
      change (String " " (String "]" rest)) with (" ]" +++ rest).
      rewrite (aelems_tokens n (e :: l) IH St EmptyString _ (or_introl eq_refl)).
      * rewrite <- app_assoc', close_arr by exact Sr. cbn [toks app]. f_equal. fold (atoks (e :: l)). rewrite <- app_assoc. reflexivity.
      * rewrite <- app_assoc'. apply close_start. now right.
Qed.
Lemma tokenize_text a n v : storable a v -> tokenize (join_lines (text n v)) = toks v.
Proof.
  intros St. unfold tokenize. rewrite crlf_none by apply join_no_lf. pose proof (value_tokens v a n EmptyString St Logic.I) as H. rewrite app_nil' in H. unfold X in H. rewrite H. apply app_nil_r.
Qed.
