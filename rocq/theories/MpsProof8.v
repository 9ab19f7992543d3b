(** Proofs for C44: what separates the items of a line, and which variables are fixed. *)
From Coq Require Import List ZArith QArith Bool String Ascii Lia.
From Verif Require Import ExprModel ConstraintModel VariableModel PresolveModel TextModel TextProof MpsModel MpsSpec MpsProof MpsProof2 MpsProof3.
Import ListNotations.
Local Open Scope Z_scope.
Local Open Scope list_scope.

Lemma separator_space c : separator c <-> is_space c = true.
Proof.
  unfold separator, is_space. rewrite orb_true_iff, andb_true_iff, !Nat.leb_le, Nat.eqb_eq. cbn [In]. lia.
Qed.
Lemma all_chars_in (f : ascii -> bool) s : all_chars f s = true <-> forall c, In c (chars s) -> f c = true.
Proof.
  induction s as [|c s IH]; cbn; [tauto|]. rewrite andb_true_iff, IH. split; [intros [A B] d [<-|H]; auto|intros H; split; auto].
Qed.
Lemma item_word s : item s -> word s.
Proof. intros [A B]. split; [exact A|]. apply all_chars_in. intros c H. specialize (B c H). destruct (is_space c) eqn:E; [|reflexivity]. now apply separator_space in E. Qed.
Lemma gap_skip g t : gap g -> split_items (append g t) EmptyString = split_items t EmptyString.
Proof.
  intros G. induction g as [|c g IH]; cbn [append]; [reflexivity|]. cbn [split_items]. assert (S : is_space c = true) by (apply separator_space, G; now left).
  rewrite S. cbn [is_empty]. apply IH. intros d H. apply G. now right.
Qed.
Lemma items_line l : separated l -> forall g0, gap g0 -> items_of (append g0 (line_of l)) = map fst l.
Proof.
  unfold items_of. induction l as [|[w g] l IH]; intros S g0 G0; rewrite gap_skip by exact G0; cbn [line_of map fst]; [reflexivity|].
  destruct S as (W & G & Ne & S). destruct g as [|c g].
  - assert (l = []) as -> by (destruct l; [reflexivity|exfalso; now apply Ne]). cbn [line_of append map]. rewrite app_nil'. now apply split_word_end, item_word.
  - cbn [append]. rewrite split_word_space; [|now apply item_word|apply separator_space, G; now left]. f_equal. apply IH; [exact S|]. intros d H. apply G. now right.
Qed.

(** ** Fixed variables *)
Lemma bounds_fixed bs : forall v, mv_fixed (fold_left bstep bs v) = mv_fixed v || existsb is_fx bs.
Proof. induction bs as [|b bs IH]; intros v; cbn [fold_left existsb]; [now rewrite orb_false_r|]. rewrite IH. destruct b; cbn; destruct (mv_fixed v); reflexivity. Qed.
Lemma default_fixed v : mv_fixed (default_bounds v) = mv_fixed v.
Proof. unfold default_bounds. now destruct (_ && _). Qed.
Lemma import_fixed f obj m accept n nv : mps_of f obj m -> In n (columns f) -> import_var accept m n = Ok nv -> va_fixed (snd nv) = existsb is_fx (bounds_of f n).
Proof.
  intros (_ & _ & _ & _ & M5) Hn. unfold import_var. rewrite (M5 n Hn). set (w := default_bounds _).
  assert (F : mv_fixed w = existsb is_fx (bounds_of f n)) by (unfold w; rewrite default_fixed, bounds_fixed; reflexivity).
  destruct (negb (mv_integer w) && negb accept); [discriminate|]. cbn [v_step]. destruct (mv_upper w <? mv_lower w); [discriminate|].
  rewrite <- F. destruct (mv_fixed w); intros H; (assert (E : nv = snd (0, nv)) by reflexivity); clear E; inversion H; reflexivity.
Qed.
Lemma collect_in {A B} (f : A -> outcome B) l : forall bs b, collect f l = Ok bs -> In b bs -> exists a, In a l /\ f a = Ok b.
Proof.
  induction l as [|a l IH]; intros bs b C H; cbn [collect] in C; [injection C as <-; destruct H|].
  destruct (f a) as [b0| |] eqn:E; cbn [bind] in C; try discriminate. destruct (collect f l) as [bs0| |] eqn:C0; cbn [bind] in C; try discriminate. injection C as <-.
  destruct H as [<-|H]; [exists a; split; [now left|exact E]|]. destruct (IH bs0 b eq_refl H) as (a' & A1 & A2). exists a'. split; [now right|exact A2].
Qed.
Lemma import_fixed_iff lines f obj accept m im : well_formed f obj -> contains lines f -> read_mps lines = Ok m -> import_mps accept m = Ok im ->
  forall n v, In (n, v) (im_vars im) -> va_fixed v = true <-> exists z, In (BFx z) (bounds_of f n).
Proof.
  intros W C R I n v H. destruct (file_read lines f obj W C) as (m' & R' & M). assert (m' = m) as -> by congruence. clear R'.
  pose proof M as (_ & M2 & _). unfold import_mps in I. rewrite M2 in I.
  destruct (collect (import_var accept m) (columns f)) as [vs| |] eqn:Cv; cbn [bind] in I; try discriminate.
  assert (Vs : im_vars im = vs).
  { revert I. match goal with |- bind ?t _ = _ -> _ => destruct t as [cs| |]; cbn [bind]; try discriminate end.
    match goal with |- bind ?t _ = _ -> _ => destruct t as [s| |]; cbn [bind]; try discriminate end. intros I. inversion I. reflexivity. }
  rewrite Vs in H. destruct (collect_in _ _ _ _ Cv H) as (n' & H1 & H2).
  assert (n' = n). { unfold import_var in H2. destruct (lookup (mp_vars m) n') as [w|]; [|discriminate]. destruct (_ && _); [discriminate|]. destruct (v_step _ _); [|discriminate]. destruct (mv_fixed w); [destruct (v_step _ _); [|discriminate]|]; now inversion H2. }
  subst n'. pose proof (import_fixed f obj m accept n (n, v) M H1 H2) as F. cbn [snd] in F. rewrite F, existsb_exists. split.
  - intros (b & B1 & B2). destruct b; try discriminate. now exists z.
  - intros (z & Z). now exists (BFx z).
Qed.
