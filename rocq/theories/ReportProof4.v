(** The files. *)
From Coq Require Import List ZArith QArith Qabs Bool String Ascii Lia.
From Verif Require Import TextModel TextProof PresolveModel JsonModel JsonSpec JsonProof JsonProof2 JsonProof3 JsonProof5 JsonProof6 VariableSpec ArraySpec ReportModel ReportSpec ReportProof3.
Import ListNotations.
Local Open Scope Z_scope.
Local Opaque decimal.

Lemma follow_read s : forall w w' idx u, VariableSpec.in_range s idx -> read_back true w w' -> follow w idx = Some u -> exists u', follow w' idx = Some u' /\ read_back true u u'.
Proof.
  intros w w' idx u R. revert w w' u. induction R as [|n k s idx Hk R IH]; intros w w' u B F; cbn [follow] in *; [injection F as <-; now exists w'|].
  destruct w as [| | | | | | |l]; try discriminate. destruct (nth_error l (Z.to_nat k)) as [x|] eqn:E; [|discriminate]. destruct w' as [| | | | | | |m]; try (destruct B as (m' & X & _); discriminate). apply arr_rel_iff in B.
  assert (K : exists y, nth_error m (Z.to_nat k) = Some y /\ read_back true x y).
  { clear - B E. revert E. generalize (Z.to_nat k) as j. induction B as [|a b l m H B IHB]; intros j E; [destruct j; discriminate|]. destruct j as [|j]; cbn in *; [injection E as <-; now exists b|now apply IHB]. }
  destruct K as (y & -> & Y). exact (IH x y u Y F).
Qed.
Lemma shaped_read s : forall w w', shaped s w -> read_back true w w' -> shaped s w'.
Proof.
  induction s as [|n s IH]; intros w w' S B; [exact Logic.I|]. cbn [shaped] in *. destruct S as (l & -> & L & F). destruct B as (m & -> & B). exists m. split; [reflexivity|].
  assert (R : read_back true (JArr l) (JArr m)) by (exists m; now split). apply arr_rel_iff in R. clear B. split.
  - rewrite <- L. f_equal. clear - R. induction R; cbn; congruence.
  - clear L. induction R as [|a b l m H R IHR]; constructor; inversion F; subst; [now apply (IH a)|now apply IHR].
Qed.
Lemma presents_read p w w' : presents shown p w -> read_back true w w' -> presents kept_value p w'.
Proof.
  intros [S F] B. split; [now apply (shaped_read _ w)|]. intros idx R. destruct (F idx R) as (v & u & V & U & Sh). destruct (follow_read _ w w' idx u R B U) as (u' & U' & B'). exists v, u'. split; [exact V|]. split; [exact U'|].
  destruct v as [z|q]; cbn [shown kept_value] in *; [subst u; exact B'|]. destruct Sh as (r & -> & X). destruct B' as (t & -> & Y). exists r, t. now split.
Qed.
Lemma read_arr_any l w : read_back false (JArr l) w -> read_back true (JArr l) w. Proof. intros H. exact H. Qed.
Lemma shaped_arr s w : good_shape s -> shaped s w -> exists l, w = JArr l.
Proof. intros [N _] S. destruct s as [|n s]; [congruence|]. destruct S as (l & -> & _). now exists l. Qed.

Lemma last_in key (l : list (string * json)) : NoDup (map fst l) -> forall v, In (key, v) l -> @Some json v = last_with key l.
Proof.
  induction l as [|[k w] l IH]; intros ND v I; [destruct I|]. cbn [map fst] in ND. inversion ND as [|? ? Nk ND']; subst. cbn [last_with]. destruct I as [E|I].
  - injection E as -> ->. destruct (last_with key l) as [u|] eqn:L; [|now rewrite String.eqb_refl]. exfalso. apply Nk. apply last_with_iff in L. destruct L as (l1 & l2 & -> & _). rewrite map_app. apply in_or_app. right. now left.
  - now rewrite <- (IH ND' v I).
Qed.
(** Reading the whole file. *)
Lemma whole_file r a b c d : sound_summary r -> storable false (JObj a) -> storable false (JObj b) -> storable false (JObj c) -> storable false (JObj d) ->
  exists file m, write_json 0 (JObj (summary r ++ [("variables", JObj a); ("expressions", JObj b); ("constraints", JObj c); ("violations", JObj d)]%string)) = Ok file /\
  (exists steps, forall fuel, (steps <= fuel)%nat -> read_json_object fuel file = Some (Ok m)) /\ keeps_summary r m /\
  exists a' b' c' d', last_with "variables" m = Some (JObj a') /\ last_with "expressions" m = Some (JObj b') /\ last_with "constraints" m = Some (JObj c') /\ last_with "violations" m = Some (JObj d') /\
  obj_rel a a' /\ obj_rel b b' /\ obj_rel c c' /\ obj_rel d d'.
Proof.
  intros (S1 & S2 & S3 & S4 & S5) A B C D. set (l := summary r ++ _). assert (P : forall s, all_chars (fun c => negb (bad_char c)) s = true -> plain s) by (intros s; apply plain_chars).
  assert (St : storable false (JObj l)).
  { apply ostore_iff. unfold l, summary. cbn [app]. repeat (apply Forall_cons; [split; [vm_compute; reflexivity|]|]); try apply Forall_nil; cbn [snd fst]; try assumption; try exact Logic.I.
    - apply P. vm_compute. reflexivity.
    - split; [exact S2|discriminate].
    - split; [exact S3|discriminate]. }
  destruct (object_round_trip 0 l St) as (file & m & W & R & T). exists file, m. split; [exact W|]. split; [exact T|].
  apply obj_rel_iff in R. unfold l, summary in R. cbn [app] in R. unfold obj_rel in R. clear - R.
  repeat match goal with H : Forall2 _ (_ :: _) _ |- _ => let e := fresh "e" in let K := fresh "K" in let V := fresh "V" in inversion H as [|? [? e] ? ? [K V] ?]; subst; clear H; cbn [fst snd] in K, V; subst end.
  match goal with H : Forall2 _ [] _ |- _ => inversion H; subst end.
  repeat match goal with V : read_back false (JObj _) ?e |- _ => destruct e; try (destruct V as (? & X & _); discriminate X); apply obj_rel_iff in V end.
  repeat match goal with V : read_back false (JReal _) ?e |- _ => destruct V as (? & -> & ?) end.
  repeat match goal with V : read_back false _ ?e |- _ => cbn [read_back] in V; subst e end.
  split.
  - unfold keeps_summary. cbn [last_with]. repeat split; try reflexivity; eexists; (split; [reflexivity|assumption]).
  - do 4 eexists. cbn [last_with]. repeat (split; [reflexivity|]). repeat split; assumption.
Qed.
Lemma arrays_kept ps l l' : NoDup (map fst ps) -> Forall (fun p => plain (fst p) /\ sound (snd p)) ps -> Forall2 (fun p e => fst e = fst p /\ presents shown (snd p) (snd e) /\ storable true (snd e)) ps l -> obj_rel l l' ->
  map fst l' = map fst ps /\ forall name p, In (name, p) ps -> exists w, last_with name l' = Some w /\ presents kept_value p w.
Proof.
  intros ND Sd F R. assert (K : map fst l' = map fst ps /\ forall name p, In (name, p) ps -> exists w, In (name, w) l' /\ presents kept_value p w).
  { clear ND. revert l' R. induction F as [|[k p] [k' w] ps l (E1 & E2 & E3) F IH]; intros l' R; [inversion R; split; [reflexivity|intros ? ? []]|]. inversion R as [|? [k2 w2] ? l2 [R1 R2] R3]; subst. cbn [fst snd] in *. subst. inversion Sd as [|? ? Sd1 Sd2]; subst. destruct (IH Sd2 l2 R3) as [I1 I2].
    split; [cbn; now rewrite I1|]. intros name q [E|I].
    - injection E as <- <-. exists w2. split; [now left|]. cbn [fst snd] in Sd1. destruct (shaped_arr _ w (proj1 (proj2 Sd1)) (proj1 E2)) as (la & ->). apply (presents_read p (JArr la)); [exact E2|now apply read_arr_any].
    - destruct (I2 name q I) as (x & X1 & X2). exists x. split; [now right|exact X2]. }
  destruct K as [K1 K2]. split; [exact K1|]. intros name p I. destruct (K2 name p I) as (w & W1 & W2). exists w. split; [|exact W2]. symmetry. apply last_in; [rewrite K1; exact ND|exact W1].
Qed.
Lemma arrays_storable ps l : Forall (fun p => plain (fst p) /\ sound (snd p)) ps -> Forall2 (fun p e => fst e = fst p /\ presents shown (snd p) (snd e) /\ storable true (snd e)) ps l -> storable false (JObj l).
Proof.
  intros Sd F. apply ostore_iff. induction F as [|[k p] [k' w] ps l (E1 & E2 & E3) F IH]; [constructor|]. inversion Sd as [|? ? [Sd0 Sd1] Sd2]; subst. cbn [fst snd] in *. subst. constructor; [|now apply IH]. cbn [fst snd]. split; [now apply plain_chars|].
  destruct (shaped_arr _ w (proj1 Sd1) (proj1 E2)) as (la & ->). exact E3.
Qed.
Lemma by_array r : sound_summary r -> sound_arrays (rp_var r) -> sound_arrays (rp_expr r) -> sound_arrays (rp_con r) -> sound_arrays (rp_vio r) ->
  exists file m, (exists steps, forall fuel, (steps <= fuel)%nat -> write_by_array fuel r = Some (Ok file) /\ read_json_object fuel file = Some (Ok m)) /\ keeps_summary r m /\
  keeps_arrays "variables" (rp_var r) m /\ keeps_arrays "expressions" (rp_expr r) m /\ keeps_arrays "constraints" (rp_con r) m /\ keeps_arrays "violations" (rp_vio r) m.
Proof.
  intros S [A1 A2] [B1 B2] [C1 C2] [D1 D2]. destruct (created _ A2) as (a & A3 & na & A4). destruct (created _ B2) as (b & B3 & nb & B4). destruct (created _ C2) as (c & C3 & nc & C4). destruct (created _ D2) as (d & D3 & nd & D4).
  destruct (whole_file r a b c d S (arrays_storable _ _ A2 A3) (arrays_storable _ _ B2 B3) (arrays_storable _ _ C2 C3) (arrays_storable _ _ D2 D3)) as (file & m & W & (n & T) & K & a' & b' & c' & d' & La & Lb & Lc & Ld & Ra & Rb & Rc & Rd).
  exists file, m. split; [|split; [exact K|]].
  - exists (na + nb + nc + nd + n)%nat. intros fuel Hf. split; [|apply T; lia]. unfold write_by_array. rewrite A4, B4, C4, D4 by lia. cbn [bind]. now rewrite W.
  - split; [|split; [|split]]; [exists a'|exists b'|exists c'|exists d']; (split; [assumption|]); [now apply (arrays_kept _ a)|now apply (arrays_kept _ b)|now apply (arrays_kept _ c)|now apply (arrays_kept _ d)].
Qed.

(** ** By name *)
Lemma names_created ps : Forall (fun p => sound (snd p) /\ Forall plain (vp_names (snd p)) /\ Forall (fun v => match v with VInt _ => True | VReal q => sound_real q end) (vp_values (snd p))) ps ->
  map fst (create_json_object ps) = flat_map (fun p => vp_names (snd p)) ps /\ storable false (JObj (create_json_object ps)) /\
  forall a p i name v, In (a, p) ps -> nth_error (vp_names p) i = Some name -> nth_error (vp_values p) i = Some v -> In (name, json_of v) (create_json_object ps).
Proof.
  intros H. split; [|split].
  - induction H as [|p ps ((_ & _ & L & _) & _) H IH]; [reflexivity|]. unfold create_json_object in *. cbn [flat_map]. rewrite map_app, IH. f_equal. clear - L. revert L. generalize (vp_values (snd p)) as vs. induction (vp_names (snd p)) as [|x l IH]; intros [|v vs] L; try discriminate; [reflexivity|]. cbn in *. f_equal. apply IH. lia.
  - apply ostore_iff. induction H as [|p ps ((_ & _ & _ & V) & P & Q) H IH]; [constructor|]. unfold create_json_object in *. cbn [flat_map]. apply Forall_app. split; [|exact IH]. clear - V P Q. revert P. generalize (vp_names (snd p)) as ns. induction (vp_values (snd p)) as [|v vs IHv]; intros [|n ns] P; cbn [map combine]; try constructor.
    + cbn [fst snd]. inversion V; subst. inversion Q; subst. inversion P; subst. split; [now apply plain_chars|]. destruct v as [z|q]; cbn [json_of]; [split; [assumption|discriminate]|assumption].
    + inversion V; subst. inversion Q; subst. inversion P; subst. now apply IHv.
  - intros a p i name v I Hn Hv. unfold create_json_object. apply in_flat_map. exists (a, p). split; [exact I|]. cbn [snd]. clear - Hn Hv. revert i Hn Hv. generalize (vp_values p) as vs. induction (vp_names p) as [|x l IH]; intros vs i Hn Hv; [destruct i; discriminate|]. destruct vs as [|w vs]; [destruct i; discriminate|].
    destruct i as [|i]; cbn in *; [injection Hn as ->; injection Hv as ->; now left|right; now apply (IH vs i)].
Qed.
Lemma names_kept ps l' : sound_names ps -> obj_rel (create_json_object ps) l' -> forall a p i name v, In (a, p) ps -> nth_error (vp_names p) i = Some name -> nth_error (vp_values p) i = Some v ->
  exists w, last_with name l' = Some w /\ match v with VInt z => w = JInt KInt z | VReal q => exists t, w = JReal t /\ rounded q t end.
Proof.
  intros [ND F] R a p i name v I Hn Hv. destruct (names_created ps F) as (K1 & _ & K3). pose proof (K3 a p i name v I Hn Hv) as J. rewrite <- K1 in ND.
  assert (E : map fst l' = map fst (create_json_object ps)) by (clear - R; induction R as [|? ? ? ? [H _] R IH]; cbn; congruence).
  assert (W : exists w, In (name, w) l' /\ read_back false (json_of v) w).
  { clear - R J. induction R as [|[k x] [k' y] l l' [H1 H2] R IH]; [destruct J|]. destruct J as [J|J]; [injection J as -> ->; cbn in *; subst; exists y; split; [now left|exact H2]|]. destruct (IH J) as (w & W1 & W2). exists w. split; [now right|exact W2]. }
  destruct W as (w & W1 & W2). exists w. split; [symmetry; apply last_in; [rewrite E; exact ND|exact W1]|]. destruct v; cbn in W2; [exact W2|]. destruct W2 as (t & -> & X). now exists t.
Qed.
Lemma by_name r : sound_summary r -> sound_names (rp_var r) -> sound_names (rp_expr r) -> sound_names (rp_con r) -> sound_names (rp_vio r) ->
  exists file m, write_by_name r = Ok file /\ (exists steps, forall fuel, (steps <= fuel)%nat -> read_json_object fuel file = Some (Ok m)) /\ keeps_summary r m /\
  keeps_names "variables" (rp_var r) m /\ keeps_names "expressions" (rp_expr r) m /\ keeps_names "constraints" (rp_con r) m /\ keeps_names "violations" (rp_vio r) m.
Proof.
  intros S A B C D. destruct (names_created _ (proj2 A)) as (_ & A2 & _), (names_created _ (proj2 B)) as (_ & B2 & _), (names_created _ (proj2 C)) as (_ & C2 & _), (names_created _ (proj2 D)) as (_ & D2 & _).
  destruct (whole_file r _ _ _ _ S A2 B2 C2 D2) as (file & m & W & T & K & a' & b' & c' & d' & La & Lb & Lc & Ld & Ra & Rb & Rc & Rd).
  exists file, m. split; [exact W|]. split; [exact T|]. split; [exact K|]. split; [|split; [|split]]; [exists a'|exists b'|exists c'|exists d']; (split; [assumption|]); now apply names_kept.
Qed.
