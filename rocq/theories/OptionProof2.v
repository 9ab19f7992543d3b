(** Options survive being written to a file and read back. *)
From Coq Require Import List ZArith QArith Qabs Bool String Ascii Lia Lqa.
From Verif Require Import TextProof PresolveModel JsonModel JsonSpec JsonProof2 JsonProof3 JsonProof5 JsonProof6 OptionModel OptionSpec OptionProof.
Import ListNotations.
Local Open Scope Z_scope.
Local Opaque decimal.

Lemma index_found names : NoDup names -> forall i n s, nth_error names n = Some s -> index_from s names i = Some (i + Z.of_nat n).
Proof.
  intros N. induction N as [|m names N1 N IH]; intros i n s H; [destruct n; discriminate|]. destruct n as [|n]; cbn [index_from].
  - injection H as ->. rewrite String.eqb_refl. f_equal. lia.
  - cbn [nth_error] in H. rewrite (proj2 (String.eqb_neq _ _)); [|intros ->; apply N1; eapply nth_error_In; exact H]. rewrite (IH (i + 1) n s H). f_equal. lia.
Qed.
Lemma value_round k v d : valid k v -> match k with FEnum names => NoDup names /\ forall n, In n names -> good n | _ => True end ->
  exists j, value_json k v = Ok j /\ storable false j /\ forall w, read_back false j w -> exists v', read_value k d w = Ok v' /\ same_value v v'.
Proof.
  intros V K. destruct k as [| | |names], v as [b|z|q|t|z]; cbn [valid] in V; try contradiction.
  - exists (JBool b). split; [reflexivity|]. split; [exact Logic.I|]. intros w ->. eexists. split; reflexivity.
  - exists (JInt KInt z). split; [reflexivity|]. split; [split; [exact V|discriminate]|]. intros w ->. eexists. split; reflexivity.
  - exists (JReal q). split; [reflexivity|]. split; [exact V|]. intros w (r & -> & R). eexists. split; [reflexivity|]. exists r. split; [reflexivity|exact R].
  - exists (JSpecial t). split; [reflexivity|]. split; [exact V|]. intros w ->. eexists. split; reflexivity.
  - destruct K as [N G]. cbn [value_json]. rewrite (proj2 (Z.ltb_ge z 0)) by lia. destruct (nth_error names (Z.to_nat z)) as [s|] eqn:E; [|apply nth_error_None in E; lia].
    exists (JStr s). split; [reflexivity|]. split; [apply plain_chars; apply G; eapply nth_error_In; exact E|]. intros w ->. cbn [read_value]. rewrite (index_found names N 0 _ _ E). eexists. split; [reflexivity|]. cbn [same_value]. f_equal. lia.
Qed.
Lemma last_unique k (l : list (string * json)) (v : json) : NoDup (map fst l) -> In (k, v) l -> last_with k l = Some v.
Proof.
  intros N I. apply last_with_iff. apply in_split in I. destruct I as (l1 & l2 & ->). exists l1, l2. split; [reflexivity|]. rewrite map_app in N. apply NoDup_remove_2 in N. intros H. apply N. apply in_or_app. now right.
Qed.
Lemma last_none k l : ~ In k (map fst l) -> last_with k l = None.
Proof.
  intros H. destruct (last_with k l) eqn:E; [|reflexivity]. exfalso. apply H. apply last_with_iff in E. destruct E as (l1 & l2 & -> & _). rewrite map_app. apply in_or_app. right. now left.
Qed.
Lemma combine_in {A B} (R : A -> B -> Prop) l m : Forall2 R l m -> forall a b, In (a, b) (combine l m) -> R a b.
Proof. intros H. induction H as [|x y l m Hxy H IH]; intros a b I; [destruct I|]. destruct I as [E|I]; [injection E as -> ->; exact Hxy|now apply IH]. Qed.
Lemma combine_pos {A B} (R : A -> B -> Prop) l m c : Forall2 R l m -> (forall a b, In (a, b) (combine l m) -> In (a, b) c) -> Forall2 (fun a b => In (a, b) c) l m.
Proof. intros H. induction H as [|x y l m Hxy H IH]; intros I; constructor; [apply I; now left|]. apply IH. intros a b J. apply I. now right. Qed.
Lemma combine_fst {A B} (R : A -> B -> Prop) l m : Forall2 R l m -> map fst (combine l m) = l.
Proof. intros H. induction H; cbn; congruence. Qed.
Lemma f2_in {A B} (R : A -> B -> Prop) l m : Forall2 R l m -> (forall a, In a l -> exists b, In b m /\ R a b) /\ (forall b, In b m -> exists a, In a l /\ R a b).
Proof.
  intros H. induction H as [|x y l m Hxy H [I1 I2]]; [split; intros ? []|]. split.
  - intros a [-> |J]; [exists y; split; [now left|exact Hxy]|]. destruct (I1 a J) as (b & B1 & B2). exists b. split; [now right|exact B2].
  - intros b [-> |J]; [exists x; split; [now left|exact Hxy]|]. destruct (I2 b J) as (a & B1 & B2). exists a. split; [now right|exact B2].
Qed.
Lemma f2_map_fst {A} (R : A -> string * json -> Prop) (h : A -> string) l m : Forall2 R l m -> (forall a b, R a b -> fst b = h a) -> map fst m = map h l.
Proof. intros H K. induction H as [|x y l m Hxy H IH]; [reflexivity|]. cbn. rewrite (K _ _ Hxy), IH. reflexivity. Qed.

(** One section. *)
Definition kept (f : field) (v v' : oval) : Prop := if String.eqb (f_read f) (f_name f) then same_value v v' else v' = f_default f.
Lemma section_round s fs vs : In (s, fs) schema -> Forall2 (fun f v => valid (f_kind f) v) fs vs ->
  exists l, section_json fs vs = Ok l /\ ostore l /\ forall m, read_back false (JObj l) (JObj m) ->
  exists vs', setup_section m fs = Ok vs' /\ forall f, In f fs -> exists v v', field_at fs vs (f_name f) = Some v /\ field_at fs vs' (f_name f) = Some v' /\ kept f v v'.
Proof.
  intros Hs V. destruct (section_facts s fs Hs) as (Nd & _ & F). unfold section_json.
  set (g := fun fv : field * oval => bind (value_json (f_kind (fst fv)) (snd fv)) (fun j => Ok (f_write (fst fv), j))).
  destruct (traverse_all g (combine fs vs)) as [l Hl].
  { intros [f v] I. pose proof (combine_in _ _ _ V f v I) as Vf. cbn beta in Vf. destruct (F f (in_combine_l _ _ _ _ I)) as (_ & _ & _ & K). destruct (value_round _ _ (f_default f) Vf K) as (j & J & _).
    exists (f_write f, j). unfold g. cbn [fst snd]. now rewrite J. }
  exists l. split; [exact Hl|]. apply traverse_ok in Hl. pose proof (f2_in _ _ _ Hl) as [L1 L2].
  assert (Keys : map fst l = map f_name fs).
  { rewrite (f2_map_fst _ (fun fv => f_write (fst fv)) _ _ Hl).
    - rewrite <- map_map. rewrite (combine_fst _ _ _ V). apply map_ext_in. intros f I. apply (F f I).
    - intros [f v] b E. unfold g in E. cbn [fst snd] in *. destruct (value_json (f_kind f) v); try discriminate. injection E as <-. reflexivity. }
  split.
  { unfold ostore. rewrite Forall_forall. intros e I. destruct (L2 e I) as ([f v] & J & E). unfold g in E. cbn [fst snd] in E. pose proof (combine_in _ _ _ V f v J) as Vf. cbn beta in Vf. destruct (F f (in_combine_l _ _ _ _ J)) as (W & G & _ & K).
    destruct (value_round _ _ (f_default f) Vf K) as (j & Ej & Sj & _). rewrite Ej in E. injection E as <-. cbn [fst snd]. rewrite W. now split. }
  intros m Rb.
  assert (Look : forall f v, In (f, v) (combine fs vs) -> exists v', match last_with (f_read f) m with None => Ok (f_default f) | Some v => read_value (f_kind f) (f_default f) v end = Ok v' /\ kept f v v').
  { intros f v J. pose proof (combine_in _ _ _ V f v J) as Vf. cbn beta in Vf. destruct (F f (in_combine_l _ _ _ _ J)) as (W & G & Rd & K). pose proof (lookup_read_back l m (f_read f) Rb) as Lk. unfold kept.
    destruct (value_round _ _ (f_default f) Vf K) as (j & Ej & Sj & Rj). destruct (String.eqb_spec (f_read f) (f_name f)) as [Er|Er].
    - destruct (L1 _ J) as (e & E1 & E2). unfold g in E2. cbn [fst snd] in E2. rewrite Ej in E2. injection E2 as <-. rewrite Er in *. rewrite W in E1.
      rewrite (last_unique (f_name f) l j) in Lk; [|rewrite Keys; exact Nd|exact E1]. destruct (last_with (f_name f) m) as [w|]; [|contradiction]. apply Rj. exact Lk.
    - destruct Rd as [Rd|[_ Rd]]; [contradiction|]. rewrite last_none in Lk by (now rewrite Keys). destruct (last_with (f_read f) m); [contradiction|]. eexists. split; reflexivity. }
  unfold setup_section. match goal with |- exists vs', traverse ?h fs = Ok vs' /\ _ => destruct (traverse_all h fs) as [vs' Hvs] end.
  { intros f I. rewrite <- (combine_fst _ _ _ V) in I. apply in_map_iff in I. destruct I as ([f' v] & E & J). cbn in E. subst f'. destruct (Look f v J) as (v' & E & _). now exists v'. }
  exists vs'. split; [exact Hvs|]. apply traverse_ok in Hvs. intros f I.
  destruct (field_at_in _ _ _ f (combine_pos _ _ _ (combine fs vs) V (fun a b J => J)) Nd I) as (v & J & E). destruct (field_at_in _ _ _ f Hvs Nd I) as (v' & E1 & E2). exists v, v'. split; [exact E|]. split; [exact E2|].
  destruct (Look f v J) as (v2 & Q1 & Q2). cbn beta in E1. rewrite E1 in Q1. injection Q1 as <-. exact Q2.
Qed.

(** The whole option. *)
Lemma option_round o : valid_option o -> exists l, to_json o = Ok l /\ storable false (JObj l) /\ forall m, read_back false (JObj l) (JObj m) ->
  exists o', setup_object m = Ok o' /\ forall s n k d, declared s n k d -> exists v v', param o s n = Some v /\ param o' s n = Some v' /\ (~ lost s n -> same_value v v') /\ (lost s n -> v' = d).
Proof.
  intros V. unfold valid_option in V. unfold to_json.
  set (g := fun sv : (string * list field) * list oval => bind (section_json (snd (fst sv)) (snd sv)) (fun obj => Ok (fst (fst sv), JObj obj))).
  assert (InS : forall s fs vs, In ((s, fs), vs) (combine schema o) -> In (s, fs) schema) by (intros s fs vs I; exact (in_combine_l _ _ _ _ I)).
  destruct (traverse_all g (combine schema o)) as [l Hl].
  { intros [[s fs] vs] I. pose proof (combine_in _ _ _ V _ _ I) as Vf. cbn [snd] in Vf. destruct (section_round s fs vs (InS _ _ _ I) Vf) as (l & E & _). exists (s, JObj l). unfold g. cbn [fst snd]. now rewrite E. }
  exists l. split; [exact Hl|]. apply traverse_ok in Hl. pose proof (f2_in _ _ _ Hl) as [L1 L2].
  assert (Keys : map fst l = map fst schema).
  { rewrite (f2_map_fst _ (fun sv => fst (fst sv)) _ _ Hl).
    - rewrite <- (map_map fst fst). now rewrite (combine_fst _ _ _ V).
    - intros [[s fs] vs] b E. unfold g in E. cbn [fst snd] in *. destruct (section_json fs vs); try discriminate. injection E as <-. reflexivity. }
  split.
  { apply (ostore_iff l false). unfold ostore. rewrite Forall_forall. intros e I. destruct (L2 e I) as ([[s fs] vs] & J & E). unfold g in E. cbn [fst snd] in E. pose proof (combine_in _ _ _ V _ _ J) as Vf. cbn [snd] in Vf.
    destruct (section_round s fs vs (InS _ _ _ J) Vf) as (j & Ej & Sj & _). rewrite Ej in E. injection E as <-. cbn [fst snd]. split; [apply (section_facts s fs (InS _ _ _ J))|now apply ostore_iff]. }
  intros m Rb.
  assert (Look : forall s fs vs, In ((s, fs), vs) (combine schema o) -> exists vs', match last_with s m with None => Ok (map f_default fs) | Some (JObj o) => setup_section o fs | Some _ => Throw end = Ok vs' /\
    forall f, In f fs -> exists v v', field_at fs vs (f_name f) = Some v /\ field_at fs vs' (f_name f) = Some v' /\ kept f v v').
  { intros s fs vs J. pose proof (combine_in _ _ _ V _ _ J) as Vf. cbn [snd] in Vf. destruct (section_round s fs vs (InS _ _ _ J) Vf) as (ls & Ej & Sj & Rj). pose proof (lookup_read_back l m s Rb) as Lk.
    destruct (L1 _ J) as (e & E1 & E2). unfold g in E2. cbn [fst snd] in E2. rewrite Ej in E2. injection E2 as <-. rewrite (last_unique s l (JObj ls)) in Lk; [|rewrite Keys; exact sections_nodup|exact E1].
    destruct (last_with s m) as [w|]; [|contradiction]. assert (Jw : exists ms, w = JObj ms) by (destruct Lk as (ms & -> & _); now exists ms). destruct Jw as [ms ->]. exact (Rj ms Lk). }
  unfold setup_object. match goal with |- exists vs', traverse ?h schema = Ok vs' /\ _ => destruct (traverse_all h schema) as [o' Ho] end.
  { intros [s fs] I. rewrite <- (combine_fst _ _ _ V) in I. apply in_map_iff in I. destruct I as ([f' vs] & E & J). cbn in E. subst f'. destruct (Look s fs vs J) as (v' & E & _). now exists v'. }
  exists o'. split; [exact Ho|]. apply traverse_ok in Ho. intros s n k d (fs & f & H1 & H2 & H3 & H4 & H5). unfold param.
  destruct (param_at _ _ _ s fs (combine_pos _ _ _ (combine schema o) V (fun a b J => J)) sections_nodup H1) as (vs & J & P). destruct (param_at _ _ _ s fs Ho sections_nodup H1) as (vs' & E1 & P').
  destruct (Look s fs vs J) as (v2 & Q1 & Q2). cbn [fst snd] in E1. rewrite E1 in Q1. injection Q1 as <-. destruct (Q2 f H2) as (v & v' & E & E' & Kp). rewrite H3 in E, E'. exists v, v'. rewrite P, P'. split; [exact E|]. split; [exact E'|].
  destruct (section_facts s fs H1) as (Nd & _ & F). destruct (F f H2) as (_ & _ & Rd & _). unfold kept in Kp. split.
  - intros L. destruct Rd as [Rd|[L' _]]; [rewrite Rd, String.eqb_refl in Kp; exact Kp|]. rewrite H3 in L'. contradiction.
  - intros L. destruct Rd as [Rd|[_ N]].
    + exfalso. assert (X : existsb (fun e => String.eqb (fst e) s && existsb (fun f => String.eqb (f_name f) n && String.eqb (f_read f) n) (snd e)) schema = true).
      { apply existsb_exists. exists (s, fs). split; [exact H1|]. cbn [fst snd]. rewrite String.eqb_refl. apply existsb_exists. exists f. split; [exact H2|]. rewrite Rd, H3, !String.eqb_refl. reflexivity. }
      destruct L as [-> ->]. vm_compute in X. discriminate X.
    + rewrite (proj2 (String.eqb_neq _ _)) in Kp; [congruence|]. intros E2. apply N. rewrite E2. now apply in_map.
Qed.
Lemma file_round n o : valid_option o -> exists l file, to_json o = Ok l /\ write_json n (JObj l) = Ok file /\
  exists o', (exists steps, forall fuel, (steps <= fuel)%nat -> setup_file fuel file = Some (Ok o')) /\
  forall s name k d, declared s name k d -> exists v v', param o s name = Some v /\ param o' s name = Some v' /\ (~ lost s name -> same_value v v') /\ (lost s name -> v' = d).
Proof.
  intros V. destruct (option_round o V) as (l & E & St & R). destruct (object_round_trip n l St) as (file & m & W & Rb & steps & Rd). destruct (R m Rb) as (o' & So & P).
  exists l, file. split; [exact E|]. split; [exact W|]. exists o'. split; [|exact P]. exists steps. intros fuel Hf. unfold setup_file. rewrite (Rd fuel Hf), So. reflexivity.
Qed.
