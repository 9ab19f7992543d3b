(** Proofs about options. *)
From Coq Require Import List ZArith QArith Qabs Bool String Ascii Lia Lqa.
From Verif Require Import TextProof PresolveModel JsonModel JsonSpec JsonProof2 JsonProof3 JsonProof5 JsonProof6 OptionModel OptionSpec.
Import ListNotations.
Local Open Scope Z_scope.
Local Opaque decimal.

Lemma traverse_ok {A B} (g : A -> outcome B) l bs : traverse g l = Ok bs <-> Forall2 (fun a b => g a = Ok b) l bs.
Proof.
  revert bs. induction l as [|a l IH]; intros bs; cbn [traverse]; [split; [intros H; injection H as <-; constructor|intros H; inversion H; reflexivity]|].
  destruct (g a) as [b| |] eqn:E; cbn [bind]; [|split; [discriminate|intros H; inversion H; congruence]|split; [discriminate|intros H; inversion H; congruence]].
  destruct (traverse g l) as [bs'| |] eqn:E2; cbn [bind].
  - split; [intros H; injection H as <-; constructor; [exact E|now apply IH]|]. intros H. inversion H as [|? b' ? l' H1 H2]; subst. apply IH in H2. congruence.
  - split; [discriminate|]. intros H. inversion H as [|? b' ? l' H1 H2]; subst. apply IH in H2. congruence.
  - split; [discriminate|]. intros H. inversion H as [|? b' ? l' H1 H2]; subst. apply IH in H2. congruence.
Qed.
Lemma traverse_all {A B} (g : A -> outcome B) l : (forall a, In a l -> exists b, g a = Ok b) -> exists bs, traverse g l = Ok bs.
Proof.
  induction l as [|a l IH]; intros H; [now exists []|]. destruct (H a (or_introl eq_refl)) as [b Hb]. destruct IH as [bs Hbs]; [intros; apply H; now right|].
  exists (b :: bs). cbn. now rewrite Hb, Hbs.
Qed.
Lemma traverse_throw {A B} (g : A -> outcome B) l : (forall a, In a l -> g a <> UB) -> traverse g l <> UB /\ (traverse g l = Throw <-> exists a, In a l /\ g a = Throw).
Proof.
  induction l as [|a l IH]; intros H; [split; [discriminate|]; split; [discriminate|intros (x & [] & _)]|].
  destruct IH as [I1 I2]; [intros; apply H; now right|]. pose proof (H a (or_introl eq_refl)) as Ha. cbn [traverse]. destruct (g a) as [b| |] eqn:E; cbn [bind]; [|split; [discriminate|]; split; [exists a; split; [now left|exact E]|reflexivity]|congruence].
  destruct (traverse g l) as [bs| |]; cbn [bind]; [split; [discriminate|]|split; [discriminate|]|congruence].
  - split; [discriminate|]. intros (x & [<- |X1] & X2); [congruence|]. enough (Ok bs = Throw) by discriminate. apply I2. now exists x.
  - split; [|reflexivity]. intros _. destruct (proj1 I2 eq_refl) as (x & X1 & X2). exists x. split; [now right|exact X2].
Qed.

(** ** Facts about the table *)
Definition table_ok : bool :=
  (if list_eq_dec string_dec (nodup string_dec (map fst schema)) (map fst schema) then true else false) &&
  forallb (fun s => (if list_eq_dec string_dec (nodup string_dec (map f_name (snd s))) (map f_name (snd s)) then true else false) &&
    forallb (fun f => String.eqb (f_write f) (f_name f) && all_chars (fun c => negb (bad_char c)) (f_write f) &&
      (String.eqb (f_read f) (f_name f) || (String.eqb (fst s) "parallel" && String.eqb (f_name f) "number_of_threads_move_update" && negb (existsb (String.eqb (f_read f)) (map f_name (snd s))))) &&
      match f_kind f with FEnum names => (if list_eq_dec string_dec (nodup string_dec names) names then true else false) && forallb (all_chars (fun c => negb (bad_char c))) names | _ => true end) (snd s) &&
    all_chars (fun c => negb (bad_char c)) (fst s)) schema.
Lemma table : table_ok = true. Proof. vm_compute. reflexivity. Qed.
Lemma nodup_eq l : (if list_eq_dec string_dec (nodup string_dec l) l then true else false) = true -> NoDup l.
Proof. destruct (list_eq_dec string_dec (nodup string_dec l) l) as [E|]; [|discriminate]. intros _. rewrite <- E. apply NoDup_nodup. Qed.
Lemma sections_nodup : NoDup (map fst schema).
Proof. pose proof table as T. unfold table_ok in T. apply andb_prop in T. destruct T as [T _]. now apply nodup_eq. Qed.
Lemma section_facts s fs : In (s, fs) schema -> NoDup (map f_name fs) /\ good s /\ forall f, In f fs -> f_write f = f_name f /\ good (f_name f) /\
  (f_read f = f_name f \/ lost s (f_name f) /\ ~ In (f_read f) (map f_name fs)) /\
  match f_kind f with FEnum names => NoDup names /\ forall n, In n names -> good n | _ => True end.
Proof.
  intros Hin. pose proof table as T. unfold table_ok in T. apply andb_prop in T. destruct T as [_ T]. rewrite forallb_forall in T. specialize (T _ Hin). cbn [fst snd] in T.
  apply andb_prop in T. destruct T as [T T3]. apply andb_prop in T. destruct T as [T1 T2]. split; [now apply nodup_eq|]. split; [exact T3|]. intros f Hf. rewrite forallb_forall in T2. specialize (T2 f Hf).
  apply andb_prop in T2. destruct T2 as [T2 K]. apply andb_prop in T2. destruct T2 as [T2 R]. apply andb_prop in T2. destruct T2 as [W G]. apply String.eqb_eq in W. rewrite W in G. split; [exact W|]. split; [exact G|]. split.
  - apply orb_prop in R. destruct R as [R|R]; [left; now apply String.eqb_eq|right]. apply andb_prop in R. destruct R as [R R3]. apply andb_prop in R. destruct R as [R1 R2]. apply String.eqb_eq in R1, R2.
    split; [now split|]. intros I. apply negb_true_iff in R3. assert (existsb (String.eqb (f_read f)) (map f_name fs) = true); [|congruence]. apply existsb_exists. exists (f_read f). split; [exact I|apply String.eqb_refl].
  - destruct (f_kind f); try exact Logic.I. apply andb_prop in K. destruct K as [K1 K2]. split; [now apply nodup_eq|]. rewrite forallb_forall in K2. exact K2.
Qed.
Lemma f2_len {A B} (R : A -> B -> Prop) l m : Forall2 R l m -> List.length l = List.length m.
Proof. intros H. induction H; cbn; congruence. Qed.

(** ** Members *)
Lemma field_at_in (R : field -> oval -> Prop) fs vs f : Forall2 R fs vs -> NoDup (map f_name fs) -> In f fs -> exists v, R f v /\ field_at fs vs (f_name f) = Some v.
Proof.
  intros H. induction H as [|g v fs vs Hg H IH]; intros N I; [destruct I|]. inversion N as [|? ? N1 N2]; subst. cbn [field_at]. destruct I as [-> |I].
  - exists v. now rewrite String.eqb_refl.
  - destruct (IH N2 I) as (w & W1 & W2). exists w. split; [exact W1|]. rewrite (proj2 (String.eqb_neq _ _)); [exact W2|]. intros E. apply N1. rewrite E. now apply in_map.
Qed.
Lemma param_at (R : string * list field -> list oval -> Prop) ss o s fs : Forall2 R ss o -> NoDup (map fst ss) -> In (s, fs) ss ->
  exists vs, R (s, fs) vs /\ forall n, param_in ss o s n = field_at fs vs n.
Proof.
  intros H. induction H as [|[s' fs'] vs ss o Hg H IH]; intros N I; [destruct I|]. inversion N as [|? ? N1 N2]; subst. cbn [param_in fst] in *. destruct I as [E|I].
  - injection E as -> ->. exists vs. split; [exact Hg|]. intros n. now rewrite String.eqb_refl.
  - destruct (IH N2 I) as (w & W1 & W2). exists w. split; [exact W1|]. intros n. rewrite (proj2 (String.eqb_neq _ _)); [apply W2|]. intros E. apply N1. rewrite E. exact (in_map fst _ _ I).
Qed.
Lemma declared_read s n k d : declared s n k d -> ~ lost s n -> exists fs f, In (s, fs) schema /\ In f fs /\ f_name f = n /\ f_kind f = k /\ f_default f = d /\ f_read f = n.
Proof.
  intros (fs & f & H1 & H2 & H3 & H4 & H5) L. exists fs, f. repeat (split; [assumption|]). destruct (section_facts s fs H1) as (_ & _ & F). destruct (F f H2) as (_ & _ & [R|[R _]] & _); [congruence|]. rewrite H3 in R. contradiction.
Qed.
Lemma index_spec s names : forall i, match index_from s names i with Some j => exists n, j = i + Z.of_nat n /\ nth_error names n = Some s | None => ~ In s names end.
Proof.
  induction names as [|m names IH]; intros i; cbn [index_from]; [tauto|]. destruct (String.eqb_spec m s) as [-> |D]; [exists 0%nat; split; [lia|reflexivity]|].
  specialize (IH (i + 1)). destruct (index_from s names (i + 1)) as [j|]; [destruct IH as (n & E & H); exists (S n); split; [lia|exact H]|]. intros [E|E]; [congruence|contradiction].
Qed.
Lemma read_value_means k d j v : read_value k d j = Ok v -> means k d (Some j) v.
Proof.
  destruct k as [| | |names]; cbn [read_value means].
  - destruct j as [|[] z|q|t|b|s|l|l]; try discriminate. intros H. injection H as <-. eauto.
  - destruct j as [|[] z|q|t|b|s|l|l]; try discriminate. intros H. injection H as <-. eauto.
  - destruct j as [|[] z|q|t|b|s|l|l]; try discriminate; intros H; injection H as <-; eauto.
  - destruct j as [|[] z|q|t|b|s|l|l]; try (intros H; injection H as <-; right; right; split; [discriminate|split; [discriminate|reflexivity]]).
    + intros H. injection H as <-. left. eauto.
    + pose proof (index_spec s names 0) as I. destruct (index_from s names 0) as [i|]; [|discriminate]. intros H. injection H as <-. destruct I as (n & -> & I). right. left. exists s, n. split; [reflexivity|]. split; [exact I|]. reflexivity.
Qed.
Lemma default_at s n k d : declared s n k d -> param initialize s n = Some d.
Proof.
  intros (fs & f & H1 & H2 & H3 & H4 & H5). assert (F : Forall2 (fun s vs => vs = map f_default (snd s)) schema initialize).
  { unfold initialize. generalize schema as l. induction l; constructor; auto. }
  destruct (param_at _ _ _ s fs F sections_nodup H1) as (vs & -> & P). unfold param. rewrite P. cbn [snd].
  assert (G : Forall2 (fun f v => v = f_default f) fs (map f_default fs)) by (clear; induction fs; constructor; auto).
  destruct (field_at_in _ _ _ f G (proj1 (section_facts s fs H1)) H2) as (v & -> & V). congruence.
Qed.
Lemma setup_means obj o : setup_object obj = Ok o -> forall s n k d, declared s n k d -> ~ lost s n -> exists v, param o s n = Some v /\ means k d (entry obj s n) v.
Proof.
  intros H s n k d D L. destruct (declared_read s n k d D L) as (fs & f & H1 & H2 & H3 & H4 & H5 & H6). apply traverse_ok in H.
  destruct (param_at _ _ _ s fs H sections_nodup H1) as (vs & E & P). cbn [fst snd] in E. unfold param. rewrite P. unfold entry. pose proof (proj1 (section_facts s fs H1)) as Nd.
  destruct (last_with s obj) as [[| | | | | |l|]|] eqn:El; try discriminate.
  - apply traverse_ok in E. destruct (field_at_in _ _ _ f E Nd H2) as (v & V1 & V2). rewrite H3 in V2. exists v. split; [exact V2|]. rewrite H6 in V1. destruct (last_with n l) as [j|].
    + rewrite H4, H5 in V1. now apply read_value_means.
    + cbn. congruence.
  - injection E as <-. assert (G : Forall2 (fun f v => v = f_default f) fs (map f_default fs)) by (clear; induction fs; constructor; auto).
    destruct (field_at_in _ _ _ f G Nd H2) as (v & -> & V). rewrite H3 in V. rewrite H5 in V. exists d. split; [exact V|reflexivity].
Qed.

(** ** When setup throws *)
Definition refused (k : kind) (d : oval) (j : json) : Prop := forall v, ~ means k d (Some j) v.
Lemma read_value_total k d j : read_value k d j <> UB /\ (read_value k d j = Throw <-> refused k d j).
Proof.
  split.
  - destruct k; cbn; destruct j as [|[] z|q|t|b|s|l|l]; try discriminate. destruct (index_from s names 0); discriminate.
  - split.
    + intros H v M. destruct k as [| | |names]; cbn [means read_value] in *.
      * destruct M as (b & -> & _). discriminate.
      * destruct M as (b & -> & _). discriminate.
      * destruct M as [(z & -> & _)|[(q & -> & _)|(t & -> & _)]]; discriminate.
      * destruct M as [(z & -> & _)|[(s & i & -> & I & _)|(H1 & H2 & _)]]; [discriminate| |].
        -- pose proof (index_spec s names 0) as X. destruct (index_from s names 0); [discriminate|]. apply X. eapply nth_error_In. exact I.
        -- destruct j as [|[] z|q|t|b|s|l|l]; try discriminate. exact (H2 s eq_refl).
    + intros R. destruct (read_value k d j) as [v| |] eqn:E; [exfalso; exact (R v (read_value_means k d j v E))|reflexivity|].
      exfalso. revert E. destruct k; cbn; destruct j as [|[] z|q|t|b|s|l|l]; try discriminate. destruct (index_from s names 0); discriminate.
Qed.
Lemma setup_throws obj : setup_object obj <> UB /\
  (setup_object obj = Throw <-> exists s fs j, In (s, fs) schema /\ last_with s obj = Some j /\
     ((forall l, j <> JObj l) \/ exists l f w, j = JObj l /\ In f fs /\ last_with (f_read f) l = Some w /\ refused (f_kind f) (f_default f) w)).
Proof.
  assert (Sec : forall l fs, setup_section l fs <> UB /\ (setup_section l fs = Throw <-> exists f w, In f fs /\ last_with (f_read f) l = Some w /\ refused (f_kind f) (f_default f) w)).
  { intros l fs. unfold setup_section. match goal with |- traverse ?g _ <> _ /\ _ => destruct (traverse_throw g fs) as [A B] end.
    - intros f _. destruct (last_with (f_read f) l); [apply read_value_total|discriminate].
    - split; [exact A|]. rewrite B. split.
      + intros (f & F1 & F2). destruct (last_with (f_read f) l) as [w|] eqn:E; [|discriminate]. exists f, w. split; [exact F1|]. split; [exact E|]. now apply read_value_total.
      + intros (f & w & F1 & F2 & F3). exists f. split; [exact F1|]. rewrite F2. now apply read_value_total. }
  unfold setup_object. match goal with |- traverse ?g _ <> _ /\ _ => destruct (traverse_throw g schema) as [A B] end.
  { intros [s fs] _. cbn [fst snd]. destruct (last_with s obj) as [[]|]; try discriminate. apply Sec. }
  split; [exact A|]. rewrite B. split.
  - intros ([s fs] & F1 & F2). cbn [fst snd] in F2. destruct (last_with s obj) as [j|] eqn:E; [|discriminate]. exists s, fs, j. split; [exact F1|]. split; [exact E|].
    destruct j as [| | | | | |l|]; try (left; discriminate). right. apply Sec in F2. destruct F2 as (f & w & W). exists l, f, w. split; [reflexivity|exact W].
  - intros (s & fs & j & F1 & F2 & F3). exists (s, fs). split; [exact F1|]. cbn [fst snd]. rewrite F2. destruct F3 as [F3|(l & f & w & -> & W)]; [destruct j; try reflexivity; exfalso; exact (F3 l eq_refl)|].
    apply Sec. now exists f, w.
Qed.

(** ** Only the entries of the parameters matter *)
Lemma setup_agree obj obj' : (forall s fs, In (s, fs) schema -> (exists l, last_with s obj = Some (JObj l)) /\ (exists l, last_with s obj' = Some (JObj l)) /\ forall f, In f fs -> entry obj s (f_read f) = entry obj' s (f_read f)) ->
  setup_object obj = setup_object obj'.
Proof.
  unfold setup_object. intros H. assert (G : forall l, (forall x, In x l -> In x schema) -> traverse (fun s => match last_with (fst s) obj with None => Ok (map f_default (snd s)) | Some (JObj o) => setup_section o (snd s) | Some _ => Throw end) l =
    traverse (fun s => match last_with (fst s) obj' with None => Ok (map f_default (snd s)) | Some (JObj o) => setup_section o (snd s) | Some _ => Throw end) l); [|now apply G].
  induction l as [|[s fs] l IH]; intros I; [reflexivity|]. cbn [traverse fst snd]. rewrite IH by (intros; apply I; now right). f_equal.
  destruct (H s fs (I _ (or_introl eq_refl))) as ((l1 & E1) & (l2 & E2) & E). unfold entry in E. rewrite E1, E2 in *. clear -E. unfold setup_section.
  induction fs as [|f fs IH]; [reflexivity|]. cbn [traverse]. rewrite (E f (or_introl eq_refl)). rewrite IH by (intros; apply E; now right). reflexivity.
Qed.
