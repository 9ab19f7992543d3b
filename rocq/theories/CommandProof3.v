From Coq Require Import List ZArith QArith Bool String Ascii Lia.
From Verif Require Import ExprModel ConstraintModel VariableModel PresolveModel TextModel MpsModel NamesModel NamesSpec JsonModel OptionModel CommandModel CommandSpec NamesProof CommandProof CommandProof2.
Import ListNotations.
Local Open Scope string_scope.
Local Open Scope list_scope.

Lemma bind_ok {A B} (x : outcome A) (f : A -> outcome B) b : bind x f = Ok b -> exists a, x = Ok a /\ f a = Ok b.
Proof. destruct x; cbn; [eauto|discriminate|discriminate]. Qed.
Lemma empty_true s : is_empty s = true <-> s = "". Proof. destruct s; cbn; intuition congruence. Qed.
Lemma empty_false s : is_empty s = false <-> s <> "". Proof. destruct s; cbn; intuition congruence. Qed.
Lemma value_of_inv t z : value_of t = Ok z -> exists q, atof t = Some q /\ nearest q z /\ is_int z.
Proof.
  unfold value_of. destruct (atof t) as [q|]; [|discriminate]. unfold to_int. destruct (_ && _) eqn:E; [|discriminate].
  intros [= <-]. exists q. split; [reflexivity|]. split; [apply nearest_floor; reflexivity|].
  apply andb_true_iff in E. destruct E as [E1 E2]. apply Z.leb_le in E1. apply Z.leb_le in E2. unfold is_int. unfold INT_MIN in E1. unfold INT_MAX in E2. split; assumption.
Qed.
Lemma read_readable ls : forall tbl tbl', read_values ls tbl = Ok tbl' -> readable ls.
Proof.
  induction ls as [|l tl IH]; intros tbl tbl' E; [intros ? ? ? []|]. cbn [read_values] in E.
  destruct (items_of l) as [|a [|b r]] eqn:F.
  - intros x n t [<-|I] G; [destruct G as [r G]; congruence|exact (IH _ _ E x n t I G)].
  - intros x n t [<-|I] G; [destruct G as [r G]; congruence|exact (IH _ _ E x n t I G)].
  - apply bind_ok in E. destruct E as (z & V & E). intros x n t [<-|I] G; [|exact (IH _ _ E x n t I G)].
    destruct G as [r' G]. rewrite F in G. injection G as <- <- <-. destruct (value_of_inv _ _ V) as (q & A & B & C). exists q, z. auto.
Qed.
Lemma open_ok fs name ls : open_lines fs name = Ok ls <-> opens fs name ls.
Proof. unfold open_lines, opens. destruct (fs name) as [t|]; split; [intros [= <-]; eauto|intros (u & [= <-] & ->); reflexivity|discriminate|intros (u & H & _); discriminate]. Qed.
Lemma opens_unique fs name a b : opens fs name a -> opens fs name b -> a = b.
Proof. intros (t & E & ->) (u & F & ->). congruence. Qed.
Lemma same_bounds_refl v : same_bounds v v. Proof. repeat split. Qed.
Lemma same_bounds_trans a b c : same_bounds a b -> same_bounds b c -> same_bounds a c.
Proof. unfold same_bounds. intros (A & B & C & D) (E & F & G & H). repeat split; congruence. Qed.

(** The three changes of the variables. *)
Lemma stage_mutable fs s m m1 :
  (if is_empty (st_mutable s) then Ok m else bind (open_lines fs (st_mutable s)) (fun ls => Ok (unfix_variables (read_names ls) m))) = Ok m1 ->
  forall i j, match element m i j with
    | None => element m1 i j = None
    | Some (n, v) => exists w, element m1 i j = Some (n, w) /\ same_bounds v w /\ (st_mutable s = "" -> w = v) /\
        (st_mutable s <> "" -> exists lines, opens fs (st_mutable s) lines /\ va_value w = 0%Z /\ (va_fixed w = false <-> listed lines n))
    end.
Proof.
  destruct (is_empty (st_mutable s)) eqn:E.
  - apply empty_true in E. intros [= <-] i j. destruct (element m i j) as [[n v]|]; [|reflexivity].
    exists v. split; [reflexivity|]. split; [apply same_bounds_refl|]. split; [reflexivity|]. intros N. contradiction.
  - apply empty_false in E. intros H i j. apply bind_ok in H. destruct H as (ls & O & [= <-]). apply open_ok in O.
    pose proof (unfix_file ls m i j) as U. destruct (element m i j) as [[n v]|]; [|exact U].
    destruct U as (w & A & B & C & D). exists w. split; [exact A|]. split; [exact B|]. split; [contradiction|]. intros _. exists ls. auto.
Qed.
Lemma stage_fixed fs s m m1 :
  (if is_empty (st_fixed s) then Ok m else bind (open_lines fs (st_fixed s)) (fun ls => bind (read_names_and_values ls) (fun tbl => Ok (fix_variables tbl m)))) = Ok m1 ->
  forall i j, match element m i j with
    | None => element m1 i j = None
    | Some (n, v) => exists w, element m1 i j = Some (n, w) /\ same_bounds v w /\ (st_fixed s = "" -> w = v) /\
        (st_fixed s <> "" -> exists lines, opens fs (st_fixed s) lines /\
           (forall text, last_given lines n text -> va_fixed w = true /\ exists q, atof text = Some q /\ nearest q (va_value w)) /\
           (never_given lines n -> w = v))
    end.
Proof.
  destruct (is_empty (st_fixed s)) eqn:E.
  - apply empty_true in E. intros [= <-] i j. destruct (element m i j) as [[n v]|]; [|reflexivity].
    exists v. split; [reflexivity|]. split; [apply same_bounds_refl|]. split; [reflexivity|]. intros N. contradiction.
  - apply empty_false in E. intros H i j. apply bind_ok in H. destruct H as (ls & O & H). apply bind_ok in H. destruct H as (tbl & R & [= <-]).
    apply open_ok in O. destruct (fix_file ls m (read_readable ls _ _ R)) as (tbl' & R' & F). rewrite R in R'. injection R' as <-.
    specialize (F i j). destruct (element m i j) as [[n v]|]; [|exact F].
    destruct F as (w & A & B & C & D). exists w. split; [exact A|]. split; [exact B|]. split; [contradiction|]. intros _. exists ls. auto.
Qed.
Lemma stage_initial fs s m m1 :
  (if is_empty (st_initial s) then Ok m else bind (open_lines fs (st_initial s)) (fun ls => bind (read_names_and_values ls) (fun tbl => import_solution tbl m))) = Ok m1 ->
  forall i j, match element m i j with
    | None => element m1 i j = None
    | Some (n, v) => exists w, element m1 i j = Some (n, w) /\ same_bounds v w /\ (st_initial s = "" -> w = v) /\ va_fixed w = va_fixed v /\
        (va_fixed v = true -> va_value w = va_value v) /\
        (st_initial s <> "" -> exists lines, opens fs (st_initial s) lines /\ file_value lines n (va_value w))
    end.
Proof.
  destruct (is_empty (st_initial s)) eqn:E.
  - apply empty_true in E. intros [= <-] i j. destruct (element m i j) as [[n v]|]; [|reflexivity].
    exists v. split; [reflexivity|]. split; [apply same_bounds_refl|]. split; [reflexivity|]. split; [reflexivity|]. split; [reflexivity|]. intros N. contradiction.
  - apply empty_false in E. intros H i j. apply bind_ok in H. destruct H as (ls & O & H). apply bind_ok in H. destruct H as (tbl & R & H).
    apply open_ok in O. destruct (initial_file ls m (read_readable ls _ _ R)) as (tbl' & R' & T & F). rewrite R in R'. injection R' as <-.
    assert (Ag : forall i j n v z, element m i j = Some (n, v) -> va_fixed v = true -> file_value ls n z -> va_value v = z).
    { intros i' j' n v z El Fx Fv. destruct (Z.eq_dec (va_value v) z) as [|N]; [assumption|]. rewrite T in H by (exists i', j', n, v, z; auto). discriminate. }
    destruct (F Ag) as (m' & H' & G). rewrite H in H'. injection H' as <-.
    specialize (G i j). destruct (element m i j) as [[n v]|] eqn:El; [|exact G].
    destruct G as (w & A & B & C & D). exists w. split; [exact A|]. split; [exact B|]. split; [contradiction|]. split; [exact C|].
    split; [intros Fx; symmetry; exact (Ag i j n v _ El Fx D)|]. intros _. exists ls. auto.
Qed.
Lemma prepared_all fs s m m1 m2 m3 : 
  (if is_empty (st_mutable s) then Ok m else bind (open_lines fs (st_mutable s)) (fun ls => Ok (unfix_variables (read_names ls) m))) = Ok m1 ->
  (if is_empty (st_fixed s) then Ok m1 else bind (open_lines fs (st_fixed s)) (fun ls => bind (read_names_and_values ls) (fun tbl => Ok (fix_variables tbl m1)))) = Ok m2 ->
  (if is_empty (st_initial s) then Ok m2 else bind (open_lines fs (st_initial s)) (fun ls => bind (read_names_and_values ls) (fun tbl => import_solution tbl m2))) = Ok m3 ->
  st_mutable s = "" \/ st_fixed s = "" ->
  forall i j, match element m i j with
    | None => element m3 i j = None
    | Some (n, v) => exists w, element m3 i j = Some (n, w) /\ prepared fs s n v w
    end.
Proof.
  intros M F I X i j. pose proof (stage_mutable fs s m m1 M i j) as A. pose proof (stage_fixed fs s m1 m2 F i j) as B. pose proof (stage_initial fs s m2 m3 I i j) as C.
  destruct (element m i j) as [[n v]|]; [|rewrite A in B; rewrite B in C; exact C].
  destruct A as (a & A0 & A1 & A2 & A3). rewrite A0 in B. destruct B as (b & B0 & B1 & B2 & B3). rewrite B0 in C. destruct C as (w & C0 & C1 & C2 & C3 & C4 & C5).
  exists w. split; [exact C0|]. split; [exact (same_bounds_trans _ _ _ A1 (same_bounds_trans _ _ _ B1 C1))|].
  assert (Q : va_fixed b = true \/ st_initial s = "" -> va_value w = va_value b) by (intros [H|H]; [exact (C4 H)|rewrite (C2 H); reflexivity]).
  split; [|split; [|split]].
  - intros N. destruct X as [X|X]; [contradiction|]. specialize (B2 X). subst b. destruct (A3 N) as (ls & O & V & L). exists ls.
    split; [exact O|]. rewrite C3. split; [exact L|]. intros H. rewrite (Q H). exact V.
  - intros N. destruct X as [X|X]; [|contradiction]. specialize (A2 X). subst a. destruct (B3 N) as (ls & O & G & V). exists ls.
    split; [exact O|]. rewrite C3. split; [|split].
    + split.
      * intros H. destruct (given_dec ls n) as [Gv|Gv]; [right; exact Gv|]. rewrite (V Gv) in H. left. exact H.
      * intros [H|(t & H)]; [|exact (proj1 (G t H))]. destruct (given_dec ls n) as [(t & Gv)|Gv]; [exact (proj1 (G t Gv))|]. rewrite (V Gv). exact H.
    + intros t H. destruct (G t H) as (Fx & q & E & R). exists q. split; [exact E|]. rewrite (C4 Fx). exact R.
    + intros H K. rewrite <- (V H). apply Q. rewrite (V H). exact K.
  - intros N N'. specialize (A2 N). specialize (B2 N'). subst a b. split; [exact C3|exact Q].
  - exact C5.
Qed.

(** ** Options *)
Lemma set_field_other fs : forall vs name a name', name' <> name -> field_at fs (set_field fs vs name a) name' = field_at fs vs name'.
Proof.
  induction fs as [|f tl IH]; intros [|v vs] name a name' N; cbn [set_field field_at]; try reflexivity.
  destruct (String.eqb_spec (f_name f) name) as [E|E]; cbn [field_at].
  - destruct (String.eqb_spec (f_name f) name'); [congruence|reflexivity].
  - destruct (String.eqb_spec (f_name f) name'); [reflexivity|]. apply IH. exact N.
Qed.
Lemma set_field_same fs : forall vs name a, field_at fs vs name <> None -> field_at fs (set_field fs vs name a) name = Some a.
Proof.
  induction fs as [|f tl IH]; intros [|v vs] name a; cbn [set_field field_at]; try (intros H; exfalso; apply H; reflexivity).
  destruct (String.eqb (f_name f) name) ; [reflexivity|apply IH].
Qed.
Lemma set_param_in_other ss : forall o section name a section' name', (section', name') <> (section, name) ->
  param_in ss (set_param_in ss o section name a) section' name' = param_in ss o section' name'.
Proof.
  induction ss as [|[s fs] tl IH]; intros [|vs o] section name a section' name' N; cbn [set_param_in param_in]; try reflexivity.
  destruct (String.eqb_spec s section) as [E|E]; cbn [param_in].
  - destruct (String.eqb_spec s section'); [|reflexivity]. apply set_field_other. congruence.
  - destruct (String.eqb_spec s section'); [reflexivity|]. apply IH. exact N.
Qed.
Lemma set_param_in_same ss : forall o section name a, param_in ss o section name <> None -> param_in ss (set_param_in ss o section name a) section name = Some a.
Proof.
  induction ss as [|[s fs] tl IH]; intros [|vs o] section name a; cbn [set_param_in param_in]; try (intros H; exfalso; apply H; reflexivity).
  destruct (String.eqb s section) ; [apply set_field_same|apply IH].
Qed.
Lemma traverse_length {A B} (g : A -> outcome B) l : forall r, traverse g l = Ok r -> List.length r = List.length l.
Proof.
  induction l as [|a tl IH]; intros r; cbn [traverse]; [intros [= <-]; reflexivity|].
  intros H. apply bind_ok in H. destruct H as (b & _ & H). apply bind_ok in H. destruct H as (bs & E & [= <-]). cbn. f_equal. apply IH. exact E.
Qed.
Lemma field_at_some fs : forall vs name, List.length vs = List.length fs -> In name (map f_name fs) -> field_at fs vs name <> None.
Proof.
  induction fs as [|f tl IH]; intros [|v vs] name L I; cbn in *; try discriminate; try contradiction.
  destruct (String.eqb_spec (f_name f) name); [discriminate|]. apply IH; [lia|]. destruct I; [contradiction|assumption].
Qed.
Lemma param_some ss (o : opts) section name : Forall2 (fun s vs => List.length vs = List.length (snd s)) ss o ->
  (exists fs, In (section, fs) ss /\ forall fs', In (section, fs') ss -> In name (map f_name fs')) -> param_in ss o section name <> None.
Proof.
  intros H. induction H as [|[s fs] vs ss o L H IH]; intros (gs & I & A); [contradiction|]. cbn [param_in].
  destruct (String.eqb_spec s section) as [->|N]; [apply field_at_some; [exact L|apply A; left; reflexivity]|].
  apply IH. exists gs. split; [destruct I as [E|I]; [congruence|exact I]|]. intros fs' I'. apply A. right. exact I'.
Qed.
Lemma two_flip_known (o : opts) : Forall2 (fun s vs => List.length vs = List.length (snd s)) schema o -> param o "neighborhood" "is_enabled_two_flip_move" <> None.
Proof.
  intros H. apply param_some; [exact H|]. exists neighborhood_fields. split; [cbn; tauto|].
  intros fs' I. cbn in I. repeat (destruct I as [I|I]; [first [discriminate I|injection I as <-; cbn; tauto]|]). contradiction.
Qed.
Lemma traverse_shapes (obj : list (string * json)) ss : forall o,
  traverse (fun s => match last_with (fst s) obj with None => Ok (map f_default (snd s)) | Some (JObj o) => setup_section o (snd s) | Some _ => Throw end) ss = Ok o ->
  Forall2 (fun (s : string * list field) vs => List.length vs = List.length (snd s)) ss o.
Proof.
  induction ss as [|s tl IH]; intros o; cbn [traverse]; [intros [= <-]; constructor|].
  intros H. apply bind_ok in H. destruct H as (b & E & H). apply bind_ok in H. destruct H as (bs & E' & [= <-]). constructor; [|apply IH; exact E'].
  destruct (last_with (fst s) obj) as [v|]; [|injection E as <-; apply map_length].
  destruct v; try discriminate. unfold setup_section in E. exact (traverse_length _ _ _ E).
Qed.
Lemma initialize_shapes : Forall2 (fun (s : string * list field) vs => List.length vs = List.length (snd s)) schema initialize.
Proof. unfold initialize. induction schema as [|s tl IH]; cbn [map]; constructor; [apply map_length|exact IH]. Qed.
Lemma loaded_shapes fuel fs s o : load_options fuel fs s = Some (Ok o) -> Forall2 (fun (s : string * list field) vs => List.length vs = List.length (snd s)) schema o.
Proof.
  unfold load_options. destruct (is_empty (st_option s)); [intros [= <-]; exact initialize_shapes|].
  destruct (fs (st_option s)) as [t|]; [|discriminate]. unfold setup_file. destruct (read_json_object fuel t) as [[obj| |]|]; try discriminate.
  intros [= E]. unfold setup_object in E. exact (traverse_shapes obj schema o E).
Qed.
