(** Proofs for C45: auxiliary files and operations by name. *)
From Coq Require Import List ZArith QArith Qround Bool String Lia Lqa.
From Verif Require Import VariableModel PresolveModel TextModel MpsModel MpsProof NamesModel NamesSpec.
Import ListNotations.
Local Open Scope Z_scope.
Local Open Scope list_scope.

Lemma nearest_floor q z : nearest q z <-> Qfloor ((1 # 2) + q) = z.
Proof.
  unfold nearest. split.
  - intros [A B]. pose proof (Qfloor_le ((1 # 2) + q)) as F1. pose proof (Qlt_floor ((1 # 2) + q)) as F2.
    assert (L1 : (inject_Z z < inject_Z (Qfloor ((1 # 2) + q) + 1))%Q) by lra.
    assert (L2 : (inject_Z (Qfloor ((1 # 2) + q)) < inject_Z (z + 1))%Q) by (rewrite inject_Z_plus; change (inject_Z 1) with 1%Q; lra).
    rewrite <- Zlt_Qlt in L1, L2. lia.
  - intros <-. pose proof (Qfloor_le ((1 # 2) + q)) as F1. pose proof (Qlt_floor ((1 # 2) + q)) as F2. rewrite inject_Z_plus in F2. change (inject_Z 1) with 1%Q in F2. split; lra.
Qed.
Lemma value_of_ok s q z : atof s = Some q -> nearest q z -> is_int z -> value_of s = Ok z.
Proof.
  intros A N [I1 I2]. unfold value_of. rewrite A. apply nearest_floor in N. rewrite N. unfold to_int, INT_MIN, INT_MAX.
  rewrite (proj2 (Z.leb_le _ _) I1), (proj2 (Z.leb_le _ _) I2). reflexivity.
Qed.

(** ** Reading a two-column file *)
Lemma gives_dec l n : (exists t, gives l n t) \/ (forall t, ~ gives l n t).
Proof.
  unfold gives. destruct (items_of l) as [|a [|b r]]; [right; intros t [x E]; discriminate|right; intros t [x E]; discriminate|].
  destruct (string_dec a n) as [->|D]; [left; exists b, r; reflexivity|right; intros t [x E]; congruence].
Qed.
Lemma given_dec lines n : (exists t, last_given lines n t) \/ never_given lines n.
Proof.
  induction lines as [|l lines [[t (b & x & a & E & G & N)]|IH]].
  - right. intros l t [].
  - left. exists t, (l :: b), x, a. subst. split; [reflexivity|]. auto.
  - destruct (gives_dec l n) as [[t G]|G].
    + left. exists t, [], l, lines. split; [reflexivity|]. auto.
    + right. intros l' t [<- |H]; [apply G|now apply IH].
Qed.
Lemma last_given_unique lines n t t' : last_given lines n t -> last_given lines n t' -> t = t'.
Proof.
  intros (b & x & a & E & G & N) (b' & x' & a' & E' & G' & N').
  assert (K : b = b' /\ x = x' /\ a = a').
  { subst lines. revert b' E'. induction b as [|y b IH]; intros [|y' b'] E'; cbn in E'; inversion E'; subst.
    - auto.
    - exfalso. apply (N x' t'); [apply in_elt|assumption].
    - exfalso. apply (N' x t); [apply in_elt|assumption].
    - destruct (IH b' H1) as (-> & -> & ->). auto. }
  destruct K as (-> & -> & ->). destruct G as [r G], G' as [r' G']. congruence.
Qed.
Lemma read_values_facts lines : readable lines -> forall tbl, exists tbl', read_values lines tbl = Ok tbl' /\
  (forall n t, last_given lines n t -> exists q z, atof t = Some q /\ nearest q z /\ lookup tbl' n = Some z) /\
  (forall n, never_given lines n -> lookup tbl' n = lookup tbl n).
Proof.
  induction lines as [|l lines IH]; intros R tbl.
  - exists tbl. split; [reflexivity|]. split; [intros n t (b & x & a & E & _); destruct b; discriminate|reflexivity].
  - assert (R' : readable lines) by (intros l' n t H; apply R; now right).
    assert (Case : (exists n0 t0 q z, gives l n0 t0 /\ atof t0 = Some q /\ nearest q z /\ forall tbl, read_values (l :: lines) tbl = read_values lines (store tbl n0 z))
      \/ ((forall n t, ~ gives l n t) /\ forall tbl, read_values (l :: lines) tbl = read_values lines tbl)).
    { cbn [read_values]. destruct (items_of l) as [|n0 [|t0 r]] eqn:Ei.
      - right. split; [|reflexivity]. intros n t [x E]. rewrite Ei in E. discriminate.
      - right. split; [|reflexivity]. intros n t [x E]. rewrite Ei in E. discriminate.
      - left. assert (G : gives l n0 t0) by (exists r; exact Ei). destruct (R l n0 t0 (or_introl eq_refl) G) as (q & z & A & N & I).
        exists n0, t0, q, z. split; [exact G|]. split; [exact A|]. split; [exact N|]. intros tb. rewrite (value_of_ok t0 q z A N I). reflexivity. }
    destruct Case as [(n0 & t0 & q & z & G & A & N & E)|[G E]].
    + destruct (IH R' (store tbl n0 z)) as (tbl' & E' & F1 & F2). exists tbl'. rewrite E. split; [exact E'|]. split.
      * intros n t L. destruct (given_dec lines n) as [[t' L']|Nv].
        -- assert (t = t') as ->; [|now apply F1]. apply (last_given_unique (l :: lines) n); [exact L|].
           destruct L' as (b & x & a & Eq & Gx & Na). exists (l :: b), x, a. subst lines. auto.
        -- destruct L as (b & x & a & Eq & Gx & Na). destruct b as [|y b]; cbn in Eq; inversion Eq; subst.
           ++ destruct G as [r G], Gx as [r' Gx]. rewrite G in Gx. inversion Gx; subst. exists q, z. split; [exact A|]. split; [exact N|]. rewrite (F2 n Nv). apply lookup_same.
           ++ exfalso. apply (Nv x t); [apply in_elt|exact Gx].
      * intros n Nv. rewrite (F2 n) by (intros l' t' H; apply Nv; now right). apply lookup_other. intros ->. apply (Nv l t0); [now left|exact G].
    + destruct (IH R' tbl) as (tbl' & E' & F1 & F2). exists tbl'. rewrite E. split; [exact E'|]. split.
      * intros n t (b & x & a & Eq & Gx & Na). destruct b as [|y b]; cbn in Eq; inversion Eq; subst; [exfalso; now apply (G n t)|].
        apply F1. exists b, x, a. auto.
      * intros n Nv. apply F2. intros l' t' H. apply Nv. now right.
Qed.

(** ** Elements *)
Lemma each_element f m i j : element (each f m) i j = match element m i j with Some e => Some (f e) | None => None end.
Proof.
  unfold element, each. rewrite nth_error_map. destruct (nth_error m i) as [p|]; cbn [option_map]; [|reflexivity]. cbn [px_elems].
  rewrite nth_error_map. destruct (nth_error (px_elems p) j); reflexivity.
Qed.
Definition element_rel (R : string * var -> string * var -> Prop) (m m' : list proxy) : Prop :=
  forall i j, match element m i j with
              | Some e => exists e', element m' i j = Some e' /\ R e e'
              | None => element m' i j = None
              end.

Lemma fix_file lines m : readable lines -> exists tbl, read_names_and_values lines = Ok tbl /\
  forall i j, match element m i j with
    | None => element (fix_variables tbl m) i j = None
    | Some (n, v) => exists v', element (fix_variables tbl m) i j = Some (n, v') /\ same_bounds v v' /\
        (forall text, last_given lines n text -> va_fixed v' = true /\ exists q, atof text = Some q /\ nearest q (va_value v')) /\
        (never_given lines n -> v' = v)
    end.
Proof.
  intros R. destruct (read_values_facts lines R []) as (tbl & E & F1 & F2). exists tbl. split; [exact E|]. intros i j.
  unfold fix_variables. rewrite each_element. destruct (element m i j) as [[n v]|]; [|reflexivity]. cbn [fst snd].
  destruct (given_dec lines n) as [[t L]|Nv].
  - destruct (F1 n t L) as (q & z & A & N & Lk). rewrite Lk. exists (fix_by v z). split; [reflexivity|]. split; [repeat split|]. split.
    + intros t' L'. rewrite (last_given_unique lines n t' t L' L). split; [reflexivity|]. exists q. auto.
    + intros Nv. exfalso. destruct L as (b & x & a & Eq & G & _). apply (Nv x t); [subst; apply in_elt|exact G].
  - rewrite (F2 n Nv). cbn [lookup]. exists v. split; [reflexivity|]. split; [repeat split|]. split; [|reflexivity].
    intros t (b & x & a & Eq & G & _). exfalso. apply (Nv x t); [subst; apply in_elt|exact G].
Qed.

Lemma names_listed lines n : existsb (String.eqb n) (read_names lines) = true <-> exists line rest, In line lines /\ items_of line = n :: rest.
Proof.
  rewrite existsb_exists. unfold read_names. split.
  - intros (x & H & E). apply String.eqb_eq in E. subst x. apply in_flat_map in H. destruct H as (l & Hl & H). exists l.
    destruct (items_of l) as [|a r]; [contradiction|]. destruct H as [<-|[]]. exists r. auto.
  - intros (l & r & Hl & E). exists n. split; [|apply String.eqb_refl]. apply in_flat_map. exists l. split; [exact Hl|]. rewrite E. now left.
Qed.
Lemma unfix_file lines m : forall i j, match element m i j with
    | None => element (unfix_variables (read_names lines) m) i j = None
    | Some (n, v) => exists v', element (unfix_variables (read_names lines) m) i j = Some (n, v') /\ same_bounds v v' /\ va_value v' = 0 /\
        (va_fixed v' = false <-> exists line rest, In line lines /\ items_of line = n :: rest)
    end.
Proof.
  intros i j. unfold unfix_variables. rewrite each_element. destruct (element m i j) as [[n v]|]; [|reflexivity]. cbn [fst snd].
  eexists. split; [reflexivity|]. rewrite <- names_listed. destruct (existsb (String.eqb n) (read_names lines)).
  - split; [repeat split|]. split; [reflexivity|]. split; reflexivity.
  - split; [repeat split|]. split; [reflexivity|]. split; discriminate.
Qed.

(** ** Initial solutions *)
Definition target (tbl : list (string * Z)) (n : string) : Z := match lookup tbl n with Some a => a | None => 0 end.
Definition clashes (tbl : list (string * Z)) (e : string * var) : bool := va_fixed (snd e) && negb (va_value (snd e) =? target tbl (fst e)).
Definition assigned (tbl : list (string * Z)) (e : string * var) : string * var := (fst e, v_margin (v_with_value (snd e) (target tbl (fst e)))).
Lemma import_elements_facts tbl l :
  import_elements tbl l = if existsb (clashes tbl) l then Throw else Ok (map (assigned tbl) l).
Proof.
  induction l as [|[n v] l IH]; [reflexivity|]. cbn [import_elements existsb map]. fold (target tbl n). unfold clashes at 1. cbn [fst snd v_step].
  rewrite (andb_comm (va_fixed v)). destruct (negb (va_value v =? target tbl n) && va_fixed v); [reflexivity|]. cbn [orb]. rewrite IH.
  destruct (existsb (clashes tbl) l); reflexivity.
Qed.
Lemma import_facts tbl m :
  import_solution tbl m = if existsb (clashes tbl) (elements m) then Throw else Ok (each (assigned tbl) m).
Proof.
  induction m as [|p m IH]; [reflexivity|]. cbn [import_solution]. rewrite import_elements_facts. unfold elements in *. cbn [flat_map].
  rewrite existsb_app. destruct (existsb (clashes tbl) (px_elems p)); [reflexivity|]. cbn [bind orb]. rewrite IH.
  destruct (existsb (clashes tbl) (flat_map px_elems m)); reflexivity.
Qed.
Lemma in_elements m e : In e (elements m) <-> exists i j, element m i j = Some e.
Proof.
  unfold elements, element. rewrite in_flat_map. split.
  - intros (p & Hp & He). apply In_nth_error in Hp. destruct Hp as [i Hi]. apply In_nth_error in He. destruct He as [j Hj]. exists i, j. rewrite Hi. exact Hj.
  - intros (i & j & H). destruct (nth_error m i) as [p|] eqn:Ep; [|discriminate]. exists p. split; [eapply nth_error_In; eauto|eapply nth_error_In; eauto].
Qed.
Lemma target_value lines tbl n :
  (forall t, last_given lines n t -> exists q z, atof t = Some q /\ nearest q z /\ lookup tbl n = Some z) ->
  (never_given lines n -> lookup tbl n = None) -> file_value lines n (target tbl n).
Proof.
  intros F1 F2. unfold file_value, target. destruct (given_dec lines n) as [[t L]|Nv].
  - left. destruct (F1 t L) as (q & z & A & N & Lk). exists t, q. rewrite Lk. auto.
  - right. split; [exact Nv|]. rewrite (F2 Nv). reflexivity.
Qed.
Lemma file_value_unique lines n z z' : file_value lines n z -> file_value lines n z' -> z = z'.
Proof.
  intros [(t & q & L & A & N)|[Nv ->]] [(t' & q' & L' & A' & N')|[Nv' ->]]; auto.
  - rewrite (last_given_unique lines n t' t L' L) in A'. apply nearest_floor in N, N'. congruence.
  - exfalso. destruct L as (b & x & a & Eq & G & _). apply (Nv' x t); [subst; apply in_elt|exact G].
  - exfalso. destruct L' as (b & x & a & Eq & G & _). apply (Nv x t'); [subst; apply in_elt|exact G].
Qed.
Lemma initial_file lines m : readable lines -> exists tbl, read_names_and_values lines = Ok tbl /\
  ((exists i j n v z, element m i j = Some (n, v) /\ va_fixed v = true /\ file_value lines n z /\ va_value v <> z) ->
     import_solution tbl m = Throw) /\
  ((forall i j n v z, element m i j = Some (n, v) -> va_fixed v = true -> file_value lines n z -> va_value v = z) ->
     exists m', import_solution tbl m = Ok m' /\
     forall i j, match element m i j with
       | None => element m' i j = None
       | Some (n, v) => exists v', element m' i j = Some (n, v') /\ same_bounds v v' /\ va_fixed v' = va_fixed v /\ file_value lines n (va_value v')
       end).
Proof.
  intros R. destruct (read_values_facts lines R []) as (tbl & E & F1 & F2). exists tbl. split; [exact E|]. rewrite import_facts.
  assert (T : forall n, file_value lines n (target tbl n)) by (intros n; apply target_value; [intros t; apply F1|intros H; rewrite (F2 n H); reflexivity]).
  split.
  - intros (i & j & n & v & z & He & Fx & Fv & D). assert (X : existsb (clashes tbl) (elements m) = true); [|now rewrite X].
    apply existsb_exists. exists (n, v). split; [apply in_elements; eauto|]. unfold clashes. cbn [fst snd]. rewrite Fx. cbn [andb].
    rewrite (file_value_unique lines n (target tbl n) z (T n) Fv). apply negb_true_iff, Z.eqb_neq. exact D.
  - intros H. destruct (existsb (clashes tbl) (elements m)) eqn:X.
    + exfalso. apply existsb_exists in X. destruct X as ([n v] & He & C). apply in_elements in He. destruct He as (i & j & He). unfold clashes in C. cbn [fst snd] in C.
      apply andb_prop in C. destruct C as [C1 C2]. apply negb_true_iff, Z.eqb_neq in C2. apply C2. exact (H i j n v _ He C1 (T n)).
    + exists (each (assigned tbl) m). split; [reflexivity|]. intros i j. rewrite each_element. destruct (element m i j) as [[n v]|]; [|reflexivity].
      unfold assigned. cbn [fst snd]. eexists. split; [reflexivity|]. split; [repeat split|]. split; [reflexivity|]. apply T.
Qed.

(** ** Flippable pairs *)
Lemma last_position_facts names : forall i acc, NoDup names ->
  (forall k n, nth_error names k = Some n -> lookup (last_position names i acc) n = Some (i + k)%nat) /\
  (forall n, ~ In n names -> lookup (last_position names i acc) n = lookup acc n).
Proof.
  induction names as [|a names IH]; intros i acc ND; cbn [last_position].
  - split; [intros [|k] n H; discriminate|reflexivity].
  - inversion ND; subst. destruct (IH (S i) (store acc a i) H2) as [I1 I2]. split.
    + intros [|k] n H; cbn in H.
      * inversion H; subst. rewrite I2 by assumption. rewrite lookup_same. f_equal. lia.
      * rewrite (I1 k n H). f_equal. lia.
    + intros n Hn. cbn in Hn. rewrite I2 by tauto. apply lookup_other. intros ->. tauto.
Qed.
Lemma pairs_file m lines : NoDup (map fst (elements m)) ->
  described (map fst (elements m)) lines (setup_flippable_pairs m (read_name_pairs lines)).
Proof.
  intros ND. unfold setup_flippable_pairs. set (names := map fst (elements m)) in *. destruct (last_position_facts names 0 [] ND) as [L1 L2].
  set (tbl := last_position names 0 []) in *.
  assert (Kn : forall a i, lookup tbl a = Some i -> nth_error names i = Some a).
  { intros a i H. destruct (in_dec string_dec a names) as [Hi|Hi]; [|rewrite (L2 a Hi) in H; discriminate].
    apply In_nth_error in Hi. destruct Hi as [k Hk]. rewrite (L1 k a Hk) in H. injection H as <-. exact Hk. }
  assert (Un : forall a, lookup tbl a = None -> ~ In a names).
  { intros a H Hi. apply In_nth_error in Hi. destruct Hi as [k Hk]. rewrite (L1 k a Hk) in H. discriminate. }
  induction lines as [|l lines IH]; [constructor|]. unfold read_name_pairs in *. cbn [flat_map].
  destruct (items_of l) as [|a [|b r]] eqn:E; cbn [app flippable_pairs].
  - apply described_skip; [|exact IH]. intros a b [r G]. congruence.
  - apply described_skip; [|exact IH]. intros a' b [r G]. congruence.
  - destruct (lookup tbl a) as [i|] eqn:Ea; [destruct (lookup tbl b) as [j|] eqn:Eb|].
    + eapply described_pair; [exists r; exact E|apply Kn; exact Ea|apply Kn; exact Eb|exact IH].
    + apply described_skip; [|exact IH]. intros a' b' [r' G] [_ H]. rewrite E in G. inversion G; subst. now apply (Un b').
    + apply described_skip; [|exact IH]. intros a' b' [r' G] [H _]. rewrite E in G. inversion G; subst. now apply (Un a').
Qed.
