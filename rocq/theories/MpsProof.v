(** Proofs for C44: the reader. *)
From Coq Require Import List ZArith QArith Qabs Bool String Lia Lqa Permutation.
From Verif Require Import ExprModel ExprSpec ExprProof ConstraintModel ConstraintSpec VariableModel PresolveModel TextModel MpsModel MpsSpec.
Import ListNotations.
Local Open Scope Z_scope.
Local Open Scope list_scope.

(** ** Maps *)
Lemma lookup_same {A} (m : list (string * A)) k a : lookup (store m k a) k = Some a.
Proof.
  induction m as [|[k' b] m IH]; cbn [store lookup]; [now rewrite String.eqb_refl|].
  destruct (String.eqb k k') eqn:E; cbn [lookup]; rewrite E; [reflexivity|exact IH].
Qed.
Lemma lookup_other {A} (m : list (string * A)) k k2 a : k2 <> k -> lookup (store m k a) k2 = lookup m k2.
Proof.
  intros D. induction m as [|[k' b] m IH]; cbn [store lookup]; [now rewrite (proj2 (String.eqb_neq k2 k) D)|].
  destruct (String.eqb_spec k k') as [-> | E]; cbn [lookup].
  - now rewrite (proj2 (String.eqb_neq k2 k') D).
  - destruct (String.eqb k2 k'); [reflexivity|exact IH].
Qed.
Lemma store_fresh {A} (m : list (string * A)) k a : ~ In k (map fst m) -> store m k a = m ++ [(k, a)].
Proof.
  induction m as [|[k' b] m IH]; intros H; cbn [store app]; [reflexivity|]. cbn in H.
  rewrite (proj2 (String.eqb_neq k k')) by (intros ->; tauto). rewrite IH by tauto. reflexivity.
Qed.
Lemma lookup_in {A} (m : list (string * A)) k a : lookup m k = Some a -> In k (map fst m).
Proof.
  induction m as [|[k' b] m IH]; cbn [lookup map fst In]; [discriminate|]. destruct (String.eqb_spec k k') as [-> | D]; [now left|]. intros H. right. auto.
Qed.
Lemma lookup_map {A B} (g : A -> B) (m : list (string * A)) k : lookup (map (fun p => (fst p, g (snd p))) m) k = match lookup m k with Some a => Some (g a) | None => None end.
Proof. induction m as [|[k' b] m IH]; cbn [lookup map fst snd]; [reflexivity|]. destruct (String.eqb k k'); [reflexivity|exact IH]. Qed.

Lemma nodup_left {A} (l l' : list A) : NoDup (l ++ l') -> NoDup l.
Proof. induction l as [|a l IH]; cbn; intros H; [apply NoDup_nil|]. inversion H; subst. apply NoDup_cons; [|auto]. intros X. apply H2, in_app_iff. now left. Qed.

(** ** Reading section by section *)
Definition live (r : reader) : Prop := rd_end r = false.
(** Every line of the list is read in mode k by [step]. *)
Lemma read_lines_app r l1 l2 r' : read_lines r l1 = Ok r' -> rd_end r' = false -> read_lines r (l1 ++ l2) = read_lines r' l2.
Proof.
  revert r. induction l1 as [|l l1 IH]; intros r H E; cbn [read_lines app] in *; [congruence|].
  destruct (read_line r l) as [r1| |]; cbn [bind] in *; try discriminate. destruct (rd_end r1) eqn:E1; [congruence|]. now apply IH.
Qed.
Lemma read_blank ls : forall r, read_lines r ls = read_lines r (filter (fun l => match l with [] => false | _ => true end) ls) \/ rd_end r = true.
Proof.
  induction ls as [|l ls IH]; intros r; [now left|]. destruct (rd_end r) eqn:E; [now right|]. left. cbn [filter]. destruct l as [|a l].
  - cbn [read_lines read_line bind]. rewrite E. destruct (IH r) as [H|H]; [exact H|congruence].
  - cbn [read_lines]. destruct (read_line r (a :: l)) as [r1| |]; cbn [bind]; try reflexivity. destruct (rd_end r1) eqn:E1; [reflexivity|].
    destruct (IH r1) as [H|H]; [exact H|congruence].
Qed.
Lemma line_section r a b tl : a <> "NAME"%string -> read_line r (a :: b :: tl) = read_section r (a :: b :: tl).
Proof. intros H. unfold read_line. rewrite (proj2 (String.eqb_neq a _) H). reflexivity. Qed.

(** ** ROWS *)
Definition rows_done (ps : list (row_kind * string)) (m : mps) : Prop :=
  mp_vars m = [] /\ mp_obj_sens m = [] /\ mp_vnames m = [] /\
  mp_cnames m = map snd (filter (fun p => match fst p with KN => false | _ => true end) ps) /\
  (forall o, map snd (filter (fun p => match fst p with KN => true | _ => false end) ps) = [o] -> mp_objective m = o) /\
  (forall k r, In (k, r) ps -> k <> KN -> lookup (mp_cons m) r = Some (mkMc (sense_of k) [] 0)) /\
  (forall r, ~ In r (map snd ps) -> lookup (mp_cons m) r = None).
Lemma last_one {A} (l : list A) a o : l ++ [a] = [o] -> l = [] /\ a = o.
Proof. destruct l as [|b l]; cbn; [intros H; injection H; auto|]. intros H. injection H as _ H. destruct l; discriminate. Qed.
Lemma rows_read : forall ps ls r0 ps0, Forall2 row_items ps ls -> rd_mode r0 = MRows -> rd_end r0 = false -> rows_done ps0 (rd_mps r0) -> NoDup (map snd (ps0 ++ ps)) ->
  exists m, read_lines r0 ls = Ok (mkR MRows (rd_int r0) m false) /\ rows_done (ps0 ++ ps) m.
Proof.
  induction ps as [|[k n] ps IH]; intros ls r0 ps0 F M E D N.
  - inversion F; subst. exists (rd_mps r0). rewrite app_nil_r. split; [|exact D]. cbn. destruct r0; cbn in *; subst; reflexivity.
  - inversion F as [|x l xs ls' H1 H2]; subst. unfold row_items in H1. cbn [fst snd] in H1. subst l. cbn [read_lines].
    assert (Ln : read_line r0 [row_name k; n] = read_section r0 [row_name k; n]) by (apply line_section; destruct k; discriminate).
    rewrite Ln. unfold read_section. rewrite M.
    set (m1 := match k with KN => mkMps (mp_name (rd_mps r0)) (mp_vars (rd_mps r0)) (mp_cons (rd_mps r0)) n (mp_obj_sens (rd_mps r0)) (mp_vnames (rd_mps r0)) (mp_cnames (rd_mps r0))
                         | _ => add_row (rd_mps r0) n (sense_of k) end).
    assert (R : read_row (rd_mps r0) [row_name k; n] = Ok m1) by (destruct k; reflexivity). rewrite R. cbn [rd_with bind]. rewrite E. cbn [rd_end].
    assert (Fr : ~ In n (map snd ps0)).
    { rewrite map_app in N. cbn [map snd] in N. apply NoDup_remove_2 in N. intros X. apply N, in_app_iff. now left. }
    assert (D1 : rows_done (ps0 ++ [(k, n)]) m1).
    { destruct D as (D1 & D2 & D3 & D4 & D5 & D6 & D7). unfold rows_done. rewrite !filter_app, !map_app.
      assert (G : get mc_init (mp_cons (rd_mps r0)) n = mc_init) by (unfold get; rewrite D7 by exact Fr; reflexivity).
      assert (Add : k <> KN -> forall k' r, In (k', r) (ps0 ++ [(k, n)]) -> k' <> KN -> lookup (mp_cons (add_row (rd_mps r0) n (sense_of k))) r = Some (mkMc (sense_of k') [] 0)).
      { intros Hk k' r Hin Hk'. unfold add_row. cbn [with_cname with_cons mp_cons]. rewrite G. apply in_app_iff in Hin. destruct Hin as [Hin|[X|[]]].
        - rewrite lookup_other; [now apply D6|]. intros ->. apply Fr. change n with (snd (k', n)). now apply in_map.
        - injection X as -> ->. rewrite lookup_same. reflexivity. }
      assert (Non : forall r, ~ In r (map snd ps0 ++ [n]) -> r <> n /\ ~ In r (map snd ps0)).
      { intros r H. split; intros X; apply H, in_app_iff; [right; left; auto|now left]. }
      destruct k; unfold m1; cbn [filter fst map snd app]; rewrite ?app_nil_r.
      - split; [exact D1|]. split; [exact D2|]. split; [exact D3|]. split; [exact D4|]. split; [intros o Ho; apply last_one in Ho; cbn; tauto|].
        split; [|intros r H; apply Non in H; apply D7; tauto]. intros k' r Hin Hk'. apply in_app_iff in Hin. destruct Hin as [Hin|[X|[]]]; [now apply D6|congruence].
      - split; [exact D1|]. split; [exact D2|]. split; [exact D3|]. split; [cbn; now rewrite D4|]. split; [exact D5|].
        split; [apply Add; discriminate|]. intros r H. apply Non in H. unfold add_row. cbn. rewrite lookup_other; [apply D7|]; tauto.
      - split; [exact D1|]. split; [exact D2|]. split; [exact D3|]. split; [cbn; now rewrite D4|]. split; [exact D5|].
        split; [apply Add; discriminate|]. intros r H. apply Non in H. unfold add_row. cbn. rewrite lookup_other; [apply D7|]; tauto.
      - split; [exact D1|]. split; [exact D2|]. split; [exact D3|]. split; [cbn; now rewrite D4|]. split; [exact D5|].
        split; [apply Add; discriminate|]. intros r H. apply Non in H. unfold add_row. cbn. rewrite lookup_other; [apply D7|]; tauto. }
    replace (ps0 ++ (k, n) :: ps) with ((ps0 ++ [(k, n)]) ++ ps) in * by (rewrite <- app_assoc; reflexivity).
    rewrite M. exact (IH ls' (mkR MRows (rd_int r0) m1 false) (ps0 ++ [(k, n)]) H2 eq_refl eq_refl D1 N).
Qed.

(** ** COLUMNS *)
Definition big (a : Q) : bool := if Qlt_le_dec EPS10 (Qabs a) then true else false.
(** The entries of row r among the coefficients read. *)
Definition row_entries (ts : list (string * string * Q)) (r : string) : list (string * Q) :=
  map (fun t => (fst (fst t), snd t)) (filter (fun t => String.eqb (snd (fst t)) r && big (snd t)) ts).
Lemma row_entries_app ts ts' r : row_entries (ts ++ ts') r = row_entries ts r ++ row_entries ts' r.
Proof. unfold row_entries. now rewrite filter_app, map_app. Qed.
Lemma row_entries_fresh ts v r : ~ In (v, r) (map fst ts) -> ~ In v (map fst (row_entries ts r)).
Proof.
  intros N H. apply N. unfold row_entries in H. rewrite map_map in H. apply in_map_iff in H. destruct H as ([[v' r'] a] & E & H). cbn in E. subst v'.
  apply filter_In in H. destruct H as [H1 H2]. cbn in H2. apply andb_prop in H2. destruct H2 as [H2 _]. apply String.eqb_eq in H2. subst r'.
  change (v, r) with (fst (v, r, a)). now apply in_map.
Qed.
Lemma once (k k' : row_kind) (r : string) l : NoDup (map snd l) -> In (k, r) l -> In (k', r) l -> k = k'.
Proof.
  induction l as [|[k0 r0] l IH]; intros N; [intros []|]. cbn [map snd] in N. inversion N as [|? ? N1 N2]; subst.
  assert (G : forall k1, In (k1, r0) l -> False) by (intros k1 H; apply N1; change r0 with (snd (k1, r0)); now apply in_map).
  intros [E|H] [E'|H'].
  - congruence.
  - injection E as -> ->. destruct (G _ H').
  - injection E' as -> ->. destruct (G _ H).
  - now apply IH.
Qed.
Section Columns.
Variable rows : list (row_kind * string).
Variable obj : string.
Hypothesis one_objective : map snd (filter (fun p => match fst p with KN => true | _ => false end) rows) = [obj].
Hypothesis rows_distinct : NoDup (map snd rows).
Lemma obj_row : In (KN, obj) rows.
Proof.
  assert (H : In obj (map snd (filter (fun p => match fst p with KN => true | _ => false end) rows))) by (rewrite one_objective; now left).
  apply in_map_iff in H. destruct H as ([k n] & E & H). cbn in E. subst n. apply filter_In in H. destruct H as [H1 H2]. destruct k; try discriminate. exact H1.
Qed.
Lemma row_once k k' r : In (k, r) rows -> In (k', r) rows -> k = k'.
Proof. now apply once. Qed.
Lemma non_objective k r : In (k, r) rows -> k <> KN -> r <> obj.
Proof. intros H K ->. apply K. exact (row_once _ _ _ H obj_row). Qed.

(** Coefficients ts, right-hand sides rh. *)
Definition coefs_done (ts : list (string * string * Q)) (rh : string -> Q) (m : mps) : Prop :=
  mp_cnames m = map snd (filter (fun p => match fst p with KN => false | _ => true end) rows) /\
  mp_objective m = obj /\ mp_obj_sens m = row_entries ts obj /\
  forall k r, In (k, r) rows -> k <> KN -> lookup (mp_cons m) r = Some (mkMc (sense_of k) (row_entries ts r) (rh r)).
Definition vars_same (m m' : mps) : Prop := mp_vars m' = mp_vars m /\ mp_vnames m' = mp_vnames m.
Lemma entry_read ts rh m v r s a : coefs_done ts rh m -> atof s = Some a -> In r (map snd rows) -> ~ In (v, r) (map fst ts) ->
  exists m', add_entry v (Ok m) (r, s) = Ok m' /\ coefs_done (ts ++ [(v, r, a)]) rh m' /\ vars_same m m'.
Proof.
  intros (C1 & C2 & C3 & C4) A Hr N. unfold add_entry. cbn [bind fst snd]. unfold number. rewrite A. cbn [bind].
  assert (Ent : forall r', row_entries (ts ++ [(v, r, a)]) r' = row_entries ts r' ++ (if String.eqb r r' && big a then [(v, a)] else [])).
  { intros r'. rewrite row_entries_app. f_equal. unfold row_entries. cbn [filter fst snd]. destruct (String.eqb r r' && big a); reflexivity. }
  unfold big in Ent. destruct (Qlt_le_dec EPS10 (Qabs a)) as [B|B].
  2:{ exists m. split; [reflexivity|]. split; [|split; reflexivity]. split; [exact C1|]. split; [exact C2|].
      split; [rewrite Ent, andb_false_r, app_nil_r; exact C3|]. intros k r' H K. rewrite Ent, andb_false_r, app_nil_r. now apply C4. }
  rewrite C2. destruct (String.eqb_spec r obj) as [-> | D].
  - eexists. split; [reflexivity|]. split; [|split; reflexivity]. split; [exact C1|]. split; [reflexivity|]. cbn [mp_obj_sens mp_cons].
    split; [rewrite Ent, String.eqb_refl, C3; cbn [andb]; apply store_fresh, row_entries_fresh, N|].
    intros k r' H K. rewrite Ent, (proj2 (String.eqb_neq obj r')) by (intros <-; exact (non_objective k obj H K eq_refl)). cbn [andb]. rewrite app_nil_r. now apply C4.
  - apply in_map_iff in Hr. destruct Hr as ([k r0] & E & Hr). cbn in E. subst r0.
    assert (K : k <> KN). { intros ->. apply D. pose proof obj_row as Ho. assert (G : In r (map snd (filter (fun p => match fst p with KN => true | _ => false end) rows))) by (apply in_map_iff; exists (KN, r); split; [reflexivity|apply filter_In; auto]).
      rewrite one_objective in G. destruct G as [G|[]]. congruence. }
    rewrite (C4 k r Hr K). eexists. split; [reflexivity|]. split; [|split; reflexivity]. split; [exact C1|]. split; [exact C2|]. cbn [with_cons mp_obj_sens mp_cons].
    split; [rewrite Ent, (proj2 (String.eqb_neq r obj) D); cbn [andb]; rewrite app_nil_r; exact C3|].
    intros k' r' H' K'. rewrite Ent. destruct (String.eqb_spec r r') as [<- | Dr]; cbn [andb].
    + rewrite lookup_same. cbn [mc_sense mc_sens mc_rhs]. rewrite (row_once _ _ _ H' Hr). f_equal. f_equal. apply store_fresh, row_entries_fresh, N.
    + rewrite lookup_other by auto. rewrite app_nil_r. now apply C4.
Qed.
Lemma entries_read v : forall es tl ts rh m, coefs_done ts rh m -> entry_items es tl ->
  (forall r a, In (r, a) es -> In r (map snd rows)) -> NoDup (map fst (ts ++ map (fun e => (v, fst e, snd e)) es)) ->
  exists m', fold_left (add_entry v) (pairs_of tl) (Ok m) = Ok m' /\ coefs_done (ts ++ map (fun e => (v, fst e, snd e)) es) rh m' /\ vars_same m m'.
Proof.
  induction es as [|[r a] es IH]; intros tl ts rh m C E R N.
  - destruct tl; [|destruct E]. exists m. cbn. rewrite app_nil_r. split; [reflexivity|]. split; [exact C|split; reflexivity].
  - destruct tl as [|n [|s tl]]; try destruct E. destruct H0 as [(Hs & _) E']. subst n. cbn [pairs_of fold_left].
    assert (Fr : ~ In (v, r) (map fst ts)). { rewrite map_app in N. cbn [map fst snd] in N. apply NoDup_remove_2 in N. intros X. apply N, in_app_iff. now left. }
    destruct (entry_read ts rh m v r s a C Hs (R r a (or_introl eq_refl)) Fr) as (m1 & A1 & A2 & A3). rewrite A1.
    cbn [map fst snd] in *. replace (ts ++ (v, r, a) :: map (fun e => (v, fst e, snd e)) es) with ((ts ++ [(v, r, a)]) ++ map (fun e => (v, fst e, snd e)) es) in * by (rewrite <- app_assoc; reflexivity).
    destruct (IH tl _ rh m1 A2 E' (fun r' a' H => R r' a' (or_intror H)) N) as (m2 & B1 & B2 & [B3 B4]). exists m2. split; [exact B1|]. split; [exact B2|].
    destruct A3 as [A3 A4]. split; congruence.
Qed.

(** Variables after some columns. *)
Definition vars_done (cs : list column) (m : mps) : Prop :=
  mp_vnames m = column_names cs [] /\
  (forall v, In v (column_names cs []) -> lookup (mp_vars m) v = Some (mkMv (marked cs false v) 0 INT_HALF_MAX 0 false false)) /\
  (forall v, ~ In v (column_names cs []) -> lookup (mp_vars m) v = None).
Fixpoint open_after (cs : list column) (b : bool) : bool := match cs with [] => b | Marker c :: tl => open_after tl c | Column _ _ :: tl => open_after tl b end.
Lemma names_app cs cs' seen : column_names (cs ++ cs') seen = column_names cs' (column_names cs seen).
Proof. revert seen. induction cs as [|[b|v es] cs IH]; intros seen; cbn; auto. Qed.
Lemma names_grow cs : forall seen v, In v seen -> In v (column_names cs seen).
Proof. induction cs as [|[b|w es] cs IH]; intros seen v H; cbn; auto. apply IH. destruct (existsb (String.eqb w) seen); [exact H|]. apply in_app_iff. now left. Qed.
Lemma names_in cs : forall seen v, In v (column_names cs seen) <-> In v seen \/ exists es, In (Column v es) cs.
Proof.
  induction cs as [|[b|w es] cs IH]; intros seen v; cbn [column_names].
  - split; [now left|]. intros [H|[es []]]. exact H.
  - rewrite IH. split; (intros [H|[es H]]; [now left|right; exists es]); [now right|destruct H as [H|H]; [discriminate|exact H]].
  - rewrite IH. assert (G : In v (if existsb (String.eqb w) seen then seen else seen ++ [w]) <-> In v seen \/ v = w).
    { destruct (existsb (String.eqb w) seen) eqn:X; [|rewrite in_app_iff; cbn; intuition]. apply existsb_exists in X. destruct X as (u & U1 & U2). apply String.eqb_eq in U2. subst u. intuition congruence. }
    rewrite G. split.
    + intros [[H| ->]|[es' H]]; [now left|right; exists es; now left|right; exists es'; now right].
    + intros [H|[es' [H|H]]]; [auto|injection H as -> ->; auto|right; exists es'; exact H].
Qed.
Lemma open_app cs cs' b : open_after (cs ++ cs') b = open_after cs' (open_after cs b).
Proof. revert b. induction cs as [|[c|v es] cs IH]; intros b; cbn; auto. Qed.
Lemma marked_app cs cs' v : forall b, marked (cs ++ cs') b v = if existsb (fun c => match c with Column w _ => String.eqb w v | Marker _ => false end) cs then marked cs b v else marked cs' (open_after cs b) v.
Proof.
  induction cs as [|[c|w es] cs IH]; intros b; cbn [app marked existsb open_after orb]; [reflexivity|apply IH|]. destruct (String.eqb w v); cbn [orb]; [reflexivity|apply IH].
Qed.
Lemma seen_iff cs v : existsb (fun c => match c with Column w _ => String.eqb w v | Marker _ => false end) cs = true <-> In v (column_names cs []).
Proof.
  rewrite names_in, existsb_exists. split.
  - intros ([b|w es] & H1 & H2); [discriminate|]. apply String.eqb_eq in H2. subst w. right. now exists es.
  - intros [[]|[es H]]. exists (Column v es). split; [exact H|apply String.eqb_refl].
Qed.
Lemma vars_marker cs b m : vars_done cs m -> vars_done (cs ++ [Marker b]) m.
Proof.
  intros (V1 & V2 & V3). unfold vars_done. rewrite names_app. cbn [column_names]. split; [exact V1|]. split; [|exact V3].
  intros v H. rewrite marked_app, (proj2 (seen_iff cs v) H). now apply V2.
Qed.
Lemma vars_column cs v es m : vars_done cs m -> vars_done (cs ++ [Column v es]) (add_variable m v (open_after cs false)).
Proof.
  intros (V1 & V2 & V3). unfold vars_done. rewrite names_app. cbn [column_names]. unfold add_variable.
  destruct (existsb (String.eqb v) (column_names cs [])) eqn:X.
  - assert (Hv : In v (column_names cs [])) by (apply existsb_exists in X; destruct X as (u & U1 & U2); apply String.eqb_eq in U2; now subst).
    rewrite (V2 v Hv). split; [exact V1|]. split; [|exact V3]. intros w H. rewrite marked_app, (proj2 (seen_iff cs w) H). now apply V2.
  - assert (Hv : ~ In v (column_names cs [])). { intros H. rewrite (proj2 (existsb_exists _ _)) in X; [discriminate|]. exists v. split; [exact H|apply String.eqb_refl]. }
    rewrite (V3 v Hv). cbn [mp_vnames mp_vars]. split; [now rewrite V1|]. split.
    + intros w H. apply in_app_iff in H. rewrite marked_app. destruct H as [H|[<-|[]]].
      * rewrite (proj2 (seen_iff cs w) H). rewrite lookup_other by (intros ->; tauto). now apply V2.
      * destruct (existsb (fun c => match c with Column w _ => String.eqb w v | Marker _ => false end) cs) eqn:Y; [apply seen_iff in Y; tauto|].
        cbn [marked]. rewrite String.eqb_refl, lookup_same. reflexivity.
    + intros w H. rewrite lookup_other by (intros ->; apply H, in_app_iff; right; now left). apply V3. intros X2. apply H, in_app_iff. now left.
Qed.
Lemma triples_app cs cs' : triples (cs ++ cs') = triples cs ++ triples cs'.
Proof. unfold triples. now rewrite flat_map_app. Qed.
Lemma add_variable_coefs ts rh m v b : coefs_done ts rh m -> coefs_done ts rh (add_variable m v b).
Proof. unfold add_variable. destruct (lookup (mp_vars m) v); auto. Qed.
Lemma columns_read rh : forall cs ls r0 cs0, Forall2 column_items cs ls -> rd_mode r0 = MColumns -> rd_end r0 = false -> rd_int r0 = open_after cs0 false ->
  coefs_done (triples cs0) rh (rd_mps r0) -> vars_done cs0 (rd_mps r0) -> NoDup (map fst (triples (cs0 ++ cs))) ->
  (forall v r a, In (v, r, a) (triples cs) -> In r (map snd rows)) -> (forall v es, In (Column v es) cs -> es <> []) ->
  exists m, read_lines r0 ls = Ok (mkR MColumns (open_after (cs0 ++ cs) false) m false) /\ coefs_done (triples (cs0 ++ cs)) rh m /\ vars_done (cs0 ++ cs) m.
Proof.
  induction cs as [|c cs IH]; intros ls r0 cs0 F M E O C V N R Ne.
  - inversion F; subst. exists (rd_mps r0). rewrite app_nil_r. split; [|auto]. cbn. destruct r0; cbn in *; subst; reflexivity.
  - inversion F as [|x l xs ls' H1 H2]; subst. cbn [read_lines].
    replace (cs0 ++ c :: cs) with ((cs0 ++ [c]) ++ cs) in * by (rewrite <- app_assoc; reflexivity).
    assert (St : exists m1, read_line r0 l = Ok (mkR MColumns (open_after (cs0 ++ [c]) false) m1 false) /\ coefs_done (triples (cs0 ++ [c])) rh m1 /\ vars_done (cs0 ++ [c]) m1).
    { destruct c as [b|v es]; cbn [column_items] in H1.
      - destruct H1 as (a & k & -> & Ha). rewrite line_section by exact Ha. unfold read_section. rewrite M. exists (rd_mps r0).
        rewrite open_app, triples_app. cbn [open_after triples flat_map app]. rewrite app_nil_r. split; [|split; [exact C|now apply vars_marker]].
        rewrite E. destruct b; reflexivity.
      - destruct H1 as (tl & -> & Hv & He). pose proof (Ne v es (or_introl eq_refl)) as Hne. destruct es as [|[r a] es]; [congruence|].
        destruct tl as [|n [|s tl]]; try destruct He. rewrite line_section by exact Hv. unfold read_section. rewrite M. cbn [read_column].
        destruct H0 as [(Hs & Hs1 & Hs2) He]. rewrite (proj2 (String.eqb_neq s _) Hs1), (proj2 (String.eqb_neq s _) Hs2).
        assert (Tr : triples (cs0 ++ [Column v ((r, a) :: es)]) = triples cs0 ++ map (fun e => (v, fst e, snd e)) ((r, a) :: es)) by (rewrite triples_app; cbn [triples flat_map]; now rewrite app_nil_r).
        destruct (entries_read v ((r, a) :: es) (n :: s :: tl) (triples cs0) rh (rd_mps r0) C) as (m1 & A1 & A2 & A3 & A4).
        { cbn [entry_items]. split; [exact H|]. split; [split; [exact Hs|split; assumption]|exact He]. }
        { intros r' a' Hi. apply (R v r' a'). cbn [triples flat_map]. apply in_app_iff. left. apply in_map_iff. exists (r', a'). split; [reflexivity|exact Hi]. }
        { rewrite triples_app, Tr, map_app in N. exact (nodup_left _ _ N). }
        rewrite A1. cbn [bind fst snd]. exists (add_variable m1 v (rd_int r0)). rewrite open_app. cbn [open_after]. rewrite <- O. split; [now rewrite E|].
        rewrite Tr. split; [now apply add_variable_coefs|]. rewrite O. apply vars_column. destruct V as (V1 & V2 & V3). unfold vars_done. rewrite A3, A4. auto. }
    destruct St as (m1 & S1 & S2 & S3). rewrite S1. cbn [bind rd_end].
    apply (IH ls' (mkR MColumns (open_after (cs0 ++ [c]) false) m1 false) (cs0 ++ [c]) H2 eq_refl eq_refl eq_refl S2 S3 N).
    + intros v r a Hi. apply (R v r a). cbn [triples flat_map]. apply in_app_iff. now right.
    + intros v es Hi. apply (Ne v es). now right.
Qed.
End Columns.
