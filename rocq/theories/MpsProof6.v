(** Proofs for C54: the content of the written file is the model. *)
From Coq Require Import List ZArith QArith Qabs Bool String Ascii Lia Lqa Permutation.
From Verif Require Import ExprModel ExprSpec ExprProof ConstraintModel ConstraintSpec VariableModel PresolveModel TextModel TextProof TextProof2 MpsModel MpsSpec MpsProof MpsProof2 MpsProof3 MpsProof4 MpsProof5.
Import ListNotations.
Local Open Scope string_scope.
Local Open Scope Z_scope.
Local Open Scope list_scope.

Lemma nodup_app_parts {A} (l l' : list A) : NoDup l -> NoDup l' -> (forall a, In a l -> ~ In a l') -> NoDup (l ++ l').
Proof.
  induction l as [|a l IH]; intros H H' D; cbn; [exact H'|]. inversion H as [|? ? H1 H2]; subst. apply NoDup_cons.
  - intros X. apply in_app_iff in X. destruct X as [X|X]; [contradiction|exact (D a (or_introl eq_refl) X)].
  - apply IH; [exact H2|exact H'|]. intros b Hb. apply D. now right.
Qed.
Lemma nodup_map_in {A B} (g : A -> B) l a b : NoDup (map g l) -> In a l -> In b l -> g a = g b -> a = b.
Proof.
  induction l as [|c l IH]; cbn; intros N Ha Hb E; [destruct Ha|]. inversion N as [|? ? N1 N2]; subst. destruct Ha as [->|Ha], Hb as [->|Hb]; auto.
  - exfalso. apply N1. rewrite E. now apply in_map.
  - exfalso. apply N1. rewrite <- E. now apply in_map.
Qed.
(** ** Sums over positions *)
Fixpoint rsum (g : nat -> Q) (i n : nat) : Q := match n with O => 0%Q | S n => (g i + rsum g (S i) n)%Q end.
Lemma rsum_ext g h n : forall i, (forall k, (i <= k < i + n)%nat -> (g k == h k)%Q) -> (rsum g i n == rsum h i n)%Q.
Proof. induction n as [|n IH]; intros i H; cbn [rsum]; [reflexivity|]. rewrite (H i) by lia. rewrite (IH (S i)) by (intros k Hk; apply H; lia). reflexivity. Qed.
Lemma rsum_plus g h n : forall i, (rsum (fun k => g k + h k) i n == rsum g i n + rsum h i n)%Q.
Proof. induction n as [|n IH]; intros i; cbn [rsum]; [reflexivity|]. rewrite IH. ring. Qed.
Lemma rsum_zero n : forall i, (rsum (fun _ => 0) i n == 0)%Q.
Proof. induction n as [|n IH]; intros i; cbn [rsum]; [reflexivity|]. rewrite IH. ring. Qed.
Lemma rsum_one (a : Q) v n : forall i, (i <= v < i + n)%nat -> (rsum (fun k => if Nat.eqb v k then a else 0) i n == a)%Q.
Proof.
  induction n as [|n IH]; intros i H; [lia|]. cbn [rsum]. destruct (Nat.eqb_spec v i) as [->|D].
  - rewrite (rsum_ext _ (fun _ => 0%Q)); [rewrite rsum_zero; ring|]. intros k Hk. rewrite (proj2 (Nat.eqb_neq i k)) by lia. reflexivity.
  - rewrite IH by lia. ring.
Qed.
Lemma lin_range s x n : NoDup (map fst s) -> (forall i a, In (i, a) s -> (i < n)%nat) -> (lin s x == rsum (fun k => coef s k * inject_Z (x k)) 0 n)%Q.
Proof.
  induction s as [|[v a] s IH]; intros N B.
  - cbn [lin]. rewrite (rsum_ext _ (fun _ => 0%Q)); [symmetry; apply rsum_zero|]. intros k _. unfold coef. cbn. ring.
  - cbn [map fst] in N. inversion N as [|? ? N1 N2]; subst. cbn [lin]. rewrite (IH N2 (fun i b H => B i b (or_intror H))).
    pose proof (B v a (or_introl eq_refl)) as Hv. rewrite <- (rsum_one (a * inject_Z (x v)) v n 0) by lia. rewrite <- rsum_plus. apply rsum_ext. intros k _.
    unfold coef. cbn [sens_find]. destruct (Nat.eqb_spec v k) as [->|D].
    + destruct (sens_find s k) as [b|] eqn:F; [|ring]. exfalso. apply N1. apply find_in in F. change k with (fst (k, b)). now apply in_map.
    + destruct (sens_find s k); ring.
Qed.
Lemma sum_app a b : (sum (a ++ b) == sum a + sum b)%Q.
Proof. unfold sum. induction a as [|q a IH]; cbn [app fold_right]; [ring|]. rewrite IH. ring. Qed.
Lemma sum_perm {A} (g : A -> Q) l l' : Permutation l l' -> (sum (map g l) == sum (map g l'))%Q.
Proof. unfold sum. induction 1; cbn [map fold_right]; [reflexivity|rewrite IHPermutation; reflexivity|ring|rewrite IHPermutation1; exact IHPermutation2]. Qed.
Lemma filter_perm {A} (p : A -> bool) l l' : Permutation l l' -> Permutation (filter p l) (filter p l').
Proof. induction 1; cbn; [constructor|destruct (p x); [now constructor|assumption]|destruct (p x), (p y); try reflexivity; constructor|now transitivity (filter p l')]. Qed.

Section Content.
Variable w : written.
Variable sorted : nat -> list (string * Q).
Hypothesis W : writable w.
Hypothesis Srt : forall i, Permutation (sorted i) (entries_of (wr_cons w) i).
Notation ds := delete_space.
Notation n_vars := (List.length (wr_vars w)).
Let F := file w sorted.
Definition names : list string := map (fun p => ds (fst p)) (wr_vars w).

Lemma con_names : NoDup (map (fun p => ds (fst p)) (wr_cons w)) /\ forall n c, In (n, c) (wr_cons w) -> ds n <> "obj".
Proof.
  destruct W as (_ & _ & _ & _ & W5 & _). inversion W5 as [|? ? N1 N2]; subst. split; [exact N2|]. intros n c H E. apply N1. rewrite <- E. change (ds n) with ((fun p : string * constr => ds (fst p)) (n, c)). now apply in_map.
Qed.
(** ** Columns *)
Lemma cols_of_name i n c : In c (cols_of w sorted i n) -> exists r a, c = Column n [(r, a)].
Proof.
  unfold cols_of. intros H. apply in_app_iff in H. destruct H as [H|H].
  - destruct (is_big _); [|destruct H]. destruct H as [<-|[]]. now do 2 eexists.
  - apply in_map_iff in H. destruct H as (e & <- & _). now do 2 eexists.
Qed.
Lemma cols_of_nonempty i n : (i < n_vars)%nat -> cols_of w sorted i n <> [].
Proof.
  intros Hi E. unfold cols_of in E. apply app_eq_nil in E. destruct E as [E1 E2]. destruct W as (_ & _ & _ & W4 & _ & _ & _ & W8). destruct (W8 i Hi) as [B|(m & c & a & H1 & H2)].
  - unfold is_big, EPS10 in E1. destruct (Qlt_le_dec _ _) as [X|X]; [discriminate|]. lra.
  - apply map_eq_nil in E2. assert (X : In (m, a) (entries_of (wr_cons w) i)).
    { unfold entries_of. apply in_flat_map. exists (m, c). split; [exact H1|]. cbn [fst snd]. destruct (W4 m c H1) as (_ & We & _). rewrite (in_find _ _ _ We H2). now left. }
    apply (Permutation_in _ (Permutation_sym (Srt i))) in X. rewrite E2 in X. destruct X.
Qed.
Lemma names_seen cs n : (forall c, In c cs -> exists es, c = Column n es) -> forall seen, In n seen -> column_names cs seen = seen.
Proof.
  induction cs as [|c cs IH]; intros H seen Hs; cbn [column_names]; [reflexivity|]. destruct (H c (or_introl eq_refl)) as (es & ->).
  assert (X : existsb (String.eqb n) seen = true) by (apply existsb_exists; exists n; split; [exact Hs|apply String.eqb_refl]). rewrite X. apply IH; [intros d Hd; apply H; now right|exact Hs].
Qed.
Lemma names_from vs : forall i seen, (i + List.length vs = n_vars)%nat -> NoDup (seen ++ map (fun p => ds (fst p)) vs) -> column_names (cols_from w sorted i vs) seen = seen ++ map (fun p => ds (fst p)) vs.
Proof.
  induction vs as [|[n v] vs IH]; intros i seen L N; cbn [cols_from map fst].
  - cbn. now rewrite app_nil_r.
  - rewrite names_app. cbn [map fst] in N. assert (Fr : ~ In n seen \/ True) by now right. cbn [List.length] in L.
    assert (E : column_names (cols_of w sorted i (ds n)) seen = seen ++ [ds n]).
    { pose proof (cols_of_nonempty i (ds n)) as Ne. pose proof (cols_of_name i (ds n)) as Nm. destruct (cols_of w sorted i (ds n)) as [|c cs]; [exfalso; apply Ne; [lia|reflexivity]|].
      destruct (Nm c (or_introl eq_refl)) as (r & a & ->). cbn [column_names].
      assert (X : existsb (String.eqb (ds n)) seen = false).
      { destruct (existsb (String.eqb (ds n)) seen) eqn:X; [|reflexivity]. apply existsb_exists in X. destruct X as (u & U1 & U2). apply String.eqb_eq in U2. subst u.
        exfalso. apply NoDup_remove_2 in N. apply N. apply in_app_iff. now left. }
      rewrite X. apply (names_seen cs (ds n)); [|apply in_app_iff; right; now left]. intros d Hd. destruct (Nm d (or_intror Hd)) as (r' & a' & ->). now eexists. }
    rewrite E, IH; [now rewrite <- app_assoc|lia|]. now rewrite <- app_assoc.
Qed.
Lemma columns_names : columns F = names.
Proof.
  unfold columns, F. cbn [f_cols file column_names]. rewrite names_app. rewrite (names_from (wr_vars w) 0 []); [reflexivity|reflexivity|]. destruct W as (_ & _ & W3 & _). exact W3.
Qed.
Lemma unmarked vs : forall i b, In (Marker b) (cols_from w sorted i vs) -> False.
Proof.
  induction vs as [|[n v] vs IH]; intros i b H; cbn [cols_from] in H; [destruct H|]. apply in_app_iff in H. destruct H as [H|H]; [|exact (IH _ _ H)].
  destruct (cols_of_name _ _ _ H) as (r & a & X). discriminate.
Qed.
Lemma marked_open cs tl n : (forall b, ~ In (Marker b) cs) -> (exists es, In (Column n es) cs) -> marked (cs ++ tl) true n = true.
Proof.
  induction cs as [|[b|v es] cs IH]; intros M (es' & H); cbn [app marked].
  - destruct H.
  - exfalso. apply (M b). now left.
  - destruct (String.eqb_spec v n) as [_|D]; [reflexivity|]. apply IH; [intros b Hb; apply (M b); now right|]. destruct H as [H|H]; [injection H as -> _; congruence|now exists es'].
Qed.
Lemma marked_names n : In n names -> marked (f_cols F) false n = true.
Proof.
  intros H. unfold F. cbn [f_cols file marked]. apply marked_open; [exact (unmarked (wr_vars w) 0)|].
  rewrite <- columns_names in H. unfold columns, F in H. cbn [f_cols file column_names] in H. rewrite names_app in H. cbn [column_names] in H. apply names_in in H. destruct H as [[]|H]; exact H.
Qed.
(** ** Triples *)
Definition triples_of (i : nat) (n : string) : list (string * string * Q) :=
  (if is_big (coef (ex_sens (wr_objective w)) i) then [(n, "obj", rd (goal_coef w i))] else []) ++ map (fun e => (n, ds (fst e), rd (snd e))) (sorted i).
Fixpoint triples_from (i : nat) (vs : list (string * var)) : list (string * string * Q) :=
  match vs with [] => [] | (n, _) :: tl => triples_of i (ds n) ++ triples_from (S i) tl end.
Lemma triples_cols vs : forall i, triples (cols_from w sorted i vs) = triples_from i vs.
Proof.
  induction vs as [|[n v] vs IH]; intros i; cbn [cols_from triples_from]; [reflexivity|]. rewrite triples_app, IH. f_equal. unfold cols_of, triples_of. rewrite triples_app. f_equal.
  - destruct (is_big _); reflexivity.
  - unfold triples. induction (sorted i) as [|e l IHl]; cbn; [reflexivity|]. now rewrite IHl.
Qed.
Lemma triples_file : triples (f_cols F) = triples_from 0 (wr_vars w).
Proof. unfold F. cbn [f_cols file]. change (Marker true :: ?l) with ([Marker true] ++ l). rewrite !triples_app, triples_cols. cbn [triples flat_map app]. apply app_nil_r. Qed.
Lemma entries_names cs i : map fst (entries_of cs i) = map fst (filter (fun nc => match sens_find (ex_sens (ct_expr (snd nc))) i with Some _ => true | None => false end) cs).
Proof. unfold entries_of. induction cs as [|[n c] cs IH]; cbn [flat_map filter fst snd]; [reflexivity|]. destruct (sens_find _ i); cbn [app map fst]; now rewrite IH. Qed.
Lemma nodup_filter_map {A B} (g : A -> B) p l : NoDup (map g l) -> NoDup (map g (filter p l)).
Proof.
  induction l as [|a l IH]; cbn; intros H; [exact H|]. inversion H as [|? ? H1 H2]; subst. destruct (p a); [|now apply IH]. cbn. apply NoDup_cons; [|now apply IH].
  intros X. apply H1. apply in_map_iff in X. destruct X as (b & <- & Hb). apply filter_In in Hb. now apply in_map.
Qed.
Lemma sorted_names i : NoDup (map (fun e => ds (fst e)) (sorted i)).
Proof.
  apply (Permutation_NoDup (Permutation_map _ (Permutation_sym (Srt i)))). rewrite <- (map_map fst ds), entries_names, map_map. apply nodup_filter_map. exact (proj1 con_names).
Qed.
Lemma triples_of_keys i n : NoDup (map fst (triples_of i n)).
Proof.
  unfold triples_of. rewrite map_app. apply nodup_app_parts.
  - destruct (is_big _); cbn; [apply NoDup_cons; [intros []|apply NoDup_nil]|apply NoDup_nil].
  - rewrite map_map. cbn [fst]. pose proof (sorted_names i) as N. induction (sorted i) as [|e l IH]; cbn in *; [apply NoDup_nil|]. inversion N as [|? ? N1 N2]; subst. apply NoDup_cons; [|now apply IH].
    intros X. apply N1. apply in_map_iff in X. destruct X as (e' & E & He). injection E as E. apply in_map_iff. now exists e'.
  - intros [a r] H1 H2. destruct (is_big _); [|destruct H1]. cbn in H1. destruct H1 as [H1|[]]. injection H1 as <- <-. rewrite map_map in H2. apply in_map_iff in H2. destruct H2 as (e & E & He). cbn in E. injection E as E.
    destruct (entry_con w sorted Srt i e He) as (c & Hc & _). exact (proj2 con_names _ _ Hc E).
Qed.
Lemma triples_of_name i n t : In t (triples_of i n) -> fst (fst t) = n.
Proof. unfold triples_of. intros H. apply in_app_iff in H. destruct H as [H|H]; [destruct (is_big _); [destruct H as [<-|[]]; reflexivity|destruct H]|]. apply in_map_iff in H. destruct H as (e & <- & _). reflexivity. Qed.
Lemma triples_from_name vs : forall i t, In t (triples_from i vs) -> In (fst (fst t)) (map (fun p => ds (fst p)) vs).
Proof. induction vs as [|[n v] vs IH]; intros i t H; cbn [triples_from map fst] in *; [destruct H|]. apply in_app_iff in H. destruct H as [H|H]; [left; symmetry; exact (triples_of_name _ _ _ H)|right; exact (IH _ _ H)]. Qed.
Lemma triples_keys vs : NoDup (map (fun p => ds (fst p)) vs) -> forall i, NoDup (map fst (triples_from i vs)).
Proof.
  induction vs as [|[n v] vs IH]; intros N i; cbn [triples_from]; [apply NoDup_nil|]. cbn [map fst] in N. inversion N as [|? ? N1 N2]; subst. rewrite map_app. apply nodup_app_parts; [apply triples_of_keys|now apply IH|].
  intros k H1 H2. apply in_map_iff in H1. destruct H1 as (t1 & E1 & T1). apply in_map_iff in H2. destruct H2 as (t2 & E2 & T2). apply N1. rewrite <- (triples_of_name _ _ _ T1). rewrite E1, <- E2. exact (triples_from_name _ _ _ T2).
Qed.
Lemma rd_zero_big q : six_digits q -> zero_or_big q -> (rd q == 0 \/ 1 # 10000000000 < Qabs (rd q))%Q.
Proof. intros S [Z|B]; [left|right]; rewrite (rd_six q S); assumption. Qed.
Lemma coef_good e i : writable_expr n_vars e -> six_digits (coef (ex_sens e) i) /\ zero_or_big (coef (ex_sens e) i).
Proof.
  intros (_ & H & _). unfold coef. destruct (sens_find (ex_sens e) i) as [a|] eqn:E; [exact (proj2 (H i a (find_in _ _ _ E)))|]. split; [|left; reflexivity]. exists 0, 0. split; [reflexivity|lia].
Qed.
Lemma goal_six i : six_digits (goal_coef w i).
Proof. destruct W as (_ & _ & _ & _ & _ & W6 & _). unfold goal_coef. destruct (wr_minimize w); [|apply six_neg]; apply (coef_good _ i W6). Qed.
Lemma goal_big i : zero_or_big (goal_coef w i).
Proof.
  destruct W as (_ & _ & _ & _ & _ & W6 & _). destruct (coef_good _ i W6) as [_ Z]. unfold goal_coef. destruct (wr_minimize w); [exact Z|]. destruct Z as [Z|Z]; [left; rewrite Z; ring|right; rewrite Qabs_opp; exact Z].
Qed.
Lemma triples_good vs : forall i v r a, In (v, r, a) (triples_from i vs) -> In r (map snd (f_rows F)) /\ (a == 0 \/ 1 # 10000000000 < Qabs a)%Q.
Proof.
  induction vs as [|[n u] vs IH]; intros i v r a H; cbn [triples_from] in H; [destruct H|]. apply in_app_iff in H. destruct H as [H|H]; [|exact (IH _ _ _ _ H)].
  unfold triples_of in H. apply in_app_iff in H. destruct H as [H|H].
  - destruct (is_big _); [|destruct H]. destruct H as [H|[]]. injection H as <- <- <-. split; [unfold F; cbn; now left|]. apply rd_zero_big; [apply goal_six|apply goal_big].
  - apply in_map_iff in H. destruct H as (e & E & He). injection E as <- <- <-. destruct (entry_con w sorted Srt i e He) as (c & Hc & Fc). split.
    + unfold F. cbn [f_rows file map snd]. right. rewrite map_map. cbn [snd]. change (ds (fst e)) with ((fun p : string * constr => ds (fst p)) (fst e, c)). now apply in_map.
    + destruct W as (_ & _ & _ & W4 & _). destruct (W4 _ _ Hc) as (_ & _ & We & _). destruct (We i (snd e) (find_in _ _ _ Fc)) as (_ & S & Z). now apply rd_zero_big.
Qed.
(** ** Bounds *)
Lemma bounds_other vs n : ~ In n (map (fun p => ds (fst p)) vs) -> filter (fun p => String.eqb (snd p) n) (flat_map bounds_from vs) = [].
Proof.
  induction vs as [|[m v] vs IH]; intros H; cbn [flat_map]; [reflexivity|]. cbn [map fst In] in H. rewrite filter_app, IH by tauto. rewrite app_nil_r.
  assert (D : String.eqb (ds m) n = false) by (apply String.eqb_neq; tauto). unfold bounds_from. cbn [fst snd]. destruct (va_fixed v); cbn [filter snd]; [now rewrite D|].
  destruct (negb _ && negb _), (negb _); cbn [app filter snd]; rewrite ?D; reflexivity.
Qed.
Lemma bounds_self n v : filter (fun p => String.eqb (snd p) (ds n)) (bounds_from (n, v)) = bounds_from (n, v).
Proof. unfold bounds_from. cbn [fst snd]. destruct (va_fixed v); cbn [filter snd]; [now rewrite String.eqb_refl|]. destruct (negb _ && negb _), (negb _); cbn [app filter snd]; rewrite ?String.eqb_refl; reflexivity. Qed.
Lemma bounds_vs vs n v : NoDup (map (fun p => ds (fst p)) vs) -> In (n, v) vs -> filter (fun p => String.eqb (snd p) (ds n)) (flat_map bounds_from vs) = bounds_from (n, v).
Proof.
  induction vs as [|[m u] vs IH]; intros N H; [destruct H|]. cbn [map fst] in N. inversion N as [|? ? N1 N2]; subst. cbn [flat_map]. rewrite filter_app. destruct H as [H|H].
  - injection H as -> ->. rewrite (bounds_other vs _ N1), app_nil_r. apply bounds_self.
  - rewrite (IH N2 H). assert (D : ds m <> ds n) by (intros E; apply N1; rewrite E; change (ds n) with ((fun p : string * var => ds (fst p)) (n, v)); now apply in_map).
    pose proof (bounds_other [(m, u)] (ds n)) as X. cbn [flat_map map fst In app] in X. rewrite app_nil_r in X. rewrite X by (intros [Y|[]]; exact (D Y)). reflexivity.
Qed.
Lemma bounds_file n v : In (n, v) (wr_vars w) -> bounds_of F (ds n) = map fst (bounds_from (n, v)).
Proof. intros H. unfold bounds_of, F. cbn [f_bounds file]. destruct W as (_ & _ & W3 & _). now rewrite (bounds_vs _ _ _ W3 H). Qed.
Lemma in_names n v : In (n, v) (wr_vars w) -> In (ds n) names.
Proof. intros H. unfold names. change (ds n) with ((fun p : string * var => ds (fst p)) (n, v)). now apply in_map. Qed.
Lemma interval_file n v : In (n, v) (wr_vars w) -> interval F (ds n) = if va_fixed v then (va_value v, va_value v) else (va_lower v, va_upper v).
Proof.
  intros H. unfold interval. rewrite (bounds_file n v H), (marked_names _ (in_names n v H)). destruct W as (_ & W2 & _). destruct (W2 n v H) as (_ & _ & Wv). unfold writable_var in Wv. unfold bounds_from. cbn [fst snd].
  destruct (va_fixed v); [reflexivity|]. destruct Wv as (_ & Wv2 & _ & Wv4 & Wv5). rewrite (proj2 (Z.eqb_neq _ _) Wv4). cbn [negb andb].
  destruct (Z.eqb_spec (va_lower v) 0) as [E0|E0]; cbn [negb]; destruct (Z.eqb_spec (va_upper v) INT_HALF_MAX) as [E1|E1]; cbn [negb app map fst fold_left bound_effect snd].
  - tauto.
  - now rewrite E0.
  - now rewrite E1.
  - reflexivity.
Qed.
Lemma written_well_formed : well_formed F "obj".
Proof.
  pose proof W as (_ & W2 & W3 & W4 & W5 & W6 & _). assert (Rn : map snd (f_rows F) = "obj" :: map (fun p => ds (fst p)) (wr_cons w)) by (unfold F; cbn [f_rows file map snd]; now rewrite map_map).
  assert (Cr : constraint_rows F = map (fun p => ds (fst p)) (wr_cons w)).
  { unfold constraint_rows, F. cbn [f_rows file filter fst]. rewrite filter_id; [now rewrite map_map|]. intros p Hp. apply in_map_iff in Hp. destruct Hp as ([n c] & <- & _). cbn. now destruct (ct_sense c). }
  split; [|split; [|split; [|split; [|split; [|split; [|split; [|split]]]]]]].
  - unfold F. cbn [f_rows file filter fst map snd]. f_equal. assert (X : filter (fun p : row_kind * string => match fst p with KN => true | _ => false end) (map (fun p => (kind_of (ct_sense (snd p)), ds (fst p))) (wr_cons w)) = []); [|now rewrite X].
    clear. generalize (wr_cons w) as l. induction l as [|[n c] l IH]; [reflexivity|]. cbn [map filter fst snd]. destruct (ct_sense c); exact IH.
  - rewrite Rn. exact W5.
  - rewrite triples_file. now apply triples_keys.
  - intros v r a H. rewrite triples_file in H. exact (triples_good _ _ _ _ _ H).
  - intros v es H. unfold F in H. cbn [f_cols file] in H. destruct H as [H|H]; [discriminate|]. apply in_app_iff in H. destruct H as [H|[H|[]]]; [|discriminate].
    assert (G : forall vs i, In (Column v es) (cols_from w sorted i vs) -> es <> []). { induction vs as [|[n u] vs IH]; intros i X; cbn [cols_from] in X; [destruct X|]. apply in_app_iff in X. destruct X as [X|X]; [|exact (IH _ X)]. destruct (cols_of_name _ _ _ X) as (r & a & E). injection E as _ ->. discriminate. }
    exact (G _ _ H).
  - unfold F. cbn [f_rhs file]. rewrite map_map. cbn [fst]. exact (proj1 con_names).
  - intros r q H. rewrite Cr. unfold F in H. cbn [f_rhs file] in H. apply in_map_iff in H. destruct H as (p & E & Hp). injection E as <- _. now apply (in_map (fun p : string * constr => ds (fst p))).
  - intros b v H. rewrite columns_names. unfold F in H. cbn [f_bounds file] in H. apply in_flat_map in H. destruct H as ([n u] & H1 & H2). assert (E : v = ds n).
    { unfold bounds_from in H2. cbn [fst snd] in H2. destruct (va_fixed u); [destruct H2 as [H2|[]]; congruence|]. apply in_app_iff in H2. destruct H2 as [H2|H2]; [destruct (negb _ && negb _)|destruct (negb _)]; try destruct H2 as [H2|[]]; try contradiction; congruence. }
    rewrite E. exact (in_names n u H1).
  - intros v l z l' H. destruct (in_dec string_dec v names) as [Hv|Hv].
    + unfold names in Hv. apply in_map_iff in Hv. destruct Hv as ([n u] & <- & Hu). cbn [fst] in H. rewrite (bounds_file n u Hu) in H. unfold bounds_from in H. cbn [fst snd] in H. destruct (va_fixed u).
      * destruct l as [|b l]; cbn in H; [injection H as _ <-; reflexivity|]. injection H as _ H. destruct l; discriminate.
      * exfalso. assert (X : In (BFx z) (l ++ BFx z :: l')) by (apply in_app_iff; right; now left). rewrite <- H in X. apply in_map_iff in X. destruct X as ([b m] & E & X). cbn in E. subst b.
        clear H. apply in_app_iff in X. destruct X as [X|X]; [destruct (negb _ && negb _)|destruct (negb _)]; cbn [In] in X; try contradiction; destruct X as [X|X]; [|contradiction| |contradiction]. all: discriminate X.
    + exfalso. unfold bounds_of, F in H. cbn [f_bounds file] in H. rewrite (bounds_other _ _ Hv) in H. destruct l; discriminate.
Qed.
(** ** Row values *)
Section Values.
Variable y : string -> Z.
Let x : nat -> Z := fun i => y (nth i names "").
Definition contribution (r : string) (t : string * string * Q) : Q := (snd t * inject_Z (y (fst (fst t))))%Q.
Definition part (r : string) (ts : list (string * string * Q)) : Q := sum (map (fun t => (snd t * inject_Z (y (fst (fst t))))%Q) (filter (fun t => String.eqb (snd (fst t)) r) ts)).
Lemma part_app r a b : (part r (a ++ b) == part r a + part r b)%Q.
Proof. unfold part. now rewrite filter_app, map_app, sum_app. Qed.
Lemma part_from r (g : nat -> Q) vs : forall i, (forall k nv, nth_error vs k = Some nv -> nth_error (wr_vars w) (i + k) = Some nv) ->
  (forall k nv, nth_error (wr_vars w) k = Some nv -> (part r (triples_of k (ds (fst nv))) == g k * inject_Z (y (ds (fst nv))))%Q) ->
  (part r (triples_from i vs) == rsum (fun k => g k * inject_Z (x k)) i (List.length vs))%Q.
Proof.
  induction vs as [|[n v] vs IH]; intros i H G; cbn [triples_from List.length rsum]; [reflexivity|]. rewrite part_app.
  pose proof (H 0%nat (n, v) eq_refl) as H0. rewrite Nat.add_0_r in H0. pose proof (G i _ H0) as G0. cbn [fst] in G0. rewrite G0.
  rewrite (IH (S i)); [|intros k nv Hk; replace (S i + k)%nat with (i + S k)%nat by lia; now apply H|exact G].
  assert (E : x i = y (ds n)). { unfold x, names. rewrite (nth_error_nth (map (fun p => ds (fst p)) (wr_vars w)) i "" (map_nth_error (fun p => ds (fst p)) i _ H0)). reflexivity. }
  rewrite E. reflexivity.
Qed.
Lemma part_entries n c i nm cs : NoDup (map (fun p => ds (fst p)) cs) -> In (n, c) cs ->
  (sum (map (fun t : string * string * Q => (snd t * inject_Z (y (fst (fst t))))%Q) (filter (fun t => String.eqb (snd (fst t)) (ds n)) (map (fun e => (nm, ds (fst e), rd (snd e))) (entries_of cs i)))) ==
   match sens_find (ex_sens (ct_expr c)) i with Some a => rd a | None => 0 end * inject_Z (y nm))%Q.
Proof.
  assert (Ot : forall cs, ~ In (ds n) (map (fun p : string * constr => ds (fst p)) cs) -> filter (fun t : string * string * Q => String.eqb (snd (fst t)) (ds n)) (map (fun e => (nm, ds (fst e), rd (snd e))) (entries_of cs i)) = []).
  { clear. induction cs as [|[m d] cs IH]; intros H; [reflexivity|]. cbn [map fst In] in H. unfold entries_of. cbn [flat_map fst snd]. rewrite map_app, filter_app. fold (entries_of cs i). rewrite IH by tauto. rewrite app_nil_r.
    destruct (sens_find _ i); [|reflexivity]. cbn [map filter fst snd]. rewrite (proj2 (String.eqb_neq (ds m) (ds n))) by tauto. reflexivity. }
  induction cs as [|[m d] cs IH]; intros N H; [destruct H|]. cbn [map fst] in N. inversion N as [|? ? N1 N2]; subst. unfold entries_of. cbn [flat_map fst snd]. rewrite map_app, filter_app. fold (entries_of cs i). rewrite map_app, sum_app. destruct H as [H|H].
  - injection H as -> ->. rewrite (Ot cs N1). cbn [map]. destruct (sens_find _ i); cbn [map filter fst snd]; [rewrite String.eqb_refl|]; cbn [map]; unfold sum; cbn [fold_right fst snd]; ring.
  - rewrite (IH N2 H). assert (D : ds m <> ds n) by (intros E; apply N1; rewrite E; change (ds n) with ((fun p : string * constr => ds (fst p)) (n, c)); now apply in_map).
    destruct (sens_find (ex_sens (ct_expr d)) i); cbn [map filter fst snd]; [rewrite (proj2 (String.eqb_neq _ _) D)|]; cbn [map]; unfold sum; cbn [fold_right]; ring.
Qed.
Lemma row_file n c : In (n, c) (wr_cons w) -> (row_value F y (ds n) == lin (ex_sens (ct_expr c)) x)%Q.
Proof.
  intros H. pose proof W as (_ & _ & _ & W4 & _). destruct (W4 n c H) as (_ & We). pose proof We as (We1 & We2 & _). unfold row_value. rewrite triples_file. fold (part (ds n) (triples_from 0 (wr_vars w))).
  rewrite (part_from (ds n) (coef (ex_sens (ct_expr c))) (wr_vars w) 0); [|auto|].
  - symmetry. apply lin_range; [exact We1|]. intros i a Ha. exact (proj1 (We2 i a Ha)).
  - intros k [m v] Hk. cbn [fst]. unfold triples_of. rewrite part_app. assert (Z : (part (ds n) (if is_big (coef (ex_sens (wr_objective w)) k) then [(ds m, "obj", rd (goal_coef w k))] else []) == 0)%Q).
    { destruct (is_big _); [|reflexivity]. unfold part. cbn [filter fst snd]. rewrite (proj2 (String.eqb_neq "obj" (ds n))) by (intros E; symmetry in E; exact (proj2 con_names _ _ H E)). reflexivity. }
    rewrite Z. unfold part. rewrite (sum_perm _ _ _ (filter_perm _ _ _ (Permutation_map (fun e => (ds m, ds (fst e), rd (snd e))) (Srt k)))). rewrite (part_entries n c k (ds m) (wr_cons w) (proj1 con_names) H).
    unfold coef. destruct (sens_find (ex_sens (ct_expr c)) k) as [a|] eqn:E; [|ring]. destruct (We2 k a (find_in _ _ _ E)) as (_ & S & _). rewrite (rd_six a S). ring.
Qed.
Lemma goal_file : (row_value F y "obj" == (if wr_minimize w then 1 else -1) * e_eval (wr_objective w) x)%Q.
Proof.
  pose proof W as (_ & _ & _ & _ & _ & W6 & W7 & _). pose proof W6 as (We1 & We2 & _). unfold row_value. rewrite triples_file. fold (part "obj" (triples_from 0 (wr_vars w))).
  rewrite (part_from "obj" (goal_coef w) (wr_vars w) 0); [|auto|].
  - rewrite eval_lin, W7, (lin_range _ x n_vars We1 (fun i a Ha => proj1 (We2 i a Ha))). clear. generalize 0%nat as i. induction n_vars as [|n IH]; intros i; cbn [rsum]; [destruct (wr_minimize w); reflexivity|].
    rewrite IH. unfold goal_coef. destruct (wr_minimize w); ring.
  - intros k [m v] Hk. cbn [fst]. unfold triples_of. rewrite part_app. assert (Z : (part "obj" (map (fun e => (ds m, ds (fst e), rd (snd e))) (sorted k)) == 0)%Q).
    { assert (Nil : filter (fun t : string * string * Q => String.eqb (snd (fst t)) "obj") (map (fun e => (ds m, ds (fst e), rd (snd e))) (sorted k)) = []).
      { assert (G : forall l, (forall e, In e l -> ds (fst e) <> "obj") -> filter (fun t : string * string * Q => String.eqb (snd (fst t)) "obj") (map (fun e => (ds m, ds (fst e), rd (snd e))) l) = []).
        { induction l as [|e l IH]; intros G; cbn [map filter fst snd]; [reflexivity|]. rewrite (proj2 (String.eqb_neq _ _) (G e (or_introl eq_refl))). apply IH. intros e' He. apply G. now right. }
        apply G. intros e He. destruct (entry_con w sorted Srt k e He) as (c & Hc & _). exact (proj2 con_names _ _ Hc). }
      unfold part. rewrite Nil. reflexivity. }
    rewrite Z. pose proof (rd_six _ (goal_six k)) as R. pose proof (goal_big k) as Gb. unfold is_big. destruct (Qlt_le_dec EPS10 (Qabs (coef (ex_sens (wr_objective w)) k))) as [B|B].
    + unfold part. cbn [filter fst snd]. rewrite String.eqb_refl. cbn [map]. unfold sum. cbn [fold_right fst snd]. rewrite R. ring.
    + assert (G0 : (goal_coef w k == 0)%Q). { destruct Gb as [Gb|Gb]; [exact Gb|]. exfalso. unfold goal_coef in Gb. unfold EPS10 in B. destruct (wr_minimize w); [|rewrite Qabs_opp in Gb]; lra. }
      rewrite G0. unfold part. cbn. ring.
Qed.
End Values.
(** ** The round trip *)
Lemma round_trip : exists m im, read_mps (write_mps w sorted) = Ok m /\ import_mps false m = Ok im /\
  map fst (im_vars im) = names /\ map fst (im_cons im) = map (fun p => ds (fst p)) (wr_cons w) /\
  forall y, let x := fun i => y (nth i names "") in
  (admits (im_vars im) (im_cons im) x <-> admits (wr_vars w) (wr_cons w) x) /\
  (e_eval (im_objective im) x == (if wr_minimize w then 1 else -1) * e_eval (wr_objective w) x)%Q.
Proof.
  pose proof W as (_ & W2 & W3 & W4 & W5 & _).
  destruct (import_ok (write_mps w sorted) F "obj" false written_well_formed (written_contains w sorted W Srt)) as (m & im & R & I & Nv & Nc & V).
  - intros v Hv. rewrite columns_names in Hv. unfold names in Hv. apply in_map_iff in Hv. destruct Hv as ([n u] & <- & Hu). cbn [fst]. rewrite (interval_file n u Hu). destruct (W2 n u Hu) as (_ & _ & Wv). unfold writable_var in Wv. destruct (va_fixed u); cbn [fst snd]; lia.
  - right. intros v Hv. rewrite columns_names in Hv. unfold integer. now rewrite (marked_names v Hv).
  - exists m, im. split; [exact R|]. split; [exact I|]. rewrite Nv, Nc, columns_names. split; [reflexivity|]. split.
    { unfold constraint_rows, F. cbn [f_rows file filter fst]. rewrite filter_id; [now rewrite map_map|]. intros p Hp. apply in_map_iff in Hp. destruct Hp as ([n c] & <- & _). cbn. now destruct (ct_sense c). }
    intros y. cbv zeta. specialize (V y). cbv zeta in V. rewrite columns_names in V. set (x := fun i => y (nth i names "")) in *. destruct V as [V1 V2].
    split; [|rewrite V2; apply goal_file]. rewrite V1. unfold feasible, admits. rewrite columns_names.
    assert (Rh : forall n c, In (n, c) (wr_cons w) -> (rhs_of F (ds n) == - ex_const (ct_expr c))%Q).
    { intros n c H. destruct (W4 n c H) as (_ & _ & _ & S). unfold rhs_of, F. cbn [f_rhs file]. assert (E : find (fun p : string * Q => String.eqb (fst p) (ds n)) (map (fun p => (ds (fst p), rd (- ex_const (ct_expr (snd p)))%Q)) (wr_cons w)) = Some (ds n, rd (- ex_const (ct_expr c))%Q)).
      { pose proof (proj1 con_names) as N. revert N H. generalize (wr_cons w) as l. induction l as [|[n' c'] l IH]; intros N H; [destruct H|]. cbn [map find fst snd]. cbn [map fst] in N. inversion N as [|? ? N1 N2]; subst. destruct H as [H|H].
        - injection H as -> ->. now rewrite String.eqb_refl.
        - assert (D : ds n' <> ds n) by (intros E; apply N1; rewrite E; change (ds n) with ((fun p : string * constr => ds (fst p)) (n, c)); now apply in_map). rewrite (proj2 (String.eqb_neq _ _) D). now apply IH. }
      rewrite E. cbn [snd]. apply rd_six, six_neg, S. }
    assert (Hc : forall n c, In (n, c) (wr_cons w) -> (e_eval (ct_expr c) x == row_value F y (ds n) - rhs_of F (ds n))%Q).
    { intros n c H. rewrite eval_lin, (row_file y n c H), (Rh n c H). unfold x. ring. }
    assert (Vx : forall i n v, nth_error (wr_vars w) i = Some (n, v) -> x i = y (ds n)).
    { intros i n v H. unfold x, names. rewrite (nth_error_nth (map (fun p => ds (fst p)) (wr_vars w)) i "" (map_nth_error (fun p => ds (fst p)) i _ H)). reflexivity. }
    split; intros [A1 A2]; split.
    + intros i n v H. pose proof (nth_error_In _ _ H) as Hv. specialize (A2 (ds n) (in_names n v Hv)). rewrite (interval_file n v Hv) in A2. rewrite (Vx i n v H). destruct (va_fixed v); cbn [fst snd] in A2; [lia|exact A2].
    + intros n c H. apply (holds_zero _ _ _ _ (Hc n c H)). rewrite <- (kind_sense (ct_sense c)). apply A1; [|destruct (ct_sense c); discriminate].
      unfold F. cbn [f_rows file]. right. apply in_map_iff. exists (n, c). split; [reflexivity|exact H].
    + intros k r H K. unfold F in H. cbn [f_rows file] in H. destruct H as [H|H]; [injection H as <- _; congruence|]. apply in_map_iff in H. destruct H as ([n c] & E & H). cbn [fst snd] in E. injection E as <- <-.
      rewrite kind_sense. apply (holds_zero _ _ _ _ (Hc n c H)). exact (A2 n c H).
    + intros v Hv. unfold names in Hv. apply in_map_iff in Hv. destruct Hv as ([n u] & <- & Hu). cbn [fst]. rewrite (interval_file n u Hu). destruct (In_nth_error _ _ Hu) as [i Hi]. specialize (A1 i n u Hi). rewrite (Vx i n u Hi) in A1.
      destruct (va_fixed u); cbn [fst snd]; [lia|exact A1].
Qed.
End Content.
