(** Proofs for C54: the written file. *)
From Coq Require Import List ZArith QArith Qabs Bool String Ascii Lia Lqa Permutation.
From Verif Require Import ExprModel ExprSpec ExprProof ConstraintModel ConstraintSpec VariableModel PresolveModel TextModel TextProof TextProof2 MpsModel MpsSpec MpsProof MpsProof2 MpsProof3 MpsProof4.
Import ListNotations.
Local Open Scope string_scope.
Local Open Scope Z_scope.
Local Open Scope list_scope.

(** ** Items *)
Definition spaceless (s : string) : bool := all_chars (fun c => negb (is_space c)) s.
Lemma split_spaceless s : forall cur i, spaceless cur = true -> In i (split_items s cur) -> spaceless i = true.
Proof.
  induction s as [|c s IH]; intros cur i C H; cbn [split_items] in H.
  - destruct (is_empty cur); [destruct H|]. destruct H as [<-|[]]. exact C.
  - destruct (is_space c) eqn:Sp.
    + destruct (is_empty cur); [exact (IH "" i eq_refl H)|]. destruct H as [<-|H]; [exact C|exact (IH "" i eq_refl H)].
    + apply (IH _ i) in H; [exact H|]. unfold spaceless. rewrite all_app. cbn. rewrite Sp. unfold spaceless in C. now rewrite C.
Qed.
Lemma item_word s : items_of s = [s] -> word s.
Proof.
  intros H. split; [intros ->; discriminate|]. apply (split_spaceless s "" s eq_refl). unfold items_of in H. rewrite H. now left.
Qed.
Lemma word_gap w t : word w -> split_items (append w (append "    " t)) "" = w :: split_items t "".
Proof. intros W. exact (split_word_space w " " (append "   " t) W eq_refl). Qed.
Lemma word_gap5 w t : word w -> split_items (append w (append "     " t)) "" = w :: split_items t "".
Proof. intros W. exact (split_word_space w " " (append "    " t) W eq_refl). Qed.
Lemma word_obj w t : word w -> split_items (append w (append "     obj    " t)) "" = w :: "obj" :: split_items t "".
Proof. intros W. exact (split_word_space w " " (append "    obj    " t) W eq_refl). Qed.

(** ** Numbers *)
Definition rd (q : Q) : Q := match atof (print_double q) with Some r => r | None => 0%Q end.
Lemma rd_numeral q : numeral (print_double q) (rd q).
Proof.
  destruct (double_reads_back q) as (r & A & B & C). unfold rd. rewrite A. split; [exact A|].
  assert (N : forall s, atof s = Some 0%Q -> print_double q = s -> (q == 0)%Q).
  { intros s H E. rewrite <- E, A in H. assert (r = 0)%Q by congruence. subst r. assert (X : (Qabs (0 - q) == Qabs q)%Q) by (setoid_replace (0 - q)%Q with (- q)%Q by ring; apply Qabs_opp).
    rewrite X in B. pose proof (Qabs_nonneg q) as P. assert (Y : (Qabs q == 0)%Q) by lra. pose proof (Qabs_Qle_condition q 0) as [Z _]. specialize (Z ltac:(lra)). lra. }
  assert (Z : (q == 0)%Q -> print_double q = "0"). { intros Z. unfold print_double. assert (X : Qnum q = 0) by (unfold Qeq in Z; cbn in Z; lia). rewrite X. reflexivity. }
  split; intros E.
  - pose proof (Z (N "'INTORG'" eq_refl E)) as X. rewrite X in E. discriminate.
  - pose proof (Z (N "'INTEND'" eq_refl E)) as X. rewrite X in E. discriminate.
Qed.
Lemma rd_six q : six_digits q -> (rd q == q)%Q.
Proof. intros (k & e & E & B). destruct (double_reads_back q) as (r & A & _ & C). unfold rd. rewrite A. exact (C k e E B). Qed.
Lemma six_neg q : six_digits q -> six_digits (- q)%Q.
Proof. intros (k & e & E & B). exists (- k), e. split; [rewrite E, inject_Z_opp; ring|lia]. Qed.
Lemma int_back z : INT_MIN <= z <= INT_MAX -> int_numeral (print_int z) z.
Proof. intros H. split; [exact H|]. destruct (int_reads_back z) as (r & A & B). now exists r. Qed.

(** ** The records of the written file *)
Definition kind_of (s : csense) : row_kind := match s with Less => KL | Equal => KE | Greater => KG end.
Lemma kind_sense s : sense_of (kind_of s) = s.
Proof. now destruct s. Qed.
Section Written.
Variable w : written.
Variable sorted : nat -> list (string * Q).
Hypothesis W : writable w.
Hypothesis Srt : forall i, Permutation (sorted i) (entries_of (wr_cons w) i).
Notation ds := delete_space.
Definition goal_coef (i : nat) : Q := let a := coef (ex_sens (wr_objective w)) i in if wr_minimize w then a else (- a)%Q.
Definition is_big (q : Q) : bool := if Qlt_le_dec EPS10 (Qabs q) then true else false.
Definition cols_of (i : nat) (n : string) : list column :=
  (if is_big (coef (ex_sens (wr_objective w)) i) then [Column n [("obj", rd (goal_coef i))]] else []) ++ map (fun e => Column n [(ds (fst e), rd (snd e))]) (sorted i).
Fixpoint cols_from (i : nat) (vs : list (string * var)) : list column :=
  match vs with [] => [] | (n, _) :: tl => cols_of i (ds n) ++ cols_from (S i) tl end.
Definition bounds_from (nv : string * var) : list (bound * string) :=
  let n := ds (fst nv) in let v := snd nv in
  if va_fixed v then [(BFx (va_value v), n)]
  else (if negb (va_lower v =? INT_HALF_MIN) && negb (va_lower v =? 0) then [(BLo (va_lower v), n)] else []) ++
       (if negb (va_upper v =? INT_HALF_MAX) then [(BUp (va_upper v), n)] else []).
Definition file : content :=
  mkContent ((KN, "obj") :: map (fun p => (kind_of (ct_sense (snd p)), ds (fst p))) (wr_cons w))
    (Marker true :: cols_from 0 (wr_vars w) ++ [Marker false])
    (map (fun p => (ds (fst p), rd (- ex_const (ct_expr (snd p)))%Q)) (wr_cons w))
    (flat_map bounds_from (wr_vars w)).
Lemma con_word n c : In (n, c) (wr_cons w) -> word (ds n).
Proof. intros H. destruct W as (_ & _ & _ & W4 & _). apply item_word, (W4 n c H). Qed.
Lemma var_word n v : In (n, v) (wr_vars w) -> word (ds n).
Proof. intros H. destruct W as (_ & W2 & _). apply item_word, (W2 n v H). Qed.
Lemma entry_con i e : In e (sorted i) -> exists c, In (fst e, c) (wr_cons w) /\ sens_find (ex_sens (ct_expr c)) i = Some (snd e).
Proof.
  intros H. apply (Permutation_in _ (Srt i)) in H. unfold entries_of in H. apply in_flat_map in H. destruct H as ([n c] & H1 & H2). cbn [fst snd] in H2.
  destruct (sens_find (ex_sens (ct_expr c)) i) as [a|] eqn:E; [|destruct H2]. destruct H2 as [<-|[]]. exists c. auto.
Qed.
(** Lines *)
Lemma map_forall2 {A} (P : A -> list string -> Prop) (g : A -> list string) l : (forall a, In a l -> P a (g a)) -> Forall2 P l (map g l).
Proof. induction l as [|a l IH]; intros H; [constructor|]. cbn. constructor; [apply H; now left|]. apply IH. intros b Hb. apply H. now right. Qed.
Lemma forall2_app_map {A} (P : A -> list string -> Prop) l l' ls ls' : Forall2 P l ls -> Forall2 P l' ls' -> Forall2 P (l ++ l') (ls ++ ls').
Proof. intros H H'. induction H; cbn; [exact H'|]. constructor; assumption. Qed.
Lemma forall2_mapl {A B} (h : B -> A) (P : A -> list string -> Prop) l ls : Forall2 (fun b s => P (h b) s) l ls -> Forall2 P (map h l) ls.
Proof. induction 1; cbn; constructor; assumption. Qed.
Lemma rows_lines : Forall2 row_items (f_rows file) (["N"; "obj"] :: map items_of (map row_line (wr_cons w))).
Proof.
  cbn [f_rows file]. constructor; [reflexivity|]. apply forall2_mapl. rewrite map_map. apply map_forall2. intros [n c] H. pose proof (con_word n c H) as Wd. unfold row_items, row_line. cbn [fst snd].
  destruct (ct_sense c); cbn [kind_of row_name]; unfold items_of.
  - change (split_items (append " L    " (ds n)) "") with ("L" :: split_items (ds n) ""). now rewrite (split_word_end _ Wd).
  - change (split_items (append " E    " (ds n)) "") with ("E" :: split_items (ds n) ""). now rewrite (split_word_end _ Wd).
  - change (split_items (append " G    " (ds n)) "") with ("G" :: split_items (ds n) ""). now rewrite (split_word_end _ Wd).
Qed.
Lemma entry_line_items n m a : word n -> word (ds m) -> items_of (entry_line n (m, a)) = [n; ds m; print_double a].
Proof.
  intros N M. unfold items_of, entry_line. cbn [fst snd]. change (split_items (append "    " ?t) "") with (split_items t "").
  rewrite (word_gap _ _ N), (word_gap _ _ M), (split_word_end _ (print_double_word a)). reflexivity.
Qed.
Lemma column_items_one n r a : n <> "NAME" -> column_items (Column n [(r, rd a)]) [n; r; print_double a].
Proof. intros N. exists [r; print_double a]. split; [reflexivity|]. split; [exact N|]. cbn. split; [reflexivity|]. split; [apply rd_numeral|exact Logic.I]. Qed.
Lemma cols_lines vs : (forall n v, In (n, v) vs -> In (n, v) (wr_vars w)) -> forall i, Forall2 column_items (cols_from i vs) (map items_of (column_lines w sorted i vs)).
Proof.
  induction vs as [|[n v] vs IH]; intros H i; cbn [cols_from column_lines]; [constructor|]. rewrite !map_app, app_assoc. rewrite <- map_app, map_app. apply forall2_app_map; [|apply IH; intros m u Hm; apply H; now right].
  pose proof (H n v (or_introl eq_refl)) as Hn. pose proof (var_word n v Hn) as Wd. destruct W as (_ & W2 & _). destruct (W2 n v Hn) as (_ & Nn & _).
  unfold cols_of. apply forall2_app_map.
  - unfold objective_lines, is_big. destruct (Qlt_le_dec EPS10 (Qabs (coef (ex_sens (wr_objective w)) i))) as [B|B]; [|constructor]. cbn [map]. constructor; [|constructor].
    unfold items_of. change (split_items (append "    " ?t) "") with (split_items t ""). rewrite (word_obj _ _ Wd), (split_word_end _ (print_double_word _)).
    unfold goal_coef. apply column_items_one. exact Nn.
  - apply forall2_mapl. rewrite map_map. apply map_forall2. intros [m a] He. destruct (entry_con i (m, a) He) as (c & Hc & _). cbn [fst snd] in *.
    rewrite (entry_line_items _ _ _ Wd (con_word m c Hc)). apply column_items_one. exact Nn.
Qed.
Lemma rhs_lines : Forall2 rhs_items (map (fun p => [p]) (f_rhs file)) (map items_of (map rhs_line (wr_cons w))).
Proof.
  cbn [f_rhs file]. rewrite map_map. apply forall2_mapl. rewrite map_map. apply map_forall2. intros [n c] H. pose proof (con_word n c H) as Wd. cbn [fst snd]. split; [discriminate|].
  unfold rhs_line, items_of. cbn [fst snd]. exists "rhs", [ds n; print_double (- ex_const (ct_expr c))%Q].
  change (split_items (append "    rhs    " ?t) "") with ("rhs" :: split_items t ""). rewrite (word_gap _ _ Wd), (split_word_end _ (print_double_word _)).
  split; [reflexivity|]. split; [discriminate|]. cbn. split; [reflexivity|]. split; [apply rd_numeral|exact Logic.I].
Qed.
Lemma bounds_lines : Forall2 bound_items (f_bounds file) (map items_of (flat_map bound_lines (wr_vars w))).
Proof.
  cbn [f_bounds file]. assert (G : forall vs, (forall n v, In (n, v) vs -> In (n, v) (wr_vars w)) -> Forall2 bound_items (flat_map bounds_from vs) (map items_of (flat_map bound_lines vs))).
  { induction vs as [|[n v] vs IH]; intros H; cbn [flat_map]; [constructor|]. rewrite map_app. apply forall2_app_map; [|apply IH; intros m u Hm; apply H; now right].
    pose proof (H n v (or_introl eq_refl)) as Hn. pose proof (var_word n v Hn) as Wd. destruct W as (_ & W2 & _). destruct (W2 n v Hn) as (_ & _ & Wv). unfold writable_var in Wv.
    unfold bounds_from, bound_lines. cbn [fst snd].
    assert (L4 : forall k z, In k ["LO"; "UP"] -> items_of (bound_line k (ds n) "    " z) = [k; "bnd"; ds n; print_int z]).
    { intros k z [<-|[<-|[]]]; unfold items_of, bound_line.
      - change (split_items (append "    " (append "LO" (append "    bnd    " ?t))) "") with ("LO" :: "bnd" :: split_items t ""). now rewrite (word_gap _ _ Wd), (split_word_end _ (print_int_word z)).
      - change (split_items (append "    " (append "UP" (append "    bnd    " ?t))) "") with ("UP" :: "bnd" :: split_items t ""). now rewrite (word_gap _ _ Wd), (split_word_end _ (print_int_word z)). }
    assert (L5 : forall z, items_of (bound_line "FX" (ds n) "     " z) = ["FX"; "bnd"; ds n; print_int z]).
    { intros z. unfold items_of, bound_line. change (split_items (append "    " (append "FX" (append "    bnd    " ?t))) "") with ("FX" :: "bnd" :: split_items t ""). now rewrite (word_gap5 _ _ Wd), (split_word_end _ (print_int_word z)). }
    destruct (va_fixed v).
    - cbn [map]. constructor; [|constructor]. rewrite L5. exists "bnd". cbn [fst snd]. exists (print_int (va_value v)). split; [reflexivity|]. now apply int_back.
    - destruct Wv as (Wv1 & Wv2 & Wv3 & _). rewrite map_app. apply forall2_app_map.
      + destruct (negb _ && negb _); [|constructor]. cbn [map]. constructor; [|constructor]. rewrite (L4 "LO" _ (or_introl eq_refl)). exists "bnd". cbn [fst snd]. eexists. split; [reflexivity|]. apply int_back. lia.
      + destruct (negb _); [|constructor]. cbn [map]. constructor; [|constructor]. rewrite (L4 "UP" _ (or_intror (or_introl eq_refl))). exists "bnd". cbn [fst snd]. eexists. split; [reflexivity|]. apply int_back. lia. }
  apply G. auto.
Qed.
Lemma filter_id {A} (p : A -> bool) l : (forall a, In a l -> p a = true) -> filter p l = l.
Proof. induction l as [|a l IH]; intros H; cbn; [reflexivity|]. rewrite (H a (or_introl eq_refl)). f_equal. apply IH. intros b Hb. apply H. now right. Qed.
Lemma nonblank {A} (P : A -> list string -> Prop) l ls : Forall2 P l ls -> (forall a, ~ P a []) -> filter (fun l => match l with [] => false | _ => true end) ls = ls.
Proof. intros F H. apply filter_id. intros b Hb. destruct (forall2_in _ _ _ F b Hb) as (a & _ & Pa). destruct b; [exfalso; exact (H a Pa)|reflexivity]. Qed.
Lemma written_contains : contains (write_mps w sorted) file.
Proof.
  exists (if wr_name w =? "" then "untitled" else ds (wr_name w))%string. exists (["N"; "obj"] :: map items_of (map row_line (wr_cons w))).
  exists (["MARK0000"; "'MARKER'"; "'INTORG'"] :: map items_of (column_lines w sorted 0 (wr_vars w)) ++ [["MARK0001"; "'MARKER'"; "'INTEND'"]]).
  exists (map items_of (map rhs_line (wr_cons w))). exists (map items_of (flat_map bound_lines (wr_vars w))).
  exists (["RHS"] :: map items_of (map rhs_line (wr_cons w))). exists (["BOUNDS"] :: map items_of (flat_map bound_lines (wr_vars w))). exists []. exists (map (fun p => [p]) (f_rhs file)).
  pose proof (cols_lines (wr_vars w) (fun n v H => H) 0) as CL.
  split.
  - assert (N : items_of (if wr_name w =? "" then "NAME untitled" else append "NAME " (ds (wr_name w)))%string = ["NAME"; if wr_name w =? "" then "untitled" else ds (wr_name w)]%string).
    { destruct W as (W1 & _). destruct (String.eqb_spec (wr_name w) "") as [E|E]; [reflexivity|]. destruct W1 as [W1|W1]; [contradiction|]. unfold items_of.
      change (split_items (append "NAME " ?t) "") with ("NAME" :: split_items t ""). unfold one_item, items_of in W1. now rewrite W1. }
    unfold write_mps. cbn [map]. rewrite N. rewrite map_app. cbn [map]. rewrite map_app. cbn [map]. rewrite map_app. cbn [map]. rewrite map_app. cbn [map].
    change (items_of "ROWS") with ["ROWS"]. change (items_of " N    obj") with ["N"; "obj"]. change (items_of "COLUMNS") with ["COLUMNS"].
    change (items_of "    MARK0000    'MARKER'    'INTORG'") with ["MARK0000"; "'MARKER'"; "'INTORG'"]. change (items_of "    MARK0001    'MARKER'    'INTEND'") with ["MARK0001"; "'MARKER'"; "'INTEND'"].
    change (items_of "RHS") with ["RHS"]. change (items_of "BOUNDS") with ["BOUNDS"]. change (items_of "ENDATA") with ["ENDATA"].
    cbn [filter]. rewrite !filter_app. cbn [filter]. rewrite !filter_app. cbn [filter]. rewrite !filter_app. cbn [filter]. rewrite !filter_app. cbn [filter].
    pose proof rows_lines as RL. inversion RL as [|? ? ? ? _ RL' Q1 Q2]. clear Q1 Q2.
    rewrite (nonblank _ _ _ RL') by (intros a X; discriminate X).
    rewrite (nonblank _ _ _ CL) by (intros [b|v es]; [intros (a & k & X & _); discriminate|intros (tl & X & _); discriminate]).
    rewrite (nonblank _ _ _ rhs_lines) by (intros es (_ & n & tl & X & _); discriminate).
    rewrite (nonblank _ _ _ bounds_lines) by (intros [b v] X; destruct (bound_head b v [] X) as (k & t & u & tl & Y & _); discriminate).
    cbn [app]. rewrite <- !app_assoc. reflexivity.
  - split; [exact rows_lines|]. split.
    { cbn [f_cols file]. constructor; [do 2 eexists; split; [reflexivity|discriminate]|]. apply forall2_app_map; [exact CL|]. constructor; [do 2 eexists; split; [reflexivity|discriminate]|constructor]. }
    split; [generalize (f_rhs file); induction l as [|p l IH]; cbn; [reflexivity|now rewrite IH]|]. split; [exact rhs_lines|]. split; [now left|]. split; [exact bounds_lines|now left].
Qed.
End Written.
