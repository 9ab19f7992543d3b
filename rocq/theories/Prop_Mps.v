(** * C44: MPS files are read into the model they describe *)
From Coq Require Import List ZArith QArith Qabs Bool String Lia Lqa Permutation.
From Verif Require Import ExprModel ConstraintModel ConstraintSpec VariableModel PresolveModel TextModel MpsModel MpsSpec MpsProof3 MpsProof4 MpsProof8.
Import ListNotations.
Local Open Scope string_scope.
Local Open Scope Z_scope.
Local Open Scope list_scope.

(** Every file with well-formed records ([contains], [well_formed]) is read and imported.
    The model has the columns as variables and the rows as constraints, in the order of
    the file.  An assignment of integers to the names is admitted by the model iff it
    satisfies the rows and bounds of the file, and the objective of the model has the
    value of the objective row. *)
Theorem C44_reads_model lines f obj accept : well_formed f obj -> contains lines f ->
  (forall v, In v (columns f) -> fst (interval f v) <= snd (interval f v)) -> (accept = true \/ forall v, In v (columns f) -> integer f v = true) ->
  exists m im, read_mps lines = Ok m /\ import_mps accept m = Ok im /\
  map fst (im_vars im) = columns f /\ map fst (im_cons im) = constraint_rows f /\
  forall y : string -> Z, let x := fun i => y (nth i (columns f) "") in
  (admits (im_vars im) (im_cons im) x <-> feasible f y) /\ (e_eval (im_objective im) x == row_value f y obj)%Q.
Proof. exact (import_ok lines f obj accept). Qed.
Print Assumptions C44_reads_model.

(** A file without a line ENDATA is rejected. *)
Theorem C44_truncated_rejected lines : (forall l, In l lines -> items_of l <> ["ENDATA"]) -> forall m, read_mps lines <> Ok m.
Proof. exact (no_endata lines). Qed.
Print Assumptions C44_truncated_rejected.

(** A file that gives a coefficient to an undeclared row, or a bound to an undeclared
    variable, is rejected. *)
Theorem C44_undeclared_rejected lines f : contains lines f -> (forall v es, In (Column v es) (f_cols f) -> es <> []) ->
  (exists v r a, In (v, r, a) (triples (f_cols f)) /\ (1 # 10000000000 < Qabs a)%Q /\ r <> "" /\ ~ In r (map snd (f_rows f))) \/
  (exists b v, In (b, v) (f_bounds f) /\ ~ In v (columns f)) ->
  forall m, read_mps lines <> Ok m.
Proof.
  intros C Ne H m R. destruct (reject lines f m C Ne R) as [A B]. destruct H as [(v & r & a & H1 & H2 & H3 & H4)|(b & v & H1 & H2)].
  - destruct (A v r a H1 H2); tauto.
  - exact (H2 (B b v H1)).
Qed.
Print Assumptions C44_undeclared_rejected.

(** The items of a line are what lies between white space, including tabs and the
    carriage return of files with DOS line ends. *)
Theorem C44_items g0 (l : list (string * string)) : gap g0 -> separated l -> items_of (append g0 (line_of l)) = map fst l.
Proof. intros G S. exact (items_line l S g0 G). Qed.
Print Assumptions C44_items.

(** The imported variables that are fixed are those with a bound FX. *)
Theorem C44_fixed lines f obj accept m im : well_formed f obj -> contains lines f -> read_mps lines = Ok m -> import_mps accept m = Ok im ->
  forall n v, In (n, v) (im_vars im) -> va_fixed v = true <-> exists z, In (BFx z) (bounds_of f n).
Proof. exact (import_fixed_iff lines f obj accept m im). Qed.
Print Assumptions C44_fixed.

(** ** What is read differently from the MPS format *)
(** A range makes the row infeasible: no value satisfies both the row and the row added
    for its range. *)
Theorem C44_ranges_refuted m n s c (a : Q) : lookup (mp_cons m) n = Some c -> atof s = Some a -> ~ (a == 0)%Q ->
  exists m' c', add_range (Ok m) (n, s) = Ok m' /\ lookup (mp_cons m') (append n "_range") = Some c' /\ lookup (mp_cons m') n = Some c /\
  forall q : Q, ~ (holds q (mc_sense c) (mc_rhs c) /\ holds q (mc_sense c') (mc_rhs c')).
Proof. exact (ranges_empty m n s c a). Qed.
Print Assumptions C44_ranges_refuted.

(** OBJSENSE: a maximization problem is read as a minimization problem (one line), or
    rejected (two lines); the right-hand side of the objective row is dropped; a
    fractional bound is truncated (a lower bound of 2.5 becomes 2); a bound of 1e30 has
    no defined meaning; a second free row takes the place of the objective. *)
Definition small (head bound rhs : list string) : list string :=
  ["NAME p"] ++ head ++ ["ROWS"; " N obj"; " G c1"; "COLUMNS"; " M0 'MARKER' 'INTORG'"; " x obj 1 c1 1"; " M1 'MARKER' 'INTEND'"; "RHS"; " rhs c1 1"] ++ rhs ++ ["BOUNDS"] ++ bound ++ ["ENDATA"].
Definition objective_of (lines : list string) : option (sens * Q) :=
  match bind (read_mps lines) (import_mps false) with Ok im => Some (ex_sens (im_objective im), ex_const (im_objective im)) | _ => None end.
Definition lower_of (lines : list string) (v : string) : option Z :=
  match read_mps lines with Ok m => option_map mv_lower (lookup (mp_vars m) v) | _ => None end.
Theorem C44_format_refuted :
  objective_of (small ["OBJSENSE MAX"] [] []) = Some ([(0%nat, 1%Q)], 0%Q) /\
  read_mps (small ["OBJSENSE"; "    MAX"] [] []) = Throw /\
  objective_of (small [] [] [" rhs obj 5"]) = Some ([(0%nat, 1%Q)], 0%Q) /\
  lower_of (small [] [" LO bnd x 2.5"] []) "x" = Some 2 /\
  read_mps (small [] [" UP bnd x 1e30"] []) = UB /\
  objective_of ["NAME p"; "ROWS"; " N obj"; " G c1"; " N other"; "COLUMNS"; " M0 'MARKER' 'INTORG'"; " x c1 1 other 7"; " M1 'MARKER' 'INTEND'"; "ENDATA"] = Some ([(0%nat, 7%Q)], 0%Q).
Proof. repeat split; vm_compute; reflexivity. Qed.
Print Assumptions C44_format_refuted.

(** ** Example *)
Definition sample : list string :=
  ["NAME          sample"; ""; "ROWS"; " N  COST"; " L  LIM1"; " G  LIM2"; " E  MYEQN"; "COLUMNS"; "    MARKER    'MARKER'    'INTORG'";
   "    X    COST    1.5    LIM1    1"; "    X    LIM2    1"; "    Y    COST    -2    LIM1    1"; "    Y    MYEQN    -1"; "    MARKER    'MARKER'    'INTEND'";
   "    Z    COST    1    MYEQN    1"; "RHS"; "    RHS    LIM1    4    LIM2    1"; "    RHS    MYEQN    7"; "BOUNDS"; " UP BND    X    4"; " MI BND    Z"; " UP BND    Z    9"; "ENDATA"].
Definition sample_content : content :=
  mkContent [(KN, "COST"); (KL, "LIM1"); (KG, "LIM2"); (KE, "MYEQN")]
    [Marker true; Column "X" [("COST", 15 # 10); ("LIM1", 1)]; Column "X" [("LIM2", 1)]; Column "Y" [("COST", (-2)); ("LIM1", 1)]; Column "Y" [("MYEQN", (-1))]; Marker false; Column "Z" [("COST", 1); ("MYEQN", 1)]]%Q
    [("LIM1", 4); ("LIM2", 1); ("MYEQN", 7)]%Q [(BUp 4, "X"); (BMi, "Z"); (BUp 9, "Z")].
Ltac lines := repeat (apply Forall2_cons || apply Forall2_nil).
Example C44_example : well_formed sample_content "COST" /\ contains sample sample_content /\
  (forall v, In v (columns sample_content) -> fst (interval sample_content v) <= snd (interval sample_content v)) /\
  interval sample_content "X" = (0, 4) /\ interval sample_content "Y" = (0, 1) /\ interval sample_content "Z" = (INT_HALF_MIN, 9).
Proof.
  split.
  - split; [reflexivity|]. split; [repeat (apply NoDup_cons; [cbn; intuition discriminate|]); apply NoDup_nil|].
    split; [repeat (apply NoDup_cons; [cbn; intuition discriminate|]); apply NoDup_nil|]. split.
    { intros v r a H. cbn in H. repeat (destruct H as [H|H]; [injection H as <- <- <-; split; [cbn; tauto|right; reflexivity]|]). destruct H. }
    split; [intros v es H; cbn in H; repeat (destruct H as [H|H]; [(discriminate H || (injection H as <- <-; discriminate))|]); destruct H|].
    split; [repeat (apply NoDup_cons; [cbn; intuition discriminate|]); apply NoDup_nil|].
    split; [intros r q H; cbn in H; repeat (destruct H as [H|H]; [injection H as <- <-; cbn; tauto|]); destruct H|].
    split; [intros b v H; cbn in H; repeat (destruct H as [H|H]; [injection H as <- <-; cbn; tauto|]); destruct H|].
    intros v l z l' H. exfalso. assert (X : In (BFx z) (bounds_of sample_content v)) by (rewrite H; apply in_app_iff; right; now left). unfold bounds_of in X. apply in_map_iff in X. destruct X as ([b w] & E & X). cbn in E. subst b.
    apply filter_In in X. destruct X as [X _]. cbn in X. intuition discriminate.
  - split.
    + exists "sample". exists [["N"; "COST"]; ["L"; "LIM1"]; ["G"; "LIM2"]; ["E"; "MYEQN"]].
      exists [["MARKER"; "'MARKER'"; "'INTORG'"]; ["X"; "COST"; "1.5"; "LIM1"; "1"]; ["X"; "LIM2"; "1"]; ["Y"; "COST"; "-2"; "LIM1"; "1"]; ["Y"; "MYEQN"; "-1"]; ["MARKER"; "'MARKER'"; "'INTEND'"]; ["Z"; "COST"; "1"; "MYEQN"; "1"]].
      exists [["RHS"; "LIM1"; "4"; "LIM2"; "1"]; ["RHS"; "MYEQN"; "7"]]. exists [["UP"; "BND"; "X"; "4"]; ["MI"; "BND"; "Z"]; ["UP"; "BND"; "Z"; "9"]].
      exists [["RHS"]; ["RHS"; "LIM1"; "4"; "LIM2"; "1"]; ["RHS"; "MYEQN"; "7"]]. exists [["BOUNDS"]; ["UP"; "BND"; "X"; "4"]; ["MI"; "BND"; "Z"]; ["UP"; "BND"; "Z"; "9"]].
      exists []. exists [[("LIM1", 4); ("LIM2", 1)]; [("MYEQN", 7)]]%Q.
      split; [reflexivity|]. split; [lines; reflexivity|].
      assert (Nm : forall s q, atof s = Some q -> s <> "'INTORG'" -> s <> "'INTEND'" -> numeral s q) by (intros; repeat split; assumption).
      split; [lines; cbn [column_items]; try (do 2 eexists; split; [reflexivity|discriminate]); eexists; (split; [reflexivity|]); (split; [discriminate|]); cbn [entry_items]; repeat (split; [reflexivity|split; [apply Nm; [reflexivity|discriminate|discriminate]|]]); exact Logic.I|].
      split; [reflexivity|]. split; [lines; (split; [discriminate|]); do 2 eexists; (split; [reflexivity|]); (split; [discriminate|]); cbn [entry_items]; repeat (split; [reflexivity|split; [apply Nm; [reflexivity|discriminate|discriminate]|]]); exact Logic.I|].
      split; [left; reflexivity|]. split; [|left; reflexivity].
      assert (In : forall s z q, INT_MIN <= z <= INT_MAX -> atof s = Some q -> (q == inject_Z z)%Q -> int_numeral s z) by (intros s z q H1 H2 H3; split; [exact H1|now exists q]).
      lines; eexists; cbn [fst snd]; try reflexivity; (eexists; split; [reflexivity|]); (eapply In; [unfold INT_MIN, INT_MAX; lia|reflexivity|reflexivity]).
    + split; [|repeat split]. intros v H. cbn in H. repeat (destruct H as [<-|H]; [vm_compute; discriminate|]). destruct H.
Qed.
(** Concrete rejected files: an undeclared row, an undeclared variable, no ENDATA. *)
Example C44_rejected_example :
  read_mps ["NAME p"; "ROWS"; " N obj"; " G c1"; "COLUMNS"; " x obj 1 c2 1"; "ENDATA"] = Throw /\
  read_mps (small [] [" UP bnd y 3"] []) = Throw /\ read_mps ["NAME p"; "ROWS"; " N obj"; "COLUMNS"] = Throw /\
  (exists m c, read_mps (firstn 8 (small [] [] []) ++ ["RHS"; " rhs c1 1"; "RANGES"; " rng c1 3"; "ENDATA"]) = Ok m /\ lookup (mp_cons m) "c1_range" = Some c /\ mc_sense c = Less /\ (mc_rhs c == -2)%Q).
Proof. repeat split; try (vm_compute; reflexivity). eexists. eexists. split; [vm_compute; reflexivity|]. split; [reflexivity|]. split; reflexivity. Qed.
(** A line with a tab and a carriage return; a variable fixed at 3. *)
Definition cr : string := String (Ascii.ascii_of_nat 13) "".
Definition tab : string := String (Ascii.ascii_of_nat 9) "".
Example C44_items_example : gap " " /\ separated [("UP", " "); ("x", tab); ("4", cr)] /\ items_of (append " UP x" (append tab (append "4" cr))) = ["UP"; "x"; "4"].
Proof.
  split; [intros c [<-|[]]; cbn; tauto|]. split; [|reflexivity].
  repeat split; try discriminate; try (intros c H; cbn in H; repeat (destruct H as [<-|H]; [cbn; intuition discriminate|]); destruct H); intros c [<-|[]]; cbn; tauto.
Qed.
Example C44_fixed_example : exists m im v, read_mps (small [] [" FX bnd x 3"] []) = Ok m /\ import_mps false m = Ok im /\ im_vars im = [("x", v)] /\ va_fixed v = true /\ va_value v = 3.
Proof. do 3 eexists. split; [vm_compute; reflexivity|]. split; [vm_compute; reflexivity|]. split; [reflexivity|]. split; reflexivity. Qed.
