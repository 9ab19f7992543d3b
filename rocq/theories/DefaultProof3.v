(** Proofs for C86: examples. *)
From Coq Require Import List NArith ZArith QArith Qabs Bool Arith String Ascii Lia Lqa.
From Verif Require Import ExprModel ConstraintModel VariableModel PresolveModel TextModel MpsModel MpsSpec NamesModel NamesSpec JsonModel OptionModel CommandModel CommandSpec
  SolverModel WholeModel WholeProof4 RelaxModel FileModel FileSpec FileProof3 FileProof4 DefaultSpec.
From Verif Require CommandProof2 CommandProof5 InfeasibleProof.
Import ListNotations.
Local Open Scope string_scope.
Local Open Scope Z_scope.
Local Open Scope list_scope.

(** minimize -x + 3 y - z, x and y binary, z in 0..5, with
    Fine: x + y + z <= 2, x + y >= 1, x + z >= 1, y + z >= 0, 2 z <= 4;
    Void: x + y + z <= 1, x + y >= 1, x + z >= 1, y + z >= 1, 2 z <= 4;
    Half: x + y + z <= 2, 2 x = 1;   Far: x + y + z <= 2, z <= -200000. *)
Inductive case := Fine | Void | Half | Far.
Definition e_rows (c : case) : list (row_kind * string) :=
  match c with
  | Fine | Void => [(KN, "cost"); (KL, "cap"); (KG, "one"); (KG, "two"); (KG, "three"); (KL, "top")]
  | Half => [(KN, "cost"); (KL, "cap"); (KE, "half")]
  | Far => [(KN, "cost"); (KL, "cap"); (KL, "far")]
  end.
Definition e_cols (c : case) : list column :=
  [Marker true] ++
  match c with
  | Fine | Void => [Column "x" [("cost", (-1)); ("cap", 1)]; Column "x" [("one", 1); ("two", 1)]; Column "y" [("cost", 3); ("cap", 1)]; Column "y" [("one", 1); ("three", 1)];
               Column "z" [("cost", (-1)); ("cap", 1)]; Column "z" [("two", 1); ("three", 1)]; Column "z" [("top", 2)]]%Q
  | Half => [Column "x" [("cost", (-1)); ("cap", 1)]; Column "x" [("half", 2)]; Column "y" [("cost", 3); ("cap", 1)]; Column "z" [("cost", (-1)); ("cap", 1)]]%Q
  | Far => [Column "x" [("cost", (-1)); ("cap", 1)]; Column "y" [("cost", 3); ("cap", 1)]; Column "z" [("cost", (-1)); ("cap", 1)]; Column "z" [("far", 1)]]%Q
  end ++ [Marker false].
Definition e_rhs (c : case) : list (string * Q) :=
  match c with
  | Fine => [("cap", 2); ("one", 1); ("two", 1); ("three", 0); ("top", 4)]%Q | Void => [("cap", 1); ("one", 1); ("two", 1); ("three", 1); ("top", 4)]%Q
  | Half => [("cap", 2); ("half", 1)]%Q | Far => [("cap", 2); ("far", (-200000))]%Q
  end.
Definition e_bounds : list (bound * string) := [(BUp 5, "z")].
Definition e_content (c : case) : content := mkContent (e_rows c) (e_cols c) (e_rhs c) e_bounds.
Definition e_row_items (c : case) : list (list string) :=
  match c with
  | Fine | Void => [["N"; "cost"]; ["L"; "cap"]; ["G"; "one"]; ["G"; "two"]; ["G"; "three"]; ["L"; "top"]]
  | Half => [["N"; "cost"]; ["L"; "cap"]; ["E"; "half"]]
  | Far => [["N"; "cost"]; ["L"; "cap"]; ["L"; "far"]]
  end.
Definition e_col_items (c : case) : list (list string) :=
  [["MARKER"; "'MARKER'"; "'INTORG'"]] ++
  match c with
  | Fine | Void => [["x"; "cost"; "-1"; "cap"; "1"]; ["x"; "one"; "1"; "two"; "1"]; ["y"; "cost"; "3"; "cap"; "1"]; ["y"; "one"; "1"; "three"; "1"]; ["z"; "cost"; "-1"; "cap"; "1"]; ["z"; "two"; "1"; "three"; "1"]; ["z"; "top"; "2"]]
  | Half => [["x"; "cost"; "-1"; "cap"; "1"]; ["x"; "half"; "2"]; ["y"; "cost"; "3"; "cap"; "1"]; ["z"; "cost"; "-1"; "cap"; "1"]]
  | Far => [["x"; "cost"; "-1"; "cap"; "1"]; ["y"; "cost"; "3"; "cap"; "1"]; ["z"; "cost"; "-1"; "cap"; "1"]; ["z"; "far"; "1"]]
  end ++ [["MARKER"; "'MARKER'"; "'INTEND'"]].
Definition e_rhs_items (c : case) : list string :=
  match c with
  | Fine => ["rhs"; "cap"; "2"; "one"; "1"; "two"; "1"; "three"; "0"; "top"; "4"] | Void => ["rhs"; "cap"; "1"; "one"; "1"; "two"; "1"; "three"; "1"; "top"; "4"]
  | Half => ["rhs"; "cap"; "2"; "half"; "1"] | Far => ["rhs"; "cap"; "2"; "far"; "-200000"]
  end.
Definition e_lines (c : case) : list string :=
  map (String.concat " ") ([["NAME"; "demo"]; ["ROWS"]] ++ e_row_items c ++ [["COLUMNS"]] ++ e_col_items c ++ [["RHS"]; e_rhs_items c; ["BOUNDS"]; ["UP"; "bnd"; "z"; "5"]] ++ [["ENDATA"]])%list.
Definition e_files (c : case) : files := fun n => if (n =? "demo.mps")%string then Some (text (e_lines c)) else None.
Definition e_items : list item := [IMps "demo.mps"].
Definition e_run (c : case) := run_command 100 (fun l => l) PrepareProof6.p_around (fun _ => true) 100%Q false false (fun _ => 1%Q) (fun _ => 1%Q) (fun _ => 1%Q) (fun q => q)
  w_lg (fun q => q) (mkRx None None) InfeasibleProof.u_inputs (e_files c) (flat_map words e_items).

Lemma e_shows : d_view (e_run Fine) = Some ([1; 0; 0], (-(1))%Q, 0%Q, true, 4%nat) /\ d_view (e_run Void) = Some ([1; 0; 1], (-(2))%Q, 1%Q, false, 4%nat) /\
  d_view (e_run Half) = Some ([0; 0; 0], 0%Q, 1%Q, true, 4%nat) /\ d_view (e_run Far) = Some ([1; 0; 0], (-(1))%Q, 200000%Q, true, 4%nat).
Proof. repeat split; vm_compute; reflexivity. Qed.
Definition e_settings : settings := mkSettings "demo.mps" "" "" "" "" "" "" 5 false false false false.
Lemma e_named : Forall well_named e_items /\ Forall well_numbered e_items.
Proof. split; repeat (apply Forall_cons; [first [exact Logic.I|cbn; intuition discriminate]|]); apply Forall_nil. Qed.
Lemma e_describes : describes e_items e_settings.
Proof.
  destruct e_named as [A B]. destruct (CommandProof2.arguments e_items A B) as (s & P & D & _).
  assert (E : Ok s = Ok e_settings) by (rewrite <- P; reflexivity). injection E as ->. exact D.
Qed.
Lemma e_no_feed c l : In l (e_lines c) -> ~ In LF (list_ascii_of_string l).
Proof. intros I. destruct c; cbn in I; repeat (destruct I as [<-|I]; [cbn; intuition discriminate|]); destruct I. Qed.
Lemma e_opens c : opens (e_files c) (st_mps e_settings) (e_lines c).
Proof. exists (text (e_lines c)). split; [reflexivity|]. symmetry. apply CommandProof5.file_lines, e_no_feed. Qed.
Lemma e_contains c : contains (e_lines c) (e_content c).
Proof.
  exists "demo", (e_row_items c), (e_col_items c), [e_rhs_items c], [["UP"; "bnd"; "z"; "5"]], [["RHS"]; e_rhs_items c], [["BOUNDS"]; ["UP"; "bnd"; "z"; "5"]], [], [e_rhs c].
  split; [destruct c; vm_compute; reflexivity|]. split; [destruct c; unfold e_content; cbn [f_rows e_rows e_row_items]; lines; reflexivity|].
  assert (Nm : forall s q, atof s = Some q -> s <> "'INTORG'" -> s <> "'INTEND'" -> numeral s q) by (intros; repeat split; assumption).
  split; [destruct c; unfold e_content; cbn [f_cols e_cols e_col_items app]; lines; cbn [column_items]; try (do 2 eexists; split; [reflexivity|discriminate]); eexists; (split; [reflexivity|]); (split; [discriminate|]); cbn [entry_items]; repeat (split; [reflexivity|split; [apply Nm; [reflexivity|discriminate|discriminate]|]]); exact Logic.I|].
  split; [cbn [List.concat e_content f_rhs]; apply app_nil_r|]. split; [destruct c; cbn [e_rhs e_rhs_items]; lines; (split; [discriminate|]); do 2 eexists; (split; [reflexivity|]); (split; [discriminate|]); cbn [entry_items]; repeat (split; [reflexivity|split; [apply Nm; [reflexivity|discriminate|discriminate]|]]); exact Logic.I|].
  split; [left; reflexivity|]. split; [|left; reflexivity]. cbn [e_content f_bounds e_bounds]. lines. eexists. cbn [fst snd]. eexists. split; [reflexivity|]. split; [unfold INT_MIN, INT_MAX; lia|]. eexists. split; reflexivity.
Qed.
Lemma e_well_formed c : well_formed (e_content c) "cost".
Proof.
  split; [destruct c; reflexivity|]. split; [destruct c; repeat (apply NoDup_cons; [cbn; intuition discriminate|]); apply NoDup_nil|].
  split; [destruct c; repeat (apply NoDup_cons; [cbn; intuition discriminate|]); apply NoDup_nil|]. split.
  { intros v r a H. destruct c; cbn in H; repeat (destruct H as [H|H]; [injection H as <- <- <-; split; [cbn; tauto|right; reflexivity]|]); destruct H. }
  split; [intros v es H; destruct c; cbn in H; repeat (destruct H as [H|H]; [(discriminate H || (injection H as <- <-; discriminate))|]); destruct H|].
  split; [destruct c; repeat (apply NoDup_cons; [cbn; intuition discriminate|]); apply NoDup_nil|].
  split; [intros r q H; destruct c; cbn in H; repeat (destruct H as [H|H]; [injection H as <- <-; cbn; tauto|]); destruct H|].
  split; [intros b v H; destruct c; cbn in H; repeat (destruct H as [H|H]; [injection H as <- <-; cbn; tauto|]); destruct H|].
  intros v l z l' H. unfold bounds_of in H. cbn [e_content f_bounds e_bounds filter snd fst] in H. destruct ("z" =? v)%string; cbn [map fst] in H; [|destruct l; discriminate].
  destruct l as [|b l]; [discriminate|]. destruct l; discriminate.
Qed.
Lemma e_integer c : integer_rows (e_content c) "cost".
Proof.
  split.
  - intros v r a H _. exists (Qnum a). destruct c; cbn in H; repeat (destruct H as [H|H]; [injection H as <- <- <-; reflexivity|]); destruct H.
  - intros r q H. exists (Qnum q). destruct c; cbn in H; repeat (destruct H as [H|H]; [injection H as <- <-; reflexivity|]); destruct H.
Qed.
Lemma e_columns c : columns (e_content c) = ["x"; "y"; "z"].
Proof. destruct c; reflexivity. Qed.
Lemma e_interval c : interval (e_content c) "x" = (0, 1) /\ interval (e_content c) "y" = (0, 1) /\ interval (e_content c) "z" = (0, 5).
Proof. destruct c; repeat split. Qed.
Lemma e_column c n : In n (columns (e_content c)) -> (n = "x" \/ n = "y" \/ n = "z") /\ exists z, interval (e_content c) n = (0, z) /\ 0 < z <= 5.
Proof.
  rewrite e_columns. destruct (e_interval c) as (A & B & C). intros [<-|[<-|[<-|[]]]]; (split; [tauto|]); [exists 1; rewrite A|exists 1; rewrite B|exists 5; rewrite C]; split; try reflexivity; lia.
Qed.
Lemma e_thin c : thin_binaries (e_files c) e_settings (e_content c).
Proof. intros n I H. exfalso. destruct (e_column c n I) as (_ & z & E & L). rewrite E in H. destruct H as [H|H]; injection H; lia. Qed.
Lemma e_values c : values_left (e_files c) e_settings (e_content c).
Proof.
  intros n I. destruct (e_column c n I) as (_ & z & E & L). exists 0. split; [rewrite E; cbn [fst snd]; lia|]. split; intros X; contradiction X; reflexivity.
Qed.
Lemma e_narrow c : narrow (e_content c).
Proof. intros n I. destruct (e_column c n I) as (_ & z & E & L). rewrite E. cbn [fst snd]. lia. Qed.
Lemma e_options c : options_are 100 (e_files c) e_settings initialize.
Proof. left. split; reflexivity. Qed.
Lemma e_on : switched initialize "is_enabled_presolve" true.
Proof. vm_compute. reflexivity. Qed.

Definition sound_case (c : case) : Prop := c = Fine \/ c = Void.
Lemma e_constrains c k r : sound_case c -> constrains (e_content c) k r -> (k, r) = (KL, "cap") \/ (k, r) = (KG, "one") \/ (k, r) = (KG, "two") \/ (k, r) = (KG, "three") \/ (k, r) = (KL, "top").
Proof. intros S (I & N). destruct S as [-> | ->]; cbn in I; (destruct I as [I|I]; [injection I as <- _; contradiction|]); repeat (destruct I as [<-|I]; [tauto|]); destruct I. Qed.
Lemma e_inequalities c : sound_case c -> inequalities (e_content c).
Proof. intros S k r K. apply (e_constrains c k r S) in K. destruct K as [K|[K|[K|[K|K]]]]; injection K as -> _; discriminate. Qed.
Definition e_level (c : case) (r : string) : Q := rhs_of (e_content c) r.
Lemma e_excess c y : sound_case c -> let x := inject_Z (y "x") in let v := inject_Z (y "y") in let z := inject_Z (y "z") in
  (excess (e_content c) y "cap" == x + v + z - e_level c "cap" /\ excess (e_content c) y "one" == x + v - e_level c "one" /\ excess (e_content c) y "two" == x + z - e_level c "two" /\
   excess (e_content c) y "three" == v + z - e_level c "three" /\ excess (e_content c) y "top" == 2 * z - e_level c "top")%Q.
Proof.
  intros S. cbv zeta. unfold excess, e_level. assert (R : forall r, row_value (e_content c) y r = row_value (e_content Fine) y r) by (intros r; destruct S as [-> | ->]; reflexivity). rewrite !R.
  generalize (rhs_of (e_content c)). intros h. unfold row_value, sum. cbn [e_content f_cols e_cols app triples flat_map map filter fst snd String.eqb Ascii.eqb Bool.eqb fold_right].
  repeat split; ring.
Qed.
Lemma e_levels c r : sound_case c -> (0 <= e_level c r <= 4)%Q.
Proof.
  intros S. unfold e_level, rhs_of. destruct (find _ _) as [[n q]|] eqn:E; [|cbn; lra]. apply find_some in E as [I _]. cbn [snd].
  destruct S as [-> | ->]; cbn in I; repeat (destruct I as [I|I]; [injection I as <- <-; lra|]); destruct I.
Qed.
Lemma bounded z b : Z.abs z <= b -> (- inject_Z b <= inject_Z z <= inject_Z b)%Q.
Proof. intros H. split; [rewrite <- inject_Z_opp|]; rewrite <- Zle_Qle; lia. Qed.
Lemma e_small c : sound_case c -> small (e_content c).
Proof.
  intros S k r y K. apply (e_constrains c k r S) in K. pose proof (e_excess c y S) as (E1 & E2 & E3 & E4 & E5). cbv zeta in *.
  pose proof (e_levels c) as L. destruct (e_interval c) as (I1 & I2 & I3).
  assert (M : forall w, at_most (e_content c) w y -> Z.abs (y "x") <= w "x" /\ Z.abs (y "y") <= w "y" /\ Z.abs (y "z") <= w "z").
  { intros w A. split; [|split]; apply A; rewrite e_columns; cbn; tauto. }
  set (X := inject_Z (y "x")) in *. set (Y := inject_Z (y "y")) in *. set (Z' := inject_Z (y "z")) in *.
  assert (G : forall b : Q, (4 <= b)%Q -> (- b <= X <= b)%Q -> (- b <= Y <= b)%Q -> (- b <= Z' <= b)%Q -> (Qabs (excess (e_content c) y r) <= 4 * b)%Q).
  { intros b B A1 A2 A3. pose proof (L "cap" S) as L1. pose proof (L "one" S) as L2. pose proof (L "two" S) as L3. pose proof (L "three" S) as L4. pose proof (L "top" S) as L5. apply Qabs_Qle_condition.
    destruct K as [K|[K|[K|[K|K]]]]; injection K as _ ->; [rewrite E1|rewrite E2|rewrite E3|rewrite E4|rewrite E5]; split; lra. }
  split; intros A; destruct (M _ A) as (A1 & A2 & A3).
  - unfold widest in A1, A2, A3. rewrite I1 in A1. rewrite I2 in A2. rewrite I3 in A3. cbn [fst snd] in A1, A2, A3.
    apply Qle_trans with (4 * 5)%Q; [|vm_compute; discriminate]. apply G; [lra|apply (bounded _ 5); lia..].
  - apply Qle_trans with (4 * 100000)%Q; [|vm_compute; discriminate]. apply G; [lra|exact (bounded _ _ A1)|exact (bounded _ _ A2)|exact (bounded _ _ A3)].
Qed.
Lemma e_at c n r : sound_case c -> entry (e_content c) n r = entry (e_content Fine) n r.
Proof. intros [-> | ->]; reflexivity. Qed.
Lemma e_row c k r : sound_case c -> In (k, r) (e_rows Fine) -> k <> KN -> constrains (e_content c) k r.
Proof. intros S I N. split; [|exact N]. destruct S as [-> | ->]; exact I. Qed.
Lemma e_placed c : sound_case c -> placed (e_content c) "cost".
Proof.
  intros S n I. left. exists KL, "cap". split; [apply (e_row c _ _ S); [cbn; tauto|discriminate]|]. rewrite (e_at c n "cap" S). destruct (e_column c n I) as ([->|[->| ->]] & _); intros X; vm_compute in X; discriminate X.
Qed.
Lemma e_weighted c : sound_case c -> weighted (e_content c).
Proof.
  intros S. exists KL, "top", "z". split; [apply (e_row c _ _ S); [cbn; tauto|discriminate]|]. split; [rewrite e_columns; cbn; tauto|]. rewrite (e_at c "z" "top" S). split; intros X; vm_compute in X; discriminate X.
Qed.
Lemma e_one_sided c : sound_case c -> one_sided (e_content c).
Proof.
  intros S k r k' r' K K'. apply (e_constrains c k r S) in K. apply (e_constrains c k' r' S) in K'.
  pose (y0 := fun _ : string => 0). pose (yz := fun n : string => if (n =? "z")%string then 1 else 0). pose (yx := fun n : string => if (n =? "x")%string then 1 else 0). pose (yy := fun n : string => if (n =? "y")%string then 1 else 0).
  pose proof (e_excess c y0 S) as (A1 & A2 & A3 & A4 & A5). pose proof (e_excess c yz S) as (B1 & B2 & B3 & B4 & B5). pose proof (e_excess c yx S) as (C1 & C2 & C3 & C4 & C5). pose proof (e_excess c yy S) as (D1 & D2 & D3 & D4 & D5). cbv zeta in *.
  change (y0 "x") with 0 in *. change (y0 "y") with 0 in *. change (y0 "z") with 0 in *. change (yz "x") with 0 in *. change (yz "y") with 0 in *. change (yz "z") with 1 in *.
  change (yx "x") with 1 in *. change (yx "y") with 0 in *. change (yx "z") with 0 in *. change (yy "x") with 0 in *. change (yy "y") with 1 in *. change (yy "z") with 0 in *.
  change (inject_Z 0) with 0%Q in *. change (inject_Z 1) with 1%Q in *.
  split; intros Ek Eq; pose proof (Eq y0) as E0; pose proof (Eq yz) as Ez; pose proof (Eq yx) as Ex; pose proof (Eq yy) as Ey; clear Eq; clearbody y0 yz yx yy;
    destruct K as [K|[K|[K|[K|K]]]]; injection K as -> ->; destruct K' as [K'|[K'|[K'|[K'|K']]]]; injection K' as -> ->; try (contradiction Ek; reflexivity); try discriminate Ek; lra.
Qed.
Lemma e_nothing c y : c = Void \/ c = Half \/ c = Far -> ~ file_solution (e_files c) e_settings (e_content c) y.
Proof.
  intros Cs [[R _] L]. assert (B : 0 <= y "x" <= 1 /\ 0 <= y "y" <= 1 /\ 0 <= y "z" <= 5).
  { destruct (e_interval c) as (I1 & I2 & I3). split; [|split]; [destruct (L "x") as (H & _)|destruct (L "y") as (H & _)|destruct (L "z") as (H & _)]; try (rewrite e_columns; cbn; tauto);
      [rewrite I1 in H|rewrite I2 in H|rewrite I3 in H]; exact H. }
  clear L. destruct Cs as [->|[->| ->]].
  - pose proof (R KL "cap" ltac:(cbn; tauto) ltac:(discriminate)) as A1. pose proof (R KG "one" ltac:(cbn; tauto) ltac:(discriminate)) as A2.
    pose proof (R KG "two" ltac:(cbn; tauto) ltac:(discriminate)) as A3. pose proof (R KG "three" ltac:(cbn; tauto) ltac:(discriminate)) as A4. clear R. cbn in A1, A2, A3, A4. lra.
  - pose proof (R KE "half" ltac:(cbn; tauto) ltac:(discriminate)) as A1. clear R. cbn in A1. destruct (Z.eq_dec (y "x") 0) as [E|E]; [rewrite E in A1; change (inject_Z 0) with 0%Q in A1; lra|].
    assert (E1 : y "x" = 1) by lia. rewrite E1 in A1. change (inject_Z 1) with 1%Q in A1. lra.
  - pose proof (R KL "far" ltac:(cbn; tauto) ltac:(discriminate)) as A1. clear R. cbn in A1. assert (H : (0 <= inject_Z (y "z"))%Q) by (rewrite <- (Zle_Qle 0); lia). lra.
Qed.
