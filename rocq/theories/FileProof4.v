(** Proofs for C83: the example. *)
From Coq Require Import List NArith ZArith QArith Qabs Bool Arith String Ascii Lia Lqa.
From Verif Require Import ExprModel ConstraintModel VariableModel PresolveModel TextModel MpsModel MpsSpec NamesModel NamesSpec JsonModel OptionModel CommandModel CommandSpec
  SolverModel WholeModel WholeProof4 FileModel FileSpec FileProof3.
From Verif Require CommandProof2 CommandProof5.
Import ListNotations.
Local Open Scope string_scope.
Local Open Scope Z_scope.

Lemma d_shows : d_view (d_run false "fix.txt") = Some ([0; 1; 0], 3%Q, 0%Q, true, 4%nat) /\ d_view (d_run false "five.txt") = Some ([0; 1; 5], (-(2))%Q, 2%Q, false, 2%nat) /\
  d_view (d_run true "one.txt") = Some ([1; 0; 1], (-(2))%Q, 0%Q, true, 3%nat) /\ d_run false "far.txt" = Some Throw.
Proof. repeat split; vm_compute; reflexivity. Qed.
Lemma view_done r l q v b k : d_view r = Some (l, q, v, b, k) -> exists an rn, r = Some (Ok (Some (Done (an, rn)))) /\ map (an_x an) (seq 0 3) = l /\ an_feasible an = b.
Proof. intros E. unfold d_view in E. destruct r as [[[[[an rn]| |]|]| |]|]; try discriminate. exists an, rn. cbn [WholeProof4.shown] in E. injection E as E1 _ _ E4 _. auto. Qed.
Definition d_settings (fixed : string) : settings := mkSettings "demo.mps" "off.json" "" "" fixed "" "" 5 false false false false.
Lemma d_named fixed : Forall well_named (d_items fixed) /\ Forall well_numbered (d_items fixed).
Proof. split; repeat (apply Forall_cons; [first [exact Logic.I|cbn; intuition discriminate]|]); apply Forall_nil. Qed.
Lemma d_describes fixed : describes (d_items fixed) (d_settings fixed).
Proof.
  destruct (d_named fixed) as [A B]. destruct (CommandProof2.arguments (d_items fixed) A B) as (s & P & D & _).
  assert (E : Ok s = Ok (d_settings fixed)) by (rewrite <- P; reflexivity). injection E as ->. exact D.
Qed.
Lemma d_no_feed fx l : In l (d_lines fx) -> ~ In LF (list_ascii_of_string l).
Proof. intros I. destruct fx; cbn in I; repeat (destruct I as [<-|I]; [cbn; intuition discriminate|]); destruct I. Qed.
Lemma d_opens fx fixed : opens (d_files fx) (st_mps (d_settings fixed)) (d_lines fx).
Proof. exists (text (d_lines fx)). split; [reflexivity|]. symmetry. apply CommandProof5.file_lines, d_no_feed. Qed.
Ltac lines := repeat (apply Forall2_cons || apply Forall2_nil).
Lemma d_contains fx : contains (d_lines fx) (d_content fx).
Proof.
  exists "demo", [["N"; "cost"]; ["L"; "cap"]; ["E"; "pick"]],
    [["MARKER"; "'MARKER'"; "'INTORG'"]; ["x"; "cost"; "-1"; "cap"; "2"]; ["x"; "pick"; "1"]; ["y"; "cost"; "3"; "cap"; "1"]; ["y"; "pick"; "1"]; ["z"; "cost"; "-1"; "cap"; "1"]; ["MARKER"; "'MARKER'"; "'INTEND'"]],
    [["rhs"; "cap"; "4"; "pick"; "1"]], [if fx then ["FX"; "bnd"; "z"; "0"] else ["UP"; "bnd"; "z"; "5"]], [["RHS"]; ["rhs"; "cap"; "4"; "pick"; "1"]],
    [["BOUNDS"]; if fx then ["FX"; "bnd"; "z"; "0"] else ["UP"; "bnd"; "z"; "5"]], [], [[("cap", 4); ("pick", 1)]]%Q.
  split; [destruct fx; vm_compute; reflexivity|]. split; [lines; reflexivity|].
  assert (Nm : forall s q, atof s = Some q -> s <> "'INTORG'" -> s <> "'INTEND'" -> numeral s q) by (intros; repeat split; assumption).
  split; [lines; cbn [column_items]; try (do 2 eexists; split; [reflexivity|discriminate]); eexists; (split; [reflexivity|]); (split; [discriminate|]); cbn [entry_items]; repeat (split; [reflexivity|split; [apply Nm; [reflexivity|discriminate|discriminate]|]]); exact Logic.I|].
  split; [reflexivity|]. split; [lines; (split; [discriminate|]); do 2 eexists; (split; [reflexivity|]); (split; [discriminate|]); cbn [entry_items]; repeat (split; [reflexivity|split; [apply Nm; [reflexivity|discriminate|discriminate]|]]); exact Logic.I|].
  split; [left; reflexivity|]. split; [|left; reflexivity].
  assert (In : forall s z q, INT_MIN <= z <= INT_MAX -> atof s = Some q -> (q == inject_Z z)%Q -> int_numeral s z) by (intros s z q H1 H2 H3; split; [exact H1|now exists q]).
  destruct fx; lines; eexists; cbn [fst snd]; try reflexivity; (eexists; split; [reflexivity|]); (eapply In; [unfold INT_MIN, INT_MAX; lia|reflexivity|reflexivity]).
Qed.
Lemma d_well_formed fx : well_formed (d_content fx) "cost".
Proof.
  split; [reflexivity|]. split; [repeat (apply NoDup_cons; [cbn; intuition discriminate|]); apply NoDup_nil|].
  split; [repeat (apply NoDup_cons; [cbn; intuition discriminate|]); apply NoDup_nil|]. split.
  { intros v r a H. cbn in H. repeat (destruct H as [H|H]; [injection H as <- <- <-; split; [cbn; tauto|right; reflexivity]|]). destruct H. }
  split; [intros v es H; cbn in H; repeat (destruct H as [H|H]; [(discriminate H || (injection H as <- <-; discriminate))|]); destruct H|].
  split; [repeat (apply NoDup_cons; [cbn; intuition discriminate|]); apply NoDup_nil|].
  split; [intros r q H; cbn in H; repeat (destruct H as [H|H]; [injection H as <- <-; cbn; tauto|]); destruct H|].
  split; [intros b v H; cbn in H; repeat (destruct H as [H|H]; [injection H as <- <-; cbn; tauto|]); destruct H|].
  intros v l z l' H. unfold bounds_of in H. cbn [d_content f_bounds filter snd fst] in H. destruct ("z" =? v)%string; cbn [map fst] in H; [|destruct l; discriminate].
  destruct fx; destruct l as [|b l]; [injection H as _ <-; reflexivity| |discriminate|]; exfalso; destruct l; discriminate.
Qed.
Lemma d_integer fx : integer_rows (d_content fx) "cost".
Proof.
  split.
  - intros v r a H _. exists (Qnum a). cbn in H. repeat (destruct H as [H|H]; [injection H as <- <- <-; reflexivity|]). destruct H.
  - intros r q H. exists (Qnum q). cbn in H. repeat (destruct H as [H|H]; [injection H as <- <-; reflexivity|]). destruct H.
Qed.
Lemma d_off fx fixed : FileSpec.presolve_off 100 (d_files fx) (d_settings fixed).
Proof. split; [discriminate|]. eexists. eexists. split; [reflexivity|]. split; [vm_compute; reflexivity|]. vm_compute. reflexivity. Qed.
Lemma d_thin fixed : thin_binaries (d_files false) (d_settings fixed) (d_content false).
Proof. intros n I H. exfalso. cbn in I. repeat (destruct I as [<-|I]; [destruct H as [H|H]; vm_compute in H; discriminate H|]). destruct I. Qed.

Lemma d_value fx fixed lns before line after n t q z : d_files fx fixed = Some (text lns) -> (forall l, In l lns -> ~ In LF (list_ascii_of_string l)) -> fixed <> "" ->
  lns = (before ++ line :: after)%list -> gives line n t -> (forall l u, In l after -> ~ gives l n u) -> atof t = Some q -> left_to (d_files fx) (d_settings fixed) (d_content fx) n z -> nearest q z.
Proof.
  intros E N Ne Sp G La A (_ & _ & L). refine (L Ne lns t q _ _ A).
  - exists (text lns). split; [exact E|]. symmetry. apply CommandProof5.file_lines, N.
  - exists before, line, after. auto.
Qed.
Lemma d_void y : ~ file_solution (d_files false) (d_settings "five.txt") (d_content false) y.
Proof.
  intros [[R _] L]. assert (Nf : forall l, In l ["x 0"; "z 5"] -> ~ In LF (list_ascii_of_string l)) by (intros l I; repeat (destruct I as [<-|I]; [cbn; intuition discriminate|]); destruct I).
  assert (Z5 : nearest 5 (y "z")).
  { apply (d_value false "five.txt" ["x 0"; "z 5"] ["x 0"] "z 5" [] "z" "5" 5 (y "z")); [reflexivity|exact Nf|discriminate|reflexivity|exists []; reflexivity|intros l u []|reflexivity|apply L; cbn; auto]. }
  assert (X0 : nearest 0 (y "x")).
  { apply (d_value false "five.txt" ["x 0"; "z 5"] [] "x 0" ["z 5"] "x" "0" 0 (y "x")); [reflexivity|exact Nf|discriminate|reflexivity|exists []; reflexivity| |reflexivity|apply L; cbn; auto].
    intros l u [<-|[]] (rest & E). discriminate E. }
  assert (Y1 : 0 <= y "y" <= 1) by (apply (L "y"); cbn; auto).
  pose proof (R KL "cap" ltac:(cbn; auto) ltac:(discriminate)) as Cap. pose proof (R KE "pick" ltac:(cbn; auto) ltac:(discriminate)) as Pick. clear R L.
  unfold nearest in Z5, X0. cbn in Cap, Pick. set (a := y "x") in *. set (b := y "y") in *. set (c := y "z") in *.
  assert (Hb : (0 <= inject_Z b)%Q) by (rewrite <- (Zle_Qle 0); lia). lra.
Qed.

(** A bound FX that a file of fixed variables overrules. *)
Lemma d_overruled : exists an rn, d_run true "one.txt" = Some (Ok (Some (Done (an, rn)))) /\ an_feasible an = true /\ an_x an 2 = 1 /\
  nth_error (columns (d_content true)) 2 = Some "z" /\ interval (d_content true) "z" = (0, 0) /\ (exists z, In (BFx z) (bounds_of (d_content true) "z")) /\
  forall y, file_solution (d_files true) (d_settings "one.txt") (d_content true) y -> False.
Proof.
  destruct (view_done _ _ _ _ _ _ (proj1 (proj2 (proj2 d_shows)))) as (an & rn & E & X & F). exists an, rn. split; [exact E|]. split; [exact F|]. split; [injection X as _ _ X; exact X|].
  split; [reflexivity|]. split; [reflexivity|]. split; [exists 0; cbn; auto|]. intros y [_ L]. assert (I : In "z" (columns (d_content true))) by (cbn; auto).
  assert (N : nearest 1 (y "z")).
  { apply (d_value true "one.txt" ["z 1"] [] "z 1" [] "z" "1" 1 (y "z")); [reflexivity| |discriminate|reflexivity|exists []; reflexivity|intros l u []|reflexivity|exact (L "z" I)].
    intros l [<-|[]]. cbn. intuition discriminate. }
  destruct (L "z" I) as (B & _). assert (I0 : interval (d_content true) "z" = (0, 0)) by reflexivity. rewrite I0 in B. cbn [fst snd] in B. unfold nearest in N. assert (H : y "z" = 0) by lia. rewrite H in N. destruct N as [_ N]. vm_compute in N. discriminate N.
Qed.
