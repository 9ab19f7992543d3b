(** C45: fixing, unfixing, initial solutions and flippable pairs by name.
    C55: the solution file is read back as the same solution.
    C56: default names are unique. *)
From Coq Require Import List ZArith QArith Bool String Permutation Lia.
From Verif Require Import VariableModel PresolveModel TextModel MpsModel NamesModel NamesSpec NamesProof NamesProof2 NamesProof3.
Import ListNotations.
Local Open Scope string_scope.
Local Open Scope Z_scope.
Local Open Scope list_scope.

(** A file of names and values fixes exactly the variables it names, each at the
    (rounded) number on the last line that names it, and touches no other variable. *)
Theorem C45_fix_from_file : forall (lines : list string) (m : list proxy), readable lines ->
  exists tbl, read_names_and_values lines = Ok tbl /\
  forall i j, match element m i j with
    | None => element (fix_variables tbl m) i j = None
    | Some (n, v) => exists v', element (fix_variables tbl m) i j = Some (n, v') /\ same_bounds v v' /\
        (forall text, last_given lines n text -> va_fixed v' = true /\ exists q, atof text = Some q /\ nearest q (va_value v')) /\
        (never_given lines n -> v' = v)
    end.
Proof. exact fix_file. Qed.
Print Assumptions C45_fix_from_file.

(** A file of names leaves exactly the variables it names free, and sets every
    variable, named or not, to 0. *)
Theorem C45_unfix_from_file : forall (lines : list string) (m : list proxy) (i j : nat),
  match element m i j with
  | None => element (unfix_variables (read_names lines) m) i j = None
  | Some (n, v) => exists v', element (unfix_variables (read_names lines) m) i j = Some (n, v') /\ same_bounds v v' /\ va_value v' = 0 /\
      (va_fixed v' = false <-> exists line rest, In line lines /\ items_of line = n :: rest)
  end.
Proof. exact unfix_file. Qed.
Print Assumptions C45_unfix_from_file.

(** An initial solution file gives each variable the number on its last line, and 0
    if it is not in the file; it is rejected exactly if that would change a fixed
    variable. *)
Theorem C45_initial_solution_from_file : forall (lines : list string) (m : list proxy), readable lines ->
  exists tbl, read_names_and_values lines = Ok tbl /\
  ((exists i j n v z, element m i j = Some (n, v) /\ va_fixed v = true /\ file_value lines n z /\ va_value v <> z) ->
     import_solution tbl m = Throw) /\
  ((forall i j n v z, element m i j = Some (n, v) -> va_fixed v = true -> file_value lines n z -> va_value v = z) ->
     exists m', import_solution tbl m = Ok m' /\
     forall i j, match element m i j with
       | None => element m' i j = None
       | Some (n, v) => exists v', element m' i j = Some (n, v') /\ same_bounds v v' /\ va_fixed v' = va_fixed v /\ file_value lines n (va_value v')
       end).
Proof. exact initial_file. Qed.
Print Assumptions C45_initial_solution_from_file.

(** A file of name pairs registers, in its order, the pairs whose names are both known. *)
Theorem C45_pairs_from_file : forall (m : list proxy) (lines : list string), NoDup (map fst (elements m)) ->
  described (map fst (elements m)) lines (setup_flippable_pairs m (read_name_pairs lines)).
Proof. exact pairs_file. Qed.
Print Assumptions C45_pairs_from_file.

(** Fixing some variables from a file and then reading an initial solution that does
    not mention them fails. *)
Theorem C45_fixed_then_initial_refuted : exists lines init tbl tbl' m,
  read_names_and_values lines = Ok tbl /\ read_names_and_values init = Ok tbl' /\ import_solution tbl' (fix_variables tbl m) = Throw.
Proof.
  exists ["x 1"], ["y 1"], [("x", 1)], [("y", 1)], [mkProxy "x" [1] [("x", v_init)]; mkProxy "y" [1] [("y", v_init)]].
  split; [vm_compute; reflexivity|]. split; vm_compute; reflexivity.
Qed.
Print Assumptions C45_fixed_then_initial_refuted.

(** Default names with more than one dimension or more than nine elements contain
    blanks, so no auxiliary file can name such a variable. *)
Theorem C45_default_names_refuted : exists m m' lines, create_variables [] "x" [2; 2] = Ok m /\ m' = setup_unique_names m /\
  lines = map (fun e => fst e) (elements m') /\
  forall i j e, element (unfix_variables (read_names lines) m') i j = Some e -> va_fixed (snd e) = true.
Proof.
  eexists. eexists. eexists. split; [vm_compute; reflexivity|]. split; [reflexivity|]. split; [reflexivity|].
  intros i j e H.
  assert (K : In e (elements (unfix_variables (read_names (map (fun e => fst e) (elements (setup_unique_names
     [mkProxy "x" [2; 2] [("", v_init); ("", v_init); ("", v_init); ("", v_init)]]))))
     (setup_unique_names [mkProxy "x" [2; 2] [("", v_init); ("", v_init); ("", v_init); ("", v_init)]])))) by (apply in_elements; exists i, j; exact H).
  vm_compute in K. repeat (destruct K as [<-|K]; [reflexivity|]). contradiction.
Qed.
Print Assumptions C45_default_names_refuted.

(** Writing a solution and reading it as an initial solution gives the same values,
    whatever the order in which the map of proxies is written. *)
Theorem C55_solution_file_round_trip : forall (m m0 : list proxy) (sol : list (string * list (string * Z))) (objective : option string),
  NoDup (map px_name m) -> NoDup (map fst (elements m)) ->
  (forall e, In e (elements m) -> plain_name (fst e) /\ is_int (va_value (snd e))) ->
  (forall t, objective = Some t -> plain_name t /\ exists q z, atof t = Some q /\ nearest q z /\ is_int z) ->
  Permutation sol (export_named m) ->
  Forall2 (fun e0 e => fst e0 = fst e /\ (va_fixed (snd e0) = true -> va_value (snd e0) = va_value (snd e))) (elements m0) (elements m) ->
  exists tbl m', read_names_and_values (solution_lines objective sol) = Ok tbl /\ import_solution tbl m0 = Ok m' /\
    map (fun e => (fst e, va_value (snd e))) (elements m') = map (fun e => (fst e, va_value (snd e))) (elements m).
Proof. exact round_trip. Qed.
Print Assumptions C55_solution_file_round_trip.

(** With an objective value beyond the int range the file cannot be read back. *)
Theorem C55_large_objective_refuted : forall m, read_names_and_values (solution_lines (Some "1.0000000000e+10") (export_named m)) = UB.
Proof. intros m. unfold read_names_and_values, solution_lines. cbn [read_values]. 
  assert (E : items_of (append "=obj= " "1.0000000000e+10") = ["=obj="; "1.0000000000e+10"]) by (vm_compute; reflexivity). rewrite E.
  assert (F : value_of "1.0000000000e+10" = UB) by (vm_compute; reflexivity). rewrite F. reflexivity. Qed.
Print Assumptions C55_large_objective_refuted.
(** Of two proxies of the same name only the second is written. *)
Theorem C55_same_proxy_name_refuted : exists m, List.length (elements m) = 3%nat /\
  export_named m = [("x", [("x[0]", 7); ("x[1]", 8)])].
Proof.
  exists [mkProxy "x" [1] [("x", v_with_value v_init 5)]; mkProxy "x" [2] [("x[0]", v_with_value v_init 7); ("x[1]", v_with_value v_init 8)]].
  split; reflexivity.
Qed.
Print Assumptions C55_same_proxy_name_refuted.

(** Set-up keeps the names the user gave, and gives different names to different
    elements the user left unnamed. *)
Theorem C56_given_names_kept : forall (m : list proxy) (i j : nat),
  match element m i j with
  | None => element (setup_unique_names m) i j = None
  | Some (n, v) => exists n', element (setup_unique_names m) i j = Some (n', v) /\ (n <> EmptyString -> n' = n)
  end.
Proof. exact names_kept. Qed.
Print Assumptions C56_given_names_kept.
Theorem C56_default_names_unique : forall (m : list proxy) (i j i' j' : nat) (n : string) (v v' w w' : var), proper_proxies m ->
  element m i j = Some (EmptyString, v) -> element m i' j' = Some (EmptyString, v') ->
  element (setup_unique_names m) i j = Some (n, w) -> element (setup_unique_names m) i' j' = Some (n, w') -> i = i' /\ j = j'.
Proof. exact names_distinct. Qed.
Print Assumptions C56_default_names_unique.
(** Proxies made through the API are proper if their names differ and have no bracket. *)
Theorem C56_created_proxies_proper : forall (m : list proxy) (name : string) (shape : list Z) (m' : list proxy),
  proper_proxies m -> bracket_free name -> ~ In name (map px_name m) -> create_variables m name shape = Ok m' -> proper_proxies m'.
Proof. exact created_proper. Qed.
Print Assumptions C56_created_proxies_proper.

(** C56: a name is refused, with an exception, exactly if it contains a space. *)
Theorem C56_spaces_refused : forall (m : list proxy) (name : string) (shape : list Z),
  create_variables m name shape = Throw <-> exists a b, name = (a ++ " " ++ b)%string.
Proof. exact create_throws. Qed.
Print Assumptions C56_spaces_refused.

(** Nothing rejects a second proxy of the same name, or a name that looks like an
    element: then two variables share a name. *)
Theorem C56_same_name_refuted : exists m1 m2, create_variables [] "x" [2] = Ok m1 /\ create_variables m1 "x[1]" [1] = Ok m2 /\
  map fst (elements (setup_unique_names m2)) = ["x[0]"; "x[1]"; "x[1]"].
Proof. eexists _, _. split; [vm_compute; reflexivity|]. split; vm_compute; reflexivity. Qed.
Print Assumptions C56_same_name_refuted.

(** ** Examples *)
Definition nm_model : list proxy :=
  [mkProxy "x" [2] [("x[0]", v_with_value v_init 3); ("x[1]", v_with_value v_init (-4))];
   mkProxy "y" [1] [("y", v_with_value v_init 12)]].
Example C45_example :
  readable ["x[0] 7.6"; ""; "note"; "x[0] -2.5 ignored"; "zz 1"] /\
  (exists tbl, read_names_and_values ["x[0] 7.6"; ""; "note"; "x[0] -2.5 ignored"; "zz 1"] = Ok tbl /\
    map (fun e => (fst e, va_value (snd e), va_fixed (snd e))) (elements (fix_variables tbl nm_model)) =
    [("x[0]", -2, true); ("x[1]", -4, false); ("y", 12, false)] /\
    (exists m', import_solution tbl nm_model = Ok m' /\ map (fun e => va_value (snd e)) (elements m') = [-2; 0; 0])) /\
  map (fun e => (fst e, va_value (snd e), va_fixed (snd e))) (elements (unfix_variables (read_names ["y"; " x[1] 5 "]) nm_model)) =
    [("x[0]", 0, true); ("x[1]", 0, false); ("y", 0, false)] /\
  setup_flippable_pairs nm_model (read_name_pairs ["y x[0]"; "y zz"; "x[0] x[1]"]) = [(2, 0); (0, 1)]%nat.
Proof.
  split.
  { intros l n t [<-|[<-|[<-|[<-|[<-|[]]]]]] [r G]; vm_compute in G; try discriminate; injection G as <- <- <-.
    - exists (76 # 10)%Q, 8. split; [vm_compute; reflexivity|]. unfold nearest, is_int, Qle, Qlt. cbn. lia.
    - exists (-25 # 10)%Q, (-2). split; [vm_compute; reflexivity|]. unfold nearest, is_int, Qle, Qlt. cbn. lia.
    - exists 1%Q, 1. split; [vm_compute; reflexivity|]. unfold nearest, is_int, Qle, Qlt. cbn. lia. }
  split.
  { eexists. split; [vm_compute; reflexivity|]. split; [vm_compute; reflexivity|]. eexists. split; [vm_compute; reflexivity|]. vm_compute. reflexivity. }
  split; vm_compute; reflexivity.
Qed.
Example C55_example :
  exists tbl m', read_names_and_values (solution_lines (Some "-1.2500000000e+02") (rev (export_named nm_model))) = Ok tbl /\
    import_solution tbl (unfix_variables ["x[0]"; "x[1]"; "y"] nm_model) = Ok m' /\
    map (fun e => (fst e, va_value (snd e))) (elements m') = [("x[0]", 3); ("x[1]", -4); ("y", 12)].
Proof.
  change ([("x[0]", 3); ("x[1]", -4); ("y", 12)]) with (map (fun e => (fst e, va_value (snd e))) (elements nm_model)).
  apply C55_solution_file_round_trip.
  - repeat (apply NoDup_cons; [cbn; intuition discriminate|]). apply NoDup_nil.
  - repeat (apply NoDup_cons; [cbn; intuition discriminate|]). apply NoDup_nil.
  - intros e [<-|[<-|[<-|[]]]]; (split; [split; [discriminate|vm_compute; repeat split]|unfold is_int; cbn; lia]).
  - intros t [= <-]. split; [split; [discriminate|vm_compute; repeat split]|]. exists (inject_Z (-12500000000) * pow10 (2 - 10))%Q, (-125).
    split; [vm_compute; reflexivity|]. split; [unfold nearest, Qle, Qlt; vm_compute; split; [discriminate|reflexivity]|unfold is_int; lia].
  - apply Permutation_sym, Permutation_rev.
  - repeat (apply Forall2_cons; [split; [reflexivity|discriminate]|]). apply Forall2_nil.
Qed.
Example C56_example : exists m1 m2, create_variables [] "x" [2; 11] = Ok m1 /\ create_variables m1 "y" [1] = Ok m2 /\ proper_proxies m2 /\
  map fst (firstn 3 (elements (setup_unique_names m2))) = ["x[ 0,  0]"; "x[ 0,  1]"; "x[ 0,  2]"] /\
  map fst (skipn 21 (elements (setup_unique_names m2))) = ["x[ 1, 10]"; "y"].
Proof.
  eexists _, _. split; [vm_compute; reflexivity|]. split; [vm_compute; reflexivity|]. split; [|split; vm_compute; reflexivity].
  split; [repeat (apply NoDup_cons; [cbn; intuition discriminate|]); apply NoDup_nil|].
  intros p [<-|[<-|[]]]; (split; [vm_compute; repeat split; discriminate|]; split; [discriminate|]; split; [repeat constructor; lia|reflexivity]).
Qed.
