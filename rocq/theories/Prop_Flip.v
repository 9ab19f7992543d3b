(** C72: flippable variable pairs, their file, and reading it back. *)
From Coq Require Import List ZArith QArith Bool String Permutation.
From Verif Require Import TextModel VariableModel NamesModel NamesSpec FlipModel FlipSpec FlipProof.
Import ListNotations.
Local Open Scope string_scope.
Local Open Scope list_scope.

(** Whatever the order in which the hash set of variables is traversed: two variables
    form a pair if and only if both are binary, not fixed and in an enabled constraint
    and they are together in at least [minimum] constraints; every pair is listed once,
    in one direction, with the number of common constraints and its share in the
    constraints of either; and pairs with a larger share come first. *)
Theorem C72_pairs : forall (m : fmodel) (minimum : Z) (order : list nat), Permutation order (candidates m minimum) -> let l := extract_pairs m minimum order in
  (forall i j, i <> j -> ((exists p, In p l /\ ((fp_first p, fp_second p) = (i, j) \/ (fp_first p, fp_second p) = (j, i))) <->
     flippable m i /\ flippable m j /\ exists n, has_size (fun k => in_constraint m i k /\ in_constraint m j k) n /\ (minimum <= n)%Z)) /\
  NoDup (map (fun p => (fp_first p, fp_second p)) l) /\
  (forall i j, In (i, j) (map (fun p => (fp_first p, fp_second p)) l) -> ~ In (j, i) (map (fun p => (fp_first p, fp_second p)) l)) /\
  (forall p, In p l -> has_size (fun k => in_constraint m (fp_first p) k /\ in_constraint m (fp_second p) k) (fp_common p) /\
     exists u, has_size (fun k => in_constraint m (fp_first p) k \/ in_constraint m (fp_second p) k) u /\ (0 < u)%Z /\ (fp_rate p * inject_Z u == inject_Z (fp_common p))%Q) /\
  (forall a b p q, (a < b)%nat -> nth_error l a = Some p -> nth_error l b = Some q -> (fp_rate q <= fp_rate p)%Q).
Proof. exact extracted. Qed.
Print Assumptions C72_pairs.
(** Reading the file that was written gives back the same pairs in the same order, if
    the variables have different names without blanks. *)
Theorem C72_file : forall (m : fmodel) (minimum : Z) (order : list nat) (px : list proxy), Permutation order (candidates m minimum) ->
  map fst (elements px) = map fv_name (fst m) -> NoDup (map fv_name (fst m)) -> (forall a, In a (fst m) -> plain_name (fv_name a)) ->
  setup_flippable_pairs px (read_name_pairs (write_pairs m (extract_pairs m minimum order))) = map (fun p => (fp_first p, fp_second p)) (extract_pairs m minimum order).
Proof. exact file_back. Qed.
Print Assumptions C72_file.
(** The variables that are considered, whatever the order. *)
Theorem C72_candidates : forall (m : fmodel) (minimum : Z), NoDup (candidates m minimum) /\
  forall v, In v (candidates m minimum) <-> flippable m v /\ (minimum <= Z.of_nat (List.length (related m v)))%Z.
Proof. intros m minimum. split; [apply candidates_nodup|apply candidates_in]. Qed.
Print Assumptions C72_candidates.

(** ** Examples *)
Definition fl_model (names : list string) : fmodel :=
  (map (fun n => mkFv n (n =? "w")%string (if (n =? "v")%string then FsOther else FsBinary)) names,
   [mkFc true [0; 1; 2]; mkFc true [0; 1; 3]; mkFc true [1; 2; 4]; mkFc false [0; 2; 3]; mkFc true [0; 4]])%nat.
Example C72_example : let m := fl_model ["x"; "y"; "z"; "w"; "v"] in
  candidates m 2 = [0; 1; 2]%nat /\ Permutation [2; 0; 1]%nat (candidates m 2) /\
  map (fun p => (fp_first p, fp_second p, fp_common p, fp_rate p)) (extract_pairs m 2 [2; 0; 1]%nat) = [(2, 1, 2%Z, 2 # 4); (2, 0, 2%Z, 2 # 5); (0, 1, 2%Z, 2 # 5)]%nat /\
  write_pairs m (extract_pairs m 2 [2; 0; 1]%nat) = ["z y 3 3 2 0.5 "; "z x 3 4 2 0.4 "; "x y 4 3 2 0.4 "] /\
  setup_flippable_pairs [mkProxy "p" [5%Z] (map (fun a => (fv_name a, v_init)) (fst m))] (read_name_pairs (write_pairs m (extract_pairs m 2 [2; 0; 1]%nat))) = [(2, 1); (2, 0); (0, 1)]%nat.
Proof.
  cbv zeta. split; [vm_compute; reflexivity|]. split; [|repeat (split; [vm_compute; reflexivity|]); vm_compute; reflexivity].
  change (candidates (fl_model ["x"; "y"; "z"; "w"; "v"]) 2) with ([] ++ [0; 1; 2])%nat. apply (Permutation_middle [0; 1]%nat [] 2%nat).
Qed.

(** Constraints that the presolve has removed still count. *)
Theorem C72_disabled_refuted : exists (m : fmodel) (order : list nat) p, Permutation order (candidates m 2) /\ In p (extract_pairs m 2 order) /\ fp_common p = 2%Z /\
  has_size (fun k => (exists c, nth_error (snd m) k = Some c /\ fc_enabled c = true) /\ in_constraint m (fp_first p) k /\ in_constraint m (fp_second p) k) 1%Z.
Proof.
  exists (fl_model ["x"; "y"; "z"; "w"; "v"]), [0; 1; 2]%nat, (mkFp 0 2 2 (2 # 5)).
  split; [vm_compute; apply Permutation_refl|]. split; [vm_compute; tauto|]. split; [reflexivity|].
  exists [0%nat]. split; [repeat constructor; intros []|]. split; [|reflexivity]. intros k. split.
  - intros [<-|[]]. split; [eexists; split; reflexivity|]. split; eexists; (split; [reflexivity|cbn; tauto]).
  - intros [(c & E & En) [(c1 & E1 & I1) (c2 & E2 & I2)]]. rewrite E in E1, E2. injection E1 as <-. injection E2 as <-.
    destruct k as [|[|[|[|[|k]]]]]; [left; reflexivity| | | | |destruct k; discriminate E]; injection E as <-; cbn in En, I1, I2.
    + destruct I2 as [I|[I|[I|[]]]]; discriminate I.
    + destruct I1 as [I|[I|[I|[]]]]; discriminate I.
    + discriminate En.
    + destruct I2 as [I|[I|[]]]; discriminate I.
Qed.
Print Assumptions C72_disabled_refuted.
(** With blanks in the names, as in default names, nothing is read back. *)
Theorem C72_blank_names_refuted : exists (m : fmodel) (order : list nat) (px : list proxy), Permutation order (candidates m 2) /\
  map fst (elements px) = map fv_name (fst m) /\ NoDup (map fv_name (fst m)) /\ extract_pairs m 2 order <> [] /\
  setup_flippable_pairs px (read_name_pairs (write_pairs m (extract_pairs m 2 order))) = [].
Proof.
  exists (fl_model ["x[ 0]"; "x[ 1]"; "x[ 2]"; "w"; "v"]), [0; 1; 2]%nat, [mkProxy "p" [5%Z] (map (fun a => (fv_name a, v_init)) (fst (fl_model ["x[ 0]"; "x[ 1]"; "x[ 2]"; "w"; "v"])))].
  split; [vm_compute; apply Permutation_refl|]. split; [reflexivity|]. split; [repeat (apply NoDup_cons; [cbn; intuition discriminate|]); apply NoDup_nil|].
  split; [vm_compute; discriminate|vm_compute; reflexivity].
Qed.
Print Assumptions C72_blank_names_refuted.
