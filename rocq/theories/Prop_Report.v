(** C68: solutions written as JSON files. *)
From Coq Require Import List ZArith QArith Qabs Bool String Lia.
From Verif Require Import PresolveModel JsonModel JsonSpec JsonProof2 ArraySpec ReportModel ReportSpec ReportProof3 ReportProof4.
Import ListNotations.
Local Open Scope Z_scope.

(** The nested arrays: whatever the shapes, the object has one entry for each array, in
    order, nested to the depth and with the lengths of its shape, and the element at
    every index is the value at that index; doubles to six decimals. *)
Theorem C68_arrays : forall ps, Forall (fun p => plain (fst p) /\ sound (snd p)) ps ->
  exists m, Forall2 (fun p e => fst e = fst p /\ presents shown (snd p) (snd e) /\ storable true (snd e)) ps m /\
  exists steps, forall fuel, (steps <= fuel)%nat -> create_json_array fuel ps = Some (Ok m).
Proof. exact created. Qed.
Print Assumptions C68_arrays.
(** The file of write_json_by_array, read back. *)
Theorem C68_by_array : forall r, sound_summary r -> sound_arrays (rp_var r) -> sound_arrays (rp_expr r) -> sound_arrays (rp_con r) -> sound_arrays (rp_vio r) ->
  exists file m, (exists steps, forall fuel, (steps <= fuel)%nat -> write_by_array fuel r = Some (Ok file) /\ read_json_object fuel file = Some (Ok m)) /\ keeps_summary r m /\
  keeps_arrays "variables" (rp_var r) m /\ keeps_arrays "expressions" (rp_expr r) m /\ keeps_arrays "constraints" (rp_con r) m /\ keeps_arrays "violations" (rp_vio r) m.
Proof. exact by_array. Qed.
Print Assumptions C68_by_array.
(** The file of write_json_by_name, read back. *)
Theorem C68_by_name : forall r, sound_summary r -> sound_names (rp_var r) -> sound_names (rp_expr r) -> sound_names (rp_con r) -> sound_names (rp_vio r) ->
  exists file m, write_by_name r = Ok file /\ (exists steps, forall fuel, (steps <= fuel)%nat -> read_json_object fuel file = Some (Ok m)) /\ keeps_summary r m /\
  keeps_names "variables" (rp_var r) m /\ keeps_names "expressions" (rp_expr r) m /\ keeps_names "constraints" (rp_con r) m /\ keeps_names "violations" (rp_vio r) m.
Proof. exact by_name. Qed.
Print Assumptions C68_by_name.

Example C68_example : let x := mkVp [2; 1; 3] [VInt 1; VInt 2; VInt 3; VInt 4; VInt 5; VInt (-6)] ["a"; "b"; "c"; "d"; "e"; "f"]%string in let y := mkVp [1] [VInt 7] ["y"]%string in
  let c := mkVp [2] [VReal (1 # 3); VReal (-5 # 2)] ["c1"; "c2"]%string in
  let r := mkReport "demo" 7 2 true (3 # 2) 0 [("x", x); ("y", y)]%string [] [("c", c)]%string [] in
  sound_summary r /\ sound_arrays (rp_var r) /\ sound_arrays (rp_expr r) /\ sound_arrays (rp_con r) /\ sound_names (rp_var r) /\ sound_names (rp_con r) /\
  exists t, create_json_array 40 (rp_var r) = Some (Ok [("x", t); ("y", JArr [JInt KInt 7])]%string) /\
  t = JArr [JArr [JArr [JInt KInt 1; JInt KInt 2; JInt KInt 3]]; JArr [JArr [JInt KInt 4; JInt KInt 5; JInt KInt (-6)]]].
Proof.
  assert (P : forall s, TextProof.all_chars (fun c => negb (bad_char c)) s = true -> plain s) by (intros s; apply plain_chars).
  assert (Q : forall q, Qle_bool (decimal (-300)) (Qabs q) = true -> Qle_bool (Qabs q) (decimal 300) = true -> sound_real q) by (intros q A B; right; split; now apply Qle_bool_iff).
  assert (Sx : forall s vs ns, good_shape s -> Z.of_nat (List.length vs) = volume s -> List.length ns = List.length vs -> Forall sound_value vs -> sound (mkVp s vs ns)) by (intros; repeat split; cbn; try assumption; apply H).
  intros x y c r. split; [|split; [|split; [|split; [|split; [|split]]]]].
  - split; [apply P; vm_compute; reflexivity|]. split; [cbn; lia|]. split; [cbn; lia|]. split; [apply Q; vm_compute; reflexivity|left; reflexivity].
  - split; [repeat constructor; cbn; intuition discriminate|]. repeat (apply Forall_cons || apply Forall_nil); (split; [apply P; vm_compute; reflexivity|]); apply Sx; try reflexivity; try (repeat constructor; cbn; lia); split; try discriminate; repeat constructor; lia.
  - split; constructor.
  - split; [repeat constructor; cbn; intuition discriminate|]. apply Forall_cons; [|apply Forall_nil]. split; [apply P; vm_compute; reflexivity|]. apply Sx; try reflexivity; [split; [discriminate|repeat constructor; lia]|]. repeat constructor; apply Qle_bool_iff; vm_compute; reflexivity.
  - split; [repeat constructor; cbn; intuition discriminate|]. repeat (apply Forall_cons || apply Forall_nil).
    + split; [apply Sx; try reflexivity; [split; [discriminate|repeat constructor; lia]|repeat constructor; cbn; lia]|]. split; [|repeat constructor]. repeat (apply Forall_cons || apply Forall_nil); apply P; vm_compute; reflexivity.
    + split; [apply Sx; try reflexivity; [split; [discriminate|repeat constructor; lia]|repeat constructor; cbn; lia]|]. split; [|repeat constructor]. repeat (apply Forall_cons || apply Forall_nil); apply P; vm_compute; reflexivity.
  - split; [repeat constructor; cbn; intuition discriminate|]. apply Forall_cons; [|apply Forall_nil]. split; [apply Sx; try reflexivity; [split; [discriminate|repeat constructor; lia]|]; repeat constructor; apply Qle_bool_iff; vm_compute; reflexivity|].
    split; [repeat (apply Forall_cons || apply Forall_nil); apply P; vm_compute; reflexivity|]. cbn [snd vp_values]. apply Forall_cons; [apply Q; vm_compute; reflexivity|]. apply Forall_cons; [apply Q; vm_compute; reflexivity|apply Forall_nil].
  - eexists. split; vm_compute; reflexivity.
Qed.

(** The default names of the elements of an array are altered by reading the file by
    name, so that no value is found under them. *)
Theorem C68_names_refuted : exists file m l, let r := mkReport "" 2 0 true 0 0 [("x", mkVp [2] [VInt 1; VInt 2] ["x[0]"; "x[1]"])]%string [] [] [] in
  write_by_name r = Ok file /\ read_json_object 100 file = Some (Ok m) /\ last_with "variables" m = Some (JObj l) /\ last_with "x[1]" l = None.
Proof. eexists. eexists. eexists. split; [vm_compute; reflexivity|]. split; [vm_compute; reflexivity|]. split; vm_compute; reflexivity. Qed.
Print Assumptions C68_names_refuted.
(** Written as arrays, a violation below half a millionth is 0; by name it is not. *)
Theorem C68_decimals_refuted : exists ps q r, (0 < q)%Q /\ create_json_object ps = [("c[0]"%string, JReal q)] /\ create_json_array 20 ps = Some (Ok [("c"%string, JArr [JReal r])]) /\ (r == 0)%Q.
Proof. exists [("c"%string, mkVp [1] [VReal (1 # 10000000)] ["c[0]"%string])]. eexists. eexists. split; [|split; [reflexivity|split; [vm_compute; reflexivity|reflexivity]]]. reflexivity. Qed.
Print Assumptions C68_decimals_refuted.
