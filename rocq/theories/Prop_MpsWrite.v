(** * C54: a model written as an MPS file and read back is the same model *)
From Coq Require Import List ZArith QArith Qabs Bool String Lia Lqa Permutation.
From Verif Require Import ExprModel ConstraintModel ConstraintSpec VariableModel PresolveModel TextModel MpsModel MpsSpec MpsProof6.
Import ListNotations.
Local Open Scope string_scope.
Local Open Scope Z_scope.
Local Open Scope list_scope.

(** The written file is read and imported without error.  Variables and constraints have
    the same names (without blanks) in the same order.  An assignment of integers to the
    variables is admitted by the new model iff it is admitted by the old one, and the
    objective is the old one, negated for maximization.  [writable] says which models:
    coefficients with at most six significant digits, no objective constant, every
    variable used, no lower bound INT_HALF_MIN, no range [0, INT_HALF_MAX].  The order of
    the lines of a variable is immaterial. *)
Theorem C54_round_trip w sorted : writable w -> (forall i, Permutation (sorted i) (entries_of (wr_cons w) i)) ->
  exists m im, read_mps (write_mps w sorted) = Ok m /\ import_mps false m = Ok im /\
  let names := map (fun p => delete_space (fst p)) (wr_vars w) in
  map fst (im_vars im) = names /\ map fst (im_cons im) = map (fun p => delete_space (fst p)) (wr_cons w) /\
  forall y : string -> Z, let x := fun i => y (nth i names "") in
  (admits (im_vars im) (im_cons im) x <-> admits (wr_vars w) (wr_cons w) x) /\
  (e_eval (im_objective im) x == (if wr_minimize w then 1 else -1) * e_eval (wr_objective w) x)%Q.
Proof. exact (round_trip w sorted). Qed.
Print Assumptions C54_round_trip.

(** ** Models that are not carried over *)
Definition bounded (lo hi : Z) : var := match v_step v_init (VSetBound lo hi) with Some v => v | None => v_init end.
Definition row (s : sens) (k : csense) (q : Q) : constr := c_setup (mkExpr s q) k (fun _ => false).
Definition plain (w : written) : list string := write_mps w (entries_of (wr_cons w)).
Definition again (w : written) : outcome imported := bind (read_mps (plain w)) (import_mps false).
Definition one (v : var) (c : constr) (name : string) (obj : expr) : written := mkWr "m" true [("x", v)] [(name, c)] obj.
Definition ranges (w : written) : option (list (Z * Z)) := match again w with Ok im => Some (map (fun p => (va_lower (snd p), va_upper (snd p))) (im_vars im)) | _ => None end.
Definition goal (w : written) : option (sens * Q) := match again w with Ok im => Some (ex_sens (im_objective im), ex_const (im_objective im)) | _ => None end.
Theorem C54_unwritable_refuted :
  (** a variable that occurs nowhere: the file cannot be read *)
  again (mkWr "m" true [("x", bounded 0 1); ("y", bounded 0 5)] [("c", row [(0%nat, 1)] Less (-1))] (mkExpr [(0%nat, 1)] 0))%Q = Throw /\
  (** [0, INT_HALF_MAX] comes back as [0, 1] *)
  ranges (one (bounded 0 INT_HALF_MAX) (row [(0%nat, 1)] Less (-1)) "c" (mkExpr [(0%nat, 1)] 0))%Q = Some [(0, 1)] /\
  (** [INT_HALF_MIN, 5] comes back as [0, 5] *)
  ranges (one (bounded INT_HALF_MIN 5) (row [(0%nat, 1)] Less (-1)) "c" (mkExpr [(0%nat, 1)] 0))%Q = Some [(0, 5)] /\
  (** the constant of the objective is lost *)
  goal (one (bounded 0 1) (row [(0%nat, 1)] Less (-1)) "c" (mkExpr [(0%nat, 2)] 7))%Q = Some ([(0%nat, 2)], 0)%Q /\
  (** 1234567 comes back as 1234570 *)
  (exists q, goal (one (bounded 0 1) (row [(0%nat, 1)] Less (-1)) "c" (mkExpr [(0%nat, 1234567)] 0))%Q = Some ([(0%nat, q)], 0%Q) /\ (q == 1234570)%Q) /\
  (** the coefficients of a constraint named obj become those of the objective *)
  (exists q, goal (one (bounded 0 1) (row [(0%nat, 3)] Less (-1)) "obj" (mkExpr [(0%nat, 2)] 0))%Q = Some ([(0%nat, q)], 0%Q) /\ (q == 3)%Q).
Proof.
  repeat split; try (vm_compute; reflexivity).
  - eexists. split; [vm_compute; reflexivity|reflexivity].
  - eexists. split; [vm_compute; reflexivity|reflexivity].
Qed.
Print Assumptions C54_unwritable_refuted.

(** ** Example: maximization, a fixed variable, names with blanks *)
Definition sample_model : written :=
  mkWr "my model" false [("x [0]", bounded 0 1); ("x [1]", bounded (-3) 7); ("z", match v_step (bounded 0 9) (VFixBy 4) with Some v => v | None => v_init end)]
    [("limit 1", row [(0%nat, 5 # 2); (1%nat, 1)] Less (-4)); ("limit 2", row [(2%nat, 1); (1%nat, - 1)] Greater 0); ("eq", row [(0%nat, 123456); (2%nat, 1)] Equal (-12))]%Q
    (mkExpr [(1%nat, 1 # 8); (0%nat, (-3))] 0)%Q.
Example C54_example : writable sample_model /\ plain sample_model =
  ["NAME mymodel"; "ROWS"; " N    obj"; " L    limit1"; " G    limit2"; " E    eq"; "COLUMNS"; "    MARK0000    'MARKER'    'INTORG'";
   "    x[0]     obj    3"; "    x[0]    limit1    2.5"; "    x[0]    eq    123456"; "    x[1]     obj    -0.125"; "    x[1]    limit1    1"; "    x[1]    limit2    -1"; "    z    limit2    1"; "    z    eq    1";
   "    MARK0001    'MARKER'    'INTEND'"; "RHS"; "    rhs    limit1    4"; "    rhs    limit2    0"; "    rhs    eq    12"; "BOUNDS"; "    UP    bnd    x[0]    1"; "    LO    bnd    x[1]    -3"; "    UP    bnd    x[1]    7"; "    FX    bnd    z     4"; "ENDATA"].
Proof.
  split; [|vm_compute; reflexivity].
  assert (Six : forall q k e, (q == inject_Z k * Qpower 10 e)%Q -> Z.abs k < 1000000 -> six_digits q) by (intros q k e H1 H2; now exists k, e).
  assert (Ex : forall n e, NoDup (map fst (ex_sens e)) -> (forall i a, In (i, a) (ex_sens e) -> (i < n)%nat /\ six_digits a /\ zero_or_big a) -> six_digits (ex_const e) -> writable_expr n e) by (intros n e H1 H2 H3; split; [exact H1|split; assumption]).
  assert (E1 : writable_expr 3 (mkExpr [(0%nat, 5 # 2); (1%nat, 1)] (-4))%Q).
  { apply Ex; [repeat (apply NoDup_cons; [cbn; lia|]); apply NoDup_nil| |now apply (Six _ (-4) 0)]. cbn. intros i a [H|[H|[]]]; injection H as <- <-; (split; [lia|]); (split; [|right; reflexivity]); [now apply (Six _ 25 (-1))|now apply (Six _ 1 0)]. }
  assert (E2 : writable_expr 3 (mkExpr [(2%nat, 1); (1%nat, - 1)] 0)%Q).
  { apply Ex; [repeat (apply NoDup_cons; [cbn; lia|]); apply NoDup_nil| |now apply (Six _ 0 0)]. cbn. intros i a [H|[H|[]]]; injection H as <- <-; (split; [lia|]); (split; [|right; reflexivity]); [now apply (Six _ 1 0)|now apply (Six _ (-1) 0)]. }
  assert (E3 : writable_expr 3 (mkExpr [(0%nat, 123456); (2%nat, 1)] (-12))%Q).
  { apply Ex; [repeat (apply NoDup_cons; [cbn; lia|]); apply NoDup_nil| |now apply (Six _ (-12) 0)]. cbn. intros i a [H|[H|[]]]; injection H as <- <-; (split; [lia|]); (split; [|right; reflexivity]); [now apply (Six _ 123456 0)|now apply (Six _ 1 0)]. }
  assert (E4 : writable_expr 3 (mkExpr [(1%nat, 1 # 8); (0%nat, (-3))] 0)%Q).
  { apply Ex; [repeat (apply NoDup_cons; [cbn; lia|]); apply NoDup_nil| |now apply (Six _ 0 0)]. cbn. intros i a [H|[H|[]]]; injection H as <- <-; (split; [lia|]); (split; [|right; reflexivity]); [now apply (Six _ 125 (-3))|now apply (Six _ (-3) 0)]. }
  split; [right; reflexivity|]. split.
  { intros n v H. cbn in H. repeat (destruct H as [H|H]; [injection H as <- <-; split; [reflexivity|]; split; [discriminate|]; cbn; unfold INT_MIN, INT_MAX, INT_HALF_MIN, INT_HALF_MAX; lia|]). destruct H. }
  split; [repeat (apply NoDup_cons; [cbn; intuition discriminate|]); apply NoDup_nil|]. split.
  { intros n c H. cbn [wr_cons sample_model In] in H. destruct H as [H|[H|[H|[]]]]; injection H as <- <-; (split; [reflexivity|]); assumption. }
  split; [repeat (apply NoDup_cons; [cbn; intuition discriminate|]); apply NoDup_nil|]. split; [exact E4|]. split; [reflexivity|].
  intros i Hi. cbn in Hi. destruct i as [|[|[|i]]]; [left; reflexivity|left; reflexivity| |lia]. right. exists "eq". do 2 eexists. split; [cbn; right; right; left; reflexivity|]. cbn. right. left. reflexivity.
Qed.
