(** Cases for C82. *)
From Coq Require Import List ZArith QArith Qabs Bool Lia Lqa Permutation.
From Verif Require Import ExprModel ExprSpec ConstraintModel ConstraintSpec VariableModel TypeModel EvalModel PresolveModel
  DuplicateModel SelectionModel SelectionSpec CorrectSpec.
Import ListNotations.
Local Open Scope nat_scope.

Definition c_var (z : Z) : var := mkVar z 0 1 true false VSelection (0 <? z)%Z (z <? 1)%Z.
Definition c_vars (ones : list nat) : vars := fun v => c_var (if existsb (Nat.eqb v) ones then 1 else 0).
Definition c_row (l : list (nat * Q)) (k : Q) (s : csense) : constr := c_setup (mkExpr l k) s (fun _ => true).
Definition c_sel (l : list nat) : sel := mkSel l 0 [] None.
Lemma c_ready ones l m : NoDup (l ++ m) -> selections_ready (c_vars ones) [c_sel l; c_sel m].
Proof.
  intros N. assert (X : forall v, In v l -> ~ In v m).
  { clear -N. induction l as [|a l IH]; [intros v []|]; intros v [<-|V]; inversion N as [|? ? A B]; subst; [intros Y; apply A, in_or_app; now right|now apply IH]. }
  assert (Nl : NoDup l) by (clear -N; induction l as [|a l IH]; [constructor|]; inversion N as [|? ? A B]; subst; constructor; [intros Y; apply A, in_or_app; now left|auto]).
  assert (Nm : NoDup m) by (clear -N; induction l as [|a l IH]; [exact N|]; inversion N; auto).
  split.
  - intros i j s t D E1 E2 v V1 V2.
    destruct i as [|[|i]], j as [|[|j]]; cbn in E1, E2; try (exfalso; apply D; reflexivity); try (destruct i; discriminate E1); try (destruct j; discriminate E2);
      injection E1 as <-; injection E2 as <-; cbn [sl_vars c_sel] in *; [exact (X v V1 V2)|exact (X v V2 V1)].
  - intros s [<-|[<-|[]]]; cbn [sl_vars c_sel]; split; auto; reflexivity.
Qed.
Lemma c_not_kept ones l : (forall v, In v l -> exists w, In w l /\ w <> v /\ va_value (c_vars ones w) = 1%Z) \/ (forall v, In v l -> va_value (c_vars ones v) = 0%Z) ->
  ~ kept (c_vars ones) (c_sel l).
Proof.
  intros [H|H] (v & A & B & C & D); cbn [sl_vars c_sel] in *.
  - destruct (H v A) as (w & W1 & W2 & W3). apply W2, D; auto.
  - rewrite (H v A) in B. discriminate B.
Qed.
Lemma c_kept ones l v : In v l -> va_value (c_vars ones v) = 1%Z -> (forall w, In w l -> va_value (c_vars ones w) = 1%Z -> w = v) -> kept (c_vars ones) (c_sel l).
Proof. intros A B C. exists v. repeat split; auto. Qed.

(** Two selections {0,1} and {2,3,4}; rows x1 + x3 <= 1, 3 x0 + x2 <= 2, x0 + x1 + x2 + x4 = 1, 2 x0 - x2 >= 0. *)
Definition c_rows : list constr :=
  [c_row [(1, 1%Q); (3, 1%Q)] (-(1)) Less; c_row [(0, 3%Q); (2, 1%Q)] (-(2)) Less;
   c_row [(0, 1%Q); (1, 1%Q); (2, 1%Q); (4, 1%Q)] (-(1)) Equal; c_row [(0, 2%Q); (2, (-(1))%Q)] 0 Greater].
Definition c_sels : list sel := [c_sel [0; 1]; c_sel [2; 3; 4]].
Lemma c_shown : exists vs' sels', verify true 5 c_rows (constraint_sensitivities c_rows) (c_vars [0; 1]) c_sels = Some (vs', sels') /\
  map (fun v => va_value (vs' v)) [0; 1; 2; 3; 4] = [0; 1; 0; 1; 0]%Z.
Proof.
  destruct (verify true 5 c_rows (constraint_sensitivities c_rows) (c_vars [0; 1]) c_sels) as [[vs' sels']|] eqn:E; [|vm_compute in E; discriminate E].
  exists vs', sels'. split; [reflexivity|]. vm_compute in E. injection E as <- <-. vm_compute. reflexivity.
Qed.

(** A selection left as it is does not count: {0,1} with x0 = 1, {2,3} without a 1, and x0 + x2 <= 1. *)
Definition k_rows : list constr := [c_row [(0, 1%Q); (2, 1%Q)] (-(1)) Less].
Definition k_sels : list sel := [c_sel [0; 1]; c_sel [2; 3]].
Definition point (l : list nat) : nat -> Z := fun v => if existsb (Nat.eqb v) l then 1%Z else 0%Z.
Lemma point_one l v : In v l -> point l v = 1%Z.
Proof. intros I. unfold point. assert (E : existsb (Nat.eqb v) l = true) by (apply existsb_exists; exists v; split; [exact I|apply Nat.eqb_refl]). now rewrite E. Qed.
Lemma point_zero l v : ~ In v l -> point l v = 0%Z.
Proof.
  intros N. unfold point. destruct (existsb (Nat.eqb v) l) eqn:E; [|reflexivity]. exfalso. apply existsb_exists in E as (w & W & E). apply Nat.eqb_eq in E. subst w. contradiction.
Qed.
Definition any_of (l : list sel) (t : sel) : Prop := In t l.

Definition judges (counted : sel -> Prop) (cs : list constr) (vs' : vars) (v : nat) (h : Q) : Prop := exists y, judged counted vs' v y /\ harm cs v y h.

Lemma kept_ignored : exists vs' sels', verify true 4 k_rows (constraint_sensitivities k_rows) (c_vars [0]) k_sels = Some (vs', sels') /\
  chosen vs' [2; 3] 2 /\ candidate (c_vars [0]) (c_sel [2; 3]) 3 /\
  judges (any_of [c_sel [0; 1]]) k_rows vs' 2 1 /\ judges (any_of [c_sel [0; 1]]) k_rows vs' 3 0.
Proof.
  destruct (verify true 4 k_rows (constraint_sensitivities k_rows) (c_vars [0]) k_sels) as [[vs' sels']|] eqn:E; [|vm_compute in E; discriminate E].
  exists vs', sels'. split; [reflexivity|].
  assert (V : map (fun v => va_value (vs' v)) [0; 1; 2; 3] = [1; 0; 1; 0]%Z) by (vm_compute in E; injection E as <- <-; vm_compute; reflexivity).
  cbn [map] in V. injection V as V0 V1 V2 V3.
  assert (O : forall w u, (w = u \/ exists t, any_of [c_sel [0; 1]] t /\ In w (sl_vars t) /\ va_value (vs' w) = 1%Z) <-> In w [u; 0]).
  { intros w u. split.
    - intros [->|(t & [<-|[]] & I & X)]; [now left|]. cbn [sl_vars c_sel] in I. destruct I as [<-|[<-|[]]]; [right; now left|]. rewrite V1 in X. discriminate X.
    - intros [<-|[<-|[]]]; [now left|right]. exists (c_sel [0; 1]). split; [now left|]. split; [now left|exact V0]. }
  split; [split; [now left|]; split; [exact V2|]; intros w [<-|[<-|[]]] D; [exfalso; now apply D|exact V3]|].
  split; [split; [right; now left|]; split; [reflexivity|]; right; intros w [<-|[<-|[]]]; vm_compute; discriminate|].
  split.
  - exists (point [2; 0]). split; [intros w; rewrite O; split; [apply point_one|apply point_zero]|].
    exists [1%Q]. split; [|reflexivity]. constructor; [|constructor]. left. split; [right; now left|]. apply dist_less; vm_compute; reflexivity.
  - exists (point [3; 0]). split; [intros w; rewrite O; split; [apply point_one|apply point_zero]|].
    exists [0%Q]. split; [|reflexivity]. constructor; [|constructor]. right. split; [|reflexivity]. intros [X|[X|[]]]; discriminate X.
Qed.

(** Fractions are cut off: x0 / 2 <= 0 twice, and x1 is free of rows. *)
Definition f_rows : list constr := [c_row [(0, (1 # 2)%Q)] 0 Less; c_row [(0, (1 # 2)%Q)] 0 Less].
Lemma fractions_ignored : exists vs' sels', verify true 4 f_rows (constraint_sensitivities f_rows) (c_vars []) [c_sel [0; 1]; c_sel [2; 3]] = Some (vs', sels') /\
  chosen vs' [0; 1] 0 /\ candidate (c_vars []) (c_sel [0; 1]) 1 /\ judges (any_of []) f_rows vs' 0 1 /\ judges (any_of []) f_rows vs' 1 0.
Proof.
  destruct (verify true 4 f_rows (constraint_sensitivities f_rows) (c_vars []) [c_sel [0; 1]; c_sel [2; 3]]) as [[vs' sels']|] eqn:E; [|vm_compute in E; discriminate E].
  exists vs', sels'. split; [reflexivity|].
  assert (V : map (fun v => va_value (vs' v)) [0; 1] = [1; 0]%Z) by (vm_compute in E; injection E as <- <-; vm_compute; reflexivity).
  cbn [map] in V. injection V as V0 V1.
  assert (O : forall w u, (w = u \/ exists t, any_of [] t /\ In w (sl_vars t) /\ va_value (vs' w) = 1%Z) <-> In w [u]).
  { intros w u. split; [intros [->|(t & [] & _)]; now left|intros [<-|[]]; now left]. }
  split; [split; [now left|]; split; [exact V0|]; intros w [<-|[<-|[]]] D; [exfalso; now apply D|exact V1]|].
  split; [split; [right; now left|]; split; [reflexivity|]; right; intros w [<-|[<-|[]]]; vm_compute; discriminate|].
  split.
  - exists (point [0]). split; [intros w; rewrite O; split; [apply point_one|apply point_zero]|].
    exists [(1 # 2)%Q; (1 # 2)%Q]. split; [|reflexivity]. constructor; [|constructor; [|constructor]]; (left; split; [now left|]; apply dist_less; vm_compute; reflexivity).
  - exists (point [1]). split; [intros w; rewrite O; split; [apply point_one|apply point_zero]|].
    exists [0%Q; 0%Q]. split; [|reflexivity]. constructor; [|constructor; [|constructor]]; (right; split; [|reflexivity]; intros [X|[]]; discriminate X).
Qed.
