(** Proofs for C93, continued: what the file means. *)
From Coq Require Import List ZArith QArith Qabs Bool String Ascii Lia Lqa Permutation.
From Verif Require Import ExprModel ConstraintModel ConstraintSpec VariableModel PresolveModel TextModel MpsModel JsonModel JsonSpec ReportSpec InstanceModel InstanceSpec InstanceProof.
Import ListNotations.
Local Open Scope Z_scope.
Local Opaque decimal.

Lemma total_unique y l q : total y l q -> forall q', total y l q' -> q' = q.
Proof. induction 1 as [|m n a l q A B T IH]; intros q' T'; inversion T'; subst; [reflexivity|]. assert (n0 = n) by congruence. assert (a0 = a) by congruence. subst. now rewrite (IH q0). Qed.
Lemma seven_kept q r : seven_digits q -> rounded q r -> (r == q)%Q.
Proof. intros (_ & k & e & E & L) [_ H]. exact (H k e E L). Qed.
Lemma seven_opp q : seven_digits q -> seven_digits (- q).
Proof. intros (S & k & e & E & L). split; [exact (opp_sound _ S)|]. exists (- k), e. split; [rewrite E, inject_Z_opp; ring|lia]. Qed.
Lemma weighted_perm s s' x : Permutation s s' -> (weighted s x == weighted s' x)%Q.
Proof. induction 1 as [|[i a] s s' _ IH|[i a] [j b] s|s s' s'' _ IH _ IH']; cbn [weighted]; [reflexivity|now rewrite IH|ring|now rewrite IH]. Qed.

Section Meaning.
Variables (w : written) (x : nat -> Z) (y : string -> Z).
Hypothesis (Wr : writable seven_digits w) (Na : named w x y).
Lemma terms_total s ts : writable_terms seven_digits (List.length (wr_vars w)) s -> listed_terms w s ts -> exists q, total y ts q /\ (q == weighted s x)%Q.
Proof.
  intros H (s' & P & F). assert (G : forall i a, In (i, a) s' -> seven_digits a).
  { intros i a J. exact (proj2 (H i a (Permutation_in _ P J))). }
  assert (X : exists q, total y ts q /\ (q == weighted s' x)%Q).
  { clear P. induction F as [|[i a] j s' ts K F IH]; [exists 0%Q; split; [constructor|reflexivity]|].
    destruct IH as (q & T & E); [intros i' a' J; apply (G i' a'); now right|]. destruct K as (n & v & r & N & R & ->). cbn [fst snd] in *. eexists. split.
    - refine (total_term y _ n r ts q _ _ T); reflexivity.
    - cbn [weighted]. rewrite E, (seven_kept a r (G i a (or_introl eq_refl)) R), (Na i n v N). reflexivity. }
  destruct X as (q & T & E). exists q. split; [exact T|]. rewrite E. exact (weighted_perm _ _ x P).
Qed.
Lemma var_holds i n v j : nth_error (wr_vars w) i = Some (n, v) -> kept_var (n, v) j -> (variable_holds y j <-> if va_fixed v then x i = va_value v else va_lower v <= x i <= va_upper v).
Proof.
  intros N (kind & _ & _ & ->). cbn [fst snd]. rewrite (Na i n v N). split.
  - intros (m & n' & fixed & value & lower & upper & E & A & B & C & D & F & H). injection E as <-. cbn in A, B, C, D, F. injection A as <-. injection B as <-. injection C as <-. injection D as <-. injection F as <-. exact H.
  - intros H. exists [("name", JStr n); ("value", JInt KInt (va_value v)); ("is_fixed", JBool (va_fixed v)); ("lower_bound", JInt KInt (va_lower v)); ("upper_bound", JInt KInt (va_upper v)); ("sense", JStr kind)]%string.
    exists n, (va_fixed v), (va_value v), (va_lower v), (va_upper v). repeat (split; [reflexivity|]). exact H.
Qed.
Lemma holds_shift v q s c : (v == c + q)%Q -> (holds v s 0 <-> holds q s (- c))%Q.
Proof. intros E. destruct s; cbn; rewrite E; split; intros H; lra. Qed.
Lemma holds_eq q q' s r r' : (q == q')%Q -> (r == r')%Q -> holds q s r -> holds q' s r'.
Proof. intros E E'. destruct s; cbn; rewrite E, E'; trivial. Qed.
Lemma sign_unique s s' t : sign s t -> sign s' t -> s = s'.
Proof. intros A B. destruct A; inversion B; reflexivity. Qed.
Lemma con_holds n c j : writable_con seven_digits (List.length (wr_vars w)) (n, c) -> kept_con w (listed_terms w) (n, c) j -> (constraint_holds y j <-> (ct_enabled c = true -> holds (value_at (ct_expr c) x) (ct_sense c) 0)).
Proof.
  intros (_ & K & T) (rhs & s & ts & R & S & L & ->). cbn [fst snd] in *. destruct (terms_total _ _ T L) as (q & Q & E). pose proof (seven_kept _ _ (seven_opp _ K) R) as Er.
  assert (V : (value_at (ct_expr c) x == ex_const (ct_expr c) + q)%Q) by (unfold value_at; now rewrite E). split.
  - intros (m & enabled & rhs' & text & s' & ts' & q' & J & A & B & C & D & F & G & H) En. injection J as <-. cbn in A, B, C, F. injection A as <-. injection B as <-. injection C as <-. injection F as <-.
    rewrite (total_unique _ _ _ Q _ G) in H. rewrite (sign_unique _ _ _ D S) in H. apply (holds_shift _ _ _ _ V). exact (holds_eq _ _ _ _ _ (Qeq_refl _) Er (H En)).
  - intros H. exists [("name", JStr n); ("is_enabled", JBool (ct_enabled c)); ("rhs", JReal rhs); ("sense", JStr s); ("sensitivities", JArr ts)]%string, (ct_enabled c), rhs, s, (ct_sense c), ts, q.
    repeat (split; [first [reflexivity|exact S|exact Q]|]). intros En. apply (holds_eq q q _ (- ex_const (ct_expr c))%Q rhs (Qeq_refl _) (Qeq_sym _ _ Er)). apply (holds_shift _ _ _ _ V). exact (H En).
Qed.
Lemma forall2_left {A B} (P : A -> B -> Prop) l m i a : Forall2 P l m -> nth_error l i = Some a -> exists b, nth_error m i = Some b /\ P a b.
Proof. intros F. revert i. induction F as [|c d l m H F IH]; intros [|i] E; try discriminate; cbn in *; [injection E as <-; eauto|eauto]. Qed.
Lemma forall2_right {A B} (P : A -> B -> Prop) l m i b : Forall2 P l m -> nth_error m i = Some b -> exists a, nth_error l i = Some a /\ P a b.
Proof. intros F. revert i. induction F as [|c d l m H F IH]; intros [|i] E; try discriminate; cbn in *; [injection E as <-; eauto|eauto]. Qed.
Lemma doc_means name mini vs cs ts (doc := [("name", name); ("is_minimization", mini); ("variables", JArr vs); ("objective", JObj [("sensitivities", JArr ts)]); ("constraints", JArr cs)]%string) :
  Forall2 kept_var (wr_vars w) vs -> Forall2 (kept_con w (listed_terms w)) (wr_cons w) cs -> listed_terms w (ex_sens (wr_objective w)) ts ->
  (file_admits doc y <-> model_admits w x) /\ exists q, file_objective doc y q /\ (value_at (wr_objective w) x == q + ex_const (wr_objective w))%Q.
Proof.
  intros V C O. destruct Wr as (_ & _ & Wc & Wo). rewrite Forall_forall in Wc. split; [split|].
  - intros (vs' & cs' & A & B & D & E). cbn in A, D. injection A as <-. injection D as <-. rewrite Forall_forall in B, E. split.
    + intros i n v N. destruct (forall2_left _ _ _ _ _ V N) as (j & J & K). exact (proj1 (var_holds i n v j N K) (B j (nth_error_In _ _ J))).
    + intros n c I. apply In_nth_error in I as (i & N). destruct (forall2_left _ _ _ _ _ C N) as (j & J & K). exact (proj1 (con_holds n c j (Wc _ (nth_error_In _ _ N)) K) (E j (nth_error_In _ _ J))).
  - intros [A B]. exists vs, cs. split; [reflexivity|]. split; [|split; [reflexivity|]]; apply Forall_forall; intros j I; apply In_nth_error in I as (i & J).
    + destruct (forall2_right _ _ _ _ _ V J) as ([n v] & N & K). exact (proj2 (var_holds i n v j N K) (A i n v N)).
    + destruct (forall2_right _ _ _ _ _ C J) as ([n c] & N & K). exact (proj2 (con_holds n c j (Wc _ (nth_error_In _ _ N)) K) (B n c (nth_error_In _ _ N))).
  - destruct (terms_total _ _ Wo O) as (q & T & E). exists q. split; [exists [("sensitivities"%string, JArr ts)], ts; split; [reflexivity|split; [reflexivity|exact T]]|]. unfold value_at. rewrite E. ring.
Qed.
End Meaning.

Lemma naming w : (forall y, exists x, named w x y) /\ (NoDup (map fst (wr_vars w)) -> forall x, exists y, named w x y).
Proof.
  split.
  - intros y. exists (fun i => match nth_error (wr_vars w) i with Some (n, _) => y n | None => 0 end). intros i n v E. now rewrite E.
  - intros D x. unfold named. generalize dependent x. induction (wr_vars w) as [|[n v] l IH]; intros x; [exists (fun _ => 0); intros [|i] ? ? E; discriminate|].
    inversion D as [|? ? D1 D2]; subst. destruct (IH D2 (fun i => x (S i))) as (y & Y). exists (fun s => if string_dec s n then x O else y s). intros [|i] m u E; cbn in E.
    + injection E as <- <-. destruct (string_dec n n); [reflexivity|contradiction].
    + destruct (string_dec m n) as [->|]; [exfalso; apply D1; apply in_map_iff; exists (n, u); split; [reflexivity|exact (nth_error_In _ _ E)]|]. exact (Y i m u E).
Qed.
Lemma instance_meaning iter w : (forall s, Permutation (iter s) s) -> writable seven_digits w ->
  exists file doc, write_instance iter w = Ok file /\ (exists steps, forall fuel, (steps <= fuel)%nat -> read_json_object fuel file = Some (Ok doc)) /\
  last_with "is_minimization" doc = Some (JBool (wr_minimize w)) /\
  (forall x y, named w x y -> (file_admits doc y <-> model_admits w x) /\ exists q, file_objective doc y q /\ (value_at (wr_objective w) x == q + ex_const (wr_objective w))%Q) /\
  (forall y, exists x, named w x y) /\ (NoDup (map fst (wr_vars w)) -> forall x, exists y, named w x y).
Proof.
  intros It Wr. destruct (instance_file iter w seven_digits It (fun q H => proj1 H) Wr) as (file & vs & cs & ts & W & V & C & O & T).
  eexists file, _. split; [exact W|]. split; [exact T|]. split; [reflexivity|]. split; [|exact (naming w)]. intros x y N. exact (doc_means w x y Wr N _ _ vs cs ts V C O).
Qed.
